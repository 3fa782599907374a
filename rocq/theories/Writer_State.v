(** The writer invariant and its preservation by every successful operation. *)
From Coq Require Import List Arith Bool String Permutation Sorted Lia.
From Verif Require Import PyList PyDict Order Num Names_Model Writer_Model Writer_Spec Writer_Frame Writer_Layout Writer_Meta Writer_Inv.
Import ListNotations.
Local Open Scope string_scope.
Local Open Scope list_scope.

Section State.
  Context {V : Type} {NV : Num V} {NL : NumLaws V}.

  Lemma upd2_spec {B} (f : string -> string -> B) c p b c' p' :
    (c' = c /\ p' = p /\ upd2 f c p b c' p' = b) \/ (~ (c' = c /\ p' = p) /\ upd2 f c p b c' p' = f c' p').
  Proof.
    unfold upd2. destruct (String.eqb_spec c c'); subst.
    - destruct (String.eqb_spec p p'); subst; [left|right]; auto. split; auto. intros [_ E]. congruence.
    - right. split; auto. intros [E _]. congruence.
  Qed.
  Lemma upd2_same {B} (f : string -> string -> B) c p b : upd2 f c p b c p = b.
  Proof. unfold upd2. rewrite !String.eqb_refl. auto. Qed.
  Lemma upd2_other {B} (f : string -> string -> B) c p b c' p' :
    ~ (c' = c /\ p' = p) -> upd2 f c p b c' p' = f c' p'.
  Proof. intros H. destruct (upd2_spec f c p b c' p') as [(-> & -> & _)|[_ ?]]; auto. exfalso. auto. Qed.
  Lemma upd1_spec {B} (f : string -> B) c b c' :
    (c' = c /\ upd1 f c b c' = b) \/ (c' <> c /\ upd1 f c b c' = f c').
  Proof. unfold upd1. destruct (String.eqb_spec c c'); subst; auto. Qed.

  Definition LogkOk (cfg : config) (nm : normarr V) (avg half : dict (lentry V)) (sym : bool) : Prop :=
    NoDup (dkeys avg) /\ NoDup (dkeys half) /\
    (forall s e, dget s avg = Some e -> wf_lentry cfg nm e) /\
    (forall s e, dget s half = Some e -> wf_lentry cfg nm e /\ In s (dkeys avg) /\ sym = false).

  Record Inv (cfg : config) (st : state V) : Prop := mkInv {
    inv_norm : forall c p nm, st_norm st c p = Some nm ->
      wf_norm cfg nm /\
      (exists i, dget c (st_channels st) = Some i /\ nsize nm = isize i) /\
      (In p (st_signals st) \/ In p (st_bkgs st)) /\
      (exists w, st_sumw2 st c p = Some w /\ List.length w = nsize nm);
    inv_none : forall c p, st_norm st c p = None -> st_logkavg st c p = [] /\ st_logkhalf st c p = [];
    inv_logk : forall c p nm, st_norm st c p = Some nm ->
      LogkOk cfg nm (st_logkavg st c p) (st_logkhalf st c p) (st_symmetric st) }.

  Definition KI (X : string -> Prop) (st : state V) : Prop :=
    forall c p s, In s (dkeys (st_logkavg st c p)) -> X s \/ In s (st_standard st) \/ In s (st_noconstraint st).

  Lemma Inv_init cfg : Inv cfg (init_state (V := V)).
  Proof. split; simpl; try discriminate. auto. Qed.

  (** *** booking *)
  Lemma LogkOk_avg cfg nm avg half sym s f : wf_norm cfg nm -> LogkOk cfg nm avg half sym ->
    LogkOk cfg nm (dset s (mk_lentry cfg nm (map f (nidx nm))) avg) half sym.
  Proof.
    intros W (N1 & N2 & A & H). split; [|split; [|split]]; auto.
    - apply dkeys_dset_NoDup. auto.
    - intros s' e. rewrite dget_dset. destruct (String.eqb s s'); auto; [|apply A].
      intros E. injection E as <-. apply mk_lentry_wf. auto.
    - intros s' e E. destruct (H _ _ E) as (H1 & H2 & H3). repeat split; auto. apply dkeys_dset. auto.
  Qed.
  Lemma LogkOk_half cfg nm avg half sym s f g : wf_norm cfg nm -> LogkOk cfg nm avg half sym ->
    LogkOk cfg nm (dset s (mk_lentry cfg nm (map f (nidx nm))) avg)
      (dset s (mk_lentry cfg nm (map g (nidx nm))) half) false.
  Proof.
    intros W (N1 & N2 & A & H). split; [|split; [|split]].
    - apply dkeys_dset_NoDup. auto.
    - apply dkeys_dset_NoDup. auto.
    - intros s' e. rewrite dget_dset. destruct (String.eqb s s'); auto; [|apply A].
      intros E. injection E as <-. apply mk_lentry_wf. auto.
    - intros s' e. rewrite dget_dset. destruct (String.eqb_spec s s').
      + intros E. injection E as <-. subst. repeat split; auto. { apply mk_lentry_wf. auto. }
        apply dkeys_dset. auto.
      + intros E. destruct (H _ _ E) as (H1 & H2 & H3). repeat split; auto. apply dkeys_dset. auto.
  Qed.
  Lemma LogkOk_asym cfg nm avg half sym : LogkOk cfg nm avg half sym -> LogkOk cfg nm avg half false.
  Proof.
    intros (N1 & N2 & A & H). split; [|split; [|split]]; auto.
    intros s e E. destruct (H s e E) as (H1 & H2 & _). auto.
  Qed.

  Lemma Inv_book_avg cfg st nm ch p s f : Inv cfg st -> st_norm st ch p = Some nm ->
    Inv cfg (book_avg cfg st nm (map f (nidx nm)) ch p s).
  Proof.
    intros I N. destruct I as [I1 I2 I3]. split.
    - exact I1.
    - intros c' p' E. simpl in *. rewrite upd2_other; auto. intros [-> ->]. congruence.
    - intros c' p' nm' E. simpl in *.
      destruct (upd2_spec (st_logkavg st) ch p (dset s (mk_lentry cfg nm (map f (nidx nm))) (st_logkavg st ch p)) c' p')
        as [(-> & -> & ->)|[_ ->]]; auto.
      assert (nm' = nm) by congruence. subst. apply LogkOk_avg; auto. apply (I1 _ _ _ N).
  Qed.
  Lemma Inv_book_both cfg st nm ch p s f g : Inv cfg st -> st_norm st ch p = Some nm ->
    Inv cfg (book_avg cfg (book_half cfg (set_logk st (st_logkavg st) (st_logkhalf st) false)
               nm (map g (nidx nm)) ch p s) nm (map f (nidx nm)) ch p s).
  Proof.
    intros I N. destruct I as [I1 I2 I3]. split.
    - exact I1.
    - intros c' p' E. simpl in *. rewrite !upd2_other; auto; intros [-> ->]; congruence.
    - intros c' p' nm' E. simpl in *.
      destruct (upd2_spec (st_logkavg st) ch p (dset s (mk_lentry cfg nm (map f (nidx nm))) (st_logkavg st ch p)) c' p')
        as [(-> & -> & ->)|[Q ->]].
      + rewrite upd2_same. assert (nm' = nm) by congruence. subst.
        eapply LogkOk_half; [apply (I1 _ _ _ N)|eauto].
      + rewrite upd2_other by auto. eapply LogkOk_asym; eauto.
  Qed.
  Lemma Inv_book_systematic cfg st s kw : Inv cfg st -> Inv cfg (book_systematic st s kw).
  Proof. intros [I1 I2 I3]. split; auto. Qed.

  Lemma KI_book_avg X cfg st nm v ch p s : KI X st -> KI (fun x => x = s \/ X x) (book_avg cfg st nm v ch p s).
  Proof.
    intros K c' p' x. simpl. unfold upd2.
    destruct (String.eqb ch c'); [destruct (String.eqb p p')|]; intros H.
    - apply dkeys_dset in H. destruct H as [->|H]; auto. apply K in H. tauto.
    - apply K in H. tauto.
    - apply K in H. tauto.
  Qed.
  Lemma KI_book_systematic X st s kw : KI (fun x => x = s \/ X x) st -> KI X (book_systematic st s kw).
  Proof.
    intros K c' p' x H. simpl in H. apply K in H. simpl. destruct (kw_constrained kw);
      rewrite !set_add_In; intuition.
  Qed.
  Lemma KI_weaken (X Y : string -> Prop) st : (forall s, X s -> Y s) -> KI X st -> KI Y st.
  Proof. intros H K c p s Hs. apply K in Hs. intuition. Qed.

  (** inversion of the loop of add_norm_systematic: every listed process is booked with the
      effect of its uncertainty value *)
  Definition unc_eff (t : systype) (m : symmode) (nm : normarr V) (u : uncval V) (i : nat) : V :=
    let k x := logk1 t n1 (nmul (nden nm i) x) (nden nm i) in
    match u with
    | UScalar x => k x
    | UPair x y => asym_avg m (k x) (nopp (k y))
    | UBad => n0
    end.
  Inductive booked_loop (cfg : config) (name ch : string) (m : symmode) :
    state V -> list (string * uncval V) -> state V -> Prop :=
  | BL_nil st : booked_loop cfg name ch m st [] st
  | BL_cons st p u rest nm st' :
      st_norm st ch p = Some nm -> u <> UBad ->
      (match u with UPair _ _ => m = Conservative \/ m = Average | _ => True end) ->
      booked_loop cfg name ch m
        (book_avg cfg st nm (map (unc_eff (c_type cfg) m nm u) (nidx nm)) ch p name) rest st' ->
      booked_loop cfg name ch m st ((p, u) :: rest) st'.

  Lemma norm_loop_graph cfg name ch m kw pus : forall st st' vn,
    (forall p nm, st_norm st ch p = Some nm -> wf_norm cfg nm) ->
    norm_loop cfg st name ch m kw pus name = (st', Ok vn) -> booked_loop cfg name ch m st pus st'.
  Proof.
    induction pus as [|[p u] pus IH]; intros st st' vn I; simpl.
    { intros H. injection H as <-. constructor. }
    destruct (st_norm st ch p) as [nm|] eqn:N; [|congruence].
    rewrite (norm_vals_graph cfg nm (I _ _ N)). destruct u as [x|x y|]; [| |congruence].
    - rewrite map_map. destruct (get_logk _ _ _ _) as [k|] eqn:E; [|congruence].
      apply get_logk_graph in E. destruct E as [-> _]. intros H.
      econstructor; eauto; congruence.
    - rewrite !map_map.
      destruct (get_logk _ _ (map (fun x0 => nmul (nden nm x0) x) (nidx nm)) _) as [ku|] eqn:E1; simpl; [|congruence].
      destruct (get_logk _ _ (map (fun x0 => nmul (nden nm x0) y) (nidx nm)) _) as [kd|] eqn:E2; simpl; [|congruence].
      apply get_logk_graph in E1, E2. destruct E1 as [-> _], E2 as [-> _]. rewrite map_map, map2_map.
      destruct m; try congruence; intros H; econstructor; eauto; try congruence.
  Qed.

  Lemma booked_loop_Inv cfg name ch m st pus st' : booked_loop cfg name ch m st pus st' ->
    Inv cfg st -> Inv cfg st'.
  Proof. induction 1; auto. intros I. apply IHbooked_loop. apply Inv_book_avg; auto. Qed.
  Lemma booked_loop_KI X cfg name ch m st pus st' : booked_loop cfg name ch m st pus st' ->
    KI X st -> KI (fun x => x = name \/ X x) st'.
  Proof.
    intros H. revert X. induction H; intros X K.
    - eapply KI_weaken; [|exact K]. auto.
    - eapply KI_weaken; [|apply IHbooked_loop, KI_book_avg, K]. simpl. intuition.
  Qed.

  Lemma step_Inv cfg st o st' d : step cfg st o = (st', None) -> wf_op o ->
    ChanInv st d -> flags_stable d ->
    ChanInv st' (d ++ chan_decls (dkeys (st_channels st)) [o]) ->
    flags_stable (d ++ chan_decls (dkeys (st_channels st)) [o]) ->
    Inv cfg st -> KI (fun _ => False) st -> Inv cfg st' /\ KI (fun _ => False) st'.
  Proof.
    intros H W C S C' S' I K. pose proof (step_base _ _ _ _ H) as B. pose proof (step_sysp _ _ _ _ H) as SP.
    destruct o.
    - (* AddChannel *)
      pose proof (add_channel_inv _ _ _ _ _ _ _ H) as (_ & HC & HN & Hn & H2 & Ha & Hh & Hs & Hsg & Hb & _).
      set (nm := chan_name (List.length (dkeys (st_channels st))) name) in *.
      assert (G : forall c, c <> nm -> dget c (st_channels st') = dget c (st_channels st)).
      { intros c Hc. rewrite (proj1 C'), layout_dget by exact S'.
        assert (dget c (st_channels st) = dget c (dict_of d)) as -> by (rewrite (proj1 C); apply layout_dget; auto).
        cbn [chan_decls].
        change (match name with Some x => x | None => _ end) with nm.
        rewrite dget_dict_of_snoc. apply not_eq_sym, String.eqb_neq in Hc. rewrite Hc. auto. }
      split.
      + destruct I as [I1 I2 I3]. split.
        * intros c p nm' E. rewrite Hn in E. rewrite H2, Hsg, Hb.
          destruct (upd1_spec (st_norm st) nm (fun _ => None) c) as [[-> Ex]|[Hc Ex]]; rewrite Ex in E; [discriminate|].
          destruct (upd1_spec (st_sumw2 st) nm (fun _ => None) c) as [[-> Ey]|[_ Ey]]; [congruence|]. rewrite Ey.
          rewrite (G c Hc). apply I1. auto.
        * intros c p E. rewrite Hn in E. rewrite Ha, Hh.
          unfold upd1 in *. destruct (String.eqb nm c); auto.
        * intros c p nm' E. rewrite Hn in E. rewrite Ha, Hh, Hs.
          unfold upd1 in *. destruct (String.eqb nm c); [discriminate|]. apply I3. auto.
      + intros c p s Hin. rewrite Ha in Hin. unfold upd1 in Hin. destruct (String.eqb nm c); [destruct Hin|].
        simpl in SP. unfold sysp in SP. injection SP as E1 E2 E3 E4. rewrite E2, E4. eauto.
    - (* AddProcess *)
      simpl in H. apply add_process_inv in H.
      destruct H as (Hck & Hno & nm & w & En & Ew & Hn & H2 & Ha & Hh & Hsg & Hb & HC & HN & Hs & HSp & _).
      simpl in W. destruct W as [Wh Wv].
      split.
      + destruct I as [I1 I2 I3]. split.
        * intros c p nm' E. rewrite Hn in E. rewrite H2, HC, Hsg, Hb.
          destruct (upd2_spec (st_norm st) ch name (Some nm) c p) as [(-> & -> & Ex)|[Q Ex]]; rewrite Ex in E.
          -- injection E as <-. rewrite upd2_same.
             unfold check_hist in Hck. destruct (dget ch (st_channels st)) as [info|] eqn:D; [|discriminate].
             fold (isize info) in Hck. destruct (Nat.eqb_spec (hsize h) (isize info)) as [Hz|]; [|discriminate].
             assert (Z : wf_norm cfg nm /\ nsize nm = hsize h).
             { unfold store_norm in En. destruct h as [v vr|e n].
               - destruct (forallb nfinite _); [|discriminate]. injection En as <-. simpl. split; auto.
                 destruct (c_allowneg cfg); auto. rewrite map_length. auto.
               - destruct (c_sparse cfg) eqn:Sp.
                 + destruct (negb _); [discriminate|]. simpl in Wh. destruct Wh as [S1 F1].
                   destruct (negb (c_allowneg cfg) && _).
                   * injection En as <-. simpl. split; auto. split; auto. split.
                     -- apply sorted_filter. rewrite map_map. simpl. auto.
                     -- rewrite Forall_forall in *. intros x Hx. apply filter_incl in Hx.
                        rewrite map_map in Hx. simpl in Hx. auto.
                   * injection En as <-. simpl. split; auto. split; auto. split; auto.
                 + destruct (forallb nfinite _); [|discriminate]. injection En as <-. simpl. split; auto.
                   destruct (c_allowneg cfg); unfold to_dense; rewrite ?map_length, seq_length; auto. }
             destruct Z as [Z1 Z2]. split; auto. split. { exists info. split; auto. congruence. }
             split. { destruct signal; rewrite set_add_In; auto. }
             exists w. split; auto. rewrite Z2. unfold store_sumw2 in Ew.
             destruct vars as [l|].
             { simpl in Ew. unfold flat_variances in Ew. destruct (existsb neg l); simpl in Ew; [discriminate|].
               destruct (forallb nfinite l); [|discriminate]. injection Ew as <-. simpl in Wv. auto. }
             destruct h as [v vr|e n]; simpl in Ew.
             ++ unfold flat_variances in Ew. destruct (existsb neg vr); simpl in Ew; [discriminate|].
                destruct (forallb nfinite vr); [|discriminate]. injection Ew as <-. simpl in *. auto.
             ++ destruct (forallb nfinite _); [|discriminate]. injection Ew as <-. unfold to_dense.
                rewrite map_length, seq_length. auto.
          -- rewrite upd2_other by auto. destruct (I1 _ _ _ E) as (A1 & A2 & A3 & A4). split; auto. split; auto.
             split; auto. destruct signal; rewrite set_add_In; tauto.
        * intros c p E. rewrite Hn in E. rewrite Ha, Hh.
          destruct (upd2_spec (st_norm st) ch name (Some nm) c p) as [(-> & -> & Ex)|[Q Ex]]; rewrite Ex in E; [discriminate|].
          rewrite !upd2_other by auto. auto.
        * intros c p nm' E. rewrite Hn in E. rewrite Ha, Hh, Hs.
          destruct (upd2_spec (st_norm st) ch name (Some nm) c p) as [(-> & -> & Ex)|[Q Ex]]; rewrite Ex in E.
          -- rewrite !upd2_same. split; [|split; [|split]]; try constructor; simpl; discriminate.
          -- rewrite !upd2_other by auto. auto.
      + intros c p s Hin. rewrite Ha in Hin. unfold sysp in HSp. injection HSp as E1 E2 E3 E4. rewrite E2, E4.
        destruct (upd2_spec (st_logkavg st) ch name [] c p) as [(-> & -> & Ex)|[Q Ex]]; rewrite Ex in Hin; [destruct Hin|].
        eauto.
    - destruct B as (B1 & B2 & B3 & B4 & B5 & B6 & B7 & B8 & B9). simpl in SP. unfold sysp in SP.
      injection SP as E1 E2 E3 E4. destruct I as [I1 I2 I3]. split; [split|].
      + rewrite B5, B1, B2, B3, B6. auto.
      + rewrite B5, B7, B8. auto.
      + rewrite B5, B7, B8, B9. auto.
      + unfold KI. rewrite B7, E2, E4. auto.
    - destruct B as (B1 & B2 & B3 & B4 & B5 & B6 & B7 & B8 & B9). simpl in SP. unfold sysp in SP.
      injection SP as E1 E2 E3 E4. destruct I as [I1 I2 I3]. split; [split|].
      + rewrite B5, B1, B2, B3, B6. auto.
      + rewrite B5, B7, B8. auto.
      + rewrite B5, B7, B8, B9. auto.
      + unfold KI. rewrite B7, E2, E4. auto.
    - simpl in H. apply add_systematic_graph in H; auto.
      2:{ intros nm E. destruct (inv_norm _ _ I _ _ _ E) as (A1 & A2 & _). auto. }
      destruct H as (nm & N & Wn & H). destruct h as [h1|hu hd].
      + destruct H as [-> _]. split. { apply Inv_book_systematic, Inv_book_avg; auto. }
        apply KI_book_systematic, KI_book_avg, K.
      + destruct m; cbn [compute_asym_syst fst snd] in H; rewrite !map2_map in H; subst st'.
        * split. { apply Inv_book_systematic, Inv_book_avg; auto. } apply KI_book_systematic, KI_book_avg, K.
        * split. { apply Inv_book_systematic, Inv_book_avg; auto. } apply KI_book_systematic, KI_book_avg, K.
        * split.
          -- apply Inv_book_systematic, Inv_book_avg; auto. apply Inv_book_systematic, Inv_book_avg; auto.
          -- apply KI_book_systematic, KI_book_avg, KI_book_systematic, KI_book_avg, K.
        * split.
          -- apply Inv_book_systematic, Inv_book_avg; auto. apply Inv_book_systematic, Inv_book_avg; auto.
          -- apply KI_book_systematic, KI_book_avg, KI_book_systematic, KI_book_avg, K.
        * split.
          -- apply Inv_book_systematic. apply Inv_book_both; auto.
          -- apply KI_book_systematic, KI_book_avg. exact K.
    - simpl in H. apply add_norm_inv in H. destruct H as (_ & st1 & L & ->).
      apply norm_loop_graph in L. 2:{ intros p nm E. apply (inv_norm _ _ I _ _ _ E). }
      split.
      + apply Inv_book_systematic. eapply booked_loop_Inv; eauto.
      + apply KI_book_systematic. eapply booked_loop_KI; eauto.
  Qed.

  Lemma run_Inv cfg ops : forall st st' d, run cfg st ops = Ok st' -> Forall wf_op ops ->
    ChanInv st d -> flags_stable (d ++ chan_decls (dkeys (st_channels st)) ops) ->
    Inv cfg st -> KI (fun _ => False) st -> Inv cfg st' /\ KI (fun _ => False) st'.
  Proof.
    induction ops as [|o ops IH]; intros st st' d H W C S I K.
    { simpl in H. injection H as <-. auto. }
    apply run_cons in H. destruct H as (s & H1 & H2). inversion W; subst.
    assert (S1 : flags_stable (d ++ chan_decls (dkeys (st_channels st)) [o])).
    { rewrite chan_decls_cons in S. intros a b c Ha Hb. apply (S a b c); rewrite app_assoc; apply in_or_app; auto. }
    assert (S0 : flags_stable d).
    { intros a b c Ha Hb. apply (S1 a b c); apply in_or_app; auto. }
    pose proof (step_chan _ _ _ _ _ H1 C S1) as C1.
    destruct (step_Inv _ _ _ _ _ H1 H3 C S0 C1 S1 I K) as [I1 K1].
    apply (IH s st' (d ++ chan_decls (dkeys (st_channels st)) [o])); auto.
    rewrite chan_decls_cons in S. rewrite <- app_assoc.
    match goal with |- flags_stable (_ ++ _ ++ chan_decls ?k ops) => 
      erewrite <- (chan_decls_perm ops _ k); [exact S|] end.
    apply NoDup_Permutation.
    - apply fold_set_add_NoDup. rewrite (proj1 C). apply layout_NoDup; auto.
    - rewrite (proj1 C1). apply layout_NoDup; auto.
    - intros x. rewrite (proj1 C1), layout_keys, map_app, in_app_iff.
      rewrite <- (layout_keys d), <- (proj1 C). rewrite fold_set_add_In. tauto.
  Qed.

  Theorem run_Inv_init cfg ops st : run cfg (init_state (V := V)) ops = Ok st -> Forall wf_op ops ->
    flags_stable (chan_decls [] ops) -> Inv cfg st /\ KI (fun _ => False) st.
  Proof.
    intros H W S. apply (run_Inv cfg ops init_state st []); auto.
    - split; reflexivity.
    - apply Inv_init.
    - intros c p s [].
  Qed.
End State.
