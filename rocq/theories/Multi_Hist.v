(** Histories with multi-axis systematics: the state holds what the expanded history means. *)
From Coq Require Import List Arith Bool String Permutation Sorted Lia.
From Verif Require Import PyList PyDict ListUtil Order Num Shape Names_Model Writer_Model Writer_Spec Writer_Frame Writer_Layout
  Writer_Meta Writer_Inv Writer_State Writer_Hist Writer_Denote Writer_Master Multi_Model Multi_Spec Multi_Geom Multi_Slices Multi_Loop Multi_Batch.
Import ListNotations.
Local Open Scope list_scope.
Local Open Scope nat_scope.

Section Good.
  Context {V : Type} {NV : Num V} {NL : NumLaws V}.

  Record Good (cfg : config) (H : list (op V)) (st : state V) : Prop := mkGood {
    gd_inv : Inv cfg st; gd_ki : KI (fun _ => False) st; gd_den : Den cfg H st;
    gd_chan : ChanInv st (chan_decls [] H); gd_once : channels_once H;
    gd_sys : sysp st = fold_left bookp (all_systs H) (sysp (init_state (V := V))) }.
  Lemma Good_init cfg : Good cfg [] init_state.
  Proof.
    split; try reflexivity.
    - apply Inv_init.
    - intros c p s [].
    - apply Den_init.
    - split; reflexivity.
    - constructor.
  Qed.

  Lemma chan_decls_split (o1 o2 : list (op V)) : forall seen,
    chan_decls seen (o1 ++ o2) = chan_decls seen o1 ++ chan_decls (fold_left (fun s kv => set_add (fst kv) s) (chan_decls seen o1) seen) o2.
  Proof.
    induction o1 as [|o o1 IH]; intros seen; cbn [app]; auto. destruct o; cbn [chan_decls]; auto. cbn [app fold_left fst]. f_equal. apply IH.
  Qed.
  Lemma Good_keys cfg H st : Good cfg H st ->
    Permutation (fold_left (fun s kv => set_add (fst kv) s) (chan_decls [] H) []) (dkeys (st_channels st)).
  Proof.
    intros [_ _ _ C O _]. apply NoDup_Permutation.
    - apply fold_set_add_NoDup. constructor.
    - rewrite (proj1 C). apply layout_NoDup. apply once_stable. auto.
    - intros x. rewrite fold_set_add_In, (proj1 C), layout_keys. simpl. tauto.
  Qed.
  Lemma Good_decls cfg H st ops : Good cfg H st ->
    chan_decls [] (H ++ ops) = chan_decls [] H ++ chan_decls (dkeys (st_channels st)) ops.
  Proof. intros G. rewrite chan_decls_split. f_equal. apply chan_decls_perm. eapply Good_keys; eauto. Qed.
  Lemma all_systs_app (a b : list (op V)) : all_systs (a ++ b) = all_systs a ++ all_systs b.
  Proof. unfold all_systs. apply flat_map_app. Qed.

  Lemma Good_step cfg H st o st' : Good cfg H st -> step cfg st o = (st', None) -> wf_op o -> no_stored_zeros o ->
    channels_once (H ++ [o]) -> Good cfg (H ++ [o]) st'.
  Proof.
    intros G S W Z O. pose proof G as [I K D C O0 SY]. pose proof (Good_decls cfg H st [o] G) as E.
    assert (F0 : flags_stable (chan_decls [] H)) by (apply once_stable; auto).
    assert (F1 : flags_stable (chan_decls [] H ++ chan_decls (dkeys (st_channels st)) [o])) by (rewrite <- E; apply once_stable; auto).
    pose proof (step_chan _ _ _ _ _ S C F1) as C1.
    destruct (step_Inv _ _ _ _ _ S W C F0 C1 F1 I K) as [I1 K1]. split; auto.
    - eapply step_Den; eauto. intros n Hn Hin. unfold channels_once in O. rewrite E, map_app in O.
      rewrite (proj1 C), layout_keys in Hin. clear - O Hn Hin. induction (map fst (chan_decls [] H)); [destruct Hin|].
      cbn [app] in O. inversion O; subst. destruct Hin as [->|Hin]; auto. apply H2. apply in_or_app. auto.
    - rewrite E. auto.
    - rewrite all_systs_app, fold_left_app, <- SY. unfold all_systs. cbn [flat_map]. rewrite app_nil_r. eapply step_sysp; eauto.
  Qed.
  Lemma Good_run cfg ops : forall H st st', Good cfg H st -> run cfg st ops = Ok st' -> Forall wf_op ops -> Forall no_stored_zeros ops ->
    channels_once (H ++ ops) -> Good cfg (H ++ ops) st'.
  Proof.
    induction ops as [|o ops IH]; intros H st st' G R W Z O. { cbn [run] in R. injection R as <-. rewrite app_nil_r. auto. }
    apply run_cons in R. destruct R as (s & R1 & R2). inversion W; inversion Z; subst.
    replace (H ++ o :: ops) with ((H ++ [o]) ++ ops) in * by (rewrite <- app_assoc; auto).
    apply (IH (H ++ [o]) s st'); auto. eapply Good_step; eauto. eapply channels_once_app; eauto.
  Qed.

  (** what is known about the template of a process *)
  Lemma Good_norm cfg H st ch p nm info : Good cfg H st -> st_norm st ch p = Some nm -> dget ch (st_channels st) = Some info ->
    wf_norm cfg nm /\ (forall i, populated nm i <-> nden nm i <> n0) /\ nsize nm = isize info /\
    (forall i, nden nm i = spec_norm (c_allowneg cfg) H ch p i).
  Proof.
    intros [I _ D _ _ _] E C. destruct (inv_norm _ _ I _ _ _ E) as (W & (i & C' & S) & _).
    pose proof (den_norm _ _ _ D ch p) as Dn. rewrite E in Dn. destruct Dn as (_ & D1 & D2). repeat split; auto; try apply D2; auto. congruence.
  Qed.

  (** one insertion of the batched path *)
  Lemma Good_insert cfg H st ch p n nm e kf mi m kw s : Good cfg H st -> st_norm st ch p = Some nm -> wf_lentry cfg nm e ->
    (forall j, lden e j = stored (c_type cfg) (spec_norm (c_allowneg cfg) H ch p) (Some (EOne kf true s)) j) ->
    Good cfg (H ++ [AddSystematic (SSingle s) n p ch kf mi m true kw]) (batch_insert st ch p n e kw).
  Proof.
    intros [I K D C O SY] E W L. pose proof I as [I1 I2 I3]. split.
    - unfold batch_insert. apply Inv_book_systematic. split.
      + exact I1.
      + intros c' p' E'. cbn [st_norm set_logk st_logkavg st_logkhalf] in *. rewrite upd2_other; auto. intros [-> ->]. congruence.
      + intros c' p' nm' E'. cbn [st_norm set_logk st_logkavg st_logkhalf st_symmetric] in *.
        destruct (upd2_spec (st_logkavg st) ch p (dset n e (st_logkavg st ch p)) c' p') as [(-> & -> & ->)|[_ ->]]; auto.
        assert (nm' = nm) by congruence. subst. destruct (I3 _ _ _ E) as (N1 & N2 & A & B). split; [|split; [|split]]; auto.
        * apply dkeys_dset_NoDup. auto.
        * intros s' e'. rewrite dget_dset. destruct (String.eqb n s'); auto; [|apply A]. intros Q. injection Q as <-. auto.
        * intros s' e' Q. destruct (B _ _ Q) as (H1 & H2 & H3). repeat split; auto. apply dkeys_dset. auto.
    - unfold batch_insert. apply KI_book_systematic. intros c' p' x. cbn [set_logk st_logkavg st_standard st_noconstraint]. unfold upd2.
      destruct (String.eqb ch c'); [destruct (String.eqb p p')|]; intros Q.
      + apply dkeys_dset in Q. destruct Q as [->|Q]; auto. apply K in Q. tauto.
      + apply K in Q. tauto.
      + apply K in Q. tauto.
    - apply (Den_book cfg H st); auto.
      + cbn. rewrite andb_true_r. auto.
      + intros c' p' x. cbn [op_avg batch_insert]. unfold batch_insert, book_systematic. cbn [st_logkavg set_logk set_systs].
        assert (Q : forall a b, (if a : bool then match (SSingle s : systinput V) with SSingle h1 => if b : bool then Some (EOne kf true h1) else None | _ => None end else None)
                   = if a && b then Some (EOne kf true s) else None) by (intros [|] [|]; auto).
        rewrite dget_book. destruct (String.eqb_spec c' ch); cbn [andb]; auto. destruct (String.eqb_spec p' p); cbn [andb]; auto.
        destruct (String.eqb_spec x n); auto. subst. exists e. auto.
      + intros c' p' x. cbn. auto.
    - rewrite chan_decls_split. cbn [chan_decls]. rewrite app_nil_r. exact C.
    - unfold channels_once. rewrite chan_decls_split. cbn [chan_decls]. rewrite app_nil_r. exact O.
    - rewrite all_systs_app, fold_left_app, <- SY. reflexivity.
  Qed.
  Lemma insert_frame st ch p n e kw : st_norm (batch_insert (V := V) st ch p n e kw) = st_norm st /\
    base (batch_insert st ch p n e kw) = base st.
  Proof. auto. Qed.
End Good.

(** *** the batched path *)
Lemma combine_seq_map {A} (f : nat -> A) n : combine (seq 0 n) (map f (seq 0 n)) = map (fun k => (k, f k)) (seq 0 n).
Proof. generalize (seq 0 n). induction l as [|a l IH]; cbn [map combine]; auto. f_equal. auto. Qed.
Lemma names_combine name ex : combine (seq 0 (prodn (map x_size ex))) (batch_names name ex) =
  map (fun i => (ravel (map x_size ex) i, spec_name name ex i)) (all_idx (map x_size ex)).
Proof.
  rewrite batch_names_spec, all_idx_unravel, !map_map. rewrite combine_seq_map. apply map_ext_in. intros k Hk. apply in_seq in Hk.
  rewrite ravel_unravel by lia. auto.
Qed.
Definition chan_axes (info : chinfo) (chx : list maxis) : Prop := ch_axes info = map (fun a => (x_size a, x_extent a)) chx.
Lemma chan_axes_size info chx : chan_axes info chx -> isize info = prodn (layout (ch_flow info) chx).
Proof.
  unfold chan_axes, isize, axes_size, layout. intros ->. rewrite map_map. f_equal.
Qed.

Section Batched.
  Context {V : Type} {NV : Num V} {NL : NumLaws V}.

  (** slices exist for every geometry *)
  Definition dense_slice (flow : bool) (ex chx : list maxis) (h : mhist V) (i : list nat) : histo V :=
    let v := map (fun b => named_at h (position flow ex chx i b)) (all_idx (layout flow chx)) in HDense v v.
  Lemma dense_slice_ok flow ex chx h i : slice_of flow ex chx h i (dense_slice flow ex chx h i).
  Proof.
    split. { cbn [dense_slice hsize]. rewrite map_length, all_idx_len. auto. }
    intros b I. cbn [dense_slice hist_at]. erewrite nth_error_nth; [reflexivity|]. rewrite nth_error_map, all_idx_nth; auto.
  Qed.

  Lemma batch_fold cfg axes ents extra chx flow nm sorter r name p ch kf mi m kw :
    geom axes extra chx -> wf_mhist (MSparse axes ents) -> wf_norm cfg nm -> (forall i, populated nm i <-> nden nm i <> n0) ->
    nsize nm = prodn (layout flow chx) -> a_sort sorter -> zero_law V ->
    batch_logk cfg kf nm (batch_entries axes ents extra (x_names chx) flow) = Ok r ->
    let ex := axes_by_name axes extra in
    forall idx ops, Forall2 (single_call flow ex chx (ISingle (MSparse axes ents)) name p ch kf mi m true kw) idx ops ->
    Forall (in_shape (map x_size ex)) idx ->
    forall H st, Good cfg H st -> st_norm st ch p = Some nm -> (forall i, nden nm i = spec_norm (c_allowneg cfg) H ch p i) ->
    Good cfg (H ++ ops)
      (fold_left (fun s kn => batch_insert s ch p (snd kn) (batch_entry cfg (prodn (layout flow (axes_by_name axes (x_names chx)))) (sorter r) (fst kn)) kw)
         (map (fun i => (ravel (map x_size ex) i, spec_name name ex i)) idx) st).
  Proof.
    intros G WH W P SZ SO ZL RL ex idx ops F. induction F as [|i o idx ops S F IH]; intros I H st Gd E Nd; cbn [map fold_left fst snd].
    { rewrite app_nil_r. auto. }
    inversion I; subst. cbn [single_call] in S. destruct S as (s & S & ->).
    set (o := AddSystematic (SSingle s) (spec_name name ex i) p ch kf mi m true kw).
    replace (H ++ o :: ops) with ((H ++ [o]) ++ ops) by (rewrite <- app_assoc; auto).
    apply IH; auto.
    - apply (Good_insert cfg H st ch p (spec_name name ex i) nm); auto.
      + apply (bent_wf cfg axes chx extra flow ents nm kf sorter r G WH W P SZ SO RL).
      + intros j. pose proof (bent_den cfg axes chx extra flow ents nm kf sorter r G WH W P SZ SO ZL RL i s H2 S j) as B.
        unfold bent in B. fold ex in B. rewrite B. cbn [stored eval_effect]. unfold tmpl_eff. rewrite Nd. auto.
    - intros j. rewrite spec_norm_snoc by reflexivity. auto.
  Qed.

  Lemma Good_batched cfg H st st' sorter info chx axes ents name p ch kf extra kw mi m ops :
    Good cfg H st -> dget ch (st_channels st) = Some info -> chan_axes info chx ->
    add_batched sorter cfg chx (ch_flow info) st axes ents name p ch kf extra kw = Ok st' ->
    wf_mhist (MSparse axes ents) -> geom axes extra chx -> a_sort sorter -> zero_law V ->
    let ex := axes_by_name axes extra in
    Forall2 (single_call (ch_flow info) ex chx (ISingle (MSparse axes ents)) name p ch kf mi m true kw) (all_idx (map x_size ex)) ops ->
    Good cfg (H ++ ops) st'.
  Proof.
    intros Gd C CA A WH G SO ZL ex F. unfold add_batched in A. destruct (negb _); [discriminate|].
    destruct (st_norm st ch p) as [nm|] eqn:E; [|discriminate].
    destruct (batch_logk cfg kf nm _) as [r|] eqn:B; cbn [rbind] in A; [|discriminate]. injection A as <-.
    destruct (Good_norm _ _ _ _ _ _ _ Gd E C) as (W & P & S & Nd). fold ex. rewrite names_combine.
    apply (batch_fold cfg axes ents extra chx (ch_flow info) nm sorter r name p ch kf mi m kw); auto.
    - rewrite S. apply chan_axes_size. auto.
    - apply Forall_forall. intros i Hi. apply all_idx_In. auto.
  Qed.
End Batched.

(** *** histories *)
Section XRun.
  Context {V : Type} {NV : Num V} {NL : NumLaws V}.

  (** a call of the writer: an ordinary one, or a systematic with extra axes *)
  Inductive xop :=
  | XOne (o : op V)
  | XMulti (h : minput V) (name p ch : string) (kf : V) (mirror : bool) (m : symmode) (ad : bool)
      (syst_axes : option (list string)) (kw : kwargs).
  Definition xstep sorter (cfg : config) (chaxes : string -> list maxis) (st : state V) (x : xop) : result (state V) :=
    match x with
    | XOne o => match step cfg st o with (st', None) => Ok st' | (_, Some e) => Raise e end
    | XMulti h name p ch kf mirror m ad sa kw => add_multi sorter cfg (chaxes ch) st h name p ch kf mirror m ad sa kw
    end.
  Fixpoint xrun sorter cfg chaxes (st : state V) (l : list xop) : result (state V) :=
    match l with [] => Ok st | x :: r => st' <- xstep sorter cfg chaxes st x ;; xrun sorter cfg chaxes st' r end.

  (** the extra axes of a call: those requested, or those the channel does not have *)
  Definition spec_extra (chn hn : list string) (sa : option (list string)) : list string :=
    match sa with Some l => l | None => filter (fun n => negb (existsb (String.eqb n) chn)) hn end.
  Definition mextra (chaxes : string -> list maxis) (h : minput V) (ch : string) (sa : option (list string)) : list string :=
    spec_extra (x_names (chaxes ch)) (x_names (mh_axes (ref_of h))) sa.
  (** the ordinary calls a call stands for, after history [H] *)
  Definition expands (chaxes : string -> list maxis) (H : list (op V)) (x : xop) (l : list (op V)) : Prop :=
    match x with
    | XOne o => l = [o]
    | XMulti h name p ch kf mirror m ad sa kw =>
        exists info, In (ch, info) (chan_decls [] H) /\
        let ex := axes_by_name (mh_axes (ref_of h)) (mextra chaxes h ch sa) in
        Forall2 (single_call (ch_flow info) ex (chaxes ch) h name p ch kf mirror m ad kw) (all_idx (map x_size ex)) l
    end.
  Fixpoint expand_all chaxes (H : list (op V)) (l : list xop) (H' : list (op V)) : Prop :=
    match l with
    | [] => H' = H
    | x :: r => exists ops, expands chaxes H x ops /\ expand_all chaxes (H ++ ops) r H'
    end.
  (** conditions on one call: numpy shapes, and axes that match the channel *)
  Definition xwf (chaxes : string -> list maxis) (x : xop) : Prop :=
    match x with
    | XOne o => wf_op o /\ no_stored_zeros o
    | XMulti h _ _ ch _ mirror _ ad sa _ =>
        let extra := mextra chaxes h ch sa in
        match h, extra, mirror && ad with
        | ISingle (MSparse axes ents), _ :: _, true => wf_mhist (MSparse axes ents) /\ geom axes extra (chaxes ch)
        | _, _, _ => fits_input h extra (chaxes ch)
        end
    end.
  Definition chaxes_ok (chaxes : string -> list maxis) (x : xop) : Prop :=
    match x with
    | XOne (AddChannel (Some n) a _ _) => a = map (fun a => (x_size a, x_extent a)) (chaxes n)
    | XOne (AddChannel None _ _ _) => False
    | _ => True
    end.

  Lemma ordered_nil axes chx : ordered axes [] chx -> Forall2 same_bins axes chx.
  Proof.
    unfold ordered, keep_axes. intros H. rewrite (filter_all _ axes) in H; auto.
  Qed.
  Lemma keep_nil axes : keep_axes axes [] = axes.
  Proof. unfold keep_axes. apply filter_all. auto. Qed.
  Lemma whole_slice flow (h : mhist V) chx : fits h [] chx -> slice_of flow [] chx h [] (to_histo flow h).
  Proof.
    intros (W & G & O & C). apply ordered_nil in O. split. { rewrite to_histo_size. rewrite (same_layout flow _ _ O). auto. }
    intros b I. rewrite <- (same_layout flow _ _ O) in *. rewrite to_histo_at by auto. unfold named_at. f_equal.
    rewrite (same_to_flow flow _ _ b O). rewrite (same_layout flow _ _ O) in I.
    rewrite <- (position_chan flow [] chx [] b (g_ch _ _ _ G)); auto. 2: { eapply in_shape_layout_len; eauto. }
    rewrite <- (same_names _ _ O). unfold x_names. rewrite map_map. auto.
  Qed.

  Lemma detect_spec chn hn sa r : detect_extra chn hn sa = Ok r ->
    (forall l, r = Some l -> l = spec_extra chn hn sa) /\
    (r = None -> NoDup hn -> NoDup chn -> incl chn hn -> spec_extra chn hn sa = []).
  Proof.
    unfold detect_extra, spec_extra.
    assert (SM : filter (fun n => negb (smem n chn)) hn = filter (fun n => negb (existsb (String.eqb n) chn)) hn) by reflexivity.
    destruct sa as [[|n l]|].
    - intros H. injection H as <-. split; [discriminate|auto].
    - destruct (forallb _ _); [|discriminate]. intros H. injection H as <-. split; [intros l' E; congruence|discriminate].
    - destruct (Nat.eqb_spec (List.length hn) (List.length chn)) as [L|L].
      + intros H. injection H as <-. split; [discriminate|]. intros _ N1 N2 I.
        apply filter_none. intros x Hx. apply negb_false_iff, existsb_exists. exists x. split; [|apply String.eqb_refl].
        assert (J : incl hn chn) by (apply NoDup_length_incl; auto; lia). auto.
      + rewrite SM. destruct (filter _ hn) as [|n l] eqn:F; intros H; injection H as <-.
        * split; [discriminate|auto].
        * split; [intros l' E; congruence|discriminate].
  Qed.

  Lemma fits_ref (h : minput V) extra chx : fits_input h extra chx -> geom (mh_axes (ref_of h)) extra chx.
  Proof. destruct h; intros F; apply F. Qed.

  Lemma xwf_geom chaxes h name p ch kf mi m ad sa kw : xwf chaxes (XMulti h name p ch kf mi m ad sa kw) ->
    geom (mh_axes (ref_of h)) (mextra chaxes h ch sa) (chaxes ch).
  Proof.
    cbn [xwf]. destruct h as [[axes f|axes ents]|u d]; try apply fits_ref.
    destruct (mextra chaxes _ ch sa) as [|n l] eqn:E; [apply fits_ref|]. destruct (mi && ad); [intros H; apply H|]. apply fits_ref.
  Qed.
  Lemma xwf_fits chaxes h name p ch kf mi m ad sa kw : xwf chaxes (XMulti h name p ch kf mi m ad sa kw) ->
    (exists axes ents, h = ISingle (MSparse axes ents) /\ mi && ad = true /\ mextra chaxes h ch sa <> [] /\ wf_mhist (MSparse axes ents)) \/
    fits_input h (mextra chaxes h ch sa) (chaxes ch).
  Proof.
    cbn [xwf]. destruct h as [[axes f|axes ents]|u d]; auto. destruct (mextra chaxes _ ch sa) as [|n l] eqn:E; auto.
    destruct (mi && ad) eqn:M; auto. intros [W _]. left. exists axes, ents. repeat split; auto; try apply W. discriminate.
  Qed.

  Lemma Good_multi cfg H st st' sorter chaxes h name p ch kf mi m ad sa kw :
    Good cfg H st -> (forall c info, In (c, info) (chan_decls [] H) -> chan_axes info (chaxes c)) ->
    a_sort sorter -> zero_law V -> xwf chaxes (XMulti h name p ch kf mi m ad sa kw) ->
    add_multi sorter cfg (chaxes ch) st h name p ch kf mi m ad sa kw = Ok st' ->
    exists ops, expands chaxes H (XMulti h name p ch kf mi m ad sa kw) ops /\ Good cfg (H ++ ops) st'.
  Proof.
    intros Gd CA SO ZL F A. pose proof (xwf_geom _ _ _ _ _ _ _ _ _ _ _ F) as G. apply xwf_fits in F. unfold add_multi in A.
    destruct (dget ch (st_channels st)) as [info|] eqn:C; [|discriminate].
    assert (FS : flags_stable (chan_decls [] H)) by (apply once_stable; apply (gd_once _ _ _ Gd)).
    assert (IN : In (ch, info) (chan_decls [] H)).
    { rewrite (proj1 (gd_chan _ _ _ Gd)), layout_dget in C by auto. apply dget_In in C. apply dict_of_In in C. auto. }
    pose proof (CA _ _ IN) as CX. set (chx := chaxes ch) in *. set (flow := ch_flow info) in *.
    set (extra := mextra chaxes h ch sa) in *.
    destruct (detect_extra _ _ sa) as [d|] eqn:D; cbn [rbind] in A; [|discriminate].
    destruct (detect_spec _ _ _ _ D) as [D1 D2].
    assert (SYS : forall ops, Forall (fun o => exists i n p c k a b d w, o = AddSystematic i n p c k a b d w) ops ->
              Forall no_stored_zeros ops /\ channels_once (H ++ ops)).
    { intros ops Q. split. { eapply Forall_impl; [|exact Q]. intros o (i & n & q & c & k & a & b & z & w & ->). exact Logic.I. }
      unfold channels_once. rewrite chan_decls_split, map_app.
      assert (E : forall seen, chan_decls seen ops = []). { clear - Q. induction Q as [|o ops Q _ IH]; intros seen; auto. destruct Q as (i & n & q & c & k & a & b & z & w & ->). cbn [chan_decls]. auto. }
      rewrite E, app_nil_r. apply (gd_once _ _ _ Gd). }
    assert (LOOP : fits_input h extra chx -> forall l, get_slices h name extra = Ok l -> book_slices cfg chx flow st l p ch kf mi m ad kw = Ok st' ->
       exists ops, expands chaxes H (XMulti h name p ch kf mi m ad sa kw) ops /\ Good cfg (H ++ ops) st').
    { intros Fi l S B. destruct (get_slices_ok flow h name extra chx p ch kf mi m ad kw l Fi S) as [E1 E2].
      rewrite (book_slices_run _ _ _ _ _ _ _ _ _ _ _ E1) in B.
      exists (map (call_of flow p ch kf mi m ad kw) l). split.
      - exists info. split; auto. fold extra chx flow. cbn zeta. clear - E2. induction E2 as [|x y a b Q _ IH]; constructor; tauto.
      - destruct (SYS (map (call_of flow p ch kf mi m ad kw) l)) as [Z O].
        { apply Forall_forall. intros o Ho. apply in_map_iff in Ho. destruct Ho as (nh & <- & _). unfold call_of. repeat eexists. }
        apply (Good_run cfg _ H st st'); auto. clear - E2. induction E2 as [|x y a b Q _ IH]; constructor; tauto. }
    destruct d as [ext|].
    - pose proof (D1 _ eq_refl) as EE. change (spec_extra (x_names chx) (x_names (mh_axes (ref_of h))) sa) with extra in EE. subst ext. clear D1 D2.
      assert (LOOP' : fits_input h extra chx -> (l <- get_slices h name extra ;; book_slices cfg chx flow st l p ch kf mi m ad kw) = Ok st' ->
        exists ops, expands chaxes H (XMulti h name p ch kf mi m ad sa kw) ops /\ Good cfg (H ++ ops) st').
      { intros Fi. destruct (get_slices h name extra) as [l|] eqn:S; cbn [rbind]; [|discriminate]. apply LOOP; auto. }
      assert (FD : (mi && ad = true /\ exists axes ents, h = ISingle (MSparse axes ents)) \/ fits_input h extra chx).
      { destruct F as [(axes & ents & E & M & _)|F]; auto. left. eauto. }
      assert (WH : wf_mhist (ref_of h)). { destruct F as [(axes & ents & E & M & _ & W)|F]; [subst; auto|]. destruct h; apply F. }
      destruct h as [[axes f|axes ents]|u dn]; try (apply LOOP'; auto; destruct FD as [(_ & a' & b' & E)|FD]; auto; discriminate).
      destruct (mi && ad) eqn:MA; [|apply LOOP'; auto; destruct FD as [(Q & _)|FD]; auto; discriminate]. clear LOOP LOOP'.
      apply andb_true_iff in MA. destruct MA as [-> ->]. cbn [ref_of] in WH. rename WH into W.
      set (ex := axes_by_name axes extra).
      set (ops := map (fun i => AddSystematic (SSingle (dense_slice flow ex chx (MSparse axes ents) i)) (spec_name name ex i) p ch kf true m true kw) (all_idx (map x_size ex))).
      assert (FO : Forall2 (single_call flow ex chx (ISingle (MSparse axes ents)) name p ch kf true m true kw) (all_idx (map x_size ex)) ops).
      { unfold ops. generalize (all_idx (map x_size ex)). induction l as [|i l IH]; cbn [map]; constructor; auto.
        exists (dense_slice flow ex chx (MSparse axes ents) i). split; auto. apply dense_slice_ok. }
      exists ops. split. { exists info. split; auto. }
      apply (Good_batched cfg H st st' sorter info chx axes ents name p ch kf extra kw true m ops Gd C CX A W G SO ZL FO).
    - assert (EE : extra = []).
      { apply D2; auto; try apply (g_names _ _ _ G); try apply (g_ch _ _ _ G). intros n Hn. apply (g_cover _ _ _ G). auto. }
      assert (F' : fits_input h extra chx). { destruct F as [(axes & ents & E & M & N & W)|F]; auto. contradiction. } clear F. rename F' into F.
      rewrite EE in F, G.
      pose proof (book_slice_step cfg chx flow st (name, h) p ch kf mi m ad kw) as BS. cbn [fst snd] in BS.
      set (o := call_of flow p ch kf mi m ad kw (name, h)) in *.
      assert (ED : edges_ok chx (name, h) /\ wf_op o /\ single_call flow [] chx h name p ch kf mi m ad kw [] o).
      { unfold edges_ok, o, call_of. cbn [fst snd]. destruct h as [h1|u dn]; cbn [fits_input single_call wf_op spec_name] in *.
        - split. { destruct F as (_ & _ & _ & Ce). rewrite keep_nil in Ce. auto. } split; [apply to_histo_wf; apply F|].
          exists (to_histo flow h1). split; auto. apply whole_slice. auto.
        - destruct F as (F1 & F2 & _). split. { destruct F1 as (_ & _ & _ & C1). destruct F2 as (_ & _ & _ & C2). rewrite keep_nil in C1, C2. auto. }
          split. { split; apply to_histo_wf; [apply F1|apply F2]. } exists (to_histo flow u), (to_histo flow dn). repeat split; auto; apply whole_slice; auto. }
      destruct ED as (ED & WO & SC). rewrite BS in A by auto. destruct (step cfg st o) as [s1 [e|]] eqn:S; [discriminate|]. injection A as ->.
      exists [o]. split.
      + exists info. split; auto. fold extra chx flow. rewrite EE. cbn. constructor; auto.
      + destruct (SYS [o]) as [Z O]. { constructor; [|constructor]. unfold o, call_of. repeat eexists. }
        apply (Good_step cfg H st o st'); auto. inversion Z; auto.
  Qed.
End XRun.
Arguments xop : clear implicits.
