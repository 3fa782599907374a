(** The writer state after any history holds exactly what the history means. *)
From Coq Require Import List Arith Bool String Permutation Sorted Lia.
From Verif Require Import PyList PyDict Order Num Names_Model Writer_Model Writer_Spec Writer_Frame
  Writer_Layout Writer_Meta Writer_Inv Writer_State Writer_Arr Writer_Hist Writer_Tensor.
Import ListNotations.
Local Open Scope string_scope.
Local Open Scope list_scope.

Section Denote.
  Context {V : Type} {NV : Num V} {NL : NumLaws V}.

  Lemma hist_at_hden (h : histo V) i : hist_at h i = hden h i.
  Proof.
    destruct h as [v w|e n]; simpl; auto. unfold at_or0. induction e as [|[j v] e IH]; simpl; auto.
    destruct (Nat.eqb i j); auto.
  Qed.
  Lemma last_of_snoc {E} (f : op V -> option E) ops o :
    last_of f (ops ++ [o]) = match f o with Some e => Some e | None => last_of f ops end.
  Proof. unfold last_of. rewrite fold_left_app. reflexivity. Qed.

  Lemma clip0_n0 : clip0 (V := V) n0 = n0.
  Proof. unfold clip0. destruct (neg n0); auto. Qed.
  Lemma at_or0_map (f : V -> V) e i : f n0 = n0 -> at_or0 i (map (fun x => (fst x, f (snd x))) e) = f (at_or0 i e).
  Proof.
    intros F. unfold at_or0. induction e as [|[j v] e IH]; simpl; auto. destruct (Nat.eqb i j); auto.
  Qed.
  Lemma store_norm_den cfg h nm i : store_norm cfg h = Ok nm -> wf_hist h ->
    nden nm i = spec_clip (c_allowneg cfg) (hist_at h i).
  Proof.
    rewrite hist_at_hden. unfold store_norm, spec_clip. fold (neg (hden h i)).
    change (if neg (hden h i) then n0 else hden h i) with (clip0 (hden h i)).
    assert (MC : forall l, nth i (map clip0 l) n0 = clip0 (nth i l n0)).
    { intros l. rewrite <- (clip0_n0) at 1. apply map_nth. }
    assert (TD : forall e n, wf_ents e n -> nth i (to_dense e n) n0 = at_or0 i e).
    { intros e n [S F]. unfold to_dense. destruct (Nat.lt_ge_cases i n).
      - rewrite (nth_indep _ n0 (at_or0 0 e)) by (rewrite map_length, seq_length; auto).
        rewrite (map_nth (fun i => at_or0 i e)), seq_nth by auto. auto.
      - rewrite nth_overflow by (rewrite map_length, seq_length; auto). symmetry. apply at_or0_out.
        intros Hin. rewrite Forall_forall in F. apply F in Hin. lia. }
    destruct h as [v w|e n].
    - destruct (forallb nfinite _); [|discriminate]. intros H _. injection H as <-. simpl.
      destruct (c_allowneg cfg); auto.
    - destruct (c_sparse cfg).
      + destruct (negb (forallb _ _)); [discriminate|]. intros H W. simpl in W.
        destruct (c_allowneg cfg); simpl in H. { injection H as <-. reflexivity. }
        destruct (existsb _ e) eqn:X; injection H as <-; simpl.
        * rewrite at_or0_filter. { apply at_or0_map. apply clip0_n0. }
          rewrite map_map. simpl. apply sorted_lt_NoDup. apply W.
        * unfold clip0. destruct (neg (at_or0 i e)) eqn:Ng; auto.
          unfold at_or0 in *. destruct (assoc i e) as [v|] eqn:A; auto.
          apply assoc_In in A. exfalso. apply not_true_iff_false in X. apply X. apply existsb_exists. exists (i, v). auto.
      + destruct (forallb nfinite _); [|discriminate]. intros H W. injection H as <-. simpl in W.
        simpl. destruct (c_allowneg cfg); rewrite ?MC, TD; auto.
  Qed.

  Lemma store_norm_nz cfg h nm : store_norm cfg h = Ok nm ->
    match h with HSparse e _ => Forall (fun x => snd x <> n0) e | _ => True end ->
    match nm with NSparse e _ => Forall (fun x => snd x <> n0) e | _ => True end.
  Proof.
    unfold store_norm. destruct h as [v w|e n].
    - destruct (forallb nfinite _); [|discriminate]. intros H _. injection H as <-. auto.
    - destruct (c_sparse cfg).
      + destruct (negb (forallb _ _)); [discriminate|].
        destruct (negb (c_allowneg cfg) && _); intros H; injection H as <-; auto.
        intros _. apply Forall_forall. intros x Hx. apply filter_In in Hx. apply nonzero_spec. apply Hx.
      + destruct (forallb nfinite _); [|discriminate]. intros H _. injection H as <-. auto.
  Qed.
  Lemma populated_nden cfg nm i : wf_norm cfg nm ->
    match nm with NSparse e _ => Forall (fun x => snd x <> n0) e | _ => True end ->
    (populated nm i <-> nden nm i <> n0).
  Proof.
    intros W Z. destruct nm as [l|e n].
    - unfold populated. rewrite coo_idx_NDense. simpl. split; [tauto|]. intros H. split; auto.
      destruct (Nat.lt_ge_cases i (List.length l)); auto. exfalso. apply H. apply nth_overflow. auto.
    - unfold populated. simpl. destruct W as (_ & S & _). apply sorted_lt_NoDup in S. split.
      + intros H. apply in_map_iff in H. destruct H as ([j v] & E & H). simpl in E. subst.
        rewrite (at_or0_In i v) by auto. rewrite Forall_forall in Z. apply (Z _ H).
      + intros H. destruct (in_dec Nat.eq_dec i (map fst e)); auto. exfalso. apply H. apply at_or0_out. auto.
  Qed.

  (** a booked entry against the effect it stands for *)
  Definition entry_ok (cfg : config) (nom : nat -> V) (l : option (lentry V)) (e : option (effect V)) : Prop :=
    match l, e with
    | None, None => True
    | Some l, Some e => forall i, lden l i = stored (c_type cfg) nom (Some e) i
    | _, _ => False
    end.
  Record Den (cfg : config) (ops : list (op V)) (st : state V) : Prop := mkDen {
    den_norm : forall c p, match st_norm st c p with
      | Some nm => last_of (op_proc c p) ops <> None /\ (forall i, nden nm i = spec_norm (c_allowneg cfg) ops c p i) /\
                   (forall i, populated nm i <-> nden nm i <> n0)
      | None => last_of (op_proc c p) ops = None end;
    den_sumw2 : forall c p w, st_norm st c p <> None -> st_sumw2 st c p = Some w ->
      forall i, nth i w n0 = spec_sumw2 ops c p i;
    den_avg : forall c p s, entry_ok cfg (spec_norm (c_allowneg cfg) ops c p)
      (dget s (st_logkavg st c p)) (last_of (op_avg c p s) ops);
    den_half : forall c p s, entry_ok cfg (spec_norm (c_allowneg cfg) ops c p)
      (dget s (st_logkhalf st c p)) (last_of (op_half c p s) ops);
    den_sym : st_symmetric st = negb (existsb is_asym ops) }.

  Lemma Den_init cfg : Den cfg [] init_state.
  Proof. split; try (intros; reflexivity). intros c p w H. simpl in H. congruence. Qed.

  Lemma spec_norm_snoc an ops o c p : op_proc c p o = None -> spec_norm (V := V) an (ops ++ [o]) c p = spec_norm an ops c p.
  Proof. intros H. unfold spec_norm. rewrite last_of_snoc, H. auto. Qed.
  Lemma spec_sumw2_snoc ops o c p : op_proc c p o = None -> spec_sumw2 (V := V) (ops ++ [o]) c p = spec_sumw2 ops c p.
  Proof. intros H. unfold spec_sumw2. rewrite last_of_snoc, H. auto. Qed.
  Lemma existsb_snoc {A} (f : A -> bool) l x : existsb f (l ++ [x]) = existsb f l || f x.
  Proof. rewrite existsb_app. simpl. rewrite orb_false_r. auto. Qed.

  (** operations that change nothing in question *)
  Lemma Den_frame cfg ops st st' o : Den cfg ops st ->
    (forall c p, op_proc c p o = None) -> (forall c p s, op_avg c p s o = None) ->
    (forall c p s, op_half c p s o = None) -> is_asym o = false ->
    (forall c p, st_norm st' c p = st_norm st c p) ->
    (forall c p, st_norm st c p <> None -> st_sumw2 st' c p = st_sumw2 st c p) ->
    (forall c p, st_logkavg st' c p = st_logkavg st c p) ->
    (forall c p, st_logkhalf st' c p = st_logkhalf st c p) ->
    st_symmetric st' = st_symmetric st -> Den cfg (ops ++ [o]) st'.
  Proof.
    intros [D1 D2 D3 D4 D5] P A H S E1 E2 E3 E4 E5. split.
    - intros c p. rewrite E1. rewrite last_of_snoc, P, spec_norm_snoc by auto. apply D1.
    - intros c p w. rewrite E1, spec_sumw2_snoc by auto. intros N. rewrite E2 by auto. apply D2. auto.
    - intros c p s. rewrite E3, last_of_snoc, A, spec_norm_snoc by auto. apply D3.
    - intros c p s. rewrite E4, last_of_snoc, H, spec_norm_snoc by auto. apply D4.
    - rewrite E5, D5, existsb_snoc, S, orb_false_r. auto.
  Qed.

  (** what booking stores *)
  Lemma mk_lentry_stored cfg nm nom f e : wf_norm cfg nm -> (forall i, populated nm i <-> nden nm i <> n0) ->
    (forall i, nden nm i = nom i) -> (forall i, f i = eval_effect (c_type cfg) nom e i) ->
    forall i, lden (mk_lentry cfg nm (map f (nidx nm))) i = stored (c_type cfg) nom (Some e) i.
  Proof.
    intros W P N F i. destruct (mk_lentry_den cfg nm f i W) as [H1 H2]. simpl.
    destruct (neq0 (nom i)) eqn:Z.
    - apply H2. rewrite P, N. apply neq0_spec in Z. tauto.
    - rewrite H1; auto. apply P. rewrite N. intros Q. apply neq0_spec in Q. congruence.
  Qed.
  Lemma last_pair_snoc {B} p (l : list (string * B)) x :
    last_pair p (l ++ [x]) = if String.eqb p (fst x) then Some (snd x) else last_pair p l.
  Proof. unfold last_pair. rewrite fold_left_app. reflexivity. Qed.
  Lemma last_pair_cons {B} p q (b : B) l :
    last_pair p ((q, b) :: l) = match last_pair p l with Some y => Some y | None => if String.eqb p q then Some b else None end.
  Proof.
    induction l as [|x l IH] using rev_ind; [reflexivity|].
    change ((q, b) :: l ++ [x]) with (((q, b) :: l) ++ [x]). rewrite !last_pair_snoc, IH.
    destruct (String.eqb p (fst x)); auto.
  Qed.

  Lemma Den_book cfg ops st st' o : Den cfg ops st ->
    (forall c p, op_proc c p o = None) ->
    st_norm st' = st_norm st -> st_sumw2 st' = st_sumw2 st ->
    st_symmetric st' = st_symmetric st && negb (is_asym o) ->
    (forall c p s, match op_avg c p s o with
       | Some e => exists l, dget s (st_logkavg st' c p) = Some l /\
           forall i, lden l i = stored (c_type cfg) (spec_norm (c_allowneg cfg) ops c p) (Some e) i
       | None => dget s (st_logkavg st' c p) = dget s (st_logkavg st c p) end) ->
    (forall c p s, match op_half c p s o with
       | Some e => exists l, dget s (st_logkhalf st' c p) = Some l /\
           forall i, lden l i = stored (c_type cfg) (spec_norm (c_allowneg cfg) ops c p) (Some e) i
       | None => dget s (st_logkhalf st' c p) = dget s (st_logkhalf st c p) end) ->
    Den cfg (ops ++ [o]) st'.
  Proof.
    intros [D1 D2 D3 D4 D5] P E1 E2 E3 HA HH. split.
    - intros c p. rewrite E1, last_of_snoc, P, spec_norm_snoc by auto. apply D1.
    - intros c p w. rewrite E1, E2, spec_sumw2_snoc by auto. apply D2.
    - intros c p s. rewrite last_of_snoc, spec_norm_snoc by auto. specialize (HA c p s).
      destruct (op_avg c p s o) as [e|].
      + destruct HA as (l & -> & Q). exact Q.
      + rewrite HA. apply D3.
    - intros c p s. rewrite last_of_snoc, spec_norm_snoc by auto. specialize (HH c p s).
      destruct (op_half c p s o) as [e|].
      + destruct HH as (l & -> & Q). exact Q.
      + rewrite HH. apply D4.
    - rewrite E3, D5, existsb_snoc, negb_orb. auto.
  Qed.
  Lemma dget_book {B} (L : string -> string -> dict B) ch q n (e : B) c p s :
    dget s (upd2 L ch q (dset n e (L ch q)) c p) =
    if String.eqb c ch && String.eqb p q && String.eqb s n then Some e else dget s (L c p).
  Proof.
    destruct (upd2_spec L ch q (dset n e (L ch q)) c p) as [(-> & -> & ->)|[Q ->]].
    - rewrite !String.eqb_refl. simpl. rewrite dget_dset, String.eqb_sym. auto.
    - destruct (String.eqb_spec c ch); simpl; auto. destruct (String.eqb_spec p q); simpl; auto.
      subst. exfalso. apply Q. auto.
  Qed.
  Lemma app_inj_l (n a b : string) : (n ++ a)%string = (n ++ b)%string -> a = b.
  Proof. induction n; simpl; auto. intros H. injection H as H. auto. Qed.

  Definition unc_effect (m : symmode) (u : uncval V) : option (effect V) :=
    match u with
    | UScalar x => Some (ENormOne x)
    | UPair x y => Some (ENormTwo (match m with Conservative => CMax | _ => CAvg end) x y)
    | UBad => None
    end.
  Lemma booked_loop_den cfg ops0 name ch m : forall st pus st',
    booked_loop cfg name ch m st pus st' ->
    (forall p nm, st_norm st ch p = Some nm -> wf_norm cfg nm /\ (forall i, populated nm i <-> nden nm i <> n0) /\
       (forall i, nden nm i = spec_norm (c_allowneg cfg) ops0 ch p i)) ->
    st_norm st' = st_norm st /\ st_sumw2 st' = st_sumw2 st /\ st_symmetric st' = st_symmetric st /\
    st_logkhalf st' = st_logkhalf st /\
    forall c p s,
      match (if String.eqb c ch && String.eqb s name then last_pair p pus else None) with
      | Some u => exists e l, unc_effect m u = Some e /\ dget s (st_logkavg st' c p) = Some l /\
          forall i, lden l i = stored (c_type cfg) (spec_norm (c_allowneg cfg) ops0 c p) (Some e) i
      | None => dget s (st_logkavg st' c p) = dget s (st_logkavg st c p)
      end.
  Proof.
    induction 1 as [st|st q u rest nm st' N U M L IH]; intros HN.
    - repeat split; auto. intros c p s. destruct (_ && _); reflexivity.
    - assert (HN' : forall p nm0, st_norm (book_avg cfg st nm (map (unc_eff (c_type cfg) m nm u) (nidx nm)) ch q name) ch p = Some nm0 ->
         wf_norm cfg nm0 /\ (forall i, populated nm0 i <-> nden nm0 i <> n0) /\
         (forall i, nden nm0 i = spec_norm (c_allowneg cfg) ops0 ch p i)) by exact HN.
      destruct (IH HN') as (E1 & E2 & E3 & E4 & E5). simpl in E1, E2, E3, E4.
      repeat split; auto. intros c p s. specialize (E5 c p s). rewrite last_pair_cons.
      destruct (String.eqb c ch && String.eqb s name) eqn:CS.
      + destruct (last_pair p rest) as [y|]; auto.
        simpl in E5. rewrite dget_book in E5. apply andb_true_iff in CS. destruct CS as [C S].
        rewrite C, S in E5. simpl in E5. rewrite andb_true_r in E5. destruct (String.eqb_spec p q).
        * subst q. apply String.eqb_eq in C. subst c.
          assert (exists e, unc_effect m u = Some e) as [e He] by (destruct u; simpl; eauto; congruence).
          exists e. eexists. split; [auto|]. split; [exact E5|].
          destruct (HN p nm N) as (W & P & Q). apply mk_lentry_stored; auto.
          intros i. unfold unc_eff. destruct u as [x|x y|]; simpl in He; try discriminate; injection He as <-.
          -- simpl. unfold norm_eff. rewrite <- Q. reflexivity.
          -- simpl. unfold norm_eff. rewrite <- Q. destruct M as [-> | ->]; reflexivity.
        * exact E5.
      + simpl in E5. rewrite dget_book in E5.
        assert (String.eqb c ch && String.eqb p q && String.eqb s name = false) as Z.
        { apply andb_false_iff in CS. destruct CS as [-> | ->]; [auto|rewrite andb_false_r; auto]. }
        rewrite Z in E5. exact E5.
  Qed.

  Lemma step_Den cfg ops st o st' d : step cfg st o = (st', None) -> wf_op o -> no_stored_zeros o ->
    ChanInv st d -> flags_stable d -> Inv cfg st -> Den cfg ops st ->
    (forall n, In n (map fst (chan_decls (dkeys (st_channels st)) [o])) -> ~ In n (dkeys (st_channels st))) ->
    Den cfg (ops ++ [o]) st'.
  Proof.
    intros H W Z C S I D F. pose proof (step_base _ _ _ _ H) as B.
    destruct o.
    - (* AddChannel *)
      pose proof (add_channel_inv _ _ _ _ _ _ _ H) as (_ & _ & _ & Hn & H2 & Ha & Hh & Hs & _).
      set (nm := chan_name (List.length (dkeys (st_channels st))) name) in *.
      assert (Fr : ~ In nm (dkeys (st_channels st))). { apply F. left. reflexivity. }
      assert (N0 : forall p, st_norm st nm p = None).
      { intros p. destruct (st_norm st nm p) as [x|] eqn:E; auto. destruct (inv_norm _ _ I _ _ _ E) as (_ & (i & Di & _) & _).
        exfalso. apply Fr. apply dget_In in Di. apply in_map_iff. exists (nm, i). auto. }
      apply (Den_frame cfg ops st); auto.
      + intros c p. rewrite Hn. unfold upd1. destruct (String.eqb_spec nm c); auto. subst. symmetry. auto.
      + intros c p E. rewrite H2. unfold upd1. destruct (String.eqb_spec nm c); auto. subst c. congruence.
      + intros c p. rewrite Ha. unfold upd1. destruct (String.eqb_spec nm c); auto. subst c.
        symmetry. apply (inv_none _ _ I). auto.
      + intros c p. rewrite Hh. unfold upd1. destruct (String.eqb_spec nm c); auto. subst c.
        symmetry. apply (inv_none _ _ I). auto.
    - (* AddProcess *)
      simpl in H. apply add_process_inv in H.
      destruct H as (Hck & Hno & nm & w & En & Ew & Hn & H2 & Ha & Hh & Hsg & Hb & HC & HN & Hs & HSp & _).
      simpl in W. destruct W as [Wh Wv].
      assert (Wn : wf_norm cfg nm).
      { unfold store_norm in En. destruct h as [v vr|e n].
        - destruct (forallb nfinite _); [|discriminate]. injection En as <-. exact Logic.I.
        - destruct (c_sparse cfg) eqn:Sp.
          + destruct (negb _); [discriminate|]. simpl in Wh. destruct Wh as [S1 F1].
            destruct (negb (c_allowneg cfg) && _).
            * injection En as <-. simpl. split; auto. split.
              -- apply sorted_filter. rewrite map_map. simpl. auto.
              -- rewrite Forall_forall in *. intros x Hx. apply filter_incl in Hx.
                 rewrite map_map in Hx. simpl in Hx. auto.
            * injection En as <-. simpl. split; auto. split; auto.
          + destruct (forallb nfinite _); [|discriminate]. injection En as <-. exact Logic.I. }
      assert (Znm : match nm with NSparse e _ => Forall (fun x => snd x <> n0) e | _ => True end).
      { eapply store_norm_nz; eauto. }
      destruct D as [D1 D2 D3 D4 D5].
      assert (OP : forall c p, op_proc c p (AddProcess h name ch signal vars) =
                 if String.eqb c ch && String.eqb p name then Some (h, vars) else None) by reflexivity.
      split.
      + intros c p. rewrite Hn, last_of_snoc, OP.
        destruct (upd2_spec (st_norm st) ch name (Some nm) c p) as [(-> & -> & ->)|[Q ->]].
        * rewrite !String.eqb_refl. simpl. split; [discriminate|]. split.
          -- intros i. unfold spec_norm. rewrite last_of_snoc, OP, !String.eqb_refl. simpl.
             apply store_norm_den; auto.
          -- intros i. eapply populated_nden; eauto.
        * assert (String.eqb c ch && String.eqb p name = false) as E.
          { apply andb_false_iff. rewrite !String.eqb_neq. destruct (string_dec c ch); tauto. }
          rewrite E. specialize (D1 c p). rewrite spec_norm_snoc by (rewrite OP, E; auto). apply D1.
      + intros c p w' Nn Ew'. rewrite Hn in Nn. rewrite H2 in Ew'.
        destruct (upd2_spec (st_sumw2 st) ch name (Some w) c p) as [(-> & -> & Ex)|[Q Ex]]; rewrite Ex in Ew'.
        * injection Ew' as <-. intros i. unfold spec_sumw2. rewrite last_of_snoc, OP, !String.eqb_refl. simpl.
          unfold store_sumw2 in Ew. destruct vars as [l|].
          { simpl in Ew. unfold flat_variances in Ew. destruct (existsb neg l); simpl in Ew; [discriminate|].
            destruct (forallb nfinite l); [|discriminate]. injection Ew as <-. destruct h; auto. }
          destruct h as [v vr|e n]; simpl in Ew.
          -- unfold flat_variances in Ew. destruct (existsb neg vr); simpl in Ew; [discriminate|].
             destruct (forallb nfinite vr); [|discriminate]. injection Ew as <-. auto.
          -- destruct (forallb nfinite _); [|discriminate]. injection Ew as <-.
             change (match find (fun x : nat * V => Nat.eqb i (fst x)) e with Some x => snd x | None => n0 end)
               with (hist_at (HSparse e n) i).
             rewrite hist_at_hden. simpl. simpl in Wh. destruct Wh as [S1 F1].
             unfold to_dense. destruct (Nat.lt_ge_cases i n).
             ++ rewrite (nth_indep _ n0 (at_or0 0 e)) by (rewrite map_length, seq_length; auto).
                rewrite (map_nth (fun i => at_or0 i e)), seq_nth by auto. auto.
             ++ rewrite nth_overflow by (rewrite map_length, seq_length; auto). symmetry. apply at_or0_out.
                intros Hin. rewrite Forall_forall in F1. apply F1 in Hin. lia.
        * assert (String.eqb c ch && String.eqb p name = false) as E.
          { apply andb_false_iff. rewrite !String.eqb_neq. destruct (string_dec c ch); tauto. }
          rewrite upd2_other in Nn by auto. intros i. rewrite spec_sumw2_snoc by (rewrite OP, E; auto). apply D2; auto.
      + intros c p s. rewrite Ha, last_of_snoc. simpl (op_avg _ _ _ _).
        destruct (upd2_spec (st_logkavg st) ch name [] c p) as [(-> & -> & ->)|[Q ->]].
        * destruct (inv_none _ _ I _ _ Hno) as [E1 _]. specialize (D3 ch name s). rewrite E1 in D3. simpl in *.
          destruct (last_of _ ops); auto.
        * assert (String.eqb c ch && String.eqb p name = false) as E.
          { apply andb_false_iff. rewrite !String.eqb_neq. destruct (string_dec c ch); tauto. }
          rewrite spec_norm_snoc by (rewrite OP, E; auto). apply D3.
      + intros c p s. rewrite Hh, last_of_snoc. simpl (op_half _ _ _ _).
        destruct (upd2_spec (st_logkhalf st) ch name [] c p) as [(-> & -> & ->)|[Q ->]].
        * destruct (inv_none _ _ I _ _ Hno) as [_ E1]. specialize (D4 ch name s). rewrite E1 in D4. simpl in *.
          destruct (last_of _ ops); auto.
        * assert (String.eqb c ch && String.eqb p name = false) as E.
          { apply andb_false_iff. rewrite !String.eqb_neq. destruct (string_dec c ch); tauto. }
          rewrite spec_norm_snoc by (rewrite OP, E; auto). apply D4.
      + rewrite Hs, D5, existsb_snoc, orb_false_r. auto.
    - destruct B as (B1 & B2 & B3 & B4 & B5 & B6 & B7 & B8 & B9).
      apply (Den_frame cfg ops st); auto; intros; congruence.
    - destruct B as (B1 & B2 & B3 & B4 & B5 & B6 & B7 & B8 & B9).
      apply (Den_frame cfg ops st); auto; intros; congruence.
    - (* AddSystematic *)
      unfold base in B. injection B as _ _ _ _ _ _ _ _ Bn B2.
      simpl in H. apply add_systematic_graph in H; auto.
      2:{ intros nm E. destruct (inv_norm _ _ I _ _ _ E) as (A1 & A2 & _). auto. }
      destruct H as (nm & N & Wn & H).
      pose proof (den_norm _ _ _ D ch p) as Dn. rewrite N in Dn. destruct Dn as (_ & Dn & Dp).
      set (nom := spec_norm (c_allowneg cfg) ops ch p) in *.
      assert (EV : forall hh i, veff (c_type cfg) kf asdiff nm hh i = tmpl_eff (c_type cfg) nom kf asdiff hh i).
      { intros hh i. unfold veff, tmpl_eff. rewrite Dn, hist_at_hden. reflexivity. }
      assert (ST : forall f e, (forall i, f i = eval_effect (c_type cfg) nom e i) ->
                forall i, lden (mk_lentry cfg nm (map f (nidx nm))) i = stored (c_type cfg) nom (Some e) i).
      { intros f e. apply mk_lentry_stored; auto. }
      (* booking one average *)
      assert (ONE : forall f e st1 n1 (L : string -> string -> dict (lentry V)),
         st_logkavg st1 = upd2 L ch p (dset n1 (mk_lentry cfg nm (map f (nidx nm))) (L ch p)) ->
         (forall i, f i = eval_effect (c_type cfg) nom e i) ->
         forall c q s, match (if String.eqb c ch && String.eqb q p then if String.eqb s n1 then Some e else None else None) with
           | Some e => exists l, dget s (st_logkavg st1 c q) = Some l /\
               forall i, lden l i = stored (c_type cfg) (spec_norm (c_allowneg cfg) ops c q) (Some e) i
           | None => dget s (st_logkavg st1 c q) = dget s (L c q) end).
      { intros f e st1 n1 L E Fe c q s. rewrite E, dget_book.
        destruct (String.eqb_spec c ch); simpl; auto. destruct (String.eqb_spec q p); simpl; auto. subst.
        destruct (String.eqb s n1); auto. eexists. split; [reflexivity|]. apply ST. auto. }
      destruct h as [h1|hu hd].
      + destruct H as [-> _]. apply (Den_book cfg ops st); auto.
        * simpl. rewrite andb_true_r. auto.
        * intros c q s. refine (ONE _ (EOne kf asdiff h1) _ name (st_logkavg st) _ (EV h1) c q s). reflexivity.
        * intros c q s. reflexivity.
      + assert (AV : forall cb, cb = CAvg \/ cb = CMax -> forall i,
             asym_avg (match cb with CMax => Conservative | _ => Average end) (veff (c_type cfg) kf asdiff nm hu i)
               (nopp (veff (c_type cfg) kf asdiff nm hd i)) = eval_effect (c_type cfg) nom (ETwo cb kf asdiff hu hd) i).
        { intros cb Hcb i. rewrite !EV. destruct Hcb as [-> | ->]; reflexivity. }
        destruct m; cbn [compute_asym_syst fst snd] in H; rewrite !map2_map in H; subst st'.
        * apply (Den_book cfg ops st); auto.
          { simpl. rewrite andb_true_r. auto. }
          { intros c q s. refine (ONE _ (ETwo CMax kf asdiff hu hd) _ name (st_logkavg st) _ (AV CMax (or_intror eq_refl)) c q s). reflexivity. }
          intros c q s. reflexivity.
        * apply (Den_book cfg ops st); auto.
          { simpl. rewrite andb_true_r. auto. }
          { intros c q s. refine (ONE _ (ETwo CAvg kf asdiff hu hd) _ name (st_logkavg st) _ (AV CAvg (or_introl eq_refl)) c q s). reflexivity. }
          intros c q s. reflexivity.
        * apply (Den_book cfg ops st); auto.
          { simpl. rewrite andb_true_r. auto. }
          2:{ intros c q s. reflexivity. }
          intros c q s.
          match goal with |- context [st_logkavg ?s2 c q] => set (st2 := s2) end.
          pose proof (ONE _ (ETwo CAvg kf asdiff hu hd) st2 (name ++ "SymAvg")%string _ eq_refl (AV CAvg (or_introl eq_refl)) c q s) as P1.
          match type of P1 with context [dget s (?L c q)] => lazymatch L with st_logkavg st2 => fail | _ => set (L1 := L) in P1 end end.
          pose (fd := fun i => asym_diff Linear (veff (c_type cfg) kf asdiff nm hu i) (nopp (veff (c_type cfg) kf asdiff nm hd i))).
          assert (FD : forall i, fd i = eval_effect (c_type cfg) nom (ETwo (CDiff n1) kf asdiff hu hd) i).
          { intros i. unfold fd. rewrite !EV. reflexivity. }
          pose proof (ONE fd _ (set_logk st L1 (st_logkhalf st) true) (name ++ "SymDiff")%string (st_logkavg st) eq_refl FD c q s) as P3.
          simpl (op_avg _ _ _ _).
          destruct (String.eqb c ch && String.eqb q p); [|simpl in P3; congruence].
          destruct (String.eqb s (name ++ "SymAvg")); auto.
          destruct (String.eqb s (name ++ "SymDiff")); simpl in P3.
          { destruct P3 as (l & Q1 & Q2). exists l. split; auto. congruence. }
          congruence.
        * apply (Den_book cfg ops st); auto.
          { simpl. rewrite andb_true_r. auto. }
          2:{ intros c q s. reflexivity. }
          intros c q s.
          match goal with |- context [st_logkavg ?s2 c q] => set (st2 := s2) end.
          pose proof (ONE _ (ETwo CAvg kf asdiff hu hd) st2 (name ++ "SymAvg")%string _ eq_refl (AV CAvg (or_introl eq_refl)) c q s) as P1.
          match type of P1 with context [dget s (?L c q)] => lazymatch L with st_logkavg st2 => fail | _ => set (L1 := L) in P1 end end.
          pose (fd := fun i => asym_diff Quadratic (veff (c_type cfg) kf asdiff nm hu i) (nopp (veff (c_type cfg) kf asdiff nm hd i))).
          assert (FD : forall i, fd i = eval_effect (c_type cfg) nom (ETwo (CDiff nsqrt3) kf asdiff hu hd) i).
          { intros i. unfold fd. rewrite !EV. reflexivity. }
          pose proof (ONE fd _ (set_logk st L1 (st_logkhalf st) true) (name ++ "SymDiff")%string (st_logkavg st) eq_refl FD c q s) as P3.
          simpl (op_avg _ _ _ _).
          destruct (String.eqb c ch && String.eqb q p); [|simpl in P3; congruence].
          destruct (String.eqb s (name ++ "SymAvg")); auto.
          destruct (String.eqb s (name ++ "SymDiff")); simpl in P3.
          { destruct P3 as (l & Q1 & Q2). exists l. split; auto. congruence. }
          congruence.
        * apply (Den_book cfg ops st); auto.
          { simpl. rewrite andb_false_r. auto. }
          { intros c q s. refine (ONE _ (ETwo CAvg kf asdiff hu hd) _ name (st_logkavg st) _ (AV CAvg (or_introl eq_refl)) c q s). reflexivity. }
          intros c q s. simpl. rewrite dget_book.
          destruct (String.eqb_spec c ch); simpl; auto. destruct (String.eqb_spec q p); simpl; auto. subst.
          destruct (String.eqb s name); auto. eexists. split; [reflexivity|].
          apply ST. intros i. rewrite !EV. reflexivity.
    - (* AddNormSystematic *)
      unfold base in B. injection B as _ _ _ _ _ _ _ _ Bn B2.
      simpl in H. apply add_norm_inv in H. destruct H as (_ & st1 & L & ->).
      apply norm_loop_graph in L. 2:{ intros p nm E. apply (inv_norm _ _ I _ _ _ E). }
      apply (booked_loop_den cfg ops) in L.
      2:{ intros p nm E. pose proof (den_norm _ _ _ D ch p) as Dn. rewrite E in Dn. destruct Dn as (_ & Dn & Dp).
          split; auto. apply (inv_norm _ _ I _ _ _ E). }
      destruct L as (E1 & E2 & E3 & E4 & E5).
      apply (Den_book cfg ops st); auto.
      + simpl. rewrite andb_true_r. auto.
      + intros c p s. specialize (E5 c p s). simpl (op_avg _ _ _ _). simpl (st_logkavg _).
        destruct (String.eqb c ch && String.eqb s name); auto.
        destruct (last_pair p (combine procs unc)) as [u|]; auto.
        destruct E5 as (e & l & U & Q1 & Q2). destruct u; simpl in U; try discriminate; injection U as <-; eauto.
      + intros c p s. simpl. rewrite E4. reflexivity.
  Qed.

  Lemma NoDup_app_l {A} (a b : list A) : NoDup (a ++ b) -> NoDup a.
  Proof.
    induction a as [|x a IH]; simpl; intros H; constructor; inversion H; subst; auto.
    intros Hin. apply H2. apply in_or_app. auto.
  Qed.
  Lemma once_stable (d : list (string * chinfo)) : NoDup (map fst d) -> flags_stable d.
  Proof.
    intros N n i j Hi Hj. assert (i = j); [|subst; auto].
    pose proof (In_dget _ _ _ N Hi). pose proof (In_dget _ _ _ N Hj). congruence.
  Qed.
  Lemma run_Den cfg ops : forall pre st st' d, run cfg st ops = Ok st' -> Forall wf_op ops -> Forall no_stored_zeros ops ->
    ChanInv st d -> NoDup (map fst (d ++ chan_decls (dkeys (st_channels st)) ops)) ->
    Inv cfg st -> KI (fun _ => False) st -> Den cfg pre st -> Den cfg (pre ++ ops) st'.
  Proof.
    pose proof once_stable as FS.
    induction ops as [|o ops IH]; intros pre st st' d H W Z C ND I K D.
    { simpl in H. injection H as <-. rewrite app_nil_r. auto. }
    apply run_cons in H. destruct H as (s & H1 & H2). inversion W; inversion Z; subst.
    pose proof (FS _ ND) as S.
    assert (ND1 : NoDup (map fst (d ++ chan_decls (dkeys (st_channels st)) [o]))).
    { rewrite chan_decls_cons, app_assoc, map_app in ND. apply NoDup_app_l in ND. auto. }
    assert (ND0 : NoDup (map fst d)). { rewrite map_app in ND1. apply NoDup_app_l in ND1. auto. }
    pose proof (FS _ ND1) as S1. pose proof (FS _ ND0) as S0.
    pose proof (step_chan _ _ _ _ _ H1 C S1) as C1.
    destruct (step_Inv _ _ _ _ _ H1 H3 C S0 C1 S1 I K) as [I1 K1].
    assert (D1 : Den cfg (pre ++ [o]) s).
    { eapply step_Den; eauto. intros n Hn Hin. rewrite (proj1 C), layout_keys in Hin.
      rewrite map_app in ND1. clear - ND1 Hn Hin. induction (map fst d); [destruct Hin|]. simpl in *. inversion ND1; subst.
      destruct Hin as [->|Hin]; auto. apply H1. apply in_or_app. auto. }
    replace (pre ++ o :: ops) with ((pre ++ [o]) ++ ops) by (rewrite <- app_assoc; auto).
    apply (IH (pre ++ [o]) s st' (d ++ chan_decls (dkeys (st_channels st)) [o])); auto.
    rewrite chan_decls_cons in ND. rewrite <- app_assoc.
    match goal with |- NoDup (map fst (_ ++ _ ++ chan_decls ?k ops)) => 
      erewrite <- (chan_decls_perm ops _ k); [exact ND|] end.
    apply NoDup_Permutation.
    - apply fold_set_add_NoDup. rewrite (proj1 C). apply layout_NoDup; auto.
    - rewrite (proj1 C1). apply layout_NoDup; auto.
    - intros x. rewrite (proj1 C1), layout_keys, map_app, in_app_iff.
      rewrite <- (layout_keys d), <- (proj1 C). rewrite fold_set_add_In. tauto.
  Qed.
  Theorem run_Den_init cfg ops st : run cfg (init_state (V := V)) ops = Ok st -> Forall wf_op ops ->
    Forall no_stored_zeros ops -> channels_once ops -> Den cfg ops st.
  Proof.
    intros H W Z N. apply (run_Den cfg ops [] init_state st []); auto.
    - split; reflexivity.
    - apply Inv_init.
    - intros c p s [].
    - apply Den_init.
  Qed.
End Denote.
