(** Consequences for single bookings: symmetrisation modes, floors, normalisation systematics. *)
From Coq Require Import List Arith Bool String Lia Permutation Sorted Reals Lra.
From Verif Require Import PyList ListUtil PyDict Order Num RBase Names_Model Writer_Model Writer_Spec
  Writer_Frame Writer_Layout Writer_Meta Writer_Inv Writer_State Writer_Arr Writer_Tensor
  Writer_Hist Writer_Denote Writer_Master.
Import ListNotations.
Local Open Scope nat_scope.
Local Open Scope string_scope.
Local Open Scope list_scope.

(** a script and the file it writes *)
Definition written {V} {NV : Num V} (cfg : config) (ops : list (op V)) (w : workspace V) : Prop :=
  exists st, run cfg init_state ops = Ok st /\ write cfg st = Ok w.
(** histories without the corner cases refuted separately *)
Definition clean {V} {NV : Num V} (ops : list (op V)) : Prop :=
  Forall wf_op ops /\ Forall no_stored_zeros ops /\ channels_once ops /\ constraint_stable ops.
(** bin [i] of channel [c] is row [b] of the tensors, process [p] is column [ip] *)
Definition at_point {V} (w : workspace V) (c p : string) (i b ip : nat) : Prop :=
  exists s e, In (c, (s, e)) (reader_ranges 0 (w_channels w)) /\ i < e - s /\ b = s + i /\
    nth_error (w_procs w) ip = Some p.
(** [o] is the last operation with an effect on the entry looked at by [f] *)
Definition last_booking {V E} (f : op V -> option E) (ops : list (op V)) (o : op V) : Prop :=
  exists o1 o2, ops = o1 ++ o :: o2 /\ Forall (fun x => f x = None) o2.

Section Effects.
  Context {V : Type} {NV : Num V} {NL : NumLaws V}.

  Lemma last_booking_of {E} (f : op V -> option E) ops o e : last_booking f ops o -> f o = Some e ->
    last_of f ops = Some e.
  Proof.
    intros (o1 & o2 & -> & F) H. change (o1 ++ o :: o2) with (o1 ++ [o] ++ o2). rewrite !last_of_app.
    replace (last_of f o2) with (@None E).
    - unfold last_of at 1. simpl. rewrite H. auto.
    - symmetry. apply last_of_None. rewrite Forall_forall in F. auto.
  Qed.

  Lemma view_point cfg ops w c p i b ip : written cfg ops w -> clean ops -> at_point w c p i b ip ->
    view_norm (w_tensors w) b ip = spec_norm (c_allowneg cfg) ops c p i /\
    w_sumw w b ip = spec_norm (c_allowneg cfg) ops c p i /\
    w_sumw2 w b ip = spec_sumw2 ops c p i /\
    forall k n, nth_error (w_systs w) k = Some n ->
      view_logk (w_tensors w) b ip k = spec_avg cfg ops c p n i /\
      (w_symmetric w = false ->
       view_logk (w_tensors w) b ip (List.length (w_systs w) + k) = spec_half cfg ops c p n i).
  Proof.
    intros (st & R & W) (C1 & C2 & C3 & C4) (s & e & P1 & P2 & -> & P3).
    destruct (tensors_denote cfg ops st w R W C1 C2 C3 C4) as [_ T]. apply (T c s e); auto.
  Qed.
  Lemma symmetric_iff cfg ops w : written cfg ops w -> clean ops ->
    w_symmetric w = negb (existsb is_asym ops).
  Proof.
    intros (st & R & W) (C1 & C2 & C3 & C4).
    destruct (tensors_denote cfg ops st w R W C1 C2 C3 C4) as [T _]. auto.
  Qed.
  Lemma asym_false cfg ops w o : written cfg ops w -> clean ops -> In o ops -> is_asym o = true ->
    w_symmetric w = false.
  Proof.
    intros Wr Cl H A. rewrite (symmetric_iff cfg ops w Wr Cl). apply negb_false_iff. apply existsb_exists. eauto.
  Qed.

  (** the value found for a nuisance where the nominal is not zero *)
  Lemma view_booked cfg ops w c p i b ip o e k n :
    written cfg ops w -> clean ops -> at_point w c p i b ip ->
    nth_error (w_systs w) k = Some n -> last_booking (op_avg c p n) ops o -> op_avg c p n o = Some e ->
    view_logk (w_tensors w) b ip k =
      stored (c_type cfg) (spec_norm (c_allowneg cfg) ops c p) (Some e) i.
  Proof.
    intros Wr Cl P K L E. destruct (view_point cfg ops w c p i b ip Wr Cl P) as (_ & _ & _ & H).
    destruct (H k n K) as [H1 _]. rewrite H1. unfold spec_avg. rewrite (last_booking_of _ _ _ _ L E). auto.
  Qed.
  Lemma view_booked_half cfg ops w c p i b ip o e k n :
    written cfg ops w -> clean ops -> at_point w c p i b ip -> is_asym o = true ->
    nth_error (w_systs w) k = Some n -> last_booking (op_half c p n) ops o -> op_half c p n o = Some e ->
    view_logk (w_tensors w) b ip (List.length (w_systs w) + k) =
      stored (c_type cfg) (spec_norm (c_allowneg cfg) ops c p) (Some e) i.
  Proof.
    intros Wr Cl P A K L E. destruct (view_point cfg ops w c p i b ip Wr Cl P) as (_ & _ & _ & H).
    destruct (H k n K) as [_ H1]. rewrite H1.
    - unfold spec_half. rewrite (last_booking_of _ _ _ _ L E). auto.
    - eapply asym_false; eauto. destruct L as (o1 & o2 & -> & _). apply in_app_iff. simpl. auto.
  Qed.
  Lemma stored_nz t nom e i : nom i <> n0 -> stored t nom (Some e) i = eval_effect t nom e i.
  Proof. intros H. unfold stored. destruct (neq0 (nom i)) eqn:N; auto. apply neq0_spec in N. contradiction. Qed.

  (** non-populated bins carry no variation, whatever was booked *)
  Theorem unpopulated_zero cfg ops w c p i b ip : written cfg ops w -> clean ops -> at_point w c p i b ip ->
    spec_norm (c_allowneg cfg) ops c p i = n0 ->
    forall k, k < (if w_symmetric w then 1 else 2) * List.length (w_systs w) -> view_logk (w_tensors w) b ip k = n0.
  Proof.
    intros Wr Cl P Z k K. destruct (view_point cfg ops w c p i b ip Wr Cl P) as (_ & _ & _ & H).
    assert (ST : forall e, stored (c_type cfg) (spec_norm (c_allowneg cfg) ops c p) e i = n0).
    { intros [e|]; simpl; auto. rewrite Z. destruct (neq0 n0) eqn:N; auto.
      assert (neq0 n0 = true) by (apply neq0_spec; auto). congruence. }
    destruct (Nat.lt_ge_cases k (List.length (w_systs w))) as [L|L].
    - destruct (nth_error (w_systs w) k) as [n|] eqn:N; [|apply nth_error_None in N; lia].
      destruct (H k n N) as [A _]. rewrite A. apply ST.
    - destruct (w_symmetric w); [lia|].
      destruct (nth_error (w_systs w) (k - List.length (w_systs w))) as [n|] eqn:N; [|apply nth_error_None in N; lia].
      destruct (H _ n N) as [_ A]. replace (List.length (w_systs w) + (k - List.length (w_systs w))) with k in A by lia.
      rewrite A by auto. apply ST.
  Qed.

  (** a failed add_systematic leaves the writer as it was *)
  Theorem add_systematic_atomic cfg st h n p c kf mi m ad kw st' e :
    step cfg st (AddSystematic h n p c kf mi m ad kw) = (st', Some e) -> st' = st.
  Proof.
    simpl. unfold add_systematic. destruct (st_norm st c p) as [nm|]; [|congruence].
    destruct h as [h1|hu hd].
    - destruct mi; [|congruence]. destruct (check_hist st h1 c); [congruence|].
      destruct (rbind _ _); congruence.
    - destruct (check_hist st hu c); [congruence|]. destruct (check_hist st hd c); [congruence|].
      destruct (rbind _ _) as [[ku kd]|]; [|congruence].
      destruct (compute_asym_syst _ _ _ _ _ _ _ _ _ _); congruence.
  Qed.
  (** a template with a non-finite entry in a bin that is looked at is rejected *)
  Theorem nonfinite_process cfg st v vs n c sg var i : st_norm st c n = None ->
    i < List.length v -> nfinite (spec_clip (c_allowneg cfg) (nth i v n0)) = false ->
    exists st', step cfg st (AddProcess (HDense v vs) n c sg var) = (st', Some RuntimeError) /\
      st_norm st' = st_norm st /\ st_sumw2 st' = st_sumw2 st.
  Proof.
    intros N L F. simpl. unfold add_process. rewrite N. destruct (check_hist st (HDense v vs) c) as [x|] eqn:CH.
    { exists st. unfold check_hist in CH. destruct (dget c (st_channels st)); [destruct (Nat.eqb _ _)|]; try congruence; 
        injection CH as <-; auto. }
    assert (X : forallb nfinite (if c_allowneg cfg then v else map clip0 v) = false).
    { apply not_true_iff_false. intros X. rewrite forallb_forall in X. unfold spec_clip in F.
      assert (In (if c_allowneg cfg then nth i v n0 else if nlt (nth i v n0) n0 then n0 else nth i v n0)
                 (if c_allowneg cfg then v else map clip0 v)).
      { destruct (c_allowneg cfg). { apply nth_In; auto. }
        apply in_map_iff. exists (nth i v n0). split; auto. apply nth_In; auto. }
      apply X in H. congruence. }
    unfold store_norm. rewrite X.
    eexists. split; [reflexivity|]. destruct sg; auto.
  Qed.
  Theorem nonfinite_systematic cfg st v vs n p c kf mi m ad kw nm i :
    st_norm st c p = Some nm -> In i (nidx nm) -> wf_norm cfg nm ->
    (ad = false -> nfinite (nth i v n0) = false) ->
    (ad = true -> nfinite (nadd (nden nm i) (nth i v n0)) = false) ->
    List.length v = nsize nm ->
    exists e, step cfg st (AddSystematic (SSingle (HDense v vs)) n p c kf mi m ad kw) = (st, Some e).
  Proof.
    intros N I W F1 F2 L. simpl. unfold add_systematic. rewrite N. destruct mi; [|eauto].
    destruct (check_hist st _ c); [eauto|].
    assert (SV : syst_vals nm (HDense v vs) = Ok (map (fun i => nth i v n0) (nidx nm))).
    { destruct nm as [l|e z]; simpl; auto. simpl in L. f_equal. symmetry.
      rewrite <- L. apply map_nth_seq. }
    rewrite SV. cbn [rbind].
    assert (NVG := norm_vals_graph cfg nm W).
    assert (X : forallb nfinite (shift ad (norm_vals nm) (map (fun i => nth i v n0) (nidx nm))) = false).
    { apply not_true_iff_false. intros X. rewrite forallb_forall in X.
      destruct ad; simpl in X.
      - specialize (F2 eq_refl). rewrite NVG in X.
        assert (H : In (nadd (nden nm i) (nth i v n0)) (map2 nadd (map (nden nm) (nidx nm)) (map (fun i => nth i v n0) (nidx nm)))).
        { unfold map2. apply in_map_iff. exists (nden nm i, nth i v n0). split; auto.
          clear -I. induction (nidx nm) as [|j l IH]; [contradiction|]. simpl. destruct I as [->|I]; auto. }
        apply X in H. congruence.
      - specialize (F1 eq_refl). assert (H : In (nth i v n0) (map (fun i => nth i v n0) (nidx nm))) by (apply in_map_iff; eauto).
        apply X in H. congruence. }
    unfold get_logk. rewrite X. eauto.
  Qed.
End Effects.

(** *** over the reals *)
Local Open Scope R_scope.
Section Modes.
  Variables (cfg : config) (ops : list (op R)) (w : workspace R).
  Hypotheses (Wr : written cfg ops w) (Cl : clean ops).
  Variables (c p : string) (i b ip : nat).
  Hypothesis (P : at_point w c p i b ip).
  Let nom := spec_norm (c_allowneg cfg) ops c p.
  Hypothesis (NZ : nom i <> 0).
  Variables (u d : histo R) (n : string) (kf : R) (mi ad : bool) (kw : kwargs).
  Let U := tmpl_eff (c_type cfg) nom kf ad u i.
  Let D := tmpl_eff (c_type cfg) nom kf ad d i.
  Let o m := AddSystematic (SPair u d) n p c kf mi m ad kw.

  Lemma eqb_cp : (String.eqb c c && String.eqb p p = true)%bool.
  Proof. rewrite !String.eqb_refl. auto. Qed.

  Theorem mode_average k : nth_error (w_systs w) k = Some n -> last_booking (op_avg c p n) ops (o Average) ->
    view_logk (w_tensors w) b ip k = (U + - D) / 2.
  Proof.
    intros K L. erewrite view_booked; eauto.
    2:{ simpl. rewrite eqb_cp, String.eqb_refl. reflexivity. }
    rewrite stored_nz by exact NZ. cbn. fold nom. unfold U, D. field.
  Qed.
  Theorem mode_conservative k : nth_error (w_systs w) k = Some n -> last_booking (op_avg c p n) ops (o Conservative) ->
    let v := view_logk (w_tensors w) b ip k in
    (v = U \/ v = - D) /\ Rabs U <= Rabs v /\ Rabs D <= Rabs v.
  Proof.
    intros K L v. subst v. erewrite view_booked; eauto.
    2:{ simpl. rewrite eqb_cp, String.eqb_refl. reflexivity. }
    rewrite stored_nz by exact NZ. cbn -[Rabs]. fold nom. fold U. fold D.
    rewrite Rabs_Ropp. destruct (Rltb_spec (Rabs D) (Rabs U)).
    - split; auto. lra.
    - split; auto. rewrite Rabs_Ropp. lra.
  Qed.
  Theorem mode_linear k1 k2 : nth_error (w_systs w) k1 = Some (n ++ "SymAvg")%string ->
    nth_error (w_systs w) k2 = Some (n ++ "SymDiff")%string ->
    last_booking (op_avg c p (n ++ "SymAvg")) ops (o Linear) ->
    last_booking (op_avg c p (n ++ "SymDiff")) ops (o Linear) ->
    let a := view_logk (w_tensors w) b ip k1 in let f := view_logk (w_tensors w) b ip k2 in
    a + f = U /\ f - a = D.
  Proof.
    intros K1 K2 L1 L2 a f. subst a f.
    assert (NE : String.eqb (n ++ "SymDiff") (n ++ "SymAvg") = false).
    { apply String.eqb_neq. clear. induction n as [|x s IH]; simpl; [discriminate|]. intros E. injection E as E. auto. }
    erewrite (view_booked cfg ops w c p i b ip _ _ k1); eauto.
    2:{ cbn [op_avg o]. unfold o. cbn [op_avg]. rewrite eqb_cp, String.eqb_refl. reflexivity. }
    erewrite (view_booked cfg ops w c p i b ip _ _ k2); eauto.
    2:{ unfold o. cbn [op_avg]. rewrite eqb_cp, NE, String.eqb_refl. reflexivity. }
    rewrite !stored_nz by exact NZ. cbn. fold nom. unfold U, D. split; field.
  Qed.
  Theorem mode_quadratic k1 k2 : nth_error (w_systs w) k1 = Some (n ++ "SymAvg")%string ->
    nth_error (w_systs w) k2 = Some (n ++ "SymDiff")%string ->
    last_booking (op_avg c p (n ++ "SymAvg")) ops (o Quadratic) ->
    last_booking (op_avg c p (n ++ "SymDiff")) ops (o Quadratic) ->
    let a := view_logk (w_tensors w) b ip k1 in let f := view_logk (w_tensors w) b ip k2 in
    a + f / sqrt 3 = U /\ f / sqrt 3 - a = D.
  Proof.
    intros K1 K2 L1 L2 a f. subst a f.
    assert (NE : String.eqb (n ++ "SymDiff") (n ++ "SymAvg") = false).
    { apply String.eqb_neq. clear. induction n as [|x s IH]; simpl; [discriminate|]. intros E. injection E as E. auto. }
    erewrite (view_booked cfg ops w c p i b ip _ _ k1); eauto.
    2:{ unfold o. cbn [op_avg]. rewrite eqb_cp, String.eqb_refl. reflexivity. }
    erewrite (view_booked cfg ops w c p i b ip _ _ k2); eauto.
    2:{ unfold o. cbn [op_avg]. rewrite eqb_cp, NE, String.eqb_refl. reflexivity. }
    rewrite !stored_nz by exact NZ. cbn -[sqrt]. fold nom. unfold U, D.
    assert (sqrt 3 <> 0) by (apply Rgt_not_eq, sqrt_lt_R0; lra).
    split; field; auto.
  Qed.
  Theorem mode_none k : nth_error (w_systs w) k = Some n -> last_booking (op_avg c p n) ops (o NoSym) ->
    let a := view_logk (w_tensors w) b ip k in
    let h := view_logk (w_tensors w) b ip (List.length (w_systs w) + k) in
    w_symmetric w = false /\ a + h = U /\ h - a = D.
  Proof.
    intros K L a h. subst a h.
    assert (L2 : last_booking (op_half c p n) ops (o NoSym)).
    { destruct L as (o1 & o2 & E & F). exists o1, o2. split; auto. rewrite Forall_forall in *. intros x Hx.
      specialize (F x Hx). destruct x; auto. destruct h; auto. destruct m; auto. simpl in *.
      destruct (String.eqb c ch && String.eqb p p0)%bool; auto. simpl. destruct (String.eqb n name); auto. discriminate. }
    split. { eapply asym_false; eauto. 2:{ instantiate (1 := o NoSym). reflexivity. }
             destruct L as (o1 & o2 & -> & _). apply in_app_iff. simpl. auto. }
    erewrite view_booked; eauto.
    2:{ unfold o. cbn [op_avg]. rewrite eqb_cp, String.eqb_refl. reflexivity. }
    erewrite view_booked_half; eauto.
    2:{ reflexivity. }
    2:{ unfold o. cbn [op_half]. rewrite eqb_cp, String.eqb_refl. reflexivity. }
    rewrite !stored_nz by exact NZ. cbn. fold nom. unfold U, D. split; field.
  Qed.
End Modes.

Lemma last_pair_nth {B} (ps : list string) (us : list B) : forall j p u,
  NoDup ps -> nth_error ps j = Some p -> nth_error us j = Some u -> last_pair p (combine ps us) = Some u.
Proof.
  unfold last_pair.
  assert (G : forall ps (us : list B) p acc, ~ In p ps ->
    fold_left (fun acc x => if String.eqb p (fst x) then Some (snd x) else acc) (combine ps us) acc = acc).
  { induction ps0 as [|q ps0 IH]; intros [|u us0] p acc H; simpl; auto.
    destruct (String.eqb_spec p q). { subst. exfalso. apply H. simpl. auto. }
    apply IH. intros X. apply H. simpl. auto. }
  assert (F : forall (ps : list string) (us : list B) acc j p u,
    NoDup ps -> nth_error ps j = Some p -> nth_error us j = Some u ->
    fold_left (fun acc x => if String.eqb p (fst x) then Some (snd x) else acc) (combine ps us) acc = Some u).
  { clear ps us. induction ps as [|q ps IH]; intros us acc j p u N H1 H2; [destruct j; discriminate|].
    inversion N as [|? ? N1 N2]; subst. destruct us as [|v us]; [destruct j; discriminate|].
    destruct j as [|j]; simpl in *.
    - injection H1 as ->. injection H2 as ->. rewrite String.eqb_refl. apply G; auto.
    - eapply IH; eauto. }
  intros. eapply F; eauto.
Qed.

Section Values.
  Variables (cfg : config) (ops : list (op R)) (w : workspace R).
  Hypotheses (Wr : written cfg ops w) (Cl : clean ops).
  Variables (c p : string) (i b ip : nat).
  Hypothesis (P : at_point w c p i b ip).
  Let nom := spec_norm (c_allowneg cfg) ops c p.
  Hypothesis (NZ : nom i <> 0).

  Theorem single_value n kf mi m (h : histo R) kw k :
    c_type cfg = LogNormal ->
    nth_error (w_systs w) k = Some n ->
    last_booking (op_avg c p n) ops (AddSystematic (SSingle h) n p c kf mi m false kw) ->
    (0 < nom i * hist_at h i -> view_logk (w_tensors w) b ip k = kf * ln (hist_at h i / nom i)) /\
    (~ 0 < nom i * hist_at h i -> view_logk (w_tensors w) b ip k = ln (1/1000)).
  Proof.
    intros T K L. erewrite view_booked; eauto.
    2:{ cbn [op_avg]. rewrite !String.eqb_refl. reflexivity. }
    rewrite stored_nz by exact NZ. rewrite T. cbn. fold nom. split; intros H.
    - rewrite Rltb_true; auto.
    - rewrite Rltb_false; auto.
  Qed.
  Theorem single_value_normal n kf mi m (h : histo R) kw k :
    c_type cfg = Normal ->
    nth_error (w_systs w) k = Some n ->
    last_booking (op_avg c p n) ops (AddSystematic (SSingle h) n p c kf mi m false kw) ->
    view_logk (w_tensors w) b ip k = kf * (hist_at h i - nom i).
  Proof.
    intros T K L. erewrite view_booked; eauto.
    2:{ cbn [op_avg]. rewrite !String.eqb_refl. reflexivity. }
    rewrite stored_nz by exact NZ. rewrite T. cbn. fold nom. auto.
  Qed.
  (** [as_difference]: the template is the change of the nominal *)
  Theorem single_value_diff n kf mi m (h : histo R) kw k :
    c_type cfg = Normal ->
    nth_error (w_systs w) k = Some n ->
    last_booking (op_avg c p n) ops (AddSystematic (SSingle h) n p c kf mi m true kw) ->
    view_logk (w_tensors w) b ip k = kf * hist_at h i.
  Proof.
    intros T K L. erewrite view_booked; eauto.
    2:{ cbn [op_avg]. rewrite !String.eqb_refl. reflexivity. }
    rewrite stored_nz by exact NZ. rewrite T. cbn. fold nom. ring.
  Qed.

  Variables (ps : list string) (us : list (uncval R)) (j : nat) (n : string) (m : symmode) (kw : kwargs) (k : nat).
  Hypotheses (K : nth_error (w_systs w) k = Some n)
    (L : last_booking (op_avg c p n) ops (AddNormSystematic n ps c us m kw))
    (Np : NoDup ps) (Jp : nth_error ps j = Some p).

  Theorem norm_scalar x : nth_error us j = Some (UScalar x) -> 0 < x ->
    view_logk (w_tensors w) b ip k =
      match c_type cfg with LogNormal => ln x | Normal => nom i * (x - 1) end.
  Proof.
    intros J X. pose proof (last_pair_nth ps us j p _ Np Jp J) as LP.
    erewrite view_booked; eauto.
    2:{ cbn [op_avg]. rewrite !String.eqb_refl, LP. reflexivity. }
    rewrite stored_nz by exact NZ. cbn. unfold norm_eff. fold nom. destruct (c_type cfg); cbn.
    - rewrite Rltb_true.
      + replace (nom i * x / nom i) with x by (field; exact NZ). ring.
      + replace (nom i * (nom i * x)) with ((nom i)² * x) by (unfold Rsqr; ring).
        apply Rmult_lt_0_compat; auto. apply Rlt_0_sqr. exact NZ.
    - ring.
  Qed.
  Theorem norm_pair x y : nth_error us j = Some (UPair x y) -> 0 < x -> 0 < y -> m <> Conservative ->
    view_logk (w_tensors w) b ip k =
      match c_type cfg with LogNormal => (ln x - ln y) / 2 | Normal => nom i * (x - y) / 2 end.
  Proof.
    intros J X Y M. pose proof (last_pair_nth ps us j p _ Np Jp J) as LP.
    erewrite view_booked; eauto.
    2:{ cbn [op_avg]. rewrite !String.eqb_refl, LP. reflexivity. }
    rewrite stored_nz by exact NZ.
    assert (SQ : forall z, 0 < z -> 0 < nom i * (nom i * z)).
    { intros z Hz. replace (nom i * (nom i * z)) with ((nom i)² * z) by (unfold Rsqr; ring).
      apply Rmult_lt_0_compat; auto. apply Rlt_0_sqr. exact NZ. }
    destruct m; try contradiction; cbn; unfold norm_eff; fold nom; destruct (c_type cfg); cbn;
      rewrite ?(Rltb_true _ _ (SQ x X)), ?(Rltb_true _ _ (SQ y Y));
      try replace (nom i * x / nom i) with x by (field; exact NZ);
      try replace (nom i * y / nom i) with y by (field; exact NZ); field.
  Qed.
  Theorem norm_pair_conservative x y : nth_error us j = Some (UPair x y) -> 0 < x -> 0 < y -> m = Conservative ->
    c_type cfg = LogNormal ->
    let v := view_logk (w_tensors w) b ip k in
    (v = ln x \/ v = - ln y) /\ Rabs (ln x) <= Rabs v /\ Rabs (ln y) <= Rabs v.
  Proof.
    intros J X Y M T v. subst v. pose proof (last_pair_nth ps us j p _ Np Jp J) as LP.
    erewrite view_booked; eauto.
    2:{ cbn [op_avg]. rewrite !String.eqb_refl, LP. reflexivity. }
    rewrite stored_nz by exact NZ.
    assert (SQ : forall z, 0 < z -> 0 < nom i * (nom i * z)).
    { intros z Hz. replace (nom i * (nom i * z)) with ((nom i)² * z) by (unfold Rsqr; ring).
      apply Rmult_lt_0_compat; auto. apply Rlt_0_sqr. exact NZ. }
    rewrite M, T. cbn -[Rabs]. unfold norm_eff. cbn -[Rabs]. fold nom.
    rewrite (Rltb_true _ _ (SQ x X)), (Rltb_true _ _ (SQ y Y)).
    replace (nom i * x / nom i) with x by (field; exact NZ).
    replace (nom i * y / nom i) with y by (field; exact NZ).
    rewrite !Rmult_1_l, Rabs_Ropp. destruct (Rltb_spec (Rabs (ln y)) (Rabs (ln x))).
    - split; auto; lra.
    - rewrite Rabs_Ropp. split; auto; lra.
  Qed.
End Values.
