(** Mixture models. *)
From Coq Require Import Reals List Arith ZArith Bool String Lia Lra.
From Verif Require Import RBase PyList PyDict ListUtil Yields_Model Init_Model Param_Model Param_Spec Param_Comp.
Import ListNotations.
Open Scope R_scope.

Lemma scatter_from (ups : list (nat * R)) (b : nat) : forall acc, NoDup (map fst ups) ->
  (forall v, In (b, v) ups -> fold_left (fun acc u => if Nat.eqb (fst u) b then snd u else acc) ups acc = v) /\
  (~ In b (map fst ups) -> fold_left (fun acc u => if Nat.eqb (fst u) b then snd u else acc) ups acc = acc).
Proof.
  induction ups as [|[i w] ups IH]; intros acc ND; cbn [fold_left map fst snd]; [split; [intros v []|auto]|].
  cbn [map fst] in ND. inversion ND; subst. destruct (Nat.eqb_spec i b) as [->|N].
  - split; [|intros H; exfalso; apply H; simpl; auto]. intros v [E|I].
    + injection E as <-. apply (proj2 (IH w H2)). auto.
    + exfalso. apply H1. apply (in_map fst) in I. auto.
  - split; [|intros H; apply (proj2 (IH acc H2)); intros I; apply H; simpl; auto].
    intros v [E|I]; [congruence|]. apply (proj1 (IH acc H2)). auto.
Qed.
Lemma scatter_hit ups b v : NoDup (map fst ups) -> In (b, v) ups -> scatter_ones ups b = v.
Proof. intros H I. apply (scatter_from ups b 1 H). auto. Qed.
Lemma scatter_miss ups b : ~ In b (map fst ups) -> scatter_ones ups b = 1.
Proof.
  unfold scatter_ones. generalize 1. induction ups as [|[i w] ups IH]; intros acc H; auto. cbn [fold_left fst snd]. simpl in H.
  destruct (Nat.eqb_spec i b); [tauto|]. apply IH. tauto.
Qed.
(** positions of the selected names *)
Lemma where_in_pos l sel : forall k, map fst (filter (fun p => smem (snd p) sel) (combine (seq k (List.length l)) l)) =
  filter (fun i => match nth_error l (i - k) with Some s => smem s sel | None => false end) (seq k (List.length l)).
Proof.
  induction l as [|s l IH]; intros k; auto. cbn [List.length seq combine filter snd fst]. rewrite Nat.sub_diag. cbn [nth_error].
  assert (E : filter (fun i => match nth_error (s :: l) (i - k) with Some s => smem s sel | None => false end) (seq (S k) (List.length l)) =
              filter (fun i => match nth_error l (i - S k) with Some s => smem s sel | None => false end) (seq (S k) (List.length l))).
  { apply filter_ext_in. intros i I. apply in_seq in I. destruct (i - k)%nat as [|q] eqn:Q; [lia|]. cbn [nth_error]. replace (i - S k)%nat with q by lia. auto. }
  destruct (smem s sel); cbn [map fst]; rewrite IH, E; auto.
Qed.
Lemma where_in_NoDup l sel : NoDup (where_in l sel).
Proof. unfold where_in. rewrite where_in_pos. apply NoDup_filter', seq_NoDup. Qed.
Lemma where_in_In l sel i : In i (where_in l sel) <-> exists s, nth_error l i = Some s /\ In s sel.
Proof.
  unfold where_in. rewrite where_in_pos, filter_In, in_seq, Nat.sub_0_r. split.
  - intros (_ & H). destruct (nth_error l i) as [s|] eqn:E; [|discriminate]. exists s. split; auto. apply smem_In. auto.
  - intros (s & E & I). rewrite E. split; [|apply smem_In; auto]. assert (i < List.length l)%nat by (apply nth_error_Some; congruence). lia.
Qed.
(** the k-th position belongs to the k-th selected name, in the order of the list *)
Lemma where_in_nth l sel : Forall2 (fun i s => nth_error l i = Some s) (where_in l sel) (filter (fun s => smem s sel) l).
Proof.
  unfold where_in.
  assert (G : forall k pre, List.length pre = k -> Forall2 (fun i s => nth_error (pre ++ l) i = Some s)
    (map fst (filter (fun p => smem (snd p) sel) (combine (seq k (List.length l)) l))) (filter (fun s => smem s sel) l)).
  { induction l as [|s l IH]; intros k pre L; [constructor|]. cbn [List.length seq combine filter snd].
    assert (R : Forall2 (fun i s0 => nth_error (pre ++ s :: l) i = Some s0) (map fst (filter (fun p => smem (snd p) sel) (combine (seq (S k) (List.length l)) l))) (filter (fun s0 => smem s0 sel) l)).
    { replace (pre ++ s :: l) with ((pre ++ [s]) ++ l) by (rewrite <- app_assoc; auto). apply IH. rewrite app_length. simpl. lia. }
    destruct (smem s sel); auto. cbn [map fst]. constructor; auto. rewrite nth_error_app2, L, Nat.sub_diag by lia. reflexivity. }
  apply (G 0%nat []). reflexivity.
Qed.
Lemma where_in_len l sel : NoDup l -> NoDup sel -> (forall s, In s sel -> In s l) -> List.length (where_in l sel) = List.length sel.
Proof.
  intros NL NS H. rewrite (Forall2_len _ _ _ (where_in_nth l sel)).
  apply Nat.le_antisymm; apply NoDup_incl_length.
  - apply NoDup_filter'. auto.
  - intros s I. apply filter_In in I as (_ & I). apply smem_In in I. auto.
  - auto.
  - intros s I. apply filter_In. split; auto. apply smem_In. auto.
Qed.
Lemma Forall2_nth {A B} (P : A -> B -> Prop) l m k a b : Forall2 P l m -> nth_error l k = Some a -> nth_error m k = Some b -> P a b.
Proof. intros H. revert k. induction H; intros [|k] E F; simpl in *; try discriminate; [congruence|eauto]. Qed.
Lemma nth_error_combine {A B} (l : list A) (m : list B) k a b : nth_error l k = Some a -> nth_error m k = Some b -> nth_error (combine l m) k = Some (a, b).
Proof. revert m k. induction l; intros [|y m] [|k] E F; simpl in *; try discriminate; [congruence|auto]. Qed.
Lemma NoDup_nth {A} (l : list A) i j x : NoDup l -> nth_error l i = Some x -> nth_error l j = Some x -> i = j.
Proof. intros. eapply NoDup_nth_error; eauto. - apply nth_error_Some. congruence. - congruence. Qed.
(** what the code does for any order of the two lists: the pairs are those of the process axis *)
Theorem mixture_axis_order d ps cs x full :
  NoDup (pd_procs d) -> NoDup ps -> NoDup cs -> (forall s, In s ps -> ~ In s cs) ->
  (forall s, In s ps -> In s (pd_procs d)) -> (forall s, In s cs -> In s (pd_procs d)) ->
  List.length cs = List.length ps -> List.length x = List.length ps ->
  exists r, mixture_compute d (List.length ps) (where_in (pd_procs d) ps) (where_in (pd_procs d) cs) x full = Ok r /\ (forall n, rn_fits r n = true) /\
    mixes d (filter (fun s => smem s ps) (pd_procs d)) (filter (fun s => smem s cs) (pd_procs d)) x r.
Proof.
  intros ND NP NC Dis Ip Ic Lc Lx. set (P := pd_procs d) in *.
  assert (L1 : List.length (where_in P ps) = List.length ps) by (apply where_in_len; auto).
  assert (L2 : List.length (where_in P cs) = List.length ps) by (rewrite where_in_len; auto).
  unfold mixture_compute. rewrite Lx, Nat.eqb_refl. cbn [negb]. rewrite !app_length, map_length, L1, L2, Lx, Nat.eqb_refl.
  eexists. split; [reflexivity|]. split; [reflexivity|].
  set (ups := combine (where_in P ps ++ where_in P cs) (x ++ map (fun v => 1 - v) x)).
  assert (MF : map fst ups = where_in P ps ++ where_in P cs) by (apply map_fst_combine; rewrite !app_length, map_length; lia).
  assert (NU : NoDup (map fst ups)).
  { rewrite MF. apply NoDup_app'; try apply where_in_NoDup. intros i I J. apply where_in_In in I as (s & E & I). apply where_in_In in J as (s' & E' & J).
    rewrite E in E'. injection E' as <-. apply (Dis s); auto. }
  split.
  - intros k p c v i j Kp Kc Kv Ei Ej b. cbn [rn_bcast].
    assert (Kl : (k < List.length ps)%nat) by (rewrite <- Lx; apply nth_error_Some; congruence).
    destruct (nth_error (where_in P ps) k) as [i'|] eqn:Wi; [|apply nth_error_None in Wi; lia].
    destruct (nth_error (where_in P cs) k) as [j'|] eqn:Wj; [|apply nth_error_None in Wj; lia].
    pose proof (Forall2_nth _ _ _ _ _ _ (where_in_nth P ps) Wi Kp) as Ei'. pose proof (Forall2_nth _ _ _ _ _ _ (where_in_nth P cs) Wj Kc) as Ej'. cbn beta in *.
    rewrite (NoDup_nth _ _ _ _ ND Ei Ei'). rewrite (NoDup_nth _ _ _ _ ND Ej Ej'). split; (apply scatter_hit; [auto|]).
    + apply nth_error_In with k. unfold ups. apply nth_error_combine; (rewrite nth_error_app1; [auto|lia]).
    + apply nth_error_In with (List.length ps + k)%nat. unfold ups. apply nth_error_combine; rewrite nth_error_app2 by lia.
      * rewrite L1. replace (_ + _ - _)%nat with k by lia. auto.
      * rewrite Lx. replace (_ + _ - _)%nat with k by lia. rewrite nth_error_map', Kv. reflexivity.
  - intros i p Ei Np Nc b. cbn [rn_bcast]. apply scatter_miss. rewrite MF. intros I.
    apply in_app_iff in I as [I|I]; apply where_in_In in I as (s & E & I); fold P in E; fold P in Ei; rewrite Ei in E; injection E as <-.
    + apply Np. apply filter_In. split; [eapply nth_error_In; eauto|apply smem_In; auto].
    + apply Nc. apply filter_In. split; [eapply nth_error_In; eauto|apply smem_In; auto].
Qed.
Lemma subseq_In {A} (a b : list A) x : subseq a b -> In x a -> In x b.
Proof. intros H. induction H; simpl; [tauto|intros [->|I]; auto|auto]. Qed.
Lemma subseq_NoDup {A} (a b : list A) : subseq a b -> NoDup b -> NoDup a.
Proof. intros H. induction H; intros N; [constructor| |inversion N; auto]. inversion N; subst. constructor; auto. intros I. apply H2. eapply subseq_In; eauto. Qed.
Lemma smem_cons_other s x l : s <> x -> smem s (x :: l) = smem s l.
Proof. intros N. unfold smem. cbn [existsb]. destruct (String.eqb_spec s x); [congruence|auto]. Qed.
Lemma subseq_filter sel l : subseq sel l -> NoDup l -> filter (fun s => smem s sel) l = sel.
Proof.
  intros H. induction H as [l|x a b H IH|x a b H IH]; intros N.
  - apply filter_false. auto.
  - inversion N; subst. cbn [filter]. replace (smem x (x :: a)) with true by (symmetry; apply smem_In; simpl; auto). f_equal.
    transitivity (filter (fun s => smem s a) b); [|auto]. apply filter_ext_in. intros s I. apply smem_cons_other. intros ->. auto.
  - inversion N; subst. cbn [filter]. replace (smem x a) with false; auto. symmetry. apply not_true_iff_false. intros I. apply smem_In in I. apply H2. eapply subseq_In; eauto.
Qed.
Lemma set_default_len names k e an dft : set_param_default names k e an = Ok dft -> List.length dft = List.length names.
Proof.
  unfold set_param_default. intros H.
  assert (S : forall sig d d', scatter_defaults names sig d = Ok d' -> List.length d' = List.length d).
  { assert (U : forall i (v : R) l, List.length (upd_nth i v l) = List.length l) by (induction i; intros v [|a l]; simpl; auto).
    induction sig as [|[s v] sig IH]; intros d d' E; cbn [scatter_defaults] in E; [congruence|]. destruct (index_of s names); [|discriminate]. apply IH in E. rewrite E. apply U. }
  destruct e as [l|].
  - destruct (scatter_defaults names l (map (fun _ => 1) names)) as [d|] eqn:E; [|discriminate]. cbn [rbind] in H. apply S in E. rewrite map_length in E. injection H as <-.
    rewrite app_length, skipn_length. destruct an; rewrite ?map_length, firstn_length; lia.
  - cbn [rbind] in H. injection H as <-. rewrite app_length, skipn_length. destruct an; rewrite ?map_length, firstn_length, map_length; lia.
Qed.
Theorem mixture_spec d ps cs e an m x full : mixture_model d ps cs e an = Ok m -> NoDup (pd_procs d) ->
  subseq ps (pd_procs d) -> subseq cs (pd_procs d) -> (forall s, In s ps -> ~ In s cs) -> List.length x = nparams m ->
  m_params m = map (fun pc => (fst pc ++ "_" ++ snd pc ++ "_mixing")%string) (combine ps cs) /\ nparams m = List.length ps /\
  exists r, m_compute m x full = Ok r /\ (forall n, rn_fits r n = true) /\ mixes d ps cs x r.
Proof.
  unfold mixture_model. intros H ND Sp Sc Dis L. destruct (Nat.eqb_spec (List.length ps) (List.length cs)) as [Ln|]; [cbn [negb] in H|discriminate].
  destruct (negb (forallb (fun p => smem p (pd_procs d)) ps)); [discriminate|]. destruct (negb (forallb (fun p => smem p (pd_procs d)) cs)); [discriminate|].
  destruct (set_param_default (mixture_names ps cs) (List.length ps) e an) as [dft|]; [|discriminate]. cbn [rbind] in H. injection H as <-.
  unfold simple_model, nparams in *. cbn in *. rewrite Nat.add_0_r in *. split; [reflexivity|]. split; [reflexivity|].
  destruct (mixture_axis_order d ps cs x full) as (r & E & F & M); auto; try (eapply subseq_NoDup; eauto; fail); try (intros; eapply subseq_In; eauto; fail); try (symmetry; exact Ln); try exact (fun s => subseq_In _ _ s Sp); try exact (fun s => subseq_In _ _ s Sc).
  exists r. split; auto. split; auto. rewrite !subseq_filter in M; auto.
Qed.
