(** Predictions of two files compared by parameter name, bin and process. *)
From Coq Require Import List Arith Bool String Reals Lra Lia Permutation.
From Verif Require Import PyList ListUtil RBase Num PyDict Writer_Model Writer_Spec Writer_Layout Writer_Meta Writer_Inv
  Writer_Tensor Writer_Hist Writer_Denote Writer_Master Writer_Effects Writer_Accept Yields_Model Yields_Spec Yields_Proof.
Import ListNotations.
Local Open Scope R_scope.

Lemma sumR_perm l1 l2 : Permutation l1 l2 -> sumR l1 = sumR l2.
Proof. induction 1; simpl; lra. Qed.

(** prediction with the nuisances addressed by name *)
Definition named_prediction cfg (ops : list (op R)) (systs : list string) (r r0 : R) (th : string -> R)
  (c p : string) (i : nat) : R :=
  let nom := spec_norm (c_allowneg cfg) ops c p i in
  let v := sumR (map (fun s => th s * spec_avg cfg ops c p s i + th s * switch (th s) * spec_half cfg ops c p s i) systs) in
  match c_type cfg with
  | LogNormal => predict_lognormal r nom v
  | Normal => predict_normal r r0 nom v
  end.
Lemma variation_names systs (th A H : string -> R) :
  variation (List.length systs) (fun s => nth s (map th systs) 0)
    (fun s => A (nth s systs EmptyString)) (fun s => H (nth s systs EmptyString)) =
  sumR (map (fun s => th s * A s + th s * switch (th s) * H s) systs).
Proof.
  unfold variation. symmetry. rewrite <- (map_nth_seq systs EmptyString) at 1. rewrite map_map. apply sumR_map_ext.
  intros k Hk. apply in_seq in Hk.
  rewrite (nth_indep _ 0 (th EmptyString)) by (rewrite map_length; lia). rewrite map_nth. auto.
Qed.
Lemma prediction_named cfg ops systs r r0 th c p i :
  prediction cfg ops systs r r0 (map th systs) c p i = named_prediction cfg ops systs r r0 th c p i.
Proof.
  unfold prediction, named_prediction.
  rewrite (variation_names systs th (fun s => spec_avg cfg ops c p s i) (fun s => spec_half cfg ops c p s i)). auto.
Qed.

(** *** axes of two files *)
Lemma tiles_cover : forall (r : list (string * (nat * nat))) a b x, tiles a b r -> (a <= x < b)%nat ->
  exists c s e, In (c, (s, e)) r /\ (s <= x < e)%nat.
Proof.
  induction r as [|[c [s e]] r IH]; simpl; intros a b x T H; [lia|]. destruct T as (-> & L & T).
  destruct (Nat.lt_ge_cases x e).
  - exists c, a, e. split; auto; lia.
  - destruct (IH e b x T ltac:(lia)) as (c' & s' & e' & H1 & H2). eauto 6.
Qed.
Lemma every_bin cfg (ops : list (op R)) w b ip : written cfg ops w -> clean ops ->
  (b < w_nbinsfull w)%nat -> (ip < List.length (w_procs w))%nat ->
  exists c p i, at_point w c p i b ip.
Proof.
  intros (st & R & W) (C1 & C2 & C3 & C4) B P.
  destruct (layout_correct cfg ops st w R W (once_stable _ C3)) as (_ & _ & T & _).
  destruct (tiles_cover _ _ _ b T ltac:(lia)) as (c & s & e & H1 & H2).
  destruct (nth_error (w_procs w) ip) as [p|] eqn:N; [|apply nth_error_None in N; lia].
  exists c, p, (b - s)%nat, s, e. repeat split; auto; lia.
Qed.

Record same_axes (w1 w2 : workspace R) : Prop := mkSA {
  sa_chan : w_channels w1 = w_channels w2; sa_nb : w_nbins w1 = w_nbins w2;
  sa_full : w_nbinsfull w1 = w_nbinsfull w2; sa_procs : w_procs w1 = w_procs w2;
  sa_systs : Permutation (w_systs w1) (w_systs w2) }.
Lemma files_same_axes cfg1 cfg2 (ops1 ops2 : list (op R)) w1 w2 :
  written cfg1 ops1 w1 -> written cfg2 ops2 w2 -> clean ops1 -> clean ops2 ->
  chan_decls [] ops1 = chan_decls [] ops2 -> (forall d, In d (proc_decls ops1) <-> In d (proc_decls ops2)) ->
  (forall s, declared ops1 s <-> declared ops2 s) -> same_axes w1 w2.
Proof.
  intros (s1 & R1 & W1) (s2 & R2 & W2) (_ & _ & A3 & A4) (_ & _ & B3 & B4) EC EP ED.
  pose proof (run_chan_init _ _ _ R1 (once_stable _ A3)) as C1.
  pose proof (run_chan_init _ _ _ R2 (once_stable _ B3)) as C2.
  destruct (write_fields _ _ _ W1) as (E1 & E2 & E3 & _). destruct (write_fields _ _ _ W2) as (G1 & G2 & G3 & _).
  rewrite (nbins_eq _ _ C1 (once_stable _ A3)) in E2. rewrite (nbinsfull_eq _ _ C1 (once_stable _ A3)) in E3.
  rewrite (nbins_eq _ _ C2 (once_stable _ B3)) in G2. rewrite (nbinsfull_eq _ _ C2 (once_stable _ B3)) in G3.
  rewrite (proj1 C1) in E1. rewrite (proj1 C2) in G1. rewrite EC in *.
  destruct (metadata_correct _ _ _ _ R1 W1 A4) as (M1 & M2 & _).
  destruct (metadata_correct _ _ _ _ R2 W2 B4) as (M3 & M4 & _).
  split; try congruence.
  - apply (proc_order cfg1 cfg2 ops1 ops2 s1 s2 w1 w2); auto.
  - apply NoDup_Permutation; auto. intros x. rewrite M2, M4. auto.
Qed.

(** histories that say the same about channel [c] *)
Definition agree_on (c : string) (o1 o2 : op R) : Prop :=
  (forall p, op_proc c p o1 = op_proc c p o2) /\
  (forall p s, op_avg c p s o1 = op_avg c p s o2) /\ (forall p s, op_half c p s o1 = op_half c p s o2).
Lemma last_of_Forall2 {E} (f : op R -> option E) l1 l2 : Forall2 (fun a b => f a = f b) l1 l2 ->
  last_of f l1 = last_of f l2.
Proof.
  unfold last_of. generalize (@None E). intros acc F. revert acc. induction F; intros acc; simpl; auto.
  rewrite H. auto.
Qed.
Lemma agree_spec cfg1 cfg2 ops1 ops2 c : c_type cfg1 = c_type cfg2 -> c_allowneg cfg1 = c_allowneg cfg2 ->
  Forall2 (agree_on c) ops1 ops2 -> forall p i,
  spec_norm (c_allowneg cfg1) ops1 c p i = spec_norm (c_allowneg cfg2) ops2 c p i /\
  (forall s, spec_avg cfg1 ops1 c p s i = spec_avg cfg2 ops2 c p s i) /\
  (forall s, spec_half cfg1 ops1 c p s i = spec_half cfg2 ops2 c p s i).
Proof.
  intros ET EA F p i.
  assert (N : last_of (op_proc c p) ops1 = last_of (op_proc c p) ops2).
  { apply last_of_Forall2. clear -F. induction F; constructor; auto. apply H. }
  assert (SN : spec_norm (c_allowneg cfg1) ops1 c p = spec_norm (c_allowneg cfg2) ops2 c p).
  { unfold spec_norm. rewrite N, EA. auto. }
  split; [rewrite SN; auto|]. split; intros s.
  - unfold spec_avg. rewrite SN, ET. f_equal.
    apply last_of_Forall2. clear -F. induction F; constructor; auto. apply H.
  - unfold spec_half. rewrite SN, ET. f_equal.
    apply last_of_Forall2. clear -F. induction F; constructor; auto. apply H.
Qed.

Theorem same_prediction cfg1 cfg2 ops1 ops2 w1 w2 np rinit t1 t2 r th (full : bool) n1 nc1 n2 nc2 (U : string -> Prop) :
  c_type cfg1 = c_type cfg2 -> c_allowneg cfg1 = c_allowneg cfg2 ->
  written cfg1 ops1 w1 -> written cfg2 ops2 w2 -> clean ops1 -> clean ops2 -> same_axes w1 w2 ->
  (forall c, U c -> Forall2 (agree_on c) ops1 ops2) ->
  scale_logk (indata_of w1) np rinit = Ok t1 -> scale_logk (indata_of w2) np rinit = Ok t2 ->
  yields (indata_of w1) t1 r (map th (w_systs w1)) full = Ok (n1, nc1) ->
  yields (indata_of w2) t2 r (map th (w_systs w2)) full = Ok (n2, nc2) ->
  List.length n1 = List.length n2 /\
  forall b, (b < List.length n1)%nat ->
    (forall c p i ip, at_point w1 c p i b ip -> U c) ->
    (forall ip, (ip < List.length (w_procs w1))%nat -> nc1 b ip = nc2 b ip) /\ nth b n1 0 = nth b n2 0.
Proof.
  intros ET EA W1 W2 C1 C2 SA AG S1 S2 Y1 Y2.
  destruct (yields_prediction _ _ _ _ _ _ _ _ _ _ _ W1 C1 (map_length _ _) S1 Y1) as (L1 & P1 & Q1).
  destruct (yields_prediction _ _ _ _ _ _ _ _ _ _ _ W2 C2 (map_length _ _) S2 Y2) as (L2 & P2 & Q2).
  assert (LE : List.length n1 = List.length n2).
  { rewrite L1, L2, (sa_full _ _ SA), (sa_nb _ _ SA). auto. }
  split; auto. intros b Hb HU.
  assert (Bf : (b < w_nbinsfull w1)%nat).
  { rewrite L1 in Hb. pose proof (written_bins cfg1 ops1 w1 W1 C1). destruct full; lia. }
  assert (NC : forall ip, (ip < List.length (w_procs w1))%nat -> nc1 b ip = nc2 b ip).
  { intros ip Hip. destruct (every_bin cfg1 ops1 w1 b ip W1 C1 Bf Hip) as (c & p & i & P).
    assert (P' : at_point w2 c p i b ip).
    { destruct P as (s & e & A1 & A2 & A3 & A4). exists s, e.
      rewrite <- (sa_chan _ _ SA), <- (sa_procs _ _ SA). auto. }
    rewrite (P1 c p i b ip P), (P2 c p i b ip P') by (rewrite ?L1, ?L2 in *; lia).
    rewrite !prediction_named. unfold named_prediction.
    destruct (agree_spec cfg1 cfg2 ops1 ops2 c ET EA (AG c (HU c p i ip P)) p i) as (N & A & H).
    rewrite N, ET.
    assert (V : sumR (map (fun s => th s * spec_avg cfg1 ops1 c p s i + th s * switch (th s) * spec_half cfg1 ops1 c p s i) (w_systs w1)) =
                sumR (map (fun s => th s * spec_avg cfg2 ops2 c p s i + th s * switch (th s) * spec_half cfg2 ops2 c p s i) (w_systs w2))).
    { rewrite (sumR_perm _ (map (fun s => th s * spec_avg cfg1 ops1 c p s i + th s * switch (th s) * spec_half cfg1 ops1 c p s i) (w_systs w2)))
        by (apply Permutation_map, SA).
      apply sumR_map_ext. intros s _. rewrite A, H. auto. }
    rewrite V. auto. }
  split; auto. rewrite Q1 by (rewrite L1 in Hb; auto). rewrite Q2 by (rewrite LE, L2 in Hb; auto).
  rewrite (sa_procs _ _ SA). rewrite <- (sa_procs _ _ SA). apply sum_n_ext. auto.
Qed.

(** when the computation succeeds *)
Lemma scale_ok d np f : exists t, scale_logk d np (RBroadcast f) = Ok t.
Proof. unfold scale_logk. destruct (in_type d); eauto. destruct (Nat.eqb np 0); simpl; eauto. Qed.
Lemma yields_ok d t f th full : exists y, yields d t (RBroadcast f) th full = Ok y.
Proof. unfold yields. destruct t; simpl; eauto. Qed.
Lemma yields_ok_bins d t nb f th (full : bool) :
  (nb = in_nbinsfull d) -> (full = true \/ in_nbins d = in_nbinsfull d) ->
  exists y, yields d t (RBins nb f) th full = Ok y.
Proof.
  intros -> H. unfold yields.
  assert (S : (negb full && negb (Nat.eqb (in_nbinsfull d - in_nbins d) 0))%bool = false).
  { destruct H as [->| ->]; auto. rewrite Nat.sub_diag. destruct full; auto. }
  rewrite S. destruct t; simpl; rewrite Nat.eqb_refl; simpl; eauto.
Qed.

(** dense histograms: the script is accepted in one storage mode iff in the other *)
Definition dense_hist (h : histo R) : Prop := match h with HDense _ _ => True | HSparse _ _ => False end.
Definition dense_op (o : op R) : Prop :=
  match o with
  | AddProcess h _ _ _ _ => dense_hist h
  | AddSystematic (SSingle h) _ _ _ _ _ _ _ _ => dense_hist h
  | AddSystematic (SPair u d) _ _ _ _ _ _ _ _ => dense_hist u /\ dense_hist d
  | _ => True
  end.
Lemma op_sim_refl (o : op R) : dense_op o -> op_sim o o.
Proof.
  destruct o; simpl; auto; intros H.
  - destruct h; simpl in *; [|contradiction]. repeat split; auto. destruct vars; simpl; auto.
  - repeat (split; auto). destruct h as [h|u d]; [destruct h|destruct u, d]; simpl in *; tauto.
  - repeat (split; auto). induction unc as [|u l IH]; constructor; auto. destruct u; simpl; auto.
Qed.
Theorem dense_scripts_both cfg1 cfg2 ops : Forall dense_op ops -> clean ops ->
  (exists w, written cfg1 ops w) -> exists w, written cfg2 ops w.
Proof.
  intros D C [w W]. 
  assert (F : forall v : R, nfinite v = true) by reflexivity.
  destruct (written_sim F F cfg1 cfg2 ops ops w) as (w2 & W2 & _); eauto.
  clear -D. induction D; constructor; auto. apply op_sim_refl. auto.
Qed.
