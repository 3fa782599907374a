(** The kernel is the discrete Laplacian with reflecting edges; it vanishes on constants only. *)
From Coq Require Import Reals List Arith ZArith Bool Lia Lra Permutation.
From Verif Require Import RBase PyList ListUtil Shape Map_Model Map_Spec Map_Collect Map_Perm Map_Rules Map_Merge Svd_Model.
Import ListNotations.
Local Open Scope nat_scope.

(** neighbours along axis k, the cell itself at the edge *)
Definition up (shape : list nat) (k : nat) (i : list nat) : list nat := set_at k (Nat.min (S (nth k i 0)) (nth k shape 0 - 1)) i.
Definition down (k : nat) (i : list nat) : list nat := set_at k (nth k i 0 - 1) i.
Definition laplace (shape : list nat) (d : list nat -> R) (i : list nat) : R :=
  sumR (map (fun k => d (up shape k i) + d (down k i) - 2 * d i)%R (seq 0 (List.length shape))).

Lemma conv_shape t : t_shape (conv (padded t)) = t_shape t.
Proof. cbn [conv padded t_shape]. rewrite map_map. transitivity (map (fun n => n) (t_shape t)); [apply map_ext; intros; lia|apply map_id]. Qed.
Lemma conv_laplace t i : 1 <= List.length (t_shape t) <= 3 -> in_shape (t_shape t) i -> t_at (conv (padded t)) i = laplace (t_shape t) (t_at t) i.
Proof.
  intros L H. unfold conv, padded, laplace, up, down. cbn [t_shape t_at]. set (s := t_shape t) in *. clearbody s. revert L. 
  inversion H as [|n1 v1 s1 i1 A1 H1]; subst; [cbn; lia|]. inversion H1 as [|n2 v2 s2 i2 A2 H2]; subst; [|inversion H2 as [|n3 v3 s3 i3 A3 H3]; subst; [|inversion H3; subst; [|cbn; lia]]]; intros _.
  - cbn [map List.length seq all_idx flat_map app combine fst snd nth kernel set_at firstn skipn sumR fold_right]. unfold pad_index. cbn [combine map fst snd].
    replace (v1 + 0 - 1) with (v1 - 1) by lia. replace (v1 + 1 - 1) with v1 by lia. replace (v1 + 2 - 1) with (S v1) by lia. replace (Nat.min v1 (n1 - 1)) with v1 by lia. replace (Nat.min (v1 - 1) (n1 - 1)) with (v1 - 1) by lia. lra.
  - cbn [map List.length seq all_idx flat_map app combine fst snd nth kernel set_at firstn skipn sumR fold_right]. unfold pad_index. cbn [combine map fst snd].
    replace (v1 + 0 - 1) with (v1 - 1) by lia. replace (v1 + 1 - 1) with v1 by lia. replace (v1 + 2 - 1) with (S v1) by lia. replace (Nat.min v1 (n1 - 1)) with v1 by lia. replace (Nat.min (v1 - 1) (n1 - 1)) with (v1 - 1) by lia.
    replace (v2 + 0 - 1) with (v2 - 1) by lia. replace (v2 + 1 - 1) with v2 by lia. replace (v2 + 2 - 1) with (S v2) by lia. replace (Nat.min v2 (n2 - 1)) with v2 by lia. replace (Nat.min (v2 - 1) (n2 - 1)) with (v2 - 1) by lia. lra.
  - cbn [map List.length seq all_idx flat_map app combine fst snd nth kernel set_at firstn skipn sumR fold_right]. unfold pad_index. cbn [combine map fst snd].
    replace (v1 + 0 - 1) with (v1 - 1) by lia. replace (v1 + 1 - 1) with v1 by lia. replace (v1 + 2 - 1) with (S v1) by lia. replace (Nat.min v1 (n1 - 1)) with v1 by lia. replace (Nat.min (v1 - 1) (n1 - 1)) with (v1 - 1) by lia.
    replace (v2 + 0 - 1) with (v2 - 1) by lia. replace (v2 + 1 - 1) with v2 by lia. replace (v2 + 2 - 1) with (S v2) by lia. replace (Nat.min v2 (n2 - 1)) with v2 by lia. replace (Nat.min (v2 - 1) (n2 - 1)) with (v2 - 1) by lia.
    replace (v3 + 0 - 1) with (v3 - 1) by lia. replace (v3 + 1 - 1) with v3 by lia. replace (v3 + 2 - 1) with (S v3) by lia. replace (Nat.min v3 (n3 - 1)) with v3 by lia. replace (Nat.min (v3 - 1) (n3 - 1)) with (v3 - 1) by lia. lra.
Qed.
(** summation by parts along one axis *)
Lemma parts_1d f n : sumR (map (fun v => f v * (f (Nat.min (S v) (n - 1)) + f (v - 1)%nat - 2 * f v))%R (seq 0 n)) = (- sumR (map (fun v => (f (Nat.min (S v) (n - 1)) - f v) * (f (Nat.min (S v) (n - 1)) - f v)) (seq 0 n)))%R.
Proof.
  destruct n as [|m]; [cbn; lra|]. replace (S m - 1) with m by lia.
  assert (E1 : sumR (map (fun v => (f (Nat.min (S v) m) - f v) * (f (Nat.min (S v) m) - f v))%R (seq 0 (S m))) = sumR (map (fun v => (f (S v) - f v) * (f (S v) - f v))%R (seq 0 m))).
  { rewrite seq_S, map_app, sumR_app. cbn [Nat.add map sumR fold_right]. replace (Nat.min (S m) m) with m by lia. transitivity (sumR (map (fun v => (f (S v) - f v) * (f (S v) - f v))%R (seq 0 m)) + 0)%R; [|lra]. f_equal; [|lra]. apply sumR_map_ext. intros v I. apply in_seq in I. replace (Nat.min (S v) m) with (S v) by lia. auto. }
  assert (E2 : sumR (map (fun v => f v * (f (Nat.min (S v) m) - f v))%R (seq 0 (S m))) = sumR (map (fun v => f v * (f (S v) - f v))%R (seq 0 m))).
  { rewrite seq_S, map_app, sumR_app. cbn [Nat.add map sumR fold_right]. replace (Nat.min (S m) m) with m by lia. transitivity (sumR (map (fun v => f v * (f (S v) - f v))%R (seq 0 m)) + 0)%R; [|lra]. f_equal; [|lra]. apply sumR_map_ext. intros v I. apply in_seq in I. replace (Nat.min (S v) m) with (S v) by lia. auto. }
  assert (E3 : sumR (map (fun v => f v * (f (v - 1)%nat - f v))%R (seq 0 (S m))) = sumR (map (fun v => f (S v) * (f v - f (S v)))%R (seq 0 m))).
  { cbn [seq map]. change (sumR (?a :: ?l)) with (a + sumR l)%R. rewrite <- seq_shift, map_map. cbn [Nat.sub]. replace (f 0%nat * (f 0%nat - f 0%nat))%R with 0%R by lra. rewrite Rplus_0_l. apply sumR_map_ext. intros v _. rewrite Nat.sub_0_r. auto. }
  rewrite E1. transitivity (sumR (map (fun v => f v * (f (Nat.min (S v) m) - f v) + f v * (f (v - 1)%nat - f v))%R (seq 0 (S m)))); [apply sumR_map_ext; intros; lra|]. rewrite sumR_map_plus, E2, E3, <- sumR_map_plus.
  transitivity (sumR (map (fun v => -1 * ((f (S v) - f v) * (f (S v) - f v)))%R (seq 0 m))); [apply sumR_map_ext; intros; lra|]. rewrite sumR_map_scal. lra.
Qed.
(** sums over a shape, one axis first *)
Lemma sum_fibre shape g k : k < List.length shape -> sumR (map g (all_idx shape)) = sumR (map (fun j => sumR (map (fun v => g (insert_at k v j)) (seq 0 (nth k shape 0)))) (all_idx (remove_at k shape))).
Proof.
  intros K. pose proof (collects_total _ _ _ (sum_axis_collects k (mkT shape g) K)) as Q. unfold total, flat, kept_total in Q. cbn [sum_axis t_shape t_at] in Q. auto.
Qed.
Lemma set_insert' {A} k (u v : A) j : k <= List.length j -> set_at k u (insert_at k v j) = insert_at k u j.
Proof.
  intros K. rewrite <- set_insert by (unfold insert_at; rewrite app_length, firstn_length; cbn [List.length]; rewrite skipn_length; lia). rewrite remove_insert; auto.
Qed.
Theorem by_parts shape d : sumR (map (fun i => d i * laplace shape d i)%R (all_idx shape)) =
  (- sumR (map (fun k => sumR (map (fun i => (d (up shape k i) - d i) * (d (up shape k i) - d i)) (all_idx shape))) (seq 0 (List.length shape))))%R.
Proof.
  unfold laplace. transitivity (sumR (map (fun i => sumR (map (fun k => d i * (d (up shape k i) + d (down k i) - 2 * d i)) (seq 0 (List.length shape))))%R (all_idx shape))); [apply sumR_map_ext; intros i _; rewrite sumR_map_scal; auto|].
  rewrite sumR_swap. transitivity (sumR (map (fun k => -1 * sumR (map (fun i => (d (up shape k i) - d i) * (d (up shape k i) - d i)) (all_idx shape)))%R (seq 0 (List.length shape)))); [|rewrite sumR_map_scal; lra].
  apply sumR_map_ext. intros k I. apply in_seq in I. rewrite !(sum_fibre shape _ k) by lia. rewrite <- sumR_map_scal. apply sumR_map_ext. intros j J. apply all_idx_In in J. pose proof (in_shape_len _ _ J) as Lj. rewrite remove_len in Lj by lia.
  pose proof (parts_1d (fun v => d (insert_at k v j)) (nth k shape 0)) as P.
  transitivity (sumR (map (fun v => d (insert_at k v j) * (d (insert_at k (Nat.min (S v) (nth k shape 0%nat - 1)) j) + d (insert_at k (v - 1)%nat j) - 2 * d (insert_at k v j)))%R (seq 0 (nth k shape 0)))).
  - apply sumR_map_ext. intros v _. unfold up, down. rewrite nth_insert, !set_insert' by lia. auto.
  - rewrite P. transitivity (-1 * sumR (map (fun v => (d (insert_at k (Nat.min (S v) (nth k shape 0%nat - 1)) j) - d (insert_at k v j)) * (d (insert_at k (Nat.min (S v) (nth k shape 0%nat - 1)) j) - d (insert_at k v j))) (seq 0 (nth k shape 0%nat))))%R; [lra|]. f_equal. apply sumR_map_ext. intros v _. unfold up. rewrite nth_insert, !set_insert' by lia. auto.
Qed.
Lemma up_shape shape k i : in_shape shape i -> k < List.length shape -> in_shape shape (up shape k i).
Proof.
  intros H K. pose proof (in_shape_len _ _ H) as L. unfold up. apply in_shape_intro; [rewrite set_at_len; lia|]. intros q Q. rewrite set_at_nth by lia. pose proof (in_shape_nth _ _ q H Q). destruct (Nat.eqb_spec q k); [subst; lia|auto].
Qed.
Lemma down_shape shape k i : in_shape shape i -> k < List.length shape -> in_shape shape (down k i).
Proof.
  intros H K. pose proof (in_shape_len _ _ H) as L. unfold down. apply in_shape_intro; [rewrite set_at_len; lia|]. intros q Q. rewrite set_at_nth by lia. pose proof (in_shape_nth _ _ q H Q). destruct (Nat.eqb_spec q k); [subst; lia|auto].
Qed.
Lemma up_down shape k i : in_shape shape i -> k < List.length shape -> 0 < nth k i 0 -> up shape k (down k i) = i.
Proof.
  intros H K P. pose proof (in_shape_len _ _ H) as L. pose proof (in_shape_nth _ _ k H K) as B. unfold up, down. rewrite set_at_nth, Nat.eqb_refl by lia.
  rewrite <- (set_insert (nth k i 0 - 1)) by lia. rewrite set_insert' by (rewrite remove_len; lia). rewrite set_insert by lia. apply set_at_same. replace (Nat.min (S (nth k i 0 - 1)) (nth k shape 0 - 1)) with (nth k i 0) by lia. apply nth_error_nth'. lia.
Qed.
Lemma sum_set k v i : k < List.length i -> sumn (set_at k v i) + nth k i 0 = sumn i + v.
Proof.
  revert i. unfold sumn. induction k as [|k IH]; intros [|x i] K; cbn in K; try lia; [cbn; lia|]. change (set_at (S k) v (x :: i)) with (x :: set_at k v i). cbn [fold_right nth]. specialize (IH i ltac:(lia)). cbn in *. lia.
Qed.
Lemma all_zero i : sumn i = 0 -> forall q, nth q i 0 = 0.
Proof. unfold sumn. induction i as [|x i IH]; intros E q; destruct q; cbn in *; auto; try lia. apply IH. lia. Qed.
Lemma constant_of_steps shape (d : list nat -> R) : (forall k i, k < List.length shape -> in_shape shape i -> d (up shape k i) = d i) -> forall i j, in_shape shape i -> in_shape shape j -> d i = d j.
Proof.
  intros H. assert (Z : forall (m : nat) i, sumn i = m -> in_shape shape i -> d i = d (map (fun _ => 0) shape)).
  { induction m as [m IH] using lt_wf_ind. intros i E I. pose proof (in_shape_len _ _ I) as L. destruct (existsb (fun q => negb (nth q i 0 =? 0)) (seq 0 (List.length i))) eqn:X.
    - apply existsb_exists in X as (k & Ik & Nk). apply in_seq in Ik. apply negb_true_iff, Nat.eqb_neq in Nk. rewrite <- (up_down shape k i) by (auto; lia). pose proof (down_shape shape k i I ltac:(lia)) as D. rewrite H by (auto; lia). pose proof (sum_set k (nth k i 0 - 1) i ltac:(lia)) as S1. fold (down k i) in S1. apply (IH (sumn (down k i))); auto. lia.
    - f_equal. apply nth_error_ext. intros q. destruct (Nat.lt_ge_cases q (List.length i)) as [Q|Q].
      + rewrite (nth_error_nth' i 0) by auto. rewrite nth_error_map'. assert (N : nth q i 0 = 0). { destruct (Nat.eq_dec (nth q i 0) 0); auto. exfalso. assert (existsb (fun q => negb (nth q i 0 =? 0)) (seq 0 (List.length i)) = true); [|congruence]. apply existsb_exists. exists q. split; [apply in_seq; lia|]. apply negb_true_iff, Nat.eqb_neq. auto. }
        rewrite N. assert (U : nth_error shape q = Some (nth q shape 0)) by (apply nth_error_nth'; lia). rewrite U. auto.
      + rewrite (proj2 (nth_error_None i q)) by lia. rewrite (proj2 (nth_error_None _ q)); auto. rewrite map_length. lia. }
  intros i j I J. rewrite (Z _ i eq_refl I), (Z _ j eq_refl J). auto.
Qed.
Theorem laplace_kernel shape d : (forall i, in_shape shape i -> laplace shape d i = 0%R) <-> (forall i j, in_shape shape i -> in_shape shape j -> d i = d j).
Proof.
  split; intros H.
  - apply constant_of_steps. pose proof (by_parts shape d) as B. rewrite (sumR_map_ext _ (fun _ => 0%R)) in B by (intros i I; apply all_idx_In in I; rewrite H by auto; lra). rewrite sumR_map_0 in B.
    assert (Z : sumR (map (fun k => sumR (map (fun i => (d (up shape k i) - d i) * (d (up shape k i) - d i)) (all_idx shape)))%R (seq 0 (List.length shape))) = 0%R) by lra.
    intros k i K I. assert (N : forall k, (0 <= sumR (map (fun i => (d (up shape k i) - d i) * (d (up shape k i) - d i)) (all_idx shape)))%R) by (intros q; apply sumR_nonneg; intros x X; apply in_map_iff in X as (y & <- & _); apply Rle_0_sqr).
    assert (Zk : sumR (map (fun i => (d (up shape k i) - d i) * (d (up shape k i) - d i))%R (all_idx shape)) = 0%R).
    { apply (sumR_nonneg_0 _) with (2 := Z); [intros x X; apply in_map_iff in X as (q & <- & _); auto|]. apply in_map_iff. exists k. split; auto. apply in_seq. lia. }
    assert (Zi : ((d (up shape k i) - d i) * (d (up shape k i) - d i))%R = 0%R). { apply (sumR_nonneg_0 _) with (2 := Zk); [intros x X; apply in_map_iff in X as (q & <- & _); apply Rle_0_sqr|]. apply in_map_iff. exists i. split; auto. apply all_idx_In. auto. }
    apply Rmult_integral in Zi. lra.
  - intros i I. unfold laplace. rewrite (sumR_map_ext _ (fun _ => 0%R)); [apply sumR_map_0|]. intros k K. apply in_seq in K. rewrite (H (up shape k i) i), (H (down k i) i) by (auto; try apply up_shape; try apply down_shape; auto; lia). lra.
Qed.
(** ** the penalty *)
Section Penalty.
Variables n0 n : tensor.
Let shape := t_shape n0.
Hypothesis (L : 1 <= List.length shape <= 3).
Definition relative (n0 n : tensor) (i : list nat) : R := if Reqb (t_at n0 i) 0 then 1%R else (t_at n i / t_at n0 i)%R.
Lemma dexp_at i : t_at (dexp n0 n) i = relative n0 n i.
Proof. unfold dexp, relative, safe. cbn [t_at map_t]. destruct (Reqb (t_at n0 i) 0); auto. Qed.
Lemma laplace_ext d d' i : (forall j, in_shape shape j -> d j = d' j) -> in_shape shape i -> laplace shape d i = laplace shape d' i.
Proof. intros H I. unfold laplace. apply sumR_map_ext. intros k K. apply in_seq in K. rewrite !H by (auto; try apply up_shape; try apply down_shape; auto; lia). auto. Qed.
Theorem penalty_sum : penalty n0 n = sumR (map (fun i => laplace shape (relative n0 n) i * laplace shape (relative n0 n) i)%R (all_idx shape)).
Proof.
  unfold penalty, total, flat. cbn [map_t t_shape t_at]. rewrite conv_shape. cbn [dexp t_shape]. fold shape. apply sumR_map_ext. intros i I. apply all_idx_In in I.
  rewrite conv_laplace by (cbn [dexp t_shape]; auto). cbn [dexp t_shape]. fold shape. rewrite (laplace_ext (t_at (dexp n0 n)) (relative n0 n)); auto. intros. apply dexp_at.
Qed.
Theorem penalty_nonneg : (0 <= penalty n0 n)%R.
Proof. rewrite penalty_sum. apply sumR_nonneg. intros x X. apply in_map_iff in X as (i & <- & _). apply Rle_0_sqr. Qed.
Theorem penalty_zero : penalty n0 n = 0%R <-> (forall i j, in_shape shape i -> in_shape shape j -> relative n0 n i = relative n0 n j).
Proof.
  rewrite <- laplace_kernel, penalty_sum. split; intros H.
  - intros i I. assert (Z : (laplace shape (relative n0 n) i * laplace shape (relative n0 n) i)%R = 0%R). { apply (sumR_nonneg_0 _) with (2 := H); [intros x X; apply in_map_iff in X as (q & <- & _); apply Rle_0_sqr|]. apply in_map_iff. exists i. split; auto. apply all_idx_In. auto. }
    apply Rmult_integral in Z. lra.
  - rewrite (sumR_map_ext _ (fun _ => 0%R)); [apply sumR_map_0|]. intros i I. apply all_idx_In in I. rewrite H by auto. lra.
Qed.
End Penalty.
Lemma penalty_ext n0 n n0' n' : t_shape n0' = t_shape n0 -> 1 <= List.length (t_shape n0) <= 3 -> (forall i, in_shape (t_shape n0) i -> relative n0' n' i = relative n0 n i) -> penalty n0' n' = penalty n0 n.
Proof.
  intros S L H. rewrite !penalty_sum by (rewrite ?S; auto). rewrite S. apply sumR_map_ext. intros i I. apply all_idx_In in I. unfold laplace. 
  assert (E : forall k, In k (seq 0 (List.length (t_shape n0))) -> (relative n0' n' (up (t_shape n0) k i) + relative n0' n' (down k i) - 2 * relative n0' n' i = relative n0 n (up (t_shape n0) k i) + relative n0 n (down k i) - 2 * relative n0 n i)%R) by (intros k K; apply in_seq in K; rewrite !H by (auto; try apply up_shape; try apply down_shape; auto; lia); auto).
  rewrite (sumR_map_ext _ _ _ E). auto.
Qed.
Theorem penalty_scale n0 n s : 1 <= List.length (t_shape n0) <= 3 -> s <> 0%R -> penalty (map_t (fun v => s * v)%R n0) (map_t (fun v => s * v)%R n) = penalty n0 n.
Proof.
  intros L Nz. apply penalty_ext; auto. intros i _. unfold relative. cbn [map_t t_at]. destruct (Reqb_spec (t_at n0 i) 0) as [E|E].
  - rewrite E, Rmult_0_r, Reqb_true by auto. auto.
  - rewrite Reqb_false by (apply Rmult_integral_contrapositive; auto). field. auto.
Qed.
(** the penalty of a scaled prediction: quadratic where the nominal prediction has no empty bin *)
Theorem penalty_quadratic n0 n s : 1 <= List.length (t_shape n0) <= 3 -> (forall i, in_shape (t_shape n0) i -> t_at n0 i <> 0%R) -> penalty n0 (map_t (fun v => s * v)%R n) = (s * s * penalty n0 n)%R.
Proof.
  intros L Nz. rewrite !penalty_sum by auto. rewrite <- sumR_map_scal. apply sumR_map_ext. intros i I. apply all_idx_In in I.
  assert (R : forall j, in_shape (t_shape n0) j -> relative n0 (map_t (fun v => s * v)%R n) j = (s * relative n0 n j)%R) by (intros j J; unfold relative; rewrite Reqb_false by auto; cbn [map_t t_at]; field; auto).
  assert (E : laplace (t_shape n0) (relative n0 (map_t (fun v => s * v)%R n)) i = (s * laplace (t_shape n0) (relative n0 n) i)%R).
  { unfold laplace. rewrite <- sumR_map_scal. apply sumR_map_ext. intros k K. apply in_seq in K. rewrite !R by (auto; try apply up_shape; try apply down_shape; auto; lia). lra. }
  rewrite E. lra.
Qed.
Theorem penalty_proportional n0 n s : 1 <= List.length (t_shape n0) <= 3 -> (forall i, in_shape (t_shape n0) i -> t_at n i = (s * t_at n0 i)%R) ->
  (s = 1%R \/ (forall i, in_shape (t_shape n0) i -> t_at n0 i <> 0%R)) -> penalty n0 n = 0%R.
Proof.
  intros L P H. apply penalty_zero; auto. intros i j I J. unfold relative. destruct H as [->|H].
  - assert (O : forall i, in_shape (t_shape n0) i -> (if Reqb (t_at n0 i) 0 then 1%R else (t_at n i / t_at n0 i)%R) = 1%R). { intros q Q. destruct (Reqb_spec (t_at n0 q) 0); auto. rewrite P by auto. field. auto. } rewrite !O by auto. auto.
  - rewrite !Reqb_false by auto. rewrite !P by auto. field. auto.
Qed.
Theorem safe_nonzero n0 i : t_at (safe n0) i <> 0%R.
Proof. unfold safe. cbn [map_t t_at]. destruct (Reqb_spec (t_at n0 i) 0); lra. Qed.
