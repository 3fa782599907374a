(** The covariance of mapped data. *)
From Coq Require Import Reals List Arith ZArith Bool String Lia Lra Permutation.
From Verif Require Import RBase PyList PyDict ListUtil Shape Map_Model Map_Spec Map_Collect Map_Perm Map_Rules Map_Term Map_Merge Map_Select Map_Cells Map_Project Map_Proof Map_Comb Param_Names.
Import ListNotations.
Local Open Scope nat_scope.

Definition vec (n : nat) (x : nat -> R) : tensor := mkT [n] (fun i => x (hd 0 i)).
Definition bump (x : nat -> R) (j : nat) (h : R) : nat -> R := fun q => (x q + (if Nat.eqb q j then h else 0))%R.
(** [jac i j] is the derivative of output i by bin j of the data *)
Definition jacobian_of (m : mapping) (n : nat) (x : nat -> R) (jac : nat -> nat -> R) : Prop :=
  forall y, mp_flat m (vec n x) = Ok y -> forall i j, i < List.length y -> j < n ->
    derivable_pt_lim (fun h => match mp_flat m (vec n (bump x j h)) with Ok z => nth i z 0%R | Raise _ => 0%R end) 0 (jac i j).

Lemma sumR_ite {A} (P : A -> bool) (f : A -> R) l : sumR (map f (filter P l)) = sumR (map (fun i => f i * (if P i then 1 else 0))%R l).
Proof. induction l as [|a l IH]; cbn [filter map sumR fold_right]; auto. destruct (P a); cbn [map sumR fold_right] in *; fold (sumR (map f (filter P l))); rewrite IH; unfold sumR; lra. Qed.
Lemma all_idx_seq shape : all_idx shape = map (fun k => nth k (all_idx shape) []) (seq 0 (prodn shape)).
Proof.
  apply nth_error_ext. intros k. rewrite nth_error_map'. destruct (Nat.lt_ge_cases k (prodn shape)) as [L|L].
  - rewrite nth_error_seq' by auto. cbn [option_map]. apply nth_error_nth'. rewrite all_idx_len. auto.
  - assert (E : nth_error (all_idx shape) k = None) by (apply nth_error_None; rewrite all_idx_len; auto). rewrite E. symmetry. assert (E' : nth_error (seq 0 (prodn shape)) k = None) by (apply nth_error_None; rewrite seq_length; auto). rewrite E'. auto.
Qed.
Section Linear.
Variables (s : nat) (shape : list nat) (pl : list nat -> option (list nat)) (n : nat).
Hypothesis (Hn : s + prodn shape <= n).
Definition w (j : list nat) (q : nat) : R := if (s <=? q) && (q <? s + prodn shape) then if hits pl j (nth (q - s) (all_idx shape) []) then 1%R else 0%R else 0%R.
Lemma sum_zero {A} (f : A -> R) l : (forall q, In q l -> f q = 0%R) -> sumR (map f l) = 0%R.
Proof. intros H. rewrite <- (sumR_map_0 l). apply sumR_map_ext. auto. Qed.
Lemma collected_lin x j : collected (fun i => x (s + ravel shape i)) shape pl j = sumR (map (fun q => x q * w j q)%R (seq 0 n)).
Proof.
  unfold collected. rewrite sumR_ite. rewrite all_idx_seq at 1. rewrite map_map.
  replace n with (s + (prodn shape + (n - s - prodn shape))) by lia. rewrite !seq_app, !map_app, !sumR_app. cbn [Nat.add].
  rewrite (sum_zero _ (seq 0 s)), (sum_zero _ (seq (s + prodn shape) _)).
  - rewrite Rplus_0_l, Rplus_0_r. replace (seq s (prodn shape)) with (map (fun k => s + k) (seq 0 (prodn shape))).
    + rewrite map_map. apply sumR_map_ext. intros k I. apply in_seq in I. unfold w. destruct (Nat.leb_spec s (s + k)); [|lia]. destruct (Nat.ltb_spec (s + k) (s + prodn shape)); [|lia]. cbn [andb]. replace (s + k - s) with k by lia.
      destruct (all_idx_at shape k ltac:(lia)) as (i & E & _ & Rv). rewrite (nth_error_nth _ _ [] E), Rv. auto.
    + clear. revert s. induction (prodn shape) as [|m IH]; intros s; auto. cbn [seq map]. rewrite Nat.add_0_r. f_equal. rewrite <- seq_shift, map_map. rewrite <- (IH (S s)). apply map_ext. intros. lia.
  - intros q I. apply in_seq in I. unfold w. destruct (Nat.ltb_spec q (s + prodn shape)); [lia|]. rewrite andb_false_r. lra.
  - intros q I. apply in_seq in I. unfold w. destruct (Nat.leb_spec s q); [lia|]. cbn [andb]. lra.
Qed.
Lemma w_square j q : (w j q * w j q = w j q)%R.
Proof. unfold w. destruct (_ && _); [|lra]. destruct (hits _ _ _); lra. Qed.
Lemma w_apart j k q : j <> k -> (w j q * w k q = 0)%R.
Proof.
  intros N. unfold w. destruct (_ && _); [|lra]. destruct (hits pl j _) eqn:A; [|lra]. destruct (hits pl k _) eqn:B; [|lra]. apply hits_true in A. apply hits_true in B. congruence.
Qed.
Lemma bump_lin x j q h : q < n -> sumR (map (fun p => bump x q h p * w j p)%R (seq 0 n)) = (sumR (map (fun p => x p * w j p)%R (seq 0 n)) + h * w j q)%R.
Proof.
  intros Q. transitivity (sumR (map (fun p => x p * w j p + (if Nat.eqb p q then h * w j q else 0))%R (seq 0 n))).
  - apply sumR_map_ext. intros p _. unfold bump. destruct (Nat.eqb_spec p q) as [->|]; lra.
  - rewrite sumR_map_plus. f_equal. clear Hn. revert Q. generalize (h * w j q)%R. intros v Q.
    replace n with (q + (1 + (n - q - 1))) by lia. rewrite !seq_app, !map_app, !sumR_app. cbn [Nat.add seq map].
    rewrite (sum_zero _ (seq 0 q)), (sum_zero _ (seq (q + 1) _)); [rewrite Nat.eqb_refl; unfold sumR; cbn; lra| |]; intros p I; apply in_seq in I; destruct (Nat.eqb_spec p q); [lia|auto|lia|auto].
Qed.
Lemma diag_cov out var a b ja jb : List.length var = n -> nth_error (all_idx out) a = Some ja -> nth_error (all_idx out) b = Some jb ->
  data_cov (fun i q => w (nth i (all_idx out) []) q) var a b = if Nat.eqb a b then collected (fun i => nth (s + ravel shape i) var 0%R) shape pl ja else 0%R.
Proof.
  intros L A B. unfold data_cov. rewrite L, (nth_error_nth _ _ [] A), (nth_error_nth _ _ [] B). destruct (Nat.eqb_spec a b) as [<-|N].
  - rewrite A in B. injection B as <-. rewrite (collected_lin (fun q => nth q var 0%R)). apply sumR_map_ext. intros q _. transitivity (nth q var 0 * (w ja q * w ja q))%R; [lra|]. rewrite w_square. auto.
  - apply sum_zero. intros q _. transitivity (nth q var 0 * (w ja q * w jb q))%R; [lra|]. rewrite w_apart; [lra|]. intros ->. apply N. apply all_idx_pos in A. apply all_idx_pos in B. congruence.
Qed.
End Linear.
Lemma data_cov_ext f g var a b : (forall q, q < List.length var -> f a q = g a q /\ f b q = g b q) -> data_cov f var a b = data_cov g var a b.
Proof. intros H. unfold data_cov. apply sumR_map_ext. intros q I. apply in_seq in I. destruct (H q ltac:(lia)) as (-> & ->). auto. Qed.
(** a mapping that only collects bins *)
Definition collecting (m : mapping) (n s : nat) (shape out : list nat) (pl : list nat -> option (list nat)) : Prop :=
  forall obs, t_shape obs = [n] -> mp_flat m obs = Ok (map (collected (fun i => t_at obs [s + ravel shape i]) shape pl) (all_idx out)).
Theorem collecting_jacobian m n s shape out pl x jac : collecting m n s shape out pl -> s + prodn shape <= n -> jacobian_of m n x jac ->
  forall i j, i < prodn out -> j < n -> jac i j = w s shape pl (nth i (all_idx out) []) j.
Proof.
  intros C Hn J i j I Hj. set (u := nth i (all_idx out) []). pose proof (J _ (C (vec n x) eq_refl) i j) as D. rewrite map_length, all_idx_len in D. specialize (D I Hj).
  eapply uniqueness_limite; [exact D|]. intros e He. exists (mkposreal 1 Rlt_0_1). intros h Hh _. 
  assert (V : forall y, match mp_flat m (vec n y) with Ok z => nth i z 0%R | Raise _ => 0%R end = sumR (map (fun p => y p * w s shape pl u p)%R (seq 0 n))).
  { intros y. rewrite (C (vec n y) eq_refl). rewrite (nth_map' _ _ _ _ []) by (rewrite all_idx_len; auto). cbn [vec t_at hd]. rewrite (collected_lin s shape pl n Hn y). auto. }
  rewrite !V, !(bump_lin s shape pl n) by auto. match goal with |- (Rabs ?q < e)%R => replace q with 0%R by (field; auto) end. rewrite Rabs_R0. auto.
Qed.
Theorem collecting_cov m n s shape out pl x jac var : collecting m n s shape out pl -> s + prodn shape <= n -> jacobian_of m n x jac -> List.length var = n ->
  exists v, mp_flat m (of_list var) = Ok v /\ forall a b, a < List.length v -> b < List.length v -> data_cov jac var a b = if Nat.eqb a b then nth a v 0%R else 0%R.
Proof.
  intros C Hn J L. exists (map (collected (fun i => t_at (of_list var) [s + ravel shape i]) shape pl) (all_idx out)). split; [apply C; cbn [of_list t_shape]; rewrite L; auto|]. rewrite map_length, all_idx_len. intros a b A B.
  destruct (all_idx_at out a A) as (ja & Ea & _). destruct (all_idx_at out b B) as (jb & Eb & _).
  rewrite (data_cov_ext jac (fun i q => w s shape pl (nth i (all_idx out) []) q)).
  - rewrite (diag_cov s shape pl n Hn out var a b ja jb L Ea Eb). destruct (Nat.eqb a b); auto. rewrite (nth_map' _ _ _ _ []) by (rewrite all_idx_len; auto). rewrite (nth_error_nth _ _ [] Ea). auto.
  - intros q Hq. rewrite L in Hq. split; eapply collecting_jacobian; eauto.
Qed.
Theorem project_cov procs c keep m n x jac var : filled c -> NoDup keep -> (forall n, In n keep -> In n (map ha_name (ci_axes c))) -> ci_stop c <= n -> project_mapping procs c keep false = Ok m -> jacobian_of m n x jac -> List.length var = n ->
  exists v, mp_flat m (of_list var) = Ok v /\ forall a b, a < List.length v -> b < List.length v -> data_cov jac var a b = if Nat.eqb a b then nth a v 0%R else 0%R.
Proof.
  intros F Nk Hk Sn M J L. apply (collecting_cov m n (ci_start c) (chan_shape c) (map (shape_of c) keep) (proj_place c keep) x); auto; [|destruct F as (_ & F); lia].
  intros obs So. destruct (project_flat procs c keep F Nk Hk obs n So Sn) as (m' & M' & _ & V). rewrite M' in M. apply ok_inj in M. subst m'. auto.
Qed.
Theorem select_cov procs r m n x jac var : fair r -> select_mapping procs (rq_chan r) (rq_procs r) (rq_sel r) (rq_rebin r) (rq_sums r) = Ok m -> ci_stop (rq_chan r) <= n -> jacobian_of m n x jac -> List.length var = n ->
  exists v, mp_flat m (of_list var) = Ok v /\ forall a b, a < List.length v -> b < List.length v -> data_cov jac var a b = if Nat.eqb a b then nth a v 0%R else 0%R.
Proof.
  intros (A & B & C & D) M Sn J L. unfold select_mapping in M. destruct (term_init procs (rq_chan r) _ _ _ _) as [tm|] eqn:T; [|discriminate]. cbn [rbind] in M. apply ok_inj in M. subst m.
  apply (collecting_cov _ n (ci_start (rq_chan r)) (sizes_of (rq_chan r)) (out_of r) (goes (rq_sel r) (rq_cuts r) (rq_sums r) (ci_axes (rq_chan r))) x); auto.
  - intros obs So. cbn [channel_mapping mp_flat]. destruct (flat_cells _ _ _ _ _ _ _ _ A B C D T obs n So Sn) as (t & Et & S & _ & V). rewrite Et. unfold out_flat. cbn [rbind]. f_equal. apply (flat_of r); auto. intros j Jj. apply V. rewrite S. auto.
  - destruct A as (_ & _ & A). lia.
Qed.
(** the rows of the covariance of a normalised distribution sum to zero *)
Lemma deriv_sum {A} (f : A -> R -> R) (d : A -> R) l x : (forall a, In a l -> derivable_pt_lim (f a) x (d a)) -> derivable_pt_lim (fun h => sumR (map (fun a => f a h) l)) x (sumR (map d l)).
Proof.
  induction l as [|a l IH]; intros H; cbn [map sumR fold_right]; [apply derivable_pt_lim_const|]. apply (derivable_pt_lim_plus (f a) (fun h => sumR (map (fun a => f a h) l))); [apply H; cbn; auto|apply IH; intros; apply H; cbn; auto].
Qed.
Lemma map_seq_nth {B} (d : B) (l : list B) : map (fun i => nth i l d) (seq 0 (List.length l)) = l.
Proof. induction l as [|a l IH]; auto. cbn [List.length seq map nth]. f_equal. rewrite <- seq_shift, map_map. auto. Qed.
Theorem normalize_jacobian procs c keep m n x jac j : filled c -> NoDup keep -> (forall n, In n keep -> In n (map ha_name (ci_axes c))) -> ci_stop c <= n -> project_mapping procs c keep true = Ok m -> jacobian_of m n x jac -> chan_total c (vec n x) <> 0%R -> j < n ->
  sumR (map (fun a => jac a j) (seq 0 (prodn (map (shape_of c) keep)))) = 0%R.
Proof.
  intros F Nk Hk Sn M J Nz Hj. set (out := map (shape_of c) keep).
  assert (V : forall y, exists z, mp_flat m (vec n y) = Ok z /\ List.length z = prodn out /\ (chan_total c (vec n y) <> 0%R -> sumR z = 1%R)).
  { intros y. destruct (normalize_flat procs c keep F Nk Hk (vec n y) n eq_refl Sn) as (m' & M' & L). pose proof M' as M2. rewrite M' in M. apply ok_inj in M. subst m'. eexists. split; [exact L|]. split; [rewrite map_length; apply all_idx_len|]. intros Z. apply (normalize_one procs c keep F Nk Hk (vec n y) n); auto. exists m. split; auto. }
  assert (D : derivable_pt_lim (fun h => sumR (map (fun a => match mp_flat m (vec n (bump x j h)) with Ok z => nth a z 0%R | Raise _ => 0%R end) (seq 0 (prodn out)))) 0 (sumR (map (fun a => jac a j) (seq 0 (prodn out))))).
  { apply (deriv_sum (fun a h => match mp_flat m (vec n (bump x j h)) with Ok z => nth a z 0%R | Raise _ => 0%R end)). intros a I. apply in_seq in I. destruct (V x) as (z & E & Lz & _). apply (J z E); auto. lia. }
  assert (G : forall h, (Rabs h < Rabs (chan_total c (vec n x)))%R -> sumR (map (fun a => match mp_flat m (vec n (bump x j h)) with Ok z => nth a z 0%R | Raise _ => 0%R end) (seq 0 (prodn out))) = 1%R).
  { intros h Hh. destruct (V (bump x j h)) as (z & E & Lz & Oz). rewrite E, <- Lz, map_seq_nth. apply Oz. clear E Oz Lz z.
    pose proof (collected_lin (ci_start c) (chan_shape c) (fun _ => Some []) n) as CL. destruct F as (_ & F). specialize (CL ltac:(lia)).
    assert (T : forall y, chan_total c (vec n y) = sumR (map (fun q => y q * w (ci_start c) (chan_shape c) (fun _ => Some []) [] q)%R (seq 0 n))).
    { intros y. rewrite <- CL. unfold chan_total, collected. cbn [vec t_at hd]. f_equal. f_equal. rewrite (filter_ext _ (fun _ => true)) by (intros; reflexivity). clear. induction (all_idx (chan_shape c)); cbn; congruence. }
    rewrite !T in *. rewrite (bump_lin _ _ _ n) by auto. intros Z. assert (B : (Rabs (h * w (ci_start c) (chan_shape c) (fun _ => Some []) [] j) <= Rabs h)%R).
    { unfold w. destruct (_ && _); [destruct (hits _ _ _)|]; rewrite ?Rmult_1_r, ?Rmult_0_r, ?Rabs_R0; try lra; apply Rabs_pos. }
    match goal with Z : (?A + ?B = 0)%R |- _ => assert (A = - B)%R by lra; assert (Rabs A = Rabs B)%R by (rewrite H; apply Rabs_Ropp) end. lra. }
  eapply uniqueness_limite; [exact D|]. intros e He. assert (P : (0 < Rabs (chan_total c (vec n x)))%R) by (apply Rabs_pos_lt; auto). exists (mkposreal _ P). intros h Hh Hd. cbn [pos] in Hd. rewrite !G; [|rewrite Rabs_R0; auto|rewrite Rplus_0_l; auto]. match goal with |- (Rabs ?q < e)%R => replace q with 0%R by (field; auto) end. rewrite Rabs_R0. auto.
Qed.
Theorem normalize_cov procs c keep m n x jac var b : filled c -> NoDup keep -> (forall n, In n keep -> In n (map ha_name (ci_axes c))) -> ci_stop c <= n -> project_mapping procs c keep true = Ok m -> jacobian_of m n x jac -> chan_total c (vec n x) <> 0%R -> List.length var = n ->
  sumR (map (fun a => data_cov jac var a b) (seq 0 (prodn (map (shape_of c) keep)))) = 0%R.
Proof.
  intros F Nk Hk Sn M J Nz L. unfold data_cov. rewrite sumR_swap. apply sum_zero. intros q I. apply in_seq in I.
  transitivity ((nth q var 0 * jac b q) * sumR (map (fun a => jac a q) (seq 0 (prodn (map (shape_of c) keep)))))%R; [rewrite <- sumR_map_scal; apply sumR_map_ext; intros; lra|].
  rewrite (normalize_jacobian procs c keep m n x jac q) by (auto; lia). lra.
Qed.
