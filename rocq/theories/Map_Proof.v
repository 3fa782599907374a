(** Totals, scaling, ratios, composites. *)
From Coq Require Import Reals List Arith ZArith Bool String Lia Lra Permutation.
From Verif Require Import RBase PyList PyDict ListUtil Shape Map_Model Map_Spec Map_Collect Map_Perm Map_Rules Map_Term Map_Merge Map_Select Map_Cells Map_Project Param_Names.
Import ListNotations.
Local Open Scope nat_scope.

Lemma collected_total f shape out pl : (forall i j, in_shape shape i -> pl i = Some j -> in_shape out j) ->
  sumR (map (collected f shape pl) (all_idx out)) = sumR (map (fun i => match pl i with Some _ => f i | None => 0%R end) (all_idx shape)).
Proof.
  intros H. pose proof (collects_total (mkT shape f) (mkT out (collected f shape pl)) pl) as Q. unfold total, flat, kept_total in Q. cbn [t_shape t_at] in Q. apply Q. split; cbn [t_shape t_at]; auto.
Qed.
Lemma coordinate_lt axes sh i n : List.length sh = List.length axes -> in_shape sh i -> In n (map ha_name axes) -> coordinate axes i n < coordinate axes sh n.
Proof.
  unfold coordinate. revert sh i. induction axes as [|a l IH]; intros sh i L H I; [destruct I|]. destruct sh as [|k sh]; [discriminate|]. inversion H as [|? v ? q A B]; subst. cbn [combine find fst snd]. destruct (String.eqb_spec (ha_name a) n) as [E|E]; auto. cbn in L. apply IH; auto. destruct I as [I|I]; [tauto|auto].
Qed.
Lemma projected_shape axes sh keep i : List.length sh = List.length axes -> in_shape sh i -> (forall n, In n keep -> In n (map ha_name axes)) -> in_shape (map (coordinate axes sh) keep) (projected axes keep i).
Proof. intros L H. unfold projected, in_shape. induction keep as [|n keep IH]; intros K; cbn [map]; constructor; [apply coordinate_lt; auto; apply K; cbn; auto|apply IH; intros; apply K; cbn; auto]. Qed.
Section Mapping.
Variables (procs : list string) (c : cinfo) (keep : list string).
Hypothesis (Hc : filled c) (Nk : NoDup keep) (Hk : forall n, In n keep -> In n (map ha_name (ci_axes c))).
Let shape := chan_shape c.
Let cell obs i : R := t_at obs [ci_start c + ravel shape i].
Variables (obs : tensor) (n : nat).
Lemma proj_total f : sumR (map (collected f shape (proj_place c keep)) (all_idx (map (shape_of c) keep))) = sumR (map f (all_idx shape)).
Proof.
  rewrite collected_total; auto. intros i j I E. unfold proj_place in E. injection E as <-. apply projected_shape; auto. apply chan_len.
Qed.
Theorem project_conserves l : t_shape obs = [n] -> ci_stop c <= n -> (exists m, project_mapping procs c keep false = Ok m /\ mp_flat m obs = Ok l) -> sumR l = sumR (map (cell obs) (all_idx shape)).
Proof.
  intros So Sn (m & M & L). destruct (project_flat procs c keep Hc Nk Hk obs n So Sn) as (m' & M' & _ & L'). rewrite M' in M. apply ok_inj in M. subst m'. rewrite L' in L. apply ok_inj in L. subst l. apply proj_total.
Qed.
Theorem normalize_one l : t_shape obs = [n] -> ci_stop c <= n -> chan_total c obs <> 0%R -> (exists m, project_mapping procs c keep true = Ok m /\ mp_flat m obs = Ok l) -> sumR l = 1%R.
Proof.
  intros So Sn Nz (m & M & L). destruct (normalize_flat procs c keep Hc Nk Hk obs n So Sn) as (m' & M' & L'). rewrite M' in M. apply ok_inj in M. subst m'. rewrite L' in L. apply ok_inj in L. subst l.
  transitivity (/ chan_total c obs * sumR (map (collected (cell obs) shape (proj_place c keep)) (all_idx (map (shape_of c) keep))))%R.
  - rewrite <- sumR_map_scal. apply sumR_map_ext. intros j _. unfold Rdiv. apply Rmult_comm.
  - rewrite proj_total. unfold chan_total in *. fold shape. fold shape in Nz. change (map (cell obs) (all_idx shape)) with (map (fun i => t_at obs [ci_start c + ravel shape i]) (all_idx shape)). field. auto.
Qed.
Lemma collected_nonneg f sh pl j : (forall i, in_shape sh i -> (0 <= f i)%R) -> (0 <= collected f sh pl j)%R.
Proof. intros H. unfold collected. apply sumR_nonneg. intros x I. apply in_map_iff in I as (i & <- & I). apply filter_In in I as (I & _). apply H, all_idx_In. auto. Qed.
Theorem normalize_nonneg l : t_shape obs = [n] -> ci_stop c <= n -> (forall i, in_shape shape i -> (0 <= cell obs i)%R) -> (exists m, project_mapping procs c keep true = Ok m /\ mp_flat m obs = Ok l) -> Forall (fun x => (0 <= x)%R) l.
Proof.
  intros So Sn Pos (m & M & L). destruct (normalize_flat procs c keep Hc Nk Hk obs n So Sn) as (m' & M' & L'). rewrite M' in M. apply ok_inj in M. subst m'. rewrite L' in L. apply ok_inj in L. subst l. apply Forall_forall. intros x I. apply in_map_iff in I as (j & <- & _).
  assert (P : (0 <= chan_total c obs)%R) by (unfold chan_total; apply sumR_nonneg; intros y I; apply in_map_iff in I as (i & <- & I); apply Pos, all_idx_In; auto).
  pose proof (collected_nonneg (cell obs) shape (proj_place c keep) j Pos) as Q. unfold cell in Q. destruct (Req_dec (chan_total c obs) 0) as [Z|Z]; [rewrite Z; unfold Rdiv; rewrite Rinv_0; lra|]. apply Rmult_le_pos; [auto|left; apply Rinv_0_lt_compat; lra].
Qed.
Theorem normalize_scale s m : t_shape obs = [n] -> ci_stop c <= n -> s <> 0%R -> project_mapping procs c keep true = Ok m -> mp_flat m (map_t (fun x => (s * x)%R) obs) = mp_flat m obs.
Proof.
  intros So Sn Nz M. destruct (normalize_flat procs c keep Hc Nk Hk obs n So Sn) as (m1 & M1 & L1). destruct (normalize_flat procs c keep Hc Nk Hk (map_t (fun x => (s * x)%R) obs) n So Sn) as (m2 & M2 & L2).
  rewrite M1 in M. apply ok_inj in M. subst m1. rewrite M1 in M2. apply ok_inj in M2. subst m2. rewrite L1, L2. f_equal. apply map_ext. intros j.
  assert (E1 : chan_total c (map_t (fun x => (s * x)%R) obs) = (s * chan_total c obs)%R) by (unfold chan_total; cbn [map_t t_at]; rewrite <- sumR_map_scal; auto).
  assert (E2 : collected (fun i => t_at (map_t (fun x => (s * x)%R) obs) [ci_start c + ravel (chan_shape c) i]) (chan_shape c) (proj_place c keep) j = (s * collected (fun i => t_at obs [(ci_start c + ravel (chan_shape c) i)%nat]) (chan_shape c) (proj_place c keep) j)%R) by (unfold collected; cbn [map_t t_at]; rewrite <- sumR_map_scal; auto).
  rewrite E1, E2. destruct (Req_dec (chan_total c obs) 0) as [Z|Z]; [rewrite Z, Rmult_0_r; unfold Rdiv; rewrite Rinv_0; lra|]. field. auto.
Qed.
(** per process: the last index *)
Lemma collected_tail f m j p : p < m ->
  collected f (shape ++ [m]) (fun i => Some (pick (ci_axes c) keep (List.length (ci_axes c)) i)) (j ++ [p]) = collected (fun i => f (i ++ [p])) shape (proj_place c keep) j.
Proof.
  intros P. unfold collected. set (L := map (fun i => i ++ [p]) (filter (hits (proj_place c keep) j) (all_idx shape))).
  assert (Pk : forall x q, in_shape shape x -> pick (ci_axes c) keep (List.length (ci_axes c)) (x ++ [q]) = projected (ci_axes c) keep x ++ [q]).
  { intros x q X. pose proof (in_shape_len _ _ X) as Lx. pose proof (chan_len c) as Lc. unfold shape in *. rewrite Lc in Lx. unfold pick. rewrite <- Lx, firstn_app, firstn_all, Nat.sub_diag, skipn_app, skipn_all, Nat.sub_diag. cbn [firstn skipn app]. rewrite app_nil_r. auto. }
  transitivity (sumR (map f L)); [|unfold L; rewrite map_map; auto].
  apply sumR_perm, Permutation_map, NoDup_Permutation; [apply NoDup_filter', all_idx_NoDup|apply FinFun.Injective_map_NoDup; [intros x y E; apply app_inj_tail in E; tauto|apply NoDup_filter', all_idx_NoDup]|].
  intros i. unfold L. rewrite filter_In, all_idx_In, hits_true, in_map_iff. split.
  - intros (I & E). apply Forall2_app_inv_l in I as (x & y & X & Y & ->). inversion Y as [|? q ? e Q Y']; subst. inversion Y'; subst. rewrite Pk in E by auto. injection E as E. apply app_inj_tail in E as (<- & ->). exists x. split; auto. apply filter_In. rewrite all_idx_In, hits_true. auto.
  - intros (x & <- & I). apply filter_In in I as (I & H). apply all_idx_In in I. apply hits_true in H. unfold proj_place in H. injection H as <-. split; [apply Forall2_app; auto; constructor; auto; constructor|]. rewrite Pk by auto. auto.
Qed.
Theorem project_each m : t_shape obs = [n; m] -> ci_stop c <= n ->
  exists t, project_per_process procs c keep false obs = Ok t /\ t_shape t = map (shape_of c) keep ++ [m] /\
    forall j p, in_shape (map (shape_of c) keep) j -> p < m -> t_at t (j ++ [p]) = collected (fun i => t_at obs [ci_start c + ravel shape i; p]) shape (proj_place c keep) j.
Proof.
  intros So Sn. unfold project_per_process. destruct (term_exists procs c) as (tm & T). rewrite T. cbn [rbind]. destruct (whole_procs procs c Hc tm obs n m T So Sn) as (v & -> & Sv & Av). cbn [rbind].
  destruct (project_any c keep Hc Nk Hk v [m] Sv) as (t & Et & St & C). exists t. split; auto. split; auto. intros j p J P.
  rewrite (proj2 C) by (rewrite St; apply Forall2_app; auto; constructor; auto; constructor). rewrite Sv. fold shape. rewrite (collected_tail (t_at v) m j p P). unfold collected. apply sumR_map_ext. intros i I. apply filter_In in I as (I & _). apply all_idx_In in I. apply Av; auto.
Qed.
(** the sum over the processes of what is returned for each is what is returned for all *)
Theorem project_each_sum m t l : t_shape obs = [n; m] -> ci_stop c <= n -> project_per_process procs c keep false obs = Ok t -> (exists mp, project_mapping procs c keep false = Ok mp /\ evaluate mp obs = Ok l) ->
  l = map (fun j => sumR (map (fun p => t_at t (j ++ [p])) (seq 0 m))) (all_idx (map (shape_of c) keep)).
Proof.
  intros So Sn Et (mp & M & L). destruct (project_each m So Sn) as (t' & Et' & St & At). rewrite Et' in Et. apply ok_inj in Et. subst t'.
  assert (Ss : t_shape (sum_axis 1 obs) = [n]) by (cbn [sum_axis t_shape]; rewrite So; auto).
  destruct (project_flat procs c keep Hc Nk Hk (sum_axis 1 obs) n Ss Sn) as (mp' & M' & _ & L'). rewrite M' in M. apply ok_inj in M. subst mp'.
  assert (Np : mp_needs_procs mp = false) by (unfold project_mapping in M'; destruct (term_init procs c [] [] [] []); [|discriminate]; cbn [rbind] in M'; destruct (negb _); [discriminate|]; apply ok_inj in M'; subst mp; auto).
  unfold evaluate in L. rewrite Np, L' in L. apply ok_inj in L. subst l. apply map_ext_in. intros j J. apply all_idx_In in J.
  transitivity (sumR (map (fun p => collected (fun i => t_at obs [ci_start c + ravel shape i; p]) shape (proj_place c keep) j) (seq 0 m))); [|apply sumR_map_ext; intros p I; apply in_seq in I; symmetry; apply At; auto; lia].
  unfold collected. rewrite <- sumR_swap. apply sumR_map_ext. intros i _. cbn [sum_axis t_at]. rewrite So. cbn [nth]. apply sumR_map_ext. intros p _. auto.
Qed.
Theorem normalize_each m : t_shape obs = [n; m] -> ci_stop c <= n ->
  let tot := sumR (map (fun i => sumR (map (fun p => t_at obs [ci_start c + ravel shape i; p]) (seq 0 m))) (all_idx shape)) in
  exists t, project_per_process procs c keep true obs = Ok t /\ t_shape t = map (shape_of c) keep ++ [m] /\ (tot <> 0%R -> total t = 1%R) /\
    forall j p, in_shape (map (shape_of c) keep) j -> p < m -> t_at t (j ++ [p]) = (collected (fun i => t_at obs [(ci_start c + ravel shape i)%nat; p]) shape (proj_place c keep) j / tot)%R.
Proof.
  intros So Sn tot. unfold project_per_process. destruct (term_exists procs c) as (tm & T). rewrite T. cbn [rbind]. destruct (whole_procs procs c Hc tm obs n m T So Sn) as (v & -> & Sv & Av). cbn [rbind]. unfold normalize_t.
  destruct (project_any c keep Hc Nk Hk (map_t (fun x => (x / total v)%R) v) [m] Sv) as (t & Et & St & C). exists t. split; auto. split; auto.
  assert (Tv : total v = tot).
  { unfold total, flat, tot. rewrite Sv. fold shape.
    transitivity (sumR (map (t_at v) (flat_map (fun i => map (fun p => i ++ [p]) (seq 0 m)) (all_idx shape)))).
    - apply sumR_perm, Permutation_map, NoDup_Permutation; [apply all_idx_NoDup| |].
      + assert (Q : forall l, NoDup l -> NoDup (flat_map (fun i => map (fun p => i ++ [p]) (seq 0 m)) l)); [|apply Q, all_idx_NoDup]. induction l as [|a l IH]; intros N; [constructor|]. inversion N as [|? ? Na Nl]; subst. cbn [flat_map]. apply NoDup_app'; auto.
        * apply FinFun.Injective_map_NoDup; [intros x y E; apply app_inj_tail in E; tauto|apply seq_NoDup].
        * intros x I J. apply in_map_iff in I as (p & <- & _). apply in_flat_map in J as (b & Ib & J). apply in_map_iff in J as (q & E & _). apply app_inj_tail in E as (-> & _). tauto.
      + intros i. rewrite all_idx_In, in_flat_map. split.
        * intros I. apply Forall2_app_inv_l in I as (x & y & X & Y & ->). inversion Y as [|? q ? e Q Y']; subst. inversion Y'; subst. exists x. split; [apply all_idx_In; auto|]. apply in_map_iff. exists q. split; auto. apply in_seq. lia.
        * intros (x & X & I). apply all_idx_In in X. apply in_map_iff in I as (q & <- & I). apply in_seq in I. apply Forall2_app; auto. constructor; [lia|constructor].
    - assert (Q : forall l, (forall i, In i l -> in_shape shape i) -> sumR (map (t_at v) (flat_map (fun i => map (fun p => i ++ [p]) (seq 0 m)) l)) = sumR (map (fun i => sumR (map (fun p => t_at obs [ci_start c + ravel shape i; p]) (seq 0 m))) l)); [|apply Q; intros i I; apply all_idx_In; auto].
      induction l as [|a l IH]; intros H; auto. cbn [flat_map]. rewrite map_app, sumR_app, IH by (intros; apply H; cbn; auto). cbn [map]. match goal with |- _ = sumR (?x :: ?y) => change (sumR (x :: y)) with (x + sumR y)%R end. apply (f_equal2 Rplus); auto. rewrite map_map. apply sumR_map_ext. intros p I. apply in_seq in I. apply Av; [apply H; cbn; auto|lia]. }
  assert (Tt : total t = total (map_t (fun x => (x / total v)%R) v)) by (rewrite (collects_total _ _ _ C); unfold kept_total, total, flat; auto).
  split.
  - intros Nz. rewrite Tt. change (total (map_t (fun x => (x / total v)%R) v)) with (sumR (map (fun i => t_at v i / total v)%R (all_idx (t_shape v)))). transitivity (/ total v * sumR (map (t_at v) (all_idx (t_shape v))))%R; [rewrite <- sumR_map_scal; apply sumR_map_ext; intros; unfold Rdiv; apply Rmult_comm|]. change (sumR (map (t_at v) (all_idx (t_shape v)))) with (total v). rewrite Tv. field. auto.
  - intros j p J P. rewrite (proj2 C) by (rewrite St; apply Forall2_app; auto; constructor; auto; constructor). cbn [map_t t_shape]. rewrite Sv. fold shape. rewrite (collected_tail (t_at (map_t (fun x => (x / total v)%R) v)) m j p P). unfold collected. cbn [map_t t_at]. unfold Rdiv. rewrite Rmult_comm, <- sumR_map_scal. apply sumR_map_ext. intros i I. apply filter_In in I as (I & _). apply all_idx_In in I. rewrite Av, Tv by auto. apply Rmult_comm.
Qed.
End Mapping.
