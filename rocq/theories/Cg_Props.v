From Coq Require Import Reals List Arith Bool Lra Lia.
From Verif Require Import RBase ListUtil PyList Mat_Model Mat_Proof Contour_Spec Contour_Proof Cg_Model Cg_Spec Cg_Proof.
Import ListNotations.
Open Scope R_scope.

(** ** C110: uncertainties without the Hessian *)
(** at a minimum conjugate gradients converge within the allowed iterations, whatever the tolerance: the residual is within the
    tolerance and orthogonal to the solution found, and frozen parameters stay *)
Theorem C110_converges : forall n H frozen b rtol maxiter, floating_min n H frozen -> frozen_rows n H frozen -> floating_move n frozen b -> 0 < rtol ->
  match maxiter with Some m => (n < m)%nat | None => True end ->
  exists x, cg n (mv n H) b rtol 0 maxiter = CgInfo0 x /\ floating_move n frozen x /\ sqlen n (defect n H b x) <= rtol ^ 2 * sqlen n b /\ sm n (fun i => x i * defect n H b x i) = 0.
Proof. exact cg_spec. Qed.
(** the estimated distance to the minimum is never too large, and too small by at most the square of the tolerance *)
Lemma below n H frozen m b x y rtol : floating_min n H frozen -> curvature n H frozen m -> floating_move n frozen x -> floating_move n frozen y -> solves n H b y ->
  sqlen n (defect n H b x) <= rtol ^ 2 * sqlen n b -> vdot n x (defect n H b x) = 0 -> vdot n b x <= vdot n b y <= vdot n b x + rtol ^ 2 * sqlen n b / m.
Proof.
  intros FM K Mx My Y D O. assert (E := energy n H b x y (proj1 FM) Y O). assert (B := energy_bound n H frozen m b x y K Mx My Y). destruct K as (Pm & K).
  assert (Md : floating_move n frozen (fun i => y i - x i)) by (intros i Hi F; rewrite (Mx i Hi F), (My i Hi F); ring).
  assert (P : 0 <= form n H (fun i => y i - x i)). { assert (Q := K _ Md). assert (0 <= sqlen n (fun i => y i - x i)) by (rewrite sqlen_dot; apply vdot_pos). assert (0 <= m * sqlen n (fun i => y i - x i)) by (apply Rmult_le_pos; lra). lra. }
  split; [lra|]. assert (form n H (fun i => y i - x i) <= rtol ^ 2 * sqlen n b / m); [|lra]. apply (Rmult_le_reg_l m); auto. replace (m * (rtol ^ 2 * sqlen n b / m)) with (rtol ^ 2 * sqlen n b) by (field; lra). lra.
Qed.
Theorem C110_edm : forall n H frozen m grad rows rtol y, floating_min n H frozen -> frozen_rows n H frozen -> curvature n H frozen m -> floating_move n frozen grad -> 0 < rtol ->
  (forall i, In i rows -> (i < n)%nat /\ frozen i = false) -> floating_move n frozen y -> solves n H grad y ->
  exists e cs, edmval_cov_rows_hessfree n (mv n H) grad rows rtol None = Ok (e, cs) /\ List.length cs = List.length rows /\
    e <= / 2 * sm n (fun i => grad i * y i) <= e + / 2 * (rtol ^ 2 * sqlen n grad / m).
Proof.
  intros n H frozen m grad rows rtol y FM FR K Fg Hr HR My Y. unfold edmval_cov_rows_hessfree.
  destruct (cg_spec n H frozen grad rtol None FM FR Fg Hr I) as (x & E & Mx & Dx & Ox). rewrite E. cbn [cg_ok rbind]. cbv zeta.
  destruct (cov_rows_ok n H frozen rtol FM FR Hr rows HR) as (cs & -> & F). cbn [rbind]. exists (/ 2 * vdot n grad x), cs. split; auto. split; [symmetry; apply (Forall2_len _ _ _ F)|].
  assert (B := below n H frozen m grad x y rtol FM K Mx My Y Dx Ox). change (sm n (fun i => grad i * y i)) with (vdot n grad y). lra.
Qed.
(** a covariance of the floating parameters solves the systems *)
Lemma cov_solves n H frozen C j : floating_min n H frozen -> frozen_rows n H frozen -> floating_cov n H frozen C -> (j < n)%nat -> frozen j = false ->
  solves n H (delta j) (fun k => C k j) /\ floating_move n frozen (fun k => C k j).
Proof.
  intros FM FR FC Hj Fj. split.
  - intros i Hi. destruct (frozen i) eqn:Fi.
    + rewrite sm_0 by (intros l Hl; rewrite FR by auto; ring). unfold delta. destruct (Nat.eqb_spec j i) as [->|]; auto. congruence.
    + assert (E := FC i j Hi Hj). rewrite Fi, Fj in E. cbn [orb] in E. rewrite E. rewrite (delta_sym j i). auto.
  - intros i Hi Fi. assert (E := FC i j Hi Hj). rewrite Fi in E. exact E.
Qed.
(** a fit with --noHessian: it does not fail, the entries of the parameters [0, npoi) and npoi + k hold their variance from the
    covariance of the floating parameters, never too large and too small by at most rtol^2 over the smallest curvature, all others NaN *)
Theorem C110_variances : forall n npoi noiidxs H C frozen m grad rtol, floating_min n H frozen -> frozen_rows n H frozen -> floating_cov n H frozen C -> curvature n H frozen m ->
  floating_move n frozen grad -> 0 < rtol -> (npoi <= n)%nat -> (forall k, In k noiidxs -> (npoi + k < n)%nat) ->
  (forall i, (i < npoi)%nat -> frozen i = false) -> (forall k, In k noiidxs -> frozen (npoi + k)%nat = false) ->
  exists e l, hessfree_step n npoi noiidxs (mv n H) grad rtol = Ok (e, l) /\ List.length l = n /\
    forall i, (i < n)%nat -> (((i < npoi)%nat \/ exists k, In k noiidxs /\ i = (npoi + k)%nat) -> exists v, nth i l None = Some v /\ close_below rtol m (C i i) v) /\
      (~ ((i < npoi)%nat \/ exists k, In k noiidxs /\ i = (npoi + k)%nat) -> nth i l None = None).
Proof.
  intros n npoi noiidxs H C frozen m grad rtol FM FR FC K Fg Hr Hp Hn F1 F2. unfold hessfree_step. cbv zeta. set (idx := poi_noi_idx npoi noiidxs).
  assert (HI : forall i, In i idx <-> ((i < npoi)%nat \/ exists k, In k noiidxs /\ i = (npoi + k)%nat)).
  { intros i. unfold idx, poi_noi_idx. rewrite in_app_iff, in_seq, in_map_iff. split.
    - intros [A|(k & <- & A)]; [left; lia|right; exists k; split; auto; lia].
    - intros [A|(k & A & ->)]; [left; lia|right; exists k; split; auto; lia]. }
  assert (HR : forall i, In i idx -> (i < n)%nat /\ frozen i = false).
  { intros i Hi. apply HI in Hi. destruct Hi as [A|(k & A & ->)]; [split; [lia|auto]|split; auto]. }
  unfold edmval_cov_rows_hessfree. destruct (cg_spec n H frozen grad rtol None FM FR Fg Hr I) as (x & E & _). rewrite E. cbn [cg_ok rbind]. cbv zeta.
  destruct (cov_rows_ok n H frozen rtol FM FR Hr idx HR) as (cs & -> & F). cbn [rbind fst snd]. destruct (fill_ok _ _ _ F (repeat None n)) as (L1 & L2). rewrite repeat_length in *.
  eexists _, _. split; [reflexivity|]. split; auto. intros i Hi. destruct (L2 i Hi) as (A & B). split.
  - intros X. apply HI in X. destruct (A X) as (c & (Mc & Dc & Oc) & ->). exists (c i). split; auto. destruct (HR i X) as (_ & Fi).
    destruct (cov_solves n H frozen C i FM FR FC Hi Fi) as (S1 & S2). assert (Q := below n H frozen m (delta i) c (fun k => C k i) rtol FM K Mc S2 S1).
    rewrite delta_sqlen in Q by auto. unfold vdot in Q. rewrite !(sm_delta n i) in Q by auto. rewrite Rmult_1_r in Q. apply Q; auto.
  - intros X. rewrite B by (intros Y; apply X, HI; auto). apply nth_repeat.
Qed.

(** variances 1 and 2 with covariance 1: the row of the first parameter after two steps *)
Definition ex_H (i j : nat) : R := match i, j with O, O => 2 | S O, S O => 1 | O, S O | S O, O => -1 | _, _ => 0 end.
Lemma cg_next n hvp tol f prev x r p : tol <= vnorm n r ->
  match prev with Some (p, rp) => if Reqb rp 0 then None else Some (fun i => p i * (vdot n r r / rp) + r i) | None => Some r end = Some p -> vdot n p (hvp p) <> 0 ->
  cg_loop n hvp tol (S f) prev x r = cg_loop n hvp tol f (Some (p, vdot n r r)) (fun i => x i + vdot n r r / vdot n p (hvp p) * p i) (fun i => r i - vdot n r r / vdot n p (hvp p) * hvp p i).
Proof. intros T E N. cbn [cg_loop]. rewrite Rltb_false by lra. cbv zeta. rewrite E. rewrite Reqb_false by auto. auto. Qed.
Lemma cg_last n hvp tol f prev x r : vnorm n r < tol -> cg_loop n hvp tol (S f) prev x r = CgInfo0 x.
Proof. intros T. cbn [cg_loop]. rewrite Rltb_true by auto. auto. Qed.
Example C110_ex : exists x, cg 2 (mv 2 ex_H) (delta 0) (/ 10) 0 None = CgInfo0 x /\ x O = 1 /\ x 1%nat = 1.
Proof.
  unfold cg. assert (E0 : vdot 2 (delta 0) (delta 0) = 1) by (unfold vdot, delta; cbn; ring). assert (N0 : vnorm 2 (delta 0) = 1) by (unfold vnorm; rewrite E0; apply sqrt_1).
  rewrite N0. rewrite Reqb_false by lra. cbv zeta. rewrite Rmax_right by lra. change (2 * 10)%nat with (S (S (S 17))). generalize 17%nat. intros f.
  set (q := mv 2 ex_H (delta 0)). assert (Q0 : q O = 2) by (unfold q, mv, delta; cbn; ring). assert (Q1 : q 1%nat = -1) by (unfold q, mv, delta; cbn; ring).
  assert (PQ : vdot 2 (delta 0) q = 2) by (unfold vdot, delta; cbn [sm Nat.eqb]; rewrite Q0; ring).
  rewrite (cg_next 2 _ _ _ None _ (delta 0) (delta 0)); [|lra|auto|fold q; lra]. fold q. rewrite PQ, E0.
  set (r := fun i => delta 0 i - 1 / 2 * q i). assert (R0 : r O = 0) by (unfold r, delta; cbn [Nat.eqb]; rewrite Q0; field). assert (R1 : r 1%nat = / 2) by (unfold r, delta; cbn [Nat.eqb]; rewrite Q1; field).
  assert (RR : vdot 2 r r = / 2 * / 2) by (unfold vdot; cbn [sm]; rewrite R0, R1; ring). assert (NR : vnorm 2 r = / 2) by (unfold vnorm; rewrite RR; apply sqrt_square; lra).
  pose (p := fun i => delta 0 i * (vdot 2 r r / 1) + r i). assert (P0 : p O = / 4) by (unfold p, delta; cbn [Nat.eqb]; rewrite R0, RR; field). assert (P1 : p 1%nat = / 2) by (unfold p, delta; cbn [Nat.eqb]; rewrite R1; field).
  set (q2 := mv 2 ex_H p). assert (Q20 : q2 O = 0) by (unfold q2, mv; cbn [sm ex_H]; rewrite P0, P1; field). assert (Q21 : q2 1%nat = / 4) by (unfold q2, mv; cbn [sm ex_H]; rewrite P0, P1; field).
  assert (PQ2 : vdot 2 p q2 = / 8) by (unfold vdot; cbn [sm]; rewrite P0, P1, Q20, Q21; field).
  rewrite (cg_next 2 _ _ _ _ _ r p); [|lra|rewrite Reqb_false by lra; reflexivity|fold q2; lra]. fold q2. rewrite PQ2, RR.
  set (r2 := fun i => r i - / 2 * / 2 / / 8 * q2 i). assert (RR2 : vdot 2 r2 r2 = 0) by (unfold vdot, r2; cbn [sm]; rewrite R0, R1, Q20, Q21; field).
  rewrite cg_last by (unfold vnorm; rewrite RR2, sqrt_0; lra). eexists. split; [reflexivity|]. cbv beta. rewrite P0, P1. unfold delta. cbn [Nat.eqb]. split; field.
Qed.
(** too few iterations are reported *)
Example C110_ex_gives_up : cg 2 (mv 2 ex_H) (delta 0) (/ 10) 0 (Some 1%nat) = CgMax.
Proof.
  unfold cg. assert (E0 : vdot 2 (delta 0) (delta 0) = 1) by (unfold vdot, delta; cbn; ring). assert (N0 : vnorm 2 (delta 0) = 1) by (unfold vnorm; rewrite E0; apply sqrt_1).
  rewrite N0. rewrite Reqb_false by lra. cbv zeta. rewrite Rmax_right by lra.
  set (q := mv 2 ex_H (delta 0)). assert (Q0 : q O = 2) by (unfold q, mv, delta; cbn; ring).
  assert (PQ : vdot 2 (delta 0) q = 2) by (unfold vdot, delta; cbn [sm Nat.eqb]; rewrite Q0; ring).
  rewrite (cg_next 2 _ _ _ None _ (delta 0) (delta 0)); [reflexivity|lra|auto|fold q; lra].
Qed.
Example C110_ex_hypotheses : floating_min 2 ex_H (fun _ => false) /\ frozen_rows 2 ex_H (fun _ => false) /\ curvature 2 ex_H (fun _ => false) (/ 3).
Proof.
  assert (K : forall z, / 3 * sqlen 2 z <= form 2 ex_H z).
  { intros z. unfold sqlen, form. cbn [sm ex_H]. assert (S1 := Rle_0_sqr (5 * z O - 3 * z 1%nat)). assert (S2 := Rle_0_sqr (z 1%nat)). unfold Rsqr in *. lra. }
  split; [split|split].
  - intros [|[|i]] [|[|j]] Hi Hj; cbn; auto; lia.
  - intros z _ (i & Hi & Ni). assert (Q := K z). assert (0 < sqlen 2 z); [|lra]. unfold sqlen. cbn [sm]. assert (S1 := Rle_0_sqr (z O)). assert (S2 := Rle_0_sqr (z 1%nat)). assert (P := Rsqr_pos_lt _ Ni). unfold Rsqr in *.
    destruct i as [|[|i]]; [lra|lra|lia].
  - intros i j _ _ E. discriminate.
  - split; [lra|]. auto.
Qed.

(** where the model has parameters that are not of interest (npou > 0), the row of a parameter k of the systematics is taken at
    npoi + k instead of npoi + npou + k: its own variance is NaN, and the value stored belongs to another parameter, which was not asked for *)
Theorem C110_position_refuted : exists n npoi npou noiidxs H C rtol e l, floating_min n H (fun _ => false) /\ floating_cov n H (fun _ => false) C /\ (npoi + npou <= n)%nat /\
  (forall k, In k noiidxs -> (noi_position npoi npou k < n)%nat) /\ hessfree_step n npoi noiidxs (mv n H) (fun _ => 0) rtol = Ok (e, l) /\
  (forall k, In k noiidxs -> nth (noi_position npoi npou k) l None = None) /\
  exists v, nth npoi l None = Some v /\ close_below rtol (/ 3) (C npoi npoi) v.
Proof.
  destruct C110_ex_hypotheses as (A & B & K). pose (C := fun i j : nat => match i, j with O, O => 1 | S O, S O => 2 | O, S O | S O, O => 1 | _, _ => 0 end : R).
  assert (FC : floating_cov 2 ex_H (fun _ => false) C) by (intros [|[|i]] [|[|j]] Hi Hj; cbn; try lia; lra).
  destruct (C110_variances 2 0 [O] ex_H C (fun _ => false) (/ 3) (fun _ => 0) (/ 10) A B FC K) as (e & l & E & L & V); try (intros; auto; lra); try lia; [intros i _ _; reflexivity|intros k [<-|[]]; lia|].
  exists 2%nat, O, 1%nat, [O], ex_H, C, (/ 10), e, l. split; auto. split; auto. split; [lia|]. split; [intros k [<-|[]]; unfold noi_position; lia|]. split; auto. split.
  - intros k [<-|[]]. unfold noi_position. cbn [plus]. apply (V 1%nat ltac:(lia)). intros [X|(k & [<-|[]] & X)]; lia.
  - apply (V O ltac:(lia)). right. exists O. split; [left|]; auto.
Qed.
(** a frozen parameter of interest makes the whole step fail, after the minimisation *)
Theorem C110_frozen_refuted : forall n H frozen npoi noiidxs grad rtol, floating_min n H frozen -> frozen_rows n H frozen -> floating_move n frozen grad -> 0 < rtol <= 1 -> (0 < npoi <= n)%nat -> frozen O = true ->
  hessfree_step n npoi noiidxs (mv n H) grad rtol = Raise ValueError.
Proof.
  intros n H frozen npoi noiidxs grad rtol FM FR Fg Hr Hp F0. unfold hessfree_step, edmval_cov_rows_hessfree. cbv zeta. destruct (cg_spec n H frozen grad rtol None FM FR Fg ltac:(lra) I) as (x & E & _). rewrite E. cbn [cg_ok rbind].
  unfold poi_noi_idx. destruct npoi as [|npoi]; [lia|]. cbn [seq app cov_rows]. rewrite (proj2 (Nat.ltb_lt 0 n)) by lia.
  rewrite (frozen_row_fails n H 0 rtol None); auto; [lia|intros; apply FR; auto; lia|]. intros j Hj. rewrite (proj1 FM j O) by lia. apply FR; auto; lia.
Qed.
(** with no iterations allowed, zero is returned as the solution *)
Theorem C110_no_iterations_refuted : forall n hvp b rtol, vnorm n b <> 0 -> cg n hvp b rtol 0 (Some O) = CgInfo0 (fun _ => 0).
Proof. intros n hvp b rtol N. unfold cg. cbv zeta. rewrite Reqb_false by auto. reflexivity. Qed.

Print Assumptions C110_converges.
Print Assumptions C110_edm.
Print Assumptions C110_variances.
Print Assumptions C110_position_refuted.
