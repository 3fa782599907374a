(** C114: the diagnostics of the bin-by-bin nuisances. *)
From Coq Require Import List Reals Bool Arith Lia Lra.
From Verif Require Import PyList RBase BBStat_Model BBStat_Spec BBStat_Proof Mat_Model Mat_Proof Linear_Model Linear_Proof Bdiag_Model Bdiag_Spec Bdiag_Proof.
Import ListNotations.
Local Open Scope R_scope.

(** a bin with two processes, one without uncertainty *)
Definition two : lbin := mkLB (mkBin 4 4 false 8) [(false, 3); (true, 1)] (Some (5, 2)) 1.
Ltac compute_bin := unfold lb_grad, lb_hess, lb_nexp, slope, dconstraint, ddconstraint, two; simpl; unfold safe_pos, n_active; simpl;
  repeat match goal with
  | |- context [Reqb ?a ?b] => destruct (Reqb_spec a b); try (exfalso; lra)
  | |- context [Rltb ?a ?b] => destruct (Rltb_spec a b); try (exfalso; lra)
  end.
Example C114_ex_chisq : lb_grad Chisq NormalMult two 1 = - 3 / 2 /\ lb_hess Chisq NormalMult two 1 = 25 / 2.
Proof. split; compute_bin; lra. Qed.
Example C114_ex_poisson : lb_grad Poisson Gamma two 2 = 34 / 7 /\ lb_hess Poisson Gamma two 2 = 143 / 49.
Proof. split; compute_bin; lra. Qed.
Example C114_ex_additive : lb_grad Poisson NormalAdd two 2 = 2 * (1 - 5 / 8) + 1 /\ lb_hess Poisson NormalAdd two 2 = 4 * (5 / 64) + 1.
Proof. assert (S : sqrt 4 = 2) by (replace 4 with (2 * 2) by ring; apply sqrt_square; lra). split; compute_bin; rewrite S; field. Qed.
Example C114_ex_masked_channel : lb_profile Poisson Gamma (mkLB (mkBin 4 4 false 8) [] None 3) = 3.
Proof. reflexivity. Qed.
(** The gradient and the Hessian are derivatives of the loss with respect to the nuisance. *)
Theorem C114_autodiff l t b x : lb_inside l t b x ->
  derivable_pt_lim (lb_loss l t b) x (lb_grad l t b x) /\ derivable_pt_lim (lb_grad l t b) x (lb_hess l t b x).
Proof. exact (lb_autodiff l t b x). Qed.
(** The profiled nuisance is a stationary point, *)
Theorem C114_stationary l t minstat s : usable minstat (s_procs s) -> sane l t s -> inside l t s (lb_profile l t (to_lb minstat s)) ->
  lb_grad l t (to_lb minstat s) (lb_profile l t (to_lb minstat s)) = 0.
Proof. exact (profile_stationary l t minstat s). Qed.
(** the loss is curved upwards everywhere, *)
Theorem C114_curved l t minstat s x : usable minstat (s_procs s) -> sane l t s -> inside l t s x -> 0 < lb_hess l t (to_lb minstat s) x.
Proof. exact (hess_pos l t minstat s x). Qed.
(** so the logged distance to the minimum is zero for all bins together, and the matrix logged with it is diagonal with the inverse curvatures. *)
Theorem C114_edm gpu l t minstat ss :
  (forall s, In s ss -> usable minstat (s_procs s) -> sane l t s /\ inside l t s (lb_profile l t (to_lb minstat s))) ->
  let h := hesss l t (map (to_lb minstat) ss) in
  exists c, edm_beta gpu l t (map (to_lb minstat) ss) = Ok (0, c) /\
    forall i j, (i < List.length h)%nat -> (j < List.length h)%nat -> c i j = if Nat.eqb i j then / nth i h 0 else 0.
Proof. exact (edm_beta_zero gpu l t minstat ss). Qed.
(** With data in every bin nothing else is needed. *)
Theorem C114_filled gpu l t minstat ss :
  (forall s, In s ss -> usable minstat (s_procs s) -> sane l t s /\ filled l s) ->
  let h := hesss l t (map (to_lb minstat) ss) in
  exists c, edm_beta gpu l t (map (to_lb minstat) ss) = Ok (0, c) /\
    forall i j, (i < List.length h)%nat -> (j < List.length h)%nat -> c i j = if Nat.eqb i j then / nth i h 0 else 0.
Proof. intros H. apply edm_beta_zero. intros s I U. destruct (H s I U) as [S F]. split; auto. apply filled_inside; auto. Qed.
(** The value is never negative, and zero exactly where the gradient vanishes: it detects every wrong profile. *)
Theorem C114_detects gpu n g A e c : sym n A -> posdef n A -> lib_edmval_cov gpu n g A = Ok (e, c) ->
  0 <= e /\ (e = 0 <-> forall i, (i < n)%nat -> g i = 0).
Proof. exact (edm_iff gpu n g A e c). Qed.

Definition low : sbin := mkSB [mkProc 4 2 3; mkProc 1 0 1] (Some (5, 2)) 1.
Definition channel : sbin := mkSB [mkProc 4 2 3] None 1.
Definition useless : sbin := mkSB [mkProc 0 0 3] (Some (5, 2)) 1.
Ltac dec0 := repeat match goal with |- context [Req_EM_T ?a ?b] => destruct (Req_EM_T a b); try lra end.
Lemma low_ok : usable 0 (s_procs low) /\ sane Poisson Gamma low /\ filled Poisson low.
Proof.
  unfold usable, sane, filled, good_inputs, n_effective, yield_mc, yield_exact, mc_variance, mc_sumw, low; simpl. dec0.
  repeat split; try lra; try (intros p [<-|[<-|[]]]; simpl; lra). intros _ nobs var E. injection E as <- <-. lra.
Qed.
Lemma channel_ok : usable 0 (s_procs channel) /\ sane Poisson Gamma channel /\ filled Poisson channel.
Proof.
  unfold usable, sane, filled, n_effective, yield_mc, yield_exact, mc_variance, mc_sumw, channel; simpl. dec0.
  repeat split; try lra; try (intros p [<-|[]]; simpl; lra). intros _ nobs var E. discriminate.
Qed.
Lemma useless_masked : ~ usable 0 (s_procs useless).
Proof. intros (V & _). apply V. unfold useless, mc_variance; simpl. dec0. Qed.
Example C114_ex_edm : exists c, edm_beta false Poisson Gamma (map (to_lb 0) [low; channel; useless]) = Ok (0, c).
Proof.
  destruct (C114_filled false Poisson Gamma 0 [low; channel; useless]) as (c & E & _); [|exists c; exact E].
  intros s [<-|[<-|[<-|[]]]] U; [apply low_ok|apply channel_ok|destruct (useless_masked U)].
Qed.
Example C114_ex_selected : List.length (selected (map (to_lb 0) [low; useless; channel])) = 2%nat.
Proof.
  unfold selected. cbn [map filter to_lb lb_info].
  rewrite (proj2 (mask_spec (s_procs low) 0) (proj1 low_ok)), (proj2 (mask_spec (s_procs channel) 0) (proj1 channel_ok)).
  destruct (bi_mask (lite_info (map raw (s_procs useless)) 0)) eqn:E; [reflexivity|]. apply mask_spec in E. destruct (useless_masked E).
Qed.

(** An empty bin whose expectation exceeds its effective number of events: the profiled normal nuisance is at zero, the edge of its range,
    which is the best admissible value, and the logged value is not zero. *)
Definition empty : sbin := mkSB [mkProc 4 2 10] (Some (0, 1)) 1.
Lemma empty_ok : usable 0 (s_procs empty) /\ sane Poisson NormalMult empty.
Proof.
  unfold usable, sane, good_inputs, n_effective, yield_mc, yield_exact, mc_variance, mc_sumw, empty; simpl. dec0.
  repeat split; try lra; try discriminate; try (intros p [<-|[]]; simpl; lra).
Qed.
Lemma empty_values : n_effective (s_procs empty) = 8 /\ yield_mc (s_procs empty) = 10 /\ yield_exact (s_procs empty) = 0.
Proof. unfold n_effective, yield_mc, yield_exact, mc_variance, mc_sumw, empty; simpl. dec0; repeat split; lra. Qed.
Lemma empty_profile : lb_profile Poisson NormalMult (to_lb 0 empty) = 0.
Proof.
  destruct empty_ok as [U _]. destruct empty_values as (K & Y & Z).
  unfold lb_profile, to_lb; cbn [lb_obs lb_info lb_procs lb_beta0]. change (s_obs empty) with (Some (0, 1)). change (s_beta0 empty) with 1. cbn [profile_lite].
  rewrite n_active_spec, n_zero_var_spec, (kstat_spec _ _ U), K, Y, Z, (proj2 (mask_spec _ 0) U), safe_pos_id by lra.
  unfold solve_quad_eq.
  replace ((10 * 10 - 8 * 1 * 10 + 8 * 0) * (10 * 10 - 8 * 1 * 10 + 8 * 0) - 4 * (8 * 10) * (10 * (0 - 0) - 8 * 1 * 0)) with (20 * 20) by ring.
  rewrite sqrt_square by lra. lra.
Qed.
Theorem C114_empty_bin_refuted : exists l t minstat s c,
  usable minstat (s_procs s) /\ sane l t s /\
  (forall nobs var, s_obs s = Some (nobs, var) -> minimises (admissible l t (s_procs s) nobs (s_beta0 s)) (objective l t (s_procs s) nobs var (s_beta0 s)) (lb_profile l t (to_lb minstat s))) /\
  edm_beta false l t [to_lb minstat s] = Ok (1 / 4, c).
Proof.
  destruct empty_ok as [U S]. destruct empty_values as (K & Y & Z).
  assert (M := proj2 (mask_spec (s_procs empty) 0) U).
  assert (SEL : selected [to_lb 0 empty] = [to_lb 0 empty]) by (unfold selected; cbn [filter to_lb lb_info]; rewrite M; reflexivity).
  assert (SL : slope NormalMult (to_lb 0 empty) = 10).
  { assert (A := nexp_affine NormalMult (to_lb 0 empty) 1). rewrite !nexp_expectation in A by (auto; lra). cbn [expectation] in A. rewrite Y, Z in A. lra. }
  assert (G : grads Poisson NormalMult [to_lb 0 empty] = [2]).
  { unfold grads. rewrite SEL. cbn [map]. f_equal. rewrite empty_profile. unfold lb_grad. change (lb_obs (to_lb 0 empty)) with (Some (0, 1)).
    rewrite SL. cbn [dln]. destruct (Reqb_spec 0 0); [|lra]. unfold dconstraint. cbn [to_lb lb_info lb_beta0]. rewrite M, (kstat_spec _ _ U), K.
    change (s_beta0 empty) with 1. lra. }
  assert (H : hesss Poisson NormalMult [to_lb 0 empty] = [8]).
  { unfold hesss. rewrite SEL. cbn [map]. f_equal. rewrite empty_profile. unfold lb_hess. change (lb_obs (to_lb 0 empty)) with (Some (0, 1)).
    cbn [ddln]. destruct (Reqb_spec 0 0); [|lra]. unfold ddconstraint. cbn [to_lb lb_info lb_beta0]. rewrite M, (kstat_spec _ _ U), K. lra. }
  assert (P : posdef 1 (fun i j => if Nat.eqb i j then nth i [8] 0 else 0)) by (apply (diag_posdef [8]); intros x [<-|[]]; lra).
  destruct (proj1 (lib_spec false 1 (fun i => nth i [2] 0) _ (diag_sym 1 [8])) P) as (e & c & E & (X & I & _)).
  assert (C := I O O ltac:(lia) ltac:(lia)). unfold mm, delta in C; cbn [sm Nat.eqb nth] in C.
  exists Poisson, NormalMult, 0, empty, c. split; [auto|split; [auto|split]].
  - intros nobs var O. unfold lb_profile. change (lb_obs (to_lb 0 empty)) with (s_obs empty). rewrite O. destruct S as (V & Y' & _ & GI). rewrite O in GI.
    apply lite_profile_minimises; auto.
  - unfold edm_beta. rewrite SEL, G, H. cbn [List.length]. rewrite E, X. do 2 f_equal. unfold vdot, mv; cbn [sm nth]. lra.
Qed.

Print Assumptions C114_autodiff.
Print Assumptions C114_stationary.
Print Assumptions C114_curved.
Print Assumptions C114_edm.
Print Assumptions C114_filled.
Print Assumptions C114_detects.
Print Assumptions C114_empty_bin_refuted.
