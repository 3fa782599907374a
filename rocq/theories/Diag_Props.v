(** C113: the diagnostics of the fit. *)
From Coq Require Import List Reals ZArith Bool Lia Lra.
From Verif Require Import PyList RBase Mat_Model Mat_Proof Fit_Model Linear_Model Linear_Proof Diag_Model Diag_Spec Diag_Proof.
Import ListNotations.
Local Open Scope R_scope.

Ltac decide_R := repeat match goal with
  | |- context [Reqb ?a ?b] => destruct (Reqb_spec a b) as [?|?]; try (exfalso; lra)
  | |- context [Rleb ?a ?b] => destruct (Rleb_spec a b) as [?|?]; try (exfalso; lra)
  end.

(** a system with a zero in the corner: the rows have to be exchanged *)
Definition swapped : mat := fun i j => match i, j with O, O => 0 | O, _ => 2 | _, O => 4 | _, _ => 1 end.
Example C113_ex_solve : exists x, solve 2 swapped (fun i => match i with O => 6 | _ => 11 end) = Some x /\ x O = 2 /\ x 1%nat = 3.
Proof.
  unfold solve, swapped. cbn [seq map gauss pick fst snd]. destruct (Reqb_spec 4 0); [exfalso; lra|]. cbn [fst snd].
  destruct (Rleb_spec (Rabs 4) (Rabs 0)) as [L|L].
  - exfalso. rewrite Rabs_R0, Rabs_pos_eq in L; lra.
  - cbn [gauss map pick eliminate fst snd]. destruct (Reqb_spec (2 - 0 / 4 * 1) 0); [exfalso; lra|].
    eexists. split; [reflexivity|]. cbn [sm eliminate fst snd]. split; lra.
Qed.
Example C113_ex_singular : solve 2 (fun _ _ => 1) (fun _ => 1) = None.
Proof.
  apply solve_spec. exists (fun i => match i with O => 1 | _ => -1 end). split.
  - exists O. split; [lia|lra].
  - intros i _. unfold mv; cbn [sm]. lra.
Qed.
(** Solving fails exactly on singular matrices and the result is a solution otherwise. *)
Theorem C113_solve n A b :
  (~ singular n A -> exists x, solve n A b = Some x /\ solves n A b x) /\ (singular n A -> solve n A b = None).
Proof. exact (solve_spec n A b). Qed.

Example C113_ex_edm : edmval false 1 (fun _ => 3) (fun _ _ => 2) = Ok (Number (9 / 4)).
Proof.
  unfold edmval, scipy_edmval, solve. cbn [seq map gauss pick fst snd]. decide_R. cbn [gauss map]. unfold vdot. cbn [sm fst snd].
  do 2 f_equal. lra.
Qed.
(** At a point with a positive definite Hessian the logged value is how far the quadratic approximation can still fall, *)
Theorem C113_edm n g A : sym n A -> posdef n A -> exists e, edmval false n g A = Ok (Number e) /\ distance_to_minimum n g A e.
Proof. exact (edm_cpu n g A). Qed.
(** which is one number, *)
Theorem C113_edm_unique n g A e e' : distance_to_minimum n g A e -> distance_to_minimum n g A e' -> e = e'.
Proof. exact (distance_unique n g A e e'). Qed.
(** and the one computed together with the covariance matrix after the fit. *)
Theorem C113_edm_final gpu n g A : sym n A -> posdef n A ->
  exists e c, lib_edmval_cov gpu n g A = Ok (e, c) /\ edmval false n g A = Ok (Number e).
Proof. exact (edm_same gpu n g A). Qed.
(** At a saddle it is negative. *)
Theorem C113_saddle_refuted : exists n g A e, sym n A /\ ~ singular n A /\ edmval false n g A = Ok (Number e) /\ e < 0.
Proof.
  exists 1%nat, (fun _ => 1), (fun _ _ => -1), (-1 / 2). split; [|split; [|split]].
  - intros i j _ _. reflexivity.
  - intros (z & (i & Hi & Zi) & Z). apply Zi. assert (X := Z O ltac:(lia)). unfold mv in X; cbn [sm] in X.
    assert (i = O) by lia. subst. lra.
  - unfold edmval, scipy_edmval, solve. cbn [seq map gauss pick fst snd]. decide_R. cbn [gauss map]. unfold vdot. cbn [sm fst snd].
    do 2 f_equal. lra.
  - lra.
Qed.
(** On a GPU it is never a number: the function is logged. *)
Theorem C113_gpu n g A r : edmval true n g A = Ok r -> r = Function.
Proof. unfold edmval, tf_edmval. destruct (solve n A g); congruence. Qed.
Theorem C113_gpu_refuted : exists n g A, sym n A /\ posdef n A /\ edmval true n g A = Ok Function /\ exists e, distance_to_minimum n g A e.
Proof.
  exists 1%nat, (fun _ => 3), (fun _ _ => 2).
  assert (S : sym 1 (fun _ _ => 2)) by (intros i j _ _; reflexivity).
  assert (P : posdef 1 (fun _ _ => 2)).
  { intros x (i & Hi & Xi). assert (i = O) by lia. subst. unfold quad, mv; cbn [sm].
    assert (Q := Rsqr_pos_lt _ Xi). unfold Rsqr in Q. lra. }
  split; [auto|split; [auto|split]].
  - unfold edmval, tf_edmval. destruct (proj1 (solve_spec 1 (fun _ _ => 2) (fun _ => 3)) (posdef_regular _ _ P)) as (x & E & _). rewrite E. auto.
  - destruct (edm_cpu 1 (fun _ => 3) (fun _ _ => 2) S P) as (e & _ & D). eauto.
Qed.

(** *** The diagnostics and the fit *)
(** If every Hessian looked at is regular, the fit ends in the same point with the same history. *)
Theorem C113_harmless gpu n f k p x : regular_along n f p -> fit_with true gpu n f k p x = fit_with false gpu n f k p x.
Proof. exact (fit_same gpu n f k p x). Qed.
(** A parameter without influence on the loss, such as a frozen one (C20_gradient_and_hessian), makes the fit end where it started,
    without an error, whatever the minimiser would have done after its first look at the Hessian. *)
Theorem C113_frozen gpu n f k p x i : (forall y, dead n (v_hess (f y)) i) -> hessian_first f p ->
  fit_with true gpu n f k p x = (x, Some (cb_init x)).
Proof. intros D. apply fit_stops. intros y. exact (dead_singular _ _ _ (D y)). Qed.
(** a loss with the minimum at 1 and a second parameter that is frozen; one Newton step *)
Definition bowl (x : vec) : values :=
  mkVals (1 / 2 * (x O - 1) * (x O - 1)) (fun i => match i with O => x O - 1 | _ => 0 end) (fun i j => match i, j with O, O => 1 | _, _ => 0 end).
Definition newton (x : vec) : plan :=
  PLoss x (fun lg => PHess x (fun h =>
    let y := fun i => match i with O => x O - snd lg O / h O O | _ => x i end in
    PIter 0 y (PReturn y))).
Example C113_ex_bowl : dead 2 (v_hess (bowl (fun _ => 0))) 1 /\ hessian_first bowl (newton (fun _ => 0)).
Proof. split; [|exact I]. split; [lia|]. intros [|[|j]] Hj; cbn; auto; lia. Qed.
Theorem C113_frozen_refuted : exists n f k p x i,
  (forall y, dead n (v_hess (f y)) i) /\ hessian_first f p /\
  (forall y, v_loss (f (fst (fit_with false false n f k p x))) <= v_loss (f y)) /\
  v_loss (f (fst (fit_with true false n f k p x))) > v_loss (f (fst (fit_with false false n f k p x))).
Proof.
  exists 2%nat, bowl, 0%Z, (newton (fun _ => 0)), (fun _ => 0), 1%nat.
  assert (D : forall y, dead 2 (v_hess (bowl y)) 1) by (intros y; split; [lia|]; intros [|[|j]] Hj; cbn; auto; lia).
  split; [auto|]. split; [exact I|].
  rewrite (C113_frozen false 2 bowl 0%Z (newton (fun _ => 0)) (fun _ => 0) 1%nat D I).
  unfold fit_with, fit, newton. cbn [strategy run_min scipy_hess snd fst bowl v_loss v_grad v_hess cb_call cb_init cb_hist List.length Z.ltb Z.compare andb].
  split; [intros y|]; cbn [fst].
  - assert (Q := pow2_ge_0 (y O - 1)). cbn [pow] in Q. lra.
  - lra.
Qed.

(** *** The refits of frozen parameters *)
(** Without diagnostics there are two results per frozen parameter; with them every call with a frozen parameter raises. *)
Theorem C113_refits_off gpu n f refit x idx : exists r, refits false gpu n f refit x idx = Ok r /\ List.length r = (2 * List.length idx)%nat.
Proof. exact (refits_off gpu n f refit x idx). Qed.
Theorem C113_refits_on gpu n f refit x i t : sym n (v_hess (f (refit i true x))) -> dead n (v_hess (f (refit i true x))) i ->
  refits true gpu n f refit x (i :: t) = Raise ValueError.
Proof. exact (refits_on gpu n f refit x i t). Qed.
Theorem C113_refits_refuted : exists n f refit x idx,
  (forall i, In i idx -> forall y, dead n (v_hess (f y)) i) /\
  (exists d1 d2, refits false false n f refit x idx = Ok [([], d1); ([], d2)] /\ d1 O = -1 /\ d2 O = 2) /\
  refits true false n f refit x idx = Raise ValueError.
Proof.
  exists 2%nat, bowl, (fun (_ : nat) (s : bool) (x : vec) i => if s then x i + 1 else x i - 2), (fun _ => 0), [1%nat].
  assert (D : forall y, dead 2 (v_hess (bowl y)) 1) by (intros y; split; [lia|]; intros [|[|j]] Hj; cbn; auto; lia).
  split; [intros i [<-|[]]; auto|]. split.
  - eexists _, _. split; [reflexivity|]. split; lra.
  - apply refits_on; [|apply D]. intros i j _ _. destruct i, j; reflexivity.
Qed.
(** what is logged is the estimate after each refit, if the Hessian is regular *)
Example C113_ex_refit : exists d, refit_one true false 1 (fun x => mkVals 0 (fun _ => 3) (fun _ _ => 2)) (fun _ _ x => x) (fun _ => 1) O true = Ok ([9 / 4], d) /\ d O = 0.
Proof.
  unfold refit_one. cbn [v_grad v_hess].
  assert (S : sym 1 (fun _ _ => 2)) by (intros i j _ _; reflexivity).
  assert (P : posdef 1 (fun _ _ => 2)).
  { intros x (i & Hi & Xi). assert (i = O) by lia. subst. unfold quad, mv; cbn [sm]. assert (Q := Rsqr_pos_lt _ Xi). unfold Rsqr in Q. lra. }
  destruct (edm_same false 1 (fun _ => 3) (fun _ _ => 2) S P) as (e & c & E & F). rewrite C113_ex_edm in F. injection F as F.
  rewrite E. cbn [rbind fst]. rewrite <- F. eexists. split; [reflexivity|]. lra.
Qed.

Print Assumptions C113_solve.
Print Assumptions C113_edm.
Print Assumptions C113_edm_unique.
Print Assumptions C113_edm_final.
Print Assumptions C113_saddle_refuted.
Print Assumptions C113_gpu.
Print Assumptions C113_gpu_refuted.
Print Assumptions C113_harmless.
Print Assumptions C113_frozen.
Print Assumptions C113_frozen_refuted.
Print Assumptions C113_refits_off.
Print Assumptions C113_refits_on.
Print Assumptions C113_refits_refuted.
