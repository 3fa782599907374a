From Coq Require Import Reals List Arith Bool ZArith Lra Lia.
From Verif Require Import RBase PyList Mat_Model Mat_Proof Impacts_Model Impacts_Solve Var_Model Gof_Model Gof_Spec Gof_Proof.
Import ListNotations.
Open Scope R_scope.

(** ** C90: goodness of fit *)
(** before the fit the linear chi2 is twice the smallest value the likelihood can take, parameters without constraint held *)
Theorem C90_prefit : forall g, gfit_ok g -> forall U msk B, data_of g U ->
  (forall k, (k < g_m g)%nat -> g_fb g k = negb (msk k) /\ (msk k = false -> B k = g_s g k)) ->
  exists res cov, residuals (g_n g) (prefit_covariance (g_cw g) 0) (Some (g_m g, BDiag msk B)) (g_nobs g) (g_nobs g) (fun a i => if g_fx g i then g_A g a i else 0) (g_Ab g)
      (g_pred g) U delta (g_data g) = Ok (res, cov) /\
    exists v, chi2_solve (g_nobs g) res cov = Ok v /\ is_minimum (g_move_constrained g) (g_loss g) v.
Proof. exact prefit_chi2. Qed.
(** after the fit it is the same number, from the fitted residuals and their covariance, if every floating parameter is constrained *)
Theorem C90_postfit : forall g, gfit_ok g -> forall J Y Z C, g_responses g J Y Z -> g_covariance g J C -> forall U msk s smix, data_of g U ->
  (forall k, (k < g_m g)%nat -> g_fb g k = negb (msk k) /\ (msk k = false -> s k = g_s g k /\ smix k = - g_s g k)) -> forall dx db, g_all_constrained g -> g_fitted g dx db ->
  exists cov, residuals_profiled_cov (g_n g) (g_nobs g) (g_nobs g) (g_cw g) U (Some (g_m g, var_beta0 msk s smix))
      (dndvar (g_n g) C (g_pdx g J) (fun _ _ => 0) (g_mixed_x0 g)) (dndvar (g_n g) C (g_pdx g J) (g_pdn g Y) (g_mixed g (g_pdn g Y)))
      (dndvar (g_n g) C (g_pdx g J) (g_pdb g Z) (g_mixed g (g_pdb g Z))) = Ok cov /\
    exists v, chi2_solve (g_nobs g) (g_res g dx db) cov = Ok v /\ is_minimum (g_move g) (g_loss g) v.
Proof. exact postfit_chi2. Qed.
(** a floating parameter without constraint, as a signal strength, makes that covariance singular, whatever the data *)
Theorem C90_free_parameter : forall g, gfit_ok g -> forall J Y Z C, g_covariance g J C -> forall U msk s smix, data_of g U ->
  forall res i, (i < g_n g)%nat -> g_fx g i = true -> g_cw g i = 0 ->
  exists cov, residuals_profiled_cov (g_n g) (g_nobs g) (g_nobs g) (g_cw g) U (Some (g_m g, var_beta0 msk s smix))
      (dndvar (g_n g) C (g_pdx g J) (fun _ _ => 0) (g_mixed_x0 g)) (dndvar (g_n g) C (g_pdx g J) (g_pdn g Y) (g_mixed g (g_pdn g Y)))
      (dndvar (g_n g) C (g_pdx g J) (g_pdb g Z) (g_mixed g (g_pdb g Z))) = Ok cov /\
    chi2_solve (g_nobs g) res cov = Raise GenericException.
Proof. exact postfit_chi2_free. Qed.
(** with a pseudo inverse: residuals cov x give x cov x, the choice of x does not matter *)
Theorem C90_pseudo_inverse : forall rows cov Pi res x, sym rows cov -> penrose rows cov Pi -> (forall a, (a < rows)%nat -> mv rows cov x a = res a) ->
  chi2_pinv rows res Pi = sm rows (fun a => x a * res a).
Proof. exact pinv_spec. Qed.
(** normalised predictions, for which one bin is redundant: the chi2 with the pseudo inverse is the ordinary one of all bins but one,
    and so is the number of degrees of freedom *)
Theorem C90_normalised : forall n cov Pi res v, sym (S n) cov -> penrose (S n) cov Pi -> (forall b, (b < S n)%nat -> sm (S n) (fun a => cov a b) = 0) -> sm (S n) res = 0 ->
  chi2_solve n res cov = Ok v -> chi2_pinv (S n) res Pi = v /\ chi2_ndf (S n) 1 = Z.of_nat n.
Proof. exact normalised_chi2. Qed.
Theorem C90_normalised_residuals : forall n cov bb rows nobs D P pred U G data res c, residuals n cov bb rows nobs D P pred U G data = Ok (res, c) ->
  (forall i, (i < n)%nat -> sm rows (fun a => D a i) = 0) -> (forall k, (k < nbeta bb)%nat -> sm rows (fun a => P a k) = 0) -> (forall k, (k < nobs)%nat -> sm rows (fun a => G a k) = 0) ->
  sm rows pred = sm rows data -> (forall b, (b < rows)%nat -> sm rows (fun a => c a b) = 0) /\ sm rows res = 0.
Proof. exact residuals_normalised. Qed.
(** degrees of freedom of the saturated test: bins minus free parameters, without frozen parameters and without priors *)
Theorem C90_ndfsat : forall nobs nparams nsyst nfree fx con, (forall i, (i < nparams + nsyst)%nat -> fx i = true) -> (forall i, (i < nparams)%nat -> con i = false) ->
  count nsyst (fun i => negb (con (nparams + i)%nat)) = nfree ->
  ndfsat nobs nparams nfree = (Z.of_nat nobs - Z.of_nat (free_parameters (nparams + nsyst) fx con))%Z.
Proof. exact ndfsat_spec. Qed.

(** one bin with 13 expected and 10 observed, all widths one: (13-10)^2 / 3 = 3 *)
Definition ex_g : gfit := {| g_nobs := 1; g_n := 1; g_m := 1; g_V := fun _ _ => 1; g_Vi := fun _ _ => 1; g_A := fun _ _ => 1; g_Ab := fun _ _ => 1;
  g_cw := fun _ => 1; g_s := fun _ => 1; g_fx := fun _ => true; g_fb := fun _ => true; g_pred := fun _ => 13; g_data := fun _ => 10 |}.
Ltac one := repeat match goal with H : (?i < _)%nat |- _ => cbn [g_nobs g_n g_m ex_g] in H; assert (i = O) by lia; subst; clear H end.
Example ex_g_ok : gfit_ok ex_g.
Proof.
  split; [reflexivity|]. split; [|split; [|split]].
  - intros x (i & Hi & X). one. cbn [sm g_nobs g_V ex_g]. assert (P := Rsqr_pos_lt _ X). unfold Rsqr in P. lra.
  - intros a b Ha Hb. one. cbn [sm g_nobs g_V g_Vi ex_g Nat.eqb]. lra.
  - intros. cbn. lra.
  - intros. cbn. lra.
Qed.
Example ex_g_responses : g_responses ex_g (fun _ _ => - (1 / 2)) (fun _ _ => 1 / 2) (fun _ _ => 1 / 2).
Proof.
  split; [|split]; intros i Hi k Hk; one; unfold resp; cbn [sm g_nobs g_m g_A g_Ab g_Vi g_s g_fb ex_g Nat.eqb]; lra.
Qed.
Example ex_g_cov : g_covariance ex_g (fun _ _ => - (1 / 2)) (fun _ _ => 2 / 3).
Proof. intros i j Hi Hj. one. unfold g_hess, g_pdx, resp. cbn [sm g_nobs g_n g_m g_A g_Ab g_Vi g_cw g_fx ex_g Nat.eqb andb]. lra. Qed.
Lemma chi2_one r c : c O O <> 0 -> chi2_solve 1 r c = Ok (r O * ((r O - 0) / c O O) + 0).
Proof. intros H. unfold chi2_solve, tsolve. cbn [gsolve amax swap_row]. rewrite Reqb_false by auto. reflexivity. Qed.
Example C90_ex : exists res cov v, residuals 1 (prefit_covariance (fun _ => 1) 0) (Some (1%nat, BDiag (fun _ => false) (fun _ => 1))) 1 1 (fun _ _ => 1) (fun _ _ => 1)
    (fun _ => 13) (DVar (fun _ => 1)) delta (fun _ => 10) = Ok (res, cov) /\ cov O O = 3 /\ chi2_solve 1 res cov = Ok v /\ v = 3.
Proof.
  do 3 eexists. split; [reflexivity|]. rewrite chi2_one.
  - split; [|split; [reflexivity|]]; unfold prefit_covariance, prefit_variance, delta, mv, qrow; cbn [Nat.eqb sm nbeta nth]; rewrite Reqb_false by lra; field.
  - unfold prefit_covariance, prefit_variance, delta, mv, qrow; cbn [Nat.eqb sm nbeta nth]; rewrite Reqb_false by lra; lra.
Qed.
Example C90_postfit_ex : g_all_constrained ex_g /\ exists cov v,
  residuals_profiled_cov 1 1 1 (fun _ => 1) (DVar (fun _ => 1)) (Some (1%nat, var_beta0 (fun _ => false) (fun _ => 1) (fun _ => -1)))
      (dndvar 1 (fun _ _ => 2 / 3) (g_pdx ex_g (fun _ _ => - (1 / 2))) (fun _ _ => 0) (g_mixed_x0 ex_g))
      (dndvar 1 (fun _ _ => 2 / 3) (g_pdx ex_g (fun _ _ => - (1 / 2))) (g_pdn ex_g (fun _ _ => 1 / 2)) (g_mixed ex_g (g_pdn ex_g (fun _ _ => 1 / 2))))
      (dndvar 1 (fun _ _ => 2 / 3) (g_pdx ex_g (fun _ _ => - (1 / 2))) (g_pdb ex_g (fun _ _ => 1 / 2)) (g_mixed ex_g (g_pdb ex_g (fun _ _ => 1 / 2)))) = Ok cov /\
  cov O O = 1 / 3 /\ chi2_solve 1 (g_res ex_g (fun _ => -1) (fun _ => -1)) cov = Ok v /\ v = 3.
Proof.
  split; [intros i _ _; cbn; lra|]. do 2 eexists. split; [reflexivity|]. rewrite chi2_one.
  - split; [|split; [reflexivity|]]; unfold var_x0, var_beta0, dndvar, dxdvar, g_mixed_x0, g_mixed, g_pdx, g_pdn, g_pdb, resp, g_res; cbn [sm g_nobs g_n g_m g_A g_Ab g_Vi g_cw g_fx g_pred g_data ex_g Nat.eqb]; rewrite Reqb_false by lra; field.
  - unfold var_x0, var_beta0, dndvar, dxdvar, g_mixed_x0, g_mixed, g_pdx, g_pdn, g_pdb, resp, g_res; cbn [sm g_nobs g_n g_m g_A g_Ab g_Vi g_cw g_fx g_pred g_data ex_g Nat.eqb]; rewrite Reqb_false by lra.
    match goal with |- ?x <> 0 => replace x with (1 / 3) by field end. lra.
Qed.
Example C90_ndfsat_ex : ndfsat 10 1 2 = 7%Z /\ free_parameters 4 (fun _ => true) (fun i => Nat.eqb i 3) = 3%nat.
Proof. split; reflexivity. Qed.

(** two normalised bins with covariance ((2, -2), (-2, 2)): its pseudo inverse is ((1, -1), (-1, 1)) / 8 *)
Example C90_normalised_ex : let cov := fun a b : nat => if Nat.eqb a b then 2 else -2 in let Pi := fun a b : nat => if Nat.eqb a b then 1 / 8 else - (1 / 8) in
  let res := fun a : nat => match a with O => 3 | _ => -3 end in
  penrose 2 cov Pi /\ (forall b, (b < 2)%nat -> sm 2 (fun a => cov a b) = 0) /\ (exists v, chi2_solve 1 res cov = Ok v /\ v = 9 / 2) /\ chi2_pinv 2 res Pi = 9 / 2.
Proof.
  cbv zeta. split; [|split; [|split]].
  - split; [|split; [|split]].
    + intros z [|[|]] H; try lia; unfold mv; cbn [sm Nat.eqb]; lra.
    + intros z [|[|]] H; try lia; unfold mv; cbn [sm Nat.eqb]; lra.
    + intros [|[|]] [|[|]] Hi Hj; try lia; unfold mm; cbn [sm Nat.eqb]; lra.
    + intros [|[|]] [|[|]] Hi Hj; try lia; unfold mm; cbn [sm Nat.eqb]; lra.
  - intros [|[|]] H; try lia; cbn [sm Nat.eqb]; lra.
  - eexists. split; [apply chi2_one; cbn [Nat.eqb]; lra|]. cbn [Nat.eqb]. field.
  - unfold chi2_pinv. cbn [sm Nat.eqb]. field.
Qed.
(** a single bin and one free normalisation: nothing can be computed after the fit *)
Theorem C90_signal_strength_refuted : exists g J C U, gfit_ok g /\ g_covariance g J C /\ data_of g U /\ g_fitted g (fun _ => -3) (fun _ => 0) /\
  exists cov, residuals_profiled_cov (g_n g) (g_nobs g) (g_nobs g) (g_cw g) U (Some (g_m g, fun _ => 0))
      (dndvar (g_n g) C (g_pdx g J) (fun _ _ => 0) (g_mixed_x0 g)) (dndvar (g_n g) C (g_pdx g J) (g_pdn g J) (g_mixed g (g_pdn g J)))
      (dndvar (g_n g) C (g_pdx g J) (g_pdb g J) (g_mixed g (g_pdb g J))) = Ok cov /\
    chi2_solve (g_nobs g) (g_res g (fun _ => -3) (fun _ => 0)) cov = Raise GenericException.
Proof.
  exists {| g_nobs := 1; g_n := 1; g_m := 0; g_V := fun _ _ => 1; g_Vi := fun _ _ => 1; g_A := fun _ _ => 1; g_Ab := fun _ _ => 1;
    g_cw := fun _ => 0; g_s := fun _ => 1; g_fx := fun _ => true; g_fb := fun _ => true; g_pred := fun _ => 13; g_data := fun _ => 10 |}, (fun _ _ => 0), (fun _ _ => 1), (DVar (fun _ => 1)).
  assert (O1 : forall i, (i < 1)%nat -> i = O) by (intros; lia).
  match goal with |- gfit_ok ?g /\ _ => assert (K : gfit_ok g) end.
  { split; [reflexivity|]. split; [|split; [|split]]; cbn [g_nobs g_n g_m g_V g_Vi g_cw g_s g_fb].
    - intros x (i & Hi & X). rewrite (O1 i Hi) in X. cbn [sm]. assert (P := Rsqr_pos_lt _ X). unfold Rsqr in P. lra.
    - intros a b Ha Hb. rewrite (O1 a Ha), (O1 b Hb). cbn [sm Nat.eqb]. lra.
    - intros; lra.
    - intros; lia. }
  match goal with |- gfit_ok ?g /\ g_covariance ?g ?J ?C /\ data_of ?g ?U /\ _ => assert (GC : g_covariance g J C); [|assert (DU : data_of g U)] end.
  { intros i j Hi Hj. cbn [g_n] in Hi, Hj. rewrite (O1 i Hi), (O1 j Hj). unfold g_hess, g_pdx, resp. cbn [sm g_nobs g_n g_m g_A g_Ab g_Vi g_cw g_fx Nat.eqb andb]. lra. }
  { intros a b Ha Hb. cbn [g_nobs] in Ha, Hb. rewrite (O1 a Ha), (O1 b Hb). cbn [g_V]. unfold delta. cbn [Nat.eqb]. lra. }
  split; [exact K|]. split; [exact GC|]. split; [exact DU|]. split.
  - split; [split; [intros i _ F; discriminate|intros k Hk _; cbn [g_m] in Hk; lia]|]. intros dx' db' _. unfold g_loss, g_res. cbn [sm g_nobs g_n g_m g_V g_Vi g_A g_cw g_pred g_data g_Ab g_s].
    set (x := 13 + (1 * dx' O + 0) + 0 - 10). assert (S := Rle_0_sqr x). unfold Rsqr in S. lra.
  - destruct (C90_free_parameter _ K (fun _ _ => 0) (fun _ _ => 0) (fun _ _ => 0) (fun _ _ => 1) GC (DVar (fun _ => 1)) (fun _ => false) (fun _ => 1) (fun _ => 1) DU
      (g_res {| g_nobs := 1; g_n := 1; g_m := 0; g_V := fun _ _ => 1; g_Vi := fun _ _ => 1; g_A := fun _ _ => 1; g_Ab := fun _ _ => 1;
        g_cw := fun _ => 0; g_s := fun _ => 1; g_fx := fun _ => true; g_fb := fun _ => true; g_pred := fun _ => 13; g_data := fun _ => 10 |} (fun _ => -3) (fun _ => 0)) O) as (cov & E & X); [cbn; lia|reflexivity|reflexivity|].
    exists cov. split; [exact E|exact X].
Qed.
(** after a fit with --noPostfitProfileBB the prediction and the data are treated as independent, although the prediction was fitted to
    the data: one bin with 13 expected and 10 observed and one constrained parameter, both of width one, is at 11.5 after the fit *)
Theorem C90_unprofiled_postfit_refuted : exists g dx cov res v, gfit_ok g /\ g_all_constrained g /\ g_fitted g dx (fun _ => 0) /\ g_m g = O /\
  residuals (g_n g) cov None (g_nobs g) (g_nobs g) (g_A g) (g_Ab g) (fun a => g_pred g a + sm (g_n g) (fun i => g_A g a i * dx i)) (DVar (fun _ => 1)) delta (g_data g) = Ok res /\
  g_covariance g (fun _ _ => 0) cov /\ data_of g (DVar (fun _ => 1)) /\
  chi2_solve (g_nobs g) (fst res) (snd res) = Ok v /\ v < g_loss g dx (fun _ => 0) /\ is_minimum (g_move g) (g_loss g) (g_loss g dx (fun _ => 0)).
Proof.
  exists {| g_nobs := 1; g_n := 1; g_m := 0; g_V := fun _ _ => 1; g_Vi := fun _ _ => 1; g_A := fun _ _ => 1; g_Ab := fun _ _ => 1;
    g_cw := fun _ => 1; g_s := fun _ => 1; g_fx := fun _ => true; g_fb := fun _ => true; g_pred := fun _ => 13; g_data := fun _ => 10 |}, (fun _ => - (3 / 2)), (fun _ _ => 1 / 2).
  do 2 eexists. assert (O1 : forall i, (i < 1)%nat -> i = O) by (intros; lia).
  match goal with |- _ /\ _ /\ ?F /\ _ => assert (FT : F) end.
  { split; [split; [intros i _ F; discriminate|intros k Hk _; cbn [g_m] in Hk; lia]|]. intros dx' db' _. unfold g_loss, g_res. cbn [sm g_nobs g_n g_m g_V g_Vi g_A g_cw g_pred g_data g_Ab g_s].
    set (x := dx' O). assert (S := Rle_0_sqr (2 * x + 3)). unfold Rsqr in S. lra. }
  split; [|split; [|split; [exact FT|]]].
  - split; [reflexivity|]. split; [|split; [|split]]; cbn [g_nobs g_n g_m g_V g_Vi g_cw g_s g_fb].
    + intros x (i & Hi & X). rewrite (O1 i Hi) in X. cbn [sm]. assert (P := Rsqr_pos_lt _ X). unfold Rsqr in P. lra.
    + intros a b Ha Hb. rewrite (O1 a Ha), (O1 b Hb). cbn [sm Nat.eqb]. lra.
    + intros; lra.
    + intros; lia.
  - intros i _ _. cbn. lra.
  - split; [reflexivity|]. split; [reflexivity|]. split; [|split; [|split; [cbn [fst snd g_nobs]; apply chi2_one|split]]].
    + intros i j Hi Hj. cbn [g_n] in Hi, Hj. rewrite (O1 i Hi), (O1 j Hj). unfold g_hess, g_pdx, resp. cbn [sm g_nobs g_n g_m g_A g_Ab g_Vi g_cw g_fx Nat.eqb andb]. lra.
    + intros a b Ha Hb. cbn [g_nobs] in Ha, Hb. rewrite (O1 a Ha), (O1 b Hb). cbn [g_V]. unfold delta. cbn [Nat.eqb]. lra.
    + cbn [snd g_n g_nobs g_A g_Ab nbeta]. unfold mv, delta. cbn [sm Nat.eqb]. lra.
    + unfold g_loss, g_res, mv, delta. cbn [sm nbeta g_nobs g_n g_m g_V g_Vi g_A g_cw g_pred g_data g_Ab g_s Nat.eqb]. lra.
    + split; [do 2 eexists; split; [exact (proj1 FT)|reflexivity]|exact (proj2 FT)].
Qed.
(** counting data without an event in a bin and no systematic uncertainty: its variance is taken as zero *)
Theorem C90_empty_bin_refuted : exists pred cov, 0 < pred O /\
  residuals 0 (fun _ _ => 0) None 1 1 (fun _ _ => 0) (fun _ _ => 0) pred (DVar (fun _ => 0)) delta (fun _ => 0) = Ok (fun a => pred a - 0, cov) /\
  chi2_solve 1 (fun a => pred a - 0) cov = Raise GenericException.
Proof.
  exists (fun _ => 2). eexists. split; [lra|]. split; [reflexivity|]. unfold chi2_solve, tsolve. cbn [gsolve amax swap_row].
  rewrite Reqb_true; [reflexivity|]. cbn [nbeta sm]. ring.
Qed.
(** a frozen parameter, or one with a prior, is counted as a free one *)
Theorem C90_ndfsat_frozen_refuted : exists nobs nparams fx con, (forall i, con i = false) /\
  ndfsat nobs nparams 0 <> (Z.of_nat nobs - Z.of_nat (free_parameters nparams fx con))%Z.
Proof. exists 10%nat, 1%nat, (fun _ => false), (fun _ => false). split; auto. discriminate. Qed.
Theorem C90_ndfsat_prior_refuted : exists nobs nparams fx con, (forall i, fx i = true) /\
  ndfsat nobs nparams 0 <> (Z.of_nat nobs - Z.of_nat (free_parameters nparams fx con))%Z.
Proof. exists 10%nat, 1%nat, (fun _ => true), (fun _ => true). split; auto. discriminate. Qed.

Print Assumptions C90_prefit.
Print Assumptions C90_postfit.
Print Assumptions C90_signal_strength_refuted.
