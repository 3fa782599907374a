(** C114: the diagnostics of the bin-by-bin nuisances with one nuisance per process and bin. *)
From Coq Require Import List Reals Bool Arith Lia Lra.
From Verif Require Import PyList RBase BBStat_Model BBStat_Spec BBStat_Proof BBStatFull_Proof BBStat_Props Mat_Model Mat_Proof Linear_Model Linear_Proof
  Bdiag_Model Bdiag_Proof Bfull_Model Bfull_Spec Bfull_Proof.
Import ListNotations.
Local Open Scope R_scope.

(** two processes in one bin, additive nuisances with effects 2 and 3, expectation 11, observation 37 with variance 13 *)
Definition pair_ : sfull := mkSF [(mkProc 4 4 5, 0); (mkProc 6 9 6, 0)] (Some (37, 13)).
Lemma root4 : sqrt 4 = 2. Proof. replace 4 with (2 * 2) by ring. apply sqrt_square. lra. Qed.
Lemma root9 : sqrt 9 = 3. Proof. replace 9 with (3 * 3) by ring. apply sqrt_square. lra. Qed.
Ltac open_pair := unfold pair_, to_fb, fe, fsbeta, fslope, fdcon, fddcon, full_info, mkinfo, raw, sumR;
  cbn [fb_es fb_obs map combine sf_es sf_obs fst snd p_sumw p_sumw2 p_yield fe_info fe_b0 fe_n bi_varbeta fold_right].
Lemma pair_profile : fb_profile Chisq NormalAdd (to_fb 0 pair_) = Some [2; 3].
Proof.
  unfold fb_profile, profile_full. open_pair. unfold fsbeta; cbn [fe_info bi_varbeta fe_b0 fe_n]. rewrite root4, root9. do 2 f_equal; [field|f_equal; field].
Qed.
Lemma pair_unmasked : unmasked (items_from 0 [(to_fb 0 pair_, [2; 3])]) = items_from 0 [(to_fb 0 pair_, [2; 3])].
Proof.
  assert (M : betamask_of 4 4 0 = false) by (apply betamask_spec; repeat split; lra).
  assert (M' : betamask_of 9 6 0 = false) by (apply betamask_spec; repeat split; lra).
  cbn [items_from app]. open_pair. cbn [app]. unfold unmasked. cbn [filter fst snd fe_info bi_mask]. rewrite M, M'. reflexivity.
Qed.
Example C114_ex_full_gradient : map (item_grad Chisq NormalAdd [(to_fb 0 pair_, [2; 3])]) (items_from 0 [(to_fb 0 pair_, [2; 3])]) = [0; 0].
Proof.
  cbn [items_from]. open_pair. cbn [map app]. unfold item_grad, bin_d, apply_full, dln. cbn [fst snd nth fb_obs fb_es combine map]. unfold fslope, fdcon, fsbeta, sumR.
  cbn [fe_info bi_varbeta fe_b0 fe_n fold_right]. unfold fsbeta. cbn [fe_info bi_varbeta]. rewrite root4, root9. f_equal; [field|f_equal; field].
Qed.
Example C114_ex_full_hessian : let ps := [(to_fb 0 pair_, [2; 3])] in let H := item_hess Chisq NormalAdd ps (items_from 0 ps) in
  H 0%nat 0%nat = 17 / 13 /\ H 0%nat 1%nat = 6 / 13 /\ H 1%nat 0%nat = 6 / 13 /\ H 1%nat 1%nat = 22 / 13.
Proof.
  cbv zeta. cbn [items_from]. open_pair. cbn [map app]. unfold item_hess, bin_dd, ddln. cbn [fst snd nth fb_obs fb_es Nat.eqb]. unfold fslope, fddcon, fsbeta.
  cbn [fe_info bi_varbeta fe_b0 fe_n]. rewrite root4, root9. repeat split; field.
Qed.

(** The entries of gradient and Hessian are derivatives of the loss of the bin with respect to single nuisances. *)
Theorem C114_full_autodiff l t es nobs var bs i j e f : t <> Gamma -> nth_error es i = Some e -> nth_error es j = Some f -> List.length bs = List.length es ->
  (l = Poisson -> 0 < sumR (apply_full t es bs)) -> (l = Chisq -> var <> 0) ->
  let p := (mkFB es (Some (nobs, var)), bs) in
  derivable_pt_lim (fun v => loss_full l t es nobs var (setn i v bs)) (nth i bs 0) (item_grad l t [p] (O, (e, nth i bs 0))) /\
  derivable_pt_lim (fun v => item_grad l t [(mkFB es (Some (nobs, var)), setn j v bs)] (O, (e, nth i (setn j v bs) 0))) (nth j bs 0)
    (fslope t e * fslope t f * bin_dd l t p + (if Nat.eqb i j then fddcon t e else 0)).
Proof.
  intros NG E F L P V p. split; [exact (full_gradient l t es nobs var bs i e NG E L P V)|exact (full_hessian l t es nobs var bs i j e f NG E F L P V)].
Qed.
(** At the profiled values of a bin every entry of the gradient is zero, *)
Theorem C114_full_stationary minstat active l t s bs : (forall p, active p = true <-> usable1 minstat p) -> t <> Gamma -> sane_full active l t s ->
  fb_profile l t (to_fb minstat s) = Some bs ->
  forall e b, In (e, b) (combine (fb_es (to_fb minstat s)) bs) -> item_grad l t [(to_fb minstat s, bs)] (O, (e, b)) = 0.
Proof. intros A NG S P e b I. destruct (bin_stationary minstat active A l t s bs NG S P) as (_ & _ & X). exact (X e b I). Qed.
(** and the logged value is zero: no edge case is left, as a Poisson profile which is a number has a positive expectation.
    The matrix returned with it is the inverse of the Hessian of all entries with usable statistics. *)
Theorem C114_full_edm minstat active gpu l t ss ps : (forall p, active p = true <-> usable1 minstat p) -> t <> Gamma ->
  (forall s, In s ss -> sane_full active l t s) -> profiles l t (map (to_fb minstat) ss) = Some ps ->
  let its := unmasked (items_from 0 ps) in let n := List.length its in
  exists c, edm_full gpu l t (map (to_fb minstat) ss) = Some (Ok (0, c)) /\
    forall i j, (i < n)%nat -> (j < n)%nat -> mm n (item_hess l t ps its) c i j = delta i j.
Proof. intros A NG S P. exact (full_edm minstat active A l t ss ps NG S P gpu). Qed.
(** Nothing else has a vanishing gradient: values with which every entry of it is zero are the profiled ones, where the nuisance has an effect. *)
Theorem C114_full_unique minstat active l t es nobs var bs bs' : (forall p, active p = true <-> usable1 minstat p) -> t <> Gamma ->
  sane_full active l t (mkSF es (Some (nobs, var))) -> fb_profile l t (to_fb minstat (mkSF es (Some (nobs, var)))) = Some bs ->
  let b := to_fb minstat (mkSF es (Some (nobs, var))) in List.length bs' = List.length es -> (l = Poisson -> 0 < sumR (apply_full t (fb_es b) bs')) ->
  (forall e v, In (e, v) (combine (fb_es b) bs') -> item_grad l t [(b, bs')] (O, (e, v)) = 0) ->
  forall i p c, nth_error es i = Some (p, c) -> usable1 minstat p -> nth i bs' 0 = nth i bs 0.
Proof.
  intros A NG S P b L' P' G i p c E U. destruct (bin_stationary minstat active A l t _ bs NG S P) as (L & X & Y). assert (D := proj2 S). cbn [sf_es sf_obs] in *.
  apply (stationary_unique l t (fb_es b) nobs var bs' bs NG D) with (e := fe minstat (p, c)); auto.
  - intros e I M. cbn [b to_fb fb_es sf_es] in I. apply in_map_iff in I. destruct I as ((q & d) & <- & I). assert (OK := proj1 S). cbn [sf_es] in OK. rewrite Forall_forall in OK.
    destruct (OK _ I) as (H1 & _). cbn [fst] in H1. unfold fddcon. destruct t; [congruence| |lra]. rewrite M. unfold fe in *. cbn [fe_info fst] in *.
    rewrite full_kstat by auto. apply (stat1_pos minstat); auto. apply full_mask. auto.
  - cbn [b to_fb fb_es sf_es]. rewrite map_length. auto.
  - cbn [b to_fb fb_es sf_es]. rewrite map_length. auto.
  - intros Q. apply X; [auto|discriminate].
  - cbn [b to_fb fb_es sf_es]. rewrite nth_error_map, E. reflexivity.
  - apply full_mask. auto.
Qed.
(** At any other values of the nuisances the value is a non-negative number, zero exactly if the gradient vanishes: it detects a wrong profile. *)
Theorem C114_full_detects minstat active gpu l t vs : t <> Gamma ->
  (forall s bs, In (s, bs) vs -> sane_full active l t s /\ (l = Poisson -> sf_obs s <> None -> 0 < sumR (apply_full t (fb_es (to_fb minstat s)) bs))) ->
  let ps := map (fun v : sfull * list R => (to_fb minstat (fst v), snd v)) vs in
  let its := unmasked (items_from 0 ps) in let n := List.length its in let g := fun i => nth i (map (item_grad l t ps) its) 0 in
  exists v c, edm_full_at gpu l t ps = Ok (v, c) /\ v = (1 / 2) * vdot n g (mv n c g) /\
    (forall i j, (i < n)%nat -> (j < n)%nat -> mm n (item_hess l t ps its) c i j = delta i j) /\
    0 <= v /\ (v = 0 <-> forall it, In it its -> item_grad l t ps it = 0).
Proof. intros NG S. exact (at_edm minstat active l t vs NG S gpu). Qed.
(** In chi-square fits there is always a value. *)
Theorem C114_full_chisq minstat active gpu t ss : (forall p, active p = true <-> usable1 minstat p) -> t <> Gamma ->
  (forall s, In s ss -> sane_full active Chisq t s) -> exists c, edm_full gpu Chisq t (map (to_fb minstat) ss) = Some (Ok (0, c)).
Proof.
  intros A NG S. assert (P : exists ps, profiles Chisq t (map (to_fb minstat) ss) = Some ps).
  { clear S. induction ss as [|s r (ps & IH)]; [exists []; auto|]. cbn [map profiles]. rewrite IH. unfold fb_profile. destruct (fb_obs (to_fb minstat s)) as [(nobs & var)|]; [|eauto].
    destruct (C27_chisq_defined t (fb_es (to_fb minstat s)) nobs var NG) as (bs & ->). eauto. }
  destruct P as (ps & P). destruct (C114_full_edm minstat active gpu Chisq t ss ps A NG S P) as (c & E & _). exists c. exact E.
Qed.
(** In Poisson fits an empty bin can make the profile, and so the logged value, not a number. *)
Theorem C114_full_nan_refuted : exists ss active, (forall p, active p = true <-> usable1 0 p) /\ ss <> [] /\ (forall s, In s ss -> sane_full active Poisson NormalMult s) /\
  forall gpu, edm_full gpu Poisson NormalMult (map (to_fb 0) ss) = None.
Proof.
  destruct C27_empty_bin_nan_refuted as (es & F & _ & N). exists [mkSF es (Some (0, 1))], (fun p => negb (bi_mask (full_info 0 (raw p)))).
  split; [intros p; rewrite negb_true_iff; apply full_mask|]. split; [discriminate|]. split.
  - intros s [<-|[]]. split; [|cbn; lra]. eapply Forall_impl; [|exact F]. intros e (H1 & _ & H3 & _). split; [lra|auto].
  - intros gpu. unfold edm_full. cbn [map profiles]. unfold fb_profile. cbn [to_fb fb_obs fb_es sf_es sf_obs]. rewrite N. reflexivity.
Qed.
Example C114_ex_full_edm : exists c, edm_full false Chisq NormalAdd (map (to_fb 0) [pair_; mkSF [(mkProc 1 1 2, 5)] None; pair_]) = Some (Ok (0, c)).
Proof.
  apply (C114_full_chisq 0 (fun p => negb (bi_mask (full_info 0 (raw p))))); [intros p; rewrite negb_true_iff; apply full_mask|discriminate|].
  intros s [<-|[<-|[<-|[]]]]; (split; [repeat constructor; cbn; try lra; congruence|cbn; try lra; exact I]).
Qed.
(** with both nuisances left at their centres the gradient of the first is -4 and the value positive *)
Example C114_ex_full_detects : exists v c, edm_full_at false Chisq NormalAdd [(to_fb 0 pair_, [0; 0])] = Ok (v, c) /\ 0 < v.
Proof.
  destruct (C114_full_detects 0 (fun p => negb (bi_mask (full_info 0 (raw p)))) false Chisq NormalAdd [(pair_, [0; 0])]) as (v & c & E & _ & _ & V & W).
  - discriminate.
  - intros s bs [Q|[]]. injection Q as <- <-. split; [|discriminate]. split; [repeat constructor; cbn; try lra; congruence|cbn; lra].
  - exists v, c. split; [exact E|]. destruct V as [V|V]; auto. exfalso. cbn [map fst snd] in W.
    assert (M : betamask_of 4 4 0 = false) by (apply betamask_spec; repeat split; lra).
    assert (X := proj1 W (eq_sym V) (O, (fe 0 (mkProc 4 4 5, 0), 0))). assert (Y : In (O, (fe 0 (mkProc 4 4 5, 0), 0)) (unmasked (items_from 0 [(to_fb 0 pair_, [0; 0])]))).
    { apply filter_In. split; [left; reflexivity|]. cbn [fst snd]. unfold fe, full_info, mkinfo, raw. cbn [fe_info bi_mask fst snd p_sumw p_sumw2]. rewrite M. reflexivity. }
    specialize (X Y). unfold item_grad, bin_d, apply_full, dln in X. unfold pair_, to_fb, fe, full_info, mkinfo, raw, fslope, fdcon in X.
    cbn [fst snd nth fb_obs fb_es sf_es sf_obs combine map p_sumw p_sumw2 p_yield fe_info fe_b0 fe_n] in X. unfold fsbeta, sumR in X. cbn [fe_info bi_varbeta fold_right fe_n] in X.
    rewrite root4, root9 in X. lra.
Qed.

Print Assumptions C114_full_autodiff.
Print Assumptions C114_full_stationary.
Print Assumptions C114_full_edm.
Print Assumptions C114_full_unique.
Print Assumptions C114_full_detects.
Print Assumptions C114_full_chisq.
Print Assumptions C114_full_nan_refuted.
