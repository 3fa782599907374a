(** C107: the options of a fit. *)
From Coq Require Import Reals List Arith Bool String Lia.
From Verif Require Import RBase PyList PyDict BBStat_Model Writer_Model Yields_Model Nll_Model Mat_Model Mat_Proof Linear_Spec Linear_Prob Linear_Props Setup_Model Setup_Spec Setup_Proof.
Import ListNotations.
Local Open Scope string_scope.

(** a fit starts with exactly these options and inputs *)
Theorem C107_accepts o d l : (exists f, setup o d l = Ok f) <-> allowed o d.
Proof.
  unfold allowed. split.
  - intros (f & E). apply setup_ok in E as (S & J & X & D & T & _). split; [apply syst_smem; exact S|]. split; [apply (jit_ok _ (i_sparse d)); eexists; exact J|]. split; [exact X|].
    split; [apply (terms_ok o d X); eexists; exact D|]. apply type_ok. eexists. exact T.
  - intros (S & J & X & D & T). apply type_ok in T as (t & T). apply (terms_ok o d X) in D as (v & D). apply (jit_ok _ (i_sparse d)) in J as (j & J). apply syst_smem in S.
    unfold setup. rewrite S, J. cbn [negb rbind]. destruct (o_cov o && o_chisq o) eqn:Y; [exfalso; apply X; apply andb_true_iff; exact Y|]. rewrite D. cbn [rbind]. rewrite T. eexists. reflexivity.
Qed.
(** compiled for the accelerator on request or automatically, never with sparse input; and never the forward derivative *)
Theorem C107_jit o d l f : setup o d l = Ok f -> meant_jit (o_jit o) (i_sparse d) (f_jit f) /\
  forall name jit, In (name, jit) (f_compiled f) -> jit = true -> i_sparse d = false /\ name <> fwdrev.
Proof.
  intros E. apply setup_ok in E as (_ & J & _ & _ & _ & F). pose proof (jit_meant _ _ _ J) as M. split; [exact M|]. rewrite F. cbn [f_compiled]. intros name jit I T.
  assert (Q : f_jit f = true -> i_sparse d = false) by (intros H; apply M; exact H).
  unfold compiled in I. cbn in I. destruct I as [I|[I|[I|[I|[]]]]]; injection I as <- <-; (split; [apply Q; exact T|discriminate]) || discriminate.
Qed.
(** the product with the Hessian that the minimiser calls is one that was built, and forward derivatives are not used with sparse input *)
Theorem C107_hessp o d l f : setup o d l = Ok f -> (exists jit, In (f_hessp f, jit) (f_compiled f)) /\
  (f_hessp f = fwdrev <-> o_hvp o = Some "fwdrev" /\ i_sparse d = false).
Proof.
  intros E. apply setup_ok in E as (_ & _ & _ & _ & _ & F). rewrite F. cbn [f_hessp f_compiled]. unfold hessp, orelse. destruct (o_hvp o) as [h|].
  - destruct (String.eqb_spec h "fwdrev") as [->|N]; [destruct (i_sparse d)|]; cbn; (split; [eexists; cbn; tauto|]); split; try discriminate; try tauto.
    + intros (_ & H). discriminate.
    + intros ([= H] & _). contradiction.
  - cbn. split; [eexists; tauto|]. split; [discriminate|]. intros (H & _). discriminate.
Qed.
(** one of three likelihoods; with covariance the inverse stored in the file *)
Theorem C107_likelihood o d l f : setup o d l = Ok f ->
  (likelihood_of f = Sep Poisson <-> o_chisq o = false /\ o_cov o = false) /\ (likelihood_of f = Sep Chisq <-> o_chisq o = true) /\
  (forall w, likelihood_of f = Cov w <-> o_cov o = true /\ i_covinv d = Some w).
Proof.
  intros E. apply setup_ok in E as (_ & _ & X & D & _ & _). unfold likelihood_of, data_terms in *. destruct (o_chisq o), (o_cov o); try tauto.
  - injection D as <- <-. repeat split; try discriminate; intros H; destruct H; discriminate.
  - destruct (i_covinv d) as [w|]; [|discriminate]. injection D as <- <-. repeat split; try discriminate; try congruence; try (intros (H & _); discriminate); intros (_ & [= ->]); reflexivity.
  - injection D as <- <-. repeat split; try discriminate; intros H; destruct H; discriminate.
Qed.
(** variances of the data exist exactly where they are needed; so does the covariance of the parameters *)
Theorem C107_tensors o d l f : setup o d l = Ok f -> f_varnobs f = o_chisq o /\ (f_compute_cov f = false <-> o_nohess o = Some true) /\ f_mode f = o_mode o /\ f_bbb f = negb (o_nobbb o).
Proof.
  intros E. apply setup_ok in E as (_ & _ & _ & D & _ & F). split.
  - unfold data_terms in D. destruct (o_chisq o); [injection D as <- _; reflexivity|]. destruct (o_cov o); [destruct (i_covinv d); [injection D as <- _; reflexivity|discriminate]|]. injection D as <- _. reflexivity.
  - rewrite F. cbn [f_compute_cov f_mode f_bbb]. repeat split; unfold orelse; destruct (o_nohess o) as [[|]|]; cbn; congruence.
Qed.
Theorem C107_type o d l f : setup o d l = Ok f -> meant_type o (f_type f) /\ (f_cov f = true -> f_bbb f = true -> f_type f <> "gamma").
Proof.
  intros E. apply setup_ok in E as (_ & _ & _ & _ & T & F). pose proof (type_name _ _ T) as N. split; [rewrite N; apply name_meant|].
  rewrite F. cbn [f_cov f_bbb f_type]. intros C B G. unfold bbb_type in T. fold (name_of o) in T. rewrite <- N, G, C, B in T. discriminate.
Qed.
(** the direct minimisation is used exactly if the problem looks linear, or is forced *)
Theorem C107_linear o d l f : setup o d l = Ok f -> (f_linear f = true <-> o_force o = Some true \/ looks_linear o d l (f_type f)).
Proof.
  intros E. apply setup_ok in E as (_ & _ & _ & _ & _ & F).
  assert (L : f_linear f = orelse false (o_force o) || ((o_chisq o || o_cov o) && l && i_sym d && String.eqb (i_syst d) "normal" && bbb_linear (negb (o_nobbb o)) (f_type f))) by (rewrite F; reflexivity).
  rewrite L. unfold looks_linear, bbb_linear, orelse. rewrite orb_true_iff, !andb_true_iff, !orb_true_iff, !String.eqb_eq, negb_true_iff, negb_false_iff.
  assert (A : (match o_force o with Some v => v | None => false end = true) <-> o_force o = Some true) by (destruct (o_force o) as [[|]|]; split; congruence).
  assert (B : o_nobbb o = true \/ f_type f = "normal-additive" <-> (o_nobbb o = false -> f_type f = "normal-additive")) by (destruct (o_nobbb o); intuition discriminate).
  rewrite A, B. tauto.
Qed.
(** and then, unless forced, the likelihood is quadratic: one step is enough (C35) *)
Theorem C107_linear_quadratic o d l f P e (diag : bool) x0 : setup o d l = Ok f -> f_linear f = true -> o_force o <> Some true -> describes d f P ->
  (l = true -> model_affine (pb_model P)) -> model_fits P -> regs_quadratic P ->
  (forall w bb, pb_lik P = Cov w -> pb_bb P = Some bb -> cov_affine P bb (Nat.min (in_nbins (pb_data P)) (bins_used P))) ->
  let n := nfit P in List.length (ef_mask e) = n -> List.length x0 = n ->
  match ef_blind e with Some (op, ot) => List.length op = pm_npoi (pb_model P) /\ List.length ot = in_nsyst (pb_data P) | None => True end ->
  exists c b H, sym n H /\
    forall x, active_bins P e (if diag then vecl n x else x0) (vecl n x) -> nll_ad P e (if diag then vecl n x else x0) (vecl n x) = Ok (qfun n c b H x).
Proof.
  intros E L NF (D1 & D2 & D3 & D4) MA MF RQ CA n LM LX LB. apply (C107_linear _ _ _ _ E) in L as [L|(K & LL & SY & SN & TY)]; [contradiction|].
  apply (C35_linear_problems_are_quadratic P e diag x0); auto. destruct (C107_likelihood _ _ _ _ E) as (PO & _ & _). destruct (C107_tensors _ _ _ _ E) as (_ & _ & _ & BE).
  split; [|split; [|split; [|split]]].
  - intros H. rewrite D1 in H. apply PO in H as (H1 & H2). destruct K; congruence.
  - apply MA, LL.
  - congruence.
  - apply D3, SN.
  - destruct (pb_bb P) as [bb|] eqn:B; [|exact I]. destruct D4 as (D4 & D5). rewrite BE in D4. apply negb_true_iff in D4. rewrite (TY D4) in D5. split.
    + destruct (bb_type bb); unfold type_of in D5; try discriminate. reflexivity.
    + destruct (pb_lik P) as [|w] eqn:LK; [exact I|]. apply (CA w bb); reflexivity.
Qed.

(** ** cases *)
Definition opt0 : options := mkOpt None None None false false None false "lite" "automatic".
Definition inp0 : input := mkInp "log_normal" false true None.
Example C107_ex_default : setup opt0 inp0 true = Ok (mkFit true "revrev" true false false false None true "lite" "gamma" false
  [("loss_val", true); ("loss_val_grad", true); (fwdrev, false); (revrev, true)] revrev).
Proof. reflexivity. Qed.
Definition opt_cov : options := mkOpt (Some JTrue) (Some "fwdrev") (Some true) false true None false "full" "automatic".
Example C107_ex_covariance : setup opt_cov (mkInp "normal" true true (Some [[2%R]])) true = Ok (mkFit false "fwdrev" false false true false (Some [[2%R]]) true "full" "normal-additive" true
  [("loss_val", false); ("loss_val_grad", false); (fwdrev, false); (revrev, false)] revrev).
Proof. reflexivity. Qed.
Example C107_ex_dense : exists f, setup (mkOpt (Some (JStr "off")) (Some "fwdrev") None true false (Some false) true "full" "gamma") (mkInp "normal" false true None) true = Ok f /\
  f_jit f = false /\ f_hessp f = fwdrev /\ f_linear f = true /\ f_varnobs f = true /\ f_type f = "gamma".
Proof. eexists. repeat split; reflexivity. Qed.
Example C107_ex_nonlinear : exists f, setup (mkOpt None None None true false None false "full" "automatic") (mkInp "normal" false true None) true = Ok f /\ f_type f = "normal-multiplicative" /\ f_linear f = false.
Proof. eexists. repeat split; reflexivity. Qed.
Example C107_ex_rejected :
  setup opt0 (mkInp "lognormal" false true None) true = Raise RuntimeError /\
  setup (mkOpt (Some (JStr "yes")) None None false false None false "lite" "automatic") inp0 true = Raise ValueError /\
  setup (mkOpt None None None true true None false "lite" "automatic") (mkInp "normal" false true (Some [[1%R]])) true = Raise GenericException /\
  setup (mkOpt None None None false true None false "lite" "gamma") (mkInp "normal" false true (Some [[1%R]])) true = Raise GenericException /\
  setup (mkOpt None None None false false None false "lite" "normal") inp0 true = Raise RuntimeError /\
  setup (mkOpt None None None false false None false "light" "gamma") inp0 true = Raise GenericException.
Proof. repeat split; reflexivity. Qed.
Example C107_ex_allowed : allowed opt0 inp0 /\ ~ allowed opt_cov inp0.
Proof. split; [apply (C107_accepts _ _ true); eexists; reflexivity|]. intros H. apply (C107_accepts _ _ true) in H as (f & H). discriminate. Qed.
(** without the bin-by-bin treatment its type does not matter *)
Example C107_ex_unused_type : exists f, setup (mkOpt None None None false true None true "lite" "gamma") (mkInp "normal" false true (Some [[1%R]])) true = Ok f /\ f_linear f = true.
Proof. eexists. split; reflexivity. Qed.
Example C107_ex_describes : exists f P, setup (mkOpt None None None true false None false "lite" "normal-additive") (mkInp "normal" false true None) true = Ok f /\ describes (mkInp "normal" false true None) f P /\ f_linear f = true.
Proof. eexists. exists pl. split; [reflexivity|]. split; [|reflexivity]. repeat split. Qed.

(** ** what does not hold *)
(** without a covariance in the file, the reciprocals of the variances of the data are announced: the fit never starts *)
Theorem C107_no_covariance o d l : o_cov o = true -> i_covinv d = None -> exists e, setup o d l = Raise e.
Proof.
  intros C N. destruct (setup o d l) as [f|e] eqn:E; [|exists e; reflexivity]. exfalso. assert (A : allowed o d) by (apply (C107_accepts o d l); eexists; exact E). destruct A as (_ & _ & _ & A & _). exact (A C N).
Qed.
Theorem C107_variances_refuted : exists o d, o_cov o = true /\ o_chisq o = false /\ i_covinv d = None /\ i_syst d = "normal" /\ setup o d true = Raise GenericException.
Proof. exists (mkOpt None None None false true None false "lite" "automatic"), (mkInp "normal" false true None). repeat split; reflexivity. Qed.
(** "automatic" is not the documented type in full mode *)
Theorem C107_documented_type_refuted : exists o d f, setup o d true = Ok f /\ ~ documented_type o (f_type f).
Proof.
  exists (mkOpt None None None false false None false "full" "automatic"), inp0. eexists. split; [reflexivity|]. intros H. specialize (H eq_refl eq_refl). discriminate.
Qed.
(** a forced fit takes one step for any likelihood *)
Theorem C107_forced_refuted : exists o d f, setup o d false = Ok f /\ f_linear f = true /\ likelihood_of f = Sep Poisson.
Proof. exists (mkOpt None None None false false (Some true) false "lite" "automatic"), inp0. eexists. repeat split; reflexivity. Qed.

Print Assumptions C107_accepts.
Print Assumptions C107_jit.
Print Assumptions C107_hessp.
Print Assumptions C107_likelihood.
Print Assumptions C107_tensors.
Print Assumptions C107_type.
Print Assumptions C107_linear.
Print Assumptions C107_linear_quadratic.
Print Assumptions C107_no_covariance.
Print Assumptions C107_variances_refuted.
Print Assumptions C107_documented_type_refuted.
Print Assumptions C107_forced_refuted.
