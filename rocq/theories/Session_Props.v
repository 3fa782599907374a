(** The state every fit starts from, blinding in a session, grouped impacts, names of the results. *)
From Coq Require Import List Arith Bool String Ascii ZArith Reals Lra Lia.
From Verif Require Import PyList PyDict RBase BBStat_Model Freeze_Model Freeze_Spec Freeze_Proof Writer_Model Fit_Model
  Session_Model Session_Spec Session_Proof.
Import ListNotations.
Local Open Scope R_scope.
Local Open Scope string_scope.
Local Open Scope list_scope.

(** *** C22 *)
(** whatever the state [s] left by earlier fits: the prefit stage and the toy generation see neutral
    offsets, the fit sees the blinding offsets if it uses the data and neutral ones otherwise, and
    nothing a fit does changes them *)
Theorem C22_offsets env dr o f values variances s t ps u :
  (v_doblind env = true -> prefit_state env dr o f values variances s = Ok t -> f_off t = neutral env) /\
  (v_doblind env = true -> start_state env dr o f values variances s = Ok t -> psteps env t ps = Ok u ->
     f_off u = f_off t /\ (~ uses_data o f -> f_off t = neutral env) /\
     (uses_data o f -> f_off t = (v_bpoi env, v_btheta env))).
Proof.
  split; [intros B E; eapply prefit_off; eauto|]. intros B E P. split; [eapply psteps_off; eauto|].
  rewrite (start_off _ _ _ _ _ _ _ _ B E). split; intros U.
  - destruct (blinded_fit o f) eqn:Q; auto. apply blinded_spec in Q. contradiction.
  - apply blinded_spec in U. rewrite U. reflexivity.
Qed.
Print Assumptions C22_offsets.
(** at any point of any session: the offsets the next fit sees do not depend on what ran before *)
Theorem C22_session env o s0 rs s dr f values variances t :
  session env o s0 rs = Ok s -> v_doblind env = true -> start_state env dr o f values variances s = Ok t ->
  f_off t = (if blinded_fit o f then (v_bpoi env, v_btheta env) else neutral env).
Proof. intros _ B E. eapply start_off; eauto. Qed.
Print Assumptions C22_session.

(** *** C54 *)
Theorem C54_blinded o f : blinded_fit o f = true <-> uses_data o f.
Proof. apply blinded_spec. Qed.
Print Assumptions C54_blinded.
(** a fit that is not blinded starts from a state that does not depend on the data values *)
Theorem C54_unblinded_data_blind env dr o f values values' variances s : (-1 <= f)%Z -> blinded_fit o f = false ->
  start_state env dr o f values variances s = start_state env dr o f values' variances s.
Proof. intros F B. apply unblinded_data; auto. intros U. apply blinded_spec in U. congruence. Qed.
Print Assumptions C54_unblinded_data_blind.
(** a fit to data fits these data *)
Theorem C54_data_fit env dr o values variances s t : start_state env dr o 0 values variances s = Ok t ->
  f_nobs t = values.
Proof.
  unfold start_state, prefit_state. cbn [Z.eqb]. unfold set_nobs, set_blinding.
  destruct (v_chi2 env); [destruct existsb; [discriminate|]|]; cbn [rbind]; destruct (v_doblind env); intros E; injection E as <-; reflexivity.
Qed.
Print Assumptions C54_data_fit.

(** *** C34 *)
Theorem C34_start env dr o f values variances s0 s rs : (-1 <= f)%Z -> coherent (v_parms env) (f_fz s0) ->
  Forall (fun r => Forall (harmless env (fz_list (f_fz s0))) (r_ops r)) rs ->
  session env o s0 rs = Ok s ->
  same_result (start_state env dr o f values variances s) (start_state env dr o f values variances s0).
Proof.
  intros F C H E. apply start_same; auto. apply fixed_sym. eapply session_keeps; eauto.
Qed.
Print Assumptions C34_start.

Definition ex_draws : draws := mkDr [1; 2] (fun v => v) (fun v => v) (fun a _ => a) (fun v => map (Rplus 1) v) (fun a b => vzip Rplus a b)
  (fun v => v) (fun a _ => a) (fun a _ => a) (fun a _ => a).
Definition lit : regex := fun e => Some (String.eqb e).
(** expressions in which "." matches any one character *)
Fixpoint dot_match (e s : string) : bool :=
  match e, s with
  | EmptyString, EmptyString => true
  | String c e', String d s' => (Ascii.eqb c "."%char || Ascii.eqb c d) && dot_match e' s'
  | _, _ => false
  end.
Definition dots : regex := fun e => Some (dot_match e).
Definition ex_env (rx : regex) : senv := mkEnv ["mu"; "a.b"; "aXb"] rx [1; 0; 0] [1; 1; 1] [1; 1; 1] 1 true NormalAdd [1] [4] true [2] [3; 4] false false true
  (fun _ _ x b => vzip Rplus x b) (fun _ x => x).
Definition ex_fz (rx : regex) : freeze_st := frun rx ["mu"; "a.b"; "aXb"] (finit ["mu"; "a.b"; "aXb"]) [Freeze ["aXb"]].
Definition ex_state (rx : regex) : fstate := mkF [7; 7; 7] [8; 8; 8] [9] [9] [9] [10] [0] [0] None [] ([2], [3; 4]) ([], []) 5 (ex_fz rx) [].
Definition ex_opts : topts := mkTo SrFreq DrPoisson false false.
Definition ex_run (ops : list pop) : fitrun := mkRun 0 [20] None ex_draws ops.
Lemma coherent_ex rx : coherent ["mu"; "a.b"; "aXb"] (ex_fz rx).
Proof. apply coherent_run. apply coherent_init. Qed.
Lemma lit_literal parms ps : literal lit parms ps.
Proof. intros e f p He E _ F. injection E as <-. apply String.eqb_eq in F. subst. auto. Qed.

Definition ex_runs : list fitrun := [ex_run [PMinimise [1; 2; 3]; PProfile [2]; PScan ["mu"] [4; 4; 4]; PCov [[1]]; PScanTau [(1, [2; 2; 2])]]].
Example C34_hyp : Forall (fun r => Forall (harmless (ex_env lit) (fz_list (f_fz (ex_state lit)))) (r_ops r)) ex_runs /\
  match session (ex_env lit) ex_opts (ex_state lit) ex_runs with Ok t => f_x t = [2; 2; 2] /\ f_beta t = [2] | Raise _ => False end.
Proof.
  split.
  - apply Forall_cons; [|constructor]. cbn [r_ops ex_run].
    apply Forall_cons; [exact I|]. apply Forall_cons; [exact I|].
    apply Forall_cons. { split; [apply lit_literal|]. intros q [<-|[]] [Q|[]]. discriminate. }
    apply Forall_cons; [exact I|]. apply Forall_cons; [exact I|constructor].
  - exact (conj eq_refl eq_refl).
Qed.

(** tuning tau on the L-curve changes what later fits minimise *)
Theorem C34_tau_refuted : exists env dr o f values variances s0 s rs, (-1 <= f)%Z /\ coherent (v_parms env) (f_fz s0) /\
  session env o s0 rs = Ok s /\
  ~ same_result (start_state env dr o f values variances s) (start_state env dr o f values variances s0).
Proof.
  exists (ex_env lit), ex_draws, ex_opts, 0%Z, [20], None, (ex_state lit). eexists.
  exists [ex_run [POptTau [([1; 1; 1], 1)]]]. split; [lia|]. split; [apply coherent_ex|]. split; [reflexivity|].
  intros (_ & _ & _ & _ & _ & _ & _ & _ & _ & _ & _ & _ & H & _). cbn in H. lra.
Qed.
(** a likelihood scan of a parameter the user froze releases it: later fits see it floating *)
Theorem C34_scan_refuted : exists env dr o f values variances s0 s rs, (-1 <= f)%Z /\ coherent (v_parms env) (f_fz s0) /\
  (forall r p, In r rs -> In p (r_ops r) -> exists q x, p = PScan [q] x /\ In q (fz_list (f_fz s0))) /\
  session env o s0 rs = Ok s /\
  ~ same_result (start_state env dr o f values variances s) (start_state env dr o f values variances s0).
Proof.
  exists (ex_env lit), ex_draws, ex_opts, 0%Z, [20], None, (ex_state lit). eexists.
  exists [ex_run [PScan ["aXb"] [1; 1; 1]]]. split; [lia|]. split; [apply coherent_ex|]. split.
  { intros r p [<-|[]] [<-|[]]. exists "aXb", [1; 1; 1]. split; auto. left. auto. }
  split; [reflexivity|].
  intros (_ & _ & _ & _ & _ & _ & _ & _ & _ & _ & _ & _ & _ & H). discriminate.
Qed.
(** --toys -2 keeps the data of the fit before *)
Theorem C34_negative_refuted : exists env dr o f values variances s0 s rs, coherent (v_parms env) (f_fz s0) /\
  (forall r, In r rs -> r_ops r = []) /\ session env o s0 rs = Ok s /\
  ~ same_result (start_state env dr o f values variances s) (start_state env dr o f values variances s0).
Proof.
  exists (ex_env lit), ex_draws, ex_opts, (-2)%Z, [30], None, (ex_state lit). eexists.
  exists [ex_run []]. split; [apply coherent_ex|]. split.
  { intros r [<-|[]]. reflexivity. }
  split; [reflexivity|].
  intros (_ & _ & _ & _ & _ & H & _). cbn in H. injection H. lra.
Qed.
Print Assumptions C34_tau_refuted.
Print Assumptions C34_scan_refuted.
Print Assumptions C34_negative_refuted.

Example C22_ex : exists t u, start_state (ex_env lit) ex_draws ex_opts 0 [20] None (ex_state lit) = Ok t /\ f_off t = ([2], [3; 4]) /\
  start_state (ex_env lit) ex_draws ex_opts 3 [20] None t = Ok u /\ f_off u = ([1], [0; 0]).
Proof. eexists. eexists. split; [reflexivity|]. split; [reflexivity|]. split; reflexivity. Qed.
Example C54_ex : blinded_fit ex_opts 0 = true /\ blinded_fit ex_opts (-1) = false /\ blinded_fit ex_opts 2 = false /\
  blinded_fit (mkTo SrFreq DrPoisson true false) 2 = true.
Proof. repeat split. Qed.

(** *** C40 *)
(** whatever the scans do (also if one raises), if no parameter the user froze is selected by the names
    that are frozen for a group, the frozen set, its mask and index lists are at the end as before *)
Theorem C40_restored rx parms scan targets groups constrained z : coherent parms z ->
  (forall g, In g (groups ++ [constrained]) -> disjoint_group rx (fz_list z) g) ->
  snd (grouped_asym rx parms scan targets groups constrained z) = z.
Proof. apply grouped_restores. Qed.
Print Assumptions C40_restored.
(** expressions that match only themselves always are disjoint *)
Theorem C40_literal rx frozen members : (forall e f p, rx e = Some f -> f p = true -> p = e) ->
  disjoint_group rx frozen members.
Proof.
  intros L q Q (e & Ie & [E|(f & Ef & F)]).
  - subst e. apply filter_In in Ie. destruct Ie as [_ N]. apply smem_In in Q. rewrite Q in N. discriminate.
  - apply (L e f q Ef) in F. subst. apply filter_In in Ie. destruct Ie as [_ N]. apply smem_In in Q. rewrite Q in N. discriminate.
Qed.
Print Assumptions C40_literal.
(** during the scans of a group everything the user froze and every member is frozen: the scans may
    behave differently on all other frozen sets without any effect *)
Theorem C40_frozen_during rx parms scan scan' targets members z : coherent parms z ->
  (forall m, In m members -> In m parms) ->
  (forall z' t, (forall q, In q (fz_list z) \/ In q members -> In q (fz_list z')) -> scan z' t = scan' z' t) ->
  scan_with_frozen rx parms scan (fz_list z) targets members z = scan_with_frozen rx parms scan' (fz_list z) targets members z.
Proof. apply swf_frozen. Qed.
Print Assumptions C40_frozen_during.
(** a group member "a.b" releases the parameter "aXb" the user froze *)
Theorem C40_metacharacter_refuted : exists rx parms scan targets groups constrained z p, coherent parms z /\ NoDup parms /\
  In p (fz_list z) /\ ~ In p (fz_list (snd (grouped_asym rx parms scan targets groups constrained z))).
Proof.
  exists dots, ["mu"; "a.b"; "aXb"], (fun _ _ => Ok (None, None)), ["mu"], [["a.b"]], [], (ex_fz dots), "aXb".
  split; [apply coherent_ex|]. split.
  { repeat constructor; cbn; intros H; repeat (destruct H as [H|H]; [discriminate|]); auto. }
  split; [left; reflexivity|]. vm_compute. tauto.
Qed.
Print Assumptions C40_metacharacter_refuted.
Example C40_ex : let scan := fun (z : freeze_st) t => if Nat.eqb (List.length (fz_list z)) 2 then Raise ValueError else Ok (Some 1, Some 2) in
  grouped_asym lit ["mu"; "a.b"; "aXb"] scan ["mu"] [["aXb"]; ["a.b"]] [] (ex_fz lit) = (Raise ValueError, ex_fz lit).
Proof. reflexivity. Qed.

(** *** C53 *)
Theorem C53_names :
  (forall fits, all_groups None fits = map (fun f => doc_name f None) fits) /\
  (forall fits n, all_groups (Some [n]) fits = map (fun f => doc_name f (Some n)) fits) /\
  (forall l, fit_groups (Some l) 0%Z = map (fun n => doc_name 0%Z (Some n)) l).
Proof. split; [apply all_none|]. split; [intros; apply all_one|apply names_zero]. Qed.
Print Assumptions C53_names.
Theorem C53_distinct toys : NoDup toys -> (forall x, In x toys -> (-1 <= x)%Z) ->
  (forall i j x y, nth_error toys i = Some x -> nth_error toys j = Some y -> (0 < x)%Z -> (0 < y)%Z -> i = j) ->
  NoDup (all_groups None (expand_toys toys)) /\ (forall n, NoDup (all_groups (Some [n]) (expand_toys toys))) /\
  (forall l, NoDup l -> NoDup (all_groups (Some l) [0%Z])).
Proof.
  intros N B P. assert (E := expand_nodup toys N P).
  assert (R : forall f, In f (expand_toys toys) -> (-1 <= f)%Z).
  { intros f I. apply expand_in in I. destruct I as [[I _]|[I _]]; auto. lia. }
  split; [|split].
  - rewrite all_none. apply NoDup_map'; auto. intros x y X Y. apply doc_inj; auto.
  - intros n. rewrite all_one. apply NoDup_map'; auto. intros x y X Y. apply doc_inj; auto.
  - intros l L. unfold all_groups. cbn [map List.concat]. rewrite app_nil_r, names_zero. apply NoDup_map'; auto.
    intros x y _ _. apply doc_inj_p.
Qed.
Print Assumptions C53_distinct.
(** for Asimov and toys the second pseudodata set is named after the first as well *)
Theorem C53_accumulated f a b r : f = (-1)%Z \/ (1 <= f)%Z ->
  exists t, fit_groups (Some (a :: b :: r)) f = doc_name f (Some a) :: doc_name f (Some (a ++ "_" ++ b)%string) :: t.
Proof. apply names_many. Qed.
Theorem C53_pseudodata_refuted : exists f l, NoDup l /\ fit_groups (Some l) f <> map (fun n => doc_name f (Some n)) l.
Proof.
  exists (-1)%Z, ["p0"; "p1"]. split; [|vm_compute; discriminate]. repeat constructor; cbn; [|tauto]. intros [H|[]]. discriminate.
Qed.
(** two requests of toys write to the same groups *)
Theorem C53_repeated_refuted : exists toys, NoDup toys /\ ~ NoDup (all_groups None (expand_toys toys)).
Proof.
  exists [1%Z; 2%Z]. split.
  - repeat constructor; cbn; [|tauto]. intros [H|[]]. discriminate.
  - vm_compute. intros H. inversion H as [|? ? N _]. apply N. left. reflexivity.
Qed.
(** a pseudodata set called "asimov" collides with the Asimov fit of no pseudodata set; a data fit of the
    set "asimov_p" collides with the Asimov fit of "p" *)
Theorem C53_label_refuted : exists l fits, NoDup l /\ NoDup fits /\ ~ NoDup (all_groups (Some l) fits).
Proof.
  exists ["p"; "asimov_p"], [-1; 0]%Z. split; [|split].
  - repeat constructor; cbn; [|tauto]. intros [H|[]]. discriminate.
  - repeat constructor; cbn; [|tauto]. intros [H|[]]. discriminate.
  - vm_compute. intros H. inversion H as [|? ? N _]. apply N. right. right. left. reflexivity.
Qed.
Print Assumptions C53_accumulated.
Print Assumptions C53_pseudodata_refuted.
Print Assumptions C53_repeated_refuted.
Print Assumptions C53_label_refuted.
Example C53_ex : all_groups None (expand_toys [-1; 0; 2]%Z) = ["results_asimov"; "results"; "results_toy1"; "results_toy2"] /\
  all_groups (Some ["p0"; "p1"]) [0; -1]%Z = ["results_p0"; "results_p1"; "results_asimov_p0"; "results_asimov_p0_p1"].
Proof. split; reflexivity. Qed.

(** *** C62 *)
(** widths of the constraint term of a bin-by-bin parameter (BBStat_Model.constraint): 1 for the
    additive type, 1/sqrt(kstat) for the multiplicative one *)
Definition constraint_sd (env : senv) : vec :=
  match v_bbt env with NormalAdd => map (fun _ => 1) (v_varbeta env) | _ => map (fun k => / sqrt k) (v_kstat env) end.
Definition sd_of (t : bbtype) (bi : bininfo) : R := match t with NormalAdd => 1 | _ => / sqrt (bi_kstat bi) end.
Theorem C62_constraint_width t bi beta0 beta : t <> Gamma -> bi_mask bi = false -> 0 < bi_kstat bi ->
  lbeta_bin t bi beta0 beta = (1/2) * (((beta - beta0) / sd_of t bi) * ((beta - beta0) / sd_of t bi)).
Proof.
  intros T M K. destruct t; [congruence| |]; cbn [lbeta_bin sd_of]; [|field].
  rewrite M. assert (P := sqrt_lt_R0 _ K). transitivity ((1/2) * ((beta - beta0) * (beta - beta0)) * (sqrt (bi_kstat bi) * sqrt (bi_kstat bi))).
  - rewrite sqrt_sqrt by lra. reflexivity.
  - field. lra.
Qed.
Print Assumptions C62_constraint_width.
Theorem C62_additive_width env mean : v_bbt env = NormalAdd -> List.length mean = List.length (v_varbeta env) ->
  toy_sd env mean = constraint_sd env.
Proof.
  intros B L. unfold toy_sd, constraint_sd. rewrite B. revert L. generalize (v_varbeta env). induction mean; intros [|y l] L; cbn in *; try discriminate; auto.
  f_equal. apply IHmean. congruence.
Qed.
(** the multiplicative type fluctuates with the absolute uncertainty of the template *)
Theorem C62_multiplicative_width_refuted : exists env mean, v_bbt env = NormalMult /\
  (exists sumw varbeta, v_kstat env = [bi_kstat (mkinfo varbeta sumw 0)] /\ v_varbeta env = [varbeta]) /\
  List.length mean = 1%nat /\ toy_sd env mean <> constraint_sd env.
Proof.
  exists (mkEnv ["mu"] lit [1] [1] [1] 1 true NormalMult [bi_kstat (mkinfo 4 10 0)] [4] true [2] [] false false true
  (fun _ _ x b => vzip Rplus x b) (fun _ x => x)), [1]. split; auto. split; [exists 10, 4; auto|]. split; auto.
  unfold toy_sd, constraint_sd. cbn [v_bbt v_varbeta v_kstat map]. intros H. apply (f_equal (fun l => nth 0 l 0)) in H. cbn [nth] in H.
  assert (K : bi_kstat (mkinfo 4 10 0) = 25).
  { unfold mkinfo, betamask_of, Reqb, Rltb. cbn [bi_kstat]. destruct (Req_EM_T 4 0); [lra|]. destruct (Req_EM_T 10 0); [lra|].
    cbn [orb]. repeat (match goal with |- context[Rlt_dec ?a ?b] => destruct (Rlt_dec a b); try lra end); cbn [orb]; lra. }
  rewrite K in H. replace 25 with (5 * 5) in H by lra. replace 4 with (2 * 2) in H by lra.
  rewrite !sqrt_square in H by lra. lra.
Qed.
Print Assumptions C62_additive_width.
Print Assumptions C62_multiplicative_width_refuted.
Example C62_ex : toy_sd (ex_env lit) [0] = [1].
Proof. reflexivity. Qed.

(** *** C63 *)
(** toys that are not randomised, or randomised with the normal distribution, keep the given variances *)
Theorem C63_toy_variances env dr o f values v s t : v_chi2 env = true -> v_covfit env = false -> (1 <= f)%Z ->
  to_data o <> DrPoisson -> start_state env dr o f values (Some v) s = Ok t -> f_varnobs t = v.
Proof.
  intros C CF F P E. unfold start_state, prefit_state in E.
  destruct (Z.eqb_spec f (-1)); [lia|]. destruct (Z.eqb_spec f 0); [lia|]. destruct (Z.leb_spec 1 f); [|lia].
  unfold toyassign in E. rewrite CF, C in E.
  match type of E with context[set_nobs env ?a (Some v) ?b] => idtac | _ => idtac end.
  destruct (to_data o); [congruence| |];
    (match type of E with rbind (rbind ?r _) _ = _ => destruct r as [s2|] eqn:R; [|discriminate] end; cbn [rbind] in E;
     injection E as <-; unfold set_nobs in R; rewrite C in R; destruct existsb; [discriminate|]; injection R as <-;
     unfold set_blinding, randomize_postfit; destruct (v_doblind env), (to_params o), (v_bb env); cbn;
     repeat (match goal with |- context[match ?c with _ => _ end] => destruct c end); reflexivity).
Qed.
(** a chi-square fit to the data uses the counts as variances, whatever variances are stored *)
Theorem C63_data_fit_variances env dr o values variances s t : v_chi2 env = true ->
  start_state env dr o 0 values variances s = Ok t -> f_varnobs t = values.
Proof.
  intros C. unfold start_state, prefit_state. cbn [Z.eqb]. unfold set_nobs, set_blinding. rewrite C.
  destruct existsb; [discriminate|]. cbn [rbind]. destruct (v_doblind env); intros E; injection E as <-; reflexivity.
Qed.
Theorem C63_data_fit_refuted : exists env dr o values v s t, v_chi2 env = true /\
  start_state env dr o 0 values (Some v) s = Ok t /\ f_varnobs t <> v.
Proof.
  exists (mkEnv ["mu"] lit [1] [1] [1] 1 false NormalAdd [1] [4] false [2] [] true false true (fun _ _ x b => x) (fun _ x => x)),
    ex_draws, ex_opts, [20], [2], (ex_state lit). eexists. split; [reflexivity|]. split.
  - unfold start_state, prefit_state. cbn [Z.eqb]. unfold set_nobs. cbn [v_chi2]. cbn [existsb]. destruct (Rle_dec 20 0); [lra|]. cbn [orb rbind]. reflexivity.
  - cbn. intros H. injection H. lra.
Qed.
Print Assumptions C63_toy_variances.
Print Assumptions C63_data_fit_variances.
Print Assumptions C63_data_fit_refuted.
