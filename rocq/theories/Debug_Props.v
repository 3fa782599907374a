(** C97: the report on an input file. *)
From Coq Require Import Reals List Arith Bool String Lia Lra.
From Verif Require Import RBase PyList PyDict Debug_Model Debug_Spec Debug_Proof.
Import ListNotations.
Local Open Scope nat_scope.
Local Open Scope string_scope.

(** the channels asked for, all without the option *)
Definition chosen (w : indata) (sel : option (list string)) (c : string) : Prop := match sel with Some l => In c l | None => True end.
Definition listed (w : indata) (sel : option (list string)) : list string := match sel with Some l => l | None => dkeys (build w 0 (w_channels w)) end.
Lemma unfold_report w sel r : debug_input_data w sel = Some r -> w_sparse w = false /\ r = full_report w (build w 0 (w_channels w)) (listed w sel).
Proof.
  unfold debug_input_data, debug_data, listed. destruct (w_sparse w); [discriminate|]. intros E. split; auto. congruence.
Qed.
Lemma listed_in w sel c j ch : nth_error (w_channels w) j = Some (c, ch) -> (In c (listed w sel) <-> chosen w sel c).
Proof.
  intros E. unfold listed, chosen. destruct sel; [tauto|]. rewrite build_keys. split; auto. intros _. unfold dkeys. apply in_map_iff. exists (c, ch). split; auto. eapply nth_error_In; eauto.
Qed.

(** There is a report for every dense file and none for sparse ones. *)
Theorem C97_dense w sel : (exists r, debug_input_data w sel = Some r) <-> w_sparse w = false.
Proof. unfold debug_input_data, debug_data. destruct (w_sparse w); split; intros H; try discriminate; auto; [destruct H; discriminate|eauto]. Qed.
Theorem C97_issues w sel r : debug_input_data w sel = Some r ->
  (issues r = 0 <-> no_data r = [] /\ empty_data r = [] /\ low_data r = [] /\ low_yield r = [] /\ high_unc r = [] /\ zero_norm r = [] /\ zero_systs r = [] /\ still_procs r = [] /\ extreme r = []).
Proof.
  intros H. apply unfold_report in H as [_ ->]. unfold full_report. cbn [issues no_data empty_data low_data low_yield high_unc zero_norm zero_systs still_procs extreme].
  assert (O : forall A (l : list A), one (negb (is_nil l)) = 0 <-> l = []) by (intros A [|]; cbn; split; congruence).
  assert (L : forall A (l : list A), List.length l = 0 <-> l = []) by (intros A [|]; cbn; split; congruence).
  set (d := build w 0 (w_channels w)). set (l := listed w sel).
  pose proof (O _ (c1 w d l)). pose proof (O _ (c2 d l)). pose proof (L _ (c21 d l)). pose proof (L _ (c22 w d l)). pose proof (L _ (c23 w d l)).
  pose proof (O _ (c3 w d l)). pose proof (O _ (c4 w d)). pose proof (O _ (c5 w d)). pose proof (O _ (c6 w d l)).
  split; intros Z; [repeat split; (apply H || apply H0 || apply H1 || apply H2 || apply H3 || apply H4 || apply H5 || apply H6 || apply H7); lia|]. decompose [and] Z. intuition lia.
Qed.
(** Nuisances without effect are reported, and only those; *)
Theorem C97_zero_systs w sel r k s : plain w -> NoDup (w_systs w) -> tidy w -> debug_input_data w sel = Some r -> nth_error (w_systs w) k = Some s ->
  (In s (zero_systs r) <-> forall b p, b < all_bins w -> p < List.length (w_procs w) -> ~ moves w b p k).
Proof. intros P N T H E. apply unfold_report in H as [_ ->]. apply c4_spec; auto. Qed.
(** so are processes that no nuisance changes, *)
Theorem C97_still_procs w sel r p s : plain w -> NoDup (w_procs w) -> tidy w -> debug_input_data w sel = Some r -> nth_error (w_procs w) p = Some s ->
  (In s (still_procs r) <-> forall b k, b < all_bins w -> k < List.length (w_systs w) -> ~ moves w b p k).
Proof. intros P N T H E. apply unfold_report in H as [_ ->]. apply c5_spec; auto. Qed.
(** channels whose data add up to zero *)
Theorem C97_empty_data w sel r c : plain w -> debug_input_data w sel = Some r -> (In c (empty_data r) <->
  chosen w sel c /\ exists j ch, nth_error (w_channels w) j = Some (c, ch) /\ c_masked ch = false /\ sumR (map (fun b => w_obs w (first_bin w j + b)) (seq 0 (stored ch))) = 0%R).
Proof.
  intros P H. apply unfold_report in H as [_ ->]. cbn [empty_data full_report]. rewrite c2_spec by auto. split; intros [S (j & ch & E & X)]; (split; [eapply listed_in; eauto|eauto]).
Qed.
(** and processes whose template adds up to zero. *)
Theorem C97_zero_norm w sel r c s : plain w -> debug_input_data w sel = Some r -> ((exists l, In (c, l) (zero_norm r) /\ In s l) <->
  chosen w sel c /\ exists j ch p, nth_error (w_channels w) j = Some (c, ch) /\ nth_error (w_procs w) p = Some s /\ sumR (map (fun b => w_norm w (first_bin w j + b) p) (seq 0 (stored ch))) = 0%R).
Proof.
  intros P H. apply unfold_report in H as [_ ->]. cbn [zero_norm full_report]. rewrite c3_spec by auto. split; intros [S (j & ch & p & E & X)]; (split; [eapply listed_in; eauto|eauto 6]).
Qed.
(** Bins with a small prediction: the channels, the bins and their number *)
Theorem C97_low_yield w sel r : plain w -> debug_input_data w sel = Some r ->
  (forall c n l, In (c, n, l) (low_yield r) -> chosen w sel c /\ n = List.length l /\ NoDup l /\ l <> [] /\ exists j, exactly w j c (fun b => total_yield w b < 1)%R l) /\
  (forall j c b, chosen w sel c -> in_channel w j c b -> (total_yield w b < 1)%R -> exists n l, In (c, n, l) (low_yield r)).
Proof.
  intros P H. apply unfold_report in H as [_ ->]. cbn [low_yield full_report]. rewrite c22_listing.
  assert (Q : forall st ch b, Rltb (tot w (hists_of w st ch) b) 1 = true <-> (fun (_ : chan) b => total_yield w b < 1)%R ch (st + b)).
  { intros. change (tot w (hists_of w st ch) b) with (total_yield w (st + b)). destruct (Rltb_spec (total_yield w (st + b)) 1); split; auto; discriminate. }
  split.
  - intros c n l I. apply (listing_spec w _ _ _ _ P Q) in I as (S & N & j & ch & E & L & G & X). split; [eapply listed_in; eauto|]. split; auto. split; [rewrite L; apply bins_nodup|]. split; auto. exists j. exact X.
  - intros j c b C (ch & E & L) X. apply (listing_complete w (listed w sel) _ _ _ P Q j c ch b); auto. eapply listed_in; eauto.
Qed.
(** and those with a large uncertainty, *)
Theorem C97_high_unc w sel r : plain w -> debug_input_data w sel = Some r ->
  let bad := fun b => ((0 < total_yield w b /\ total_yield w b * total_yield w b < total_var w b) \/ (total_yield w b = 0 /\ 0 < total_var w b))%R in
  (forall c n l, In (c, n, l) (high_unc r) -> chosen w sel c /\ n = List.length l /\ NoDup l /\ l <> [] /\ exists j, exactly w j c bad l) /\
  (forall j c b, chosen w sel c -> in_channel w j c b -> bad b -> exists n l, In (c, n, l) (high_unc r)).
Proof.
  intros P H bad. apply unfold_report in H as [_ ->]. cbn [high_unc full_report]. rewrite c23_listing.
  assert (Q : forall st ch b, uncertain (totvar w (hists_of w st ch) b) (tot w (hists_of w st ch) b) = true <-> (fun (_ : chan) b => bad b) ch (st + b)) by (intros; apply uncertain_spec).
  split.
  - intros c n l I. apply (listing_spec w _ _ _ _ P Q) in I as (S & N & j & ch & E & L & G & X). split; [eapply listed_in; eauto|]. split; auto. split; [rewrite L; apply bins_nodup|]. split; auto. exists j. exact X.
  - intros j c b C (ch & E & L) X. apply (listing_complete w (listed w sel) _ _ _ P Q j c ch b); auto. eapply listed_in; eauto.
Qed.
(** and those with few events in the data, whose number is printed wrongly: it is the number of axes. *)
Theorem C97_low_data w sel r : plain w -> debug_input_data w sel = Some r ->
  (forall c n l, In (c, n, l) (low_data r) -> chosen w sel c /\ NoDup l /\ l <> [] /\ exists j ch, nth_error (w_channels w) j = Some (c, ch) /\ c_masked ch = false /\ n = List.length (c_axes ch) /\ exactly w j c (fun b => w_obs w b < 10)%R l) /\
  (forall j c ch b, chosen w sel c -> nth_error (w_channels w) j = Some (c, ch) -> c_masked ch = false -> in_channel w j c b -> (w_obs w b < 10)%R -> exists n l, In (c, n, l) (low_data r)).
Proof.
  intros P H. apply unfold_report in H as [_ ->]. cbn [low_data full_report]. rewrite c21_listing.
  assert (Q : forall st ch b, low_obs (hists_of w st ch) b = true <-> (fun (ch : chan) b => c_masked ch = false /\ w_obs w b < 10)%R ch (st + b)).
  { intros. unfold low_obs. cbn [h_obs hists_of]. destruct (c_masked ch); [split; [discriminate|intros [X _]; discriminate]|]. destruct (Rltb_spec (w_obs w (st + b)) 10); split; auto; try discriminate. intros [_ X]. lra. }
  split.
  - intros c n l I. apply (listing_spec w _ _ _ _ P Q) in I as (S & N & j & ch & E & L & G & X). split; [eapply listed_in; eauto|]. split; [rewrite L; apply bins_nodup|]. split; auto.
    assert (M : c_masked ch = false). { destruct l as [|b l]; [contradiction|]. apply (proj1 (X b)); left; auto. }
    exists j, ch. split; auto. split; auto. split; auto. intros b. rewrite (X b). tauto.
  - intros j c ch b C E M (ch' & E' & L) X. rewrite E in E'. injection E' as <-. apply (listing_complete w (listed w sel) _ _ _ P Q j c ch b); auto. eapply listed_in; eauto.
Qed.
(** Large variations: an increase above a factor two at +1 or a decrease below one half at -1 is reported, nothing else. *)
Theorem C97_extreme w sel r c s t : plain w -> debug_input_data w sel = Some r -> ((exists l, In (c, l) (extreme r) /\ In (s, t) l) <->
  chosen w sel c /\ exists j b p k, in_channel w j c b /\ nth_error (w_procs w) p = Some s /\ nth_error (w_systs w) k = Some t /\ (0 < w_norm w b p)%R /\
     (varied w (-1) b p k < 1 / 2 * w_norm w b p \/ 2 * w_norm w b p < varied w 1 b p k)%R).
Proof.
  intros P H. apply unfold_report in H as [_ ->]. cbn [extreme full_report]. rewrite c6_spec by auto. split; intros [S (j & b & p & k & IC & X)]; (split; [|eauto 8]); destruct IC as (ch & E & L); eapply listed_in; eauto.
Qed.
(** The first check cannot report anything. *)
Theorem C97_no_data w sel r : plain w -> debug_input_data w sel = Some r -> no_data r = [].
Proof. intros P H. apply unfold_report in H as [_ ->]. apply c1_nil; auto. Qed.
(** The checks of nuisances and processes do not look at the chosen channels. *)
Theorem C97_option w sel sel' r r' : debug_input_data w sel = Some r -> debug_input_data w sel' = Some r' -> zero_systs r = zero_systs r' /\ still_procs r = still_procs r'.
Proof. intros H H'. apply unfold_report in H as [_ ->]. apply unfold_report in H' as [_ ->]. auto. Qed.

(** ** a file with two channels, two processes and three nuisances *)
Definition vals (l : list R) (b : nat) : R := nth b l 0%R.
Definition ex (two : list R) (logs : nat -> R) : indata :=
  mkIn [("a", mkChan [(1, 1); (2, 2)] false false); ("m", mkChan [(1, 1)] false true)] ["s"; "b"] ["up"; "none"; "norm"] false true LogNormal
       (vals [3; 20]%R) (fun b p => match p with 0 => vals [4; 6; 1]%R b | _ => vals two b end) (fun b p => match b, p with 0, 0 => 100%R | _, _ => 1%R end)
       (fun b p k => match b, p, k with 1, 0, 0 => logs 0 | 0, 1, 2 => logs 2 | _, _, _ => 0%R end) (fun _ _ _ => 0%R).
Lemma ex_plain two logs : plain (ex two logs).
Proof. split; [repeat constructor; cbn; intuition discriminate|repeat constructor]. Qed.
Lemma ex_report two logs sel : debug_input_data (ex two logs) sel = Some (full_report (ex two logs) (build (ex two logs) 0 (w_channels (ex two logs))) (listed (ex two logs) sel)).
Proof. unfold debug_input_data, debug_data. cbn [w_sparse ex]. unfold listed. destruct sel; reflexivity. Qed.
Ltac decide_rlt := repeat match goal with
  | |- context [Rltb ?a ?b] => destruct (Rltb_spec a b); [try lra|try lra]
  | |- context [Reqb ?a ?b] => destruct (Reqb_spec a b); [try lra|try lra] end.
Example C97_ex_low : exists r, debug_input_data (ex [5; - 6; 0]%R (fun _ => 1%R)) None = Some r /\ low_yield r = [("a", 1, [1])] /\ low_data r = [("a", 2, [0])] /\ empty_data r = [].
Proof.
  eexists. split; [apply ex_report|]. cbn [low_yield low_data empty_data full_report]. unfold c21, c22, c2, with_data, selected, tot, bins, sum_to. cbn [w_procs w_channels ex]. cbn. unfold vals. cbn. decide_rlt. cbn. auto.
Qed.
Lemma ex_tidy two logs : vals two 0 <> 0%R -> tidy (ex two logs).
Proof.
  intros V E b p k. cbn [w_norm w_avg w_half ex]. destruct p as [|p]; intros N; (split; [|auto]).
  - destruct b as [|[|b]]; auto. cbn in N. lra.
  - destruct b as [|[|b]]; auto. contradiction.
Qed.
Example C97_ex_systs : exists r, debug_input_data (ex [5; 7; 0]%R (fun _ => 1%R)) None = Some r /\ ~ In "up" (zero_systs r) /\ In "none" (zero_systs r) /\ ~ In "norm" (zero_systs r) /\ ~ In "s" (still_procs r) /\
  (exists l, In ("a", l) (extreme r) /\ In ("s", "up") l) /\ (exists l, In ("m", l) (zero_norm r) /\ In "b" l) /\ (exists l, In ("a", 1, l) (high_unc r) /\ In 0 l).
Proof.
  set (w := ex [5; 7; 0]%R (fun _ => 1%R)). assert (P := ex_plain [5; 7; 0]%R (fun _ => 1%R)). assert (T : tidy w) by (apply ex_tidy; cbn; lra).
  assert (N : NoDup (w_systs w)) by (repeat constructor; cbn; intuition discriminate). assert (N' : NoDup (w_procs w)) by (repeat constructor; cbn; intuition discriminate).
  assert (R : debug_input_data w None = Some (full_report w (build w 0 (w_channels w)) (listed w None))) by apply ex_report. eexists. split; [exact R|].
  assert (MU : moves w 1 0 0). { left. unfold varied, logk. cbn. unfold vals. cbn. assert (X := exp_ineq1 1 ltac:(lra)). replace (1 * 1 + 0)%R with 1%R by lra. lra. }
  assert (MN : moves w 0 1 2). { left. unfold varied, logk. cbn. unfold vals. cbn. assert (X := exp_ineq1 1 ltac:(lra)). replace (1 * 1 + 0)%R with 1%R by lra. lra. }
  split; [|split; [|split; [|split; [|split; [|split]]]]].
  - intros I. exact (proj1 (C97_zero_systs w None _ 0 "up" P N T R eq_refl) I 1 0 ltac:(cbn; lia) ltac:(cbn; lia) MU).
  - apply (C97_zero_systs w None _ 1 "none" P N T R eq_refl). intros b p _ _ M. assert (Z : w_avg w b p 1 = 0%R) by (destruct b as [|[|b]], p as [|[|p]]; auto).
    unfold moves, varied, logk in M. change (w_type w) with LogNormal in M. change (w_symmetric w) with true in M. rewrite Z in M. cbv iota in M. rewrite !Rmult_0_r, !Rplus_0_r, exp_0, Rmult_1_r in M. tauto.
  - intros I. exact (proj1 (C97_zero_systs w None _ 2 "norm" P N T R eq_refl) I 0 1 ltac:(cbn; lia) ltac:(cbn; lia) MN).
  - intros I. exact (proj1 (C97_still_procs w None _ 0 "s" P N' T R eq_refl) I 1 0 ltac:(cbn; lia) ltac:(cbn; lia) MU).
  - apply (C97_extreme w None _ "a" "s" "up" P R). split; [exact I|]. exists 0, 1, 0, 0. split; [eexists; split; [reflexivity|cbn; lia]|]. repeat split; auto; [cbn; lra|]. right. unfold varied, logk. cbn. unfold vals. cbn. assert (X := exp_ineq1 1 ltac:(lra)). replace (1 * 1 + 0)%R with 1%R by lra. lra.
  - apply (C97_zero_norm w None _ "m" "b" P R). split; [exact I|]. exists 1. eexists. exists 1. split; [reflexivity|]. split; [reflexivity|]. cbn. unfold vals. cbn. lra.
  - cbn [high_unc full_report]. unfold c23, selected, totvar, tot, bins, sum_to, uncertain. cbn. unfold vals. cbn. assert (S1 : (sqrt (100 + (1 + 0)) <= 11)%R). { replace 11%R with (sqrt (11 * 11)) by (apply sqrt_square; lra). apply sqrt_le_1; lra. }
    assert (S2 : (9 < sqrt (100 + (1 + 0)))%R). { replace 9%R with (sqrt (9 * 9)) by (apply sqrt_square; lra). apply sqrt_lt_1; lra. }
    assert (S3 : (sqrt (1 + (1 + 0)) <= 2)%R). { rewrite <- (sqrt_square 2) by lra. apply sqrt_le_1; lra. }
    rewrite !(Reqb_false _ 0) by lra. rewrite (Rltb_true 1 (sqrt (100 + (1 + 0)) / (4 + (5 + 0)))) by (apply lt_div; lra). rewrite (Rltb_false 1 (sqrt (1 + (1 + 0)) / (6 + (7 + 0)))) by (intros X; apply lt_div in X; lra).
    cbn. exists [0]. split; left; auto.
Qed.

(** One low bin, two axes: the report says two bins. *)
Theorem C97_count_refuted : exists w r c n l, plain w /\ debug_input_data w None = Some r /\ In (c, n, l) (low_data r) /\ n <> List.length l.
Proof.
  destruct C97_ex_low as (r & H & _ & L & _). exists (ex [5; - 6; 0]%R (fun _ => 1%R)), r, "a", 2, [0]. split; [apply ex_plain|]. split; auto. rewrite L. split; [left; auto|cbn; lia].
Qed.
(** A yield that +1 standard deviation divides by four and -1 multiplies by four is not reported. *)
Theorem C97_extreme_refuted : exists w r c j b p k, plain w /\ debug_input_data w None = Some r /\ in_channel w j c b /\ (0 < w_norm w b p)%R /\
  varied w 1 b p k = (w_norm w b p / 4)%R /\ varied w (-1) b p k = (4 * w_norm w b p)%R /\ extreme r = [].
Proof.
  set (w := ex [5; 7; 1]%R (fun k => match k with 0 => - ln 4 | _ => 0 end)%R). assert (P : plain w) by apply ex_plain. exists w. eexists. exists "a", 0, 1, 0, 0. split; auto. assert (R : debug_input_data w None = Some (full_report w (build w 0 (w_channels w)) (listed w None))) by apply ex_report. split; [exact R|].
  assert (EX : exp (ln 4) = 4%R) by (apply exp_ln; lra). assert (EY : exp (- ln 4) = (/ 4)%R) by (rewrite exp_Ropp, EX; auto).
  assert (V1 : varied w 1 1 0 0 = (w_norm w 1 0 / 4)%R). { unfold varied, logk. cbn. replace (1 * - ln 4 + 0)%R with (- ln 4)%R by lra. rewrite EY. auto. }
  assert (V2 : varied w (-1) 1 0 0 = (4 * w_norm w 1 0)%R). { unfold varied, logk. cbn. replace (-1 * - ln 4 + 0)%R with (ln 4)%R by lra. rewrite EX. lra. }
  split; [eexists; split; [reflexivity|cbn; lia]|]. split; [cbn; lra|]. split; auto. split; auto.
  match goal with |- ?L = [] => destruct L as [|[c l] rest] eqn:X; auto end. exfalso.
  assert (Q : exists s t, In (s, t) l).
  { assert (I : In (c, l) (extreme (full_report w (build w 0 (w_channels w)) (listed w None)))) by (rewrite X; left; auto). cbn [extreme full_report] in I. unfold c6 in I. apply in_flat_map in I as (h & _ & Y). cbv zeta in Y.
    match type of Y with In _ (if is_nil ?L then _ else _) => destruct L as [|[s t] L'] eqn:Z; [destruct Y|] end. cbn [is_nil] in Y. destruct Y as [Y|[]]. injection Y as _ <-. exists s, t. left. auto. }
  destruct Q as (s & t & Q).
  assert (Y : exists l, In (c, l) (extreme (full_report w (build w 0 (w_channels w)) (listed w None))) /\ In (s, t) l) by (exists l; split; auto; rewrite X; left; auto).
  apply (C97_extreme w None _ c s t P R) in Y as (_ & j & b & p & k & _ & _ & _ & G & Y).
  assert (Z : w_avg w b p k = 0%R \/ (b = 1 /\ p = 0 /\ k = 0)) by (destruct b as [|[|b]], p as [|[|p]], k as [|[|[|k]]]; cbn; auto).
  destruct Z as [Z|(-> & -> & ->)]; [|rewrite V1, V2 in Y; lra].
  unfold varied, logk in Y. cbn [w_type w_symmetric ex w] in Y. change (w_type w) with LogNormal in Y. change (w_symmetric w) with true in Y. rewrite Z in Y. cbv iota in Y. rewrite !Rmult_0_r, !Rplus_0_r, exp_0 in Y. lra.
Qed.
(** A bin with a negative prediction is never reported as uncertain. *)
Theorem C97_negative_refuted : exists w r, plain w /\ debug_input_data w None = Some r /\ (forall b, in_channel w 0 "a" b -> total_var w b = 101%R /\ total_yield w b = (-1)%R) /\ (exists b, in_channel w 0 "a" b) /\ high_unc r = [].
Proof.
  set (w := mkIn [("a", mkChan [(2, 2)] false false)] ["s"] [] false true LogNormal (fun _ => 1%R) (fun _ _ => (-1)%R) (fun _ _ => 101%R) (fun _ _ _ => 0%R) (fun _ _ _ => 0%R)).
  assert (P : plain w) by (split; [repeat constructor; cbn; intuition discriminate|repeat constructor]).
  exists w. eexists. split; auto. split; [reflexivity|]. split; [intros b _; unfold total_var, total_yield; cbn; lra|]. split; [exists 0; eexists; split; [reflexivity|cbn; lia]|].
  match goal with |- ?L = [] => destruct L as [|[[c n] l] rest] eqn:X; auto end. exfalso.
  destruct (C97_high_unc w None _ P eq_refl) as [S _]. destruct (S c n l) as (_ & _ & _ & NE & j & Y); [rewrite X; left; auto|]. destruct l as [|b l]; [contradiction|]. destruct (proj1 (Y b) (or_introl eq_refl)) as [_ Z].
  unfold total_yield in Z. cbn in Z. lra.
Qed.
(** A channel stored with underflow and overflow shifts the histograms of the channels after it: the second channel has data, yet it is reported as empty. *)
Theorem C97_flow_refuted : exists w r, debug_input_data w None = Some r /\ (forall b, in_channel w 1 "b" b -> w_obs w b = 50%R) /\ (exists b, in_channel w 1 "b" b) /\ In "b" (empty_data r).
Proof.
  set (w := mkIn [("a", mkChan [(2, 4)] true false); ("b", mkChan [(1, 1)] false false)] ["s"] [] false true LogNormal (fun b => match b with 4 => 50%R | 2 => 0%R | _ => 1%R end) (fun _ _ => 1%R) (fun _ _ => 1%R) (fun _ _ _ => 0%R) (fun _ _ _ => 0%R)).
  exists w. eexists. split; [reflexivity|]. split; [|split].
  - intros b (ch & E & L). cbn in E. injection E as <-. cbn in L. assert (b = 4) by lia. subst. reflexivity.
  - exists 4. eexists. split; [reflexivity|cbn; lia].
  - cbn [empty_data full_report]. unfold c2. apply in_map_iff. exists ("b", (hists_of w 2 (mkChan [(1, 1)] false false), fun b => w_obs w (2 + b))). split; auto. apply filter_In. split; [|cbn; apply Reqb_true; lra]. right. left. reflexivity.
Qed.
(** Channels that are not in the file can be asked for: then nothing is checked and the report has no issue for channels. *)
Theorem C97_unknown_refuted : exists w r b, plain w /\ debug_input_data w (Some ["A"]) = Some r /\ in_channel w 0 "a" b /\ w_obs w b = 0%R /\ total_yield w b = 0%R /\
  no_data r = [] /\ empty_data r = [] /\ low_data r = [] /\ low_yield r = [] /\ high_unc r = [] /\ zero_norm r = [] /\ extreme r = [].
Proof.
  exists (mkIn [("a", mkChan [(1, 1)] false false)] ["s"] [] false true LogNormal (fun _ => 0%R) (fun _ _ => 0%R) (fun _ _ => 1%R) (fun _ _ _ => 0%R) (fun _ _ _ => 0%R)).
  eexists. exists 0. split; [split; [repeat constructor; cbn; intuition discriminate|repeat constructor]|]. split; [reflexivity|]. split; [eexists; split; [reflexivity|cbn; lia]|]. split; [reflexivity|]. split; [unfold total_yield; cbn; lra|]. repeat split.
Qed.

Print Assumptions C97_dense.
Print Assumptions C97_issues.
Print Assumptions C97_zero_systs.
Print Assumptions C97_still_procs.
Print Assumptions C97_empty_data.
Print Assumptions C97_zero_norm.
Print Assumptions C97_low_yield.
Print Assumptions C97_high_unc.
Print Assumptions C97_low_data.
Print Assumptions C97_extreme.
Print Assumptions C97_no_data.
Print Assumptions C97_option.
Print Assumptions C97_count_refuted.
Print Assumptions C97_extreme_refuted.
Print Assumptions C97_negative_refuted.
Print Assumptions C97_flow_refuted.
Print Assumptions C97_unknown_refuted.
