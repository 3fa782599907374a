(** Properties of the yield prediction (C06, C08, C09, C59, C60). *)
From Coq Require Import List Arith Bool String Reals ZArith Lra Lia Permutation.
From Verif Require Import PyList ListUtil RBase Num PyDict Writer_Model Writer_Spec Writer_Layout Writer_Meta Writer_Inv
  Writer_Tensor Writer_Hist Writer_Denote Writer_Master Writer_Effects Writer_Accept
  Yields_Model Yields_Spec Yields_Proof Yields_Smooth Yields_Equiv.
Import ListNotations.
Local Open Scope R_scope.
Local Open Scope string_scope.
Local Open Scope list_scope.

(** *** a concrete script: two channels (one masked), two processes, an asymmetric and a
    normalisation systematic *)
Definition kw0 := mkKw false true None.
Definition ex_gen {V} (f : Z -> V) : list (op V) :=
  [ AddChannel (Some "gen") [(1, 1)]%nat true false;
    AddChannel (Some "sig") [(2, 2)]%nat false false;
    AddData "sig" [f 5; f 6]%Z [f 5; f 6]%Z;
    AddProcess (HDense [f 2; f 4]%Z [f 2; f 4]%Z) "z" "sig" true None;
    AddProcess (HDense [f 1; f 1]%Z [f 1; f 1]%Z) "bkg" "sig" false None;
    AddProcess (HDense [f 3]%Z [f 3]%Z) "z" "gen" true None;
    AddSystematic (SPair (HDense [f 3; f 5]%Z []) (HDense [f 1; f 2]%Z [])) "shape" "z" "sig" (f 1%Z) true NoSym false kw0;
    AddNormSystematic "lumi" ["z"; "bkg"] "sig" [UScalar (f 2%Z); UScalar (f 3%Z)] Conservative kw0 ].
Definition exR := ex_gen IZR.
(** integers without a non-finite value *)
Definition Num_Zf : Num Z := {|
  n0 := 0%Z; n1 := 1%Z; nhalf := 1%Z; nsqrt3 := 1%Z;
  nadd := Z.add; nsub := Z.sub; nmul := Z.mul; ndiv := Z.div; nopp := Z.opp;
  nabs := Z.abs; nlt := Z.ltb; neq0 := Z.eqb 0; nfinite := fun _ => true;
  nln := fun x => x; nexp := fun x => x; nlogeps := 1%Z |}.
#[local] Existing Instance Num_Zf.

Lemma ex_sim : Forall2 op_sim (ex_gen (fun z => z)) exR.
Proof.
  repeat constructor; cbn -[IZR]; rewrite ?Rltb_false by lra; reflexivity.
Qed.
Lemma exR_clean : clean exR.
Proof.
  split. { repeat constructor; simpl; try lia. }
  split. { repeat constructor; simpl; discriminate. }
  split. { repeat constructor; simpl; intuition discriminate. }
  intros s [(kw & A & B) (kw' & C & D)]. simpl in A, C. destruct A as [A|[A|[]]]; injection A as <- <-; destruct C as [C|[C|[]]]; try discriminate; injection C as <-; discriminate.
Qed.
Lemma exR_written : forall cfg, exists w, written cfg exR w /\
  w_procs w = ["z"; "bkg"] /\ w_systs w = ["lumi"; "shape"] /\
  reader_ranges 0 (w_channels w) = [("sig", (0, 2)); ("gen", (2, 3))]%nat /\ w_nbins w = 2%nat /\ w_nbinsfull w = 3%nat.
Proof.
  intros cfg.
  assert (Z : exists w, written (mkCfg false LogNormal false) (ex_gen (fun z => z)) w /\
    (w_procs w, w_systs w, reader_ranges 0 (w_channels w), w_nbins w, w_nbinsfull w) =
    (["z"; "bkg"], ["lumi"; "shape"], [("sig", (0, 2)); ("gen", (2, 3))], 2, 3)%nat).
  { apply (observe_written _ _ (fun w => (w_procs w, w_systs w, reader_ranges 0 (w_channels w), w_nbins w, w_nbinsfull w))).
    vm_compute. reflexivity. }
  destruct Z as (w1 & W1 & E). repeat (apply pair_equal_spec in E; let X := fresh in destruct E as [E X]).
  rename E into E1, H2 into E2, H1 into E3, H0 into E4, H into E5.
  assert (F1 : forall v : Z, nfinite v = true) by reflexivity.
  assert (F2 : forall v : R, nfinite v = true) by reflexivity.
  destruct (written_sim F1 F2 _ cfg _ _ w1 ex_sim exR_clean W1)
    as (w & W & H1 & H2 & H3 & H4 & H5).
  exists w. rewrite <- H1, <- H2, <- H3, <- H4, <- H5.
  exact (conj W (conj E1 (conj E2 (conj E3 (conj E4 E5))))).
Qed.

(** *** C08: the interpolation weight *)
Theorem C08_smooth_switch : forall th,
  alpha (- th) = - alpha th /\ -1 <= alpha th <= 1 /\
  (forall th', th <= th' -> alpha th <= alpha th') /\
  (1/2 <= th -> alpha th = 1) /\ (th <= -1/2 -> alpha th = -1) /\
  (exists f' f'', (forall x, derivable_pt_lim alpha x (f' x)) /\ (forall x, derivable_pt_lim f' x (f'' x)) /\
     (forall x, continuity_pt f'' x) /\ f' (1/2) = 0 /\ f'' (1/2) = 0 /\ f' (-1/2) = 0 /\ f'' (-1/2) = 0).
Proof.
  intros th. rewrite !alpha_switch. split; [apply switch_odd|]. split; [apply switch_bounds|].
  split. { intros th' H. rewrite alpha_switch. apply switch_mono. auto. }
  split; [apply switch_hi|]. split; [apply switch_lo|].
  exists (clamp 0 0 poly1), (clamp 0 0 poly2).
  split. { intros x. apply (derivable_pt_lim_ext switch). { intros; symmetry; apply alpha_switch. } apply switch_d. }
  split; [apply switch_d2|].
  split. { apply clamp0_cont; [apply poly2_cont| |]; unfold poly2; field. }
  unfold clamp. destruct (Rleb_spec (1/2) (1/2)); [|lra]. destruct (Rleb_spec (1/2) (-1/2)); [lra|].
  destruct (Rleb_spec (-1/2) (-1/2)); lra.
Qed.
Print Assumptions C08_smooth_switch.
Example C08_example : alpha (1/4) = 203/256 /\ alpha (-1/4) = -203/256 /\ alpha 3 = 1.
Proof.
  rewrite !alpha_switch. split; [|split].
  - unfold switch. destruct (Rleb_spec (1/2) (1/4)); [lra|]. destruct (Rleb_spec (1/4) (-1/2)); lra.
  - unfold switch. destruct (Rleb_spec (1/2) (-1/4)); [lra|]. destruct (Rleb_spec (-1/4) (-1/2)); lra.
  - apply switch_hi. lra.
Qed.
(** beyond half a sigma the variation follows the up or the down slope *)
Theorem C08_saturated_slope : forall th avg half,
  (1/2 <= th -> th * avg + th * alpha th * half = th * (avg + half)) /\
  (th <= -1/2 -> th * avg + th * alpha th * half = - th * (half - avg)).
Proof. intros th avg half. rewrite alpha_switch. split; intros H; rewrite ?switch_hi, ?switch_lo by auto; ring. Qed.
Print Assumptions C08_saturated_slope.

(** *** C59: the documented prediction *)
Theorem C59_prediction : forall cfg ops w np rinit t r th (full : bool) nexp nc,
  written cfg ops w -> clean ops -> List.length th = List.length (w_systs w) ->
  scale_logk (indata_of w) np rinit = Ok t ->
  yields (indata_of w) t r th full = Ok (nexp, nc) ->
  let r0 b p := if Nat.eqb np 0 then 1 else rn_bcast rinit b p in
  let nb := if full then w_nbinsfull w else w_nbins w in
  List.length nexp = nb /\
  (forall c p i b ip, at_point w c p i b ip -> (b < nb)%nat ->
     nc b ip = prediction cfg ops (w_systs w) (rn_bcast r b ip) (r0 b ip) th c p i) /\
  (forall b, (b < nb)%nat -> nth b nexp 0 = sum_n (List.length (w_procs w)) (nc b)).
Proof. exact yields_prediction. Qed.
Print Assumptions C59_prediction.

Lemma variation_zero n th avg half : (forall s, (s < n)%nat -> th s = 0) -> variation n th avg half = 0.
Proof.
  intros H. unfold variation. rewrite (sumR_map_ext _ (fun _ => 0)). { apply sumR_map_0. }
  intros s Hs. apply in_seq in Hs. rewrite H by lia. ring.
Qed.
(** default parameters (scale factors one, nuisances zero) reproduce the nominal templates *)
Theorem C59_default_is_nominal : forall cfg ops w np rinit t th (full : bool) nexp nc,
  written cfg ops w -> clean ops -> List.length th = List.length (w_systs w) -> (forall x, In x th -> x = 0) ->
  scale_logk (indata_of w) np rinit = Ok t ->
  yields (indata_of w) t (RBroadcast (fun _ => 1)) th full = Ok (nexp, nc) ->
  forall c p i b ip, at_point w c p i b ip -> (b < if full then w_nbinsfull w else w_nbins w)%nat ->
    nc b ip = spec_norm (c_allowneg cfg) ops c p i.
Proof.
  intros cfg ops w np rinit t th full nexp nc W C L Z S Y c p i b ip P B.
  destruct (yields_prediction _ _ _ _ _ _ _ _ _ _ _ W C L S Y) as (_ & H & _).
  rewrite (H c p i b ip P B). unfold prediction.
  rewrite variation_zero.
  - destruct (c_type cfg); unfold predict_lognormal, predict_normal; simpl; rewrite ?exp_0; ring.
  - intros s Hs. apply Z. apply nth_In. rewrite L. auto.
Qed.
Print Assumptions C59_default_is_nominal.

(** log-normal example: z in the first bin of "sig" with lumi = 1, shape = -1, scale factor 7:
    7 * 2 * exp(1 * ln 2 + ln(1/2)) *)
Example C59_example : exists w t nexp nc,
  written (mkCfg true LogNormal false) exR w /\ clean exR /\
  scale_logk (indata_of w) 1 (RBroadcast (fun _ => 1)) = Ok t /\
  yields (indata_of w) t (RBroadcast (fun p => if Nat.eqb p 0 then 7 else 1)) [1; -1] false = Ok (nexp, nc) /\
  at_point w "sig" "z" 0 0 0 /\ nc 0%nat 0%nat = 14 /\ List.length nexp = 2%nat.
Proof.
  destruct (exR_written (mkCfg true LogNormal false)) as (w & W & E1 & E2 & E3 & E4 & E5).
  exists w, (w_tensors w).
  destruct (yields_ok (indata_of w) (w_tensors w) (fun p => if Nat.eqb p 0 then 7 else 1) [1; -1] false) as [[nexp nc] Y].
  assert (S : scale_logk (indata_of w) 1 (RBroadcast (fun _ => 1)) = Ok (w_tensors w)).
  { unfold scale_logk. assert (T : in_type (indata_of w) = LogNormal).
    { simpl. destruct W as (st & _ & W). apply write_fields in W. intuition. }
    rewrite T. auto. }
  assert (AP : at_point w "sig" "z" 0 0 0).
  { exists 0%nat, 2%nat. rewrite E3, E1. simpl. repeat split; auto; lia. }
  exists nexp, nc. split; auto. split; [exact exR_clean|]. split; auto. split; auto. split; auto.
  assert (LT : List.length [1; -1] = List.length (w_systs w)) by (rewrite E2; reflexivity).
  destruct (yields_prediction _ _ _ _ _ _ _ _ _ _ _ W exR_clean LT S Y) as (L & H & _).
  split; [|rewrite L; auto].
  rewrite (H _ _ _ _ _ AP) by (rewrite E4; lia). rewrite E2. unfold prediction. cbn -[IZR exp ln switch].
  unfold variation, predict_lognormal. cbn -[IZR exp ln switch Rltb Reqb].
  unfold spec_avg, spec_half, spec_norm. cbn -[IZR exp ln switch Rltb Reqb].
  unfold tmpl_eff, norm_eff, stored. cbn -[IZR exp ln switch Rltb Reqb].
  assert (Q1 : Reqb 2 0 = false) by (destruct (Reqb_spec 2 0); auto; lra).
  rewrite !(Rltb_false 2 0) by lra. rewrite Q1.
  rewrite !Rltb_true by lra. rewrite (switch_hi 1) by lra. rewrite (switch_lo (-1)) by lra.
  replace (2 * 2 / 2) with 2 by field.
  replace (1 / 2) with (/ 2) by field. rewrite !ln_Rinv by lra.
  match goal with |- _ * exp ?e = _ => replace e with 0 by field end.
  rewrite exp_0. ring.
Qed.

(** *** C06: templates are reproduced *)
Definition one_hot (n k : nat) (x : R) : list R := map (fun j => if Nat.eqb j k then x else 0) (seq 0 n).
Lemma one_hot_nth n k x s : (s < n)%nat -> nth s (one_hot n k x) 0 = if Nat.eqb s k then x else 0.
Proof.
  intros H. unfold one_hot. rewrite (nth_indep _ 0 (if Nat.eqb 0 k then x else 0)) by (rewrite map_length, seq_length; auto).
  rewrite (map_nth (fun j => if Nat.eqb j k then x else 0)), seq_nth by auto. auto.
Qed.
Lemma variation_one n k x avg half : (k < n)%nat ->
  variation n (fun s => nth s (one_hot n k x) 0) avg half = x * avg k + x * switch x * half k.
Proof.
  intros K. unfold variation. fold (sum_n n (fun s => nth s (one_hot n k x) 0 * avg s +
    nth s (one_hot n k x) 0 * switch (nth s (one_hot n k x) 0) * half s)).
  rewrite (sum_n_single n k); auto.
  - rewrite one_hot_nth, Nat.eqb_refl by auto. auto.
  - intros i Hi N. rewrite one_hot_nth by auto. destruct (Nat.eqb_spec i k); [contradiction|]. ring.
Qed.
Lemma nth_error_some_nth (l : list string) k n : nth_error l k = Some n -> nth k l "" = n.
Proof. intros H. apply nth_error_nth. auto. Qed.

Theorem C06_templates_reproduced : forall cfg ops w c p i b ip u d n mi kw k np rinit t r x (full : bool) nexp nc,
  written cfg ops w -> clean ops -> at_point w c p i b ip -> (b < if full then w_nbinsfull w else w_nbins w)%nat ->
  let nom := spec_norm (c_allowneg cfg) ops c p i in
  nom <> 0 ->
  (c_type cfg = LogNormal -> 0 < nom * hist_at u i /\ 0 < nom * hist_at d i) ->
  nth_error (w_systs w) k = Some n ->
  last_booking (op_avg c p n) ops (AddSystematic (SPair u d) n p c 1 mi NoSym false kw) ->
  scale_logk (indata_of w) np rinit = Ok t ->
  yields (indata_of w) t r (one_hot (List.length (w_systs w)) k x) full = Ok (nexp, nc) ->
  (c_type cfg = Normal -> rn_bcast r b ip = if Nat.eqb np 0 then 1 else rn_bcast rinit b ip) ->
  (x = 1 -> nc b ip = rn_bcast r b ip * hist_at u i) /\
  (x = -1 -> nc b ip = rn_bcast r b ip * hist_at d i) /\
  (x = 0 -> nc b ip = rn_bcast r b ip * nom).
Proof.
  intros cfg ops w c p i b ip u d n mi kw k np rinit t r x full nexp nc W C P B nom NZ SG K L S Y RI.
  assert (LH : List.length (one_hot (List.length (w_systs w)) k x) = List.length (w_systs w)).
  { unfold one_hot. rewrite map_length, seq_length. auto. }
  destruct (yields_prediction _ _ _ _ _ _ _ _ _ _ _ W C LH S Y) as (_ & H & _).
  rewrite (H c p i b ip P B). unfold prediction.
  assert (KL : (k < List.length (w_systs w))%nat) by (apply nth_error_Some; congruence).
  rewrite variation_one by auto. rewrite (nth_error_some_nth _ _ _ K). fold nom.
  destruct (view_point cfg ops w c p i b ip W C P) as (_ & _ & _ & V). destruct (V k n K) as [V1 V2].
  destruct (mode_none cfg ops w W C c p i b ip P NZ u d n 1 mi false kw k K L) as (SY & M1 & M2).
  rewrite V1 in M1, M2. rewrite (V2 SY) in M1, M2. fold nom in M1, M2.
  set (A := spec_avg cfg ops c p n i) in *. set (HF := spec_half cfg ops c p n i) in *.
  assert (E1 : 1 * A + 1 * switch 1 * HF = A + HF) by (rewrite switch_hi by lra; ring).
  assert (E2 : -1 * A + -1 * switch (-1) * HF = HF - A) by (rewrite switch_lo by lra; ring).
  unfold tmpl_eff in M1, M2. cbv beta iota in M1, M2.
  destruct (c_type cfg) eqn:T.
  - destruct (SG eq_refl) as [G1 G2]. cbn -[Rltb ln] in M1, M2. fold nom in M1, M2.
    rewrite Rltb_true in M1, M2 by auto.
    assert (EX : forall y, 0 < nom * y -> nom * exp (1 * ln (y / nom)) = y).
    { intros y Hy. rewrite Rmult_1_l, exp_ln. { field. auto. }
      replace (y / nom) with (nom * y * / (nom * nom)) by (field; auto).
      apply Rmult_lt_0_compat; auto. apply Rinv_0_lt_compat. destruct (Rtotal_order nom 0) as [|[|]]; [|contradiction|]; nra. }
    unfold predict_lognormal. split; [|split]; intros ->.
    + rewrite E1, M1, Rmult_assoc, EX by auto. auto.
    + rewrite E2, M2, Rmult_assoc, EX by auto. auto.
    + replace (0 * A + 0 * switch 0 * HF) with 0 by ring. rewrite exp_0. ring.
  - cbn in M1, M2. fold nom in M1, M2. unfold predict_normal. rewrite <- (RI eq_refl). split; [|split]; intros ->.
    + rewrite E1, M1. ring.
    + rewrite E2, M2. ring.
    + ring.
Qed.
Print Assumptions C06_templates_reproduced.

Example C06_example : forall ty, exists w t nexp nc, let cfg := mkCfg false ty false in
  written cfg exR w /\ scale_logk (indata_of w) 1 (RBroadcast (fun _ => 2)) = Ok t /\
  yields (indata_of w) t (RBroadcast (fun _ => 2)) [0; 1] false = Ok (nexp, nc) /\
  nc 0%nat 0%nat = 2 * 3 /\ nc 1%nat 0%nat = 2 * 5.
Proof.
  intros ty. destruct (exR_written (mkCfg false ty false)) as (w & W & E1 & E2 & E3 & E4 & E5).
  destruct (scale_ok (indata_of w) 1 (fun _ => 2)) as [t S].
  destruct (yields_ok (indata_of w) t (fun _ => 2) [0; 1] false) as [[nexp nc] Y].
  exists w, t, nexp, nc. cbv zeta. split; auto. split; auto. split; auto.
  assert (LB : last_booking (op_avg "sig" "z" "shape") exR
    (AddSystematic (SPair (HDense [IZR 3; IZR 5]%Z []) (HDense [IZR 1; IZR 2]%Z [])) "shape" "z" "sig" (IZR 1) true NoSym false kw0)).
  { exists (firstn 6 exR), (skipn 7 exR). split; [reflexivity|]. repeat constructor. }
  assert (AP : forall i, (i < 2)%nat -> at_point w "sig" "z" i i 0).
  { intros i Hi. exists 0%nat, 2%nat. rewrite E3, E1. simpl. repeat split; auto; lia. }
  assert (NM : forall i, spec_norm false exR "sig" "z" i = if Rltb (nth i [2; 4] 0) 0 then 0 else nth i [2; 4] 0) by reflexivity.
  assert (OH : [0; 1] = one_hot (List.length (w_systs w)) 1 1) by (rewrite E2; reflexivity).
  rewrite OH in Y.
  assert (K : nth_error (w_systs w) 1 = Some "shape") by (rewrite E2; auto).
  assert (N0 : spec_norm false exR "sig" "z" 0 = 2) by (rewrite NM; simpl; rewrite Rltb_false by lra; auto).
  assert (N1 : spec_norm false exR "sig" "z" 1 = 4) by (rewrite NM; simpl; rewrite Rltb_false by lra; auto).
  assert (B0 : (0 < w_nbins w)%nat) by (rewrite E4; lia). assert (B1 : (1 < w_nbins w)%nat) by (rewrite E4; lia).
  split.
  - assert (NZ : spec_norm false exR "sig" "z" 0 <> 0) by (rewrite N0; lra).
    assert (SG : ty = LogNormal -> 0 < spec_norm false exR "sig" "z" 0 * hist_at (HDense [IZR 3; IZR 5]%Z []) 0 /\
      0 < spec_norm false exR "sig" "z" 0 * hist_at (HDense [IZR 1; IZR 2]%Z []) 0) by (intros _; rewrite N0; simpl; lra).
    destruct (C06_templates_reproduced (mkCfg false ty false) exR w "sig" "z" 0 0 0 _ _ "shape" true kw0 1 1 _ _ _ 1 false nexp nc
      W exR_clean (AP 0%nat ltac:(lia)) B0 NZ SG K LB S Y ltac:(intros _; reflexivity)) as (H & _).
    rewrite (H eq_refl). simpl. ring.
  - assert (NZ : spec_norm false exR "sig" "z" 1 <> 0) by (rewrite N1; lra).
    assert (SG : ty = LogNormal -> 0 < spec_norm false exR "sig" "z" 1 * hist_at (HDense [IZR 3; IZR 5]%Z []) 1 /\
      0 < spec_norm false exR "sig" "z" 1 * hist_at (HDense [IZR 1; IZR 2]%Z []) 1) by (intros _; rewrite N1; simpl; lra).
    destruct (C06_templates_reproduced (mkCfg false ty false) exR w "sig" "z" 1 1 0 _ _ "shape" true kw0 1 1 _ _ _ 1 false nexp nc
      W exR_clean (AP 1%nat ltac:(lia)) B1 NZ SG K LB S Y ltac:(intros _; reflexivity)) as (H & _).
    rewrite (H eq_refl). simpl. ring.
Qed.

(** *** C09: sparse and dense files predict the same *)
Theorem C09_same_yields : forall cfg1 cfg2 ops w1 w2 np rinit t1 t2 r th (full : bool) n1 nc1 n2 nc2,
  c_type cfg1 = c_type cfg2 -> c_allowneg cfg1 = c_allowneg cfg2 ->
  written cfg1 ops w1 -> written cfg2 ops w2 -> clean ops ->
  scale_logk (indata_of w1) np rinit = Ok t1 -> scale_logk (indata_of w2) np rinit = Ok t2 ->
  yields (indata_of w1) t1 r (map th (w_systs w1)) full = Ok (n1, nc1) ->
  yields (indata_of w2) t2 r (map th (w_systs w2)) full = Ok (n2, nc2) ->
  n1 = n2 /\
  forall b p, (b < List.length n1)%nat -> (p < List.length (w_procs w1))%nat -> nc1 b p = nc2 b p.
Proof.
  intros cfg1 cfg2 ops w1 w2 np rinit t1 t2 r th full n1 nc1 n2 nc2 ET EA W1 W2 C S1 S2 Y1 Y2.
  assert (SA : same_axes w1 w2).
  { apply (files_same_axes cfg1 cfg2 ops ops); auto; intros; tauto. }
  assert (AG : forall c, True -> Forall2 (agree_on c) ops ops).
  { intros c _. induction ops; constructor; auto.
    - repeat split; auto.
    - clear. induction ops; constructor; auto. repeat split; auto. }
  destruct (same_prediction cfg1 cfg2 ops ops w1 w2 np rinit t1 t2 r th full n1 nc1 n2 nc2 (fun _ => True)
    ET EA W1 W2 C C SA AG S1 S2 Y1 Y2) as [L H].
  split.
  - apply (nth_ext n1 n2 0 0); auto. intros b Hb. apply H; auto.
  - intros b p Hb Hp. apply H; auto.
Qed.
Print Assumptions C09_same_yields.
(** scale factors that do not depend on the bin never make the computation fail, and a script
    with dense histograms that is accepted in one mode is accepted in the other *)
Theorem C09_both_available : forall cfg1 cfg2 ops w1, Forall dense_op ops -> clean ops -> written cfg1 ops w1 ->
  exists w2, written cfg2 ops w2 /\ forall np f0 f th full,
    exists t1 t2 y1 y2, scale_logk (indata_of w1) np (RBroadcast f0) = Ok t1 /\
      scale_logk (indata_of w2) np (RBroadcast f0) = Ok t2 /\
      yields (indata_of w1) t1 (RBroadcast f) (map th (w_systs w1)) full = Ok y1 /\
      yields (indata_of w2) t2 (RBroadcast f) (map th (w_systs w2)) full = Ok y2.
Proof.
  intros cfg1 cfg2 ops w1 D C W1. destruct (dense_scripts_both cfg1 cfg2 ops D C (ex_intro _ w1 W1)) as [w2 W2].
  exists w2. split; auto. intros np f0 f th full.
  destruct (scale_ok (indata_of w1) np f0) as [t1 S1]. destruct (scale_ok (indata_of w2) np f0) as [t2 S2].
  destruct (yields_ok (indata_of w1) t1 f (map th (w_systs w1)) full) as [y1 Y1].
  destruct (yields_ok (indata_of w2) t2 f (map th (w_systs w2)) full) as [y2 Y2].
  exists t1, t2, y1, y2. auto.
Qed.
Print Assumptions C09_both_available.
Example C09_example : clean exR /\ Forall dense_op exR /\
  (exists w, written (mkCfg true Normal false) exR w) /\ (exists w, written (mkCfg false Normal false) exR w).
Proof.
  split; [exact exR_clean|]. split; [repeat constructor|].
  split; match goal with |- exists w, written ?c _ w => destruct (exR_written c) as (w & W & _) end; eauto.
Qed.
(** scale factors per bin of the fit region: in the presence of masked channels the dense model
    works, the sparse one fails (fitter.py multiplies before slicing) *)
Theorem C09_per_bin_masked_refuted : exists ops w1 w2 r th y1,
  clean ops /\ written (mkCfg false LogNormal false) ops w1 /\ written (mkCfg true LogNormal false) ops w2 /\
  yields (indata_of w1) (w_tensors w1) r th false = Ok y1 /\
  yields (indata_of w2) (w_tensors w2) r th false = Raise ValueError.
Proof.
  destruct (exR_written (mkCfg false LogNormal false)) as (w1 & W1 & _ & _ & _ & A4 & A5).
  destruct (exR_written (mkCfg true LogNormal false)) as (w2 & W2 & _ & _ & _ & B4 & B5).
  destruct (yields (indata_of w1) (w_tensors w1) (RBins 2 (fun _ _ => 1)) [0; 0] false) as [y1|e] eqn:Y.
  - exists exR, w1, w2, (RBins 2 (fun _ _ => 1)), [0; 0], y1. split; [exact exR_clean|].
    split; auto. split; auto. split; auto.
    unfold yields. destruct W2 as (st & _ & W2). apply write_fields in W2.
    destruct (w_tensors w2) as [nn kk|sp] eqn:T.
    + destruct W2 as (_ & _ & _ & _ & _ & _ & _ & _ & _ & _ & _ & _ & _ & _ & _ & _ & _ & _ & _ & SP & _). discriminate.
    + simpl. rewrite B5. reflexivity.
  - exfalso. unfold yields in Y. destruct W1 as (st & _ & W1). apply write_fields in W1.
    destruct (w_tensors w1) as [nn kk|sp] eqn:T.
    + simpl in Y. rewrite A4, A5 in Y. simpl in Y. discriminate.
    + destruct W1 as (_ & _ & _ & _ & _ & _ & _ & _ & _ & _ & _ & _ & _ & _ & _ & _ & _ & _ & _ & SP & _). discriminate.
Qed.
Print Assumptions C09_per_bin_masked_refuted.

(** *** C60: the content of masked channels does not reach the unmasked bins *)
(** [o2] is [o1], or a declaration of the same names with other numbers in a channel of [M] *)
Definition chan_of (o : op R) : option string :=
  match o with
  | AddChannel _ _ _ _ => None
  | AddProcess _ _ c _ _ => Some c
  | AddData c _ _ => Some c
  | AddPseudodata _ c _ => Some c
  | AddSystematic _ _ _ c _ _ _ _ _ => Some c
  | AddNormSystematic _ _ c _ _ _ => Some c
  end.
Definition same_outside (M : string -> Prop) (o1 o2 : op R) : Prop :=
  o1 = o2 \/ (exists c, M c /\ chan_of o1 = Some c /\ chan_of o2 = Some c /\
    proc_decls [o1] = proc_decls [o2] /\ syst_decls o1 = syst_decls o2).
Lemma outside_none c c' (o : op R) : chan_of o = Some c' -> c <> c' ->
  (forall p, op_proc c p o = None) /\ (forall p s, op_avg c p s o = None) /\ (forall p s, op_half c p s o = None).
Proof.
  intros H N. apply String.eqb_neq in N.
  destruct o; simpl in *; try discriminate; injection H as ->; repeat split; auto; intros; rewrite ?N; simpl; auto.
  destruct h; auto. destruct m; auto.
Qed.
Lemma outside_agree M ops1 ops2 : Forall2 (same_outside M) ops1 ops2 ->
  (forall c, ~ M c -> Forall2 (agree_on c) ops1 ops2) /\
  chan_decls [] ops1 = chan_decls [] ops2 /\ proc_decls ops1 = proc_decls ops2 /\ all_systs ops1 = all_systs ops2.
Proof.
  intros F. split; [|split; [|split]].
  - intros c Hc. induction F as [|o1 o2 l1 l2 H F IH]; constructor; auto.
    destruct H as [->|(c' & M' & A & B & _)]; [repeat split; auto|].
    assert (c <> c') by congruence.
    destruct (outside_none c c' o1 A H) as (X1 & X2 & X3). destruct (outside_none c c' o2 B H) as (X4 & X5 & X6).
    repeat split; intros; congruence.
  - generalize (@nil string) as seen. induction F as [|o1 o2 l1 l2 H F IH]; intros seen; auto.
    destruct H as [->|(c' & M' & A & B & _)].
    + destruct o2; simpl; rewrite ?IH; auto.
    + destruct o1; simpl in A; try discriminate; destruct o2; simpl in B; try discriminate; simpl; auto.
  - induction F as [|o1 o2 l1 l2 H F IH]; auto. destruct H as [->|(c' & _ & _ & _ & P & _)].
    + unfold proc_decls in *. simpl. rewrite IH. auto.
    + unfold proc_decls in *. simpl in *. rewrite !app_nil_r in P. rewrite P, IH. auto.
  - induction F as [|o1 o2 l1 l2 H F IH]; auto. unfold all_systs in *. simpl. rewrite IH.
    destruct H as [->|(c' & _ & _ & _ & _ & P)]; congruence.
Qed.
Lemma unmasked_bin cfg (ops : list (op R)) w c p i b ip : written cfg ops w -> clean ops ->
  at_point w c p i b ip -> (b < w_nbins w)%nat ->
  forall info, In (c, info) (chan_decls [] ops) -> ch_masked info = false.
Proof.
  intros (st & R & W) (C1 & C2 & C3 & C4) (s & e & P1 & P2 & -> & P3) B info H.
  destruct (layout_correct cfg ops st w R W (once_stable _ C3)) as (_ & _ & _ & (R1 & R2 & E & T1 & T2 & U & _) & _).
  rewrite E in P1. apply in_app_iff in P1. destruct P1 as [P1|P1].
  - apply (U c info); auto. apply in_map_iff. exists (c, (s, e)). auto.
  - exfalso. revert T2 P1 B P2. clear. generalize (w_nbins w) (w_nbinsfull w).
    intros a z T2 P1 B P2. revert a T2 B. induction R2 as [|[x [s0 e0]] r IH]; simpl in *; [contradiction|].
    intros a (-> & L & T) B. destruct P1 as [P1|P1].
    + injection P1 as -> <- ->. lia.
    + apply (IH P1 e0 T). lia.
Qed.
Theorem C60_masked_yields : forall cfg ops1 ops2 w1 w2 np rinit t1 t2 r th n1 nc1 n2 nc2,
  written cfg ops1 w1 -> written cfg ops2 w2 -> clean ops1 -> clean ops2 ->
  Forall2 (same_outside (fun c => exists info, In (c, info) (chan_decls [] ops1) /\ ch_masked info = true)) ops1 ops2 ->
  scale_logk (indata_of w1) np rinit = Ok t1 -> scale_logk (indata_of w2) np rinit = Ok t2 ->
  yields (indata_of w1) t1 r (map th (w_systs w1)) false = Ok (n1, nc1) ->
  yields (indata_of w2) t2 r (map th (w_systs w2)) false = Ok (n2, nc2) ->
  n1 = n2 /\ List.length n1 = w_nbins w1 /\
  forall b p, (b < w_nbins w1)%nat -> (p < List.length (w_procs w1))%nat -> nc1 b p = nc2 b p.
Proof.
  intros cfg ops1 ops2 w1 w2 np rinit t1 t2 r th n1 nc1 n2 nc2 W1 W2 C1 C2 F S1 S2 Y1 Y2.
  destruct (outside_agree _ _ _ F) as (AG & EC & EP & ES).
  assert (SA : same_axes w1 w2).
  { apply (files_same_axes cfg cfg ops1 ops2); auto.
    - intros; rewrite EP; tauto. - intros s. unfold declared. rewrite ES. tauto. }
  destruct (same_prediction cfg cfg ops1 ops2 w1 w2 np rinit t1 t2 r th false n1 nc1 n2 nc2 _
    eq_refl eq_refl W1 W2 C1 C2 SA AG S1 S2 Y1 Y2) as [L H].
  destruct (yields_prediction _ _ _ _ _ _ _ _ _ _ _ W1 C1 (map_length _ _) S1 Y1) as (L1 & _).
  cbv beta iota zeta in L1.
  assert (U : forall b, (b < w_nbins w1)%nat -> forall c p i ip, at_point w1 c p i b ip ->
    ~ (exists info, In (c, info) (chan_decls [] ops1) /\ ch_masked info = true)).
  { intros b Hb c p i ip P (info & I1 & I2). rewrite (unmasked_bin cfg ops1 w1 c p i b ip W1 C1 P Hb info I1) in I2. discriminate. }
  split; [|split; auto].
  - apply (nth_ext n1 n2 0 0); auto. intros b Hb. apply H; auto. apply U. lia.
  - intros b p Hb Hp. apply H; auto. lia. apply U. auto.
Qed.
Print Assumptions C60_masked_yields.
(** the example script with another template in the masked channel *)
Definition exM (v : R) : list (op R) :=
  map (fun o => match o with
       | AddProcess h "z" "gen" s vs => AddProcess (HDense [v] [v]) "z" "gen" s vs
       | o => o end) exR.
Lemma exM_written : forall cfg v, 0 <= v -> clean (exM v) /\ exists w, written cfg (exM v) w /\
  w_procs w = ["z"; "bkg"] /\ w_systs w = ["lumi"; "shape"] /\ w_nbins w = 2%nat.
Proof.
  intros cfg v Hv. destruct (exR_written cfg) as (w1 & W1 & E1 & E2 & E3 & E4 & E5).
  assert (F2 : forall v : R, nfinite v = true) by reflexivity.
  assert (C : clean (exM v)).
  { destruct exR_clean as (A1 & A2 & A3 & A4). split; [|split; [|split]].
    - repeat constructor; simpl; try lia. - repeat constructor; simpl; discriminate.
    - exact A3. - exact A4. }
  split; auto.
  assert (S : Forall2 op_sim exR (exM v)).
  { repeat constructor; cbn -[IZR]; rewrite ?Rltb_false by lra; reflexivity. }
  destruct (written_sim F2 F2 cfg cfg exR (exM v) w1 S C W1) as (w & W & H1 & H2 & H3 & H4 & H5).
  exists w. rewrite <- H1, <- H2, <- H4. exact (conj W (conj E1 (conj E2 E4))).
Qed.
Example C60_example : exists w1 w2 n1 nc1 n2 nc2, let cfg := mkCfg true LogNormal false in
  written cfg exR w1 /\ written cfg (exM 11) w2 /\ exR <> exM 11 /\
  yields (indata_of w1) (w_tensors w1) (RBroadcast (fun _ => 1)) (map (fun _ => 1) (w_systs w1)) false = Ok (n1, nc1) /\
  yields (indata_of w2) (w_tensors w2) (RBroadcast (fun _ => 1)) (map (fun _ => 1) (w_systs w2)) false = Ok (n2, nc2) /\
  n1 = n2 /\ List.length n1 = 2%nat.
Proof.
  set (cfg := mkCfg true LogNormal false).
  destruct (exR_written cfg) as (w1 & W1 & A1 & A2 & A3 & A4 & A5).
  destruct (exM_written cfg 11) as (C2 & w2 & W2 & B1 & B2 & B4); [lra|].
  assert (S : forall w ops, written cfg ops w -> scale_logk (indata_of w) 1 (RBroadcast (fun _ => 1)) = Ok (w_tensors w)).
  { intros w ops W. unfold scale_logk. assert (T : in_type (indata_of w) = LogNormal).
    { simpl. destruct W as (st & _ & W). apply write_fields in W. intuition. }
    rewrite T. auto. }
  destruct (yields_ok (indata_of w1) (w_tensors w1) (fun _ => 1) (map (fun _ => 1) (w_systs w1)) false) as [[n1 nc1] Y1].
  destruct (yields_ok (indata_of w2) (w_tensors w2) (fun _ => 1) (map (fun _ => 1) (w_systs w2)) false) as [[n2 nc2] Y2].
  exists w1, w2, n1, nc1, n2, nc2. cbv zeta. split; auto. split; auto. split.
  { intros E. apply (f_equal (fun l => nth 5 l (AddData "" [] []))) in E. simpl in E. injection E. intros; lra. }
  split; auto. split; auto.
  assert (M : exists info, In ("gen", info) (chan_decls [] exR) /\ ch_masked info = true).
  { exists (mkCh [(1, 1)]%nat true false). simpl. auto. }
  assert (F : Forall2 (same_outside (fun c => exists info, In (c, info) (chan_decls [] exR) /\ ch_masked info = true)) exR (exM 11)).
  { repeat (constructor; [first [left; reflexivity | right; exists "gen"; split; [exact M|]; repeat split]|]). constructor. }
  destruct (C60_masked_yields cfg exR (exM 11) w1 w2 1 _ _ _ _ (fun _ => 1) n1 nc1 n2 nc2
    W1 W2 exR_clean C2 F (S w1 _ W1) (S w2 _ W2) Y1 Y2) as (H & L & _).
  split; auto. rewrite L. auto.
Qed.
