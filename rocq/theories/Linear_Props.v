(** C35, C36: direct minimisation of a quadratic likelihood, covariance with frozen parameters. *)
From Coq Require Import List Arith Bool String Reals Lra Lia.
From Verif Require Import PyList RBase BBStat_Model Writer_Model Yields_Model Ext_Model Nll_Model Mat_Model Mat_Proof Linear_Model Linear_Spec Linear_Proof Linear_Quad Linear_Prob Linear_Reg Shape Map_Model Map_Spec Map_Project Svd_Model.
Import ListNotations.
Local Open Scope R_scope.

(** *** C35 *)
(** the modelled likelihood of a problem that passes the fitter's linearity test is a quadratic function,
    with or without frozen parameters, where the lite additive bins are active; its penalties, if any, have to be
    squares of functions that are affine in parameters and yields *)
Theorem C35_linear_problems_are_quadratic P e (diag : bool) x0 :
  let n := nfit P in let d := pb_data P in
  List.length (ef_mask e) = n -> List.length x0 = n ->
  match ef_blind e with Some (op, ot) => List.length op = pm_npoi (pb_model P) /\ List.length ot = in_nsyst d | None => True end ->
  declared_linear P (Nat.min (in_nbins d) (bins_used P)) -> model_fits P -> regs_quadratic P ->
  exists c b H, sym n H /\
    forall x, active_bins P e (if diag then vecl n x else x0) (vecl n x) ->
      nll_ad P e (if diag then vecl n x else x0) (vecl n x) = Ok (qfun n c b H x).
Proof. cbv zeta. intros. exact (linear_quadratic P e diag x0 H H0 H1 H2 H3 H4). Qed.
Print Assumptions C35_linear_problems_are_quadratic.
(** the curvature penalty of a channel or of its projection on up to three axes is of this kind *)
Theorem C35_curvature_penalty X Y procs c keep m init reg : filled c -> NoDup keep -> (forall a, In a keep -> In a (map ha_name (ci_axes c))) ->
  (ci_stop c <= Y)%nat -> (1 <= List.length keep <= 3)%nat -> project_mapping procs c keep false = Ok m -> List.length init = Y ->
  (forall x y, List.length x = X -> List.length y = Y -> svd_penalty (mp_flat m) (map (shape_of c) keep) (of_list init) (of_list y) = Ok (reg x y)) ->
  penalty_quadratic X Y reg.
Proof. exact (project_svd_quadratic X Y procs c keep m init reg). Qed.
Print Assumptions C35_curvature_penalty.

(** what automatic differentiation returns for such a function *)
Theorem C35_derivatives n c b H x i : sym n H -> (i < n)%nat ->
  partial (qfun n c b H) x i (qgrad n b H x i) /\ forall j, (j < n)%nat -> partial (fun y => qgrad n b H y i) x j (H i j).
Proof. intros S Hi. split; [apply qfun_partial; auto|]. intros j Hj. apply qgrad_partial; auto. Qed.
Theorem C35_one_step_reaches_the_minimum n c b H x : sym n H -> posdef n H ->
  exists z, newton_chol n (qgrad n b H x) H x = Ok z /\ unique_min n (qfun n c b H) z.
Proof. intros S PD. exact (proj1 (newton_chol_spec n c b H x S) PD). Qed.
Theorem C35_otherwise_rejected n b H x : sym n H -> ~ posdef n H -> newton_chol n (qgrad n b H x) H x = Raise ValueError.
Proof. intros S PD. exact (proj2 (newton_chol_spec n 0 b H x S) PD). Qed.
(** without a Hessian: conjugate gradients converge, move no frozen coordinate and reduce the gradient of the
    floating ones by ten orders of magnitude *)
Theorem C35_hessian_free_step n fl b H x : sym n H ->
  (forall d, floats_only n fl d -> nonzero n d -> 0 < quad n H d) ->
  exists z, newton_cg n (maskv fl (qgrad n b H x)) (mv n (maskm fl H)) x = Ok z /\
    (forall i, (i < n)%nat -> fl i = false -> z i = x i) /\
    norm2 n (maskv fl (qgrad n b H z)) <= / 10000000000 * norm2 n (maskv fl (qgrad n b H x)).
Proof. intros S PD. rewrite <- (norm_norm2 n (maskv fl (qgrad n b H x))). destruct (newton_cg_spec n fl b H x S PD) as (z & A & B & C). exists z. rewrite <- norm_norm2. auto. Qed.
(** with a frozen parameter the Cholesky path always fails *)
Theorem C35_frozen_parameter_always_raises n fl H g x k : sym n H -> (k < n)%nat -> fl k = false ->
  newton_chol n g (maskm fl H) x = Raise ValueError.
Proof. exact (chol_frozen n fl H g x k). Qed.
Print Assumptions C35_one_step_reaches_the_minimum.
Print Assumptions C35_hessian_free_step.

Definition h2 (i j : nat) : R := match i, j with O, O => 2 | O, S _ => 1 | S _, O => 1 | S _, S _ => 2 end.
Definition b2 (i : nat) : R := match i with O => 1 | _ => 0 end.
Lemma h2_sym : sym 2 h2.
Proof. intros [|[|i]] [|[|j]] Hi Hj; cbn; auto; lia. Qed.
Lemma h2_pd : posdef 2 h2.
Proof.
  intros x (i & Hi & X). unfold quad, mv. cbn [sm h2]. assert (S := Rle_0_sqr (x 0%nat + x 1%nat)). unfold Rsqr in S.
  destruct i as [|[|i]]; [| |lia]; [assert (0 < x 0%nat * x 0%nat)|assert (0 < x 1%nat * x 1%nat)]; try (apply Rsqr_pos_lt in X; exact X);
  assert (Z0 := Rle_0_sqr (x 0%nat)); assert (Z1 := Rle_0_sqr (x 1%nat)); unfold Rsqr in *; nra.
Qed.
Example C35_example : exists z, newton_chol 2 (qgrad 2 b2 h2 (fun _ => 7)) h2 (fun _ => 7) = Ok z /\ z 0%nat = -2/3 /\ z 1%nat = 1/3.
Proof.
  destruct (C35_one_step_reaches_the_minimum 2 0 b2 h2 (fun _ => 7) h2_sym h2_pd) as (z & E & M). exists z. split; auto.
  set (w := fun i : nat => match i with O => -2/3 | _ => 1/3 end : R).
  assert (G : forall i, (i < 2)%nat -> qgrad 2 b2 h2 w i = 0).
  { intros [|[|i]] Hi; [| |lia]; unfold qgrad, mv, w; cbn; lra. }
  destruct (qfun_min 2 0 b2 h2 w h2_sym h2_pd G z) as (L & _). destruct (M w) as (_ & U). specialize (U L).
  rewrite <- (U 0%nat), <- (U 1%nat) by lia. unfold w. split; auto.
Qed.
(** the statement fails for frozen parameters: the problem restricted to the floating parameter has a unique
    minimum, the fit raises *)
Theorem C35_frozen_refuted : exists n fl b H x, sym n H /\ posdef n H /\
  newton_chol n (maskv fl (qgrad n b H x)) (maskm fl H) x = Raise ValueError.
Proof.
  exists 2%nat, (fun i => Nat.eqb i 0), b2, h2, (fun _ => 0). split; [exact h2_sym|]. split; [exact h2_pd|].
  apply (C35_frozen_parameter_always_raises 2 _ h2 _ _ 1%nat h2_sym); auto.
Qed.
(** the statement fails for the additive lite bin-by-bin treatment, which the fitter declares linear: a bin whose
    predicted yield turns negative; the step ends at a larger value of the likelihood than it started from *)
Definition pl : problem :=
  mkPb (mkIn (TDense (fun _ _ => 1) (fun _ _ _ => 1)) true Normal 1 1 1 1) (TDense (fun _ _ => 1) (fun _ _ _ => 1))
    (mkPm 0 0 true (fun _ _ => RBroadcast (fun _ => 1))) (Sep Chisq) [-3] [1]
    (Some (mkBB Lite NormalAdd 0 (fun _ => [(1, 1)]) (fun _ => [0]))) (mkOrc (fun _ => []) (fun _ => [])) [1] [0] [] 0 [].
Definition pe : eff := mkEff [false] None.
Lemma pl_val x : nll pl pe [x] =
  Ok (if Rltb 0 (1 + x) then (x + 4) * (x + 4) / 4 + x * x / 2
      else 1 / 2 * (((1 + x) * (1 + (- 4 - x) / 2) + 3) * ((1 + x) * (1 + (- 4 - x) / 2) + 3)) + (x + 4) * (x + 4) / 8 + x * x / 2).
Proof.
  unfold nll. cbv -[Rplus Rmult Rminus Ropp Rinv Rdiv sqrt Rltb Reqb IZR exp ln].
  f_equal. destruct (Reqb_spec 1 0) as [E|_]; [lra|].
  replace (1 + 0) with 1 by ring. rewrite sqrt_1.
  replace (1 * 1 + (1 * x + 0)) with (1 + x) by ring.
  replace (1 + x + 0) with (1 + x) by ring. destruct (Rltb_spec 0 (1 + x)); field; lra.
Qed.
Example C35_quadratic_example x : 0 < 1 + x 0%nat -> nll pl pe (vecl 1 x) = Ok (qfun 1 4 (fun _ => 2) (fun _ _ => 3 / 2) x).
Proof. intros H. cbn [vecl map seq]. rewrite pl_val, Rltb_true by auto. unfold qfun, vdot, quad, mv. cbn [sm]. f_equal. field. Qed.
Example C35_hessian_free_example : exists z, newton_cg 2 (maskv (fun i => Nat.eqb i 0) (qgrad 2 b2 h2 (fun _ => 7))) (mv 2 (maskm (fun i => Nat.eqb i 0) h2)) (fun _ => 7) = Ok z /\ z 1%nat = 7.
Proof.
  destruct (C35_hessian_free_step 2 (fun i => Nat.eqb i 0) b2 h2 (fun _ => 7) h2_sym) as (z & E & F & _); [intros; apply h2_pd; auto|].
  exists z. split; [exact E|]. apply F; auto.
Qed.
Theorem C35_lite_additive_refuted : exists P e x z g h, declared_linear P 1 /\ model_fits P /\ pb_regs P = [] /\
  (forall t, Rabs t < 1 -> exists v w, nll P e [x] = Ok v /\ nll P e [x + t] = Ok w /\ w = v + g * t + 1 / 2 * h * t ^ 2) /\
  (exists zf, newton_chol 1 (fun _ => g) (fun _ _ => h) (fun _ => x) = Ok zf /\ zf O = z) /\
  exists v w, nll P e [x] = Ok v /\ nll P e [z] = Ok w /\ v < w.
Proof.
  exists pl, pe, 0, (-4/3), 2, (3/2). split; [|split; [|split; [|split; [|split]]]].
  - repeat split; try discriminate. intros full b p. exists 1, []. intros ps _. cbn. unfold dot, sumR. cbn. lra.
  - intros full ps nb _. reflexivity.
  - reflexivity.
  - intros t Ht. apply Rabs_def2 in Ht. rewrite !pl_val. rewrite !Rltb_true by lra. eexists _, _. split; [reflexivity|]. split; [reflexivity|]. field.
  - unfold newton_chol. cbn [chol]. destruct (Rlt_dec 0 (3/2)) as [_|N]; [|lra]. eexists. split; [reflexivity|].
    unfold chol_solve. cbn [bsolve fsolve sm].
    assert (S : sqrt (3/2) * sqrt (3/2) = 3/2) by (apply sqrt_sqrt; lra). assert (S0 : 0 < sqrt (3/2)) by (apply sqrt_lt_R0; lra).
    transitivity (-2 * (sqrt (3/2) * sqrt (3/2)) / (3/2 * (3/2))); [field; lra|]. rewrite S. field.
  - rewrite !pl_val. rewrite Rltb_true by lra. rewrite Rltb_false by lra. eexists _, _. split; [reflexivity|]. split; [reflexivity|]. lra.
Qed.
Print Assumptions C35_lite_additive_refuted.
(** two bins, 1 + x and 1 events predicted, 1 and 1 expected: curvatures x and -x of the channel *)
Definition chan2 : cinfo := mkCinfo 0 2 [mkHaxis "z" 2 4 [0; 1; 2]] false false.
Definition map2 (norm : bool) : mapping := match project_mapping ["a"%string] chan2 ["z"%string] norm with Ok m => m | Raise _ => mkMap [] false false (fun _ => Raise ValueError) end.
Definition reg2 (norm : bool) (_ y : list R) : R := match svd_penalty (mp_flat (map2 norm)) [2%nat] (of_list [1; 1]) (of_list y) with Ok v => v | Raise _ => 0 end.
Definition p2 (norm : bool) : problem :=
  mkPb (mkIn (TDense (fun _ _ => 1) (fun b _ _ => match b with O => 1 | _ => 0 end)) true Normal 1 1 2 2) (TDense (fun _ _ => 1) (fun b _ _ => match b with O => 1 | _ => 0 end))
    (mkPm 0 0 true (fun _ _ => RBroadcast (fun _ => 1))) (Sep Chisq) [1; 1] [1; 1] None (mkOrc (fun _ => []) (fun _ => [])) [1] [0] [reg2 norm] 0 [].
Lemma p2_declared norm : declared_linear (p2 norm) 2 /\ model_fits (p2 norm).
Proof.
  split; [|intros full ps nb _; reflexivity]. repeat split; try discriminate. intros full b p. exists 1, []. intros ps _. cbn. unfold dot, sumR. cbn. lra.
Qed.
Lemma reg2_ok norm a b : svd_penalty (mp_flat (map2 norm)) [2%nat] (of_list [1; 1]) (of_list [a; b]) = Ok (reg2 norm [] [a; b]).
Proof. unfold reg2. destruct norm; reflexivity. Qed.
Example C35_penalty_example : regs_quadratic (p2 false).
Proof.
  intros reg [<-|[]]. apply (C35_curvature_penalty 1 2 ["a"%string] chan2 ["z"%string] (map2 false) [1; 1]).
  - split; [repeat constructor; cbn; tauto|reflexivity].
  - repeat constructor; cbn; tauto.
  - intros a [<-|[]]. left. reflexivity.
  - cbn. lia.
  - cbn. lia.
  - reflexivity.
  - reflexivity.
  - intros x [|a [|b [|? ?]]] _ L; try discriminate. exact (reg2_ok false a b).
Qed.
Ltac bins2 := repeat match goal with |- context[Reqb ?a ?b] => destruct (Reqb_spec a b); try (exfalso; lra) end.
Lemma p2_val x : 0 <= x -> nll (p2 true) pe [x] = Ok (x * x + 8 * (x / (2 + x)) * (x / (2 + x))).
Proof.
  intros X. unfold nll. cbv -[Rplus Rmult Rminus Ropp Rinv Rdiv sqrt Rltb Reqb IZR exp ln]. f_equal. replace (2 * 0) with 0 by ring. rewrite exp_0.
  bins2. field. lra.
Qed.
(** a penalty of normalised yields is accepted by the same test, although the likelihood is not quadratic then *)
Theorem C35_normalised_penalty_refuted : exists P e, declared_linear P 2 /\ model_fits P /\ pb_bb P = None /\ pb_regs P = [reg2 true] /\
  ~ exists c b H, forall x, 0 <= x 0%nat -> nll P e (vecl 1 x) = Ok (qfun 1 c b H x).
Proof.
  exists (p2 true), pe. split; [apply p2_declared|]. split; [apply p2_declared|]. split; [reflexivity|]. split; [reflexivity|]. intros (c & b & H & E).
  assert (V : forall t, 0 <= t -> t * t + 8 * (t / (2 + t)) * (t / (2 + t)) = c + b O * t + 1 / 2 * (t * (H O O * t))).
  { intros t T. specialize (E (fun _ => t) T). cbn [vecl map seq] in E. rewrite p2_val in E by exact T. injection E as E. rewrite E. unfold qfun, vdot, quad, mv. cbn [sm]. ring. }
  assert (V0 := V 0 ltac:(lra)). assert (V1 := V 1 ltac:(lra)). assert (V2 := V 2 ltac:(lra)). assert (V3 := V 3 ltac:(lra)). lra.
Qed.
Print Assumptions C35_normalised_penalty_refuted.

(** *** C36 *)
Theorem C36_floating_covariance gpu n fl cov0 g H : NoDup fl -> block_sym fl H ->
  (block_posdef fl H -> exists edm c, edmval_cov gpu n true fl cov0 g H = Ok (edm, c) /\
     (forall i j, In i fl -> In j fl -> lsum (fun k => H i k * c k j) fl = if Nat.eqb i j then 1 else 0) /\
     (forall i j, In i fl -> In j fl -> c i j = c j i) /\
     (forall i j, ~ In i fl \/ ~ In j fl -> c i j = cov0 i j) /\
     edm = 1 / 2 * lsum (fun i => lsum (fun j => g i * c i j * g j) fl) fl) /\
  (~ block_posdef fl H -> edmval_cov gpu n true fl cov0 g H = Raise ValueError).
Proof. exact (edmval_cov_frozen gpu n fl cov0 g H). Qed.
Print Assumptions C36_floating_covariance.
(** nothing else of the gradient and the Hessian is read, and both back ends agree *)
Theorem C36_frozen_do_not_leak gpu gpu' n fl cov0 cov0' g g' H H' : NoDup fl -> block_sym fl H -> block_posdef fl H ->
  (forall i j, In i fl -> In j fl -> H' i j = H i j) -> (forall i, In i fl -> g' i = g i) ->
  exists edm c c', edmval_cov gpu n true fl cov0 g H = Ok (edm, c) /\ edmval_cov gpu' n true fl cov0' g' H' = Ok (edm, c') /\
    forall i j, In i fl -> In j fl -> c' i j = c i j.
Proof. exact (edmval_cov_leak gpu gpu' n fl cov0 cov0' g g' H H'). Qed.
Print Assumptions C36_frozen_do_not_leak.
Theorem C36_nothing_frozen gpu n cov0 g H : sym n H ->
  (posdef n H -> exists edm c, edmval_cov gpu n false (seq 0 n) cov0 g H = Ok (edm, c) /\
     (forall i j, (i < n)%nat -> (j < n)%nat -> mm n H c i j = delta i j) /\ edm = 1 / 2 * quad n c g) /\
  (~ posdef n H -> edmval_cov gpu n false (seq 0 n) cov0 g H = Raise ValueError).
Proof.
  intros S. destruct (lib_spec gpu n g H S) as (A & B). split; [|exact B]. intros PD. destruct (A PD) as (e & c & E & (E1 & E2 & _)).
  exists e, c. split; [exact E|]. split; [exact E2|exact E1].
Qed.
(** --noHessian: the rows computed by conjugate gradients *)
Theorem C36_hessian_free_rows n fl H rtol g rows : sym n H -> (forall d, floats_only n fl d -> nonzero n d -> 0 < quad n H d) ->
  0 < rtol -> floats_only n fl g -> (forall i, In i rows -> (i < n)%nat) -> rtol <= 1 ->
  ((forall i, In i rows -> fl i = true) ->
    exists edm cs, cov_rows_hessfree n (mv n (maskm fl H)) rtol g rows = Ok (edm, cs) /\ List.length cs = List.length rows /\
      (exists v, edm = 1 / 2 * vdot n g v /\ floats_only n fl v /\ norm2 n (fun i => g i - mv n (maskm fl H) v i) <= rtol * norm2 n g) /\
      forall k, (k < List.length rows)%nat -> let c := nth k cs (fun _ => 0) in floats_only n fl c /\
        norm2 n (fun i => delta i (nth k rows O) - mv n (maskm fl H) c i) <= rtol) /\
  ((exists i, In i rows /\ fl i = false) -> cov_rows_hessfree n (mv n (maskm fl H)) rtol g rows = Raise ValueError).
Proof. exact (hessfree_spec n fl H rtol g rows). Qed.
Print Assumptions C36_hessian_free_rows.
(** parameter 1 of 3 is frozen; its rows of the Hessian are arbitrary *)
Definition h3 (i j : nat) : R :=
  match i, j with 0%nat, 0%nat => 2 | 2%nat, 2%nat => 2 | 0%nat, 2%nat => 1 | 2%nat, 0%nat => 1 | 1%nat, 1%nat => -5 | _, _ => 7 end.
Example C36_example : exists edm c, edmval_cov false 3 true [0; 2]%nat (fun i _ => INR i) (fun i => 3) h3 = Ok (edm, c) /\
  c 0%nat 0%nat = 2/3 /\ c 0%nat 2%nat = -1/3 /\ c 2%nat 2%nat = 2/3 /\ c 1%nat 1%nat = 1 /\ edm = 3.
Proof.
  destruct (C36_floating_covariance false 3 [0; 2]%nat (fun i _ => INR i) (fun _ => 3) h3) as (A & _).
  - repeat constructor; cbn; intuition discriminate.
  - intros i j [<-|[<-|[]]] [<-|[<-|[]]]; reflexivity.
  - destruct A as (e & c & E & I & S & F & ED).
    + intros v (i & Hi & V). unfold lsum. cbn. assert (Q := Rle_0_sqr (v 0%nat + v 2%nat)). unfold Rsqr in Q.
      assert (Z0 := Rle_0_sqr (v 0%nat)); assert (Z1 := Rle_0_sqr (v 2%nat)); unfold Rsqr in *.
      destruct Hi as [<-|[<-|[]]]; apply Rsqr_pos_lt in V; unfold Rsqr in V; nra.
    + exists e, c. split; [exact E|].
      assert (I00 := I 0%nat 0%nat ltac:(cbn; auto) ltac:(cbn; auto)). assert (I20 := I 2%nat 0%nat ltac:(cbn; auto) ltac:(cbn; auto)).
      assert (I02 := I 0%nat 2%nat ltac:(cbn; auto) ltac:(cbn; auto)). assert (I22 := I 2%nat 2%nat ltac:(cbn; auto) ltac:(cbn; auto)).
      unfold lsum in I00, I20, I02, I22, ED. cbn in I00, I20, I02, I22, ED.
      assert (F1 := F 1%nat 1%nat ltac:(left; cbn; intuition discriminate)). cbn in F1. repeat split; try lra.
Qed.
