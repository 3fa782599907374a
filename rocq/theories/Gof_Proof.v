From Coq Require Import Reals List Arith Bool ZArith Lia Lra.
From Verif Require Import RBase PyList Mat_Model Mat_Proof Linear_Proof Impacts_Model Impacts_Solve Impacts_Proof Var_Model Var_Proof Gof_Model Gof_Spec.
Import ListNotations.
Open Scope R_scope.

(** ** inverses of symmetric positive matrices *)
Section Inv.
Variables (n : nat) (A B : nat -> nat -> R).
Hypothesis SA : sym n A.
Hypothesis PA : posdef n A.
Hypothesis AB : forall i j, (i < n)%nat -> (j < n)%nat -> mm n A B i j = delta i j.
Lemma inv_mv x i : (i < n)%nat -> mv n A (mv n B x) i = x i.
Proof.
  intros Hi. rewrite mv_assoc. transitivity (sm n (fun j => delta i j * x j)); [|apply sm_delta; auto]. apply sm_ext. intros j Hj. rewrite AB by auto. reflexivity.
Qed.
Lemma inv_mv' x i : (i < n)%nat -> mv n B (mv n A x) i = x i.
Proof.
  intros Hi. apply Rminus_diag_uniq. apply (posdef_inj n A (fun k => mv n B (mv n A x) k - x k) PA); auto. intros k Hk. rewrite mv_minus, inv_mv by auto. ring.
Qed.
Lemma inv_sym' : sym n B.
Proof.
  intros i j Hi Hj. symmetry. apply (posdef_inv_unique n A (fun i j => B j i) B PA); auto. intros a b Ha Hb.
  transitivity (mv n B (mv n A (fun k => delta a k)) b).
  - unfold mm, mv at 1. apply sm_ext. intros k Hk. unfold mv. rewrite (sm_ext n _ (fun j0 => A k j0 * delta j0 a)) by (intros; rewrite delta_sym; auto).
    rewrite (sm_delta' n a (fun l => A k l)) by auto. rewrite (SA k a) by auto. ring.
  - rewrite inv_mv' by auto. reflexivity.
Qed.
Lemma inv_pos : posdef n B.
Proof. apply (inv_posdef n A B PA SA AB inv_sym'). Qed.
End Inv.
Lemma symm_dot n A x y : sym n A -> sm n (fun a => x a * mv n A y a) = sm n (fun a => mv n A x a * y a).
Proof.
  intros S. assert (E := mv_sym n A x y S). unfold vdot in E. rewrite E. apply sm_ext. intros; ring.
Qed.
(** sum over sources: x^T A w (A^T y) *)
Lemma sandwich n r (A : nat -> nat -> R) (w : nat -> R) x y :
  sm n (fun a => x a * sm n (fun b => sm r (fun i => A a i * (w i * A b i)) * y b)) = sm r (fun i => sm n (fun a => A a i * x a) * (w i * sm n (fun b => A b i * y b))).
Proof.
  transitivity (sm n (fun a => sm r (fun i => (A a i * x a) * (w i * sm n (fun b => A b i * y b))))).
  - apply sm_ext. intros a _. transitivity (x a * sm r (fun i => A a i * (w i * sm n (fun b => A b i * y b)))).
    + f_equal. rewrite (sm_ext n _ (fun b => sm r (fun i => A a i * w i * A b i * y b))) by (intros; rewrite <- sm_scalr; apply sm_ext; intros; ring).
      rewrite sm_swap. apply sm_ext. intros i _. rewrite <- !sm_scal. apply sm_ext. intros; ring.
    + rewrite <- sm_scal. apply sm_ext. intros; ring.
  - rewrite sm_swap. apply sm_ext. intros i _. rewrite sm_scalr. auto.
Qed.

Definition data_of (g : gfit) (U : data_unc) : Prop :=
  match U with
  | DVar v => forall a b, (a < g_nobs g)%nat -> (b < g_nobs g)%nat -> g_V g a b = v a * delta a b
  | DCovInv W => forall a b, (a < g_nobs g)%nat -> (b < g_nobs g)%nat -> W a b = g_Vi g a b
  end.
Section Gauss.
Variable g : gfit.
Hypothesis OK : gfit_ok g.
Let N := g_nobs g.
Let n := g_n g.
Let m := g_m g.
Lemma V_sym : sym N (g_V g). Proof. intros a b Ha Hb. apply OK; auto. Qed.
Lemma V_quad x : quad N (g_V g) x = sm N (fun a => sm N (fun b => x a * g_V g a b * x b)).
Proof. unfold quad, mv. apply sm_ext. intros a _. rewrite <- sm_scal. apply sm_ext. intros; ring. Qed.
Lemma V_pos : posdef N (g_V g). Proof. intros x (i & Hi & X). rewrite V_quad. apply OK. eauto. Qed.
Lemma V_inv i j : (i < N)%nat -> (j < N)%nat -> mm N (g_V g) (g_Vi g) i j = delta i j.
Proof. intros Hi Hj. destruct OK as (_ & _ & E & _). apply (E i j Hi Hj). Qed.
Lemma Vi_sym : sym N (g_Vi g). Proof. apply (inv_sym' N (g_V g)); [apply V_sym|apply V_pos|apply V_inv]. Qed.
Lemma Vi_pos : posdef N (g_Vi g). Proof. apply (inv_pos N (g_V g)); [apply V_sym|apply V_pos|apply V_inv]. Qed.
Lemma V_Vi x i : (i < N)%nat -> mv N (g_V g) (mv N (g_Vi g) x) i = x i. Proof. apply inv_mv. apply V_inv. Qed.
Lemma Vi_V x i : (i < N)%nat -> mv N (g_Vi g) (mv N (g_V g) x) i = x i. Proof. apply inv_mv'; [apply V_pos|apply V_inv]. Qed.
Lemma cw_nonneg i : (i < n)%nat -> 0 <= g_cw g i. Proof. apply OK. Qed.
Lemma s_pos k : (k < m)%nat -> g_fb g k = true -> 0 < g_s g k. Proof. apply OK. Qed.

(** covariance of the data after a mapping *)
Lemma data_cov_spec U rows G : data_of g U -> exists dc, data_cov rows N U G = Ok dc /\
  forall a b, (a < rows)%nat -> (b < rows)%nat -> dc a b = sm N (fun k => G a k * mv N (g_V g) (G b) k).
Proof.
  destruct U as [v|W]; cbn [data_of data_cov]; intros D.
  - eexists. split; [reflexivity|]. intros a b Ha Hb. apply sm_ext. intros k Hk. cbv beta.
    transitivity (G a k * (v k * G b k)); [ring|]. f_equal. unfold mv. rewrite (sm_ext N _ (fun l => delta k l * (v k * G b l))) by (intros; rewrite D by auto; ring). rewrite sm_delta by auto. auto.
  - destruct (emap_ok (fun b => tsolve N W (G b)) (fun b x => forall k, (k < N)%nat -> x k = mv N (g_V g) (G b) k) (seq 0 rows)) as (xs & E & F).
    { intros b _. assert (RW : regular N W).
      { intros z Hz. apply (posdef_inj N (g_Vi g) z Vi_pos). intros i Hi. rewrite <- (Hz i Hi). unfold mv. apply sm_ext. intros j Hj. rewrite D by auto. auto. }
      destruct (gsolve_regular N W (G b) RW) as (x & Gx). unfold tsolve. rewrite Gx. exists x. split; auto. intros k Hk.
      rewrite <- (V_Vi x k Hk). unfold mv at 1 3. apply sm_ext. intros l Hl. f_equal. rewrite <- (gsolve_ok _ _ _ _ Gx l Hl). unfold mv. apply sm_ext. intros j Hj. rewrite D by auto. auto. }
    rewrite E. cbn [rbind]. eexists. split; [reflexivity|]. intros a b Ha Hb. apply sm_ext. intros k Hk. f_equal.
    assert (X := forall2_nth _ _ _ O (fun _ => 0) F b). rewrite seq_length, seq_nth in X by auto. apply X; auto.
Qed.
Lemma data_cov_base U : data_of g U -> exists dc, data_cov N N U delta = Ok dc /\ forall a b, (a < N)%nat -> (b < N)%nat -> dc a b = g_V g a b.
Proof.
  intros D. destruct (data_cov_spec U N delta D) as (dc & E & H). exists dc. split; auto. intros a b Ha Hb. rewrite H by auto. rewrite sm_delta by auto.
  unfold mv. rewrite (sm_ext N _ (fun l => delta b l * g_V g a l)) by (intros; ring). apply sm_delta; auto.
Qed.

(** variances of floating constrained parameters and of beta *)
Definition wx (i : nat) : R := if g_fx g i then if Reqb (g_cw g i) 0 then 0 else / g_cw g i else 0.
Definition wb (k : nat) : R := if g_fb g k then / g_s g k else 0.
Definition gS (a b : nat) : R := sm n (fun i => g_A g a i * (wx i * g_A g b i)) + sm m (fun k => g_Ab g a k * (wb k * g_Ab g b k)) + g_V g a b.
Lemma wx_nonneg i : (i < n)%nat -> 0 <= wx i.
Proof.
  intros Hi. unfold wx. destruct (g_fx g i); [|lra]. assert (C := cw_nonneg i Hi). destruct (Reqb_spec (g_cw g i) 0); [lra|]. left. apply Rinv_0_lt_compat. lra.
Qed.
Lemma wb_nonneg k : (k < m)%nat -> 0 <= wb k.
Proof. intros Hk. unfold wb. destruct (g_fb g k) eqn:F; [|lra]. left. apply Rinv_0_lt_compat. apply s_pos; auto. Qed.
Definition At (x : nat -> R) (i : nat) : R := sm N (fun a => g_A g a i * x a).
Definition Abt (x : nat -> R) (k : nat) : R := sm N (fun a => g_Ab g a k * x a).
Lemma gS_mv x a : mv N gS x a = sm n (fun i => g_A g a i * (wx i * At x i)) + sm m (fun k => g_Ab g a k * (wb k * Abt x k)) + mv N (g_V g) x a.
Proof.
  unfold mv, gS. rewrite (sm_ext N _ (fun b => (sm n (fun i => g_A g a i * (wx i * g_A g b i)) * x b + sm m (fun k => g_Ab g a k * (wb k * g_Ab g b k)) * x b) + g_V g a b * x b)) by (intros; ring).
  rewrite !sm_plus.
  assert (E : forall r (M : nat -> nat -> R) (w : nat -> R), sm N (fun b => sm r (fun i => M a i * (w i * M b i)) * x b) = sm r (fun i => M a i * (w i * sm N (fun c => M c i * x c)))).
  { intros r M w. rewrite (sm_ext N _ (fun b => sm r (fun i => M a i * w i * (M b i * x b)))) by (intros; rewrite <- sm_scalr; apply sm_ext; intros; ring).
    rewrite sm_swap. apply sm_ext. intros i _. rewrite sm_scal. ring. }
  rewrite !E. reflexivity.
Qed.
Lemma gS_sym : sym N gS.
Proof.
  intros a b Ha Hb. unfold gS. rewrite (V_sym a b) by auto. f_equal. f_equal; apply sm_ext; intros; ring.
Qed.
Lemma dot_A x y : sm N (fun a => x a * sm n (fun i => g_A g a i * y i)) = sm n (fun i => y i * At x i).
Proof.
  rewrite (sm_ext N _ (fun a => sm n (fun i => y i * (g_A g a i * x a)))) by (intros; rewrite <- sm_scal; apply sm_ext; intros; ring). rewrite sm_swap. apply sm_ext. intros. rewrite sm_scal. auto.
Qed.
Lemma dot_Ab x y : sm N (fun a => x a * sm m (fun i => g_Ab g a i * y i)) = sm m (fun i => y i * Abt x i).
Proof.
  rewrite (sm_ext N _ (fun a => sm m (fun i => y i * (g_Ab g a i * x a)))) by (intros; rewrite <- sm_scal; apply sm_ext; intros; ring). rewrite sm_swap. apply sm_ext. intros. rewrite sm_scal. auto.
Qed.
Lemma gS_dot x y : sm N (fun a => x a * mv N gS y a) = sm n (fun i => wx i * (At x i * At y i)) + sm m (fun k => wb k * (Abt x k * Abt y k)) + sm N (fun a => x a * mv N (g_V g) y a).
Proof.
  rewrite (sm_ext N _ (fun a => x a * sm n (fun i => g_A g a i * (wx i * At y i)) + x a * sm m (fun k => g_Ab g a k * (wb k * Abt y k)) + x a * mv N (g_V g) y a)) by (intros; rewrite gS_mv; ring).
  rewrite !sm_plus, dot_A, dot_Ab. f_equal. f_equal; apply sm_ext; intros; ring.
Qed.
Lemma gS_pos : posdef N gS.
Proof.
  intros x X. unfold quad. rewrite gS_dot. assert (P := V_pos x X). unfold quad in P.
  assert (0 <= sm n (fun i => wx i * (At x i * At x i))) by (apply sm_nonneg; intros; apply Rmult_le_pos; [apply wx_nonneg; auto|apply Rle_0_sqr]).
  assert (0 <= sm m (fun i => wb i * (Abt x i * Abt x i))) by (apply sm_nonneg; intros; apply Rmult_le_pos; [apply wb_nonneg; auto|apply Rle_0_sqr]). lra.
Qed.

(** ** the minimum *)
Section Min.
Variable t : nat -> R.
Let r0 := g_res g (fun _ => 0) (fun _ => 0).
Hypothesis St : forall a, (a < N)%nat -> mv N gS t a = r0 a.
Definition zx (i : nat) : R := - (wx i * At t i).
Definition zb (k : nat) : R := - (wb k * Abt t k).
Lemma res_split dx db a : g_res g dx db a = r0 a + sm n (fun i => g_A g a i * dx i) + sm m (fun k => g_Ab g a k * db k).
Proof. unfold r0, g_res. fold n m. rewrite (sm_0 n (fun i => g_A g a i * 0)) by (intros; ring). rewrite (sm_0 m (fun i => g_Ab g a i * 0)) by (intros; ring). ring. Qed.
Lemma res_best a : (a < N)%nat -> g_res g zx zb a = mv N (g_V g) t a.
Proof.
  intros Ha. rewrite res_split, <- St by auto. rewrite gS_mv.
  rewrite (sm_ext n (fun i => g_A g a i * zx i) (fun i => -1 * (g_A g a i * (wx i * At t i)))) by (intros; unfold zx; ring).
  rewrite (sm_ext m (fun i => g_Ab g a i * zb i) (fun i => -1 * (g_Ab g a i * (wb i * Abt t i)))) by (intros; unfold zb; ring). rewrite !sm_scal. ring.
Qed.
Lemma best_move : g_move_constrained g zx zb.
Proof.
  split; [split|]; intros i Hi F; unfold zx, zb, wx, wb; try rewrite F; try ring. destruct (g_fx g i); [|ring]. rewrite Reqb_true by auto. ring.
Qed.
Lemma loss_split dx db : g_move_constrained g dx db ->
  g_loss g dx db = sm N (fun a => r0 a * t a) + quad N (g_Vi g) (fun a => g_res g dx db a - mv N (g_V g) t a)
    + sm n (fun i => g_cw g i * ((dx i - zx i) * (dx i - zx i))) + sm m (fun k => (if g_fb g k then g_s g k else 0) * ((db k - zb k) * (db k - zb k))).
Proof.
  intros ((Mx & Mb) & Mc). unfold g_loss. fold N n m. set (r := g_res g dx db).
  assert (Q : sm N (fun a => sm N (fun b => r a * g_Vi g a b * r b)) = quad N (g_Vi g) r).
  { unfold quad, mv. apply sm_ext. intros a _. rewrite <- sm_scal. apply sm_ext. intros; ring. }
  rewrite Q. rewrite quad_minus by apply Vi_sym.
  assert (E1 : sm N (fun a => r a * mv N (g_Vi g) (mv N (g_V g) t) a) = sm N (fun a => r a * t a)) by (apply sm_ext; intros; rewrite Vi_V by auto; auto).
  assert (E2 : quad N (g_Vi g) (mv N (g_V g) t) = sm N (fun a => t a * mv N (g_V g) t a)) by (unfold quad; apply sm_ext; intros; rewrite Vi_V by auto; ring).
  rewrite E1, E2.
  assert (E3 : sm N (fun a => r a * t a) = sm N (fun a => r0 a * t a) + sm n (fun i => dx i * At t i) + sm m (fun k => db k * Abt t k)).
  { rewrite (sm_ext N _ (fun a => r0 a * t a + t a * sm n (fun i => g_A g a i * dx i) + t a * sm m (fun k => g_Ab g a k * db k))) by (intros; unfold r; rewrite res_split; ring).
    rewrite !sm_plus, dot_A, dot_Ab. auto. }
  assert (E4 : sm n (fun i => g_cw g i * (dx i * dx i)) = sm n (fun i => g_cw g i * ((dx i - zx i) * (dx i - zx i))) - 2 * sm n (fun i => dx i * At t i) - sm n (fun i => wx i * (At t i * At t i))).
  { rewrite <- sm_scal, <- !sm_minus. apply sm_ext. intros i Hi. unfold zx, wx. destruct (g_fx g i) eqn:F; [|rewrite (Mx i Hi F); ring].
    destruct (Reqb_spec (g_cw g i) 0) as [Z|Z]; [rewrite (Mc i Hi Z), Z; ring|field; auto]. }
  assert (E5 : sm m (fun i => g_s g i * (db i * db i)) = sm m (fun i => (if g_fb g i then g_s g i else 0) * ((db i - zb i) * (db i - zb i))) - 2 * sm m (fun i => db i * Abt t i) - sm m (fun i => wb i * (Abt t i * Abt t i))).
  { rewrite <- sm_scal, <- !sm_minus. apply sm_ext. intros i Hi. unfold zb, wb. destruct (g_fb g i) eqn:F; [|rewrite (Mb i Hi F); ring].
    assert (P := s_pos i Hi F). field. lra. }
  assert (E6 : sm N (fun a => r0 a * t a) = sm n (fun i => wx i * (At t i * At t i)) + sm m (fun k => wb k * (Abt t k * Abt t k)) + sm N (fun a => t a * mv N (g_V g) t a)).
  { rewrite <- gS_dot. apply sm_ext. intros a Ha. rewrite St by auto. ring. }
  rewrite E4, E5, E3. lra.
Qed.
Lemma min_value : is_minimum (g_move_constrained g) (g_loss g) (sm N (fun a => r0 a * t a)).
Proof.
  split.
  - exists zx, zb. split; [apply best_move|]. rewrite loss_split by apply best_move.
    rewrite (quad_zero N _ (fun a => g_res g zx zb a - mv N (g_V g) t a)) by (intros; rewrite res_best by auto; ring).
    rewrite (sm_0 n) by (intros; ring). rewrite (sm_0 m) by (intros; ring). ring.
  - intros dx db M. rewrite loss_split by auto.
    assert (0 <= quad N (g_Vi g) (fun a => g_res g dx db a - mv N (g_V g) t a)).
    { destruct (nonzero_dec N (fun a => g_res g dx db a - mv N (g_V g) t a)) as [X|X]; [left; apply Vi_pos; auto|right; symmetry; apply quad_zero; auto]. }
    assert (0 <= sm n (fun i => g_cw g i * ((dx i - zx i) * (dx i - zx i)))) by (apply sm_nonneg; intros; apply Rmult_le_pos; [apply cw_nonneg; auto|apply Rle_0_sqr]).
    assert (0 <= sm m (fun k => (if g_fb g k then g_s g k else 0) * ((db k - zb k) * (db k - zb k)))).
    { apply sm_nonneg; intros; apply Rmult_le_pos; [|apply Rle_0_sqr]. destruct (g_fb g i) eqn:F; [left; apply s_pos; auto|lra]. }
    lra.
Qed.
(** where the minimum is reached the residuals are V t *)
Lemma min_res dx db : g_move_constrained g dx db -> g_loss g dx db <= sm N (fun a => r0 a * t a) -> forall a, (a < N)%nat -> g_res g dx db a = mv N (g_V g) t a.
Proof.
  intros M L. rewrite loss_split in L by auto.
  assert (0 <= sm n (fun i => g_cw g i * ((dx i - zx i) * (dx i - zx i)))) by (apply sm_nonneg; intros; apply Rmult_le_pos; [apply cw_nonneg; auto|apply Rle_0_sqr]).
  assert (0 <= sm m (fun k => (if g_fb g k then g_s g k else 0) * ((db k - zb k) * (db k - zb k)))).
  { apply sm_nonneg; intros; apply Rmult_le_pos; [|apply Rle_0_sqr]. destruct (g_fb g i) eqn:F; [left; apply s_pos; auto|lra]. }
  destruct (nonzero_dec N (fun a => g_res g dx db a - mv N (g_V g) t a)) as [X|X]; [assert (P := Vi_pos _ X); lra|].
  intros a Ha. assert (E := X a Ha). cbn beta in E. lra.
Qed.
End Min.

(** ** the chi2 before the fit *)
Theorem prefit_chi2 U msk B : data_of g U -> (forall k, (k < m)%nat -> g_fb g k = negb (msk k) /\ (msk k = false -> B k = g_s g k)) ->
  exists res cov, residuals n (prefit_covariance (g_cw g) 0) (Some (m, BDiag msk B)) N N (fun a i => if g_fx g i then g_A g a i else 0) (g_Ab g) (g_pred g) U delta (g_data g) = Ok (res, cov) /\
    exists v, chi2_solve N res cov = Ok v /\ is_minimum (g_move_constrained g) (g_loss g) v.
Proof.
  intros D HB. unfold residuals. destruct (data_cov_base U D) as (dc & -> & HD). cbn [rbind]. unfold expected_with_variance, row_qs.
  destruct (emap_ok (fun a => obs_q (BDiag msk B) m (g_Ab g a)) (fun a q => forall k, q k = if msk k then 0 else g_Ab g a k / B k) (seq 0 N)) as (qs & E & F).
  { intros a _. cbn [obs_q]. eexists. split; [reflexivity|]. intros k. reflexivity. }
  rewrite E. cbn [rbind nbeta]. cbv zeta. do 2 eexists. split; [reflexivity|].
  match goal with |- exists v, chi2_solve N ?r ?c = _ /\ _ => set (res := r); set (cov := c) end.
  assert (HC : forall a b, (a < N)%nat -> (b < N)%nat -> cov a b = gS a b).
  { intros a b Ha Hb. unfold cov, gS. rewrite HD by auto. f_equal. f_equal.
    - apply sm_ext. intros i Hi. rewrite prefit_mv by auto. unfold wx, prefit_variance. destruct (g_fx g i); [|ring]. destruct (Reqb (g_cw g i) 0); [cbn [pow]; ring|ring].
    - apply sm_ext. intros k Hk. assert (X := forall2_nth _ _ _ O (fun _ => 0) F b). rewrite seq_length, seq_nth in X by auto. unfold qrow. rewrite X by auto. cbn [Nat.add].
      unfold wb. destruct (HB k Hk) as (-> & H2). destruct (msk k); cbn [negb]; [ring|]. rewrite H2 by auto. unfold Rdiv. ring. }
  assert (RG : regular N cov).
  { intros z Hz. apply (posdef_inj N gS z gS_pos). intros i Hi. rewrite <- (Hz i Hi). unfold mv. apply sm_ext. intros j Hj. rewrite HC by auto. auto. }
  destruct (gsolve_regular N cov res RG) as (t & Gt). unfold chi2_solve, tsolve. rewrite Gt. cbn [rbind]. eexists. split; [reflexivity|].
  assert (St : forall a, (a < N)%nat -> mv N gS t a = g_res g (fun _ => 0) (fun _ => 0) a).
  { intros a Ha. transitivity (res a).
    - rewrite <- (gsolve_ok _ _ _ _ Gt a Ha). unfold mv. apply sm_ext. intros j Hj. rewrite HC by auto. auto.
    - unfold res, g_res. fold n m. rewrite (sm_0 n (fun i => g_A g a i * 0)) by (intros; ring). rewrite (sm_0 m (fun i => g_Ab g a i * 0)) by (intros; ring). ring. }
  assert (Mn := min_value t St). erewrite sm_ext; [exact Mn|]. intros a Ha. cbv beta. f_equal. unfold res, g_res. fold n m.
  rewrite (sm_0 n (fun i => g_A g a i * 0)) by (intros; ring). rewrite (sm_0 m (fun i => g_Ab g a i * 0)) by (intros; ring). ring.
Qed.

(** ** the chi2 after the fit *)
Section Post.
Variables (J Y Z C : nat -> nat -> R).
Hypothesis RS : g_responses g J Y Z.
Hypothesis GC : g_covariance g J C.
(** a source with explicit derivative e = Ab b - y of the residuals, shifts x0 and b0 of the centres *)
Section Source.
Variables (e b x0 b0 y K : nat -> R).
Hypothesis He : forall a, (a < N)%nat -> e a = sm m (fun k => g_Ab g a k * b k) - y a.
Hypothesis Hb : beta_follows g e b b0.
Hypothesis HK : forall j, (j < n)%nat -> g_fx g j = true -> K j = At (mv N (g_Vi g) e) j - g_cw g j * x0 j.
Let dx (i : nat) := - sm n (fun j => C i j * K j).
Let dr (a : nat) := e a + sm n (fun i => g_pdx g J a i * dx i).
Let db (k : nat) := b k + sm n (fun i => J k i * dx i).
Lemma dx_frozen i : (i < n)%nat -> g_fx g i = false -> dx i = 0.
Proof.
  intros Hi F. unfold dx. rewrite sm_0; [ring|]. intros j Hj. assert (E := GC i j Hi Hj). rewrite F in E. cbn [andb] in E. rewrite E. ring.
Qed.
Lemma hess_dx i : (i < n)%nat -> g_fx g i = true -> sm n (fun l => g_hess g J i l * dx l) = - K i.
Proof.
  intros Hi F. unfold dx. rewrite (sm_ext n _ (fun l => sm n (fun j => - (g_hess g J i l * C l j * K j)))).
  - rewrite sm_swap. rewrite (sm_ext n _ (fun j => delta i j * (- K j))); [apply sm_delta; auto|]. intros j Hj.
    assert (E := GC i j Hi Hj). rewrite F in E. cbn [andb] in E. fold n in E.
    rewrite (sm_ext n _ (fun l => g_hess g J i l * C l j * (- K j))) by (intros; ring). rewrite sm_scalr. destruct (g_fx g j) eqn:Fj.
    + rewrite E. reflexivity.
    + rewrite sm_0; [unfold delta; destruct (Nat.eqb_spec i j) as [->|]; [congruence|ring]|]. intros l Hl. assert (E' := GC l j Hl Hj). rewrite Fj, andb_false_r in E'. rewrite E'. ring.
  - intros l Hl. rewrite <- (Rmult_1_l (sm n _)), Ropp_mult_distr_l, <- sm_scal, <- sm_scal. apply sm_ext. intros; ring.
Qed.
Lemma At_lin x z c i : At (fun a => x a + c * z a) i = At x i + c * At z i.
Proof. unfold At. rewrite <- sm_scal, <- sm_plus. apply sm_ext. intros; ring. Qed.
Lemma dr_vi a : mv N (g_Vi g) dr a = mv N (g_Vi g) e a + sm n (fun i => mv N (g_Vi g) (fun c => g_pdx g J c i) a * dx i).
Proof.
  unfold dr. rewrite mv_plus. f_equal. unfold mv. rewrite (sm_ext N _ (fun c => sm n (fun i => g_Vi g a c * g_pdx g J c i * dx i))) by (intros; rewrite <- sm_scal; apply sm_ext; intros; ring).
  rewrite sm_swap. apply sm_ext. intros. rewrite sm_scalr. auto.
Qed.
Lemma grad_x i : (i < n)%nat -> g_fx g i = true -> At (mv N (g_Vi g) dr) i + g_cw g i * (dx i - x0 i) = 0.
Proof.
  intros Hi F. assert (H := hess_dx i Hi F). rewrite (HK i Hi F) in H.
  assert (E : At (mv N (g_Vi g) dr) i = At (mv N (g_Vi g) e) i + sm n (fun l => At (mv N (g_Vi g) (fun c => g_pdx g J c l)) i * dx l)).
  { unfold At. rewrite (sm_ext N _ (fun a => g_A g a i * mv N (g_Vi g) e a + sm n (fun l => g_A g a i * mv N (g_Vi g) (fun c => g_pdx g J c l) a * dx l))).
    - rewrite sm_plus. f_equal. rewrite sm_swap. apply sm_ext. intros. rewrite sm_scalr. auto.
    - intros a Ha. rewrite dr_vi, Rmult_plus_distr_l. f_equal. rewrite <- sm_scal. apply sm_ext. intros; ring. }
  rewrite E. rewrite (sm_ext n _ (fun l => At (mv N (g_Vi g) (fun c => g_pdx g J c l)) i * dx l + delta i l * (g_cw g i * dx l))) in H.
  - rewrite sm_plus, sm_delta in H by auto. lra.
  - intros l Hl. unfold g_hess, At, mv, delta. fold N. ring.
Qed.
Lemma grad_b k : (k < m)%nat -> g_fb g k = true -> Abt (mv N (g_Vi g) dr) k + g_s g k * (db k - b0 k) = 0.
Proof.
  intros Hk F. assert (H0 := Hb k Hk). rewrite F in H0. fold N in H0. change (Abt (mv N (g_Vi g) e) k + g_s g k * (b k - b0 k) = 0) in H0.
  assert (E : Abt (mv N (g_Vi g) dr) k = Abt (mv N (g_Vi g) e) k + sm n (fun l => Abt (mv N (g_Vi g) (fun c => g_pdx g J c l)) k * dx l)).
  { unfold Abt. rewrite (sm_ext N _ (fun a => g_Ab g a k * mv N (g_Vi g) e a + sm n (fun l => g_Ab g a k * mv N (g_Vi g) (fun c => g_pdx g J c l) a * dx l))).
    - rewrite sm_plus. f_equal. rewrite sm_swap. apply sm_ext. intros. rewrite sm_scalr. auto.
    - intros a Ha. rewrite dr_vi, Rmult_plus_distr_l. f_equal. rewrite <- sm_scal. apply sm_ext. intros; ring. }
  assert (E2 : sm n (fun l => Abt (mv N (g_Vi g) (fun c => g_pdx g J c l)) k * dx l) = sm n (fun l => - (g_s g k * J k l) * dx l)).
  { apply sm_ext. intros l Hl. destruct (g_fx g l) eqn:Fl; [|rewrite (dx_frozen l Hl Fl); ring]. f_equal.
    assert (H1 := proj1 RS l Hl k Hk). rewrite F in H1. fold N in H1.
    unfold Abt, mv. unfold g_pdx. rewrite Fl. lra. }
  rewrite E, E2. unfold db. rewrite (sm_ext n _ (fun l => - g_s g k * (J k l * dx l))) by (intros; ring). rewrite sm_scal. lra.
Qed.
Lemma db_masked k : (k < m)%nat -> g_fb g k = false -> db k = 0.
Proof.
  intros Hk F. assert (H0 := Hb k Hk). rewrite F in H0. unfold db. rewrite H0, sm_0; [ring|]. intros i Hi. assert (H1 := proj1 RS i Hi k Hk). rewrite F in H1. rewrite H1. ring.
Qed.
Lemma dr_eq a : (a < N)%nat -> dr a = sm n (fun i => g_A g a i * dx i) + sm m (fun k => g_Ab g a k * db k) - y a.
Proof.
  intros Ha. unfold dr, db. rewrite He by auto.
  rewrite (sm_ext m (fun k => g_Ab g a k * (b k + _)) (fun k => g_Ab g a k * b k + g_Ab g a k * sm n (fun i => J k i * dx i))) by (intros; ring). rewrite sm_plus.
  assert (E : sm n (fun i => g_pdx g J a i * dx i) = sm n (fun i => g_A g a i * dx i) + sm m (fun k => g_Ab g a k * sm n (fun i => J k i * dx i))).
  { transitivity (sm n (fun i => g_A g a i * dx i + sm m (fun k => g_Ab g a k * J k i * dx i))).
    - apply sm_ext. intros i Hi. unfold g_pdx, resp. fold m. destruct (g_fx g i) eqn:F; [rewrite sm_scalr; ring|]. rewrite (dx_frozen i Hi F), sm_0 by (intros; ring). ring.
    - rewrite sm_plus. f_equal. rewrite sm_swap. apply sm_ext. intros k _. rewrite <- sm_scal. apply sm_ext. intros; ring. }
  rewrite E. ring.
Qed.
(** the change of the residuals is V u with S u the change of the unfitted residuals *)
Definition rho (a : nat) : R := sm n (fun i => g_A g a i * (if g_fx g i then x0 i else 0)) + sm m (fun k => g_Ab g a k * (if g_fb g k then b0 k else 0)) - y a.
Lemma dr_solved a : g_all_constrained g -> (a < N)%nat -> mv N gS (mv N (g_Vi g) dr) a = rho a.
Proof.
  intros AC Ha. rewrite gS_mv, V_Vi by auto. rewrite (dr_eq a) by auto. set (u := mv N (g_Vi g) dr). unfold rho.
  transitivity (sm n (fun i => g_A g a i * (wx i * At u i) + g_A g a i * dx i) + sm m (fun k => g_Ab g a k * (wb k * Abt u k) + g_Ab g a k * db k) - y a); [rewrite !sm_plus; ring|].
  f_equal. f_equal; apply sm_ext; intros i Hi.
  - unfold wx. destruct (g_fx g i) eqn:F; [|rewrite (dx_frozen i Hi F); ring]. assert (P := AC i Hi F). rewrite Reqb_false by lra.
    assert (G := grad_x i Hi F). fold u in G. replace (At u i) with (g_cw g i * (x0 i - dx i)) by lra. field. lra.
  - unfold wb. destruct (g_fb g i) eqn:F; [|rewrite (db_masked i Hi F); ring]. assert (P := s_pos i Hi F).
    assert (G := grad_b i Hi F). fold u in G. replace (Abt u i) with (g_s g i * (b0 i - db i)) by lra. field. lra.
Qed.
(** its product with any z *)
Lemma dr_dot z w : g_all_constrained g -> (forall a, (a < N)%nat -> mv N gS w a = mv N (g_V g) z a) -> sm N (fun a => dr a * z a) = sm N (fun a => rho a * w a).
Proof.
  intros AC W. transitivity (sm N (fun a => mv N (g_Vi g) dr a * mv N gS w a)).
  - rewrite (sm_ext N (fun a => mv N (g_Vi g) dr a * mv N gS w a) (fun a => mv N (g_Vi g) dr a * mv N (g_V g) z a)) by (intros; rewrite W by auto; auto).
    rewrite symm_dot by apply V_sym. apply sm_ext. intros a Ha. rewrite V_Vi by auto. auto.
  - rewrite symm_dot by apply gS_sym. apply sm_ext. intros a Ha. rewrite dr_solved by auto. auto.
Qed.
(** a floating parameter without constraint *)
Lemma dr_free i : (i < n)%nat -> g_fx g i = true -> g_cw g i = 0 -> sm N (fun a => dr a * mv N (g_Vi g) (fun c => g_A g c i) a) = 0.
Proof.
  intros Hi F Zc. assert (G := grad_x i Hi F). rewrite Zc in G. rewrite symm_dot by apply Vi_sym. unfold At in G.
  rewrite (sm_ext N _ (fun a => g_A g a i * mv N (g_Vi g) dr a)) by (intros; ring). lra.
Qed.
End Source.

Definition dres_x0 : nat -> nat -> R := dndvar n C (g_pdx g J) (fun _ _ => 0) (g_mixed_x0 g).
Definition dres_n : nat -> nat -> R := dndvar n C (g_pdx g J) (g_pdn g Y) (g_mixed g (g_pdn g Y)).
Definition dres_b : nat -> nat -> R := dndvar n C (g_pdx g J) (g_pdb g Z) (g_mixed g (g_pdb g Z)).
Lemma At_0 f i : (forall a, (a < N)%nat -> f a = 0) -> At f i = 0.
Proof. intros H. unfold At. apply sm_0. intros a Ha. rewrite H by auto. ring. Qed.
Lemma follows_0 : beta_follows g (fun _ => 0) (fun _ => 0) (fun _ => 0).
Proof. intros k Hk. destruct (g_fb g k); auto. fold N. rewrite sm_0; [ring|]. intros a Ha. rewrite sm_0; [ring|]. intros; ring. Qed.
Lemma mixed_x0 i j : (j < n)%nat -> g_fx g j = true -> g_mixed_x0 g j i = At (mv N (g_Vi g) (fun _ => 0)) j - g_cw g j * delta j i.
Proof. intros Hj F. unfold g_mixed_x0. rewrite F. rewrite At_0; [unfold delta; ring|]. intros a Ha. unfold mv. apply sm_0. intros; ring. Qed.
Lemma mixed_e e v j : (j < n)%nat -> g_fx g j = true -> g_mixed g e j v = At (mv N (g_Vi g) (fun a => e a v)) j - g_cw g j * 0.
Proof. intros Hj F. unfold g_mixed. rewrite F. unfold At, mv. fold N. ring. Qed.
Lemma dot_x0 z w i : g_all_constrained g -> (forall a, (a < N)%nat -> mv N gS w a = mv N (g_V g) z a) -> (i < n)%nat ->
  sm N (fun a => dres_x0 a i * z a) = if g_fx g i then At w i else 0.
Proof.
  intros AC W Hi. transitivity (sm N (fun a => rho (fun j => delta j i) (fun _ => 0) (fun _ => 0) a * w a)).
  - apply (dr_dot (fun _ => 0) (fun _ => 0) (fun j => delta j i) (fun _ => 0) (fun _ => 0) (fun j => g_mixed_x0 g j i)); auto.
    + intros a Ha. rewrite sm_0; [ring|]. intros; ring.
    + apply follows_0.
    + intros j Hj F. apply mixed_x0; auto.
  - unfold rho. rewrite (sm_ext N _ (fun a => (if g_fx g i then 1 else 0) * (g_A g a i * w a))).
    + rewrite sm_scal. fold (At w i). destruct (g_fx g i); ring.
    + intros a Ha. rewrite (sm_0 m) by (intros k _; destruct (g_fb g k); ring).
      rewrite (sm_ext n _ (fun j => (if g_fx g j then g_A g a j else 0) * delta j i)) by (intros j _; destruct (g_fx g j); ring).
      rewrite (sm_delta' n i (fun j => if g_fx g j then g_A g a j else 0) Hi). destruct (g_fx g i); ring.
Qed.
Lemma dot_n z w l : g_all_constrained g -> (forall a, (a < N)%nat -> mv N gS w a = mv N (g_V g) z a) -> (l < N)%nat ->
  sm N (fun a => dres_n a l * z a) = - w l.
Proof.
  intros AC W Hl. transitivity (sm N (fun a => rho (fun _ => 0) (fun _ => 0) (fun a => delta a l) a * w a)).
  - apply (dr_dot (fun a => g_pdn g Y a l) (fun k => Y k l) (fun _ => 0) (fun _ => 0) (fun a => delta a l) (fun j => g_mixed g (g_pdn g Y) j l)); auto.
    + apply (proj1 (proj2 RS) l Hl).
    + intros j Hj F. apply mixed_e; auto.
  - unfold rho. rewrite (sm_ext N _ (fun a => -1 * (delta l a * w a))).
    + rewrite sm_scal, sm_delta by auto. ring.
    + intros a Ha. rewrite (sm_0 m) by (intros k _; destruct (g_fb g k); ring). rewrite (sm_0 n) by (intros k _; destruct (g_fx g k); ring). rewrite (delta_sym a l). ring.
Qed.
Lemma dot_b z w k : g_all_constrained g -> (forall a, (a < N)%nat -> mv N gS w a = mv N (g_V g) z a) -> (k < m)%nat ->
  sm N (fun a => dres_b a k * z a) = if g_fb g k then Abt w k else 0.
Proof.
  intros AC W Hk. transitivity (sm N (fun a => rho (fun _ => 0) (fun l => delta l k) (fun _ => 0) a * w a)).
  - apply (dr_dot (fun a => g_pdb g Z a k) (fun l => Z l k) (fun _ => 0) (fun l => delta l k) (fun _ => 0) (fun j => g_mixed g (g_pdb g Z) j k)); auto.
    + intros a Ha. unfold g_pdb, resp. fold m. ring.
    + apply (proj2 (proj2 RS) k Hk).
    + intros j Hj F. apply mixed_e; auto.
  - unfold rho. rewrite (sm_ext N _ (fun a => (if g_fb g k then 1 else 0) * (g_Ab g a k * w a))).
    + rewrite sm_scal. fold (Abt w k). destruct (g_fb g k); ring.
    + intros a Ha. rewrite (sm_0 n) by (intros i _; destruct (g_fx g i); ring).
      rewrite (sm_ext m _ (fun j => (if g_fb g j then g_Ab g a j else 0) * delta j k)) by (intros j _; destruct (g_fb g j); ring).
      rewrite (sm_delta' m k (fun j => if g_fb g j then g_Ab g a j else 0) Hk). destruct (g_fb g k); ring.
Qed.
Section Cov.
Variables (U : data_unc) (msk : nat -> bool) (s smix : nat -> R).
Hypothesis DU : data_of g U.
Hypothesis HB : forall k, (k < m)%nat -> g_fb g k = negb (msk k) /\ (msk k = false -> s k = g_s g k /\ smix k = - g_s g k).
Let vb := var_beta0 msk s smix.
Lemma vb_eq k : (k < m)%nat -> vb k = wb k.
Proof.
  intros Hk. unfold vb, var_beta0, wb. destruct (HB k Hk) as (E & H). rewrite E. destruct (msk k) eqn:M; cbn [negb] in *; auto. destruct (H eq_refl) as (-> & ->).
  assert (P := s_pos k Hk E). field. lra.
Qed.
Lemma var_x0_eq i : (i < n)%nat -> g_fx g i = true -> var_x0 (g_cw g) i = wx i.
Proof. intros Hi F. unfold var_x0, wx. rewrite F. auto. Qed.
Lemma res_cov_form : exists cov, residuals_profiled_cov n N N (g_cw g) U (Some (m, vb)) dres_x0 dres_n dres_b = Ok cov /\
  (forall z z', sm N (fun a => z' a * mv N cov z a) = sm n (fun i => sm N (fun a => dres_x0 a i * z' a) * (var_x0 (g_cw g) i * sm N (fun b => dres_x0 b i * z b)))
    + sm N (fun k => sm N (fun a => dres_n a k * z' a) * mv N (g_V g) (fun l => sm N (fun b => dres_n b l * z b)) k)
    + sm m (fun k => sm N (fun a => dres_b a k * z' a) * (vb k * sm N (fun b => dres_b b k * z b)))).
Proof.
  unfold residuals_profiled_cov. destruct (data_cov_spec U N dres_n DU) as (st & -> & HS). cbn [rbind]. eexists. split; [reflexivity|]. intros z z'.
  rewrite <- (sandwich N n dres_x0 (var_x0 (g_cw g)) z' z). rewrite <- (sandwich N m dres_b vb z' z).
  assert (E : sm N (fun k => sm N (fun a => dres_n a k * z' a) * mv N (g_V g) (fun l => sm N (fun b => dres_n b l * z b)) k) = sm N (fun a => z' a * sm N (fun b => st a b * z b))).
  { transitivity (sm N (fun a => z' a * sm N (fun k => dres_n a k * mv N (g_V g) (fun l => sm N (fun b => dres_n b l * z b)) k))).
    - rewrite (sm_ext N _ (fun k => sm N (fun a => z' a * (dres_n a k * mv N (g_V g) (fun l => sm N (fun b => dres_n b l * z b)) k)))) by (intros; rewrite <- sm_scalr; apply sm_ext; intros; ring).
      rewrite sm_swap. apply sm_ext. intros. rewrite sm_scal. auto.
    - apply sm_ext. intros a Ha. f_equal.
      rewrite (sm_ext N (fun b => st a b * z b) (fun b => sm N (fun k => dres_n a k * mv N (g_V g) (dres_n b) k * z b))) by (intros b Hb; rewrite HS by auto; rewrite sm_scalr; auto).
      rewrite sm_swap. apply sm_ext. intros k Hk. rewrite (sm_ext N _ (fun b => dres_n a k * (mv N (g_V g) (dres_n b) k * z b))) by (intros; ring). rewrite sm_scal. f_equal.
      unfold mv. rewrite (sm_ext N (fun l => g_V g k l * sm N _) (fun l => sm N (fun b => g_V g k l * dres_n b l * z b))) by (intros; rewrite <- sm_scal; apply sm_ext; intros; ring).
      rewrite sm_swap. apply sm_ext. intros. rewrite sm_scalr. auto. }
  rewrite E, <- !sm_plus. apply sm_ext. intros a Ha. unfold mv. rewrite <- !Rmult_plus_distr_l. f_equal. rewrite <- !sm_plus. apply sm_ext. intros; ring.
Qed.
Lemma gS_solve x : exists w, forall a, (a < N)%nat -> mv N gS w a = x a.
Proof.
  destruct (gsolve_regular N gS x (posdef_regular N gS gS_pos)) as (w & E). exists w. intros a Ha. apply (gsolve_ok _ _ _ _ E a Ha).
Qed.
Lemma dot_unit (f : nat -> R) a : (a < N)%nat -> sm N (fun b => delta a b * f b) = f a.
Proof. intros Ha. apply sm_delta. auto. Qed.
Lemma res_cov_sym cov : (forall z z', sm N (fun a => z' a * mv N cov z a) = sm n (fun i => sm N (fun a => dres_x0 a i * z' a) * (var_x0 (g_cw g) i * sm N (fun b => dres_x0 b i * z b)))
    + sm N (fun k => sm N (fun a => dres_n a k * z' a) * mv N (g_V g) (fun l => sm N (fun b => dres_n b l * z b)) k)
    + sm m (fun k => sm N (fun a => dres_b a k * z' a) * (vb k * sm N (fun b => dres_b b k * z b)))) ->
  forall z z', sm N (fun a => z' a * mv N cov z a) = sm N (fun a => z a * mv N cov z' a).
Proof.
  intros H z z'. rewrite !H. f_equal; [f_equal|].
  - apply sm_ext. intros; ring.
  - rewrite symm_dot by apply V_sym. apply sm_ext. intros; ring.
  - apply sm_ext. intros; ring.
Qed.
Theorem postfit_chi2 dx db : g_all_constrained g -> g_fitted g dx db ->
  exists cov, residuals_profiled_cov n N N (g_cw g) U (Some (m, vb)) dres_x0 dres_n dres_b = Ok cov /\
    exists v, chi2_solve N (g_res g dx db) cov = Ok v /\ is_minimum (g_move g) (g_loss g) v.
Proof.
  intros AC (MV & FM). destruct res_cov_form as (cov & E & H). exists cov. split; auto.
  assert (MC : forall x b, g_move g x b -> g_move_constrained g x b).
  { intros x b (M1 & M2). split; [split; auto|]. intros i Hi Zc. destruct (g_fx g i) eqn:F; [assert (P := AC i Hi F); lra|]. apply M1; auto. }
  assert (MC' : forall x b, g_move_constrained g x b -> g_move g x b) by (intros x b (M & _); auto).
  assert (MM : forall v, is_minimum (g_move_constrained g) (g_loss g) v -> is_minimum (g_move g) (g_loss g) v).
  { intros v ((x & b & M & L) & Q). split; [exists x, b; auto|]. intros x' b' M'. apply Q. apply MC. auto. }
  destruct (gS_solve (g_res g (fun _ => 0) (fun _ => 0))) as (t & St).
  assert (Mn := min_value t St).
  assert (RT : forall a, (a < N)%nat -> g_res g dx db a = mv N (g_V g) t a).
  { apply (min_res t St); [apply MC; auto|]. destruct Mn as ((x & b & M & <-) & _). apply FM. apply MC'. auto. }
  assert (B : forall z w, (forall a, (a < N)%nat -> mv N gS w a = mv N (g_V g) z a) -> forall a, (a < N)%nat -> mv N cov z a = mv N (g_V g) w a).
  { intros z w W a Ha. destruct (gS_solve (mv N (g_V g) (delta a))) as (w' & W').
    transitivity (sm N (fun b => delta a b * mv N cov z b)); [symmetry; apply dot_unit; auto|]. rewrite H.
    transitivity (sm N (fun b => w' b * mv N gS w b)).
    - rewrite gS_dot. match goal with |- ?a + ?b + ?c = ?d + ?e + ?f => enough (X : a = d /\ b = f /\ c = e) by lra end. split; [|split].
      + apply sm_ext. intros i Hi. rewrite (dot_x0 (delta a) w' i AC W' Hi), (dot_x0 z w i AC W Hi). destruct (g_fx g i) eqn:F; [rewrite var_x0_eq by auto; ring|unfold wx; rewrite F; ring].
      + apply sm_ext. intros k Hk. rewrite (dot_n (delta a) w' k AC W' Hk).
        rewrite (mv_ext N (g_V g) (g_V g) _ (fun l => -1 * w l)); [| |intros l Hl; rewrite (dot_n z w l AC W Hl); ring|auto].
        * assert (X : mv N (g_V g) (fun l => -1 * w l) k = - mv N (g_V g) w k).
          { unfold mv. rewrite (sm_ext N _ (fun l => -1 * (g_V g k l * w l))) by (intros; ring). rewrite sm_scal. ring. }
          rewrite X. ring.
        * auto.
      + apply sm_ext. intros k Hk. rewrite (dot_b (delta a) w' k AC W' Hk), (dot_b z w k AC W Hk), vb_eq by auto. destruct (g_fb g k) eqn:F; [ring|unfold wb; rewrite F; ring].
    - rewrite symm_dot by apply gS_sym. rewrite (sm_ext N _ (fun b => w b * mv N (g_V g) (delta a) b)) by (intros; rewrite W' by auto; ring).
      rewrite symm_dot by apply V_sym. rewrite (sm_ext N _ (fun b => delta a b * mv N (g_V g) w b)) by (intros; ring). apply dot_unit. auto. }
  assert (RG : regular N cov).
  { intros z Hz. destruct (gS_solve (mv N (g_V g) z)) as (w & W). assert (Z0 : forall a, (a < N)%nat -> w a = 0).
    { apply (posdef_inj N (g_V g) w V_pos). intros a Ha. rewrite <- (B z w W a Ha). apply Hz. auto. }
    apply (posdef_inj N (g_V g) z V_pos). intros a Ha. rewrite <- W by auto. unfold mv. apply sm_0. intros k Hk. rewrite Z0 by auto. ring. }
  destruct (gsolve_regular N cov (g_res g dx db) RG) as (x & Gx). unfold chi2_solve, tsolve. rewrite Gx. cbn [rbind]. eexists. split; [reflexivity|]. apply MM.
  destruct (gS_solve (mv N (g_V g) x)) as (w & W).
  assert (Wt : forall a, (a < N)%nat -> w a = t a).
  { intros a Ha. apply Rminus_diag_uniq. apply (posdef_inj N (g_V g) (fun a => w a - t a) V_pos); auto. intros k Hk. rewrite mv_minus.
    rewrite <- (B x w W k Hk), (gsolve_ok _ _ _ _ Gx k Hk), RT by auto. ring. }
  replace (sm N (fun a => g_res g dx db a * x a)) with (sm N (fun a => g_res g (fun _ => 0) (fun _ => 0) a * t a)); [exact Mn|].
  rewrite (sm_ext N (fun a => g_res g dx db a * x a) (fun a => mv N (g_V g) t a * x a)) by (intros; rewrite RT by auto; auto).
  rewrite <- symm_dot by apply V_sym. apply sm_ext. intros a Ha. rewrite <- W, <- St by auto. rewrite Rmult_comm. f_equal. unfold mv. apply sm_ext. intros k Hk. rewrite Wt by auto. auto.
Qed.
(** a floating parameter without constraint makes the covariance of the residuals singular *)
Theorem postfit_chi2_free res i : (i < n)%nat -> g_fx g i = true -> g_cw g i = 0 ->
  exists cov, residuals_profiled_cov n N N (g_cw g) U (Some (m, vb)) dres_x0 dres_n dres_b = Ok cov /\ chi2_solve N res cov = Raise GenericException.
Proof.
  intros Hi F Zc. destruct res_cov_form as (cov & E & H). exists cov. split; auto. set (z := mv N (g_Vi g) (fun c => g_A g c i)).
  assert (D1 : forall j, (j < n)%nat -> sm N (fun a => dres_x0 a j * z a) = 0).
  { intros j Hj. apply (dr_free (fun _ => 0) (fun j' => delta j' j) (fun j' => g_mixed_x0 g j' j)); auto. intros j' Hj' F'. apply mixed_x0; auto. }
  assert (D2 : forall l, (l < N)%nat -> sm N (fun a => dres_n a l * z a) = 0).
  { intros l Hl. apply (dr_free (fun a => g_pdn g Y a l) (fun _ => 0) (fun j => g_mixed g (g_pdn g Y) j l)); auto. intros j' Hj' F'. apply mixed_e; auto. }
  assert (D3 : forall k, (k < m)%nat -> sm N (fun a => dres_b a k * z a) = 0).
  { intros k Hk. apply (dr_free (fun a => g_pdb g Z a k) (fun _ => 0) (fun j => g_mixed g (g_pdb g Z) j k)); auto. intros j' Hj' F'. apply mixed_e; auto. }
  assert (K : forall y, sm N (fun a => y a * mv N cov z a) = 0).
  { intros y. rewrite H. rewrite (sm_0 n) by (intros j Hj; rewrite D1 by auto; ring). rewrite (sm_0 m) by (intros j Hj; rewrite (D3 j Hj); ring).
    rewrite (sm_0 N (fun k => _ * mv N _ _ k)); [ring|]. intros k Hk. unfold mv. rewrite (sm_0 N (fun j => g_V g k j * _)); [ring|]. intros j Hj. rewrite D2 by auto. ring. }
  unfold chi2_solve, tsolve. destruct (gsolve N cov res) as [x|] eqn:G; [|reflexivity]. exfalso.
  destruct (gsolve_indep N cov res z x G) as (y & Gy).
  assert (ZZ : sm N (fun a => z a * z a) = 0).
  { transitivity (sm N (fun a => z a * mv N cov y a)); [apply sm_ext; intros a Ha; rewrite (gsolve_ok _ _ _ _ Gy a Ha); auto|]. rewrite (res_cov_sym cov H). apply K. }
  assert (Z0 := vdot_self_0 N z ZZ).
  assert (A0 : forall c, (c < N)%nat -> g_A g c i = 0).
  { intros c Hc. transitivity (mv N (g_V g) z c); [symmetry; apply (V_Vi (fun c => g_A g c i) c Hc)|]. unfold mv. apply sm_0. intros k Hk. rewrite Z0 by auto. ring. }
  assert (CC := GC i i Hi Hi). rewrite F, Nat.eqb_refl in CC. cbn [andb] in CC. fold n in CC. rewrite sm_0 in CC; [lra|].
  intros l Hl. unfold g_hess. fold N. rewrite Zc. rewrite (sm_0 N); [ring|]. intros a Ha. rewrite A0 by auto. ring.
Qed.
End Cov.
End Post.
End Gauss.

Theorem pinv_spec rows cov Pi res x : sym rows cov -> penrose rows cov Pi -> (forall a, (a < rows)%nat -> mv rows cov x a = res a) ->
  chi2_pinv rows res Pi = sm rows (fun a => x a * res a).
Proof.
  intros S (P & _) E. unfold chi2_pinv.
  transitivity (sm rows (fun a => mv rows cov x a * mv rows Pi (mv rows cov x) a)).
  - apply sm_ext. intros a Ha. rewrite E by auto. unfold mv at 1. rewrite <- sm_scal. apply sm_ext. intros b Hb. rewrite E by auto. ring.
  - rewrite <- symm_dot by auto. apply sm_ext. intros a Ha. rewrite P, E by auto. auto.
Qed.
Lemma count_ext n : forall p q, (forall i, (i < n)%nat -> p i = q i) -> count n p = count n q.
Proof. induction n as [|n IH]; intros p q H; cbn [count]; auto. rewrite (H O) by lia. f_equal. apply IH. intros. apply H. lia. Qed.
Lemma count_all n : forall p, (forall i, (i < n)%nat -> p i = true) -> count n p = n.
Proof. induction n as [|n IH]; intros p H; cbn [count]; auto. rewrite (H O) by lia. cbn [Nat.add]. f_equal. apply IH. intros. apply H. lia. Qed.
Lemma count_add a b : forall p, count (a + b) p = (count a p + count b (fun i => p (a + i)%nat))%nat.
Proof. induction a as [|a IH]; intros p; cbn [count Nat.add]; auto. rewrite IH. lia. Qed.
Theorem ndfsat_spec nobs nparams nsyst nfree fx con : (forall i, (i < nparams + nsyst)%nat -> fx i = true) -> (forall i, (i < nparams)%nat -> con i = false) ->
  count nsyst (fun i => negb (con (nparams + i)%nat)) = nfree ->
  ndfsat nobs nparams nfree = (Z.of_nat nobs - Z.of_nat (free_parameters (nparams + nsyst) fx con))%Z.
Proof.
  intros F C E. unfold ndfsat, free_parameters. rewrite count_add. rewrite (count_all nparams) by (intros i Hi; rewrite F, C by lia; auto).
  rewrite (count_ext nsyst _ (fun i => negb (con (nparams + i)%nat))) by (intros i Hi; rewrite F by lia; auto). rewrite E. lia.
Qed.
(** ** normalised predictions: the bins add up to one, one of them is redundant *)
Lemma sm_S n : forall f, sm (S n) f = sm n f + f n.
Proof. induction n as [|n IH]; intros f; [cbn; ring|]. change (sm (S (S n)) f) with (f O + sm (S n) (fun i => f (S i))). rewrite IH. cbn [sm]. ring. Qed.
Lemma normalised_solution n cov res x : (forall b, (b < S n)%nat -> sm (S n) (fun a => cov a b) = 0) -> sm (S n) res = 0 ->
  (forall a, (a < n)%nat -> mv n cov x a = res a) -> forall a, (a < S n)%nat -> mv (S n) cov (fun k => if Nat.eqb k n then 0 else x k) a = res a.
Proof.
  intros Z Zr E. set (y := fun k => if Nat.eqb k n then 0 else x k).
  assert (M : forall a, mv (S n) cov y a = mv n cov x a).
  { intros a. unfold mv. rewrite sm_S. unfold y at 2. rewrite Nat.eqb_refl. rewrite (sm_ext n (fun k => cov a k * y k) (fun k => cov a k * x k)); [ring|].
    intros k Hk. unfold y. destruct (Nat.eqb_spec k n); [lia|auto]. }
  assert (T : sm (S n) (fun a => mv (S n) cov y a) = 0).
  { unfold mv. rewrite sm_swap. apply sm_0. intros k Hk. rewrite (sm_ext (S n) _ (fun a => y k * cov a k)) by (intros; ring). rewrite sm_scal, Z by auto. ring. }
  intros a Ha. destruct (Nat.eq_dec a n) as [->|N]; [|rewrite M; apply E; lia].
  rewrite sm_S in T, Zr. rewrite (sm_ext n (fun a => mv (S n) cov y a) res) in T by (intros; rewrite M; apply E; auto). lra.
Qed.
Theorem normalised_chi2 n cov Pi res v : sym (S n) cov -> penrose (S n) cov Pi -> (forall b, (b < S n)%nat -> sm (S n) (fun a => cov a b) = 0) -> sm (S n) res = 0 ->
  chi2_solve n res cov = Ok v -> chi2_pinv (S n) res Pi = v /\ chi2_ndf (S n) 1 = Z.of_nat n.
Proof.
  intros S P Z Zr E. split; [|unfold chi2_ndf; lia]. unfold chi2_solve, tsolve in E. destruct (gsolve n cov res) as [x|] eqn:G; [|discriminate]. cbn [rbind] in E. injection E as <-.
  assert (X := gsolve_ok n cov res x G). rewrite (pinv_spec _ cov Pi res _ S P (normalised_solution n cov res x Z Zr X)). rewrite sm_S, Nat.eqb_refl.
  rewrite (sm_ext n _ (fun a => res a * x a)); [ring|]. intros a Ha. destruct (Nat.eqb_spec a n); [lia|ring].
Qed.
(** a normalised prediction and normalised data give such residuals *)
Theorem residuals_normalised n cov bb rows nobs D P pred U G data res c : residuals n cov bb rows nobs D P pred U G data = Ok (res, c) ->
  (forall i, (i < n)%nat -> sm rows (fun a => D a i) = 0) -> (forall k, (k < nbeta bb)%nat -> sm rows (fun a => P a k) = 0) -> (forall k, (k < nobs)%nat -> sm rows (fun a => G a k) = 0) ->
  sm rows pred = sm rows data -> (forall b, (b < rows)%nat -> sm rows (fun a => c a b) = 0) /\ sm rows res = 0.
Proof.
  intros E HD HP HG HN. unfold residuals in E. destruct (data_cov rows nobs U G) as [dc|] eqn:ED; [|discriminate]. cbn [rbind] in E.
  assert (Col : forall m (A : nat -> nat -> R) (w : nat -> R), (forall i, (i < m)%nat -> sm rows (fun a => A a i) = 0) -> sm rows (fun a => sm m (fun i => A a i * w i)) = 0).
  { intros m A w Z. rewrite sm_swap. apply sm_0. intros i Hi. rewrite (sm_ext rows _ (fun a => w i * A a i)) by (intros; ring). rewrite sm_scal, Z by auto. ring. }
  unfold expected_with_variance in E. destruct (row_qs bb rows P) as [qs|] eqn:EQ; [|discriminate]. cbn [rbind] in E. injection E as <- <-. split.
  - intros b Hb. rewrite !sm_plus. rewrite (Col n D) by auto. rewrite (Col (nbeta bb) P) by auto.
    assert (sm rows (fun a => dc a b) = 0) as ->; [|ring]. unfold data_cov in ED. destruct U as [v|Vi].
    + injection ED as <-. rewrite (sm_ext rows _ (fun a => sm nobs (fun k => G a k * (v k * G b k)))) by (intros; apply sm_ext; intros; ring). apply Col. auto.
    + destruct (emap _ _) as [xs|]; [|discriminate]. cbn [rbind] in ED. injection ED as <-. apply Col. auto.
  - rewrite sm_minus, HN. ring.
Qed.
