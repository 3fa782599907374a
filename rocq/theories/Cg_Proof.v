From Coq Require Import Reals List Arith Bool Lra Lia.
From Verif Require Import RBase PyList Mat_Model Mat_Proof Contour_Spec Contour_Proof Cg_Model Cg_Spec.
Import ListNotations.
Open Scope R_scope.

(** ** scalar products *)
Lemma vdot_sym n x y : vdot n x y = vdot n y x.
Proof. apply sm_ext. intros; ring. Qed.
Lemma vdot_lin n x y z c d : vdot n (fun i => c * x i + d * y i) z = c * vdot n x z + d * vdot n y z.
Proof. unfold vdot. rewrite <- !sm_scal, <- sm_plus. apply sm_ext. intros; ring. Qed.
Lemma vdot_ext n x x' y y' : (forall i, (i < n)%nat -> x i = x' i) -> (forall i, (i < n)%nat -> y i = y' i) -> vdot n x y = vdot n x' y'.
Proof. intros A B. apply sm_ext. intros i Hi. rewrite A, B by auto. auto. Qed.
Lemma vdot_pos n x : 0 <= vdot n x x.
Proof. apply sm_nonneg. intros. apply Rle_0_sqr. Qed.
Lemma sm_nonneg_0 n : forall f, (forall i, (i < n)%nat -> 0 <= f i) -> sm n f = 0 -> forall i, (i < n)%nat -> f i = 0.
Proof.
  induction n as [|n IH]; intros f P E i Hi; [lia|]. cbn [sm] in E. assert (P0 := P O ltac:(lia)). assert (PS := sm_nonneg n (fun i => f (S i)) (fun i Hi => P (S i) ltac:(lia))).
  destruct i as [|i]; [lra|]. apply (IH (fun i => f (S i))); [intros; apply P; lia|lra|lia].
Qed.
Lemma vdot_0 n x : vdot n x x = 0 -> forall i, (i < n)%nat -> x i = 0.
Proof. intros E i Hi. assert (Z := sm_nonneg_0 n (fun i => x i * x i) (fun i _ => Rle_0_sqr (x i)) E i Hi). cbv beta in Z. apply Rmult_integral in Z. tauto. Qed.
Lemma mv_lin n A x y c d i : mv n A (fun i => c * x i + d * y i) i = c * mv n A x i + d * mv n A y i.
Proof. unfold mv. rewrite <- !sm_scal, <- sm_plus. apply sm_ext. intros; ring. Qed.
Lemma mv_sym n A x y : sym n A -> vdot n x (mv n A y) = vdot n y (mv n A x).
Proof.
  intros S. unfold vdot, mv. rewrite (sm_ext n (fun i => x i * sm n (fun j => A i j * y j)) (fun i => sm n (fun j => x i * (A i j * y j)))) by (intros; rewrite sm_scal; auto).
  rewrite sm_swap. apply sm_ext. intros j Hj. rewrite <- sm_scal. apply sm_ext. intros i Hi. rewrite (S i j) by auto. ring.
Qed.
(** Bessel: at most n orthogonal vectors that are not zero *)
Lemma sm_const n c : sm n (fun _ => c) = INR n * c.
Proof. induction n as [|n IH]; [cbn; ring|]. cbn [sm]. rewrite IH, S_INR. ring. Qed.
Lemma bessel n K (r : nat -> nat -> R) : (forall i, (i < K)%nat -> 0 < vdot n (r i) (r i)) -> (forall i j, (i < j)%nat -> (j < K)%nat -> vdot n (r i) (r j) = 0) -> (K <= n)%nat.
Proof.
  intros P O. assert (O' : forall i j, (i < K)%nat -> (j < K)%nat -> i <> j -> vdot n (r i) (r j) = 0).
  { intros i j Hi Hj N. destruct (Nat.lt_ge_cases i j); [apply O; auto|]. rewrite vdot_sym. apply O; lia. }
  set (w := fun k => vdot n (r k) (r k)) in *.
  assert (B : forall e, (e < n)%nat -> sm K (fun k => r k e * r k e / w k) <= 1).
  { intros e He. set (z := fun i => delta e i - sm K (fun k => r k e / w k * r k i)). assert (Z := vdot_pos n z).
    assert (E : vdot n z z = 1 - sm K (fun k => r k e * r k e / w k)); [|lra].
    assert (Q : forall y, vdot n z y = y e - sm K (fun k => r k e / w k * vdot n (r k) y)).
    { intros y. unfold z, vdot. rewrite (sm_ext n _ (fun i => delta e i * y i - sm K (fun k => r k e / w k * (r k i * y i)))).
      - rewrite sm_minus, sm_delta by auto. f_equal. rewrite sm_swap. apply sm_ext. intros k Hk. rewrite sm_scal. auto.
      - intros i Hi. rewrite Rmult_minus_distr_r. f_equal. rewrite <- sm_scalr. apply sm_ext. intros; ring. }
    assert (Qk : forall k, (k < K)%nat -> vdot n (r k) z = 0).
    { intros k Hk. rewrite vdot_sym, Q. rewrite (sm_ext K _ (fun l => (r l e / w l * w l) * delta l k)).
      - rewrite sm_delta' by auto. assert (X := P k Hk). fold (w k) in X. field. lra.
      - intros l Hl. unfold delta. destruct (Nat.eqb_spec l k) as [->|N]; [unfold w; ring|]. rewrite O' by auto. ring. }
    rewrite Q. unfold z at 1. rewrite (sm_0 K (fun k => r k e / w k * vdot n (r k) z)) by (intros k Hk; rewrite Qk by auto; ring).
    unfold delta. rewrite Nat.eqb_refl. rewrite Rminus_0_r. f_equal. apply sm_ext. intros; unfold Rdiv; ring. }
  assert (S : INR K <= INR n).
  { assert (E : sm n (fun e => sm K (fun k => r k e * r k e / w k)) = INR K).
    { rewrite sm_swap. rewrite (sm_ext K _ (fun _ => 1)); [rewrite sm_const; ring|]. intros k Hk. unfold Rdiv. rewrite sm_scalr. fold (vdot n (r k) (r k)). fold (w k). assert (X := P k Hk). fold (w k) in X. field. lra. }
    rewrite <- E. rewrite <- (Rmult_1_r (INR n)). rewrite <- (sm_const n 1). clear -B. assert (G := sm_nonneg n (fun e => 1 - sm K (fun k => r k e * r k e / w k))).
    rewrite sm_minus in G. assert (0 <= sm n (fun _ => 1) - sm n (fun e => sm K (fun k => r k e * r k e / w k))); [|lra]. apply G. intros i Hi. assert (X := B i Hi). lra. }
  apply INR_le. auto.
Qed.

(** ** the iterates *)
Section CG.
  Variables (n : nat) (H : nat -> nat -> R) (frozen : nat -> bool) (b : nat -> R).
  Hypothesis (FM : floating_min n H frozen) (FR : frozen_rows n H frozen) (Fb : floating_move n frozen b).
  Let sH : sym n H := proj1 FM.
  (** x, r and p before step k *)
  Fixpoint it (k : nat) : (nat -> R) * (nat -> R) * (nat -> R) :=
    match k with
    | O => (fun _ => 0, b, b)
    | S k => match it k with (x, r, p) =>
        let q := mv n H p in let a := vdot n r r / vdot n p q in let r' := fun i => r i - a * q i in
        (fun i => x i + a * p i, r', fun i => p i * (vdot n r' r' / vdot n r r) + r' i)
      end
    end.
  Definition ix k := fst (fst (it k)).
  Definition ir k := snd (fst (it k)).
  Definition ip k := snd (it k).
  Definition ia k := vdot n (ir k) (ir k) / vdot n (ip k) (mv n H (ip k)).
  Definition ib k := vdot n (ir (S k)) (ir (S k)) / vdot n (ir k) (ir k).
  Lemma ix_S k i : ix (S k) i = ix k i + ia k * ip k i.
  Proof. unfold ia, ix, ir, ip. cbn [it]. destruct (it k) as [[x r] p]. reflexivity. Qed.
  Lemma ir_S k i : ir (S k) i = ir k i - ia k * mv n H (ip k) i.
  Proof. unfold ia, ix, ir, ip. cbn [it]. destruct (it k) as [[x r] p]. reflexivity. Qed.
  Lemma ip_S k i : ip (S k) i = ip k i * ib k + ir (S k) i.
  Proof. unfold ib, ix, ir, ip. cbn [it]. destruct (it k) as [[x r] p]. reflexivity. Qed.
  Definition NZ k := forall i, (i <= k)%nat -> 0 < vdot n (ir i) (ir i).
  Lemma mv_move p : floating_move n frozen (mv n H p).
  Proof. intros i Hi F. unfold mv. apply sm_0. intros j Hj. rewrite FR by auto. ring. Qed.
  Lemma moves k : floating_move n frozen (ix k) /\ floating_move n frozen (ir k) /\ floating_move n frozen (ip k).
  Proof.
    induction k as [|k (A & B & C)]; [split; [intros i _ _; reflexivity|split; exact Fb]|].
    assert (B' : floating_move n frozen (ir (S k))) by (intros i Hi F; rewrite ir_S, (B i Hi F), (mv_move _ i Hi F); ring).
    split; [|split; auto]; intros i Hi F.
    - rewrite ix_S, (A i Hi F), (C i Hi F). ring.
    - rewrite ip_S, (B' i Hi F), (C i Hi F). ring.
  Qed.
  Lemma res k i : (i < n)%nat -> ir k i = b i - mv n H (ix k) i.
  Proof.
    intros Hi. induction k as [|k IH].
    - assert (Z : mv n H (ix 0) i = 0) by (unfold mv; apply sm_0; intros; unfold ix; cbn; ring). rewrite Z. unfold ir. cbn. ring.
    - rewrite ir_S, IH. assert (E : mv n H (ix (S k)) i = mv n H (ix k) i + ia k * mv n H (ip k) i).
      { rewrite (mv_ext n H H (ix (S k)) (fun i => 1 * ix k i + ia k * ip k i)) by (auto; intros; rewrite ix_S; ring). rewrite mv_lin. ring. }
      rewrite E. ring.
  Qed.
  Lemma dot_rS k y : vdot n (ir (S k)) y = vdot n (ir k) y - ia k * vdot n (mv n H (ip k)) y.
  Proof. rewrite (vdot_ext n _ (fun i => 1 * ir k i + (- ia k) * mv n H (ip k) i) y y) by (auto; intros; rewrite ir_S; ring). rewrite vdot_lin. ring. Qed.
  Lemma dot_pS k y : vdot n (ip (S k)) y = ib k * vdot n (ip k) y + vdot n (ir (S k)) y.
  Proof. rewrite (vdot_ext n _ (fun i => ib k * ip k i + 1 * ir (S k) i) y y) by (auto; intros; rewrite ip_S; ring). rewrite vdot_lin. ring. Qed.
  Lemma dot_xS k y : vdot n (ix (S k)) y = vdot n (ix k) y + ia k * vdot n (ip k) y.
  Proof. rewrite (vdot_ext n _ (fun i => 1 * ix k i + ia k * ip k i) y y) by (auto; intros; rewrite ix_S; ring). rewrite vdot_lin. ring. Qed.
  Lemma php_pos k : 0 < vdot n (ip k) (ir k) -> 0 < vdot n (ip k) (mv n H (ip k)).
  Proof.
    intros P. change (0 < quad n H (ip k)). rewrite <- form_quad. apply FM; [apply moves|]. destruct (nonzero_dec n (ip k)) as [N|Z]; auto. exfalso.
    unfold vdot in P. rewrite sm_0 in P; [lra|]. intros i Hi. rewrite Z by auto. ring.
  Qed.
  (** orthogonality and conjugacy *)
  Lemma orth k : NZ k -> vdot n (ip k) (ir k) = vdot n (ir k) (ir k) /\
    (forall i j, (i < j)%nat -> (j <= k)%nat -> vdot n (ir j) (ir i) = 0 /\ vdot n (ir j) (ip i) = 0 /\ vdot n (ip j) (mv n H (ip i)) = 0) /\
    forall i, (i <= k)%nat -> 0 < vdot n (ip i) (mv n H (ip i)).
  Proof.
    induction k as [|k IH]; intros Z.
    - split; [reflexivity|]. split; [intros; lia|]. intros i Hi. assert (i = O) by lia. subst. apply php_pos. apply (Z O). lia.
    - assert (Zk : NZ k) by (intros i Hi; apply Z; lia). destruct (IH Zk) as (PR & OC & PP). assert (Rk := Z k ltac:(lia)). assert (RS := Z (S k) ltac:(lia)). assert (Pk := PP k ltac:(lia)).
      assert (AK : ia k * vdot n (ip k) (mv n H (ip k)) = vdot n (ir k) (ir k)) by (unfold ia; field; lra).
      assert (RP : forall i, (i <= k)%nat -> vdot n (ir (S k)) (ip i) = 0).
      { intros i Hi. rewrite dot_rS. rewrite (vdot_sym n (mv n H (ip k))), (mv_sym n H (ip i) (ip k) sH). destruct (Nat.eq_dec i k) as [->|N].
        - rewrite (vdot_sym n (ir k)), PR. rewrite AK. ring.
        - destruct (OC i k) as (_ & A & B); [lia|lia|]. rewrite A, B. ring. }
      assert (RR : forall i, (i <= k)%nat -> vdot n (ir (S k)) (ir i) = 0).
      { intros [|i] Hi; [apply (RP O); lia|]. assert (E := dot_pS i (ir (S k))). rewrite (vdot_sym n (ip (S i))), (vdot_sym n (ip i)), (vdot_sym n (ir (S i))) in E.
        rewrite (RP (S i)), (RP i) in E by lia. lra. }
      assert (PS : vdot n (ip (S k)) (ir (S k)) = vdot n (ir (S k)) (ir (S k))).
      { rewrite dot_pS. rewrite (vdot_sym n (ip k)), (RP k) by lia. ring. }
      assert (HQ : forall i y, (i <= k)%nat -> ia i * vdot n y (mv n H (ip i)) = vdot n y (ir i) - vdot n y (ir (S i))).
      { intros i y Hi. rewrite (vdot_sym n y (ir (S i))), dot_rS, (vdot_sym n (ir i)), (vdot_sym n (mv n H (ip i))). ring. }
      assert (AZ : forall i, (i <= k)%nat -> 0 < ia i).
      { intros i Hi. unfold ia. apply Rdiv_lt_0_compat; [apply Z; lia|apply PP; lia]. }
      assert (PH : forall i, (i <= k)%nat -> vdot n (ip (S k)) (mv n H (ip i)) = 0).
      { intros i Hi. assert (A := AZ i Hi). assert (Q := HQ i (ir (S k)) Hi). rewrite dot_pS. destruct (Nat.eq_dec i k) as [->|N].
        - rewrite (RR k) in Q by lia. apply (Rmult_eq_reg_l (ia k)); [|lra]. rewrite Rmult_0_r, Rmult_plus_distr_l, Q.
          replace (ia k * (ib k * vdot n (ip k) (mv n H (ip k)))) with (ib k * (ia k * vdot n (ip k) (mv n H (ip k)))) by ring. rewrite AK. unfold ib. field. lra.
        - destruct (OC i k) as (_ & _ & C); [lia|lia|]. rewrite C. rewrite (RR i), (RR (S i)) in Q by lia. apply (Rmult_eq_reg_l (ia i)); [|lra]. lra. }
      split; auto. split.
      + intros i j Hij Hj. destruct (Nat.eq_dec j (S k)) as [->|N]; [|apply OC; lia]. split; [apply RR; lia|split; [apply RP; lia|apply PH; lia]].
      + intros i Hi. destruct (Nat.eq_dec i (S k)) as [->|N]; [|apply PP; lia]. apply php_pos. rewrite PS. auto.
  Qed.
  Lemma steps k : NZ k -> (S k <= n)%nat.
  Proof.
    intros Z. apply (bessel n (S k) ir); [intros i Hi; apply Z; lia|]. intros i j Hij Hj. rewrite vdot_sym. apply (orth k Z); lia.
  Qed.
  Lemma x_orth k : (forall i, (i < k)%nat -> 0 < vdot n (ir i) (ir i)) -> vdot n (ix k) (ir k) = 0.
  Proof.
    intros Z. destruct k as [|k]; [apply sm_0; intros; unfold ix; cbn; ring|]. assert (Zk : NZ k) by (intros i Hi; apply Z; lia). destruct (orth k Zk) as (PR & OC & PP).
    assert (RP : forall i, (i <= k)%nat -> vdot n (ip i) (ir (S k)) = 0).
    { intros i Hi. rewrite vdot_sym, dot_rS, (vdot_sym n (mv n H (ip k))), (mv_sym n H (ip i) (ip k) sH). assert (Pk := PP k ltac:(lia)). destruct (Nat.eq_dec i k) as [->|N].
      - rewrite (vdot_sym n (ir k)), PR. unfold ia. field. lra.
      - destruct (OC i k) as (_ & A & B); [lia|lia|]. rewrite A, B. ring. }
    assert (G : forall j, (j <= S k)%nat -> vdot n (ix j) (ir (S k)) = 0); [|apply G; lia].
    induction j as [|j IH]; intros Hj; [apply sm_0; intros; unfold ix; cbn; ring|]. rewrite dot_xS, IH, RP by lia. ring.
  Qed.
  (** the loop returns an iterate *)
  Lemma norm_lt tol v : vnorm n v < tol -> vdot n v v <= tol ^ 2.
  Proof.
    intros L. assert (P := sqrt_pos (vdot n v v)). unfold vnorm in L. rewrite <- (sqrt_sqrt (vdot n v v)) by apply vdot_pos. replace (tol ^ 2) with (tol * tol) by ring. apply Rmult_le_compat; lra.
  Qed.
  Lemma norm_ge tol v : 0 < tol -> tol <= vnorm n v -> 0 < vdot n v v.
  Proof.
    intros T L. unfold vnorm in L. destruct (vdot_pos n v) as [|E]; auto. rewrite <- E, sqrt_0 in L. lra.
  Qed.
  Lemma loop_ok tol : 0 < tol -> forall fuel k, (n < k + fuel)%nat -> (forall i, (i < k)%nat -> 0 < vdot n (ir i) (ir i)) ->
    exists j, cg_loop n (mv n H) tol fuel (match k with O => None | S k' => Some (ip k', vdot n (ir k') (ir k')) end) (ix k) (ir k) = CgInfo0 (ix j) /\
      vnorm n (ir j) < tol /\ forall i, (i < j)%nat -> 0 < vdot n (ir i) (ir i).
  Proof.
    intros T. induction fuel as [|fuel IH]; intros k Hk Z.
    - exfalso. destruct k as [|k]; [lia|]. assert (X := steps k ltac:(intros i Hi; apply Z; lia)). lia.
    - cbn [cg_loop]. destruct (Rltb (vnorm n (ir k)) tol) eqn:E.
      + exists k. split; auto. split; auto. unfold Rltb in E. destruct (Rlt_dec (vnorm n (ir k)) tol); [auto|discriminate].
      + assert (Lk : tol <= vnorm n (ir k)) by (unfold Rltb in E; destruct (Rlt_dec (vnorm n (ir k)) tol); [discriminate|lra]).
        assert (Zk : NZ k). { intros i Hi. destruct (Nat.eq_dec i k) as [->|N]; [eapply norm_ge; eauto|apply Z; lia]. }
        destruct (orth k Zk) as (_ & _ & PP). assert (Pk := PP k ltac:(lia)). cbv zeta.
        assert (EP : match match k with O => None | S k' => Some (ip k', vdot n (ir k') (ir k')) end with
                     | Some (p, rho_prev) => if Reqb rho_prev 0 then None else Some (fun i => p i * (vdot n (ir k) (ir k) / rho_prev) + ir k i)
                     | None => Some (ir k) end = Some (ip k)).
        { destruct k as [|k]; auto. rewrite Reqb_false by (assert (X := Z k ltac:(lia)); lra). unfold ip at 2. unfold ir. cbn [it]. destruct (it k) as [[x r] p] eqn:Ek. unfold ip. rewrite Ek. reflexivity. }
        rewrite EP. rewrite Reqb_false by lra. destruct (IH (S k)) as (j & E1 & E2 & E3); [lia|intros i Hi; apply Zk; lia|].
        exists j. split; [|auto]. rewrite <- E1. f_equal; unfold ix, ir, ip; cbn [it]; destruct (it k) as [[x r] p]; reflexivity.
  Qed.
End CG.

Lemma norm_zero n v : vnorm n v = 0 -> forall i, (i < n)%nat -> v i = 0.
Proof. intros E. apply vdot_0. unfold vnorm in E. apply sqrt_eq_0 in E; auto. apply vdot_pos. Qed.
Lemma sqlen_dot n v : sqlen n v = vdot n v v.
Proof. apply sm_ext. intros; ring. Qed.
Lemma cg_spec n H frozen b rtol maxiter : floating_min n H frozen -> frozen_rows n H frozen -> floating_move n frozen b -> 0 < rtol ->
  match maxiter with Some m => (n < m)%nat | None => True end ->
  exists x, cg n (mv n H) b rtol 0 maxiter = CgInfo0 x /\ floating_move n frozen x /\ sqlen n (defect n H b x) <= rtol ^ 2 * sqlen n b /\ vdot n x (defect n H b x) = 0.
Proof.
  intros FM FR Fb Hr Hm. unfold cg. cbv zeta. destruct (Reqb_spec (vnorm n b) 0) as [E|N].
  - exists b. assert (Z := norm_zero n b E). split; auto. split; auto.
    assert (D : forall i, (i < n)%nat -> defect n H b b i = 0). { intros i Hi. unfold defect. rewrite Z by auto. rewrite sm_0; [ring|]. intros j Hj. rewrite Z by auto. ring. }
    split; [|apply sm_0; intros i Hi; rewrite Z by auto; ring]. unfold sqlen. rewrite !sm_0; [lra| |]; intros i Hi; [rewrite Z by auto|rewrite D by auto]; ring.
  - assert (BP : 0 < vnorm n b). { assert (P := sqrt_pos (vdot n b b)). unfold vnorm in *. lra. }
    assert (TP : 0 < rtol * vnorm n b) by (apply Rmult_lt_0_compat; auto). rewrite Rmax_right by lra.
    assert (N0 : (0 < n)%nat). { destruct n; [|lia]. exfalso. apply N. unfold vnorm, vdot. cbn. apply sqrt_0. }
    set (m := match maxiter with Some m => m | None => (n * 10)%nat end). assert (Hm' : (n < m)%nat) by (unfold m; destruct maxiter; lia).
    assert (EM : forall (u v : cgres), match m with O => u | S _ => v end = v) by (intros; destruct m; [lia|auto]).
    destruct (loop_ok n H frozen b FM FR Fb (rtol * vnorm n b) TP m 0) as (j & E1 & E2 & E3); [lia|intros; lia|]. cbn in E1.
    exists (ix n H b j). split; [destruct m; [lia|exact E1]|]. split; [apply moves with (frozen := frozen); auto|].
    assert (D : forall i, (i < n)%nat -> defect n H b (ix n H b j) i = ir n H b j i) by (intros i Hi; rewrite (res n H b j i Hi); reflexivity).
    split.
    + rewrite sqlen_dot, (vdot_ext n _ (ir n H b j) _ (ir n H b j)) by auto. apply norm_lt in E2. rewrite sqlen_dot. rewrite Rpow_mult_distr in E2.
      replace (vnorm n b ^ 2) with (vdot n b b) in E2; auto. unfold vnorm. rewrite <- (sqrt_sqrt (vdot n b b)) at 1 by apply vdot_pos. ring.
    + rewrite (vdot_ext n _ (ix n H b j) _ (ir n H b j)) by auto. eapply x_orth; eauto.
Qed.
(** energy of the error *)
Lemma energy n H b x y : sym n H -> solves n H b y -> vdot n x (defect n H b x) = 0 -> form n H (fun i => y i - x i) = vdot n b y - vdot n b x.
Proof.
  intros S Y O. assert (E1 : vdot n x b = vdot n x (mv n H x)).
  { assert (Q : vdot n x (defect n H b x) = vdot n x b - vdot n x (mv n H x)). { unfold vdot, defect. rewrite <- sm_minus. apply sm_ext. intros; unfold mv; ring. }
    rewrite Q in O. lra. }
  assert (E2 : forall z, vdot n z (mv n H y) = vdot n z b) by (intros z; apply vdot_ext; auto).
  rewrite form_quad. unfold quad. change (vdot n (fun i => y i - x i) (mv n H (fun i => y i - x i)) = vdot n b y - vdot n b x).
  assert (E3 : vdot n (fun i => y i - x i) (mv n H (fun i => y i - x i)) = vdot n y (mv n H y) - vdot n x (mv n H y) - vdot n y (mv n H x) + vdot n x (mv n H x)).
  { rewrite (vdot_ext n _ (fun i => 1 * y i + (-1) * x i) _ (fun i => 1 * mv n H y i + (-1) * mv n H x i)).
    - rewrite vdot_lin. rewrite !(vdot_sym n _ (fun i => 1 * mv n H y i + -1 * mv n H x i)), !vdot_lin. rewrite !(vdot_sym n (mv n H _)). ring.
    - intros; ring.
    - intros i Hi. rewrite (mv_ext n H H _ (fun i => 1 * y i + (-1) * x i)) by (auto; intros; ring). apply mv_lin. }
  rewrite E3, (mv_sym n H y x S), !E2. rewrite (vdot_sym n b y), (vdot_sym n b x). lra.
Qed.
Lemma energy_bound n H frozen m b x y : curvature n H frozen m -> floating_move n frozen x -> floating_move n frozen y -> solves n H b y ->
  m * form n H (fun i => y i - x i) <= sqlen n (defect n H b x).
Proof.
  intros (Pm & K) Mx My Y. set (d := fun i => y i - x i). assert (Md : floating_move n frozen d) by (intros i Hi F; unfold d; rewrite (Mx i Hi F), (My i Hi F); ring).
  assert (Dd : forall i, (i < n)%nat -> defect n H b x i = mv n H d i).
  { intros i Hi. unfold defect. rewrite <- (Y i Hi). unfold mv, d. rewrite <- sm_minus. apply sm_ext. intros; ring. }
  assert (Q := vdot_pos n (fun i => 1 * defect n H b x i + (- m) * d i)). rewrite vdot_lin in Q. rewrite !(vdot_sym n _ (fun i => 1 * defect n H b x i + - m * d i)), !vdot_lin in Q.
  assert (E : vdot n d (defect n H b x) = form n H d). { rewrite form_quad. apply sm_ext. intros i Hi. rewrite Dd by auto. auto. }
  rewrite (vdot_sym n (defect n H b x) d) in Q. rewrite E, <- !sqlen_dot in Q. assert (C := K d Md).
  assert (m * (m * sqlen n d) <= m * form n H d) by (apply Rmult_le_compat_l; lra). lra.
Qed.
Lemma frozen_row_fails n H i rtol maxiter : (i < n)%nat -> (forall j, (j < n)%nat -> H i j = 0) -> (forall j, (j < n)%nat -> H j i = 0) -> 0 < rtol <= 1 ->
  match maxiter with Some m => (0 < m)%nat | None => True end -> cg n (mv n H) (delta i) rtol 0 maxiter = CgMax.
Proof.
  intros Hi Z Zc (R0 & R1) Hm. unfold cg. cbv zeta. assert (ND : vdot n (delta i) (delta i) = 1).
  { unfold vdot. rewrite (sm_delta n i (delta i) Hi). unfold delta. rewrite Nat.eqb_refl. auto. }
  assert (NV : vnorm n (delta i) = 1) by (unfold vnorm; rewrite ND; apply sqrt_1). rewrite NV. rewrite Reqb_false by lra. rewrite Rmult_1_r, Rmax_right by lra.
  set (m := match maxiter with Some m => m | None => (n * 10)%nat end). assert (Hm' : (0 < m)%nat) by (unfold m; destruct maxiter; lia).
  destruct m as [|m]; [lia|]. cbn [cg_loop]. rewrite NV. rewrite Rltb_false by lra.
  assert (Q : vdot n (delta i) (mv n H (delta i)) = 0). { unfold vdot. rewrite (sm_delta n i _ Hi). unfold mv. apply sm_0. intros j Hj. rewrite Z by auto. ring. }
  rewrite Q. rewrite Reqb_true by auto. auto.
Qed.

(** ** rows and variances *)
Lemma delta_move n frozen i : frozen i = false -> floating_move n frozen (delta i).
Proof. intros F k Hk Fk. unfold delta. destruct (Nat.eqb_spec i k) as [->|]; auto. congruence. Qed.
Lemma delta_sqlen n i : (i < n)%nat -> sqlen n (delta i) = 1.
Proof. intros Hi. rewrite sqlen_dot. unfold vdot. rewrite (sm_delta n i (delta i) Hi). unfold delta. rewrite Nat.eqb_refl. auto. Qed.
Definition good_row (n : nat) (H : nat -> nat -> R) (frozen : nat -> bool) (rtol : R) (i : nat) (c : nat -> R) : Prop :=
  floating_move n frozen c /\ sqlen n (defect n H (delta i) c) <= rtol ^ 2 /\ vdot n c (defect n H (delta i) c) = 0.
Lemma cov_rows_ok n H frozen rtol : floating_min n H frozen -> frozen_rows n H frozen -> 0 < rtol ->
  forall rows, (forall i, In i rows -> (i < n)%nat /\ frozen i = false) -> exists cs, cov_rows n (mv n H) rtol None rows = Ok cs /\ Forall2 (good_row n H frozen rtol) rows cs.
Proof.
  intros FM FR Hr. induction rows as [|i rest IH]; intros HI; [exists []; split; auto|]. cbn [cov_rows]. destruct (HI i (or_introl eq_refl)) as (Hi & Fi).
  rewrite (proj2 (Nat.ltb_lt i n) Hi). destruct (cg_spec n H frozen (delta i) rtol None FM FR (delta_move n frozen i Fi) Hr I) as (x & E & Mx & Dx & Ox). rewrite E. cbn [cg_ok rbind].
  destruct IH as (cs & -> & F); [intros; apply HI; right; auto|]. cbn [rbind]. exists (x :: cs). split; auto. constructor; auto. split; auto. split; auto. rewrite delta_sqlen in Dx by auto. lra.
Qed.
Lemma set_opt_length v : forall l i, List.length (set_opt i v l) = List.length l.
Proof. induction l as [|x l IH]; intros [|i]; cbn [set_opt List.length]; auto. Qed.
Lemma set_opt_nth v : forall l i k, (k < List.length l)%nat -> nth k (set_opt i v l) None = if Nat.eqb k i then Some v else nth k l None.
Proof. induction l as [|x l IH]; intros [|i] [|k] H; cbn [set_opt List.length nth Nat.eqb] in *; try lia; auto. apply IH. lia. Qed.
Lemma fill_ok (G : nat -> (nat -> R) -> Prop) : forall rows cs, Forall2 G rows cs -> forall l, List.length (fill_variances l (combine rows cs)) = List.length l /\
  forall k, (k < List.length l)%nat ->
    (In k rows -> exists c, G k c /\ nth k (fill_variances l (combine rows cs)) None = Some (c k)) /\
    (~ In k rows -> nth k (fill_variances l (combine rows cs)) None = nth k l None).
Proof.
  induction 1 as [|i c rows cs Gi F IH]; intros l; cbn [combine fill_variances]; [split; auto; intros k Hk; split; [intros []|auto]|].
  destruct (IH (set_opt i (c i) l)) as (L1 & L2). rewrite set_opt_length in *. split; auto. intros k Hk. destruct (L2 k Hk) as (A & B). split.
  - intros HI. destruct (in_dec Nat.eq_dec k rows) as [I|N]; [auto|]. destruct HI as [->|I]; [|contradiction]. exists c. split; auto. rewrite B by auto. rewrite set_opt_nth, Nat.eqb_refl by auto. auto.
  - intros N. rewrite B by (intros I; apply N; right; auto). rewrite set_opt_nth by auto. destruct (Nat.eqb_spec k i) as [->|]; auto. exfalso. apply N. left. auto.
Qed.
