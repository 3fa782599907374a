From Coq Require Import Reals List Arith Bool Lia Lra.
From Verif Require Import RBase PyList Mat_Model Mat_Proof Linear_Proof Impacts_Model Impacts_Spec Impacts_Solve Impacts_Proof Var_Model Var_Spec.
Import ListNotations.
Open Scope R_scope.

(** the curvature of beta which the code uses is the one of the likelihood; masked beta do not float *)
Definition beta_curv_of (K : curvature) (fb : nat -> bool) (c : beta_curv) : Prop :=
  match c with
  | BDiag msk B => forall k, (k < k_m K)%nat -> fb k = negb (msk k) /\
      (msk k = false -> B k <> 0 /\ k_Hbb K k k = B k /\ forall l, (l < k_m K)%nat -> l <> k -> k_Hbb K k l = 0)
  | BFull B => (forall k, (k < k_m K)%nat -> fb k = true) /\ (forall k l, (k < k_m K)%nat -> (l < k_m K)%nat -> B k l = k_Hbb K k l) /\ regular (k_m K) B
  end.
Definition bb_of (K : curvature) (fb : nat -> bool) (bb : option (nat * beta_curv)) : Prop :=
  match bb with None => k_m K = O | Some (m, c) => m = k_m K /\ beta_curv_of K fb c end.

Lemma obs_q_spec K fb c p : beta_curv_of K fb c -> exists q, obs_q c (k_m K) p = Ok q /\
  forall k, (k < k_m K)%nat -> if fb k then sm (k_m K) (fun l => k_Hbb K k l * q l) = p k else q k = 0.
Proof.
  destruct c as [msk B|B]; cbn [beta_curv_of obs_q].
  - intros H. eexists. split; [reflexivity|]. intros k Hk. destruct (H k Hk) as (E & G). rewrite E. destruct (msk k) eqn:M; cbn [negb]; auto.
    destruct (G eq_refl) as (NZ & Eb & Z). rewrite (sm_ext _ _ (fun l => delta k l * p l)); [apply sm_delta; auto|].
    intros l Hl. unfold delta. destruct (Nat.eqb_spec k l) as [<-|N]; [rewrite Eb, M; field; auto|]. rewrite Z by auto. ring.
  - intros (F & E & RG). destruct (gsolve_regular (k_m K) B p RG) as (q & G). rewrite G. exists q. split; auto. intros k Hk. rewrite F by auto.
    rewrite <- (gsolve_ok _ _ _ _ G k Hk). unfold mv. apply sm_ext. intros l Hl. rewrite E by auto. auto.
Qed.
Lemma emap_ok {A B} (f : A -> result B) (Q : A -> B -> Prop) : forall l, (forall a, In a l -> exists b, f a = Ok b /\ Q a b) ->
  exists bs, emap f l = Ok bs /\ Forall2 Q l bs.
Proof.
  induction l as [|a l IH]; intros H; cbn [emap]; [eauto|]. destruct (H a (or_introl eq_refl)) as (b & -> & Hb).
  destruct IH as (bs & -> & F); [intros; apply H; right; auto|]. cbn [rbind]. eauto.
Qed.
Lemma forall2_nth {A B} (Q : A -> B -> Prop) : forall l l' d d', Forall2 Q l l' -> forall a, (a < List.length l)%nat -> Q (nth a l d) (nth a l' d').
Proof. intros l l' d d' F. induction F; intros [|a] La; cbn [List.length nth] in *; try lia; auto. apply IHF. lia. Qed.
Lemma row_qs_spec K fb bb rows P : bb_of K fb bb -> nbeta bb = k_m K /\ exists qs, row_qs bb rows P = Ok qs /\
  forall a, (a < rows)%nat -> forall k, (k < k_m K)%nat -> if fb k then sm (k_m K) (fun l => k_Hbb K k l * qrow qs a l) = P a k else qrow qs a k = 0.
Proof.
  destruct bb as [(m & c)|]; cbn [bb_of row_qs nbeta].
  - intros (-> & C). split; auto.
    destruct (emap_ok (fun a => obs_q c (k_m K) (P a)) (fun a q => forall k, (k < k_m K)%nat -> if fb k then sm (k_m K) (fun l => k_Hbb K k l * q l) = P a k else q k = 0) (seq 0 rows)) as (qs & E & F).
    { intros a _. apply obs_q_spec; auto. }
    exists qs. split; auto. intros a Ha. assert (X := forall2_nth _ _ _ O (fun _ => 0) F a). rewrite seq_length, seq_nth in X by auto. apply X; auto.
  - intros E. split; auto. eexists. split; [reflexivity|]. intros a Ha k Hk. lia.
Qed.

Section Joint.
Variables (K : curvature) (fx fb : nat -> bool) (J C : nat -> nat -> R).
Let n := k_n K.
Let m := k_m K.
Hypothesis Sbb : sym m (k_Hbb K).
Hypothesis PJ : profiled_beta K fb J.
Hypothesis FC : fit_cov K J fx C.
Section One.
Variables (d p q : nat -> R).
Hypothesis Hq : forall k, (k < m)%nat -> if fb k then sm m (fun l => k_Hbb K k l * q l) = p k else q k = 0.
Let dt := total_derivative m J fx d p.
Definition rx : nat -> R := mv n C dt.
Definition rb (k : nat) : R := mv n J rx k + q k.
Lemma response_x i : (i < n)%nat -> fx i = true -> sm n (fun l => k_Hxx K i l * rx l) + sm m (fun k => k_Dxb K i k * rb k) = d i.
Proof.
  intros Hi Fi.
  assert (A : sm n (fun l => k_prof K J i l * rx l) = dt i).
  { unfold rx, mv. rewrite (sm_ext n _ (fun l => sm n (fun j => k_prof K J i l * C l j * dt j))) by (intros; rewrite <- sm_scal; apply sm_ext; intros; ring).
    rewrite sm_swap. rewrite (sm_ext n _ (fun j => delta i j * dt j)); [apply sm_delta; auto|].
    intros j Hj. rewrite sm_scalr. assert (F := FC i j Hi Hj). rewrite Fi in F. cbn [andb] in F.
    destruct (fx j) eqn:Fj; [fold n in F; rewrite F; reflexivity|]. unfold dt, total_derivative. rewrite Fj. ring. }
  assert (B : sm m (fun k => k_Dxb K i k * q k) = - sm m (fun l => p l * J l i)).
  { rewrite (sm_ext m _ (fun k => sm m (fun l => - (q k * k_Hbb K k l * J l i)))).
    - rewrite sm_swap. rewrite <- (Rmult_1_l (sm m (fun l => p l * J l i))), Ropp_mult_distr_l, <- sm_scal. apply sm_ext. intros l Hl.
      assert (Q := Hq l Hl). assert (P := PJ l i Hl Hi). destruct (fb l).
      + rewrite <- Q, <- sm_scalr, <- sm_scal. apply sm_ext. intros k Hk. rewrite (Sbb k l) by auto. ring.
      + rewrite P. rewrite sm_0; [ring|]. intros; ring.
    - intros k Hk. assert (Q := Hq k Hk). assert (P := PJ k i Hk Hi). destruct (fb k).
      + fold m in P. replace (k_Dxb K i k) with (- sm m (fun l => k_Hbb K k l * J l i)) by (rewrite P; ring).
        rewrite <- Ropp_mult_distr_l, <- sm_scalr, <- (Rmult_1_l (sm m _)), Ropp_mult_distr_l, <- sm_scal. apply sm_ext. intros; ring.
      + rewrite Q, Rmult_0_r. symmetry. apply sm_0. intros; ring. }
  rewrite (sm_ext m _ (fun k => k_Dxb K i k * mv n J rx k + k_Dxb K i k * q k)) by (intros; unfold rb; ring). rewrite sm_plus, B.
  assert (E : sm m (fun k => k_Dxb K i k * mv n J rx k) = sm n (fun l => sm m (fun k => k_Dxb K i k * J k l) * rx l)).
  { unfold mv. rewrite (sm_ext m _ (fun k => sm n (fun l => k_Dxb K i k * J k l * rx l))) by (intros; rewrite <- sm_scal; apply sm_ext; intros; ring).
    rewrite sm_swap. apply sm_ext. intros. rewrite sm_scalr. reflexivity. }
  rewrite E. rewrite <- Rplus_assoc, <- sm_plus. unfold dt, total_derivative in A. rewrite Fi in A.
  rewrite (sm_ext n _ (fun l => k_prof K J i l * rx l)) by (intros; unfold k_prof; fold m; ring). rewrite A. ring.
Qed.
Lemma response_b k : (k < m)%nat -> fb k = true -> sm n (fun i => k_Dxb K i k * rx i) + sm m (fun l => k_Hbb K k l * rb l) = p k.
Proof.
  intros Hk Fk. rewrite (sm_ext m _ (fun l => k_Hbb K k l * mv n J rx l + k_Hbb K k l * q l)) by (intros; unfold rb; ring). rewrite sm_plus.
  assert (Q := Hq k Hk). rewrite Fk in Q. rewrite Q.
  assert (E : sm m (fun l => k_Hbb K k l * mv n J rx l) = sm n (fun i => - k_Dxb K i k * rx i)).
  { unfold mv. rewrite (sm_ext m _ (fun l => sm n (fun i => k_Hbb K k l * J l i * rx i))) by (intros; rewrite <- sm_scal; apply sm_ext; intros; ring).
    rewrite sm_swap. apply sm_ext. intros i Hi. rewrite sm_scalr. assert (P := PJ k i Hk Hi). rewrite Fk in P. fold m in P. rewrite P. reflexivity. }
  rewrite E, <- Rplus_assoc, <- sm_plus. rewrite sm_0; [ring|]. intros; ring.
Qed.
Lemma response_frozen i : (i < n)%nat -> fx i = false -> rx i = 0.
Proof. intros Hi Fi. unfold rx, mv. apply sm_0. intros j Hj. assert (F := FC i j Hi Hj). rewrite Fi in F. cbn [andb] in F. rewrite F. ring. Qed.
Lemma response_masked k : (k < m)%nat -> fb k = false -> rb k = 0.
Proof.
  intros Hk Fk. unfold rb, mv. assert (Q := Hq k Hk). rewrite Fk in Q. rewrite Q. rewrite sm_0; [ring|]. intros i Hi. assert (P := PJ k i Hk Hi). rewrite Fk in P. rewrite P. ring.
Qed.
Lemma response_ok : joint_response K fx fb d p rx rb.
Proof.
  split; intros i Hi.
  - destruct (fx i) eqn:F; [apply response_x; auto|apply response_frozen; auto].
  - destruct (fb i) eqn:F; [apply response_b; auto|apply response_masked; auto].
Qed.
Lemma response_value d0 p0 :
  sm n (fun i => total_derivative m J fx d0 p0 i * mv n C dt i) + sm m (fun k => p0 k * q k) = sm n (fun i => d0 i * rx i) + sm m (fun k => p0 k * rb k).
Proof.
  rewrite (sm_ext m (fun k => p0 k * rb k) (fun k => p0 k * mv n J rx k + p0 k * q k)) by (intros; unfold rb; ring). rewrite sm_plus, <- Rplus_assoc. f_equal.
  unfold mv at 2. rewrite (sm_ext m _ (fun k => sm n (fun l => p0 k * J k l * rx l))) by (intros; rewrite <- sm_scal; apply sm_ext; intros; ring).
  rewrite sm_swap, <- sm_plus. apply sm_ext. intros i Hi. fold rx. rewrite sm_scalr. unfold total_derivative. destruct (fx i) eqn:F; [ring|].
  rewrite (response_frozen i Hi F). ring.
Qed.
End One.
End Joint.

Lemma form_rows K zx zb :
  joint_quad K zx zb = sm (k_n K) (fun i => zx i * (sm (k_n K) (fun l => k_Hxx K i l * zx l) + sm (k_m K) (fun k => k_Dxb K i k * zb k)))
   + sm (k_m K) (fun k => zb k * (sm (k_n K) (fun i => k_Dxb K i k * zx i) + sm (k_m K) (fun l => k_Hbb K k l * zb l))).
Proof.
  unfold joint_quad.
  rewrite (sm_ext (k_n K) (fun i => zx i * (_ + _)) (fun i => zx i * sm (k_n K) (fun l => k_Hxx K i l * zx l) + zx i * sm (k_m K) (fun k => k_Dxb K i k * zb k))) by (intros; ring).
  rewrite (sm_ext (k_m K) (fun k => zb k * (_ + _)) (fun k => zb k * sm (k_n K) (fun i => k_Dxb K i k * zx i) + zb k * sm (k_m K) (fun l => k_Hbb K k l * zb l))) by (intros; ring).
  rewrite !sm_plus.
  rewrite (sm_ext (k_n K) (fun i => sm (k_n K) (fun j => zx i * k_Hxx K i j * zx j)) (fun i => zx i * sm (k_n K) (fun l => k_Hxx K i l * zx l))) by (intros; rewrite <- sm_scal; apply sm_ext; intros; ring).
  rewrite (sm_ext (k_m K) (fun i => sm (k_m K) (fun j => zb i * k_Hbb K i j * zb j)) (fun i => zb i * sm (k_m K) (fun l => k_Hbb K i l * zb l))) by (intros; rewrite <- sm_scal; apply sm_ext; intros; ring).
  rewrite (sm_ext (k_n K) (fun i => sm (k_m K) (fun k => zx i * k_Dxb K i k * zb k)) (fun i => zx i * sm (k_m K) (fun k => k_Dxb K i k * zb k))) by (intros; rewrite <- sm_scal; apply sm_ext; intros; ring).
  rewrite (sm_ext (k_m K) (fun k => zb k * sm (k_n K) (fun i => k_Dxb K i k * zx i)) (fun k => sm (k_n K) (fun i => zx i * k_Dxb K i k * zb k))) by (intros; rewrite <- sm_scal; apply sm_ext; intros; ring).
  rewrite sm_swap.
  rewrite (sm_ext (k_n K) (fun j => sm (k_m K) (fun i => zx j * k_Dxb K j i * zb i)) (fun i => zx i * sm (k_m K) (fun k => k_Dxb K i k * zb k))) by (intros; rewrite <- sm_scal; apply sm_ext; intros; ring).
  ring.
Qed.
Lemma form_response K fx fb d p zx zb : joint_response K fx fb d p zx zb ->
  joint_quad K zx zb = sm (k_n K) (fun i => d i * zx i) + sm (k_m K) (fun k => p k * zb k).
Proof.
  intros (X & B). rewrite form_rows. f_equal.
  - apply sm_ext. intros i Hi. assert (E := X i Hi). destruct (fx i); [rewrite E; ring|rewrite E; ring].
  - apply sm_ext. intros i Hi. assert (E := B i Hi). destruct (fb i); [rewrite E; ring|rewrite E; ring].
Qed.
Lemma joint_zero_dec n (z : nat -> R) : (exists i, (i < n)%nat /\ z i <> 0) \/ forall i, (i < n)%nat -> z i = 0.
Proof. apply (nonzero_dec n z). Qed.
Lemma response_unique K fx fb d p zx zb zx' zb' : joint_min K fx fb -> joint_response K fx fb d p zx zb -> joint_response K fx fb d p zx' zb' ->
  (forall i, (i < k_n K)%nat -> zx i = zx' i) /\ (forall k, (k < k_m K)%nat -> zb k = zb' k).
Proof.
  intros M (X & B) (X' & B').
  assert (D : joint_response K fx fb (fun _ => 0) (fun _ => 0) (fun i => zx i - zx' i) (fun k => zb k - zb' k)).
  { split; intros i Hi.
    - assert (E := X i Hi). assert (E' := X' i Hi). destruct (fx i); [|lra].
      rewrite (sm_ext (k_n K) _ (fun l => k_Hxx K i l * zx l - k_Hxx K i l * zx' l)) by (intros; ring).
      rewrite (sm_ext (k_m K) _ (fun l => k_Dxb K i l * zb l - k_Dxb K i l * zb' l)) by (intros; ring). rewrite !sm_minus. lra.
    - assert (E := B i Hi). assert (E' := B' i Hi). destruct (fb i); [|lra].
      rewrite (sm_ext (k_m K) _ (fun l => k_Hbb K i l * zb l - k_Hbb K i l * zb' l)) by (intros; ring).
      rewrite (sm_ext (k_n K) _ (fun l => k_Dxb K l i * zx l - k_Dxb K l i * zx' l)) by (intros; ring). rewrite !sm_minus. lra. }
  assert (Z := form_response _ _ _ _ _ _ _ D). rewrite !sm_0 in Z by (intros; ring).
  assert (G : ~ ((exists i, (i < k_n K)%nat /\ zx i - zx' i <> 0) \/ (exists k, (k < k_m K)%nat /\ zb k - zb' k <> 0))).
  { intros N. assert (P := M (fun i => zx i - zx' i) (fun k => zb k - zb' k)). rewrite Z in P. enough (0 < 0 + 0) by lra. apply P; auto.
    - intros i Hi F. assert (E := proj1 D i Hi). rewrite F in E. exact E.
    - intros i Hi F. assert (E := proj2 D i Hi). rewrite F in E. exact E. }
  split; intros i Hi.
  - destruct (joint_zero_dec (k_n K) (fun i => zx i - zx' i)) as [N|N]; [exfalso; apply G; left; exact N|]. assert (E := N i Hi). cbn beta in E. lra.
  - destruct (joint_zero_dec (k_m K) (fun i => zb i - zb' i)) as [N|N]; [exfalso; apply G; right; exact N|]. assert (E := N i Hi). cbn beta in E. lra.
Qed.
Lemma joint_cov_unique K fx fb d p d' p' v w : joint_min K fx fb -> joint_cov K fx fb d p d' p' v -> joint_cov K fx fb d p d' p' w -> v = w.
Proof.
  intros M (zx & zb & R1 & ->) (zx' & zb' & R2 & ->). destruct (response_unique _ _ _ _ _ _ _ _ _ M R1 R2) as (E1 & E2). f_equal; apply sm_ext; intros i Hi; [rewrite E1 by auto|rewrite E2 by auto]; auto.
Qed.

(** variances and covariances of a prediction with the derivatives d at fixed beta and p with respect to beta *)
Theorem expected_cov_joint K fx fb J C bb rows d P : joint_sym K -> profiled_beta K fb J -> fit_cov K J fx C -> bb_of K fb bb ->
  exists v cov, expected_with_variance (k_n K) C bb rows (fun a => total_derivative (k_m K) J fx (d a) (P a)) P true = Ok (v, Some cov) /\
    (forall a b, (a < rows)%nat -> (b < rows)%nat -> joint_cov K fx fb (d a) (P a) (d b) (P b) (cov a b)) /\
    (forall a, (a < rows)%nat -> v a = cov a a).
Proof.
  intros (_ & S) PJ FC BB. destruct (row_qs_spec K fb bb rows P BB) as (NB & qs & E & Q). unfold expected_with_variance. rewrite E, NB. cbn [rbind]. cbv zeta.
  do 2 eexists. split; [reflexivity|]. split; auto. intros a b Ha Hb.
  exists (rx K fx J C (d b) (P b)), (rb K fx J C (d b) (P b) (qrow qs b)). split.
  - apply response_ok; auto. exact (Q b Hb).
  - apply response_value; auto.
Qed.
Theorem expected_var_same n C bb rows D P :
  match expected_with_variance n C bb rows D P true, expected_with_variance n C bb rows D P false with
  | Ok (v, Some cov), Ok (v', None) => (forall a, (a < rows)%nat -> v a = v' a /\ v a = cov a a)
  | Raise e, Raise e' => e = e'
  | _, _ => False
  end.
Proof.
  unfold expected_with_variance. destruct (row_qs bb rows P) as [qs|e]; cbn [rbind]; auto. cbv zeta. intros a Ha. split; auto. f_equal.
  apply sm_ext. intros j Hj. unfold mv. rewrite <- sm_scal. apply sm_ext. intros; ring.
Qed.
(** variance of a combination of rows *)
Lemma joint_cov_combine K fx fb rows (w : nat -> R) d P cov : (forall a b, (a < rows)%nat -> (b < rows)%nat -> joint_cov K fx fb (d a) (P a) (d b) (P b) (cov a b)) ->
  joint_min K fx fb ->
  joint_cov K fx fb (fun i => sm rows (fun a => w a * d a i)) (fun k => sm rows (fun a => w a * P a k)) (fun i => sm rows (fun a => w a * d a i)) (fun k => sm rows (fun a => w a * P a k))
    (sm rows (fun a => sm rows (fun b => w a * cov a b * w b))).
Proof.
  intros H M.
  assert (Z : exists zx zb, forall b, (b < rows)%nat -> joint_response K fx fb (d b) (P b) (zx b) (zb b) /\
     forall a, (a < rows)%nat -> cov a b = sm (k_n K) (fun i => d a i * zx b i) + sm (k_m K) (fun k => P a k * zb b k)).
  { assert (G : forall r, (r <= rows)%nat -> exists zx zb : nat -> nat -> R, forall b, (b < r)%nat -> joint_response K fx fb (d b) (P b) (zx b) (zb b) /\
       forall a, (a < rows)%nat -> cov a b = sm (k_n K) (fun i => d a i * zx b i) + sm (k_m K) (fun k => P a k * zb b k)).
    { induction r as [|r IH]; intros Hr; [exists (fun _ _ => 0), (fun _ _ => 0); intros; lia|]. destruct IH as (zx & zb & IH); [lia|].
      destruct (H r r) as (ux & ub & R1 & E1); [lia|lia|].
      exists (fun b => if Nat.eqb b r then ux else zx b), (fun b => if Nat.eqb b r then ub else zb b). intros b Hb.
      destruct (Nat.eqb_spec b r) as [->|N]; [|apply IH; lia]. split; auto. intros a Ha.
      destruct (H a r) as (tx & tb & R2 & E2); [lia|lia|]. destruct (response_unique _ _ _ _ _ _ _ _ _ M R1 R2) as (F1 & F2). rewrite E2.
      f_equal; apply sm_ext; intros i Hi; [rewrite F1 by auto|rewrite F2 by auto]; auto. }
    apply (G rows). lia. }
  destruct Z as (zx & zb & HZ). exists (fun i => sm rows (fun b => w b * zx b i)), (fun k => sm rows (fun b => w b * zb b k)). split; [split|].
  - intros i Hi. destruct (fx i) eqn:F.
    + transitivity (sm rows (fun b => w b * (sm (k_n K) (fun l => k_Hxx K i l * zx b l) + sm (k_m K) (fun k => k_Dxb K i k * zb b k)))).
      * rewrite (sm_ext rows _ (fun b => w b * sm (k_n K) (fun l => k_Hxx K i l * zx b l) + w b * sm (k_m K) (fun k => k_Dxb K i k * zb b k))) by (intros; ring). rewrite sm_plus. f_equal.
        -- rewrite (sm_ext (k_n K) _ (fun l => sm rows (fun b => w b * (k_Hxx K i l * zx b l)))) by (intros; rewrite <- sm_scal; apply sm_ext; intros; ring). rewrite sm_swap. apply sm_ext. intros. rewrite sm_scal. auto.
        -- rewrite (sm_ext (k_m K) _ (fun l => sm rows (fun b => w b * (k_Dxb K i l * zb b l)))) by (intros; rewrite <- sm_scal; apply sm_ext; intros; ring). rewrite sm_swap. apply sm_ext. intros. rewrite sm_scal. auto.
      * apply sm_ext. intros b Hb. assert (E := proj1 (proj1 (HZ b Hb)) i Hi). rewrite F in E. rewrite E. auto.
    + apply sm_0. intros b Hb. assert (E := proj1 (proj1 (HZ b Hb)) i Hi). rewrite F in E. rewrite E. ring.
  - intros i Hi. destruct (fb i) eqn:F.
    + transitivity (sm rows (fun b => w b * (sm (k_n K) (fun l => k_Dxb K l i * zx b l) + sm (k_m K) (fun k => k_Hbb K i k * zb b k)))).
      * rewrite (sm_ext rows _ (fun b => w b * sm (k_n K) (fun l => k_Dxb K l i * zx b l) + w b * sm (k_m K) (fun k => k_Hbb K i k * zb b k))) by (intros; ring). rewrite sm_plus. f_equal.
        -- rewrite (sm_ext (k_n K) _ (fun l => sm rows (fun b => w b * (k_Dxb K l i * zx b l)))) by (intros; rewrite <- sm_scal; apply sm_ext; intros; ring). rewrite sm_swap. apply sm_ext. intros. rewrite sm_scal. auto.
        -- rewrite (sm_ext (k_m K) _ (fun l => sm rows (fun b => w b * (k_Hbb K i l * zb b l)))) by (intros; rewrite <- sm_scal; apply sm_ext; intros; ring). rewrite sm_swap. apply sm_ext. intros. rewrite sm_scal. auto.
      * apply sm_ext. intros b Hb. assert (E := proj2 (proj1 (HZ b Hb)) i Hi). rewrite F in E. rewrite E. auto.
    + apply sm_0. intros b Hb. assert (E := proj2 (proj1 (HZ b Hb)) i Hi). rewrite F in E. rewrite E. ring.
  - assert (E : forall n (e : nat -> nat -> R) (z : nat -> nat -> R), sm n (fun i => sm rows (fun a => w a * e a i) * sm rows (fun b => w b * z b i))
       = sm rows (fun a => sm rows (fun b => w a * sm n (fun i => e a i * z b i) * w b))).
    { intros n e z. rewrite (sm_ext n _ (fun i => sm rows (fun a => sm rows (fun b => w a * (e a i * z b i) * w b)))).
      - rewrite sm_swap. apply sm_ext. intros a _. rewrite sm_swap. apply sm_ext. intros b _. rewrite sm_scalr, sm_scal. auto.
      - intros i _. rewrite <- sm_scalr. apply sm_ext. intros a _. rewrite <- sm_scal. apply sm_ext. intros; ring. }
    rewrite !E, <- sm_plus. apply sm_ext. intros a Ha. rewrite <- sm_plus. apply sm_ext. intros b Hb. rewrite (proj2 (HZ b Hb) a Ha). ring.
Qed.
Lemma joint_cov_nonneg K fx fb d p v : joint_min K fx fb -> joint_cov K fx fb d p d p v -> 0 <= v.
Proof.
  intros M (zx & zb & RS & ->). rewrite <- (form_response _ _ _ _ _ _ _ RS).
  destruct (joint_zero_dec (k_n K) zx) as [N|N]; [|destruct (joint_zero_dec (k_m K) zb) as [N'|N']].
  1,2: left; apply M; [intros i Hi F; assert (E := proj1 RS i Hi); rewrite F in E; exact E|intros i Hi F; assert (E := proj2 RS i Hi); rewrite F in E; exact E|auto].
  right. rewrite form_rows, !sm_0; [ring| |]; intros i Hi; [rewrite N' by auto|rewrite N by auto]; ring.
Qed.
Lemma joint_cov_sym K fx fb d p d' p' v w : joint_sym K -> joint_cov K fx fb d p d' p' v -> joint_cov K fx fb d' p' d p w -> v = w.
Proof.
  intros (S1 & S2) (zx & zb & (X & B) & ->) (ux & ub & (X' & B') & ->).
  set (bil := fun ax ab bx bb => sm (k_n K) (fun i => ax i * (sm (k_n K) (fun l => k_Hxx K i l * bx l) + sm (k_m K) (fun k => k_Dxb K i k * bb k)))
    + sm (k_m K) (fun k => ab k * (sm (k_n K) (fun i => k_Dxb K i k * bx i) + sm (k_m K) (fun l => k_Hbb K k l * bb l)))).
  assert (E1 : sm (k_n K) (fun i => d i * zx i) + sm (k_m K) (fun k => p k * zb k) = bil zx zb ux ub).
  { unfold bil. f_equal; apply sm_ext; intros i Hi.
    - assert (E := X i Hi). assert (E' := X' i Hi). destruct (fx i); [rewrite E'; ring|rewrite E; ring].
    - assert (E := B i Hi). assert (E' := B' i Hi). destruct (fb i); [rewrite E'; ring|rewrite E; ring]. }
  assert (E2 : sm (k_n K) (fun i => d' i * ux i) + sm (k_m K) (fun k => p' k * ub k) = bil ux ub zx zb).
  { unfold bil. f_equal; apply sm_ext; intros i Hi.
    - assert (E := X i Hi). assert (E' := X' i Hi). destruct (fx i); [rewrite E; ring|rewrite E'; ring].
    - assert (E := B i Hi). assert (E' := B' i Hi). destruct (fb i); [rewrite E; ring|rewrite E'; ring]. }
  rewrite E1, E2. unfold bil.
  assert (G : forall n m (A : nat -> nat -> R) a b, sm n (fun i => a i * sm m (fun l => A i l * b l)) = sm m (fun l => b l * sm n (fun i => A i l * a i))).
  { intros. rewrite (sm_ext n _ (fun i => sm m (fun l => a i * A i l * b l))) by (intros; rewrite <- sm_scal; apply sm_ext; intros; ring). rewrite sm_swap.
    apply sm_ext. intros. rewrite <- sm_scal. apply sm_ext. intros; ring. }
  assert (D : forall ax ab bx bb, sm (k_n K) (fun i => ax i * (sm (k_n K) (fun l => k_Hxx K i l * bx l) + sm (k_m K) (fun k => k_Dxb K i k * bb k)))
    + sm (k_m K) (fun k => ab k * (sm (k_n K) (fun i => k_Dxb K i k * bx i) + sm (k_m K) (fun l => k_Hbb K k l * bb l)))
    = (sm (k_n K) (fun i => ax i * sm (k_n K) (fun l => k_Hxx K i l * bx l)) + sm (k_m K) (fun k => ab k * sm (k_m K) (fun l => k_Hbb K k l * bb l)))
      + (sm (k_n K) (fun i => ax i * sm (k_m K) (fun k => k_Dxb K i k * bb k)) + sm (k_m K) (fun k => ab k * sm (k_n K) (fun i => k_Dxb K i k * bx i)))).
  { intros. rewrite (sm_ext (k_n K) (fun i => ax i * (_ + _)) (fun i => ax i * sm (k_n K) (fun l => k_Hxx K i l * bx l) + ax i * sm (k_m K) (fun k => k_Dxb K i k * bb k))) by (intros; ring).
    rewrite (sm_ext (k_m K) (fun i => ab i * (_ + _)) (fun i => ab i * sm (k_n K) (fun l => k_Dxb K l i * bx l) + ab i * sm (k_m K) (fun k => k_Hbb K i k * bb k))) by (intros; ring).
    rewrite !sm_plus. ring. }
  rewrite !D. rewrite (G _ _ _ zx ux), (G _ _ _ zb ub), (G _ _ _ zx ub), (G _ _ _ ux zb).
  rewrite (sm_ext (k_n K) (fun l => ux l * _) (fun i => ux i * sm (k_n K) (fun l => k_Hxx K i l * zx l))) by (intros; f_equal; apply sm_ext; intros; rewrite S1 by auto; auto).
  rewrite (sm_ext (k_m K) (fun l => ub l * sm (k_m K) (fun i => k_Hbb K i l * zb i)) (fun i => ub i * sm (k_m K) (fun l => k_Hbb K i l * zb l))) by (intros; f_equal; apply sm_ext; intros; rewrite S2 by auto; auto).
  ring.
Qed.

(** ** prefit *)
Lemma prefit_sigma2_ok cw err i : prefit_sigma2 cw err i (prefit_variance cw err i).
Proof.
  unfold prefit_sigma2, prefit_variance. destruct (Reqb_spec (cw i) 0) as [E|E]; split; intros H; try contradiction; [cbn [pow]; ring|field; auto].
Qed.
Lemma prefit_variance_nonneg cw err i : 0 <= cw i -> 0 <= prefit_variance cw err i.
Proof.
  intros H. unfold prefit_variance. destruct (Reqb_spec (cw i) 0) as [E|E]; [rewrite Rmult_1_r; apply pow2_ge_0|]. left. apply Rinv_0_lt_compat. lra.
Qed.
Lemma prefit_mv n cw err x i : (i < n)%nat -> mv n (prefit_covariance cw err) x i = prefit_variance cw err i * x i.
Proof.
  intros Hi. unfold mv. rewrite (sm_ext n _ (fun j => delta i j * (prefit_variance cw err i * x j))); [apply sm_delta; auto|].
  intros j Hj. unfold prefit_covariance, delta. destruct (Nat.eqb i j); ring.
Qed.
Theorem prefit_var_spec n m cw err msk B rows D P s2 : (forall i, (i < n)%nat -> prefit_sigma2 cw err i (s2 i)) ->
  exists v, expected_with_variance n (prefit_covariance cw err) (Some (m, BDiag msk B)) rows D P false = Ok (v, None) /\
    forall a, (a < rows)%nat -> v a = sm n (fun i => D a i * D a i * s2 i) + sm m (fun k => if msk k then 0 else P a k * P a k / B k).
Proof.
  intros HS. unfold expected_with_variance, row_qs.
  destruct (emap_ok (fun a => obs_q (BDiag msk B) m (P a)) (fun a q => forall k, q k = if msk k then 0 else P a k / B k) (seq 0 rows)) as (qs & E & F).
  { intros a _. cbn [obs_q]. eexists. split; [reflexivity|]. intros k. reflexivity. }
  rewrite E. cbn [rbind nbeta]. cbv zeta. eexists. split; [reflexivity|]. intros a Ha.
  assert (X := forall2_nth _ _ _ O (fun _ => 0) F a). rewrite seq_length, seq_nth in X by auto. cbn [Nat.add] in X. cbv beta. f_equal.
  - apply sm_ext. intros i Hi. transitivity (D a i * mv n (prefit_covariance cw err) (D a) i).
    + unfold mv. rewrite <- sm_scal. apply sm_ext. intros; ring.
    + rewrite prefit_mv by auto. assert (U := prefit_sigma2_ok cw err i). assert (U' := HS i Hi). destruct U as (U1 & U2), U' as (U1' & U2').
      replace (prefit_variance cw err i) with (s2 i); [ring|]. destruct (Req_dec (cw i) 0) as [Z|Z]; [rewrite U1, U1' by auto; auto|].
      apply (Rmult_eq_reg_r (cw i)); auto. rewrite U2, U2' by auto. auto.
  - apply sm_ext. intros k Hk. unfold qrow. rewrite X by auto. destruct (msk k); unfold Rdiv; ring.
Qed.
Theorem prefit_variations_spec n cw expected D rows a : (forall i, (i < n)%nat -> 0 <= cw i) -> (a < rows)%nat ->
  exists h v, (forall j, (j < n)%nat -> shifted_by (expected a) (prefit_variations n cw expected D a j) (h j)) /\
    expected_with_variance n (prefit_covariance cw 1) None rows D (fun _ _ => 0) false = Ok (v, None) /\ sm n (fun j => h j * h j) = v a.
Proof.
  intros H Ha. exists (fun j => D a j * sqrt (prefit_variance cw 1 j)). eexists. split; [|split; [reflexivity|]].
  - intros j Hj. unfold prefit_variations, expected_variations, variation_shift, prefit_covariance. rewrite Nat.eqb_refl. unfold tsqrt.
    assert (P := prefit_variance_nonneg cw 1 j (H j Hj)). rewrite Rltb_false by lra. do 2 eexists. split; [reflexivity|]. auto.
  - cbn [nbeta sm]. rewrite Rplus_0_r. apply sm_ext. intros j Hj. transitivity (D a j * mv n (prefit_covariance cw 1) (D a) j).
    + rewrite prefit_mv by auto. assert (P := prefit_variance_nonneg cw 1 j (H j Hj)). assert (Q := sqrt_sqrt _ P).
      transitivity (D a j * D a j * (sqrt (prefit_variance cw 1 j) * sqrt (prefit_variance cw 1 j))); [ring|]. rewrite Q. ring.
    + unfold mv. rewrite <- sm_scal. apply sm_ext. intros; ring.
Qed.

(** ** variations with correlations *)
Lemma quad_cs n C d j : covariance n C -> (j < n)%nat -> mv n C d j * mv n C d j <= quad n C d * C j j.
Proof.
  intros K Hj. assert (Dj := cov_diag n C j K Hj). destruct K as (S & P).
  assert (Q : forall t, 0 <= quad n C d - 2 * t * mv n C d j + t * t * C j j).
  { intros t. specialize (P (fun k => d k - t * delta j k)). rewrite quad_minus in P by auto. rewrite quad_delta in P by auto.
    enough (E : sm n (fun i => d i * mv n C (fun k => t * delta j k) i) = t * mv n C d j) by (rewrite E in P; lra).
    unfold mv at 2. rewrite <- sm_scal. apply sm_ext. intros i Hi. unfold mv.
    rewrite (sm_ext n _ (fun k => delta j k * (t * C i k))) by (intros; ring). rewrite sm_delta by auto. rewrite (S i j) by auto. ring. }
  destruct (Req_dec (C j j) 0) as [Z|Z].
  - rewrite Z. assert (A := Q 0). destruct (Req_dec (mv n C d j) 0) as [E|E]; [rewrite E; lra|].
    assert (B := Q ((quad n C d + 1) / (2 * mv n C d j))). rewrite Z in B. replace (2 * ((quad n C d + 1) / (2 * mv n C d j)) * mv n C d j) with (quad n C d + 1) in B by (field; auto). lra.
  - assert (B := Q (mv n C d j / C j j)). assert (0 < C j j) by lra.
    replace (quad n C d - 2 * (mv n C d j / C j j) * mv n C d j + mv n C d j / C j j * (mv n C d j / C j j) * C j j) with ((quad n C d * C j j - mv n C d j * mv n C d j) / C j j) in B by (field; lra).
    assert (0 <= quad n C d * C j j - mv n C d j * mv n C d j); [|lra].
    replace (quad n C d * C j j - mv n C d j * mv n C d j) with ((quad n C d * C j j - mv n C d j * mv n C d j) / C j j * C j j) by (field; lra). apply Rmult_le_pos; lra.
Qed.
Theorem correlated_spec n C expected D a j : covariance n C -> (j < n)%nat -> 0 < C j j ->
  exists h, shifted_by (expected a) (expected_variations n C expected D true a j) h /\ h * h <= quad n C (D a) /\ h * sqrt (C j j) = mv n C (D a) j.
Proof.
  intros K Hj Hp. assert (S : 0 < sqrt (C j j)) by (apply sqrt_lt_R0; auto). assert (SS := sqrt_sqrt (C j j) (Rlt_le _ _ Hp)).
  unfold expected_variations, variation_shift, tsqrt. rewrite Rltb_false by lra. rewrite Reqb_false by lra. exists (sm n (fun k => D a k * (C k j / sqrt (C j j)))).
  assert (E : sm n (fun k => D a k * (C k j / sqrt (C j j))) * sqrt (C j j) = mv n C (D a) j).
  { rewrite <- sm_scalr. unfold mv. apply sm_ext. intros k Hk. rewrite (proj1 K k j) by auto. field. lra. }
  split; [|split; auto].
  - do 2 eexists. split; [reflexivity|]. auto.
  - set (h := sm n (fun k => D a k * (C k j / sqrt (C j j)))) in *. assert (CS := quad_cs n C (D a) j K Hj).
    assert (h * h * C j j <= quad n C (D a) * C j j) by (rewrite <- SS at 1; replace (h * h * (sqrt (C j j) * sqrt (C j j))) with ((h * sqrt (C j j)) * (h * sqrt (C j j))) by ring; rewrite E; auto).
    apply (Rmult_le_reg_r (C j j)); auto.
Qed.
(** among all shifts with component j equal to s, the one along column j of the covariance is the least unlikely *)
Theorem column_least n H C j s : sym n H -> posdef n H -> sym n C -> (forall i k, (i < n)%nat -> (k < n)%nat -> mm n H C i k = delta i k) -> (j < n)%nat ->
  0 < C j j /\ quad n H (fun k => s * C k j / C j j) = s * s / C j j /\
  forall x, x j = s -> s * s / C j j <= quad n H x /\ (quad n H x = s * s / C j j -> forall k, (k < n)%nat -> x k = s * C k j / C j j).
Proof.
  intros SH PH SC HC Hj.
  assert (col : forall i, (i < n)%nat -> mv n H (fun k => C k j) i = delta i j) by (intros i Hi; apply (HC i j Hi Hj)).
  assert (P : 0 < C j j).
  { assert (Q : quad n H (fun k => C k j) = C j j).
    { unfold quad. rewrite (sm_ext n _ (fun i => C i j * delta i j)) by (intros; rewrite col by auto; auto). apply (sm_delta' n j (fun i => C i j) Hj). }
    rewrite <- Q. apply PH. destruct (nonzero_dec n (fun k => C k j)) as [N|N]; [exact N|]. exfalso.
    assert (E := col j Hj). unfold mv in E. rewrite sm_0 in E by (intros k Hk; assert (N' := N k Hk); cbn beta in N'; rewrite N'; ring). unfold delta in E. rewrite Nat.eqb_refl in E. lra. }
  split; auto.
  set (v := fun k => s * C k j / C j j).
  assert (Mv : forall i, (i < n)%nat -> mv n H v i = s / C j j * delta i j).
  { intros i Hi. rewrite <- col by auto. unfold mv, v. rewrite <- sm_scal. apply sm_ext. intros; field; lra. }
  assert (Dot : forall e, sm n (fun i => e i * mv n H v i) = s / C j j * e j).
  { intros e. rewrite (sm_ext n _ (fun i => s / C j j * e i * delta i j)) by (intros; rewrite Mv by auto; ring). rewrite (sm_delta' n j (fun i => s / C j j * e i) Hj). ring. }
  assert (Qv : quad n H v = s * s / C j j) by (unfold quad; rewrite Dot; unfold v; field; lra).
  split; auto. intros x Hx.
  assert (D : quad n H x = s * s / C j j + quad n H (fun k => x k - v k)).
  { rewrite quad_minus by auto. rewrite Dot, Hx, Qv. field. lra. }
  destruct (nonzero_dec n (fun k => x k - v k)) as [N|N].
  - assert (G := PH _ N). split; [lra|]. intros E. exfalso. lra.
  - assert (Z := quad_zero n H _ N). split; [lra|]. intros _ k Hk. assert (N' := N k Hk). cbn beta in N'. fold (v k). lra.
Qed.
