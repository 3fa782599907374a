(** Elimination with pivoting solves every regular system and reports every singular one. *)
From Coq Require Import Reals List Arith Bool Lra Lia.
From Verif Require Import RBase PyList Mat_Model Mat_Proof Linear_Model Linear_Spec Linear_Proof Impacts_Model.
Import ListNotations.
Open Scope R_scope.

Lemma amax_lt n f : (0 < n)%nat -> (amax n f < n)%nat.
Proof.
  revert f. induction n as [|n IH]; intros f H; [lia|]. cbn [amax]. cbv zeta. destruct n as [|n]; [lia|].
  destruct (Rltb _ _); [|lia]. specialize (IH (fun i => f (S i))). lia.
Qed.
Lemma amax_max n f i : (i < n)%nat -> Rabs (f i) <= Rabs (f (amax n f)).
Proof.
  revert f i. induction n as [|n IH]; intros f i H; [lia|]. cbn [amax]. cbv zeta. destruct n as [|n].
  - replace i with O by lia. lra.
  - destruct (Rltb_spec (Rabs (f O)) (Rabs (f (S (amax (S n) (fun i => f (S i))))))) as [L|L]; (destruct i as [|i]; [lra|]);
      assert (X := IH (fun i => f (S i)) i ltac:(lia)); cbn beta in X; lra.
Qed.
Lemma swap_row_inv {A} p i m : (p < S m)%nat -> (i < S m)%nat -> exists k, (k < S m)%nat /\ forall f : nat -> A, swap_row p f k = f i.
Proof.
  intros P I. destruct (Nat.eq_dec i p) as [->|N]; [exists O; split; [lia|reflexivity]|].
  destruct i as [|i].
  - exists p. split; auto. intros f. destruct p as [|p]; [lia|]. cbn. rewrite Nat.eqb_refl. auto.
  - exists (S i). split; auto. intros f. cbn [swap_row]. destruct (Nat.eqb_spec (S i) p); [lia|auto].
Qed.
Lemma swap_row_fwd {A} p i m : (p < S m)%nat -> (i < S m)%nat -> exists k, (k < S m)%nat /\ forall f : nat -> A, swap_row p f i = f k.
Proof.
  intros P I. destruct i as [|i]; [exists p; auto|]. cbn [swap_row]. destruct (Nat.eqb_spec (S i) p).
  - exists O. split; auto. lia.
  - exists (S i). auto.
Qed.
Lemma swap_row_both {A B} p i m : (p < S m)%nat -> (i < S m)%nat ->
  exists k, (k < S m)%nat /\ (forall f : nat -> A, swap_row p f k = f i) /\ (forall f : nat -> B, swap_row p f k = f i).
Proof.
  intros P I. destruct (Nat.eq_dec i p) as [->|N]; [exists O; repeat split; lia|].
  destruct i as [|i].
  - exists p. split; auto. split; intros f; destruct p as [|p]; try lia; cbn; rewrite Nat.eqb_refl; auto.
  - exists (S i). split; auto. split; intros f; cbn [swap_row]; destruct (Nat.eqb_spec (S i) p); auto; lia.
Qed.
Theorem gsolve_ok n : forall A b x, gsolve n A b = Some x -> forall i, (i < n)%nat -> mv n A x i = b i.
Proof.
  induction n as [|m IH]; intros A b x E i Hi; [lia|]. cbn [gsolve] in E. cbv zeta in E.
  set (p := amax (S m) (fun i => A i O)) in *. set (A' := swap_row p A) in *. set (b' := swap_row p b) in *.
  destruct (Reqb_spec (A' O O) 0) as [Z|Z]; [discriminate|].
  destruct (gsolve m _ _) as [y|] eqn:G; [|discriminate]. injection E as <-.
  assert (P : (p < S m)%nat) by (apply amax_lt; lia).
  destruct (swap_row_both (A := nat -> R) (B := R) p i m P Hi) as (k & Hk & KA & KB).
  rewrite <- (KB b). change (swap_row p b k) with (b' k).
  transitivity (mv (S m) A' (fun i => match i with O => (b' O - sm m (fun k => A' O (S k) * y k)) / A' O O | S i' => y i' end) k).
  { unfold mv. apply sm_ext. intros j _. unfold A'. rewrite KA. auto. }
  unfold mv. cbn [sm]. destruct k as [|k].
  - field. auto.
  - assert (X := IH _ _ _ G k ltac:(lia)). unfold mv in X. cbn beta in X.
    assert (Y : sm m (fun j => (A' (S k) (S j) - A' (S k) O / A' O O * A' O (S j)) * y j)
      = sm m (fun j => A' (S k) (S j) * y j) - A' (S k) O / A' O O * sm m (fun j => A' O (S j) * y j)).
    { rewrite <- sm_scal, <- sm_minus. apply sm_ext. intros; ring. }
    rewrite Y in X. apply (f_equal (fun t => t + A' (S k) O / A' O O * b' O)) in X.
    replace (b' (S k) - A' (S k) O / A' O O * b' O + A' (S k) O / A' O O * b' O) with (b' (S k)) in X by ring. rewrite <- X. field. auto.
Qed.
Definition regular (n : nat) (A : nat -> nat -> R) : Prop := forall z, (forall i, (i < n)%nat -> mv n A z i = 0) -> forall i, (i < n)%nat -> z i = 0.
Theorem gsolve_regular n : forall A b, regular n A -> exists x, gsolve n A b = Some x.
Proof.
  induction n as [|m IH]; intros A b RG; [eexists; reflexivity|]. cbn [gsolve]. cbv zeta.
  set (p := amax (S m) (fun i => A i O)) in *. set (A' := swap_row p A) in *. set (b' := swap_row p b) in *.
  assert (P : (p < S m)%nat) by (apply amax_lt; lia).
  assert (RG' : regular (S m) A').
  { intros z Hz. apply RG. intros i Hi. destruct (swap_row_inv (A := nat -> R) p i m P Hi) as (k & Hk & KA).
    rewrite <- (Hz k Hk). unfold mv. apply sm_ext. intros j _. unfold A'. rewrite KA. auto. }
  destruct (Reqb_spec (A' O O) 0) as [Z|Z].
  - exfalso. assert (K : forall i, (i < S m)%nat -> A i O = 0).
    { intros i Hi. assert (X := amax_max (S m) (fun i => A i O) i Hi). cbn beta in X. fold p in X.
      change (A p O) with (A' O O) in X. rewrite Z, Rabs_R0 in X. assert (Y := Rabs_pos (A i O)).
      destruct (Req_dec (A i O) 0) as [|N]; auto. apply Rabs_pos_lt in N. lra. }
    assert (X : delta O O = 0).
    { apply (RG (fun i => delta O i)); [|lia]. intros i Hi. unfold mv. transitivity (sm (S m) (fun j => delta O j * A i j)).
      - apply sm_ext. intros; ring.
      - rewrite sm_delta by lia. auto. }
    unfold delta in X. cbn in X. lra.
  - edestruct (IH (fun i j => A' (S i) (S j) - A' (S i) O / A' O O * A' O (S j)) (fun i => b' (S i) - A' (S i) O / A' O O * b' O)) as (x & ->); [|eauto].
    intros z Hz. set (w := fun i => match i with O => - sm m (fun k => A' O (S k) * z k) / A' O O | S i' => z i' end).
    assert (W : forall i, (i < S m)%nat -> w i = 0).
    { apply RG'. intros i Hi. unfold mv. cbn [sm]. unfold w. destruct i as [|i]; [field; auto|].
      assert (X := Hz i ltac:(lia)). unfold mv in X.
      assert (Y : sm m (fun j => (A' (S i) (S j) - A' (S i) O / A' O O * A' O (S j)) * z j)
        = sm m (fun j => A' (S i) (S j) * z j) - A' (S i) O / A' O O * sm m (fun j => A' O (S j) * z j)).
      { rewrite <- sm_scal, <- sm_minus. apply sm_ext. intros; ring. }
      rewrite Y in X. replace (sm m (fun j => A' (S i) (S j) * z j)) with (A' (S i) O / A' O O * sm m (fun j => A' O (S j) * z j)) by lra.
      field. auto. }
    intros i Hi. exact (W (S i) ltac:(lia)).
Qed.
Lemma gsolve_indep n : forall A b b' x, gsolve n A b = Some x -> exists y, gsolve n A b' = Some y.
Proof.
  induction n as [|m IH]; intros A b b' x E; [eexists; reflexivity|]. cbn [gsolve] in E |- *. cbv zeta in E |- *.
  destruct (Reqb_spec (swap_row (amax (S m) (fun i => A i O)) A O O) 0) as [Z|Z]; [discriminate|].
  destruct (gsolve m _ _) as [y|] eqn:G in E; [|discriminate]. edestruct IH as (z & Ez); [exact G|]. erewrite Ez. eauto.
Qed.
Lemma gsolve_zero_row n A b k : (k < n)%nat -> (forall j, (j < n)%nat -> A k j = 0) -> gsolve n A b = None.
Proof.
  intros Hk Z. destruct (gsolve n A b) as [x|] eqn:E; auto. exfalso.
  destruct (gsolve_indep n A b (delta k) x E) as (y & Ey). assert (X := gsolve_ok n A _ y Ey k Hk).
  unfold mv in X. rewrite sm_0 in X; [unfold delta in X; rewrite Nat.eqb_refl in X; lra|]. intros j Hj. rewrite Z by auto. ring.
Qed.
Lemma posdef_regular n A : posdef n A -> regular n A.
Proof. intros PD z Hz. apply (posdef_inj n A z PD Hz). Qed.
Lemma ginv_spec n A : regular n A -> exists C, ginv n A = Ok C /\ forall i j, (i < n)%nat -> (j < n)%nat -> mm n A C i j = delta i j.
Proof.
  intros RG. unfold ginv. destruct (gsolve_regular n A (fun _ => 0) RG) as (x0 & ->). eexists. split; [reflexivity|].
  intros i j Hi Hj. unfold mm. destruct (gsolve_regular n A (fun k => delta k j) RG) as (x & E).
  rewrite <- (gsolve_ok n A _ x E i Hi). unfold mv. rewrite E. auto.
Qed.
