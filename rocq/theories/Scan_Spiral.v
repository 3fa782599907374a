(** The spiral of nll_scan2D: rings of increasing radius around the centre. *)
From Coq Require Import List Arith Bool ZArith Lia.
From Verif Require Import PyList ListUtil Scan_Model.
Import ListNotations.
Local Open Scope Z_scope.

(** state after [k] steps on ring [r] *)
Definition ring (r k : Z) : spiral :=
  if k =? 0 then mkSpi (1 - r) (1 - r) 0 (-1) r
  else if k =? 1 then mkSpi (1 - r) (- r) 0 (-1) r
  else if k <=? 2 * r then mkSpi (k - r) (- r) 1 0 r
  else if k <=? 4 * r then mkSpi r (k - 3 * r) 0 1 r
  else if k <=? 6 * r then mkSpi (5 * r - k) r (-1) 0 r
  else if k <? 8 * r then mkSpi (- r) (7 * r - k) 0 (-1) r
  else mkSpi (- r) (- r) 0 (-1) (r + 1).
Ltac zcases :=
  repeat match goal with
  | |- context [?a =? ?b] => destruct (Z.eqb_spec a b); try lia
  | |- context [?a <=? ?b] => destruct (Z.leb_spec a b); try lia
  | |- context [?a <? ?b] => destruct (Z.ltb_spec a b); try lia
  end.
Lemma ring_step r k : 1 <= r -> 0 <= k < 8 * r -> spiral_step (ring r k) = ring r (k + 1).
Proof.
  intros Hr Hk. unfold ring.
  zcases; unfold spiral_step; repeat (progress (zcases; cbn [andb])); f_equal; lia.
Qed.
Lemma ring_end r : 1 <= r -> ring r (8 * r) = ring (r + 1) 0.
Proof. intros H. unfold ring. zcases. f_equal; lia. Qed.
Lemma ring_radius r k : 1 <= r -> 0 <= k < 8 * r -> s_r (ring r k) = r.
Proof. intros H K. unfold ring. zcases; auto. Qed.
Definition cellof (s : spiral) : Z * Z := (s_i s, s_j s).
Lemma ring_max r k : 1 <= r -> 1 <= k <= 8 * r -> Z.max (Z.abs (s_i (ring r k))) (Z.abs (s_j (ring r k))) = r.
Proof. intros H K. unfold ring. zcases; cbn [s_i s_j]; lia. Qed.
Lemma ring_inj r k l : 1 <= r -> 1 <= k <= 8 * r -> 1 <= l <= 8 * r ->
  cellof (ring r k) = cellof (ring r l) -> k = l.
Proof.
  intros H K L E. unfold cellof in E. injection E as E1 E2. revert E1 E2. unfold ring.
  zcases; cbn [s_i s_j]; lia.
Qed.
Lemma ring_cover r a b : 1 <= r -> Z.max (Z.abs a) (Z.abs b) = r ->
  exists k, 1 <= k <= 8 * r /\ cellof (ring r k) = (a, b).
Proof.
  intros H M.
  destruct (Z.eq_dec b (- r)) as [E1|E1].
  - destruct (Z.eq_dec a (- r)) as [E2|E2].
    + exists (8 * r). split; [lia|]. unfold ring, cellof. zcases; cbn [s_i s_j]; f_equal; lia.
    + exists (a + r). split; [lia|]. unfold ring, cellof. zcases; cbn [s_i s_j]; f_equal; lia.
  - destruct (Z.eq_dec a r) as [E2|E2].
    + exists (b + 3 * r). split; [lia|]. unfold ring, cellof. zcases; cbn [s_i s_j]; f_equal; lia.
    + destruct (Z.eq_dec b r) as [E3|E3].
      * exists (5 * r - a). split; [lia|]. unfold ring, cellof. zcases; cbn [s_i s_j]; f_equal; lia.
      * exists (7 * r - b). split; [lia|]. unfold ring, cellof. zcases; cbn [s_i s_j]; f_equal; lia.
Qed.
Definition neighbour (p q : Z * Z) : Prop := Z.abs (fst p - fst q) + Z.abs (snd p - snd q) = 1.
Lemma ring_neighbour r k : 1 <= r -> 0 <= k < 8 * r -> neighbour (cellof (ring r k)) (cellof (ring r (k + 1))).
Proof. intros H K. unfold neighbour, cellof, ring. zcases; cbn [fst snd s_i s_j]; lia. Qed.

(** cells of ring [r] from step [k], [m] of them *)
Fixpoint ring_cells (r k : Z) (m : nat) : list (Z * Z) :=
  match m with O => [] | S m => cellof (ring r (k + 1)) :: ring_cells r (k + 1) m end.
(** all rings from [r], [n] of them *)
Fixpoint rings (r : Z) (n : nat) : list (Z * Z) :=
  match n with O => [] | S n => ring_cells r 0 (Z.to_nat (8 * r)) ++ rings (r + 1) n end.
Fixpoint fuel_for (r : Z) (n : nat) : nat :=
  match n with O => 1%nat | S n => (Z.to_nat (8 * r) + fuel_for (r + 1) n)%nat end.

Section Loop.
  Context {S : Type} (body : Z -> Z -> S -> result S) (bf : Z).
  Fixpoint visit (cells : list (Z * Z)) (st : S) : result S :=
    match cells with
    | [] => Ok st
    | (i, j) :: r => st' <- body (bf - i) (bf + j) st ;; visit r st'
    end.
  Lemma visit_app a b st : visit (a ++ b) st = (st' <- visit a st ;; visit b st').
  Proof.
    revert st. induction a as [|[i j] a IH]; intros st; simpl; auto.
    destruct (body (bf - i) (bf + j) st); simpl; auto.
  Qed.
  Lemma loop_ring r : 1 <= r <= bf -> forall m k fuel st, 0 <= k -> k + Z.of_nat m = 8 * r ->
    spiral_loop body bf (m + fuel) (ring r k) st =
    match visit (ring_cells r k m) st with
    | Ok st' => spiral_loop body bf fuel (ring r (8 * r)) st'
    | Raise e => Some (Raise e)
    end.
  Proof.
    intros Hr. induction m as [|m IH]; intros k fuel st Hk E.
    - simpl. replace k with (8 * r) by lia. auto.
    - change (Datatypes.S m + fuel)%nat with (Datatypes.S (m + fuel)). cbn [spiral_loop ring_cells].
      rewrite ring_radius by lia. destruct (Z.ltb_spec (r - 1) bf); [|lia].
      rewrite ring_step by lia. cbn [visit cellof fst snd].
      unfold cellof. cbn [visit].
      destruct (body (bf - s_i (ring r (k + 1))) (bf + s_j (ring r (k + 1))) st); simpl; auto.
      apply IH; lia.
  Qed.
  Lemma loop_rings n : forall r fuel st, 1 <= r -> r + Z.of_nat n = bf + 1 ->
    spiral_loop body bf (fuel_for r n + fuel) (ring r 0) st = Some (visit (rings r n) st).
  Proof.
    induction n as [|n IH]; intros r fuel st Hr E.
    - simpl. assert (r = bf + 1) by lia. destruct (Z.ltb_spec (r - 1) bf); [lia|]. auto.
    - cbn [fuel_for rings]. rewrite <- Nat.add_assoc, (loop_ring r) by lia.
      rewrite visit_app. destruct (visit (ring_cells r 0 (Z.to_nat (8 * r))) st) as [st'|e]; simpl; auto.
      rewrite ring_end by lia. apply IH; lia.
  Qed.
End Loop.

Lemma fuel_for_eq n : forall r, 1 <= r -> Z.of_nat (fuel_for r n) =
  (2 * (r + Z.of_nat n) - 1) * (2 * (r + Z.of_nat n) - 1) - (2 * r - 1) * (2 * r - 1) + 1.
Proof.
  induction n as [|n IH]; intros r Hr; cbn [fuel_for].
  - change (Z.of_nat 1) with 1. change (Z.of_nat 0) with 0. ring.
  - rewrite Nat2Z.inj_add, Z2Nat.id, IH by lia. rewrite Nat2Z.inj_succ. unfold Z.succ. ring.
Qed.
Lemma spiral0_ring : spiral0 = ring 1 0.
Proof. reflexivity. Qed.
(** (2 bf + 1)^2 iterations are enough, whatever the body does *)
Theorem spiral_terminates {S} (body : Z -> Z -> S -> result S) (bf : nat) fuel st :
  ((2 * bf + 1) * (2 * bf + 1) <= fuel)%nat ->
  spiral_loop body (Z.of_nat bf) fuel spiral0 st = Some (visit body (Z.of_nat bf) (rings 1 bf) st).
Proof.
  intros H. rewrite spiral0_ring.
  replace fuel with (fuel_for 1 bf + (fuel - fuel_for 1 bf))%nat.
  - apply loop_rings; lia.
  - pose proof (fuel_for_eq bf 1 ltac:(lia)). nia.
Qed.

(** *** the cells *)
Lemma ring_cells_In r m : forall k c, In c (ring_cells r k m) <-> exists l, k < l <= k + Z.of_nat m /\ c = cellof (ring r l).
Proof.
  induction m as [|m IH]; intros k c; cbn [ring_cells].
  - simpl. split; [tauto|]. intros (l & H & _). lia.
  - cbn [In]. rewrite IH. split.
    + intros [<-|(l & H & ->)]; [exists (k + 1)|exists l]; split; auto; lia.
    + intros (l & H & ->). destruct (Z.eq_dec l (k + 1)) as [->|N]; auto. right. exists l. split; auto. lia.
Qed.
Lemma ring_cells_NoDup r m : 1 <= r -> forall k, 0 <= k -> k + Z.of_nat m <= 8 * r -> NoDup (ring_cells r k m).
Proof.
  intros Hr. induction m as [|m IH]; intros k Hk H; cbn [ring_cells]; constructor.
  - rewrite ring_cells_In. intros (l & L & E). apply ring_inj in E; lia.
  - apply IH; lia.
Qed.
Lemma rings_In n : forall r c, 1 <= r -> In c (rings r n) <->
  r <= Z.max (Z.abs (fst c)) (Z.abs (snd c)) < r + Z.of_nat n.
Proof.
  induction n as [|n IH]; intros r [a b] Hr; cbn [rings].
  - simpl. lia.
  - rewrite in_app_iff, ring_cells_In, IH by lia. cbn [fst snd]. split.
    + intros [(l & L & E)|H]; [|lia]. unfold cellof in E. injection E as -> ->. rewrite ring_max by lia. lia.
    + intros H. destruct (Z.eq_dec (Z.max (Z.abs a) (Z.abs b)) r) as [E|N]; [|right; lia].
      left. destruct (ring_cover r a b Hr E) as (k & K1 & K2). exists k. split; [lia|auto].
Qed.
Lemma rings_NoDup n : forall r, 1 <= r -> NoDup (rings r n).
Proof.
  induction n as [|n IH]; intros r Hr; cbn [rings]; [constructor|].
  apply NoDup_app'.
  - apply ring_cells_NoDup; lia.
  - apply IH. lia.
  - intros [a b] H1 H2. apply rings_In in H2; [|lia]. apply ring_cells_In in H1. destruct H1 as (l & L & E).
    unfold cellof in E. injection E as -> ->. cbn [fst snd] in H2. rewrite ring_max in H2; lia.
Qed.
Fixpoint chain (p : Z * Z) (l : list (Z * Z)) : Prop :=
  match l with [] => True | q :: r => neighbour p q /\ chain q r end.
Lemma chain_ring r m : 1 <= r -> forall k, 0 <= k -> k + Z.of_nat m <= 8 * r -> forall rest,
  chain (cellof (ring r (k + Z.of_nat m))) rest -> chain (cellof (ring r k)) (ring_cells r k m ++ rest).
Proof.
  intros Hr. induction m as [|m IH]; intros k Hk H rest C; cbn [ring_cells app].
  - replace (k + Z.of_nat 0) with k in C by lia. auto.
  - cbn [chain]. split; [apply ring_neighbour; lia|]. apply IH; try lia.
    replace (k + 1 + Z.of_nat m) with (k + Z.of_nat (S m)) by lia. auto.
Qed.
Lemma chain_rings n : forall r, 1 <= r -> chain (cellof (ring r 0)) (rings r n).
Proof.
  induction n as [|n IH]; intros r Hr; cbn [rings]; [exact I|].
  apply chain_ring; try lia. rewrite Z2Nat.id by lia. change (0 + 8 * r) with (8 * r).
  rewrite ring_end by lia. apply IH. lia.
Qed.
