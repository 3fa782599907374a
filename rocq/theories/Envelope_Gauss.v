(** Shifted refits of a quadratic likelihood give the global impacts. *)
From Coq Require Import Reals List Arith Bool String Lra Lia.
From Verif Require Import RBase PyList ListUtil Mat_Model Mat_Proof Linear_Spec Linear_Proof Impacts_Model Impacts_Spec Impacts_Proof Impacts_Global Envelope_Model Envelope_Spec Envelope_Proof.
Import ListNotations.
Open Scope R_scope.

(** minimum of a quadratic likelihood with curvature A and constraints of weight cw around x0 *)
Definition stationary (n : nat) (A : nat -> nat -> R) (b cw : nat -> R) (x0 x : list R) : Prop :=
  List.length x = n /\ forall k, (k < n)%nat -> mv n A (fun j => nth j x 0) k - b k + cw k * (nth k x 0 - nth k x0 0) = 0.
Definition quadratic_fit (n : nat) (A : nat -> nat -> R) (b cw : nat -> R) (fit : list R -> list fl -> result (list fl)) : Prop :=
  forall c s, List.length c = n -> exists y, fit c s = Ok (map Fin y) /\ stationary n A b cw c y.
Definition inverse_of (n : nat) (C H : nat -> nat -> R) : Prop :=
  forall k i, (k < n)%nat -> (i < n)%nat -> sm n (fun l => C k l * H l i) = delta k i.

Lemma stationary_shift n A b cw C x0 x i s c y : inverse_of n C (fun k l => A k l + cw k * delta k l) ->
  (i < n)%nat -> List.length x0 = n -> only_at x0 c i (nth i x0 0 + s) -> stationary n A b cw x0 x -> stationary n A b cw c y ->
  forall k, (k < n)%nat -> nth k y 0 - nth k x 0 = C k i * cw i * s.
Proof.
  intros IC Hi LX (LC & OC & OC') (LX' & SX) (LY & SY) k Hk. set (d := fun j => nth j y 0 - nth j x 0).
  assert (HD : forall l, (l < n)%nat -> mv n (fun k l => A k l + cw k * delta k l) d l = cw l * (s * delta l i)).
  { intros l Hl. specialize (SX l Hl). specialize (SY l Hl).
    assert (E : mv n (fun k l => A k l + cw k * delta k l) d l = mv n A (fun j => nth j y 0) l - mv n A (fun j => nth j x 0) l + cw l * d l).
    { unfold mv. rewrite (sm_ext n (fun j => (A l j + cw l * delta l j) * d j) (fun j => A l j * nth j y 0 - A l j * nth j x 0 + delta l j * (cw l * d j))) by (intros; unfold d; ring).
      rewrite sm_plus, sm_minus, sm_delta by auto. reflexivity. }
    rewrite E. unfold d. assert (CE : nth l c 0 = nth l x0 0 + s * delta l i).
    { unfold delta. destruct (Nat.eqb_spec l i) as [->|N].
      - assert (X := OC ltac:(lia)). rewrite (nth_error_nth _ _ _ X). ring.
      - assert (X := OC' l N). rewrite <- (Rplus_0_r (nth l x0 0)), Rmult_0_r. rewrite !Rplus_0_r.
        destruct (nth_error x0 l) as [v|] eqn:V; [rewrite (nth_error_nth _ _ _ X), (nth_error_nth _ _ _ V); auto|apply nth_error_None in V; lia]. }
    rewrite CE in SY. lra. }
  change (d k = C k i * cw i * s). transitivity (sm n (fun l => C k l * mv n (fun k l => A k l + cw k * delta k l) d l)).
  - symmetry. transitivity (mv n C (fun l => mv n (fun k l => A k l + cw k * delta k l) d l) k); [reflexivity|].
    change (fun l => mv n (fun k0 l0 => A k0 l0 + cw k0 * delta k0 l0) d l) with (mv n (fun k0 l0 => A k0 l0 + cw k0 * delta k0 l0) d).
    rewrite mv_assoc. unfold mv at 1. rewrite (sm_ext n _ (fun j => delta k j * d j)) by (intros j Hj; unfold mm; rewrite IC by auto; reflexivity).
    rewrite sm_delta by auto. reflexivity.
  - rewrite (sm_ext n _ (fun l => (C k l * cw l * s) * delta l i)) by (intros l Hl; rewrite HD by auto; ring). rewrite sm_delta' by auto. ring.
Qed.
Theorem global_asym_gaussian n A b cw C fit sigma dx i x0 x :
  inverse_of n C (fun k l => A k l + nth k cw 0 * delta k l) -> (i < n)%nat -> List.length x0 = n -> 0 < nth i cw 0 ->
  quadratic_fit n A b (fun k => nth k cw 0) fit -> stationary n A b (fun k => nth k cw 0) x0 x ->
  ga_row fit x0 (map Fin x) cw sigma dx i =
  (map (fun k => Fin (- (sigma * (sqrt (nth i cw 0) * C k i)))) (seq 0 n), map (fun k => Fin (sigma * (sqrt (nth i cw 0) * C k i))) (seq 0 n)).
Proof.
  intros IC Hi L0 CW QF SX. unfold ga_row.
  assert (W : ga_width cw i * nth i cw 0 = sqrt (nth i cw 0)).
  { unfold ga_width. cbn zeta. destruct (Reqb_spec (nth i cw 0) 0); [lra|]. rewrite sqrt_inv. assert (Q := sqrt_sqrt _ (Rlt_le _ _ CW)). assert (P := sqrt_lt_R0 _ CW).
    revert Q P. generalize (sqrt (nth i cw 0)). intros r <- P. field. lra. }
  assert (G : forall s, ga_sign fit x0 (map Fin x) dx i s = map (fun k => Fin (C k i * nth i cw 0 * s)) (seq 0 n)).
  { intros s. unfold ga_sign. destruct (QF (shift_at x0 i s) (ga_start dx (map Fin x) i s)) as (y & -> & SY); [unfold shift_at; rewrite lset_length; auto|].
    assert (D := stationary_shift n A b _ C x0 x i s _ y IC Hi L0 (lset_only x0 i (nth i x0 0 + s)) SX SY).
    destruct SX as (LX & _). destruct SY as (LY & _).
    assert (M : forall (l1 l2 : list R), map (fun p => fsub (fst p) (snd p)) (combine (map Fin l1) (map Fin l2)) = map (fun p => Fin (fst p - snd p)) (combine l1 l2)).
    { induction l1 as [|a l1 IH]; intros [|a2 l2]; auto. cbn [map combine fst snd]. rewrite IH. reflexivity. }
    rewrite M. apply (nth_ext _ _ (Fin 0) (Fin 0)). { rewrite !map_length, combine_length, seq_length. lia. }
    intros k Hk. rewrite map_length, combine_length in Hk. rewrite (nth_map_default _ _ k (0, 0)) by (rewrite combine_length; lia).
    rewrite (nth_map_default _ _ k O) by (rewrite seq_length; lia). rewrite seq_nth by lia. rewrite combine_nth by lia. cbn [fst snd].
    f_equal. apply D. simpl. lia. }
  rewrite !G. f_equal; apply map_ext; intros k; f_equal; rewrite <- W; ring.
Qed.
