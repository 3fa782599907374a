(** Specification of contours in two parameters. *)
From Coq Require Import Reals List Arith Bool String.
From Verif Require Import RBase PyList Mat_Model Contour_Model Contour_Spec Cont2_Model.
Import ListNotations.
Open Scope R_scope.

(** ** the problem in question: of all points of the line through [c] at angle t, where the likelihood is at most the level, one at the
    largest distance from [c] *)
Definition dist2 (a b : nat) (c x : nat -> R) : R := (x a - c a) ^ 2 + (x b - c b) ^ 2.
Definition on_line (a b : nat) (c : nat -> R) (t : R) (x : nat -> R) : Prop := exists r, x a = c a + r * cos t /\ x b = c b + r * sin t.
Definition on_ray (a b : nat) (c : nat -> R) (t : R) (x : nat -> R) : Prop := exists r, 0 <= r /\ x a = c a + r * cos t /\ x b = c b + r * sin t.
Definition farthest2 (F : (nat -> R) -> Prop) (L : (nat -> R) -> R) (level : R) (a b : nat) (c : nat -> R) (t : R) (x : nat -> R) : Prop :=
  F x /\ on_line a b c t x /\ L x <= level /\ forall y, F y -> on_line a b c t y -> L y <= level -> dist2 a b c y <= dist2 a b c x.
(** profile likelihood of two parameters *)
Definition profile2_at (F : (nat -> R) -> Prop) (L : (nat -> R) -> R) (a b : nat) (p s v : R) : Prop :=
  (exists x, F x /\ x a = p /\ x b = s /\ L x = v) /\ forall y, F y -> y a = p -> y b = s -> v <= L y.
Definition shift (a b : nat) (t : R) (y : nat -> R) (s : R) (i : nat) : R := if Nat.eqb i a then y a + s * cos t else if Nat.eqb i b then y b + s * sin t else y i.

(** ** derivatives: along every direction v *)
Definition coord (x : list R) (i : nat) : R := nth i x 0.
Definition moved (x v : list R) (s : R) : list R := map (fun i => nth i x 0 + s * nth i v 0) (seq 0 (List.length x)).
Definition dotl (n : nat) (g v : list R) : R := sm n (fun i => nth i g 0 * nth i v 0).

(** ** the answers a minimiser must get at angle t *)
Definition answer2 (L : clik) (level : R) (c : list R) (a b : nat) (t : R) (qu : query2) (r : reply2) : Prop :=
  let at_two (x : list R) (va vb : R) (g : list R) := List.length g = List.length x /\
    forall i, (i < List.length x)%nat -> nth i g 0 = if Nat.eqb i a then va else if Nat.eqb i b then vb else 0 in
  match qu, r with
  | KFun x, PNum v => v = cl_loss L x - level
  | KJac x, PVec g => g = cl_grad L x
  | KAng x, PNum v => v = (nth a x 0 - nth a c 0) * sin t - (nth b x 0 - nth b c 0) * cos t
  | KAngJac x, PVec g => at_two x (sin t) (- cos t) g
  | KObj x, PNum v => v = - dist2 a b (coord c) (coord x)
  | KObjJac x, PVec g => at_two x (2 * (nth a c 0 - nth a x 0)) (2 * (nth b c 0 - nth b x 0)) g
  | KObjHessp _ w, PVec g => at_two w (- (2 * nth a w 0)) (- (2 * nth b w 0)) g
  | _, _ => False
  end.
Inductive truthful2 (ans : query2 -> reply2 -> Prop) : strat2 -> bool -> list R -> Prop :=
| u_stop ok x : truthful2 ans (Stop2 ok x) ok x
| u_ask qu k r ok x : ans qu r -> truthful2 ans (k r) ok x -> truthful2 ans (Ask2 qu k) ok x.
(** entry for one angle *)
Definition entry2 (L : clik) (level : R) (c : list R) (a b : nat) (t : R) (start : strat2) (e : option (R * R)) : Prop :=
  exists ok x, truthful2 (answer2 L level c a b t) start ok x /\ e = if ok then Some (nth a x 0, nth b x 0) else None.

(** ** Gaussian likelihood: radius of the ellipse of the covariance at angle t is sqrt(q / inverse_width) *)
Definition inverse_width (C : nat -> nat -> R) (a b : nat) (t : R) : R :=
  (C b b * cos t ^ 2 - 2 * C a b * cos t * sin t + C a a * sin t ^ 2) / (C a a * C b b - C a b ^ 2).
