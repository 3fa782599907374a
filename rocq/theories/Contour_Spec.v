(** Specification of contour scans, without state or caches. *)
From Coq Require Import Reals List Arith Bool String.
From Verif Require Import RBase PyList Mat_Model Contour_Model.
Import ListNotations.
Open Scope R_scope.

(** the mathematical answer to a question of the minimiser *)
Definition answer (L : clik) (level : R) (hm : hmode) (prec : list (list R)) (fn : option cobs) (idx : nat) (x0 sign : R) (qu : cquery) (r : creply) : Prop :=
  match qu, r with
  | QFun x, RNum v => v = cl_loss L x - level
  | QJac x, RVec g => g = cl_grad L x
  | QHess x v, RMat m => List.length m = List.length (match hm with HExact => cl_hess L x | _ => prec end) /\
      (hm = HExact \/ hm = HFrozen) /\
      forall i row, nth_error (match hm with HExact => cl_hess L x | _ => prec end) i = Some row -> nth_error m i = Some (map (fun h => nth 0 v 0 * h) row)
  | QHess _ _, ROp => hm <> HExact /\ hm <> HFrozen
  | QMatvec x v p, RVec w => w = map (fun h => nth 0 v 0 * h) (cl_hessp L x p)
  | QObj x, RObj v g => (exists f, match fn with None => f = nth idx x 0 - x0 | Some o => f = co_val o x end /\ v = - (sign * f)) /\
      match fn with
      | None => List.length g = List.length x /\ forall i, (i < List.length x)%nat -> nth i g 0 = if Nat.eqb i idx then - sign else 0
      | Some o => g = map (fun h => - sign * h) (co_grad o x)
      end
  | QObjHess x p, RVec w => match fn with None => w = repeat 0 (List.length p) | Some o => w = map (fun h => - sign * h) (co_hessp o x p) end
  | _, _ => False
  end.
(** a run of the minimiser in which all questions get that answer *)
Inductive truthful (ans : cquery -> creply -> Prop) : strat -> bool -> list R -> Prop :=
| t_done ok x : truthful ans (Done ok x) ok x
| t_ask qu k r ok x : ans qu r -> truthful ans (k r) ok x -> truthful ans (Ask qu k) ok x.

(** one side of the scan: interval and displacements, of a run that succeeds *)
Definition side_of (ans : R -> cquery -> creply -> Prop) (fn : option cobs) (idx : nat) (xval : list R) (start : R -> strat) (sign : R)
  (iv : option R) (pv : option (list R)) : Prop :=
  exists ok rx, truthful (ans sign) (start sign) ok rx /\
    if ok then (exists v, iv = Some v /\ match fn with None => v = nth idx rx 0 - nth idx xval 0 | Some o => v = co_val o rx end) /\
               (exists d, pv = Some d /\ List.length d = Nat.min (List.length rx) (List.length xval) /\ forall i, (i < List.length d)%nat -> nth i d 0 = nth i rx 0 - nth i xval 0)
    else iv = None /\ pv = None.

(** moves of floating parameters and their likelihood *)
Definition floating_move (n : nat) (frozen : nat -> bool) (z : nat -> R) : Prop := forall i, (i < n)%nat -> frozen i = true -> z i = 0.
Definition form (n : nat) (H : nat -> nat -> R) (z : nat -> R) : R := sm n (fun i => sm n (fun j => z i * H i j * z j)).
Definition floating_min (n : nat) (H : nat -> nat -> R) (frozen : nat -> bool) : Prop :=
  (forall i j, (i < n)%nat -> (j < n)%nat -> H i j = H j i) /\
  forall z, floating_move n frozen z -> (exists i, (i < n)%nat /\ z i <> 0) -> 0 < form n H z.
(** covariance of the floating parameters *)
Definition floating_cov (n : nat) (H : nat -> nat -> R) (frozen : nat -> bool) (C : nat -> nat -> R) : Prop :=
  forall i j, (i < n)%nat -> (j < n)%nat ->
    if frozen i || frozen j then C i j = 0 else sm n (fun l => H i l * C l j) = if Nat.eqb i j then 1 else 0.
(** a quadratic likelihood with minimum at xval *)
Definition gaussian (L : clik) (H : nat -> nat -> R) (xval : list R) : Prop :=
  forall x, List.length x = List.length xval ->
    cl_loss L x = cl_loss L xval + / 2 * form (List.length xval) H (fun i => nth i x 0 - nth i xval 0).

(** what the scan is for: the farthest point of a contour in direction sign of one parameter ... *)
Definition farthest (F : (nat -> R) -> Prop) (L : (nat -> R) -> R) (level : R) (idx : nat) (sign : R) (x : nat -> R) : Prop :=
  F x /\ L x = level /\ forall y, F y -> L y = level -> sign * y idx <= sign * x idx.
(** ... and the end of an interval of the profile likelihood *)
Definition profile_at (F : (nat -> R) -> Prop) (L : (nat -> R) -> R) (idx : nat) (t v : R) : Prop :=
  (exists x, F x /\ x idx = t /\ L x = v) /\ forall y, F y -> y idx = t -> v <= L y.
Definition along (idx : nat) (x : nat -> R) (t : R) (i : nat) : R := if Nat.eqb i idx then t else x i.
(** likelihood as a function of vectors *)
Definition listed (n : nat) (x : nat -> R) : list R := map x (seq 0 n).
(** level: the value at the minimum plus q/2 *)
Definition scan_answer (L : clik) (nll q : R) (hm : hmode) (ph : list (list R)) (fn : option cobs) (idx : nat) (xval : list R) (sign : R) : cquery -> creply -> Prop :=
  answer L (nll + / 2 * q) hm ph fn idx (nth idx xval 0) sign.
(** entry of the table for parameter p and level cl: displacements of all parameters at the lower and at the upper end *)
Definition contour_entry (L : clik) (cov : nat -> nat -> R) (parms : list string) (frozen : nat -> bool) (opt : list (option R) -> strat) (x : list R) (p : string) (cl : R)
  (e : list (option (list R))) : Prop :=
  exists idx down up id iu, e = [down; up] /\ nth_error parms idx = Some p /\
    side_of (scan_answer L (cl_loss L x) (cl * cl) HExact [] None idx x) None idx x (fun s => opt (warm_start cov frozen (cl * cl) idx s x)) (-1) id down /\
    side_of (scan_answer L (cl_loss L x) (cl * cl) HExact [] None idx x) None idx x (fun s => opt (warm_start cov frozen (cl * cl) idx s x)) 1 iu up.
