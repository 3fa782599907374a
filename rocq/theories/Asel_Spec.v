(** What the selections should be. *)
From Coq Require Import List Arith Bool String Reals Sorted.
From Verif Require Import RBase Writer_Model Freeze_Model Freeze_Spec.
Import ListNotations.
Local Open Scope R_scope.

(** moving nuisances up and down by the same amount has the same effect with opposite sign: as a factor, or as a
    difference *)
Definition mirrored (ty : systype) (up down centre : R) : Prop :=
  match ty with
  | LogNormal => up * down = centre * centre
  | Normal => up - centre = centre - down
  end.

(** only nuisance number [k] of [n] is moved *)
Definition only (n k : nat) (x : R) : list R := map (fun j => if Nat.eqb j k then x else 0) (seq 0 n).

(** a name passes the two options *)
Definition passes (rx : regex) (include exclude : option (list string)) (n : string) : Prop :=
  (forall e, include = Some e -> selects rx e n) /\ (forall e, exclude = Some e -> ~ selects rx e n).
Definition legal (rx : regex) (o : option (list string)) : Prop := forall e, o = Some e -> valid rx e.

(** ascending, without repetitions *)
Definition ascending (l : list nat) : Prop := StronglySorted lt l.
