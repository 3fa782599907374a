(** What should come back from a file with bundles. *)
From Coq Require Import List Arith ZArith Bool String Ascii.
From Verif Require Import PyList PyDict Storage_Model Storage_Spec Bundle_Model.
Import ListNotations.
Open Scope string_scope.

(** names that are neither paths nor empty *)
Definition plain (s : string) : Prop := s <> "" /\ s <> "." /\ forall a b, s <> a ++ "/" ++ b.
(** text without zero bytes *)
Definition clean (s : string) : Prop := forall a b, s <> a ++ String Ascii.zero b.
Section Spec.
  Context {V DT : Type}.
  Variables (zero : DT -> V) (iszero : V -> bool).
  Definition storable (v : value V DT) : Prop :=
    match v with
    | VNum _ a => List.length (nd_data a) = prodn (nd_shape a)
    | VText _ l => Forall (fun e => clean (shown e)) l
    | VList l => l <> [] /\ Forall clean l
    end.
  (** numbers with their type, shape and values (up to the sign of zeros); text as a flat list *)
  Definition came_back (v : value V DT) (r : rvalue V DT) : Prop :=
    match v, r with
    | VNum dt a, RNum dt' b => dt' = dt /\ nd_shape b = nd_shape a /\ same_values (zero dt) iszero (nd_data a) (nd_data b)
    | VText _ l, RList s => s = map shown l
    | VList l, RList s => s = l
    | _, _ => False
    end.
  Definition same_dict {A B} (R : A -> B -> Prop) (d : dict A) (e : dict B) : Prop :=
    forall k, match dget k d, dget k e with Some a, Some b => R a b | None, None => True | _, _ => False end.
  Definition calls_ok (calls : list (string * dict (value V DT))) : Prop :=
    forall n d, In (n, d) calls -> plain n /\ NoDup (dkeys d) /\ forall k v, In (k, v) d -> plain k /\ storable v.
End Spec.
