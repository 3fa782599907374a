(** Where a histogram is. *)
From Coq Require Import List Arith Bool String Ascii.
From Verif Require Import Rfile_Model.
Import ListNotations.

Section Spec.
  Context {H : Type}.
  (** the object [n] is at the path [ps] below the directory [l] *)
  Inductive located : rdir H -> list string -> rnode H -> Prop :=
  | loc_here : forall l p n, In (p, n) l -> located l [p] n
  | loc_below : forall l p l' ps n, In (p, RDir l') l -> located l' ps n -> located l (p :: ps) n.
  (** the directory that holds the last part of the path holds no other directories *)
  Inductive flat : rdir H -> list string -> Prop :=
  | flat_here : forall l p, (forall q l', ~ In (q, RDir l') l) -> flat l [p]
  | flat_below : forall l p l' ps, In (p, RDir l') l -> flat l' ps -> flat l (p :: ps).
  (** names are unique in every directory, down to a depth *)
  Fixpoint unique (n : nat) (l : rdir H) : Prop :=
    NoDup (map fst l) /\ match n with O => True | S n => forall p l', In (p, RDir l') l -> unique n l' end.
End Spec.
Definition no_slash (s : string) : Prop := count_slash s = 0%nat.
