(** What parameter selection and freezing should mean. *)
From Coq Require Import List Bool String.
From Verif Require Import Freeze_Model.
Import ListNotations.

Section Spec.
  Variable rx : regex.
  Definition valid (exprs : list string) : Prop := forall e, In e exprs -> rx e <> None.
  (** some expression is the name itself or matches it *)
  Definition selects (exprs : list string) (p : string) : Prop :=
    exists e, In e exprs /\ (e = p \/ exists f, rx e = Some f /\ f p = true).
  Definition freezes (p : string) (o : fop) : Prop := exists e, o = Freeze e /\ valid e /\ selects e p.
  Definition releases (p : string) (o : fop) : Prop := exists e, o = Defreeze e /\ valid e /\ selects e p.
  (** frozen by some call and not released since *)
  Definition is_frozen (ops : list fop) (p : string) : Prop :=
    exists a o b, ops = a ++ o :: b /\ freezes p o /\ forall o', In o' b -> ~ releases p o'.
End Spec.
(** [l] keeps the relative order of [names] *)
Inductive subseq {A} : list A -> list A -> Prop :=
| sub_nil : forall l, subseq [] l
| sub_take : forall x l1 l2, subseq l1 l2 -> subseq (x :: l1) (x :: l2)
| sub_skip : forall x l1 l2, subseq l1 l2 -> subseq l1 (x :: l2).
