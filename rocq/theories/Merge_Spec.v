(** What it means that a workspace is the union of others. *)
From Coq Require Import List Arith Bool String.
From Verif Require Import PyList PyDict Num Names_Model Writer_Model Writer_Tensor Writer_Effects Merge_Model.
Import ListNotations.

Section MSpec.
  Context {V : Type} {NV : Num V}.
  (** average and half-difference effect of nuisance number [k] on bin [b] and process [p] *)
  Definition avg_of (w : workspace V) (b p k : nat) : V := view_logk (w_tensors w) b p k.
  Definition half_of (w : workspace V) (b p k : nat) : V :=
    if w_symmetric w then n0 else view_logk (w_tensors w) b p (List.length (w_systs w) + k).
  (** nuisance number [k] changes the yield of some bin of some process *)
  Definition acts (w : workspace V) (k : nat) : Prop :=
    exists c p i b ip, at_point w c p i b ip /\ (avg_of w b ip k <> n0 \/ half_of w b ip k <> n0).
  (** the files were written by scripts without the corner cases treated elsewhere *)
  Definition from_script (w : workspace V) : Prop := exists cfg ops, written cfg ops w /\ clean ops.

  Variable rn : renames.
  Variable ws : list (workspace V).
  (** nuisance [n] of [w] is called [n'] after merging *)
  Definition called (w : workspace V) (k : nat) (n' : string) : Prop :=
    exists n, nth_error (w_systs w) k = Some n /\ n' = renamed (rn_systs rn) n.
  (** no two nuisances of one file get the same name *)
  Definition systs_apart : Prop := Forall (fun w => NoDup (map (renamed (rn_systs rn)) (w_systs w))) ws.
  (** new names of processes are not longer than the longest old one of the file *)
  Definition names_fit : Prop := Forall (fun w => forall p, In p (w_procs w) -> exists q, In q (w_procs w) /\
    String.length (renamed (rn_procs rn) p) <= String.length q) ws.
  (** nuisances that share a name are all constrained or all free *)
  Definition constraints_agree : Prop :=
    forall w1 w2 n1 n2, In w1 ws -> In w2 ws -> In n1 (w_systs w1) -> In n2 (w_systs w2) ->
      renamed (rn_systs rn) n1 = renamed (rn_systs rn) n2 ->
      (In n1 (w_noconstraint w1) <-> In n2 (w_noconstraint w2)).
End MSpec.
