(** What an input file means. *)
From Coq Require Import Reals List Arith Bool String.
From Verif Require Import RBase PyDict OldFile_Model.
Import ListNotations.
Local Open Scope nat_scope.
Local Open Scope string_scope.

(** the yield of process p in bin b *)
Definition cell (d : ds) (b p : nat) : R :=
  match d with
  | V2 _ l => nth p (nth b l []) 0%R
  | Coo _ _ e => sumR (map (fun x => if Nat.eqb (fst (fst x)) b && Nat.eqb (snd (fst x)) p then snd x else 0%R) e)
  | _ => 0%R
  end.
Definition yield (d : ds) (nproc b : nat) : R := sumR (map (cell d b) (seq 0 nproc)).
(** [d] is a matrix with [nr] rows and [nc] columns *)
Definition matrix (d : ds) (nr nc : nat) : Prop :=
  match d with
  | V2 c l => c = nc /\ List.length l = nr /\ Forall (fun r => List.length r = nc) l
  | Coo n c e => n = nr /\ c = nc /\ Forall (fun x => fst (fst x) < nr /\ snd (fst x) < nc) e
  | _ => False
  end.
(** the datasets every file needs *)
Definition complete (f : file) (nr : nat) : Prop :=
  exists p s y nc g gi noi obs w n l,
    dget "hprocs" f = Some (Txt p) /\ dget "hsignals" f = Some (Txt s) /\ dget "hsysts" f = Some (Txt y) /\
    dget "hsystsnoconstraint" f = Some (Txt nc) /\ dget "hsystgroups" f = Some (Txt g) /\ dget "hsystgroupidxs" f = Some (Idx gi) /\
    (dget "hnoiidxs" f = Some (Idx noi) \/ (dget "hnoiidxs" f = None /\ dget "hnoigroupidxs" f = Some (Idx noi))) /\
    dget "hdata_obs" f = Some (V1 obs) /\ List.length obs <= nr /\ dget "hconstraintweights" f = Some w /\
    ((dget "hnorm" f = Some n /\ dget "hlogk" f = Some l) \/
     (dget "hnorm" f = None /\ dget "hnorm_sparse" f = Some n /\ dget "hlogk_sparse" f = Some l)) /\ matrix n nr (List.length p) /\
    (dget "hdata_var" f = None \/ exists v, dget "hdata_var" f = Some (V1 v)) /\
    ((exists a b, dget "hsumw" f = Some a /\ dget "hsumw2" f = Some b) \/
     (dget "hsumw2" f = None /\ exists k, dget "hkstat" f = Some (V1 k) /\ List.length k = nr)).
(** bin b belongs to the channel at position j of the list *)
Definition owner (d : dict info) (b j : nat) : Prop :=
  exists k i, nth_error d j = Some (k, i) /\ i_start i <= b < i_stop i.
Definition total (d : dict chan) : nat := list_sum (map (fun c => size_of (snd c)) d).
