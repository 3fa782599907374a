(** What mappings should do: which bins go where. *)
From Coq Require Import Reals List Arith ZArith Bool String.
From Verif Require Import RBase PyList PyDict Shape Map_Model.
Import ListNotations.
Local Open Scope nat_scope.

(** the sum of [f] over the cells of a shape that go to [j] *)
Definition cell_eqb (a b : list nat) : bool := if list_eq_dec Nat.eq_dec a b then true else false.
Definition hits (pl : list nat -> option (list nat)) (j i : list nat) : bool := match pl i with Some k => cell_eqb k j | None => false end.
Definition collected (f : list nat -> R) (shape : list nat) (pl : list nat -> option (list nat)) (j : list nat) : R :=
  sumR (map f (filter (hits pl j) (all_idx shape))).
(** [t'] collects the cells of [t] according to [pl] *)
Definition collects (t t' : tensor) (pl : list nat -> option (list nat)) : Prop :=
  (forall i j, in_shape (t_shape t) i -> pl i = Some j -> in_shape (t_shape t') j) /\
  forall j, in_shape (t_shape t') j -> t_at t' j = collected (t_at t) (t_shape t) pl j.

(** ** projection: the indices on the kept axes, in the order asked for *)
Definition coordinate (axes : list haxis) (idx : list nat) (n : string) : nat :=
  match find (fun ai => String.eqb (ha_name (fst ai)) n) (combine axes idx) with Some ai => snd ai | None => 0 end.
Definition projected (axes : list haxis) (keep : list string) (idx : list nat) : list nat := map (coordinate axes idx) keep.
(** ** selection of a range, merging of bins, summing over axes *)
(** number of the interval between consecutive cuts that contains the index *)
Fixpoint bin_of (cuts : list nat) (i : nat) : option nat :=
  match cuts with
  | a :: r => match r with
              | b :: _ => if (a <=? i) && (i <? b) then Some 0 else option_map S (bin_of r i)
              | [] => None
              end
  | [] => None
  end.
(** the index on one axis after the selection of bins lo..hi-1 and merging *)
Definition moved (lo hi : nat) (cuts : option (list nat)) (i : nat) : option nat :=
  if (lo <=? i) && (i <? hi) then match cuts with None => Some (i - lo) | Some c => bin_of c (i - lo) end else None.
(** bounds of the selection of an axis *)
Definition lower (s : option selection) : nat := match s with Some (Sl (Some v) _ _) => v | Some (At v) => v | _ => 0 end.
Definition upper (n : nat) (s : option selection) : nat := match s with Some (Sl _ (Some v) _) => v | Some (At v) => S v | _ => n end.
Definition is_at (s : option selection) : bool := match s with Some (At _) => true | _ => false end.
Fixpoint goes (sel : list (string * selection)) (cuts : list (string * list nat)) (sums : list string) (axes : list haxis) (idx : list nat) : option (list nat) :=
  match axes, idx with
  | a :: ar, i :: ir =>
    let s := dget (ha_name a) sel in
    match moved (lower s) (upper (ha_size a) s) (if is_at s then None else dget (ha_name a) cuts) i, goes sel cuts sums ar ir with
    | Some j, Some r => Some (if is_at s || smem (ha_name a) sums then r else j :: r)
    | _, _ => None
    end
  | _, r => Some r
  end.
(** bounds inside the axis and no step *)
Definition plain (sel : list (string * selection)) (axes : list haxis) : Prop :=
  forall a s, In a axes -> dget (ha_name a) sel = Some s -> lower (Some s) <= upper (ha_size a) (Some s) <= ha_size a /\ match s with Sl _ _ (Some k) => k = 1 | _ => True end.
(** positions of the new edges among the old ones, increasing and found without ambiguity *)
Fixpoint rising (l : list nat) : Prop := match l with a :: r => match r with b :: _ => a < b | [] => True end /\ rising r | [] => True end.
Definition positions (old new : list R) (cuts : list nat) : Prop :=
  List.length cuts = List.length new /\ rising cuts /\
  (forall j, j < List.length new -> nth j cuts 0 < List.length old) /\
  (forall i j, i < List.length old -> j < List.length new ->
     (isclose (nth i old 0%R) (nth j new 0%R) = true <-> i = nth j cuts 0) /\ (isclose (nth j new 0%R) (nth i old 0%R) = true <-> i = nth j cuts 0)).
Definition edges_ok (a : haxis) : Prop := List.length (ha_edges a) = S (ha_size a).
(** the edges of the selected part of an axis *)
Definition part_edges (a : haxis) (s : option selection) : list R := pyslice (lower s) (S (upper (ha_size a) s)) (ha_edges a).
Definition cuts_for (sel : list (string * selection)) (rebin : list (string * list R)) (axes : list haxis) (cuts : list (string * list nat)) : Prop :=
  map fst cuts = map fst rebin /\
  forall a new c, In a axes -> In (ha_name a, new) rebin -> In (ha_name a, c) cuts -> positions (part_edges a (dget (ha_name a) sel)) new c.
(** sizes of the axes of the result *)
Definition out_sizes (sel : list (string * selection)) (cuts : list (string * list nat)) (sums : list string) (axes : list haxis) : list nat :=
  flat_map (fun a => let s := dget (ha_name a) sel in
    if is_at s || smem (ha_name a) sums then []
    else [match dget (ha_name a) cuts with Some c => List.length c - 1 | None => upper (ha_size a) s - lower s end]) axes.
