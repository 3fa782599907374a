(** What the plots of covariance matrices should show, without reference to the plotting code. *)
From Coq Require Import Reals List Arith Bool String.
From Verif Require Import RBase.
Import ListNotations.
Local Open Scope nat_scope.

(** an entry of a matrix of covariances or of correlations; [None]: not a number *)
Definition entry_ok (corr : bool) (C : nat -> nat -> R) (x y : nat) (e : option R) : Prop :=
  if corr then
    match e with
    | Some r => (0 < C x x)%R /\ (0 < C y y)%R /\ (r * (sqrt (C x x) * sqrt (C y y)) = C x y)%R
    | None => (C x x <= 0)%R \/ (C y y <= 0)%R
    end
  else e = Some (C x y).
(** a drawn matrix has one row and one column for each of these bins, in this order *)
Definition shows (corr : bool) (C : nat -> nat -> R) (bins : list nat) (rows : list (list (option R))) : Prop :=
  List.length rows = List.length bins /\
  (forall row, In row rows -> List.length row = List.length bins) /\
  forall i j x y, nth_error bins i = Some x -> nth_error bins j = Some y ->
    exists row e, nth_error rows i = Some row /\ nth_error row j = Some e /\ entry_ok corr C x y e.

(** the bins of a histogram with these axes in the order of its flattened array *)
Fixpoint cells (sizes : list nat) : list (list nat) :=
  match sizes with [] => [[]] | n :: r => flat_map (fun i => map (cons i) (cells r)) (seq 0 n) end.
(** a bin has these numbers on the selected axes *)
Fixpoint in_slice (sel : list bool) (b v : list nat) : bool :=
  match sel, v with
  | [], [] => true
  | true :: sel, i :: v => match b with j :: b => Nat.eqb i j && in_slice sel b v | [] => false end
  | false :: sel, i :: v => in_slice sel b v
  | _, _ => false
  end.
Fixpoint pos_filter {A} (p : A -> bool) (s : nat) (l : list A) : list nat :=
  match l with [] => [] | x :: l => if p x then s :: pos_filter p (S s) l else pos_filter p (S s) l end.
Definition size (sizes : list nat) : nat := fold_right Nat.mul 1 sizes.
(** the positions of a channel and of its slices in the flattened bins of all channels; [c]: for each axis whether it is
    selected, and its size *)
Definition slices (first : nat) (c : list (bool * nat)) : list (list nat) :=
  if existsb fst c then
    map (fun b => pos_filter (in_slice (map fst c) b) first (cells (map snd c))) (cells (map snd (filter fst c)))
  else [].
Fixpoint blocks (first : nat) (cs : list (list (bool * nat))) : list (list nat) :=
  match cs with
  | [] => []
  | c :: cs => (seq first (size (map snd c)) :: slices first c ++ blocks (first + size (map snd c)) cs)%list
  end.
Definition all_bins (cs : list (list (bool * nat))) : nat := list_sum (map (fun c => size (map snd c)) cs).
(** the whole matrix, then each channel followed by its slices; the matrix of a single channel is not repeated *)
Definition expected (cs : list (list (bool * nat))) : list (list nat) :=
  seq 0 (all_bins cs) :: match cs with [c] => slices 0 c | _ => blocks 0 cs end.
(** a covariance matrix *)
Definition symmetric (C : nat -> nat -> R) : Prop := forall i j, C i j = C j i.
Definition semidefinite (n : nat) (C : nat -> nat -> R) : Prop :=
  forall x, (0 <= sumR (map (fun i => sumR (map (fun j => x i * C i j * x j) (seq 0 n))) (seq 0 n)))%R.
(** a text without a character *)
Definition free (c : Ascii.ascii) (s : string) : Prop := ~ In c (list_ascii_of_string s).
