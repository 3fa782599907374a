(** What was computed for which name: tables of names and values, independent of histograms and their axes. *)
From Coq Require Import Reals List Arith Bool String.
From Verif Require Import RBase PyList PyDict Impacts_Model Read_Model.
Import ListNotations.
Local Open Scope nat_scope.
Local Open Scope string_scope.

Definition kind (i : item) : nat :=
  match i with Prefit _ _ => 0 | Postfit _ _ => 1 | Trad _ _ _ => 2 | Glob _ _ _ => 3 | GaussGlob _ _ _ => 4 | NonProf _ _ _ _ => 5 | TradAsym _ _ _ _ => 6 | GlobAsym _ _ _ _ => 7 | Contours _ _ _ => 8 end.
(** one fit: everything at most once *)
Definition fit_items (is : list item) : Prop := NoDup (map kind is).
(** a matrix with n columns; matrices of two rows with n columns *)
Definition rect (n : nat) (t : list (list R)) : Prop := Forall (fun r => List.length r = n) t.
Definition rect3 (n : nat) (t : list (list (list R))) : Prop := Forall (fun b => List.length b = 2 /\ rect n b) t.
(** impacts of every type: values per parameter of interest and the names of the columns *)
Definition sym_table (parms : list string) (typ : string) (grouped : bool) (i : item) : option (list (list R) * list string) :=
  let pick := fun v l (g : list (list R)) => Some (if grouped then (g, l) else (v, parms)) in
  match i with
  | Trad v l g => if String.eqb typ "traditional" then pick v l g else None
  | Glob v l g => if String.eqb typ "global" then pick v l g else None
  | GaussGlob v l g => if String.eqb typ "gaussian_global" then pick v l g else None
  | _ => None
  end.
(** down and up impacts: per source, side and parameter *)
Definition asym_table (typ : string) (grouped : bool) (i : item) : option (list (list (list R)) * list string) :=
  let pick := fun (v : list (list (list R))) n l g => Some (if grouped then (g, l) else (v, n : list string)) in
  match i with
  | TradAsym n v l g => if String.eqb typ "traditional" then pick v n l g else None
  | GlobAsym n v l g => if String.eqb typ "global" then pick v n l g else None
  | NonProf n v l g => if String.eqb typ "nonprofiled" then pick v n l g else None
  | _ => None
  end.
Definition at3 (t : list (list (list R))) (i s p : nat) : R := nth p (nth s (nth i t []) []) 0%R.
(** fitted values and uncertainties per parameter *)
Record pline := mkPl { l_label : string; l_pull : R; l_unc : R; l_pull0 : R; l_unc0 : R }.
Definition plines (parms : list string) (x v x0 v0 : list R) : list pline :=
  map (fun p => mkPl (nth p parms "") (nth p x 0%R) (sqrt (nth p v 0%R)) (nth p x0 0%R) (sqrt (nth p v0 0%R))) (seq 0 (List.length parms)).
Definition wanted (search : string -> string -> bool) (keep exclude : option (list string)) (l : string) : Prop :=
  (forall ps, keep = Some ps -> ps <> [] -> exists p, In p ps /\ search p l = true) /\ (forall ps p, exclude = Some ps -> In p ps -> search p l = false).
(** order of the printed lines *)
Definition before (s : sorting) (a b : pline) : Prop :=
  match s with
  | ByLabel => Order.string_c (l_label a) (l_label b) <> Gt
  | ByPull f => (if f then Rabs (l_pull a) <= Rabs (l_pull b) else l_pull a <= l_pull b)%R
  | ByConstraint => (l_unc a <= l_unc b)%R
  | ByPullPrefit f => (if f then Rabs (l_pull0 a) <= Rabs (l_pull0 b) else l_pull0 a <= l_pull0 b)%R
  | ByConstraintPrefit => (l_unc0 a <= l_unc0 b)%R
  end.
Definition line (rnd : R -> R) (no_prefit : bool) (a : pline) : prow :=
  mkRow (l_label a) (rnd (l_pull a)) (rnd (l_unc a)) None (if no_prefit then None else Some (rnd (l_pull0 a), rnd (l_unc0 a))).
(** position of bin i of channel c when the channels of the list follow each other *)
Fixpoint position (chans : list (string * list R)) (c : string) (i : nat) : nat :=
  match chans with [] => i | (n, h) :: r => if String.eqb n c then i else List.length h + position r c i end.
