(** The plots of likelihood scans: bin/rabbit_plot_likelihood_scan.py:52-231, bin/rabbit_plot_likelihood_scan2D.py:84-406.
    Simplifications: real numbers; the strings of scan points convert back to the numbers; names of parameters have no
    slashes; argsort keeps the order of equal values; styles, labels and the illustration of the spiral are left out. *)
From Coq Require Import Reals List Arith Bool String Ascii.
From Verif Require Import RBase PyList PyDict Scan_Model Param_Names.
Import ListNotations.
Local Open Scope R_scope.

(** ** one parameter *)
(** lines 70-77: mask of finite values, -2 log L, argsort *)
Definition finite (l : list (R * entry)) : list (R * R) :=
  flat_map (fun p => match snd p with Val v => [(fst p, v * 2)] | Unset => [] end) l.
Fixpoint insert (p : R * R) (l : list (R * R)) : list (R * R) :=
  match l with
  | [] => [p]
  | q :: r => if Rle_dec (fst p) (fst q) then p :: l else q :: insert p r
  end.
Definition by_x (l : list (R * R)) : list (R * R) := fold_right insert [] l.
Definition curve (xs : list R) (dn : list entry) : list (R * R) := by_x (finite (combine xs dn)).
(** lines 79-82 *)
Definition limits (given : option (R * R)) (l : list R) : result (R * R) :=
  match given, l with
  | Some g, _ => Ok g
  | None, [] => Raise ValueError
  | None, x :: l => Ok (fold_right Rmin x l, fold_right Rmax x l)
  end.
(** lines 95-98 *)
Definition parabola (value variance : R) : list (R * R) :=
  map (fun o => let v := value + o in (v, 1 / variance * ((v - value) * (v - value)))) (linspace (-3 * sqrt variance) (3 * sqrt variance) 100).
(** lines 129-132: both ends of an interval, up first; missing ends are not drawn *)
Definition contour_points (value cl : R) (down up : option R) : list (R * R) :=
  flat_map (fun e => match e with Some d => [(d + value, cl * cl)] | None => [] end) [up; down].

(** ** two parameters *)
Definition atan2 (y x : R) : R :=
  if Rlt_dec 0 x then atan (y / x)
  else if Rlt_dec x 0 then (if Rle_dec 0 y then atan (y / x) + PI else atan (y / x) - PI)
  else if Rlt_dec 0 y then PI / 2 else if Rlt_dec y 0 then - (PI / 2) else 0.
(** lines 110-129 *)
Definition ellipse (a b c mu0 mu1 cl t : R) : R * R :=
  let l1 := (a + c) / 2 + sqrt ((a - c) * (a - c) / 4 + b * b) in
  let l2 := (a + c) / 2 - sqrt ((a - c) * (a - c) / 4 + b * b) in
  let theta := atan2 (l1 - a) b in
  let sl1 := sqrt (cl * l1) in let sl2 := sqrt (cl * l2) in
  (mu0 + sl1 * cos theta * cos t - sl2 * sin theta * sin t, mu1 + sl1 * sin theta * cos t + sl2 * cos theta * sin t).
(** lines 156-157: the quantile of chi2 with two degrees of freedom *)
Definition chi2_ppf2 (p : R) : R := -2 * ln (1 - p).
(** lines 315-327: scales *)
Definition scales_of (params : nat) (given : list (R * R)) : result (list (R * R)) :=
  if Nat.ltb params (List.length given) then Raise GenericException else Ok (given ++ repeat (1, 1) (params - List.length given))%list.
(** lines 343-360: value, covariance and scan points with scales *)
Definition scaled_ellipse (s0 s1 v0 v1 a b c cl t : R) : R * R :=
  ellipse (s0 * s0 * a) (s0 * s1 * b) (s1 * s1 * c) (s0 * v0) (s1 * v1) cl t.
(** lines 196-203: pcolormesh takes rows along y and columns along x; the colour at the i-th x and the j-th y *)
Definition drawn (g : nat -> nat -> R) (i j : nat) : R := 2 * g j i.

(** ** names *)
Definition key1 (p : string) : string := "nll_scan_" ++ p.
Definition key2 (p q : string) : string := "nll_scan2D_" ++ p ++ "_" ++ q.
(** os.path.splitext of a name that starts with a letter and has no slashes *)
Fixpoint after_dot (l : list ascii) : option (list ascii) :=
  match l with
  | [] => None
  | c :: l => if Ascii.eqb c "."%char then Some l else after_dot l
  end.
Definition stem (s : string) : string :=
  match after_dot (rev (list_ascii_of_string s)) with None => s | Some l => string_of_list_ascii (rev l) end.
(** lines 84-97: the file of a plot, without directory and extension *)
Definition file2 (p q : string) (postfix : option string) : string :=
  stem (key2 p q) ++ match postfix with Some x => if String.eqb x "" then "" else "_" ++ x | None => "" end.
(** 1D, lines 216-217 *)
Definition file1 (p : string) (postfix : option string) : string :=
  key1 p ++ match postfix with Some x => if String.eqb x "" then "" else "_" ++ x | None => "" end.
(** the parameters of 1D plots and what is read for them, lines 182-206 *)
Definition params_of (given all : list string) : list string := match given with [] => all | _ => given end.
Fixpoint read_scans {A} (d : dict A) (all ps : list string) : result (list (string * A)) :=
  match ps with
  | [] => Ok []
  | p :: ps =>
    if existsb (String.eqb p) all then
      match dget (key1 p) d with
      | None => Raise KeyError
      | Some h => r <- read_scans d all ps ;; Ok ((p, h) :: r)
      end
    else Raise KeyError
  end.
(** what the fit stores, workspace.py:352-377: later scans replace earlier ones with the same name *)
Definition store1 {A} (scans : list (string * A)) : dict A := fold_left (fun d s => dset (key1 (fst s)) (snd s) d) scans [].
Definition store2 {A} (scans : list (string * string * A)) : dict A := fold_left (fun d s => dset (key2 (fst (fst s)) (snd (fst s))) (snd s) d) scans [].
