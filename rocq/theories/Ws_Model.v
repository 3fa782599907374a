(** Output of a fit: rabbit/workspace.py.

    The results dictionary is a tree; a stored histogram is its tensor of values (variances are stored by the same
    code). Arrays have the bins as first dimension: a list of rows, each row the flattened other dimensions. A reshape
    with the wrong number of entries is [Raise ValueError], as is the assignment of values of another shape to a
    histogram. Writing below an entry that is no dictionary is [Raise GenericException]. *)
From Coq Require Import Reals List Arith Bool String Ascii.
From Verif Require Import RBase PyList PyDict Shape Map_Model Parse_Model.
Import ListNotations.
Local Open Scope nat_scope.
Local Open Scope string_scope.

(** ** axes and channels: size = number of bins, extent = with flow bins; StrCategory axes have one flow bin *)
Record waxis := mkWa { wa_name : string; wa_size : nat; wa_extent : nat; wa_cat : bool }.
Record wchan := mkWc { wc_name : string; wc_axes : list waxis; wc_masked : bool; wc_flow : bool; wc_procs : list string }.
Definition yield_axis : waxis := mkWa "yield" 1 1 false.
Definition category (name : string) (entries : list string) : waxis := mkWa name (List.length entries) (List.length entries + 1) true.
Definition down_up : waxis := mkWa "downUpVar" 2 2 false.

(** ** workspace.py:144-180 *)
Definition pad_axis (k : nat) (t : tensor) : tensor :=
  mkT (set_at k (nth k (t_shape t) 0 + 1) (t_shape t)) (fun i => if Nat.ltb (nth k i 0) (nth k (t_shape t) 0) then t_at t i else 1%R).
Fixpoint pad_cats (k : nat) (axes : list waxis) (t : tensor) : tensor :=
  match axes with [] => t | a :: r => pad_cats (S k) r (if wa_cat a then pad_axis k t else t) end.
Definition hist_tensor (flow : bool) (axes : list waxis) (values : list R) : result tensor :=
  if flow then
    t <- reshape_t (of_list values) (map (fun a => if wa_cat a then wa_size a else wa_extent a) axes) ;;
    let t := pad_cats 0 axes t in
    if list_eq_dec Nat.eq_dec (t_shape t) (map wa_extent axes) then Ok t else Raise ValueError
  else reshape_t (of_list values) (map wa_size axes).
(** workspace.py:182-211: rows start:stop, for matrices also columns start:stop *)
Definition add_hist (flow is_matrix : bool) (axes : list waxis) (rows : list (list R)) (range : option (nat * nat)) : result tensor :=
  let rows := match range with
              | None => rows
              | Some (a, b) => let rs := pyslice a b rows in if is_matrix then map (pyslice a b) rs else rs
              end in
  hist_tensor flow axes (List.concat rows).

(** ** workspace.py:120-142 *)
Inductive node := Leaf (t : tensor) | Dict (d : list (string * node)).
Definition path_of (mapping_key channel : option string) (key : string) : list string :=
  (match mapping_key with Some m => ["mappings"; m] | None => [] end) ++ (match channel with Some c => ["channels"; c] | None => [] end) ++ [key].
Fixpoint put_path (p : list string) (o : node) (d : list (string * node)) : result (list (string * node)) :=
  match p with
  | [] => Raise GenericException
  | k :: r =>
    match r with
    | [] => Ok (dset k o d)
    | _ => match dget k d with
           | None => x <- put_path r o [] ;; Ok (dset k (Dict x) d)
           | Some (Dict x) => x <- put_path r o x ;; Ok (dset k (Dict x) d)
           | Some (Leaf _) => Raise GenericException
           end
    end
  end.
Definition dump_obj (o : node) (key : string) (mapping_key channel : option string) (d : list (string * node)) : result (list (string * node)) :=
  put_path (path_of mapping_key channel key) o d.

(** ** workspace.py:33-52 *)
Definition expected_name (prefit process_axis variations : bool) : string :=
  "hist" ++ (if prefit then "_prefit" else "_postfit") ++ (if process_axis then "" else "_inclusive") ++ (if variations then "_variations" else "").

(** what is stored for one expectation, workspace.py:530-594 *)
Inductive kind := Exp | Impacts | ImpactsGrouped | Gauss | GaussGrouped | Cov.
Definition result_name (prefit process_axis variations : bool) (k : kind) : string :=
  expected_name prefit process_axis variations ++
  match k with
  | Exp => "" | Impacts => "_global_impacts" | ImpactsGrouped => "_global_impacts_grouped"
  | Gauss => "_gaussian_global_impacts" | GaussGrouped => "_gaussian_global_impacts_grouped" | Cov => "_cov"
  end.

(** ** workspace.py:495-569: the histograms of one result (expectation, impacts ...) for every channel; [extra] are the
    axes after the bins and the process axis *)
Definition chan_bins (c : wchan) : nat := prodn (map (fun a => if wc_flow c then wa_extent a else wa_size a) (wc_axes c)).
Definition hist_axes (process_axis : bool) (c : wchan) (extra : list waxis) : list waxis :=
  (match wc_axes c with [] => [yield_axis] | l => l end) ++ (if process_axis then [category "processes" (wc_procs c)] else []) ++ extra.
Fixpoint expected_loop (process_axis : bool) (extra : list waxis) (rows : list (list R)) (start : nat) (cs : list wchan) : result (list (string * tensor)) :=
  match cs with
  | [] => Ok []
  | c :: r =>
    let stop := start + chan_bins c in
    h <- add_hist (wc_flow c) false (hist_axes process_axis c extra) rows (Some (start, stop)) ;;
    hs <- expected_loop process_axis extra rows stop r ;; Ok ((wc_name c, h) :: hs)
  end.
Definition expected_hists (process_axis : bool) (extra : list waxis) (rows : list (list R)) (cs : list wchan) := expected_loop process_axis extra rows 0 cs.
(** workspace.py:245-314: flow is never passed; matrix = covariance of the data *)
Definition obs_bins (c : wchan) : nat := prodn (map wa_size (wc_axes c)).
Fixpoint observed_loop (matrix : bool) (rows : list (list R)) (start : nat) (cs : list wchan) : result (list (string * tensor)) :=
  match cs with
  | [] => Ok []
  | c :: r =>
    let stop := start + obs_bins c in
    if wc_masked c then observed_loop matrix rows start r else
    let axes := match wc_axes c with [] => [yield_axis] | l => l end in
    h <- add_hist false matrix (if matrix then axes ++ axes else axes) rows (Some (start, stop)) ;;
    hs <- observed_loop matrix rows stop r ;; Ok ((wc_name c, h) :: hs)
  end.
Definition observed_hists (matrix : bool) (rows : list (list R)) (cs : list wchan) := observed_loop matrix rows 0 cs.
(** the writes of these loops *)
Fixpoint store (name : string) (mapping_key : option string) (hs : list (string * tensor)) (d : list (string * node)) : result (list (string * node)) :=
  match hs with [] => Ok d | (c, h) :: r => d <- dump_obj (Leaf h) name mapping_key (Some c) d ;; store name mapping_key r d end.

(** names of scans, workspace.py:356 and 371 *)
Definition scan_name (param : string) : string := "nll_scan_" ++ param.
Definition scan2D_name (p0 p1 : string) : string := "nll_scan2D_" ++ p0 ++ "_" ++ p1.

(** ** workspace.py:104-118 *)
Definition dot : ascii := "."%char.
Definition slash : ascii := "/"%char.
(** os.path.join of two parts *)
Definition path_join (dir name : text) : text :=
  match name with
  | c :: _ => if Ascii.eqb c slash then name else match rev dir with [] => name | c :: _ => if Ascii.eqb c slash then (dir ++ name)%list else (dir ++ slash :: name)%list end
  | [] => match rev dir with [] => [] | c :: _ => if Ascii.eqb c slash then dir else (dir ++ [slash])%list end
  end.
(** s.rsplit(".", 1) *)
Fixpoint rsplit_dot (s : text) : option (text * text) :=
  match s with
  | [] => None
  | c :: r => match rsplit_dot r with Some (a, b) => Some (c :: a, b) | None => if Ascii.eqb c dot then Some ([], r) else None end
  end.
Definition has_dot (s : text) : bool := existsb (Ascii.eqb dot) s.
Definition file_path (outdir outname : text) (postfix : option text) : result text :=
  let p := path_join outdir outname in
  let p := if has_dot outname then p else (p ++ T ".hdf5")%list in
  match postfix with
  | None => Ok p
  | Some x => match rsplit_dot p with Some (a, b) => Ok (a ++ "_"%char :: x ++ dot :: b)%list | None => Raise IndexError end
  end.
