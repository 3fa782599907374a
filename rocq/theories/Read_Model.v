(** Reading the results of a fit back and printing them: rabbit/io_tools.py, bin/rabbit_print_impacts.py,
    bin/rabbit_print_pulls_and_constraints.py, with the parts of rabbit/workspace.py and bin/rabbit_fit.py that store
    what is read.
    Simplifications: all axes of the histograms are lists of names (down/up included); an unknown name is
    [Raise KeyError]; numpy's argsort is a stable sort; rounding is an arbitrary function; printed text is a list of
    entries. *)
From Coq Require Import Reals List Arith Bool String.
From Verif Require Import RBase PyList PyDict Order Shape Impacts_Model.
Import ListNotations.
Local Open Scope nat_scope.
Local Open Scope string_scope.

(** ** histograms *)
Record hist := mkH { h_axes : list (string * list string); h_val : list nat -> R; h_var : list nat -> R }.
Definition shape_of (axes : list (string * list string)) : list nat := map (fun a => List.length (snd a)) axes.
(** workspace.py:144-211 with values and variances reshaped to the axes *)
Definition make_hist (axes : list (string * list string)) (vals vars : list R) : result hist :=
  if Nat.eqb (List.length vals) (prodn (shape_of axes)) && Nat.eqb (List.length vars) (prodn (shape_of axes))
  then Ok (mkH axes (fun i => nth (ravel (shape_of axes) i) vals 0%R) (fun i => nth (ravel (shape_of axes) i) vars 0%R))
  else Raise ValueError.
Definition axis (name : string) (h : hist) : result (nat * list string) :=
  match index_of name (map fst (h_axes h)) with
  | Some k => Ok (k, snd (nth k (h_axes h) ("", [])))
  | None => Raise KeyError
  end.
Definition insert_at {A} (k : nat) (x : A) (l : list A) : list A := firstn k l ++ x :: skipn k l.
Definition remove_at {A} (k : nat) (l : list A) : list A := firstn k l ++ skipn (S k) l.
(** h[{name: label}] *)
Definition select (name label : string) (h : hist) : result hist :=
  a <- axis name h ;;
  match index_of label (snd a) with
  | None => Raise KeyError
  | Some j => Ok (mkH (remove_at (fst a) (h_axes h)) (fun i => h_val h (insert_at (fst a) j i)) (fun i => h_var h (insert_at (fst a) j i)))
  end.
Definition lookup (key : string) (d : dict hist) : result hist := match dget key d with Some h => Ok h | None => Raise KeyError end.

(** ** numpy arrays with one value or one row per name *)
Inductive arr := A1 (l : list R) | A2 (l : list (list R)).
Definition arr_of (f : list nat -> R) (axes : list (string * list string)) : result arr :=
  match shape_of axes with
  | [n] => Ok (A1 (map (fun i => f [i]) (seq 0 n)))
  | [n; m] => Ok (A2 (map (fun i => map (fun j => f [i; j]) (seq 0 m)) (seq 0 n)))
  | _ => Raise ValueError
  end.
Definition values (h : hist) : result arr := arr_of (h_val h) (h_axes h).
(** np.append without an axis *)
Definition append (a : arr) (x : R) : arr := match a with A1 l => A1 (l ++ [x]) | A2 l => A1 (List.concat l ++ [x]) end.
Definition masked {A} (mask : list bool) (l : list A) : list A := map snd (filter (fun p => fst p) (combine mask l)).
(** a[mask] *)
Definition mask_list {A} (mask : list bool) (l : list A) : result (list A) := if Nat.eqb (List.length mask) (List.length l) then Ok (masked mask l) else Raise IndexError.
Definition mask_arr (mask : list bool) (a : arr) : result arr :=
  match a with A1 l => l <- mask_list mask l ;; Ok (A1 l) | A2 l => l <- mask_list mask l ;; Ok (A2 l) end.
Definition take {A} (d : A) (order : list nat) (l : list A) : list A := map (fun i => nth i l d) order.
Definition Rc (x y : R) : comparison := match total_order_T x y with inleft (left _) => Lt | inleft (right _) => Eq | inright _ => Gt end.
Definition argsort {K} (c : K -> K -> comparison) (d : K) (keys : list K) : list nat := sort_k (fun i => nth i keys d) c (seq 0 (List.length keys)).

(** ** what a fit stores *)
Section Store.
  Variables (parms : list string) (npoi nparams : nat) (noi : list nat).
  Definition down_up : list string := ["down"; "up"].
  (** workspace.py:318-320 *)
  Definition add_parms (name : string) (x v : list R) (d : dict hist) : result (dict hist) :=
    h <- make_hist [("parms", parms)] x v ;; Ok (dset name h d).
  (** workspace.py:421-445; both histograms have no variances *)
  Definition add_impacts (base : string) (impacts : list (list R)) (labels : list string) (grouped : list (list R)) (d : dict hist) : result (dict hist) :=
    let rows := row_labels parms npoi nparams noi "" in
    h <- make_hist [("parms", rows); ("impacts", parms)] (List.concat impacts) (List.concat impacts) ;;
    g <- make_hist [("parms", rows); ("impacts", labels)] (List.concat grouped) (List.concat grouped) ;;
    Ok (dset (base ++ "_grouped") g (dset base h d)).
  (** workspace.py:447-472 *)
  Definition flat3 (t : list (list (list R))) : list R := List.concat (List.concat t).
  Definition add_impacts_asym (base : string) (names : list string) (impacts : list (list (list R))) (labels : list string) (grouped : list (list (list R))) (d : dict hist) : result (dict hist) :=
    h <- make_hist [("impacts", names); ("downUpVar", down_up); ("parms", parms)] (flat3 impacts) (flat3 impacts) ;;
    g <- make_hist [("impacts", labels); ("downUpVar", down_up); ("parms", parms)] (flat3 grouped) (flat3 grouped) ;;
    Ok (dset (base ++ "_grouped") g (dset base h d)).
  (** workspace.py:380-397, called with its default name (rabbit_fit.py:768) *)
  Definition add_contours (names levels : list string) (contours : list (list (list (list R)))) (d : dict hist) : result (dict hist) :=
    let flat := flat3 (List.concat contours) in
    h <- make_hist [("impacts", names); ("confidence_level", levels); ("downUpVar", down_up); ("parms", parms)] flat flat ;;
    Ok (dset "contour_scan" h d).
  (** rabbit_fit.py:876-877, io_tools.py:28-31 *)
  Definition poi_names : list string := firstn npoi parms ++ map (fun k => nth k (skipn nparams parms) "") noi.
End Store.

(** what rabbit_fit.py:518-768 and 959-963 stores, as far as it is read here *)
Inductive item :=
| Prefit (x v : list R) | Postfit (x v : list R)
| Trad (i : list (list R)) (l : list string) (g : list (list R))
| Glob (i : list (list R)) (l : list string) (g : list (list R))
| GaussGlob (i : list (list R)) (l : list string) (g : list (list R))
| NonProf (n : list string) (i : list (list (list R))) (l : list string) (g : list (list (list R)))
| TradAsym (n : list string) (i : list (list (list R))) (l : list string) (g : list (list (list R)))
| GlobAsym (n : list string) (i : list (list (list R))) (l : list string) (g : list (list (list R)))
| Contours (n levels : list string) (c : list (list (list (list R)))).
Section Fit.
  Variables (parms : list string) (npoi nparams : nat) (noi : list nat).
  Definition store_item (i : item) (d : dict hist) : result (dict hist) :=
    match i with
    | Prefit x v => add_parms parms "parms_prefit" x v d
    | Postfit x v => add_parms parms "parms" x v d
    | Trad i l g => add_impacts parms npoi nparams noi "impacts" i l g d
    | Glob i l g => add_impacts parms npoi nparams noi "global_impacts" i l g d
    | GaussGlob i l g => add_impacts parms npoi nparams noi "gaussian_global_impacts" i l g d
    | NonProf n i l g => add_impacts_asym parms "nonprofiled_impacts_asym" n i l g d
    | TradAsym n i l g => add_impacts_asym parms "impacts_asym" n i l g d
    | GlobAsym n i l g => add_impacts_asym parms "global_impacts_asym" n i l g d
    | Contours n ls c => add_contours parms n ls c d
    end.
  Fixpoint store_all (is : list item) (d : dict hist) : result (dict hist) :=
    match is with [] => Ok d | i :: r => d <- store_item i d ;; store_all r d end.
End Fit.

(** ** io_tools.py:9-25 *)
Definition result_key (name : option string) (keys : list string) : result string :=
  let key := match name with
             | Some r => "results_" ++ r
             | None => if smem "results" keys then "results" else "results_asimov"
             end in
  if smem key keys then Ok key else Raise ValueError.

Section Read.
  (** re.search *)
  Variable search : string -> string -> bool.
  (** io_tools.py:95-132; a string is a list of one pattern *)
  Definition filter_mask (keep exclude : list string) (labels : list string) : list bool :=
    map (fun l => (match keep with [] => true | _ => existsb (fun p => search p l) keep end) &&
                  (match exclude with [] => true | _ => negb (existsb (fun p => search p l) exclude) end)) labels.
  Definition take_arr (idxs : list nat) (a : arr) : result arr :=
    match a with
    | A1 l => if forallb (fun i => Nat.ltb i (List.length l)) idxs then Ok (A1 (take 0%R idxs l)) else Raise IndexError
    | A2 l => if forallb (fun i => Nat.ltb i (List.length l)) idxs then Ok (A2 (take [] idxs l)) else Raise IndexError
    end.
  Definition nonzero (mask : list bool) : list nat := masked mask (seq 0 (List.length mask)).
  Definition filter_nuisances (keep exclude : option (list string)) (labels : list string) (pulls : list R) (constraints : arr)
    : result (list string * list R * arr) :=
    match keep, exclude with
    | None, None => Ok (labels, pulls, constraints)
    | _, _ =>
      let list_of := fun o : option (list string) => match o with Some l => l | None => [] end in
      let mask := filter_mask (list_of keep) (list_of exclude) labels in
      ls <- mask_list mask labels ;; ps <- mask_list mask pulls ;; cs <- take_arr (nonzero mask) constraints ;; Ok (ls, ps, cs)
    end.
  (** np.einsum("i j i -> i j") *)
  Definition diagonal (h : hist) : result arr :=
    match shape_of (h_axes h) with
    | [n; m; n'] => if Nat.eqb n n' then Ok (A2 (map (fun i => map (fun j => h_val h [i; j; i]) (seq 0 m)) (seq 0 n))) else Raise ValueError
    | _ => Raise ValueError
    end.
  (** io_tools.py:135-162 *)
  Definition pulls_and_constraints (d : dict hist) (prefit asym : bool) (keep exclude : option (list string)) : result (list string * list R * arr) :=
    h <- lookup (if prefit then "parms_prefit" else "parms") d ;;
    a <- axis "parms" h ;;
    v <- values h ;;
    match v with
    | A2 _ => Raise ValueError
    | A1 pulls =>
      c <- (if asym then s <- lookup "contour_scans" d ;; s <- select "confidence_level" "1.0" s ;; diagonal s
            else c <- arr_of (fun i => sqrt (h_var h i)) (h_axes h) ;; Ok c) ;;
      filter_nuisances keep exclude (snd a) pulls c
    end.

  (** io_tools.py:57-63 *)
  Definition impact_name (typ : string) (asym grouped : bool) : string :=
    (if String.eqb typ "traditional" then "impacts" else typ ++ "_impacts") ++ (if asym then "_asym" else "") ++ (if grouped then "_grouped" else "").
  (** io_tools.py:49-76, 93 *)
  Definition read_impacts (d : dict hist) (poi : string) (grouped : bool) (typ : string) (add_total asym : bool) : result (arr * list string) :=
    h <- (if asym && String.eqb typ "traditional" && negb (smem "impacts_asym" (dkeys d))
          then s <- lookup "contour_scans" d ;; select "confidence_level" "1.0" s
          else lookup (impact_name typ asym grouped) d) ;;
    h <- select "parms" poi h ;;
    i <- values h ;;
    a <- axis "impacts" h ;;
    if add_total then
      p <- lookup "parms" d ;;
      t <- select "parms" poi p ;;
      Ok (append i (sqrt (h_var t [])), (snd a ++ ["Total"])%list)
    else Ok (i, snd a).
  (** io_tools.py:78-91 *)
  Definition read_impacts_pulls (d : dict hist) (poi : string) (grouped : bool) (typ : string) (add_total asym : bool)
    : result ((list R * list R * arr * arr) * (arr * list string)) :=
    il <- read_impacts d poi grouped typ add_total asym ;;
    let asym := asym && String.eqb typ "traditional" in
    p <- pulls_and_constraints d false asym None None ;;
    q <- pulls_and_constraints d true asym None None ;;
    let '(_, pulls, constraints) := p in
    let '(plabels, pulls_prefit, constraints_prefit) := q in
    if Nat.eqb (List.length plabels) (List.length (snd il)) then Ok ((pulls, pulls_prefit, constraints, constraints_prefit), il)
    else
      let mask := map (fun l => smem l (snd il)) plabels in
      a <- mask_list mask pulls ;; b <- mask_list mask pulls_prefit ;;
      c <- mask_arr mask constraints ;; e <- mask_arr mask constraints_prefit ;;
      Ok ((a, b, c, e), il).

  (** ** bin/rabbit_print_impacts.py *)
  Variable rnd : R -> R.
  Inductive printed := P1 (x : R) | P2 (hi lo : R).
  Definition maxl (l : list R) : R := match l with [] => 0%R | x :: r => fold_left Rmax r x end.
  Definition minl (l : list R) : R := match l with [] => 0%R | x :: r => fold_left Rmin r x end.
  (** one printed entry: lines 75-81 *)
  Definition entry1 (asym : bool) (scale x : R) : result printed := if asym then Raise TypeError else Ok (P1 (rnd (x * scale)%R)).
  Definition entry2 (asym : bool) (scale : R) (x : list R) : result printed :=
    if asym then Ok (P2 (rnd (maxl x * scale)%R) (rnd (minl x * scale)%R)) else Raise TypeError.
  Definition entries (asym : bool) (scale : R) (a : arr) : list (result printed) :=
    match a with A1 l => map (entry1 asym scale) l | A2 l => map (entry2 asym scale) l end.
  Fixpoint sequence {A} (l : list (string * result A)) : result (list (string * A)) :=
    match l with [] => Ok [] | (n, r) :: t => x <- r ;; xs <- sequence t ;; Ok ((n, x) :: xs) end.
  Definition sort_keys (a : arr) : list R := match a with A1 l => l | A2 l => map (fun x => maxl (map Rabs x)) l end.
  Definition reorder (order : list nat) (a : arr) : arr := match a with A1 l => A1 (take 0%R order l) | A2 l => A2 (take [] order l) end.
  (** lines 62-92; indexing the labels with a longer order fails *)
  Definition print_impacts (asym sort : bool) (nuisance : option string) (scale : R) (impacts : arr) (labels : list string) : result (list (string * printed)) :=
    let order := argsort Rc 0%R (sort_keys impacts) in
    if sort && negb (forallb (fun i => Nat.ltb i (List.length labels)) order) then Raise IndexError else
    let labels := if sort then take "" order labels else labels in
    let impacts := if sort then reorder order impacts else impacts in
    match nuisance with
    | None => sequence (combine labels (entries asym scale impacts))
    | Some n =>
      match index_of n labels with
      | None => Raise ValueError
      | Some i => match nth_error (entries asym scale impacts) i with Some e => x <- e ;; Ok [(n, x)] | None => Raise IndexError end
      end
    end.
  (** lines 46-59 *)
  Definition print_parm (d : dict hist) (typ : string) (asym ungroup sort : bool) (nuisance : option string) (scale : R) (poi : string) : result (list (string * printed)) :=
    il <- read_impacts d poi (negb ungroup) typ (negb (String.eqb typ "nonprofiled")) asym ;;
    print_impacts asym sort nuisance (1 * scale)%R (fst il) (snd il).
  (** lines 31-43: a bin of an observable *)
  Definition print_bin (sort : bool) (nuisance : option string) (scale : R) (relative : bool) (labels : list string) (impacts : list R) (value variance : R) : result (list (string * printed)) :=
    let l := (impacts ++ [sqrt variance])%list in
    let l := if relative then map (fun x => (x / value)%R) l else l in
    print_impacts false sort nuisance ((if relative then 100 else 1) * scale)%R (A1 l) (labels ++ ["Total"])%list.
  (** lines 113-115: the histogram that is read for observables *)
  Definition bin_key (typ : string) (ungroup : bool) : result string :=
    if String.eqb typ "global" || String.eqb typ "gaussian_global"
    then Ok ("hist_postfit_inclusive_global_impacts" ++ (if ungroup then "" else "_grouped"))
    else Raise NotImplementedError.

  (** ** bin/rabbit_print_pulls_and_constraints.py *)
  Inductive sorting := ByLabel | ByPull (a : bool) | ByConstraint | ByPullPrefit (a : bool) | ByConstraintPrefit.
  Record prow := mkRow { r_label : string; r_pull : R; r_constraint : R; r_updown : option (R * R); r_prefit : option (R * R) }.
  Definition scalars (a : arr) : result (list R) := match a with A1 l => Ok l | A2 _ => Raise TypeError end.
  Definition row_pair (x : list R) : R * R := (rnd (nth 0 x 0%R), rnd (nth 1 x 0%R)).
  Definition key_of (a : bool) (l : list R) : list R := if a then map Rabs l else l.
  (** lines 62-165 *)
  Definition print_pulls (d : dict hist) (keep exclude : option (list string)) (asym no_prefit reverse : bool) (sort : option sorting) : result (list prow) :=
    p <- pulls_and_constraints d false false keep exclude ;;
    q <- pulls_and_constraints d true false keep exclude ;;
    s <- (if asym then s <- pulls_and_constraints d false true keep exclude ;; Ok (Some (snd s)) else Ok None) ;;
    let '(_, pulls, constraints) := p in
    let '(labels, pulls_prefit, constraints_prefit) := q in
    constraints <- scalars constraints ;;
    constraints_prefit <- scalars constraints_prefit ;;
    let sorted := match sort with
                  | None => seq 0 (List.length labels)
                  | Some ByLabel => argsort string_c "" labels
                  | Some (ByPull a) => argsort Rc 0%R (key_of a pulls)
                  | Some ByConstraint => argsort Rc 0%R constraints
                  | Some (ByPullPrefit a) => argsort Rc 0%R (key_of a pulls_prefit)
                  | Some ByConstraintPrefit => argsort Rc 0%R constraints_prefit
                  end in
    let order := match sort with Some _ => if reverse then rev sorted else sorted | None => sorted end in
    Ok (map (fun i => mkRow (nth i labels "") (rnd (nth i pulls 0%R)) (rnd (nth i constraints 0%R))
                        (match s with Some (A2 l) => Some (row_pair (nth i l [])) | _ => None end)
                        (if no_prefit then None else Some (rnd (nth i pulls_prefit 0%R), rnd (nth i constraints_prefit 0%R)))) order).
End Read.

(** ** io_tools.py:165-213: channels with the contents of their histogram (without flow bins) *)
Definition starts (sizes : list nat) : list nat := map (fun k => sumn (firstn k sizes)) (seq 0 (List.length sizes)).
Definition sub_cov (cov : list (list R)) (idxs : list nat) : result (list (list R)) :=
  if forallb (fun i => Nat.ltb i (List.length cov)) idxs then Ok (map (fun i => map (fun j => nth j (nth i cov []) 0%R) idxs) idxs) else Raise IndexError.
Definition postfit_hist_cov (chans : list (string * list R)) (cov : list (list R)) (request : option (list string))
  : result (list (list R) * list (list R) * list string) :=
  let sizes := map (fun c => List.length (snd c)) chans in
  match request with
  | None => Ok (map snd chans, cov, map fst chans)
  | Some cs =>
    let found := filter (fun c => smem c cs) (map fst chans) in
    if list_eq_dec string_dec cs found then
      let hists := flat_map (fun c => match dget c chans with Some h => [h] | None => [] end) cs in
      let sel := filter (fun cse => smem (fst (fst cse)) cs) (combine (combine (map fst chans) (starts sizes)) sizes) in
      match sel with
      | [] => Raise ValueError
      | _ => sub <- sub_cov cov (flat_map (fun cse => seq (snd (fst cse)) (snd cse)) sel) ;; Ok (hists, sub, found)
      end
    else Raise RuntimeError
  end.
