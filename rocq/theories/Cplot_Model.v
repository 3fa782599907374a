(** The plots of covariance matrices: bin/rabbit_plot_cov.py:68-377.
    Simplifications: real numbers; an array is its shape and its values in row-major order; the text of the centre (or the
    edge) of a bin is given with the axis; the names of the axes of a channel are distinct, also from those with y_ in
    front. A plot is the matrix given to seaborn and its tick labels; labels of axes and decorations are left out, as is
    the file of older fits (physics_models). An entry that is not a finite number is [None]. Slicing a histogram stops at its
    last bin; an empty slice is ValueError and a wrong number of indices IndexError. AttributeError is
    [GenericException]; plots that are written before an exception are not kept. *)
From Coq Require Import Reals List Arith Bool String Ascii.
From Verif Require Import RBase PyList Shape Hplot_Model Iplot_Model.
Import ListNotations.
Local Open Scope nat_scope.
Local Open Scope string_scope.

(** ** arrays *)
Record arr := mkArr { t_shape : list nat; t_data : list R }.
Definition get (a : arr) (i : list nat) : R := nth (ravel (t_shape a) i) (t_data a) 0%R.
Definition build (shape : list nat) (f : list nat -> R) : arr := mkArr shape (map f (all_idx shape)).
Definition reshape (shape : list nat) (a : arr) : result arr :=
  if Nat.eqb (prodn shape) (List.length (t_data a)) then Ok (mkArr shape (t_data a)) else Raise ValueError.
(** lines 85-87 and 327-331 *)
Definition flat2 (a : arr) : result arr :=
  if Nat.ltb 2 (List.length (t_shape a)) then
    let n := prodn (firstn (List.length (t_shape a) / 2) (t_shape a)) in reshape [n; n] a
  else Ok a.
(** h[start:stop, start:stop] *)
Definition slice2 (a : arr) (start stop : nat) : result arr :=
  match t_shape a with
  | [n; m] =>
    let r := min stop n - start in let c := min stop m - start in
    if Nat.eqb r 0 || Nat.eqb c 0 then Raise ValueError
    else Ok (build [r; c] (fun i => match i with [x; y] => get a [start + x; start + y] | _ => 0%R end))
  | _ => Raise IndexError
  end.

Record args := mkArgs {
  a_corr : bool; a_mapping : list (list string); a_params : option (list string); a_prefit : bool; a_selaxes : list string;
  a_data : bool; a_postfix : string; a_prelim : bool }.
Record plot := mkPlot { p_file : string; p_rows : list (list (option R)); p_ticks : option (list string) }.

(** ** one plot, lines 68-165 *)
Definition entry (corr : bool) (m : arr) (i j : nat) : option R :=
  let x := get m [i; j] in
  if corr then
    let d := fun k => get m [k; k] in
    if Rltb (d i) 0 || Rltb (d j) 0 then None
    else let s := (sqrt (d i) * sqrt (d j))%R in if Reqb s 0 then None else Some (x / s)%R
  else Some x.
(** lines 131-146 *)
Definition file_name (a : args) (channel : option string) (axes : option (list string)) (suffix : option string) : string :=
  let kind := "hist_" ++ (if a_corr a then "corr" else "cov") in
  let opt := fun o : option string => match o with Some s => [s] | None => [] end in
  String.concat "_" (filter (fun s => negb (String.eqb s ""))
    ([kind; if a_data a then "data" else if a_prefit a then "prefit" else "postfit"] ++
     opt channel ++ opt (option_map (String.concat "_") axes) ++ opt suffix ++ [a_postfix a])%list) ++
  (if a_prelim a then "_preliminary" else "").
Definition plot_matrix (a : args) (channel : option string) (axes : option (list string)) (suffix : option string)
  (ticks : option (list string)) (m0 : arr) : result plot :=
  m <- flat2 m0 ;;
  match t_shape m with
  | [n; k] =>
    if a_corr a && negb (Nat.eqb n k) then Raise ValueError
    else Ok (mkPlot (file_name a channel axes suffix) (map (fun i => map (entry (a_corr a) m i) (seq 0 k)) (seq 0 n)) ticks)
  | _ => Raise ValueError
  end.

(** ** the parameters, lines 186-219: [names] and [cov] are from the results of the fit, [label] from the configuration *)
Fixpoint index_of (n : string) (l : list string) : option nat :=
  match l with [] => None | x :: r => if String.eqb x n then Some 0 else option_map S (index_of n r) end.
Definition indices (params names : list string) : list nat :=
  flat_map (fun p => match index_of p names with Some i => [i] | None => [] end) params.
Definition params_plot (a : args) (label : string -> string) (names : list string) (cov : arr) : result (list plot) :=
  match a_params a with
  | None => Ok []
  | Some l =>
    let axes := Some ["parms_x"; "parms_y"] in
    match l with
    | [] => p <- plot_matrix a None axes (Some "params") None cov ;; Ok [p]
    | _ =>
      if negb (forallb (fun p => mem p names) l) then Raise TypeError       (* line 196: a list indexed by an array *)
      else
        let ix := indices l names in
        let sub := build [List.length ix; List.length ix] (fun i => match i with [x; y] => get cov [nth x ix 0; nth y ix 0] | _ => 0%R end) in
        p <- plot_matrix a None axes (Some "params") (Some (map (fun i => label (nth i names "")) ix)) sub ;; Ok [p]
    end
  end.

(** ** the mappings *)
(** the axes of hist_postfit_inclusive (if it is stored), the text of their bins and the covariances of the channel *)
Record chan := mkC { c_axes : option (list (string * nat)); c_label : string -> nat -> string; c_cov : string -> option arr }.
Record inst := mkI { i_cov : string -> option arr; i_channels : list (string * chan) }.
(** lines 221-224 *)
Definition cov_key (a : args) : string :=
  if a_data a then "cov_data_obs" else "hist_" ++ (if a_prefit a then "prefit" else "postfit") ++ "_inclusive_cov".
(** str.replace of one character *)
Fixpoint replace (c : ascii) (by_ : string) (s : string) : string :=
  match s with EmptyString => "" | String x r => (if Ascii.eqb x c then by_ else String x "") ++ replace c by_ r end.
(** lines 242-249 *)
Definition key_suffix (key : string) : string :=
  replace ")" "" (replace "(" "" (replace ":" "" (replace "," "k" (replace "." "p" (replace " " "_" key))))).
(** lines 359-364 *)
Definition sel_suffix (channel : string) (label : string -> nat -> string) (sel : list (string * nat)) (b : list nat) : string :=
  channel ++ "_" ++ String.concat "_" (map (fun p : (string * nat) * nat => fst (fst p) ++ "_" ++ replace "-" "m" (replace "." "p" (label (fst (fst p)) (snd p)))) (combine sel b)).
Definition others (a : args) (axes : list (string * nat)) := filter (fun x => negb (selected (a_selaxes a) x)) axes.
(** h2d[idxs] *)
Definition pick2 (a : args) (axes : list (string * nat)) (b : list nat) (h : arr) : arr :=
  let dims := map snd (others a axes) in
  let k := List.length dims in
  build (dims ++ dims)%list (fun i => get h (weave (a_selaxes a) axes b (firstn k i) ++ weave (a_selaxes a) axes b (skipn k i))%list).
(** lines 310-374 *)
Definition sel_plots (a : args) (channel : string) (label : string -> nat -> string) (axes : list (string * nat)) (h : arr) : result (list plot) :=
  let dims := map snd axes in
  m <- flat2 h ;;
  v <- reshape (nth 0 (t_shape m) 0 :: dims) m ;;
  h2d <- reshape (dims ++ dims)%list v ;;
  let sel := filter (selected (a_selaxes a)) axes in
  seqr (map (fun b =>
    match others a axes with
    | [] => Raise GenericException                                         (* a number has no values *)
    | o => plot_matrix a (Some channel) (Some (map fst o)) (Some (sel_suffix channel label sel b)) None (pick2 a axes b h2d)
    end) (bins_of sel)).
(** one turn of the loop in lines 264-374; start, h_cov and suffix are kept *)
Record st := mkS { s_start : nat; s_cov : option arr; s_suffix : string }.
Definition chan_step (a : args) (several : bool) (s : st) (channel : string) (c : chan) : result (list plot * st) :=
  match c_axes c with
  | None => Raise KeyError
  | Some axes =>
    let draw := plot_matrix a (Some channel) (Some (map fst axes)) (Some (s_suffix s)) None in
    r <- match s_cov s with
         | None => match c_cov c (cov_key a) with
                   | None => Raise ValueError
                   | Some v => p <- draw v ;; Ok ([p], v, mkS (s_start s) (Some v) (s_suffix s))
                   end
         | Some v =>
           if several then
             let stop := s_start s + prodn (map snd axes) in
             h <- slice2 v (s_start s) stop ;; p <- draw h ;; Ok ([p], h, mkS stop (Some v) (s_suffix s))
           else Ok ([], v, s)
         end ;;
    let '(ps, h, s') := r in
    match filter (selected (a_selaxes a)) axes with
    | [] => Ok (ps, s')
    | sel =>
      qs <- sel_plots a channel (c_label c) axes h ;;
      Ok ((ps ++ qs)%list, mkS (s_start s') (s_cov s') (last (map (sel_suffix channel (c_label c) sel) (bins_of sel)) (s_suffix s')))
    end
  end.
Fixpoint chan_loop (a : args) (several : bool) (s : st) (l : list (string * chan)) : result (list plot) :=
  match l with
  | [] => Ok []
  | kc :: l => r <- chan_step a several s (fst kc) (snd kc) ;; ps <- chan_loop a several (snd r) l ;; Ok (fst r ++ ps)%list
  end.
(** lines 239-374 *)
Definition inst_plots (a : args) (key : string) (i : inst) : result (list plot) :=
  let v := i_cov i (cov_key a) in
  ps <- match v with Some v => p <- plot_matrix a None None (Some (key_suffix key)) None v ;; Ok [p] | None => Ok [] end ;;
  qs <- chan_loop a (Nat.ltb 1 (List.length (i_channels i))) (mkS 0 v (key_suffix key)) (i_channels i) ;;
  Ok (ps ++ qs)%list.
(** lines 226-239 and the whole script *)
Definition mapping_plots (a : args) (results : list (string * inst)) (margs : list string) : result (list plot) :=
  keys <- chosen (map fst results) margs ;;
  ls <- seqr (map (fun ki => inst_plots a (fst ki) (snd ki)) (filter (fun ki => mem (fst ki) keys) results)) ;;
  Ok (List.concat ls).
Definition all_plots (a : args) (label : string -> string) (names : list string) (cov : arr) (results : list (string * inst)) : result (list plot) :=
  ps <- params_plot a label names cov ;;
  ls <- seqr (map (mapping_plots a results) (a_mapping a)) ;;
  Ok (ps ++ List.concat ls)%list.
(** what is found in a file in the end *)
Definition on_disk (ps : list plot) (file : string) : option plot := find (fun p => String.eqb (p_file p) file) (rev ps).
