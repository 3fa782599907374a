(** The report on an input file: bin/rabbit_debug_inputdata.py:25-249 with the histograms and queries of
    rabbit/debugdata.py:8-163.
    Simplifications: real numbers; the arrays of the file are functions of the flat bin, so that every slice exists;
    bins of a channel are counted in the order of the file; not-a-number is [None]; the printed text is the record
    [report]; names of processes and nuisances are distinct. *)
From Coq Require Import Reals List Arith Bool String.
From Verif Require Import RBase PyList PyDict.
Import ListNotations.
Local Open Scope nat_scope.
Local Open Scope string_scope.

Record chan := mkChan { c_axes : list (nat * nat); c_flow : bool; c_masked : bool }.
Inductive systype := LogNormal | Normal.
Record indata := mkIn {
  w_channels : dict chan; w_procs : list string; w_systs : list string; w_sparse : bool; w_symmetric : bool; w_type : systype;
  w_obs : nat -> R; w_norm : nat -> nat -> R; w_sumw2 : nat -> nat -> R;
  w_avg : nat -> nat -> nat -> R; w_half : nat -> nat -> nat -> R }.
(** the histograms of one channel *)
Record hists := mkH {
  h_naxes : nat; h_n : nat; h_obs : option (nat -> R); h_nom : nat -> nat -> R; h_var : nat -> nat -> R;
  h_down : nat -> nat -> nat -> R; h_up : nat -> nat -> nat -> R; h_active : nat -> nat -> nat }.

(** debugdata.py:26-27: the shape is made of len(a), also for channels with underflow and overflow *)
Definition size_of (c : chan) : nat := fold_right Nat.mul 1 (map fst (c_axes c)).
Definition nonzero (x : R) : bool := negb (Reqb x 0).
Definition count (f : nat -> bool) (n : nat) : nat := List.length (filter f (seq 0 n)).
Section Build.
  Variable w : indata.
  (** debugdata.py:68-76 *)
  Definition get_syst (logk nominal : R) : R := match w_type w with LogNormal => (exp logk * nominal)%R | Normal => (logk + nominal)%R end.
  (** debugdata.py:24-122 *)
  Definition hists_of (ibin : nat) (c : chan) : hists :=
    let n := size_of c in
    let avg := fun b p k => w_avg w (ibin + b) p k in
    let half := fun b p k => if w_symmetric w then 0%R else w_half w (ibin + b) p k in
    let nom := fun b p => w_norm w (ibin + b) p in
    mkH (List.length (c_axes c)) n (if c_masked c then None else Some (fun b => w_obs w (ibin + b))) nom (fun b p => w_sumw2 w (ibin + b) p)
        (fun b p k => get_syst (- avg b p k + half b p k) (nom b p)) (fun b p k => get_syst (avg b p k + half b p k) (nom b p))
        (fun p k => count (fun b => nonzero (avg b p k) || nonzero (half b p k)) n).
  Fixpoint build (ibin : nat) (d : dict chan) : dict hists :=
    match d with [] => [] | (k, c) :: r => (k, hists_of ibin c) :: build (ibin + size_of c) r end.
  Definition debug_data : result (dict hists) := if w_sparse w then Raise NotImplementedError else Ok (build 0 (w_channels w)).
End Build.

Section Query.
  Variables (procs systs : list string) (d : dict hists).
  Definition np : nat := List.length procs.
  Definition ns : nat := List.length systs.
  (** debugdata.py:124-146 nonzeroSysts() *)
  Definition nonzero_systs : list string :=
    map snd (filter (fun ks : nat * string => existsb (fun h : string * hists => existsb (fun p => Nat.ltb 0 (h_active (snd h) p (fst ks))) (seq 0 np)) d) (combine (seq 0 ns) systs)).
  (** debugdata.py:148-163 channelsForNonzeroSysts(procs=[the process at position p]) *)
  Definition channels_for (p : nat) : list string :=
    map fst (filter (fun h : string * hists => Nat.ltb 0 (List.length (filter (fun k => Nat.ltb 0 (h_active (snd h) p k)) (seq 0 ns)))) d).
End Query.

(** ** the checks *)
Record report := mkRep {
  no_data : list string;
  empty_data : list string;
  low_data : list (string * nat * list nat);      (* channel, printed number, printed bins *)
  low_yield : list (string * nat * list nat);
  high_unc : list (string * nat * list nat);
  zero_norm : list (string * list string);
  zero_systs : list string;
  still_procs : list string;
  extreme : list (string * list (string * string));
  issues : nat }.
Definition bins (f : nat -> bool) (n : nat) : list nat := filter f (seq 0 n).
Definition sum_to (n : nat) (f : nat -> R) : R := sumR (map f (seq 0 n)).
Definition is_nil {A} (l : list A) : bool := match l with [] => true | _ => false end.
Definition one (b : bool) : nat := if b then 1 else 0.
(** np.nanmin / np.nanmax *)
Definition nanmin (l : list (option R)) : option R :=
  fold_right (fun x m => match x, m with Some a, Some b => Some (Rmin a b) | Some a, None => Some a | None, m => m end) None l.
Definition nanmax (l : list (option R)) : option R :=
  fold_right (fun x m => match x, m with Some a, Some b => Some (Rmax a b) | Some a, None => Some a | None, m => m end) None l.
Definition below (x : option R) (t : R) : bool := match x with Some a => Rltb a t | None => false end.
Definition above (x : option R) (t : R) : bool := match x with Some a => Rltb t a | None => false end.

Section Report.
  Variables (w : indata) (d : dict hists) (channels : list string).
  Let procs := w_procs w.
  Let systs := w_systs w.
  Definition selected : dict hists := filter (fun h => smem (fst h) channels) d.
  Definition with_data : list (string * (hists * (nat -> R))) :=
    flat_map (fun h : string * hists => match h_obs (snd h) with Some o => [(fst h, (snd h, o))] | None => [] end) selected.
  (** rabbit_debug_inputdata.py:46-58 *)
  Definition c1 : list string :=
    map fst (filter (fun c : string * chan => negb (smem (fst c) (map fst with_data)) && negb (c_masked (snd c)) && smem (fst c) channels) (w_channels w)).
  (** 70-87 *)
  Definition c2 : list string := map fst (filter (fun h : string * (hists * (nat -> R)) => Reqb (sum_to (h_n (fst (snd h))) (snd (snd h))) 0) with_data).
  (** 89-112: np.where gives one array per axis, whose number is printed *)
  Definition c21 : list (string * nat * list nat) :=
    flat_map (fun h : string * (hists * (nat -> R)) =>
      let l := bins (fun b => Rltb (snd (snd h) b) 10) (h_n (fst (snd h))) in if is_nil l then [] else [(fst h, h_naxes (fst (snd h)), l)]) with_data.
  (** 114-136 *)
  Definition tot (h : hists) (b : nat) : R := sum_to (List.length procs) (h_nom h b).
  Definition totvar (h : hists) (b : nat) : R := sum_to (List.length procs) (h_var h b).
  Definition c22 : list (string * nat * list nat) :=
    flat_map (fun h : string * hists => let l := bins (fun b => Rltb (tot (snd h) b) 1) (h_n (snd h)) in if is_nil l then [] else [(fst h, List.length l, l)]) selected.
  (** 138-162: sqrt(variance) / yield > 1; a vanishing yield gives infinity, or not a number if the variance vanishes too *)
  Definition uncertain (v x : R) : bool := if Reqb x 0 then Rltb 0 v else Rltb 1 (sqrt v / x).
  Definition c23 : list (string * nat * list nat) :=
    flat_map (fun h : string * hists => let l := bins (fun b => uncertain (totvar (snd h) b) (tot (snd h) b)) (h_n (snd h)) in if is_nil l then [] else [(fst h, List.length l, l)]) selected.
  (** 164-185 *)
  Definition c3 : list (string * list string) :=
    flat_map (fun h : string * hists =>
      let l := map snd (filter (fun p : nat * string => Reqb (sum_to (h_n (snd h)) (fun b => h_nom (snd h) b (fst p))) 0) (combine (seq 0 (List.length procs)) procs)) in
      if is_nil l then [] else [(fst h, l)]) selected.
  (** 187-198: all channels *)
  Definition c4 : list string := filter (fun s => negb (smem s (nonzero_systs procs systs d))) systs.
  (** 200-217: all channels *)
  Definition c5 : list string := map snd (filter (fun p : nat * string => is_nil (channels_for systs d (fst p))) (combine (seq 0 (List.length procs)) procs)).
  (** 219-247 *)
  Definition ratio (x n : R) : option R := if Rltb 0 n then Some (x / n)%R else None.
  Definition is_extreme (h : hists) (p k : nat) : bool :=
    below (nanmin (map (fun b => ratio (h_down h b p k) (h_nom h b p)) (seq 0 (h_n h)))) (1 / 2) ||
    above (nanmax (map (fun b => ratio (h_up h b p k) (h_nom h b p)) (seq 0 (h_n h)))) 2.
  Definition c6 : list (string * list (string * string)) :=
    flat_map (fun h : string * hists =>
      let l := flat_map (fun k : nat * string => flat_map (fun p : nat * string => if is_extreme (snd h) (fst p) (fst k) then [(snd p, snd k)] else [])
                 (combine (seq 0 (List.length procs)) procs)) (combine (seq 0 (List.length systs)) systs) in
      if is_nil l then [] else [(fst h, l)]) selected.
  Definition full_report : report :=
    mkRep c1 c2 c21 c22 c23 c3 c4 c5 c6
      (one (negb (is_nil c1)) + one (negb (is_nil c2)) + List.length c21 + List.length c22 + List.length c23 +
       one (negb (is_nil c3)) + one (negb (is_nil c4)) + one (negb (is_nil c5)) + one (negb (is_nil c6))).
End Report.
(** rabbit_debug_inputdata.py:25-44: a failure to make the histograms ends the script without a report *)
Definition debug_input_data (w : indata) (channels : option (list string)) : option report :=
  match debug_data w with
  | Raise _ => None
  | Ok d => Some (full_report w d (match channels with Some l => l | None => dkeys d end))
  end.
