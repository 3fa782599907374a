(** Template variations tied to the bin-by-bin nuisances of another channel: rabbit/tensorwriter.py:1264-1315 (add_beta_variations),
    1930-1931 and 1964-1991 (the array written), rabbit/inputdata.py:104-107 and rabbit/bbstat/bbstat.py:838-912 (its use).

    Channels are in the order of their declaration; self.channels holds the masked ones last (252-281), nbinschan is in the order of
    declaration. The values of the histogram projected on the axes of the destination and of the source, flattened, are a function of
    the flow flag and both bins: the projection is the one of the histogram library, which raises ValueError for repeated axes.
    Numbers are real. Names of channels are distinct. *)
From Coq Require Import Reals List Arith Bool String.
From Verif Require Import RBase PyList PyDict Mat_Model.
Import ListNotations.
Open Scope R_scope.

(** axes: name, bins, bins with underflow and overflow *)
Record bchan := mkB { bc_name : string; bc_axes : list (string * (nat * nat)); bc_masked : bool; bc_flow : bool; bc_procs : list string }.
Definition prod_sizes (flow : bool) (axes : list (string * (nat * nat))) : nat :=
  fold_right Nat.mul 1%nat (map (fun a => if flow then snd (snd a) else fst (snd a)) axes).
Definition bc_n (c : bchan) : nat := prod_sizes (bc_flow c) (bc_axes c).
Record bhist := mkH { bh_axes : list string; bh_val : bool -> nat -> nat -> R }.
(** destination, source, process; number of columns and values *)
Record bvar := mkV { bv_dest : string; bv_src : string; bv_proc : string; bv_cols : nat; bv_val : nat -> nat -> R }.
Record bwriter := mkBW { bw_sparse : bool; bw_chans : list bchan; bw_procs : list string; bw_vars : list bvar }.

Definition find_chan (w : bwriter) (name : string) : option bchan := find (fun c => String.eqb (bc_name c) name) (bw_chans w).
Definition same_key (a b : bvar) : bool := (String.eqb (bv_dest a) (bv_dest b) && String.eqb (bv_src a) (bv_src b) && String.eqb (bv_proc a) (bv_proc b))%bool.
Fixpoint set_var (v : bvar) (l : list bvar) : list bvar :=
  match l with [] => [v] | a :: r => if same_key a v then v :: r else a :: set_var v r end.
Fixpoint distinct (l : list string) : bool := match l with [] => true | a :: r => (negb (smem a r) && distinct r)%bool end.
(** 1264-1315 *)
Definition add_beta_variations (w : bwriter) (h : bhist) (proc src dest : string) : result bwriter :=
  if bw_sparse w then Raise NotImplementedError else
  match find_chan w src with
  | None => Raise RuntimeError
  | Some s =>
    match find_chan w dest with
    | None => Raise RuntimeError
    | Some d =>
      if negb (bc_masked d) then Raise RuntimeError else
      if negb (smem proc (bc_procs d)) then Raise KeyError else
      if negb (forallb (fun a => smem (fst a) (bh_axes h)) (bc_axes s)) then Raise RuntimeError else
      if negb (forallb (fun a => smem (fst a) (bh_axes h)) (bc_axes d)) then Raise RuntimeError else
      if negb (distinct (map fst (bc_axes d) ++ map fst (bc_axes s))) then Raise ValueError else
      let flow := bc_flow d in
      Ok (mkBW (bw_sparse w) (bw_chans w) (bw_procs w)
            (set_var (mkV dest src proc (prod_sizes flow (bc_axes s)) (bh_val h flow)) (bw_vars w)))
    end
  end.

(** ** write *)
Definition layout (w : bwriter) : list bchan := filter (fun c => negb (bc_masked c)) (bw_chans w) ++ filter bc_masked (bw_chans w).
Fixpoint starts (ib : nat) (l : list bchan) : list (bchan * nat) :=
  match l with [] => [] | c :: r => (c, ib) :: starts (ib + bc_n c) r end.
(** 1970-1981: first bin and number of bins of the source *)
Fixpoint src_range (ib : nat) (l : list bchan) (name : string) : option (nat * nat) :=
  match l with
  | [] => None
  | c :: r => if bc_masked c then src_range ib r name
              else if String.eqb (bc_name c) name then Some (ib, bc_n c) else src_range (ib + bc_n c) r name
  end.
Definition enumerate {A} (l : list A) : list (nat * A) := combine (seq 0 (List.length l)) l.
Record job := mkJ { j_ib : nat; j_n : nat; j_k : nat; j_var : bvar }.
Definition jobs (w : bwriter) : list job :=
  flat_map (fun ci => flat_map (fun kp => if smem (snd kp) (bc_procs (fst ci))
      then map (mkJ (snd ci) (bc_n (fst ci)) (fst kp))
             (filter (fun v => (String.eqb (bv_dest v) (bc_name (fst ci)) && String.eqb (bv_proc v) (snd kp))%bool) (bw_vars w))
      else []) (enumerate (bw_procs w))) (starts 0 (layout w)).
Definition within (a n x : nat) : bool := (Nat.leb a x && Nat.ltb x (a + n))%bool.
Definition assign (j : job) (s nb : nat) (A : nat -> nat -> nat -> R) : nat -> nat -> nat -> R :=
  fun I J k => if (within (j_ib j) (j_n j) I && within s nb J && Nat.eqb k (j_k j))%bool
               then bv_val (j_var j) (I - j_ib j) (if Nat.eqb (bv_cols (j_var j)) nb then J - s else 0%nat) else A I J k.
Fixpoint run_jobs (chans : list bchan) (js : list job) (A : nat -> nat -> nat -> R) : result (nat -> nat -> nat -> R) :=
  match js with
  | [] => Ok A
  | j :: r =>
    match src_range 0 chans (bv_src (j_var j)) with
    | None => Raise RuntimeError
    | Some (s, nb) =>
      if (Nat.eqb (bv_cols (j_var j)) nb || Nat.eqb (bv_cols (j_var j)) 1)%bool then run_jobs chans r (assign j s nb A) else Raise ValueError
    end
  end.
(** hbetavariations; not written without variations *)
Definition write_beta (w : bwriter) : result (option (nat -> nat -> nat -> R)) :=
  match bw_vars w with [] => Ok None | _ => A <- run_jobs (bw_chans w) (jobs w) (fun _ _ _ => 0) ;; Ok (Some A) end.

(** ** the fit: bbstat.py:838-912 for predictions of all bins *)
Inductive bbmode := Lite | Full.
Inductive bbtype := Multiplicative (* gamma or normal-multiplicative *) | Additive.
Record bfit := mkF { f_nbins : nat; f_nproc : nat; f_n0 : nat -> nat -> R; f_kstat : nat -> nat -> R; f_mask : nat -> nat -> bool; f_betavar : option (nat -> nat -> nat -> R) }.
Definition dbeta (f : bfit) (beta : nat -> nat -> R) (j k : nat) : R := if f_mask f j k then 0 else sqrt (f_kstat f j k) * (beta j k - 1).
Definition scaled (f : bfit) (norm beta : nat -> nat -> R) (i k : nat) : R :=
  match f_betavar f with
  | None => norm i k
  | Some bv =>
    let var := sm (f_nbins f) (fun j => bv i j k * dbeta f beta j k) in
    let safe := if Rltb 0 (f_n0 f i k) then f_n0 f i k else 1 in
    if Rltb 0 (f_n0 f i k) then norm i k * (1 + var / safe) else norm i k
  end.
(** yields per process with beta per process (mode full) or per bin (column 0 of beta, mode lite without processes of zero variance);
    additive: [sb] the absolute uncertainties *)
Definition with_beta (f : bfit) (m : bbmode) (t : bbtype) (sb norm beta : nat -> nat -> R) (i k : nat) : R :=
  match t, m with
  | Multiplicative, Full => if f_mask f i k then scaled f norm beta i k else beta i k * scaled f norm beta i k
  | Multiplicative, Lite => if f_mask f i 0 then norm i k else beta i 0%nat * norm i k
  | Additive, Full => norm i k + sb i k * beta i k
  | Additive, Lite => norm i k + sb i 0%nat * beta i 0%nat * norm i k / sm (f_nproc f) (fun p => norm i p)
  end.
