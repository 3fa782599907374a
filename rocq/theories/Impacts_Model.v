(** Impacts: rabbit/impacts/traditional_impacts.py, global_impacts.py, nonprofiled_impacts.py, asym_impacts.py,
    global_asym_impacts.py and their callers in rabbit/fitter.py:1022-1394 and rabbit/workspace.py:16-30, 421-475.

    Matrices are functions of row and column, dimensions are passed separately; rounding is not modelled.
    A square root of a negative number is NaN, written None. tf.linalg.solve and tf.linalg.inv are elimination
    with row pivoting; a vanishing pivot is the exception both report. Gathered indices are in range, as those
    of a loaded input file. *)
From Coq Require Import Reals List Arith Bool.
From Verif Require Import RBase PyList Mat_Model Linear_Model.
Import ListNotations.
Open Scope R_scope.

(** ** solving a linear system *)
(** row with the largest entry, the first one if there are several *)
Fixpoint amax (n : nat) (f : nat -> R) : nat :=
  match n with
  | O => O
  | S m => let k := amax m (fun i => f (S i)) in
           match m with O => O | S _ => if Rltb (Rabs (f O)) (Rabs (f (S k))) then S k else O end
  end.
Definition swap_row {A} (p : nat) (f : nat -> A) (i : nat) : A :=
  match i with O => f p | S _ => if Nat.eqb i p then f O else f i end.
Fixpoint gsolve (n : nat) (A : nat -> nat -> R) (b : nat -> R) : option (nat -> R) :=
  match n with
  | O => Some (fun _ => 0)
  | S m =>
    let p := amax (S m) (fun i => A i O) in
    let A' := swap_row p A in let b' := swap_row p b in
    if Reqb (A' O O) 0 then None else
    let f := fun i => A' (S i) O / A' O O in
    match gsolve m (fun i j => A' (S i) (S j) - f i * A' O (S j)) (fun i => b' (S i) - f i * b' O) with
    | None => None
    | Some x => Some (fun i => match i with
                               | O => (b' O - sm m (fun k => A' O (S k) * x k)) / A' O O
                               | S i' => x i'
                               end)
    end
  end.
(** tf.linalg.inv: the columns solve A x = e_j; the exception does not depend on the right-hand side *)
Definition ginv (n : nat) (A : nat -> nat -> R) : result (nat -> nat -> R) :=
  match gsolve n A (fun _ => 0) with
  | None => Raise GenericException
  | Some _ => Ok (fun i j => match gsolve n A (fun k => delta k j) with Some x => x i | None => 0 end)
  end.
(** tf.sqrt *)
Definition tsqrt (x : R) : option R := if Rltb x 0 then None else Some (sqrt x).

Fixpoint emap {A B} (f : A -> result B) (l : list A) : result (list B) :=
  match l with [] => Ok [] | a :: r => b <- f a ;; bs <- emap f r ;; Ok (b :: bs) end.

(** ** traditional impacts *)
Definition gat2 (C : nat -> nat -> R) (l : list nat) (a b : nat) : R := C (nth a l O) (nth b l O).
(** traditional_impacts.py:10-16, one row [v] *)
Definition compute_impact_group (cov : nat -> nat -> R) (v : nat -> R) (idxs : list nat) : result (option R) :=
  let m := List.length idxs in
  match gsolve m (gat2 cov idxs) (fun a => v (nth a idxs O)) with
  | None => Raise GenericException
  | Some x => Ok (tsqrt (sm m (fun a => v (nth a idxs O) * x a)))
  end.
(** traditional_impacts.py:19-35, for a tensor whose first dimension is [dim]: which row is read, None for a zero row *)
Definition out_rows (nsig nmod : nat) (noi : list nat) (dim : nat) : list (option nat) :=
  map Some (seq 0 nsig) ++ map (fun k => if Nat.ltb k (dim - nmod) then Some (nmod + k)%nat else None) noi.
Definition read_row (v : nat -> R) (r : option nat) : R := match r with Some i => v i | None => 0 end.
(** traditional_impacts.py:62-66 *)
Definition safe_sigma (cov : nat -> nat -> R) (j : nat) : R :=
  let s := sqrt (cov j j) in if Rltb 0 s then s else 1.
Definition single_impact (cov : nat -> nat -> R) (r : option nat) (j : nat) : R := read_row (fun i => cov i j) r / safe_sigma cov j.
Definition relu (x : R) : R := if Rltb x 0 then 0 else x.
Definition read_num (v : nat -> option R) (r : option nat) : option R := match r with Some i => v i | None => Some 0 end.
(** traditional_impacts.py:68-89: the columns stat and binByBinStat *)
Definition stat_columns (cov_stat : nat -> nat -> R) (cov_stat_no_bbb : option (nat -> nat -> R)) (r : option nat) : list (option R) :=
  match cov_stat_no_bbb with
  | Some c => [read_num (fun i => tsqrt (c i i)) r; tsqrt (relu (read_row (fun i => cov_stat i i - c i i) r))]
  | None => [read_num (fun i => tsqrt (cov_stat i i)) r]
  end.
(** traditional_impacts.py:38-121: for every reported parameter its impacts and its grouped impacts *)
Definition trad_impacts (n nstat : nat) (cov cov_stat : nat -> nat -> R) (cov_stat_no_bbb : option (nat -> nat -> R))
  (nsig nmod : nat) (noi : list nat) (systgroups paramgroups : list (list nat))
  : result (list ((nat -> R) * list (option R))) :=
  emap (fun rr : option nat * option nat =>
    let (r, rs) := rr in
    let v := fun j => read_row (fun i => cov i j) r in
    syst <- emap (fun g => compute_impact_group cov v (map (fun k => nmod + k)%nat g)) systgroups ;;
    par <- emap (compute_impact_group cov v) paramgroups ;;
    Ok (single_impact cov r, syst ++ stat_columns cov_stat cov_stat_no_bbb rs ++ par))
    (combine (out_rows nsig nmod noi n) (out_rows nsig nmod noi nstat)).
(** fitter.py:1043-1062 *)
Definition cov_stat_floating (frozen : bool) (floating : list nat) (hess : nat -> nat -> R) (nstat : nat) : result (nat -> nat -> R) :=
  if frozen then
    let fl := filter (fun i => Nat.ltb i nstat) floating in
    c <- ginv (List.length fl) (gat2 hess fl) ;; Ok (scatter_cov (fun _ _ => 0) fl c)
  else ginv nstat hess.
(** fitter.py:1064-1094; [hess_no_bbb] is the Hessian without profiling, if bin-by-bin statistics are enabled *)
Definition impacts_parms (frozen : bool) (floating : list nat) (n npoi npou nnoc : nat) (cov hess : nat -> nat -> R)
  (hess_no_bbb : option (nat -> nat -> R)) (noi : list nat) (systgroups paramgroups : list (list nat))
  : result (list ((nat -> R) * list (option R))) :=
  let nstat := (npoi + npou + nnoc)%nat in
  cs <- cov_stat_floating frozen floating hess nstat ;;
  cb <- match hess_no_bbb with
        | Some h => c <- cov_stat_floating frozen floating h nstat ;; Ok (Some c)
        | None => Ok None
        end ;;
  trad_impacts n nstat cov cs cb npoi (npoi + npou) noi systgroups paramgroups.

(** ** global impacts *)
(** global_impacts.py:27-30 *)
Definition group_quad (sq : nat -> R) (idxs : list nat) : option R := tsqrt (sumR (map sq idxs)).
(** global_impacts.py:203-231, 234-268: columns [syst groups | stat | bbb | bbb per process | param groups] *)
Definition global_columns (x0_sq : nat -> R) (nmod : nat) (systgroups paramgroups : list (list nat)) (middle : list (option R))
  : list (option R) :=
  map (fun g => group_quad x0_sq (map (fun k => nmod + k)%nat g)) systgroups ++ middle ++ map (group_quad x0_sq) paramgroups.
(** bin-by-bin statistics: number of bins, processes (1 in lite mode), full mode, curvature of the penalty,
    derivative of the profiled beta, flattened in row-major order *)
Record bbb_in := { b_nb : nat; b_np : nat; b_full : bool; b_curv : nat -> R; b_J : nat -> nat -> R }.
(** global_impacts.py:131-178: impact of the centre of beta [k] given u = cov d and B^-1 p *)
Definition beta_impact (n : nat) (B : bbb_in) (u : nat -> R) (q : nat -> R) (k : nat) : R :=
  sqrt (b_curv B k) * mv n (b_J B) u k + sqrt (b_curv B k) * q k.
Definition beta_var_process (n : nat) (B : bbb_in) (u q : nat -> R) (p : nat) : R :=
  sm (b_nb B) (fun b => (beta_impact n B u q (b * b_np B + p)) ^ 2).
Definition beta_var (n : nat) (B : bbb_in) (u q : nat -> R) : R :=
  if b_full B then sm (b_np B) (beta_var_process n B u q) else beta_var_process n B u q 0.
(** global_impacts.py:181-192, sources over the whole parameter vector *)
Definition x0_impact (cw : nat -> R) (u : nat -> R) (j : nat) : R := sqrt (cw j) * u j.
(** global_impacts.py:271-333, 336-429: one reported row with u = cov d, total variance [var] and q = B^-1 p *)
Definition global_row (n : nat) (cw : nat -> R) (bbb : option bbb_in) (nmod : nat) (systgroups paramgroups : list (list nat))
  (u q : nat -> R) (var : R) : (nat -> R) * list (option R) :=
  let sq := fun j => (x0_impact cw u j) ^ 2 in
  let var_x0 := sm n sq in
  let middle :=
    match bbb with
    | Some B => tsqrt (var - var_x0 - beta_var n B u q) :: tsqrt (beta_var n B u q) ::
                (if b_full B then map (fun p => tsqrt (beta_var_process n B u q p)) (seq 0 (b_np B)) else [])
    | None => [tsqrt (var - var_x0)]
    end in
  (x0_impact cw u, global_columns sq nmod systgroups paramgroups middle).
(** global_impacts.py:286-290 *)
Definition reported (npoi nmod : nat) (noi : list nat) : list nat := seq 0 npoi ++ map (fun k => nmod + k)%nat noi.
Definition global_impacts_parms (n : nat) (cov : nat -> nat -> R) (cw : nat -> R) (bbb : option bbb_in)
  (npoi nmod : nat) (noi : list nat) (systgroups paramgroups : list (list nat)) : list ((nat -> R) * list (option R)) :=
  map (fun i => global_row n cw bbb nmod systgroups paramgroups (mv n cov (delta i)) (fun _ => 0) (cov i i)) (reported npoi nmod noi).
(** fitter.py:1466-1508, 1511-1538: one bin of an observable with derivatives [d] and [p] (with respect to beta);
    curvature of the likelihood in beta: diagonal with the mask of beta, or a matrix in a covariance fit *)
Inductive beta_curv := BDiag (msk : nat -> bool) (B : nat -> R) | BFull (B : nat -> nat -> R).
Definition obs_q (c : beta_curv) (m : nat) (p : nat -> R) : result (nat -> R) :=
  match c with
  | BDiag msk B => Ok (fun k => if msk k then 0 else p k / B k)
  | BFull B => match gsolve m B p with Some q => Ok q | None => Raise GenericException end
  end.
Definition obs_variance (n m : nat) (cov : nat -> nat -> R) (d p q : nat -> R) : R :=
  sm n (fun i => d i * mv n cov d i) + sm m (fun k => p k * q k).
Definition global_impacts_obs (n : nat) (cov : nat -> nat -> R) (cw : nat -> R) (bbb : option (bbb_in * beta_curv))
  (nmod : nat) (systgroups paramgroups : list (list nat)) (d p : nat -> R) : result ((nat -> R) * list (option R)) :=
  match bbb with
  | Some (b, c) =>
    let m := (b_nb b * b_np b)%nat in
    q <- obs_q c m p ;;
    Ok (global_row n cw (Some b) nmod systgroups paramgroups (mv n cov d) q (obs_variance n m cov d p q))
  | None => Ok (global_row n cw None nmod systgroups paramgroups (mv n cov d) (fun _ => 0) (obs_variance n 0 cov d p (fun _ => 0)))
  end.

(** fitter.py:1372-1394: dx/dv = -cov d2l/dxdv, row i, column k *)
Definition dxdvar (n : nat) (cov K : nat -> nat -> R) (i k : nat) : R := - sm n (fun j => cov i j * K j k).
(** fitter.py:381-385 *)
Definition var_x0 (cw : nat -> R) (j : nat) : R := if Reqb (cw j) 0 then 0 else / cw j.
(** covariance of the data: variances, or the inverse of the given inverse *)
Inductive data_unc := DVar (v : nat -> R) | DCovInv (Vi : nat -> nat -> R).
Definition data_stat (nobs : nat) (D : data_unc) (g : nat -> R) : result R :=
  match D with
  | DVar v => Ok (sm nobs (fun b => (g b) ^ 2 * v b))
  | DCovInv Vi => V <- ginv nobs Vi ;; Ok (sm nobs (fun j => sm nobs (fun k => g j * V j k * g k)))
  end.
(** global_impacts.py:432-500; [gb] the response to beta0 with its variance, number of bins and processes *)
Record gbeta_in := { gb_nb : nat; gb_np : nat; gb_full : bool; gb_var : nat -> R }.
Definition gbeta_var_process (B : gbeta_in) (g : nat -> R) (p : nat) : R :=
  sm (gb_nb B) (fun b => (g (b * gb_np B + p)%nat) ^ 2 * gb_var B (b * gb_np B + p)%nat).
Definition gbeta_var (B : gbeta_in) (g : nat -> R) : R :=
  if gb_full B then sm (gb_np B) (gbeta_var_process B g) else gbeta_var_process B g 0.
Definition gaussian_row (cw : nat -> R) (nobs : nat) (D : data_unc) (bbb : option gbeta_in) (nmod : nat)
  (systgroups paramgroups : list (list nat)) (gx gn gb : nat -> R) : result ((nat -> R) * list (option R)) :=
  let imp := fun j => gx j * sqrt (var_x0 cw j) in
  ds <- data_stat nobs D gn ;;
  let middle :=
    match bbb with
    | Some B => tsqrt ds :: tsqrt (gbeta_var B gb) ::
                (if gb_full B then map (fun p => tsqrt (gbeta_var_process B gb p)) (seq 0 (gb_np B)) else [])
    | None => [tsqrt ds]
    end in
  Ok (imp, global_columns (fun j => (imp j) ^ 2) nmod systgroups paramgroups middle).
(** fitter.py:1113-1145, global_impacts.py:503-543; [Kx], [Kn], [Kb] the mixed second derivatives *)
Definition gaussian_impacts_parms (n : nat) (cov : nat -> nat -> R) (cw : nat -> R) (nobs : nat) (D : data_unc) (bbb : option gbeta_in)
  (Kx Kn Kb : nat -> nat -> R) (npoi nmod : nat) (noi : list nat) (systgroups paramgroups : list (list nat))
  : result (list ((nat -> R) * list (option R))) :=
  emap (fun i => gaussian_row cw nobs D bbb nmod systgroups paramgroups (dxdvar n cov Kx i) (dxdvar n cov Kn i) (dxdvar n cov Kb i))
       (reported npoi nmod noi).

(** ** labels: workspace.py:16-30, 421-445 *)
Definition row_labels {A} (parms : list A) (npoi nparams : nat) (noi : list nat) (dft : A) : list A :=
  firstn npoi parms ++ map (fun k => nth k (skipn nparams parms) dft) noi.
Inductive glabel (A : Type) := LGroup (g : A) | LStat | LBBB | LBBBproc (p : A) | LParam (g : A).
Arguments LGroup {A}. Arguments LStat {A}. Arguments LBBB {A}. Arguments LBBBproc {A}. Arguments LParam {A}.
Definition grouped_axis {A} (systgroups : list A) (bbb per_process : bool) (procs extra : list A) : list (glabel A) :=
  map LGroup systgroups ++ [LStat] ++ (if bbb then LBBB :: (if per_process then map LBBBproc procs else []) else []) ++ map LParam extra.
