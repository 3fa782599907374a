(** Asymmetric impacts: envelopes and refits. rabbit/impacts/asym_impacts.py, global_asym_impacts.py,
    nonprofiled_impacts.py and their callers rabbit/fitter.py:1153-1342.

    Floating point numbers are reals, the two infinities and NaN; rounding is not modelled. Minimum and
    maximum of tensorflow and numpy return NaN if one argument is NaN. A fit is a function of the constraint
    centres and the starting values; it returns the parameters or raises. *)
From Coq Require Import Reals List Arith Bool String.
From Verif Require Import RBase PyList PyDict Freeze_Model.
Import ListNotations.
Open Scope R_scope.

Inductive fl := Fin (r : R) | PInf | NInf | NaN.
Definition fmin (a b : fl) : fl :=
  match a, b with
  | NaN, _ | _, NaN => NaN
  | NInf, _ | _, NInf => NInf
  | PInf, x | x, PInf => x
  | Fin r, Fin s => Fin (if Rltb s r then s else r)
  end.
Definition fmax (a b : fl) : fl :=
  match a, b with
  | NaN, _ | _, NaN => NaN
  | PInf, _ | _, PInf => PInf
  | NInf, x | x, NInf => x
  | Fin r, Fin s => Fin (if Rltb r s then s else r)
  end.
Definition fadd (a b : fl) : fl :=
  match a, b with
  | NaN, _ | _, NaN | PInf, NInf | NInf, PInf => NaN
  | PInf, _ | _, PInf => PInf
  | NInf, _ | _, NInf => NInf
  | Fin r, Fin s => Fin (r + s)
  end.
Definition fneg (a : fl) : fl := match a with Fin r => Fin (- r) | PInf => NInf | NInf => PInf | NaN => NaN end.
Definition fsub (a b : fl) : fl := fadd a (fneg b).
Definition fsq (a : fl) : fl := match a with Fin r => Fin (r * r) | NaN => NaN | _ => PInf end.
Definition fsqrt (a : fl) : fl := match a with Fin r => if Rltb r 0 then NaN else Fin (sqrt r) | PInf => PInf | _ => NaN end.
Definition fsum (l : list fl) : fl := fold_right fadd (Fin 0) l.

(** nonprofiled_impacts.py:14-21, global_asym_impacts.py:32-50: one column of the result, members are pairs [down, up] *)
Definition env_lower (vs : list (fl * fl)) : fl := fneg (fsqrt (fsum (map (fun v => fsq (fmin (Fin 0) (fmin (fst v) (snd v)))) vs))).
Definition env_upper (vs : list (fl * fl)) : fl := fsqrt (fsum (map (fun v => fsq (fmax (Fin 0) (fmax (fst v) (snd v)))) vs)).
Definition envelope (vs : list (fl * fl)) : fl * fl := (env_lower vs, env_upper vs).
(** rows of impacts: parameter by parameter, for the two variations *)
Definition column (k : nat) (row : list fl * list fl) : fl * fl := (nth k (fst row) NaN, nth k (snd row) NaN).
Definition envelopes (n : nat) (rows : list (list fl * list fl)) : list fl * list fl :=
  let cols := map (fun k => envelope (map (column k) rows)) (seq 0 n) in (map fst cols, map snd cols).

(** asym_impacts.py:70-92, one side; [s] is the sign of that side *)
Definition quad_side (neg : bool) (tot frozen : fl) : fl :=
  match tot, frozen with
  | Fin t, Fin f => let d := t * t - f * f in
                    let m := sqrt (if Rltb 0 d then d else 0) in
                    Fin (if neg then - m else m)
  | _, _ => NaN
  end.
Definition quad_subtract (tot frozen : fl * fl) : fl * fl := (quad_side true (fst tot) (fst frozen), quad_side false (snd tot) (snd frozen)).

Definition is_nan (a : fl) : bool := match a with NaN => true | _ => false end.
(** asym_impacts.py:240-262: a scan with NaN leaves zeros, row by row *)
Definition asym_row (n : nat) (params : list fl) : list fl :=
  if existsb is_nan params then repeat (Fin 0) n else params.
Definition asym_impacts (n : nat) (scans : list (list fl * list fl)) : list (list fl * list fl) :=
  map (fun s => (asym_row n (fst s), asym_row n (snd s))) scans.

(** asym_impacts.py:95-190: scans with the members of a group frozen; [scan] the interval of a target given
    the frozen parameters. freeze_params and defreeze_params take the names as expressions *)
Section FreezeGroup.
  Variable rx : regex.
  Variable parms : list string.
  Variable scan : string -> list string -> fl * fl.
  Definition scan_with_frozen (already : list string) (targets members : list string) (st : freeze_st) : result (freeze_st * list (fl * fl)) :=
    let to_freeze := filter (fun m => negb (smem m already)) members in
    st1 <- (match to_freeze with [] => Ok st | _ => freeze_params rx parms st to_freeze end) ;;
    let out := map (fun t => if smem t members || smem t already then (NaN, NaN) else scan t (fz_list st1)) targets in
    st2 <- (match to_freeze with [] => Ok st1 | _ => defreeze_params rx parms st1 to_freeze end) ;;
    Ok (st2, out).
  (** columns: groups, stat, Total *)
  Fixpoint group_loop (already targets : list string) (totals : list (fl * fl)) (groups : list (string * list string)) (st : freeze_st)
    : result (freeze_st * list (string * list (fl * fl))) :=
    match groups with
    | [] => Ok (st, [])
    | (g, mem) :: r =>
      x <- scan_with_frozen already targets mem st ;;
      y <- group_loop already targets totals r (fst x) ;;
      Ok (fst y, (g, map (fun tf => quad_subtract (fst tf) (snd tf)) (combine totals (snd x))) :: snd y)
    end.
  Definition grouped_asym (targets : list string) (groups : list (string * list string)) (constrained : list string) (st : freeze_st)
    : result (freeze_st * list (string * list (fl * fl))) :=
    let already := fz_list st in
    let totals := map (fun t => scan t (fz_list st)) targets in
    x <- group_loop already targets totals groups st ;;
    y <- scan_with_frozen already targets constrained (fst x) ;;
    Ok (fst y, snd x ++ [("stat"%string, snd y); ("Total"%string, totals)]).
End FreezeGroup.

Definition lset {A} (l : list A) (i : nat) (v : A) : list A := firstn i l ++ (match skipn i l with [] => [] | _ :: r => v :: r end).
Section Refit.
  Variable fit : list R -> list fl -> result (list fl).
  (** nonprofiled_impacts.py:47-88; the state is (x0, x) *)
  Definition np_err (cw : list R) (u : R) (i : nat) : R := let c := nth i cw 0 in if Reqb c 0 then u else / sqrt c.
  Definition np_sign (x0n : list R) (xn : list fl) (e : R) (i : nat) (st : list R * list fl) (sign : R)
    : result ((list R * list fl) * list fl) :=
    let v := sign * e + nth i x0n 0 in
    let x0 := lset (fst st) i v in
    x <- fit x0 (lset (snd st) i (Fin v)) ;;
    Ok ((x0, xn), map (fun p => fsub (fst p) (snd p)) (combine xn x)).
  Definition np_one (x0n : list R) (xn : list fl) (e : R) (i : nat) (st : list R * list fl)
    : result ((list R * list fl) * (list fl * list fl)) :=
    a <- np_sign x0n xn e i st 1 ;;
    b <- np_sign x0n xn e i (fst a) (-1) ;;
    Ok ((lset (fst (fst b)) i (nth i x0n 0), snd (fst b)), (snd a, snd b)).
  Fixpoint np_loop (x0n : list R) (xn : list fl) (cw : list R) (u : R) (idx : list nat) (st : list R * list fl)
    : result ((list R * list fl) * list (list fl * list fl)) :=
    match idx with
    | [] => Ok (st, [])
    | i :: r => a <- np_one x0n xn (np_err cw u i) i st ;; b <- np_loop x0n xn cw u r (fst a) ;; Ok (fst b, snd a :: snd b)
    end.
  (** nonprofiled_impacts.py:90-112: groups select the rows whose index equals a group index *)
  Definition np_rows (frozen_idx grp : list nat) (rows : list (list fl * list fl)) : list (list fl * list fl) :=
    map snd (filter (fun p => existsb (Nat.eqb (fst p)) grp) (combine frozen_idx rows)).
  Definition np_groups {A} (n : nat) (frozen_idx : list nat) (groups : list (A * list nat)) (rows : list (list fl * list fl))
    : list (A * (list fl * list fl)) :=
    flat_map (fun g => match np_rows frozen_idx (snd g) rows with [] => [] | l => [(fst g, envelopes n l)] end) groups.
  Definition nonprofiled (cw : list R) (u : R) (frozen_idx : list nat) (frozen_params : list string) (groups : list (string * list nat))
    (st : list R * list fl) : result ((list R * list fl) * (list string * list (list fl * list fl) * list (string * (list fl * list fl)))) :=
    let n := List.length (snd st) in
    a <- np_loop (fst st) (snd st) cw u frozen_idx st ;;
    Ok (fst a, (frozen_params, snd a, np_groups n frozen_idx groups (snd a) ++ [("Total"%string, envelopes n (snd a))])).

  (** global_asym_impacts.py:124-185; [dx] the linear response, used for the warm start *)
  Definition ga_width (cw : list R) (i : nat) : R := let c := nth i cw 0 in if Reqb c 0 then 0 else sqrt (/ c).
  Definition shift_at (l : list R) (i : nat) (s : R) : list R := lset l i (nth i l 0 + s).
  Definition ga_start (dx : option (list (list R))) (xn : list fl) (i : nat) (s : R) : list fl :=
    match dx with
    | None => lset xn i (fadd (nth i xn NaN) (Fin s))
    | Some d => map (fun p => fadd (fst p) (Fin (nth i (snd p) 0 * s))) (combine xn d)
    end.
  Definition ga_sign (x0n : list R) (xn : list fl) (dx : option (list (list R))) (i : nat) (s : R) : list fl :=
    match fit (shift_at x0n i s) (ga_start dx xn i s) with
    | Ok x => map (fun p => fsub (fst p) (snd p)) (combine x xn)
    | Raise _ => repeat (Fin 0) (List.length xn)
    end.
  Definition ga_row (x0n : list R) (xn : list fl) (cw : list R) (sigma : R) (dx : option (list (list R))) (i : nat) : list fl * list fl :=
    (ga_sign x0n xn dx i (-1 * sigma * ga_width cw i), ga_sign x0n xn dx i (1 * sigma * ga_width cw i)).
  (** position of an index in the list of scanned sources, the last one if it is repeated *)
  Fixpoint last_pos (i k : nat) (l : list nat) : option nat :=
    match l with
    | [] => None
    | j :: r => match last_pos i (S k) r with Some p => Some p | None => if Nat.eqb j i then Some k else None end
    end.
  Definition in_scanned (sel grp : list nat) : list nat :=
    flat_map (fun i => match last_pos i 0 sel with Some k => [k] | None => [] end) grp.
  Definition global_asym (cw : list R) (sigma : R) (dx : option (list (list R))) (sel : list nat) (names : list string)
    (groups : list (string * list nat)) (x0n : list R) (xn : list fl)
    : (list R * list fl) * (list string * list (list fl * list fl) * list (string * (list fl * list fl))) :=
    let n := List.length xn in
    let rows := map (ga_row x0n xn cw sigma dx) sel in
    let grouped := flat_map (fun g => match in_scanned sel (snd g) with
                                      | [] => []
                                      | l => [(fst g, envelopes n (map (fun k => nth k rows ([], [])) l))]
                                      end) groups in
    ((x0n, xn), (names, rows, grouped ++ match sel with [] => [] | _ => [("Total"%string, envelopes n rows)] end)).
End Refit.
(** fitter.py:1273-1318: sources and group members in the coordinates of the parameter vector *)
Fixpoint dict_extend (k : string) (v : list nat) (d : list (string * list nat)) : list (string * list nat) :=
  match d with
  | [] => [(k, v)]
  | (k', v') :: r => if String.eqb k k' then (k', v' ++ v) :: r else (k', v') :: dict_extend k v r
  end.
Definition ga_sources (nparams : nat) (cw_syst : list R) (keep : nat -> bool) (priored : list nat) (pkeep : nat -> bool) : list nat :=
  map (fun i => nparams + i)%nat (filter (fun i => Rltb 0 (nth i cw_syst 0) && keep i) (seq 0 (List.length cw_syst))) ++ filter pkeep priored.
Definition ga_groups (nparams : nat) (systgroups : list (string * list nat)) (param_groups : list (string * list nat)) : list (string * list nat) :=
  fold_left (fun d g => dict_extend (fst g) (snd g) d) param_groups (map (fun g => (fst g, map (fun i => nparams + i)%nat (snd g))) systgroups).
(** rabbit_fit.py:634-638: rows of the Hessian-free covariance *)
Definition hessfree_rows (npoi : nat) (noi : list nat) : list nat := seq 0 npoi ++ map (fun k => k + npoi)%nat noi.
