(** Selection of what asymmetric impacts are computed for: rabbit/impacts/asym_impacts.py:36-58
    (asymmetric_nuisance_mask), rabbit/fitter.py:1146-1219 (asym_impacts_parms), 1262-1308 (global_asym_impacts_parms)
    and asym_impacts.py:127-128 (columns of the targets). Tensors are the ones of Yields_Model.v, names are strings and
    the regular expression engine is a parameter as in Freeze_Model.v. Logging and timing are left out. *)
From Coq Require Import List Arith Bool String Reals.
From Verif Require Import PyList RBase Num Writer_Model Yields_Model Freeze_Model PyDict.
Import ListNotations.
Local Open Scope R_scope.

(** asym_impacts.py:51-52: mask[idx] = True, one index after the other *)
Fixpoint set_true (mask : list bool) (idx : list nat) : result (list bool) :=
  match idx with
  | [] => Ok mask
  | i :: r => if Nat.ltb i (List.length mask) then set_true (firstn i mask ++ true :: skipn (S i) mask) r else Raise IndexError
  end.

(** asym_impacts.py:36-58; the last axes [2, nsyst] of a dense logk are flattened as in Yields_Model.v *)
Definition asym_mask (d : indata) (atol : R) : result (list bool) :=
  let nsyst := in_nsyst d in
  if in_sym d then Ok (repeat false nsyst)
  else match in_tens d with
  | TSparse sp =>
    let cols := map (fun e => snd (fst e)) (filter (fun e => Nat.leb nsyst (snd (fst e)) && Rltb atol (Rabs (snd e))) (sp_logk sp)) in
    set_true (repeat false nsyst) (map (fun c => c - nsyst)%nat (nodup Nat.eq_dec cols))
  | TDense _ k =>
    Ok (map (fun s => existsb (fun b => existsb (fun p => Rltb atol (Rabs (k b p (nsyst + s)%nat))) (seq 0 (in_nproc d)))
                              (seq 0 (in_nbinsfull d))) (seq 0 nsyst))
  end.

Section Select.
  Variable rx : regex.

  (** sel &= np.array([...]): an empty list becomes an array of floats, which can not be combined with booleans *)
  Definition and_list (sel l : list bool) : result (list bool) :=
    match l with [] => Raise TypeError | _ => Ok (map (fun p => fst p && snd p) (combine sel l)) end.
  (** fitter.py:1190-1197, 1270-1275, 1293-1298 *)
  Definition apply_include (names : list string) (include : option (list string)) (sel : list bool) : result (list bool) :=
    match include with
    | None => Ok sel
    | Some e => keep <- match_params rx e names ;; and_list sel (map (fun n => smem n keep) names)
    end.
  Definition apply_exclude (names : list string) (exclude : option (list string)) (sel : list bool) : result (list bool) :=
    match exclude with
    | None => Ok sel
    | Some e => drop <- match_params rx e names ;; and_list sel (map (fun n => negb (smem n drop)) names)
    end.
  Definition restrict (names : list string) (include exclude : option (list string)) (sel : list bool) : result (list bool) :=
    s <- apply_include names include sel ;; apply_exclude names exclude s.

  (** fitter.py:1184-1200: indices and names *)
  Definition asym_select (names : list string) (mask : result (list bool)) (skip : bool) (include exclude : option (list string))
    : result (list nat * list string) :=
    sel0 <- (if skip then (m <- mask ;; Ok (map (fun p => fst p && snd p) (combine (repeat true (List.length names)) m)))
             else Ok (repeat true (List.length names))) ;;
    sel <- restrict names include exclude sel0 ;;
    let idx := where_true sel in
    Ok (idx, map (fun i => nth i names EmptyString) idx).

  (** fitter.py:1262-1304: indices in the parameter vector and labels; [cw] weights of the nuisances, [priored] indices
      of the parameters with a prior, [parms] all names *)
  Definition ga_select (nparams : nat) (parms systs : list string) (cw : list R) (priored : list nat)
      (include exclude : option (list string)) : result (list nat * list string) :=
    sel <- restrict systs include exclude (map (Rltb 0) cw) ;;
    let idx := where_true sel in
    let xs := map (fun i => nparams + i)%nat idx in
    let ns := map (fun i => nth i systs EmptyString) idx in
    match priored with
    | [] => Ok (xs, ns)
    | _ =>
      let pnames := map (fun i => nth i parms EmptyString) priored in
      psel <- restrict pnames include exclude (repeat true (List.length priored)) ;;
      let ok := map (fun t => (fst (fst t), snd (fst t))) (filter (fun t => snd t) (combine (combine priored pnames) psel)) in
      Ok (xs ++ map fst ok, ns ++ map (fun t => append (snd t) "_prior") ok)
    end.
End Select.

(** fitter.py:1206-1219: the parameters of interest and the nuisances of interest; asym_impacts.py:127-128: their columns,
    the first place the name is found *)
Definition targets (params systs : list string) (npoi : nat) (noi : list nat) : list string :=
  firstn npoi params ++ map (fun i => nth i systs EmptyString) noi.
Fixpoint first_at (n : string) (l : list string) : result nat :=
  match l with
  | [] => Raise IndexError
  | x :: r => if String.eqb x n then Ok 0%nat else (k <- first_at n r ;; Ok (S k))
  end.
Definition target_cols (parms ts : list string) : result (list nat) := mapM (fun t => first_at t parms) ts.
