(** Model of the set-up of the fit parameters: rabbit/param_models/param_model.py:53-84
    (set_param_default), rabbit/fitter.py:240-400 (constraint weights and centres) and 580-688
    (init_blinding_values, set_blinding_offsets). Names are strings. A non-finite prior width is
    [None]; prior means are real. The hash-seeded normal generator is an arbitrary function of the
    seed string. The scatter update with a repeated index keeps the last value (tensorflow leaves
    the order open; the theorems ask for distinct names). *)
From Coq Require Import List Arith Bool String Reals.
From Verif Require Import PyList RBase PyDict Freeze_Model Nll_Model.
Import ListNotations.
Local Open Scope R_scope.

Fixpoint upd_nth {A} (i : nat) (v : A) (l : list A) : list A :=
  match l, i with
  | [], _ => []
  | _ :: r, O => v :: r
  | x :: r, S j => x :: upd_nth j v r
  end.

(** param_model.py:59-84 *)
Fixpoint scatter_defaults (params : list string) (sig : list (string * R)) (d : list R) : result (list R) :=
  match sig with
  | [] => Ok d
  | (s, v) :: r => match index_of s params with
                   | None => Raise ValueError
                   | Some i => scatter_defaults params r (upd_nth i v d)
                   end
  end.
Definition set_param_default (params : list string) (npoi : nat) (sig : option (list (string * R))) (allowneg : bool)
  : result (list R) :=
  let ones := map (fun _ => 1) params in
  d <- match sig with None => Ok ones | Some l => scatter_defaults params l ones end ;;
  Ok ((if allowneg then firstn npoi d else map sqrt (firstn npoi d)) ++ skipn npoi d).

(** fitter.py:284-295 *)
Definition where_name (systs : list string) (p : string) : list nat :=
  where_true (map (fun s => String.eqb s p) systs).
Fixpoint constraint_minima (systs : list string) (l : list (string * R)) (th : list R) : result (list R) :=
  match l with
  | [] => Ok th
  | (p, v) :: r => match where_name systs p with
                   | [i] => constraint_minima systs r (upd_nth i v th)
                   | _ => Raise RuntimeError
                   end
  end.

(** fitter.py:307-390: priors of the parameter model folded into (cw, x0default) *)
Record priors := mkPrior { pr_sigmas : option (list (option R)); pr_means : option (list R) }.
Definition prior_on (s : option R) : bool := match s with Some v => Rltb 0 v | None => false end.
Definition param_constraints (pm : pmodel) (xdef : list R) (pr : priors) : result (list R * list R) :=
  let np := (pm_npoi pm + pm_npou pm)%nat in
  match pr_sigmas pr with
  | None => Ok (map (fun _ => 0) (seq 0 np), xdef)
  | Some sg =>
    if negb (Nat.eqb (List.length sg) np) then Raise ValueError
    else
      means <- match pr_means pr with
               | None => Ok xdef
               | Some m => if Nat.eqb (List.length m) np then Ok m else Raise ValueError
               end ;;
      let mask := map prior_on sg in
      if existsb (fun b => b) (firstn (pm_npoi pm) mask) && negb (pm_allowneg pm) then Raise ValueError
      else Ok (map (fun s => if prior_on s then match s with Some v => 1 / (v * v) | None => 0 end else 0) sg,
               zipw (fun (b : bool) md => if b then fst md else snd md) mask (combine means xdef))
  end.
Definition init_constraints (pm : pmodel) (xdef : list R) (pr : priors) (systs : list string)
    (minima : list (string * R)) (cws : list R) : result (list R * list R) :=
  th0 <- constraint_minima systs minima (map (fun _ => 0) systs) ;;
  pc <- param_constraints pm xdef pr ;;
  Ok (fst pc ++ cws, snd pc ++ th0).

(** fitter.py:580-674 *)
Section Blind.
  Variables (rx : regex) (rnd : string -> R) (isint : bool).
  (** fitter.py:602-619: any bin with an integer content adds the suffix *)
  Definition seeded (s : string) : R := rnd (if isint then (s ++ "_data")%string else s).
  (** dictionary parameter name -> group expression, first matching group wins *)
  Fixpoint group_seeds (exprs names : list string) (d : dict string) : result (dict string) :=
    match exprs with
    | [] => Ok d
    | e :: r =>
      m <- match_params rx [e] names ;;
      group_seeds r names (fold_left (fun d p => if smem p (dkeys d) then d else dset p e d) m d)
    end.
  Definition blind_names (pois systs : list string) (nois : list nat) : list string :=
    pois ++ map (fun i => nth i systs ""%string) nois.
  Definition seed_for (d : dict string) (p : string) : string := match dget p d with Some e => e | None => p end.
  Definition blinding_values (pois systs : list string) (nois : list nat) (unblind groups : list string)
    : result (list R * list R) :=
    let names := blind_names pois systs nois in
    u <- match_params rx unblind names ;;
    d <- group_seeds groups names [] ;;
    if existsb (fun p => smem p (dkeys d)) u then Raise RuntimeError
    else
      let val p := seeded (seed_for d p) in
      let theta := fold_left (fun th i => let p := nth i systs ""%string in
                                          if smem p u then th else upd_nth i (val p) th)
                             nois (map (fun _ => 0) systs) in
      Ok (map (fun p => if smem p u then 1 else exp (val p)) pois, theta).
End Blind.
(** fitter.py:676-688: offsets in use after set_blinding_offsets; [None] without do_blinding *)
Definition set_offsets (do_blinding blind : bool) (values : list R * list R) : option (list R * list R) :=
  if negb do_blinding then None
  else if blind then Some values
  else Some (map (fun _ => 1) (fst values), map (fun _ => 0) (snd values)).
