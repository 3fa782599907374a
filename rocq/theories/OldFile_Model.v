(** Reading an input file, current or old: rabbit/inputdata.py:11-24, 32-38, 73-192 and 207-219 (pseudodata: see
    Pseudo_Model.v), and what the rest of the program makes of the arrays: rabbit/bbstat/bbstat.py:107-187, 838-911,
    rabbit/workspace.py:231-316 and the flag v["masked"] of rabbit/param_models/param_model.py:418-424.
    Simplifications: real numbers; datasets are the typed arrays below and a dataset of another type is [Raise TypeError];
    a shape error of tensorflow is [Raise GenericException]; hkstat has one axis; the values of logk, of the weights, of
    the inverse covariance and of the beta variations are only passed on; data and predictions are lists of bins. *)
From Coq Require Import Reals List Arith Bool String.
From Verif Require Import RBase PyList PyDict BBStat_Model.
Import ListNotations.
Local Open Scope nat_scope.
Local Open Scope string_scope.

Inductive ds :=
| Txt (l : list string)
| Idx (l : list (list nat))
| V1 (l : list R)                                    (* one axis *)
| V2 (ncol : nat) (l : list (list R))                (* two axes *)
| Coo (nrow ncol : nat) (e : list ((nat * nat) * R)) (* a sparse matrix *)
| Raw (l : list R).                                  (* anything that is only passed on *)
Definition file := dict ds.
(** an axis is its (size, extent); the flags are keys that may be absent *)
Record chan := mkChan { c_axes : list (nat * nat); c_flow : option bool; c_masked : option bool }.
Record meta := mkMeta { m_channels : dict chan; m_symmetric : option bool; m_exponential : option bool; m_type : option string }.
Record info := mkInfo { i_chan : chan; i_start : nat; i_stop : nat }.
Record indata := mkIn {
  procs : list string; signals : list string; systs : list string; noconstraint : list string; groups : list string;
  groupidxs : list (list nat); noiidxs : list (list nat);
  cov_inv : option ds; data_obs : list R; data_var : option (list R); weights : ds;
  sparse : bool; norm : ds; logk : ds; betavar : option ds;
  nbins : nat; nbinsfull : nat; channels : dict info; symmetric : bool; systype : string; sumw : ds; sumw2 : ds }.

(** f[k][...] *)
Definition get (k : string) (f : file) : result ds := match dget k f with Some d => Ok d | None => Raise KeyError end.
Definition has (k : string) (f : file) : bool := match dget k f with Some _ => true | None => false end.
Definition text (k : string) (f : file) : result (list string) := d <- get k f ;; match d with Txt l => Ok l | _ => Raise TypeError end.
Definition idx (k : string) (f : file) : result (list (list nat)) := d <- get k f ;; match d with Idx l => Ok l | _ => Raise TypeError end.
Definition vec (k : string) (f : file) : result (list R) := d <- get k f ;; match d with V1 l => Ok l | _ => Raise TypeError end.

(** inputdata.py:112 norm.shape[0] *)
Definition rows (d : ds) : result nat :=
  match d with V2 _ l => Ok (List.length l) | Coo n _ _ => Ok n | V1 l => Ok (List.length l) | _ => Raise TypeError end.
(** inputdata.py:207-219 expected_events_nominal *)
Definition col (x : R) (n : nat) : list R := repeat x n.
Definition dot (a b : list R) : R := sumR (map (fun p => fst p * snd p)%R (combine a b)).
Definition nominal (nproc : nat) (d : ds) : result (list R) :=
  match d with
  | V2 c l => if Nat.eqb c nproc then Ok (map (fun r => dot r (col 1%R nproc)) l) else Raise GenericException
  | Coo n c e =>
    if Nat.eqb c nproc
    then Ok (map (fun i => sumR (map (fun x => snd x * nth (snd (fst x)) (col 1%R nproc) 0)%R (filter (fun x => Nat.eqb (fst (fst x)) i) e))) (seq 0 n))
    else Raise GenericException
  | _ => Raise GenericException
  end.
(** inputdata.py:167-173: the quotient where kstat vanishes is not used *)
Definition broadcast2 (f : R -> R -> R) (a b : list R) : result (list R) :=
  if Nat.eqb (List.length a) (List.length b) then Ok (map (fun p => f (fst p) (snd p)) (combine a b))
  else match a, b with
       | _, [y] => Ok (map (fun x => f x y) a)
       | [x], _ => Ok (map (fun y => f x y) b)
       | _, _ => Raise GenericException
       end.
Definition sumw2_of (s k : R) : R := if Reqb k 0 then s else (s * s / k)%R.
Definition stat (f : file) (nproc : nat) (nrm : ds) : result (ds * ds) :=
  if has "hsumw2" f then s <- get "hsumw" f ;; v <- get "hsumw2" f ;; Ok (s, v)
  else
    k <- vec "hkstat" f ;;
    s <- nominal nproc nrm ;;
    v <- broadcast2 sumw2_of s k ;;
    Ok (V1 s, V1 v).

(** inputdata.py:120-152; hist.axis.Integer(0, n) with n < 0 is a ValueError *)
Definition old_channels (nb nbfull : nat) : result (dict chan) :=
  if Nat.ltb nbfull nb then Raise ValueError
  else
    let ch0 := ("ch0", mkChan [(nb, nb)] None None) in
    let nm := nbfull - nb in
    Ok (if Nat.eqb nm 0 then [ch0] else [ch0; ("ch1_masked", mkChan [(nm, nm)] None None)]).
(** inputdata.py:175-189 *)
Definition flag (o : option bool) : bool := match o with Some b => b | None => false end.
Definition size_of (c : chan) : nat := fold_right Nat.mul 1 (map (fun a => if flag (c_flow c) then snd a else fst a) (c_axes c)).
Fixpoint ranges (ibin : nat) (d : dict chan) : dict info :=
  match d with
  | [] => []
  | (k, c) :: r => (k, mkInfo c ibin (ibin + size_of c)) :: ranges (ibin + size_of c) r
  end.

(** inputdata.py:11-192 *)
Definition read (f : file) (mt : option meta) : result indata :=
  p <- text "hprocs" f ;;
  s <- text "hsignals" f ;;
  y <- text "hsysts" f ;;
  nc <- text "hsystsnoconstraint" f ;;
  g <- text "hsystgroups" f ;;
  gi <- idx "hsystgroupidxs" f ;;
  noi <- (if has "hnoiidxs" f then idx "hnoiidxs" f else idx "hnoigroupidxs" f) ;;
  ci <- (if has "hdata_cov_inv" f then d <- get "hdata_cov_inv" f ;; Ok (Some d) else Ok None) ;;
  obs <- vec "hdata_obs" f ;;
  var <- (if has "hdata_var" f then d <- vec "hdata_var" f ;; Ok (Some d) else Ok None) ;;
  w <- get "hconstraintweights" f ;;
  let sp := negb (has "hnorm" f) in
  n <- get (if sp then "hnorm_sparse" else "hnorm") f ;;
  l <- get (if sp then "hlogk_sparse" else "hlogk") f ;;
  bv <- (if has "hbetavariations" f then d <- get "hbetavariations" f ;; Ok (Some d) else Ok None) ;;
  nf <- rows n ;;
  let nb := List.length obs in
  chs <- (match mt with Some m => Ok (m_channels m) | None => old_channels nb nf end) ;;
  let sym := match mt with Some m => flag (m_symmetric m) | None => false end in
  _ <- (if match mt with Some m => flag (m_exponential m) | None => false end then Raise NotImplementedError else Ok tt) ;;
  let ty := match mt with Some m => match m_type m with Some t => t | None => "log_normal" end | None => "log_normal" end in
  sv <- stat f (List.length p) n ;;
  Ok (mkIn p s y nc g gi noi ci obs var w sp n l bv nb nf (ranges 0 chs) sym ty (fst sv) (snd sv)).

(** ** statistical uncertainties of the templates *)
(** bbstat.py:141-187, lite mode *)
Definition lite_bins (i : indata) (minbb : R) : result (list bininfo) :=
  match sumw i, sumw2 i with
  | V1 s, V1 v => Ok (map (fun p => mkinfo (snd p) (fst p) minbb) (combine s v))
  | V2 _ s, V2 _ v => Ok (map (fun p => lite_info (combine (fst p) (snd p)) minbb) (combine s v))
  | _, _ => Raise GenericException
  end.
(** bbstat.py:871-876 and 897-909: one bin of lite mode without a process axis; [None] is not a number *)
Definition apply_old (t : bbtype) (b : bininfo) (ps : list R) (beta : R) : R * list (option R) :=
  let n := sumR ps in
  match t with
  | NormalAdd => (n + sqrt (bi_varbeta b) * beta, map (fun p => match tfdiv (sqrt (bi_varbeta b) * beta * p) n with Some q => Some (p + q) | None => None end) ps)%R
  | _ => if bi_mask b then (n, map Some ps) else (n * beta, map (fun p => Some (beta * p)) ps)%R
  end.
(** bbstat.py:842-861 in full mode with betas that have no process axis: arrays are aligned at the last axis *)
Definition row_full (mask : list bool) (beta : list R) (r : list R) : result (list R) :=
  let bm := combine mask beta in
  let f := fun (q : bool * R) (n : R) => if fst q then n else (snd q * n)%R in
  if Nat.eqb (List.length r) (List.length bm) then Ok (map (fun p => f (fst p) (snd p)) (combine bm r))
  else match r, bm with
       | [n], _ => Ok (map (fun q => f q n) bm)
       | _, [q] => Ok (map (f q) r)
       | _, _ => Raise GenericException
       end.
Fixpoint rmap {A B} (f : A -> result B) (l : list A) : result (list B) :=
  match l with [] => Ok [] | x :: r => y <- f x ;; ys <- rmap f r ;; Ok (y :: ys) end.
Definition apply_full (mask : list bool) (beta : list R) (nrm : list (list R)) : result (list R) :=
  rs <- rmap (row_full mask beta) nrm ;; Ok (map sumR rs).

(** ** the flag of masked channels *)
(** mapping.py:181 *)
Definition has_data (c : chan) : bool := negb (flag (c_masked c)).
(** workspace.py:246-316 for the data of all channels (BaseMapping): a histogram per channel *)
Definition size_noflow (c : chan) : nat := fold_right Nat.mul 1 (map fst (c_axes c)).
Fixpoint observed (start : nat) (d : dict info) (obs : list R) : result (dict (list R)) :=
  match d with
  | [] => Ok []
  | (k, i) :: r =>
    if flag (c_masked (i_chan i)) then observed start r obs
    else
      let stop := start + size_noflow (i_chan i) in
      let h := firstn (stop - start) (skipn start obs) in
      if Nat.eqb (List.length h) (size_noflow (i_chan i)) then rest <- observed stop r obs ;; Ok ((k, h) :: rest)
      else Raise GenericException
  end.
(** param_model.py:418-424: the channels that enter the fit; v["masked"] *)
Fixpoint fit_channels (d : dict info) : result (list string) :=
  match d with
  | [] => Ok []
  | (k, i) :: r => match c_masked (i_chan i) with
                   | None => Raise KeyError
                   | Some m => rest <- fit_channels r ;; Ok (if m then rest else k :: rest)
                   end
  end.
