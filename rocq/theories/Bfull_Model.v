(** The diagnostics of the bin-by-bin nuisances in full mode, one nuisance per bin and process: rabbit/fitter.py:2216-2234 and
    bin/rabbit_fit.py:592-600.

    As Bdiag_Model, for normal nuisances with the closed-form profiles of BBStat_Model. The processes of a bin are coupled, the Hessian
    is not diagonal. A profile that is 0/0 ([None]) gives no value. *)
From Coq Require Import List Reals Bool Arith.
From Verif Require Import PyList RBase BBStat_Model Linear_Model Bdiag_Model.
Import ListNotations.
Local Open Scope R_scope.

Record fbin := mkFB { fb_es : list fentry; fb_obs : option (R * R) }.
Definition fb_profile (l : lik) (t : bbtype) (b : fbin) : option (list R) :=
  match fb_obs b with Some (nobs, var) => profile_full l t (fb_es b) nobs var | None => Some (map fe_b0 (fb_es b)) end.
Fixpoint profiles (l : lik) (t : bbtype) (bins : list fbin) : option (list (fbin * list R)) :=
  match bins with
  | [] => Some []
  | b :: r => match fb_profile l t b, profiles l t r with Some bs, Some ps => Some ((b, bs) :: ps) | _, _ => None end
  end.

(** ** derivatives *)
Definition fslope (t : bbtype) (e : fentry) : R :=
  match t with NormalAdd => fsbeta e | _ => if bi_mask (fe_info e) then 0 else fe_n e end.
Definition fdcon (t : bbtype) (e : fentry) (beta : R) : R :=
  match t with NormalAdd => beta - fe_b0 e | _ => if bi_mask (fe_info e) then 0 else (beta - fe_b0 e) * bi_kstat (fe_info e) end.
Definition fddcon (t : bbtype) (e : fentry) : R :=
  match t with NormalAdd => 1 | _ => if bi_mask (fe_info e) then 0 else bi_kstat (fe_info e) end.
(** first and second derivative of the data term with respect to the yield *)
Definition bin_d (l : lik) (t : bbtype) (p : fbin * list R) : R :=
  match fb_obs (fst p) with Some (nobs, var) => dln l nobs var (sumR (apply_full t (fb_es (fst p)) (snd p))) | None => 0 end.
Definition bin_dd (l : lik) (t : bbtype) (p : fbin * list R) : R :=
  match fb_obs (fst p) with Some (nobs, var) => ddln l nobs var (sumR (apply_full t (fb_es (fst p)) (snd p))) | None => 0 end.

(** all (bin, process) entries with the number of their bin *)
Definition item := (nat * (fentry * R))%type.
Fixpoint items_from (a : nat) (ps : list (fbin * list R)) : list item :=
  match ps with
  | [] => []
  | (b, bs) :: r => map (fun eb => (a, eb)) (combine (fb_es b) bs) ++ items_from (S a) r
  end.
Definition unmasked (its : list item) : list item := filter (fun it => negb (bi_mask (fe_info (fst (snd it))))) its.
Definition item_grad (l : lik) (t : bbtype) (ps : list (fbin * list R)) (it : item) : R :=
  fslope t (fst (snd it)) * bin_d l t (nth (fst it) ps (mkFB [] None, [])) + fdcon t (fst (snd it)) (snd (snd it)).
Definition item_hess (l : lik) (t : bbtype) (ps : list (fbin * list R)) (its : list item) (i j : nat) : R :=
  let d := (O, (mkF (mkBin 0 0 true 0) 0 0, 0)) in
  let x := nth i its d in let y := nth j its d in
  (if Nat.eqb (fst x) (fst y) then fslope t (fst (snd x)) * fslope t (fst (snd y)) * bin_dd l t (nth (fst x) ps (mkFB [] None, [])) else 0)
  + (if Nat.eqb i j then fddcon t (fst (snd x)) else 0).
Definition edm_full_at (gpu : bool) (l : lik) (t : bbtype) (ps : list (fbin * list R)) : result (R * (nat -> nat -> R)) :=
  let its := unmasked (items_from 0 ps) in
  lib_edmval_cov gpu (List.length its) (fun i => nth i (map (item_grad l t ps) its) 0) (item_hess l t ps its).
Definition edm_full (gpu : bool) (l : lik) (t : bbtype) (bins : list fbin) : option (result (R * (nat -> nat -> R))) :=
  match profiles l t bins with None => None | Some ps => Some (edm_full_at gpu l t ps) end.
