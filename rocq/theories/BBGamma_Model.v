(** The numerical profile of the bin-by-bin nuisances with gamma constraints in full mode: rabbit/bbstat/bbstat.py:502-566 and 700-763
    (set-up), 915-984 (Newton iteration). One bin; a yield of zero makes kstat/norm infinite (None). The derivatives taken
    by tf.GradientTape are passed in. Float64 rounding is not modelled. *)
From Coq Require Import Reals List Bool.
From Verif Require Import RBase BBStat_Model.
Import ListNotations.
Open Scope R_scope.

Section Gamma.
  Variables (l : lik) (es : list fentry) (nobs varnobs : R).
  (** lines 520-534 and 712-726 *)
  Definition f_thresh (e : fentry) : option R :=
    if bi_mask (fe_info e) || Reqb (fe_n e) 0 then None
    else Some (match l with Chisq => bi_kstat (fe_info e) / fe_n e | Poisson => 1 + bi_kstat (fe_info e) / fe_n e end).
  Definition omin (a b : option R) : option R := match a, b with Some x, Some y => Some (Rmin x y) | Some x, None => Some x | None, _ => b end.
  Definition f_min : option R := fold_right (fun e m => omin (f_thresh e) m) None es.
  (** lines 535 and 727; None is not finite *)
  Definition threshold : option R :=
    match l, f_min with
    | Chisq, Some f => Some (nobs - varnobs * f)
    | Chisq, None => None
    | Poisson, Some f => tfdiv nobs f
    | Poisson, None => Some 0
    end.
  (** lines 545-548 and 735-737: the factor of norm in the denominators *)
  Definition slope (x : R) : R := match l with Chisq => (x - nobs) / varnobs | Poisson => 1 - nobs / x end.
  Definition den (x : R) (e : fentry) : R := bi_kstat (fe_info e) + slope x * fe_n e.
  Definition gbeta (x : R) (e : fentry) : R := if bi_mask (fe_info e) then fe_b0 e else bi_kstat (fe_info e) * fe_b0 e / den x e.
  Definition new_nexp (x : R) : R := sumR (map (fun e => gbeta x e * fe_n e) es).
  (** lines 549-565 and 738-756 *)
  Definition lbeta_g (x : R) (e : fentry) : R :=
    let k := bi_kstat (fe_info e) in
    k * (gbeta x e - fe_b0 e) - k * fe_b0 e * (ln (if Reqb (fe_b0 e) 0 then 1 else gbeta x e) - logbeta0_of (fe_b0 e)).
  Definition nll_at (x : R) : R :=
    match l with
    | Chisq => 1 / 2 * (new_nexp x - nobs) * (new_nexp x - nobs) / varnobs
    | Poisson => new_nexp x - nobs - nobs * (ln (if Reqb nobs 0 then 1 else new_nexp x) - lognobs_of nobs)
    end + sumR (map (lbeta_g x) es).
  Definition fnll (T u : R) : R := nll_at (T + exp u).
End Gamma.

(** lines 949-960: one step of the loop; grad and hess are the derivatives of fnll *)
Definition safe_hess (h : R) : R := Rmax h (1 / 100000000).
Definition clip (lo hi x : R) : R := Rmax lo (Rmin hi x).
Definition newton_step (grad hess : R -> R) (u : R) : R := u - clip (-1) 1 (grad u / safe_hess (hess u)).
Definition edm (grad hess : R -> R) (u : R) : R := 1 / 2 * (grad u * grad u) / safe_hess (hess u).
(** All bins are stepped together (lines 949-970) while the largest edm exceeds the limit, at most 50 times. A bin whose
    threshold is not finite has derivatives that are NaN (None): its variable becomes NaN, and so does the maximum over the
    bins, which compares as false. *)
Definition bin := option ((R -> R) * (R -> R))%type.
Definition bin_step (bu : bin * option R) : option R := match bu with (Some (g, h), Some u) => Some (newton_step g h u) | _ => None end.
Definition bin_edm (bu : bin * option R) : option R := match bu with (Some (g, h), Some u) => Some (edm g h u) | _ => None end.
Definition defined (o : option R) : bool := match o with Some _ => true | None => false end.
Definition above (o : option R) : bool := match o with Some e => Rltb (1 / 10000000000) e | None => false end.
Fixpoint newton_loop (fuel : nat) (bins : list bin) (us : list (option R)) : list (option R) :=
  match fuel with
  | O => us
  | S n =>
    let us' := map bin_step (combine bins us) in
    let es := map bin_edm (combine bins us) in
    if forallb defined es && existsb above es then newton_loop n bins us' else us'
  end.
(** lines 974-983: the last, unclipped step *)
Definition last_step (grad hess : R -> R) (u : R) : R := u - grad u / safe_hess (hess u).
Definition profile_gamma (l : lik) (es : list fentry) (nobs varnobs T u : R) : list R := map (gbeta l nobs varnobs (T + exp u)) es.
