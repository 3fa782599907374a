(** Specifications for the likelihood: frozen coordinates, blinding, encoding, priors, deviance. *)
From Coq Require Import List Arith Bool String Reals.
From Verif Require Import PyList RBase PyDict BBStat_Model Writer_Model Yields_Model Freeze_Model Freeze_Spec Ext_Model Nll_Model Init_Model.
Import ListNotations.
Local Open Scope R_scope.

Definition val (r : result R) : R := match r with Ok v => v | Raise _ => 0 end.
(** number of fit parameters *)
Definition npar (P : problem) : nat := (pm_npoi (pb_model P) + pm_npou (pb_model P) + in_nsyst (pb_data P))%nat.
(** *** C20 *)
Definition move (x : list R) (j : nat) (t : R) : list R := upd_nth j (nth j x 0 + t) x.
Definition addv (x : list R) (t : R) (u : nat -> R) : list R :=
  map (fun j => nth j x 0 + t * u j) (seq 0 (List.length x)).
Definition is_grad (L : list R -> R) (x : list R) (g : nat -> R) : Prop :=
  forall j, (j < List.length x)%nat -> derivable_pt_lim (fun t => L (move x j t)) 0 (g j).
Definition nearby (f : R -> Prop) : Prop := exists d, 0 < d /\ forall t, Rabs t < d -> f t.
(** directions a minimiser can build at [x] from gradients and Hessian-vector products of [L]
    (forward and reverse form) *)
Inductive search (L : list R -> R) (x : list R) : (nat -> R) -> Prop :=
| se_zero : search L x (fun _ => 0)
| se_grad g : is_grad L x g -> search L x g
| se_lin a b u v : search L x u -> search L x v -> search L x (fun j => a * u j + b * v j)
| se_hvp_fwd u G h : search L x u -> nearby (fun t => is_grad L (addv x t u) (G t)) ->
    (forall j, (j < List.length x)%nat -> derivable_pt_lim (fun t => G t j) 0 (h j)) -> search L x h
| se_hvp_rev u G h : search L x u ->
    (forall j, (j < List.length x)%nat -> nearby (fun t => is_grad L (move x j t) (G j t))) ->
    (forall j, (j < List.length x)%nat ->
       derivable_pt_lim (fun t => sum_n (List.length x) (fun k => G j t k * u k)) 0 (h j)) -> search L x h.
(** points a fit can visit: steps along search directions of the loss at the current point *)
Inductive fit_path (P : problem) (e : eff) (x : list R) : list R -> Prop :=
| fp_start : fit_path P e x x
| fp_step y u s : fit_path P e x y -> search (fun xt => val (nll_ad P e y xt)) y u -> fit_path P e x (addv y s u).
Definition ext_uses (P : problem) (i : nat) : Prop := exists t, In t (pb_ext P) /\ In i (tf_idx t).

(** *** C21 *)
Definition shifted (P : problem) (op ot x x' : list R) : Prop :=
  let pm := pb_model P in let np := (pm_npoi pm + pm_npou pm)%nat in
  List.length x' = List.length x /\
  (forall i, (i < pm_npoi pm)%nat -> nth i x' 0 = nth i x 0 * (if pm_allowneg pm then nth i op 0 else sqrt (nth i op 0))) /\
  (forall i, (pm_npoi pm <= i < np)%nat -> nth i x' 0 = nth i x 0) /\
  (forall i, (i < in_nsyst (pb_data P))%nat -> nth (np + i) x' 0 = nth (np + i) x 0 + nth i ot 0).
(** expression that seeds the offset of [p] *)
Fixpoint first_group (rx : regex) (groups : list string) (p : string) : option string :=
  match groups with
  | [] => None
  | e :: r => if (String.eqb e p || match rx e with Some f => f p | None => false end)%bool then Some e else first_group rx r p
  end.
Definition offset_value (rx : regex) (rnd : string -> R) (isint : bool) (groups : list string) (p : string) : R :=
  let s := match first_group rx groups p with Some e => e | None => p end in
  rnd (if isint then (s ++ "_data")%string else s).

(** *** C24 *)
Definition sq (x : R) : R := x * x.
(** half squared pull if there is a finite positive width *)
Definition prior_pen (s : option R) (m x : R) : R :=
  match s with Some v => if Rltb 0 v then 1 / 2 * sq ((x - m) / v) else 0 | None => 0 end.
(** last value declared for a nuisance, 0 if none *)
Fixpoint declared_min (l : list (string * R)) (s : string) (acc : R) : R :=
  match l with [] => acc | (p, v) :: r => declared_min r s (if String.eqb p s then v else acc) end.

(** *** C60: the problem built from a workspace file. [bb]: mode, type, minimal statistics, beta0 *)
Definition file_problem (w : workspace R) (t : tensors R) (pm : pmodel) (lk : likelihood) (nobs var : list R)
    (bb : option (bbmode * bbtype * R * (nat -> list R))) (orc : oracle) (pcw px0 : list R) (x0f : string -> R) (tau : R) : problem :=
  mkPb (indata_of w) t pm lk nobs var
    (match bb with
     | None => None
     | Some (mo, ty, mn, b0) => Some (mkBB mo ty mn (fun b => map (fun p => (w_sumw w b p, w_sumw2 w b p)) (seq 0 (List.length (w_procs w)))) b0)
     end) orc (pcw ++ w_cw w) (px0 ++ map x0f (w_systs w)) [] tau [].
