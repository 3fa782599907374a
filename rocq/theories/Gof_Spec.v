(** Goodness of fit of a Gaussian model: data with covariance V (Vi its inverse), prediction pred + A dx + Ab dbeta, parameters and
    beta constrained with weights cw and s. The test statistic is twice the minimum of the likelihood. *)
From Coq Require Import Reals List Arith Bool ZArith.
From Verif Require Import RBase PyList Mat_Model.
Import ListNotations.
Open Scope R_scope.

Record gfit := { g_nobs : nat; g_n : nat; g_m : nat; g_V : nat -> nat -> R; g_Vi : nat -> nat -> R; g_A : nat -> nat -> R; g_Ab : nat -> nat -> R;
  g_cw : nat -> R; g_s : nat -> R; g_fx : nat -> bool; g_fb : nat -> bool; g_pred : nat -> R; g_data : nat -> R }.
Definition gfit_ok (g : gfit) : Prop :=
  (forall a b, (a < g_nobs g)%nat -> (b < g_nobs g)%nat -> g_V g a b = g_V g b a) /\
  (forall x, (exists i, (i < g_nobs g)%nat /\ x i <> 0) -> 0 < sm (g_nobs g) (fun a => sm (g_nobs g) (fun b => x a * g_V g a b * x b))) /\
  (forall a b, (a < g_nobs g)%nat -> (b < g_nobs g)%nat -> sm (g_nobs g) (fun c => g_V g a c * g_Vi g c b) = if Nat.eqb a b then 1 else 0) /\
  (forall i, (i < g_n g)%nat -> 0 <= g_cw g i) /\ (forall k, (k < g_m g)%nat -> g_fb g k = true -> 0 < g_s g k).
Definition g_res (g : gfit) (dx db : nat -> R) (a : nat) : R :=
  g_pred g a + sm (g_n g) (fun i => g_A g a i * dx i) + sm (g_m g) (fun k => g_Ab g a k * db k) - g_data g a.
(** minus twice the logarithm of the likelihood *)
Definition g_loss (g : gfit) (dx db : nat -> R) : R :=
  sm (g_nobs g) (fun a => sm (g_nobs g) (fun b => g_res g dx db a * g_Vi g a b * g_res g dx db b))
  + sm (g_n g) (fun i => g_cw g i * (dx i * dx i)) + sm (g_m g) (fun k => g_s g k * (db k * db k)).
(** moves which keep frozen parameters and masked beta, and those which also keep parameters without constraint *)
Definition g_move (g : gfit) (dx db : nat -> R) : Prop :=
  (forall i, (i < g_n g)%nat -> g_fx g i = false -> dx i = 0) /\ (forall k, (k < g_m g)%nat -> g_fb g k = false -> db k = 0).
Definition g_move_constrained (g : gfit) (dx db : nat -> R) : Prop := g_move g dx db /\ forall i, (i < g_n g)%nat -> g_cw g i = 0 -> dx i = 0.
Definition g_all_constrained (g : gfit) : Prop := forall i, (i < g_n g)%nat -> g_fx g i = true -> 0 < g_cw g i.
Definition is_minimum (ok : (nat -> R) -> (nat -> R) -> Prop) (f : (nat -> R) -> (nat -> R) -> R) (v : R) : Prop :=
  (exists dx db, ok dx db /\ f dx db = v) /\ forall dx db, ok dx db -> v <= f dx db.

(** parameters of a fit that cost a degree of freedom: floating and without constraint *)
Fixpoint count (n : nat) (p : nat -> bool) : nat := match n with O => O | S m => (if p O then 1 else 0) + count m (fun i => p (S i)) end.
Definition free_parameters (n : nat) (fx : nat -> bool) (constrained : nat -> bool) : nat := count n (fun i => fx i && negb (constrained i)).

(** ** derivatives of the fitted residuals *)
(** beta stays at its minimum when the residuals change by e (including the change b of beta) and its centre by b0 *)
Definition beta_follows (g : gfit) (e b b0 : nat -> R) : Prop :=
  forall k, (k < g_m g)%nat -> if g_fb g k then sm (g_nobs g) (fun a => g_Ab g a k * sm (g_nobs g) (fun c => g_Vi g a c * e c)) + g_s g k * (b k - b0 k) = 0 else b k = 0.
(** responses of beta to the parameters, the data and its centres at fixed parameters *)
Definition resp (g : gfit) (M : nat -> nat -> R) (a v : nat) : R := sm (g_m g) (fun k => g_Ab g a k * M k v).
Definition g_responses (g : gfit) (J Y Z : nat -> nat -> R) : Prop :=
  (forall i, (i < g_n g)%nat -> beta_follows g (fun a => g_A g a i + resp g J a i) (fun k => J k i) (fun _ => 0)) /\
  (forall l, (l < g_nobs g)%nat -> beta_follows g (fun a => resp g Y a l - (if Nat.eqb a l then 1 else 0)) (fun k => Y k l) (fun _ => 0)) /\
  (forall k, (k < g_m g)%nat -> beta_follows g (fun a => resp g Z a k) (fun l => Z l k) (fun l => if Nat.eqb l k then 1 else 0)).
(** derivatives of the residuals with respect to floating parameters, data and centres of beta, with beta following *)
Definition g_pdx (g : gfit) (J : nat -> nat -> R) (a i : nat) : R := if g_fx g i then g_A g a i + resp g J a i else 0.
Definition g_pdn (g : gfit) (Y : nat -> nat -> R) (a l : nat) : R := resp g Y a l - (if Nat.eqb a l then 1 else 0).
Definition g_pdb (g : gfit) (Z : nat -> nat -> R) (a k : nat) : R := resp g Z a k.
(** gradient of the likelihood along floating parameter j, A_j^T Vi r + cw (x - x0), differentiated with respect to a source *)
Definition g_mixed (g : gfit) (e : nat -> nat -> R) (j v : nat) : R :=
  if g_fx g j then sm (g_nobs g) (fun a => g_A g a j * sm (g_nobs g) (fun c => g_Vi g a c * e c v)) else 0.
Definition g_mixed_x0 (g : gfit) (j i : nat) : R := if g_fx g j then - (g_cw g j * (if Nat.eqb j i then 1 else 0)) else 0.
(** covariance of the floating parameters: inverse of the derivative of that gradient along the parameters *)
Definition g_hess (g : gfit) (J : nat -> nat -> R) (i l : nat) : R :=
  sm (g_nobs g) (fun a => g_A g a i * sm (g_nobs g) (fun c => g_Vi g a c * g_pdx g J c l)) + g_cw g i * (if Nat.eqb i l then 1 else 0).
Definition g_covariance (g : gfit) (J C : nat -> nat -> R) : Prop :=
  forall i j, (i < g_n g)%nat -> (j < g_n g)%nat -> if (g_fx g i && g_fx g j)%bool then sm (g_n g) (fun l => g_hess g J i l * C l j) = (if Nat.eqb i j then 1 else 0) else C i j = 0.
(** the state after a fit *)
Definition g_fitted (g : gfit) (dx db : nat -> R) : Prop := g_move g dx db /\ forall dx' db', g_move g dx' db' -> g_loss g dx db <= g_loss g dx' db'.

(** the Moore-Penrose inverse of a square matrix *)
Definition penrose (n : nat) (A P : nat -> nat -> R) : Prop :=
  (forall z a, (a < n)%nat -> mv n A (mv n P (mv n A z)) a = mv n A z a) /\ (forall z a, (a < n)%nat -> mv n P (mv n A (mv n P z)) a = mv n P z a) /\
  (forall a b, (a < n)%nat -> (b < n)%nat -> mm n A P a b = mm n A P b a) /\ (forall a b, (a < n)%nat -> (b < n)%nat -> mm n P A a b = mm n P A b a).
