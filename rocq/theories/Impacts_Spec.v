(** Specification of impacts: conditional variances and shares of the total variance. *)
From Coq Require Import Reals List Arith Bool String.
From Verif Require Import PyList Mat_Model Mat_Proof Linear_Spec Impacts_Model.
Import ListNotations.
Open Scope R_scope.

(** a covariance: symmetric, no negative variance in any direction (fixed parameters may have zero variance) *)
Definition covariance (n : nat) (C : nat -> nat -> R) : Prop := sym n C /\ forall x, 0 <= quad n C x.
Definition mem (k : nat) (l : list nat) : bool := existsb (Nat.eqb k) l.
(** x_i minus a linear combination of the parameters in S *)
Definition residual (i : nat) (S : list nat) (z : nat -> R) (k : nat) : R := delta i k - (if mem k S then z k else 0).
(** variance of parameter i that no linear combination of the parameters in S explains *)
Definition conditional_variance (n : nat) (C : nat -> nat -> R) (i : nat) (S : list nat) (w : R) : Prop :=
  (exists z, quad n C (residual i S z) = w) /\ forall z, w <= quad n C (residual i S z).
Definition group_impact (n : nat) (C : nat -> nat -> R) (i : nat) (S : list nat) (a : R) : Prop :=
  0 <= a /\ conditional_variance n C i S (C i i - a ^ 2).
Definition is_impact (C : nat -> nat -> R) (i j : nat) (a : R) : Prop :=
  a * sqrt (C j j) = C i j /\ Rabs a <= sqrt (C i i) /\ (i = j -> a = sqrt (C i i)) /\ (C j j = 0 -> a = 0).
(** entry (i, i) of the inverse of the block of H over the indices in S *)
Definition inverse_entry (H : nat -> nat -> R) (S : list nat) (i : nat) (w : R) : Prop :=
  exists c : nat -> R, (forall k, In k S -> lsum (fun j => H k j * c j) S = delta k i) /\ w = c i.
Definition in_range (n : nat) (l : list nat) : Prop := NoDup l /\ forall i, In i l -> (i < n)%nat.
(** quadratic form of the joint curvature in the parameters (n) and in beta (m) *)
Definition jquad (n m : nat) (Hxx Hxb Hbb : nat -> nat -> R) (a b : nat -> R) : R :=
  quad n Hxx a + 2 * sm n (fun i => a i * mv m Hxb b i) + quad m Hbb b.
(** the parameters left floating in a fit of the unconstrained parameters only *)
Definition stat_list (frozen : bool) (floating : list nat) (nstat : nat) : list nat :=
  if frozen then filter (fun i => Nat.ltb i nstat) floating else seq 0 nstat.
(** square root of the variance of parameter i if only the parameters in S float; zero if i is not among them *)
Definition stat_share (H : nat -> nat -> R) (S : list nat) (i : nat) (s : R) : Prop :=
  0 <= s /\ (In i S -> inverse_entry H S i (s ^ 2)) /\ (~ In i S -> s = 0).
(** statistical columns: data alone, and the increase by bin-by-bin statistics *)
Definition stat_spec (H : nat -> nat -> R) (Hnb : option (nat -> nat -> R)) (S : list nat) (i : nat) (cols : list (option R)) : Prop :=
  match Hnb with
  | None => exists s, cols = [Some s] /\ stat_share H S i s
  | Some H' => exists s s' b, cols = [Some s'; Some b] /\ stat_share H S i s /\ stat_share H' S i s' /\ 0 <= b /\ b ^ 2 = Rmax 0 (s ^ 2 - s' ^ 2)
  end.
Definition group_ok (n : nat) (C : nat -> nat -> R) (l : list nat) : Prop := in_range n l /\ block_posdef l C.
Definition group_column (n : nat) (C : nat -> nat -> R) (i : nat) (l : list nat) (col : option R) : Prop :=
  exists a, col = Some a /\ group_impact n C i l a.
(** the parameters of interest followed by the nuisances of interest *)
Definition reported_list (npoi nmod : nat) (noi : list nat) : list nat := seq 0 npoi ++ map (fun k => nmod + k)%nat noi.

(** curvature of the likelihood: data, constraints (cw) and penalty of beta (s) *)
Record curvature := { k_n : nat; k_m : nat; k_Dxx : nat -> nat -> R; k_Dxb : nat -> nat -> R; k_Dbb : nat -> nat -> R; k_cw : nat -> R; k_s : nat -> R }.
Definition k_Hxx (k : curvature) (i j : nat) : R := k_Dxx k i j + k_cw k i * delta i j.
Definition k_Hbb (k : curvature) (i j : nat) : R := k_Dbb k i j + k_s k i * delta i j.
Definition nonneg_curvature (k : curvature) : Prop :=
  (forall i, (i < k_n k)%nat -> 0 <= k_cw k i) /\ (forall i, (i < k_m k)%nat -> 0 <= k_s k i) /\ sym (k_m k) (k_Dbb k).
(** the data curvature is not negative in any direction *)
Definition convex_data (k : curvature) : Prop := forall a b, 0 <= jquad (k_n k) (k_m k) (k_Dxx k) (k_Dxb k) (k_Dbb k) a b.
(** J is the response of the profiled beta to the parameters: d2l/dbeta2 J = - d2l/dbetadx *)
Definition profiled (k : curvature) (J : nat -> nat -> R) : Prop :=
  forall b i, (b < k_m k)%nat -> (i < k_n k)%nat -> sm (k_m k) (fun l => k_Hbb k b l * J l i) = - k_Dxb k i b.
(** curvature of the profiled likelihood *)
Definition k_prof (k : curvature) (J : nat -> nat -> R) (i j : nat) : R := k_Hxx k i j + sm (k_m k) (fun l => k_Dxb k i l * J l j).
(** covariance of the floating parameters F: inverse on their block, no correlation with the others *)
Definition cov_of (k : curvature) (J : nat -> nat -> R) (F : list nat) (C : nat -> nat -> R) : Prop :=
  (forall i j, In i F -> In j F -> lsum (fun l => k_prof k J i l * C l j) F = delta i j) /\
  (forall i j, In i F -> (j < k_n k)%nat -> ~ In j F -> C i j = 0 /\ C j i = 0).
(** a column that is the square root of a variance *)
Definition share (col : option R) (v : R) : Prop := exists a, col = Some a /\ 0 <= a /\ a ^ 2 = v.
Definition group_share (imp : nat -> R) (l : list nat) (col : option R) : Prop := share col (lsum (fun j => imp j ^ 2) l).
(** columns [syst groups | data | bbb (| bbb per process) | param groups] which add up to [var] *)
Definition adds_up (n nmod : nat) (sg pg : list (list nat)) (bbb : option (nat * bool)) (imp : nat -> R) (cols : list (option R)) (var : R) : Prop :=
  exists cs mid cp, cols = cs ++ mid ++ cp /\
    Forall2 (fun g => group_share imp (map (fun k => nmod + k)%nat g)) sg cs /\ Forall2 (group_share imp) pg cp /\
    match bbb with
    | None => exists v, mid = [Some v] /\ 0 <= v /\ sm n (fun j => imp j ^ 2) + v ^ 2 = var
    | Some (np, full) => exists v b cps, mid = Some v :: Some b :: cps /\ 0 <= v /\ 0 <= b /\
        sm n (fun j => imp j ^ 2) + b ^ 2 + v ^ 2 = var /\
        (if full : bool then exists bs, cps = map Some bs /\ List.length bs = np /\ (forall x, In x bs -> 0 <= x) /\ fold_right Rplus 0 (map (fun x => x ^ 2) bs) = b ^ 2
         else cps = [])
    end.

(** predictions linear in the parameters and in beta with Jacobians Ax, Ab; total response with profiled beta *)
Definition total_jac (m : nat) (Ax Ab J : nat -> nat -> R) (b i : nat) : R := Ax b i + sm m (fun k => Ab b k * J k i).
(** data curvature of the form A^T W A *)
Definition data_form (K : curvature) (nobs : nat) (W : nat -> nat -> R) (Ax Ab : nat -> nat -> R) : Prop :=
  (forall i j, k_Dxx K i j = sm nobs (fun b => sm nobs (fun c => Ax b i * W b c * Ax c j))) /\
  (forall i j, k_Dxb K i j = sm nobs (fun b => sm nobs (fun c => Ax b i * W b c * Ab c j))) /\
  (forall i j, k_Dbb K i j = sm nobs (fun b => sm nobs (fun c => Ab b i * W b c * Ab c j))).
(** mixed second derivatives of a likelihood with linear predictions: data with variances v (kappa = 1/v for a chi-square,
    1/prediction for Poisson data, where v is the number of observed events), or with an inverse covariance *)
Definition diag_data (K : curvature) (J : nat -> nat -> R) (nobs : nat) (v kap : nat -> R) (Ax Ab Kn : nat -> nat -> R) : Prop :=
  (forall b, (b < nobs)%nat -> 0 <= v b) /\ data_form K nobs (fun b c => kap b * kap b * v b * delta b c) Ax Ab /\
  forall j b, (j < k_n K)%nat -> (b < nobs)%nat -> Kn j b = - (kap b * total_jac (k_m K) Ax Ab J b j).
Definition cov_data (K : curvature) (J : nat -> nat -> R) (nobs : nat) (Vi : nat -> nat -> R) (Ax Ab Kn : nat -> nat -> R) : Prop :=
  sym nobs Vi /\ posdef nobs Vi /\ data_form K nobs Vi Ax Ab /\
  forall j b, (j < k_n K)%nat -> (b < nobs)%nat -> Kn j b = - sm nobs (fun c => Vi b c * total_jac (k_m K) Ax Ab J c j).

(** ** what a column means, by its label; labels carry the members of their group *)
Definition trad_means (n : nat) (C : nat -> nat -> R) (H : nat -> nat -> R) (Hnb : option (nat -> nat -> R)) (S : list nat) (nmod i : nat)
  (l : glabel (string * list nat)) (col : option R) : Prop :=
  match l with
  | LGroup g => group_column n C i (map (fun k => nmod + k)%nat (snd g)) col
  | LStat => exists s, col = Some s /\ stat_share (match Hnb with Some h => h | None => H end) S i s
  | LBBB => exists h s s' b, Hnb = Some h /\ col = Some b /\ stat_share H S i s /\ stat_share h S i s' /\ 0 <= b /\ b ^ 2 = Rmax 0 (s ^ 2 - s' ^ 2)
  | LBBBproc _ => False
  | LParam g => group_column n C i (snd g) col
  end.
Definition global_means (nmod : nat) (imp : nat -> R) (v b : R) (bs : list R) (l : glabel (string * list nat)) (col : option R) : Prop :=
  match l with
  | LGroup g => group_share imp (map (fun k => nmod + k)%nat (snd g)) col
  | LStat => col = Some v
  | LBBB => col = Some b
  | LBBBproc p => exists k x, snd p = [k] /\ nth_error bs k = Some x /\ col = Some x
  | LParam g => group_share imp (snd g) col
  end.
(** processes with their positions *)
Definition numbered (names : list string) : list (string * list nat) := combine names (map (fun k => [k]) (seq 0 (List.length names))).
