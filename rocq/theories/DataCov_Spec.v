(** The covariance of data with systematic uncertainties folded in. *)
From Coq Require Import Reals List Arith Bool String.
From Verif Require Import RBase PyDict Mat_Model DataCov_Model.
Import ListNotations.
Open Scope R_scope.

(** change of the total yield in a bin, counted over all channels, under the variation s of its processes *)
Definition process_shift (s : string) (b : nat) (e : pentry) : R := match dget s (pe_logk e) with Some k => nth b k 0 | None => 0 end.
Fixpoint total_shift (l : list chan) (s : string) (b : nat) : R :=
  match l with
  | [] => 0
  | c :: r => if Nat.ltb b (ch_n c) then sumR (map (fun pe => process_shift s b (snd pe)) (ch_procs c)) else total_shift r s (b - ch_n c)
  end.
(** variance of the data of a bin and statistical variance of its total prediction *)
Fixpoint data_variance (l : list chan) (b : nat) : R :=
  match l with [] => 0 | c :: r => if Nat.ltb b (ch_n c) then nth b (ch_var c) 0 else data_variance r (b - ch_n c) end.
Fixpoint mc_variance (l : list chan) (b : nat) : R :=
  match l with
  | [] => 0
  | c :: r => if Nat.ltb b (ch_n c) then sumR (map (fun pe => nth b (pe_sumw2 (snd pe)) 0) (ch_procs c)) else mc_variance r (b - ch_n c)
  end.
(** statistical variance of a process: the variances of its entries in all channels, one after the other *)
Definition mc_variance_of (l : list chan) (p : string) (b : nat) : R :=
  nth b (flat_map (fun c => match dget p (ch_procs c) with Some e => pe_sumw2 e | None => repeat 0 (ch_n c) end) l) 0.
(** covariance of the data alone: the given one or the variances *)
Definition data_part (w : cwriter) (a b : nat) : R :=
  match cw_cov w with Some (_, M) => M a b | None => if Nat.eqb a b then data_variance (chans w) a else 0 end.
Definition syst_part (w : cwriter) (a b : nat) : R := sumR (map (fun s => total_shift (chans w) s a * total_shift (chans w) s b) (cw_covsysts w)).

(** a writer filled by its methods: every array has the size of its channel *)
Definition chan_ok (c : chan) : Prop := List.length (ch_var c) = ch_n c /\ NoDup (dkeys (ch_procs c)) /\
  forall p e, In (p, e) (ch_procs c) -> List.length (pe_norm e) = ch_n c /\ List.length (pe_sumw2 e) = ch_n c /\ forall s k, dget s (pe_logk e) = Some k -> List.length k = ch_n c.
Definition writer_ok (w : cwriter) : Prop := NoDup (cw_procs w) /\ Forall chan_ok (chans w) /\
  (forall c p, In c (chans w) -> In p (dkeys (ch_procs c)) -> In p (cw_procs w)) /\
  match cw_cov w with Some (n, _) => n = nbins w | None => True end.
Definition no_masked (w : cwriter) : Prop := forall c, In c (chans w) -> ch_masked c = false.
Definition data_pos (w : cwriter) : Prop :=
  (forall a b, (a < nbins w)%nat -> (b < nbins w)%nat -> data_part w a b = data_part w b a) /\
  forall x, (exists i, (i < nbins w)%nat /\ x i <> 0) -> 0 < sm (nbins w) (fun a => sm (nbins w) (fun b => x a * data_part w a b * x b)).
Definition inverse_of (n : nat) (A B : nat -> nat -> R) : Prop := forall a b, (a < n)%nat -> (b < n)%nat -> sm n (fun c => A a c * B c b) = if Nat.eqb a b then 1 else 0.

(** chi2 of residuals r with an inverse covariance, and with explicit nuisances theta, one for each variation, instead *)
Definition chi2 (n : nat) (W : nat -> nat -> R) (r : nat -> R) : R := sm n (fun a => sm n (fun b => r a * W a b * r b)).
Definition residual_with (w : cwriter) (r : nat -> R) (theta : string -> R) (a : nat) : R :=
  r a + sumR (map (fun s => theta s * total_shift (chans w) s a) (cw_covsysts w)).
Definition chi2_explicit (w : cwriter) (Vi : nat -> nat -> R) (r : nat -> R) (theta : string -> R) : R :=
  chi2 (nbins w) Vi (residual_with w r theta) + sumR (map (fun s => theta s * theta s) (cw_covsysts w)).

(** ** variations as requested *)
(** an up variation, mirrored *)
Definition wanted_one (kf : R) (asdiff : bool) (norm h : R) : R := if Reqb norm 0 then 0 else kf * (if asdiff then h else h - norm).
(** average and half difference of up and down *)
Definition wanted_avg (kf : R) (norm up dn : R) : R := if Reqb norm 0 then 0 else kf * (up - dn) / 2.
Definition wanted_diff (kf : R) (norm up dn : R) : R := if Reqb norm 0 then 0 else kf * ((up - norm) + (dn - norm)) / 2.
Definition entry_of (w : cwriter) (c p : string) : option pentry := match dget c (cw_chans w) with Some ch => dget p (ch_procs ch) | None => None end.
Definition shift_of (w : cwriter) (c p s : string) (b : nat) : R := match entry_of w c p with Some e => process_shift s b e | None => 0 end.
Definition total_cov (w : cwriter) (a b : nat) : R := data_part w a b + syst_part w a b.
Definition has_cov (w : cwriter) : Prop := cw_cov w <> None \/ cw_covsysts w <> [].
Definition same_but (w w' : cwriter) (c p s : string) : Prop :=
  forall c' p' s' b, (c', p', s') <> (c, p, s) -> shift_of w' c' p' s' b = shift_of w c' p' s' b.
(** what a booked variation changes *)
Definition booked (w w' : cwriter) (c p s : string) (v : nat -> R) (n : nat) : Prop :=
  writer_ok w' /\ cw_sparse w' = false /\ cw_covsysts w' = set_add s (cw_covsysts w) /\ cw_systs w' = cw_systs w /\ same_but w w' c p s /\ forall b, (b < n)%nat -> shift_of w' c p s b = v b.
