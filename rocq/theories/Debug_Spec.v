(** What the file says, independently of the histograms. *)
From Coq Require Import Reals List Arith Bool String.
From Verif Require Import RBase PyDict Debug_Model.
Import ListNotations.
Local Open Scope nat_scope.

(** bins of a channel in the file: underflow and overflow are stored for channels with flow (tensorwriter.py:262, inputdata.py:180) *)
Definition stored (c : chan) : nat := fold_right Nat.mul 1 (map (fun a => if c_flow c then snd a else fst a) (c_axes c)).
Definition first_bin (w : indata) (j : nat) : nat := list_sum (map (fun c => stored (snd c)) (firstn j (w_channels w))).
Definition all_bins (w : indata) : nat := list_sum (map (fun c => stored (snd c)) (w_channels w)).
Definition in_channel (w : indata) (j : nat) (c : string) (b : nat) : Prop :=
  exists ch, nth_error (w_channels w) j = Some (c, ch) /\ first_bin w j <= b < first_bin w j + stored ch.
Definition plain (w : indata) : Prop := NoDup (dkeys (w_channels w)) /\ Forall (fun c => c_flow (snd c) = false) (w_channels w).
(** yield of process p in bin b when nuisance k is moved by [s] = 1 or -1 standard deviations *)
Definition logk (w : indata) (s : R) (b p k : nat) : R := (s * w_avg w b p k + (if w_symmetric w then 0 else w_half w b p k))%R.
Definition varied (w : indata) (s : R) (b p k : nat) : R :=
  match w_type w with
  | LogNormal => (w_norm w b p * exp (logk w s b p k))%R
  | Normal => (w_norm w b p + logk w s b p k)%R
  end.
Definition moves (w : indata) (b p k : nat) : Prop := varied w 1 b p k <> w_norm w b p \/ varied w (-1) b p k <> w_norm w b p.
(** the writer stores no log-normal variation where there is no yield *)
Definition tidy (w : indata) : Prop :=
  w_type w = LogNormal -> forall b p k, w_norm w b p = 0%R -> w_avg w b p k = 0%R /\ w_half w b p k = 0%R.
Definition total_yield (w : indata) (b : nat) : R := sumR (map (w_norm w b) (seq 0 (List.length (w_procs w)))).
Definition total_var (w : indata) (b : nat) : R := sumR (map (w_sumw2 w b) (seq 0 (List.length (w_procs w)))).
(** the bins, counted from the first one of channel j, for which P holds *)
Definition exactly (w : indata) (j : nat) (c : string) (P : nat -> Prop) (l : list nat) : Prop :=
  forall b, In b l <-> in_channel w j c (first_bin w j + b) /\ P (first_bin w j + b).
