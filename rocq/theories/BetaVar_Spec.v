(** Variations of a masked channel tied to the statistical fluctuations of another channel. *)
From Coq Require Import Reals List Arith Bool String.
From Verif Require Import RBase PyDict Mat_Model BetaVar_Model.
Import ListNotations.
Open Scope R_scope.

(** channel and bin within it of a bin of a list of channels *)
Fixpoint locate (l : list bchan) (b : nat) : option (bchan * nat) :=
  match l with [] => None | c :: r => if Nat.ltb b (bc_n c) then Some (c, b) else locate r (b - bc_n c) end.
Definition fit_channels (w : bwriter) : list bchan := filter (fun c => negb (bc_masked c)) (bw_chans w).
(** the last variation requested for a destination, a source and a process *)
Definition requested (w : bwriter) (dest src proc : string) : option bvar :=
  find (fun v => (String.eqb (bv_dest v) dest && String.eqb (bv_src v) src && String.eqb (bv_proc v) proc)%bool) (bw_vars w).
(** what the file should hold for bin I of all channels, bin J of the data and process k *)
Definition wanted (w : bwriter) (I J k : nat) : R :=
  match locate (layout w) I, locate (fit_channels w) J, nth_error (bw_procs w) k with
  | Some (d, i), Some (s, j), Some p => match requested w (bc_name d) (bc_name s) p with Some v => bv_val v i j | None => 0 end
  | _, _, _ => 0
  end.
(** a writer in which every request was accepted: sources are channels of the fit, the columns are their bins *)
Definition bwriter_ok (w : bwriter) : Prop := NoDup (map bc_name (bw_chans w)) /\ NoDup (bw_procs w) /\
  NoDup (map (fun v => (bv_dest v, bv_src v, bv_proc v)) (bw_vars w)) /\
  forall v, In v (bw_vars w) -> (exists d, In d (bw_chans w) /\ bc_name d = bv_dest v /\ bc_masked d = true /\ In (bv_proc v) (bc_procs d)) /\
    (exists s, In s (bw_chans w) /\ bc_name s = bv_src v /\ bc_masked s = false /\ bv_cols v = bc_n s).
