(** Model of the yield prediction: rabbit/fitter.py:1631-1795 (_init_logk_scaled,
    _compute_yields_noBBB), over the reals. A tensor is an index function together with its
    shape where the code relies on it; tensorflow shape errors are [Raise ValueError]. *)
From Coq Require Import List Arith Bool String Reals.
From Verif Require Import PyList RBase Num Writer_Model.
Import ListNotations.
Local Open Scope R_scope.

(** what the fitter reads of the workspace (inputdata.py) *)
Record indata := mkIn { in_tens : tensors R; in_sym : bool; in_type : systype;
  in_nproc : nat; in_nsyst : nat; in_nbins : nat; in_nbinsfull : nat }.
Definition indata_of (w : workspace R) : indata :=
  mkIn (w_tensors w) (w_symmetric w) (w_type w) (List.length (w_procs w)) (List.length (w_systs w))
    (w_nbins w) (w_nbinsfull w).

(** output of param_model.compute: [nproc] or [1, nproc] (broadcast over bins), or [nb, nproc] *)
Inductive rnorm := RBroadcast (f : nat -> R) | RBins (nb : nat) (f : nat -> nat -> R).
Definition rn_at (r : rnorm) (b p : nat) : R :=
  match r with RBroadcast f => f p | RBins _ f => f b p end.
(** can be broadcast against [n, nproc] *)
Definition rn_fits (r : rnorm) (n : nat) : bool :=
  match r with RBroadcast _ => true | RBins nb _ => Nat.eqb nb n || Nat.eqb nb 1 end.
Definition rn_bcast (r : rnorm) (b p : nat) : R :=
  match r with RBroadcast f => f p | RBins nb f => if Nat.eqb nb 1 then f 0%nat p else f b p end.

Definition clip1 (x : R) : R := if Rltb x (-1) then -1 else if Rltb 1 x then 1 else x.
(** fitter.py:1701-1705 *)
Definition alpha (theta : R) : R :=
  let twox := 2 * theta in
  let twox2 := twox * twox in
  clip1 (0.125 * twox * (twox2 * (3 * twox2 - 10) + 15)).
(** fitter.py:1697-1712: [theta] or [theta; theta*alpha] *)
Definition mthetaalpha (sym : bool) (theta : list R) : list R :=
  if sym then theta else theta ++ map (fun t => t * alpha t) theta.

(** fitter.py:1631-1680 _init_logk_scaled *)
Definition scale_logk (d : indata) (nparams : nat) (rinit : rnorm) : result (tensors R) :=
  match in_type d with
  | LogNormal => Ok (in_tens d)
  | Normal =>
    if Nat.eqb nparams 0 then Ok (in_tens d)
    else if negb (rn_fits rinit (in_nbinsfull d)) then Raise ValueError
    else Ok match in_tens d with
    | TDense n k => TDense n (fun b p s => k b p s * rn_bcast rinit b p)
    | TSparse sp => TSparse (mkSp (sp_norm sp)
        (map (fun e => let '(j, col, v) := e in
           let '(b, p, _) := nth j (sp_norm sp) (0%nat, 0%nat, 0) in
           (j, col, v * rn_bcast rinit b p)) (sp_logk sp)) (sp_ncol sp))
    end
  end.

Definition sum_n (n : nat) (f : nat -> R) : R := sumR (map f (seq 0 n)).

(** fitter.py:1682-1795; [t] are the tensors with the scaled logk. Returns the yields per bin
    and the yields per bin and process (normcentral) *)
Definition dense_logsnorm (k : nat -> nat -> nat -> R) (m : list R) (b p : nat) : R :=
  sum_n (List.length m) (fun col => k b p col * nth col m 0).
(** CSR matmul: row [j] of logk times the column vector *)
Definition sparse_logsnorm (sp : sparse_tensors R) (m : list R) (j : nat) : R :=
  sumR (map (fun e => snd e * nth (snd (fst e)) m 0)
            (filter (fun e => Nat.eqb (fst (fst e)) j) (sp_logk sp))).
(** values of the sparse [nbinsfull, nproc] tensor after variation and scaling *)
Definition sparse_entries (ty : systype) (sp : sparse_tensors R) (r : rnorm) (m : list R) : list (nat * nat * R) :=
  map (fun je => let '(j, (b, p, x)) := je in
    (b, p, match ty with
           | LogNormal => exp (sparse_logsnorm sp m j) * x * rn_bcast r b p
           | Normal => x * rn_bcast r b p + sparse_logsnorm sp m j
           end)) (combine (seq 0 (List.length (sp_norm sp))) (sp_norm sp)).

Definition yields (d : indata) (t : tensors R) (r : rnorm) (theta : list R) (full : bool)
  : result (list R * (nat -> nat -> R)) :=
  let m := mthetaalpha (in_sym d) theta in
  let slice := negb full && negb (Nat.eqb (in_nbinsfull d - in_nbins d) 0) in
  let nb := if slice then in_nbins d else in_nbinsfull d in
  match t with
  | TDense norm k =>
    if negb (rn_fits r nb) then Raise ValueError
    else
      let normcentral b p :=
        match in_type d with
        | LogNormal => rn_bcast r b p * (exp (dense_logsnorm k m b p) * norm b p)
        | Normal => norm b p * rn_bcast r b p + dense_logsnorm k m b p
        end in
      Ok (map (fun b => sum_n (in_nproc d) (normcentral b)) (seq 0 nb), normcentral)
  | TSparse sp =>
    (* the full sparse tensor is multiplied by rnorm before slicing *)
    if negb (rn_fits r (in_nbinsfull d)) then Raise ValueError
    else
      let es := sparse_entries (in_type d) sp r m in
      let es := if slice then filter (fun e => Nat.ltb (fst (fst e)) (in_nbins d)) es else es in
      Ok (map (fun b => sumR (map snd (filter (fun e => Nat.eqb (fst (fst e)) b) es))) (seq 0 nb),
          fun b p => sumR (map snd (filter (fun e => Nat.eqb (fst (fst e)) b && Nat.eqb (snd (fst e)) p) es)))
  end.
