(** Regularisation: rabbit/regularization/svd.py. Exact reals; tensors as in Map_Model. Axes have at least one bin
    (tf.pad raises otherwise). *)
From Coq Require Import Reals List Arith ZArith Bool.
From Verif Require Import RBase PyList Shape Map_Model.
Import ListNotations.
Local Open Scope nat_scope.

(** svd.py:11-53: checks of the constructor; nchannels = len(mapping.channel_info) *)
Definition svd_dims (nchannels : nat) (shape : list nat) : result nat :=
  if Nat.ltb 1 nchannels then Raise NotImplementedError else
  match List.length shape with 1 => Ok 1 | 2 => Ok 2 | 3 => Ok 3 | _ => Raise NotImplementedError end.
(** svd.py:29-49: entries of the kernel *)
Definition kernel (o : list nat) : R :=
  match o with
  | [1] => -2
  | [0] | [2] => 1
  | [1; 1] => -4
  | [0; 1] | [1; 0] | [1; 2] | [2; 1] => 1
  | [1; 1; 1] => -6
  | [0; 1; 1] | [2; 1; 1] | [1; 0; 1] | [1; 2; 1] | [1; 1; 0] | [1; 1; 2] => 1
  | _ => 0
  end%R.
(** svd.py:61-68 *)
Definition safe (n0 : tensor) : tensor := map_t (fun v => if Reqb v 0 then 1 else v)%R n0.
Definition dexp (n0 n : tensor) : tensor :=
  mkT (t_shape n0) (fun i => if negb (Reqb (t_at n0 i) 0) then t_at n i / t_at (safe n0) i else 1)%R.
(** svd.py:75: one cell on each side repeats the cell at the edge *)
Definition pad_index (n j : nat) : nat := Nat.min (j - 1) (n - 1).
Definition padded (t : tensor) : tensor :=
  mkT (map (fun n => n + 2) (t_shape t)) (fun j => t_at t (map (fun p => pad_index (fst p) (snd p)) (combine (t_shape t) j))).
(** svd.py:77-88: convolution without padding *)
Definition conv (t : tensor) : tensor :=
  mkT (map (fun n => n - 2) (t_shape t))
      (fun i => sumR (map (fun o => kernel o * t_at t (map (fun p => (fst p + snd p)%nat) (combine i o)))%R (all_idx (map (fun _ => 3) (t_shape t))))).
(** svd.py:90 *)
Definition penalty (n0 n : tensor) : R := total (map_t (fun v => v * v)%R (conv (padded (dexp n0 n)))).
(** svd.py:55-64: expectations through the mapping, reshaped *)
Definition svd_penalty (flat_of : tensor -> result (list R)) (shape : list nat) (initial observables : tensor) : result R :=
  a <- flat_of initial ;; n0 <- reshape_t (of_list a) shape ;;
  b <- flat_of observables ;; n <- reshape_t (of_list b) shape ;;
  Ok (penalty n0 n).
