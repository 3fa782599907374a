(** Templates given as scipy sparse arrays: rabbit/tensorwriter.py:93-141 (flattening), 285-313 (size check). The booking and the
    writing of what results are Writer_Model.v.

    A scipy sparse array is its shape and its stored entries in any order; the format allows several entries with the same
    coordinates, which toarray() adds up. [coo_array(h)] keeps the entries as they are. np.argsort of the flat indices is modelled
    stable (numpy leaves the order of equal keys open). Indices are unbounded (the code stores them as int32). *)
From Coq Require Import List Arith Bool String.
From Verif Require Import PyList PyDict Order Num Shape Names_Model Writer_Model.
Import ListNotations.

Section Coo.
  Context {V : Type} {NV : Num V}.
  Record raw := mkRaw { r_shape : list nat; r_ents : list (list nat * V) }.
  (** tensorwriter.py:114 np.prod(h.shape) *)
  Definition raw_size (h : raw) : nat := prodn (r_shape h).
  (** tensorwriter.py:115-123: coo_array, ravel_multi_index or the only coordinate *)
  Definition flat_indices (h : raw) : result (list (nat * V)) :=
    match r_shape h with
    | [_] | [_; _] => Ok (map (fun e => (ravel (r_shape h) (fst e), snd e)) (r_ents h))
    | _ => Raise ValueError
    end.
  (** tensorwriter.py:99-130 _sparse_to_flat_csr without to_flat_csr: indices and data of the row *)
  Definition flat_csr (h : raw) : result (list (nat * V)) :=
    l <- flat_indices h ;; Ok (sort_k fst Nat.compare l).
  (** tensorwriter.py:139-140, 148-149, 159-160: h.toarray().flatten() *)
  Definition raw_dense (h : raw) : list V :=
    map (fun k => fold_right nadd n0 (map snd (filter (fun e => Nat.eqb (ravel (r_shape h) (fst e)) k) (r_ents h)))) (seq 0 (raw_size h)).
  (** tensorwriter.py:298-304: the size of a sparse input is compared with the sizes of the axes without flow bins *)
  Definition raw_check (info : chinfo) (h : raw) : option pyexc :=
    if Nat.eqb (raw_size h) (prodn (map fst (ch_axes info))) then None else Some RuntimeError.
  (** what is booked: in sparse mode the flat row (add_process 216-218, add_systematic 1498-1500), in dense mode the dense content *)
  Definition raw_histo (sparse : bool) (h : raw) : result (histo V) :=
    if sparse then e <- flat_csr h ;; Ok (HSparse e (raw_size h))
    else Ok (HSparse (combine (seq 0 (raw_size h)) (raw_dense h)) (raw_size h)).
End Coo.
Arguments raw : clear implicits.
