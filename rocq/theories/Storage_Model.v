(** Model of rabbit/h5pyutils_write.py and rabbit/h5pyutils_read.py.
    Simplifications: a dataset is a flat list plus the "original_shape" attribute;
    compression filters and HDF5 chunk caching are not modelled (HDF5 returns what was
    written, unwritten elements read as the fill value 0). *)
From Coq Require Import List Arith ZArith Lia Bool.
From Verif Require Import PyList.
Import ListNotations.

Section Storage.
  Context {V : Type}.
  Variable zero : V.            (* HDF5 fill value, tf.zeros *)
  Variable iszero : V -> bool.  (* numpy's "== 0" as used by np.count_nonzero *)

  (** numpy array: C-order shape and flat content *)
  Record ndarray := mkArr { nd_shape : list nat; nd_data : list V }.

  (** h5py dataset: flat data and attrs["original_shape"] *)
  Record h5dset := mkDset { ds_data : list V; ds_orig : option (list nat) }.

  (** h5pyutils_write.py:36-42: chunk size; [esize] > 0 is the dtype's itemsize *)
  Definition chunksize (size : nat) (esize maxbytes : Z) : nat :=
    if size =? 0 then 1
    else Z.to_nat (Z.min (Z.of_nat size) (Z.max 1 (maxbytes / esize))).

  (** np.count_nonzero(aout) truth value, h5pyutils_write.py:56 *)
  Definition any_nonzero (xs : list V) : bool := existsb (fun v => negb (iszero v)) xs.

  (** one iteration of the loop h5pyutils_write.py:54-57 *)
  Definition write_chunk (src : list V) (c : nat) (dst : list V) (i : nat) : list V :=
    let aout := pyslice i (i + c) src in
    if any_nonzero aout then splice i aout dst else dst.

  (** writeFlatInChunks, h5pyutils_write.py:30-61 *)
  Definition writeFlatInChunks (a : ndarray) (esize maxbytes : Z) : h5dset :=
    let src := nd_data a in
    let n := length src in
    let c := chunksize n esize maxbytes in
    let dst0 := repeat zero n in
    mkDset (fold_left (write_chunk src c) (pyrange n c) dst0) (Some (nd_shape a)).

  (** maketensor, h5pyutils_read.py:5-28 *)
  Definition maketensor (d : h5dset) : ndarray :=
    let shape := match ds_orig d with Some s => s | None => [length (ds_data d)] end in
    if length (ds_data d) =? 0 then mkArr shape (repeat zero (prodn shape))
    else mkArr shape (ds_data d).
End Storage.
Arguments mkArr {V}. Arguments nd_shape {V}. Arguments nd_data {V}.
Arguments mkDset {V}. Arguments ds_data {V}. Arguments ds_orig {V}.

(** writeSparse / makesparsetensor, h5pyutils_write.py:64-80 and h5pyutils_read.py:31-36.
    indices (2-D integer array) and values are separate datasets. *)
Record sparse_file (V : Type) := mkSF {
  sf_indices : @h5dset Z; sf_values : @h5dset V; sf_shape : list nat }.
Arguments mkSF {V}. Arguments sf_indices {V}. Arguments sf_values {V}. Arguments sf_shape {V}.

Definition writeSparse {V} (zero : V) (iszero : V -> bool)
  (indices : @ndarray Z) (values : @ndarray V) (dense_shape : list nat)
  (iesize vesize maxbytes : Z) : sparse_file V :=
  mkSF (writeFlatInChunks 0%Z (Z.eqb 0) indices iesize maxbytes)
       (writeFlatInChunks zero iszero values vesize maxbytes) dense_shape.

Definition makesparsetensor {V} (zero : V) (f : sparse_file V)
  : @ndarray Z * @ndarray V * list nat :=
  (maketensor 0%Z (sf_indices f), maketensor zero (sf_values f), sf_shape f).
