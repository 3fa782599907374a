(** C01: chunked storage round trip. *)
From Coq Require Import List Arith ZArith Lia Bool PrimFloat.
From Verif Require Import PyList Storage_Model Storage_Spec Storage_Proof.
Import ListNotations.

(** Every array, every element size, every chunk limit: shape unchanged and every value
    returned, up to the representation of zero. *)
Theorem C01_chunk_roundtrip :
  forall (V : Type) (zero : V) (iszero : V -> bool) (a : @ndarray V) (esize maxbytes : Z),
    length (nd_data a) = prodn (nd_shape a) ->
    let b := maketensor zero (writeFlatInChunks zero iszero a esize maxbytes) in
    nd_shape b = nd_shape a /\ same_values zero iszero (nd_data a) (nd_data b).
Proof. exact @roundtrip. Qed.
Print Assumptions C01_chunk_roundtrip.

(** With a single representation of zero the array comes back identical. *)
Theorem C01_chunk_roundtrip_exact :
  forall (V : Type) (zero : V) (iszero : V -> bool) (a : @ndarray V) (esize maxbytes : Z),
    (forall v, iszero v = true -> v = zero) ->
    length (nd_data a) = prodn (nd_shape a) ->
    maketensor zero (writeFlatInChunks zero iszero a esize maxbytes) = a.
Proof.
  intros V zero iszero a e m Hz Hs.
  destruct (roundtrip zero iszero a e m Hs) as [H1 H2].
  apply same_values_eq in H2; auto.
  destruct (maketensor _ _), a; simpl in *; congruence.
Qed.
Print Assumptions C01_chunk_roundtrip_exact.

(** Sparse tensors: index array, values and shape all come back. *)
Theorem C01_sparse_roundtrip :
  forall (V : Type) (zero : V) (iszero : V -> bool) (idx : @ndarray Z) (vals : @ndarray V)
         (shape : list nat) (ie ve maxbytes : Z),
    length (nd_data idx) = prodn (nd_shape idx) ->
    length (nd_data vals) = prodn (nd_shape vals) ->
    (forall v, iszero v = true -> v = zero) ->
    makesparsetensor zero (writeSparse zero iszero idx vals shape ie ve maxbytes)
    = (idx, vals, shape).
Proof.
  intros. unfold makesparsetensor, writeSparse; simpl.
  rewrite C01_chunk_roundtrip_exact; auto.
  - rewrite C01_chunk_roundtrip_exact; auto.
  - intros v Hv. apply Z.eqb_eq in Hv. auto.
Qed.
Print Assumptions C01_sparse_roundtrip.

(** Concrete instance: 2x4 array, chunk of 3 elements, second chunk all zero. *)
Example C01_example :
  let a := mkArr [2; 4] [1; 0; 2; 0; 0; 0; 7; 0]%Z in
  length (nd_data a) = prodn (nd_shape a) /\
  chunksize 8 8 30 = 3 /\
  maketensor 0%Z (writeFlatInChunks 0%Z (Z.eqb 0) a 8 30) = a.
Proof. repeat split. Qed.

(** Bit-level identity fails: an all-(-0.0) chunk is skipped and reads back as +0.0.
    (rabbit/tensorwriter.py:add_auxiliary documents a bit-for-bit round trip.) *)
Definition is_neg_zero (x : float) : bool :=
  match classify x with FloatClass.NZero => true | _ => false end.
Theorem C01_bit_identity_refuted :
  exists a : @ndarray float,
    length (nd_data a) = prodn (nd_shape a) /\
    map is_neg_zero (nd_data a) <>
    map is_neg_zero (nd_data
      (maketensor PrimFloat.zero
         (writeFlatInChunks PrimFloat.zero (PrimFloat.eqb PrimFloat.zero) a 8 1048576))).
Proof.
  exists (mkArr [2] [PrimFloat.neg_zero; PrimFloat.neg_zero]).
  split; [reflexivity|]. vm_compute. discriminate.
Qed.
Print Assumptions C01_bit_identity_refuted.
