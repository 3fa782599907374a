(** C94: bundles of arrays and lists of names come back from the file. *)
From Coq Require Import List Arith ZArith Bool String Ascii Lia PrimFloat.
From Verif Require Import PyList PyDict Storage_Model Storage_Spec Bundle_Model Bundle_Spec Bundle_Proof.
Import ListNotations.
Open Scope string_scope.

(** any number of bundles and entries, any types, shapes and chunk sizes, in a file with any other content *)
Theorem C94_roundtrip : forall (V DT : Type) (zero : DT -> V) (iszero : V -> bool) (itemsize : DT -> Z) (float64 : DT) (maxbytes : Z) (f0 : h5 V DT) (calls : list (string * dict (value V DT))),
  (forall p o, ~ In ("auxiliary" :: p, o) f0) -> NoDup (map fst calls) -> calls_ok calls ->
  exists l f d, add_all [] calls = Ok l /\ write_auxiliary zero iszero itemsize float64 maxbytes f0 l = Ok f /\ read_auxiliary zero f = Ok d /\
    same_dict (same_dict (came_back zero iszero)) calls d /\ (forall p o, hd_error p <> Some "auxiliary" -> In (p, o) f <-> In (p, o) f0).
Proof. intros V DT zero iszero itemsize float64 maxbytes f0 calls NA. exact (calls_back zero iszero itemsize float64 maxbytes f0 NA calls). Qed.
(** a name can be used once *)
Theorem C94_duplicate : forall (V DT : Type) (calls : list (string * dict (value V DT))), ~ NoDup (map fst calls) -> add_all [] calls = Raise RuntimeError.
Proof. intros V DT calls. exact (add_all_dup calls []). Qed.
(** a file without bundles *)
Theorem C94_none : forall (V DT : Type) (zero : DT -> V) (f0 : h5 V DT), (forall p o, ~ In ("auxiliary" :: p, o) f0) -> read_auxiliary zero f0 = Ok [].
Proof. intros V DT zero f0 NA. unfold read_auxiliary. rewrite flook_absent; auto. intros o. apply NA. Qed.

(** *** examples, with floating-point numbers of one type *)
Definition fzero (_ : unit) : float := PrimFloat.zero.
Definition fiszero (x : float) : bool := PrimFloat.eqb PrimFloat.zero x.
Definition fwrite (l : list (bundle float unit)) : result (h5 float unit) := write_auxiliary fzero fiszero (fun _ => 8%Z) tt 16 [(["hprocs"], Txt ["s"])] l.
Definition trip (calls : list (string * dict (value float unit))) : result (dict (dict (rvalue float unit))) := l <- add_all [] calls ;; f <- fwrite l ;; read_auxiliary fzero f.
Definition resp : value float unit := VNum tt (mkArr [2; 3] [1; 0; 0; 0; 2; 3]%float).
Example C94_ex : trip [("z", [("m", resp); ("axes", VList ["pt"; "eta"])]); ("a", [("t", VText [1; 2] [EStr "u"; EObj "None"])])]
  = Ok [("a", [("t", RList ["u"; "None"])]); ("z", [("axes", RList ["pt"; "eta"]); ("m", RNum tt (mkArr [2; 3] [1; 0; 0; 0; 2; 3]%float))])].
Proof. reflexivity. Qed.
Example C94_hypotheses : calls_ok [("z", [("m", resp); ("axes", VList ["pt"; "eta"])])].
Proof.
  assert (P : forall s, (String.eqb s "" || String.eqb s "." || existsb (fun a => Ascii.eqb a "/") (list_ascii_of_string s))%bool = false -> plain s).
  { intros s H. apply orb_false_iff in H. destruct H as (H & S). apply orb_false_iff in H. destruct H as (H1 & H2). split; [intros ->; discriminate|]. split; [intros ->; discriminate|]. intros a b ->.
    assert (X : existsb (fun a => Ascii.eqb a "/") (list_ascii_of_string (a ++ "/" ++ b)) = true); [|congruence]. clear. induction a as [|c a IH]; auto. simpl in *. rewrite IH. apply orb_true_r. }
  assert (C : forall s, existsb (fun a => Ascii.eqb a Ascii.zero) (list_ascii_of_string s) = false -> clean s).
  { intros s S a b ->. assert (X : existsb (fun a => Ascii.eqb a Ascii.zero) (list_ascii_of_string (a ++ String Ascii.zero b)) = true); [|congruence]. clear. induction a as [|c a IH]; auto. simpl in *. rewrite IH. apply orb_true_r. }
  intros n d [E|[]]. injection E as <- <-. split; [apply P; reflexivity|]. split; [repeat constructor; cbn; intuition discriminate|].
  intros k v [E|[E|[]]]; injection E as <- <-; (split; [apply P; reflexivity|]); [reflexivity|]. split; [discriminate|]. repeat constructor; apply C; reflexivity.
Qed.

(** names with a slash at the end, a name below an array, and an absolute name of an array *)
Example C94_ex_slash : trip [("z/", [("m", resp)])] = trip [("z", [("m", resp)])] /\ trip [("z", []); ("z/", [])] = Raise ValueError.
Proof. split; vm_compute; reflexivity. Qed.
Example C94_ex_below : trip [("z", [("m", resp); ("m/x", resp)])] = Raise ValueError.
Proof. vm_compute. reflexivity. Qed.
Example C94_ex_stray : trip [("z", [("/auxiliary/q", resp)])] = Raise GenericException.
Proof. vm_compute. reflexivity. Qed.
(** *** refuted *)
(** an empty list of names comes back as an array of numbers *)
Theorem C94_empty_list_refuted : exists (k : string) a, trip [("z", [(k, VList [])])] = Ok [("z", [(k, RNum tt a)])].
Proof. exists "axes", (mkArr [0] []). reflexivity. Qed.
(** bytes, as names read from the input file of a fit are, come back as their printed form *)
Theorem C94_bytes_refuted : exists s, trip [("z", [("procs", VText [1] [EBytes s])])] <> Ok [("z", [("procs", RList [s])])].
Proof. exists "sig". vm_compute. discriminate. Qed.
(** arrays of strings lose their shape: two different arrays give the same file *)
Theorem C94_shape_refuted : exists (l : list elem), List.length l = 4%nat /\ trip [("z", [("t", VText [2; 2] l)])] = trip [("z", [("t", VText [4] l)])].
Proof. exists [EStr "a"; EStr "b"; EStr "c"; EStr "d"]. split; reflexivity. Qed.
(** zero bytes at the end of a string are dropped, others make writing fail *)
Theorem C94_nul_refuted : exists s t, trip [("z", [("t", VList [s])])] = Ok [("z", [("t", RList ["a"])])] /\ s <> "a" /\ trip [("z", [("t", VList [t])])] = Raise ValueError.
Proof. exists (String "a" (String Ascii.zero "")), (String "a" (String Ascii.zero "a")). split; [reflexivity|]. split; [discriminate|reflexivity]. Qed.
(** a name or key with a slash is accepted and written, but the file cannot be opened by the fit any more *)
Theorem C94_slash_refuted : exists n, (exists l f, add_all [] [(n, [("m", resp)])] = Ok l /\ fwrite l = Ok f /\ read_auxiliary fzero f = Raise GenericException) /\
  (exists l f, add_all [] [("z", [(n, resp)])] = Ok l /\ fwrite l = Ok f /\ read_auxiliary fzero f = Raise GenericException).
Proof. exists "a/b". split; do 2 eexists; (split; [reflexivity|]); (split; [reflexivity|reflexivity]). Qed.
(** with a leading slash the bundle is lost *)
Theorem C94_absolute_refuted : trip [("/z", [("m", resp)])] = Ok [].
Proof. reflexivity. Qed.
(** "." is the group itself *)
Theorem C94_dot_refuted : trip [(".", [("m", resp)])] = Raise ValueError.
Proof. reflexivity. Qed.
(** not bit for bit: negative zeros *)
Theorem C94_bits_refuted : exists a b, trip [("z", [("m", VNum tt a)])] = Ok [("z", [("m", RNum tt b)])] /\ nd_data a = [PrimFloat.neg_zero] /\ nd_data b = [PrimFloat.zero].
Proof. exists (mkArr [1] [PrimFloat.neg_zero]), (mkArr [1] [PrimFloat.zero]). repeat split. Qed.

Print Assumptions C94_roundtrip.
Print Assumptions C94_duplicate.
Print Assumptions C94_slash_refuted.
