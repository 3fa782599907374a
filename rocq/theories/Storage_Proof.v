From Coq Require Import List Arith ZArith Lia Bool.
From Verif Require Import PyList ListUtil Storage_Model Storage_Spec.
Import ListNotations.

Section P.
  Context {V : Type} (zero : V) (iszero : V -> bool).

  Lemma splice_length (a : nat) (ys xs : list V) :
    a + length ys <= length xs -> length (splice a ys xs) = length xs.
  Proof. intros H. unfold splice. rewrite !app_length, firstn_length, skipn_length. lia. Qed.

  Lemma pyslice_length (a b : nat) (xs : list V) :
    length (pyslice a b xs) = min (b - a) (length xs - a).
  Proof. unfold pyslice. rewrite firstn_length, skipn_length. lia. Qed.

  Lemma nth_error_pyslice a b (xs : list V) i :
    i < b - a -> nth_error (pyslice a b xs) i = nth_error xs (a + i).
  Proof.
    intros H. unfold pyslice.
    assert (E: nth_error (firstn (b-a) (skipn a xs)) i = nth_error (skipn a xs) i).
    { revert H. generalize (b - a) (skipn a xs). clear. intros n l; revert n l.
      induction i; intros [|n] [|x l] H; simpl; try lia; auto. apply IHi. lia. }
    rewrite E. clear. revert xs. induction a; intros [|x xs]; simpl; auto.
    destruct i; auto.
  Qed.

  Lemma nth_error_splice a (ys xs : list V) i :
    a + length ys <= length xs ->
    nth_error (splice a ys xs) i =
    if (a <=? i) && (i <? a + length ys) then nth_error ys (i - a) else nth_error xs i.
  Proof.
    intros H. unfold splice.
    assert (Hf: length (firstn a xs) = a) by (rewrite firstn_length; lia).
    destruct (Nat.leb_spec a i); simpl.
    - rewrite nth_error_app2 by lia. rewrite Hf.
      destruct (Nat.ltb_spec i (a + length ys)).
      + rewrite nth_error_app1 by lia. reflexivity.
      + rewrite nth_error_app2 by lia.
        replace (nth_error xs i) with (nth_error xs ((a + length ys) + (i - a - length ys)))
          by (f_equal; lia).
        generalize (i - a - length ys) (a + length ys). clear. intros k n. revert xs.
        induction n; intros [|x xs]; simpl; auto. destruct k; auto.
    - rewrite nth_error_app1 by lia.
      revert H0. clear. revert xs i. induction a; intros [|x xs] [|i] H; simpl; try lia; auto.
      apply IHa. lia.
  Qed.

  (* state of the destination after the first k chunks *)
  Definition inv (src dst : list V) (m : nat) :=
    length dst = length src /\
    forall i, (i < length src ->
      exists v w, nth_error src i = Some v /\ nth_error dst i = Some w /\
        (if i <? m then same_value zero iszero v w else w = zero)).

  Lemma any_nonzero_false xs v : any_nonzero iszero xs = false -> In v xs -> iszero v = true.
  Proof.
    unfold any_nonzero. intros H Hin.
    destruct (iszero v) eqn:E; auto. exfalso.
    assert (existsb (fun v => negb (iszero v)) xs = true).
    { apply existsb_exists. exists v. rewrite E. auto. }
    congruence.
  Qed.

  Lemma step src dst c k :
    0 < c -> inv src dst (k * c) -> k * c < length src ->
    inv src (write_chunk iszero src c dst (k * c)) (k * c + c).
  Proof.
    intros Hc [Hl Hi] Hk. unfold write_chunk.
    set (aout := pyslice (k*c) (k*c+c) src).
    assert (Hla: length aout = min c (length src - k*c)).
    { unfold aout. rewrite pyslice_length. lia. }
    destruct (any_nonzero iszero aout) eqn:E.
    - split. { rewrite splice_length; lia. }
      intros i Hlt. destruct (Hi i Hlt) as (v & w & Hv & Hw & Hs).
      rewrite nth_error_splice by lia.
      destruct (Nat.leb_spec (k*c) i); simpl.
      + destruct (Nat.ltb_spec i (k*c + length aout)).
        * exists v, v. split; auto. split.
          { unfold aout. rewrite nth_error_pyslice by lia. rewrite <- Hv. f_equal. lia. }
          destruct (Nat.ltb_spec i (k*c+c)); [left; auto|lia].
        * exists v, w. split; auto. split; auto.
          destruct (Nat.ltb_spec i (k*c)); [lia|].
          destruct (Nat.ltb_spec i (k*c+c)); [lia|auto].
      + exists v, w. split; auto. split; auto.
        destruct (Nat.ltb_spec i (k*c)); [|lia].
        destruct (Nat.ltb_spec i (k*c+c)); [auto|lia].
    - split; auto. intros i Hlt. destruct (Hi i Hlt) as (v & w & Hv & Hw & Hs).
      exists v, w. split; auto. split; auto.
      destruct (Nat.ltb_spec i (k*c)).
      + destruct (Nat.ltb_spec i (k*c+c)); [auto|lia].
      + destruct (Nat.ltb_spec i (k*c+c)); auto. right. split; auto.
        apply (any_nonzero_false aout); auto.
        apply nth_error_In with (i - k*c). unfold aout.
        rewrite nth_error_pyslice by lia. rewrite <- Hv. f_equal. lia.
  Qed.

  Lemma fold_inv src c m : 0 < c -> forall dst k,
    inv src dst (k*c) -> (forall j, j < m -> (k + j) * c < length src) ->
    inv src (fold_left (write_chunk iszero src c) (map (fun k => k*c) (seq k m)) dst) ((k+m)*c).
  Proof.
    intros Hc. induction m; intros dst k Hinv Hb; simpl.
    - replace (k+0) with k by lia. auto.
    - assert (H0 := Hb 0 ltac:(lia)). replace (k+0) with k in H0 by lia.
      apply step in Hinv; auto.
      replace (k + S m) with (S k + m) by lia. apply IHm.
      + replace (S k * c) with (k*c+c) by lia. auto.
      + intros j Hj. specialize (Hb (S j) ltac:(lia)). replace (S k + j) with (k + S j) by lia. auto.
  Qed.

  Lemma nth_error_repeat (n i : nat) : i < n -> nth_error (repeat zero n) i = Some zero.
  Proof. revert i. induction n; intros [|i] H; simpl; try lia; auto. apply IHn. lia. Qed.

  Lemma write_all src c : 0 < c ->
    same_values zero iszero src
      (fold_left (write_chunk iszero src c) (pyrange (length src) c) (repeat zero (length src))).
  Proof.
    intros Hc. unfold pyrange. set (m := (length src + c - 1) / c).
    assert (Hm1 : length src <= m * c).
    { unfold m. pose proof (Nat.div_mod (length src + c - 1) c ltac:(lia)).
      pose proof (Nat.mod_upper_bound (length src + c - 1) c ltac:(lia)). nia. }
    assert (Hm2 : forall j, j < m -> j * c < length src).
    { intros j Hj. unfold m in Hj.
      pose proof (Nat.div_mod (length src + c - 1) c ltac:(lia)).
      pose proof (Nat.mod_upper_bound (length src + c - 1) c ltac:(lia)). nia. }
    pose proof (fold_inv src c m Hc (repeat zero (length src)) 0) as F.
    destruct F as [Hl Hi].
    - split. { apply repeat_length. }
      intros i Hlt. destruct (nth_error src i) as [v|] eqn:E.
      + exists v, zero. split; auto. split. { apply nth_error_repeat; auto. } reflexivity.
      + apply nth_error_None in E. lia.
    - intros j Hj. simpl. apply Hm2; auto.
    - set (dst := fold_left _ _ _) in *. clearbody dst.
      assert (H: forall i, i < length src ->
        exists v w, nth_error src i = Some v /\ nth_error dst i = Some w /\ same_value zero iszero v w).
      { intros i Hlt. destruct (Hi i Hlt) as (v & w & Hv & Hw & Hs). exists v, w.
        repeat split; auto. destruct (Nat.ltb_spec i ((0+m)*c)); auto. simpl in *. lia. }
      revert H Hl. clear. revert dst. unfold same_values.
      induction src; intros [|w dst] H Hl; simpl in *; try lia; constructor.
      + destruct (H 0 ltac:(lia)) as (v & w' & Hv & Hw & Hs). simpl in *. congruence.
      + apply IHsrc; [|lia]. intros i Hlt. apply (H (S i)). lia.
  Qed.

  Lemma chunksize_pos n e m : 0 < chunksize n e m.
  Proof. unfold chunksize. destruct (Nat.eqb_spec n 0); lia. Qed.

  Lemma roundtrip (a : @ndarray V) esize maxbytes :
    length (nd_data a) = prodn (nd_shape a) ->
    let b := maketensor zero (writeFlatInChunks zero iszero a esize maxbytes) in
    nd_shape b = nd_shape a /\ same_values zero iszero (nd_data a) (nd_data b).
  Proof.
    intros Hs. destruct a as [sh src]; simpl in *.
    unfold maketensor, writeFlatInChunks; simpl.
    pose proof (write_all src (chunksize (length src) esize maxbytes) (chunksize_pos _ _ _)) as H.
    set (dst := fold_left _ _ _) in *. clearbody dst.
    pose proof (Forall2_len _ _ _ H) as Hl.
    destruct (Nat.eqb_spec (length dst) 0); simpl; split; auto.
    rewrite e in Hl. destruct src; simpl in *; try lia.
    rewrite <- Hs. constructor.
  Qed.

  Lemma same_values_eq xs ys :
    (forall v, iszero v = true -> v = zero) -> same_values zero iszero xs ys -> ys = xs.
  Proof.
    intros Hz. induction 1; auto. f_equal; auto.
    destruct H as [H|[H1 H2]]; auto. rewrite H2. symmetry. auto.
  Qed.
End P.
