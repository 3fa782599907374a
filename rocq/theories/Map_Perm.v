(** Transposition, selection and merging of bins as collections of cells. *)
From Coq Require Import Reals List Arith ZArith Bool String Lia Lra Permutation.
From Verif Require Import RBase PyList PyDict ListUtil Shape Map_Model Map_Spec Map_Collect.
Import ListNotations.
Local Open Scope nat_scope.

(** ** permutations *)
Lemma find_combine_seq (p : nat -> bool) : forall l a, match find (fun x => p (snd x)) (combine (seq a (List.length l)) l) with
  | Some x => a <= fst x < a + List.length l /\ nth_error l (fst x - a) = Some (snd x) /\ p (snd x) = true | None => forall x, In x l -> p x = false end.
Proof.
  induction l as [|v l IH]; intros a; cbn; [tauto|]. destruct (p v) eqn:E; cbn; [rewrite Nat.sub_diag; split; [lia|auto]|].
  specialize (IH (S a)). destruct (find _ _) as [x|].
  - destruct IH as (A & B & C). split; [lia|]. replace (fst x - a) with (S (fst x - S a)) by lia. auto.
  - intros x [<-|I]; auto.
Qed.
Lemma pos_of_spec j perm : In j perm -> pos_of j perm < List.length perm /\ nth_error perm (pos_of j perm) = Some j.
Proof.
  intros I. unfold pos_of. pose proof (find_combine_seq (fun x => Nat.eqb x j) perm 0) as H. destruct (find _ _) as [x|].
  - destruct H as (A & B & C). rewrite Nat.sub_0_r in B. apply Nat.eqb_eq in C. rewrite C in B. split; [lia|auto].
  - specialize (H j I). rewrite Nat.eqb_refl in H. discriminate.
Qed.
Lemma is_perm_spec n perm : is_perm n perm = true -> Permutation (seq 0 n) perm.
Proof.
  unfold is_perm. intros H. apply andb_true_iff in H as (L & C). apply Nat.eqb_eq in L. rewrite forallb_forall in C.
  apply NoDup_Permutation_bis; [apply seq_NoDup|rewrite seq_length; lia|]. intros j I. specialize (C j I). apply existsb_exists in C as (x & Ix & E). apply Nat.eqb_eq in E. subst; auto.
Qed.
Lemma is_perm_intro n perm : Permutation (seq 0 n) perm -> is_perm n perm = true.
Proof.
  intros H. unfold is_perm. rewrite <- (Permutation_length H), seq_length, Nat.eqb_refl. cbn. apply forallb_forall. intros j I. apply existsb_exists. exists j. split; [eapply Permutation_in; eauto|apply Nat.eqb_refl].
Qed.
Lemma pos_of_nth perm k : NoDup perm -> k < List.length perm -> pos_of (nth k perm 0) perm = k.
Proof.
  intros ND K. destruct (pos_of_spec (nth k perm 0) perm) as (A & B); [apply nth_In; auto|]. rewrite NoDup_nth_error in ND. apply ND; auto. rewrite B. symmetry. apply nth_error_nth'. auto.
Qed.
Lemma nth_pos_of j perm : In j perm -> nth (pos_of j perm) perm 0 = j.
Proof. intros I. apply pos_of_spec in I as (A & B). apply nth_error_nth. auto. Qed.
Lemma nth_map_seq {A} (f : nat -> A) d n k : k < n -> nth k (map f (seq 0 n)) d = f k.
Proof. intros H. rewrite (nth_indep _ d (f 0)) by (rewrite map_length, seq_length; auto). rewrite map_nth, seq_nth; auto. Qed.
Lemma nth_map' {A B} (f : A -> B) l k d d' : k < List.length l -> nth k (map f l) d = f (nth k l d').
Proof. intros H. rewrite (nth_indep _ d (f d')) by (rewrite map_length; auto). apply map_nth. Qed.
Lemma map_nth_seq {A} (d : A) l : map (fun k => nth k l d) (seq 0 (List.length l)) = l.
Proof. apply (nth_ext _ _ d d); [rewrite map_length, seq_length; auto|]. intros k K. rewrite map_length, seq_length in K. rewrite (nth_map_seq (fun k => nth k l d)); auto. Qed.
Lemma in_shape_intro shape i : List.length i = List.length shape -> (forall k, k < List.length shape -> nth k i 0 < nth k shape 0) -> in_shape shape i.
Proof.
  revert i. induction shape as [|n s IH]; intros [|v i] L H; cbn in L; try discriminate; constructor; [apply (H 0); cbn; lia|]. apply IH; [lia|]. intros k K. apply (H (S k)). cbn. lia.
Qed.
Definition permuted (perm idx : list nat) : list nat := map (fun p => nth p idx 0) perm.
Theorem transpose_collects perm t : is_perm (rank t) perm = true -> exists t', transpose perm t = Ok t' /\ t_shape t' = permuted perm (t_shape t) /\ collects t t' (fun i => Some (permuted perm i)).
Proof.
  intros P. unfold transpose. rewrite P. eexists. split; [reflexivity|]. split; [reflexivity|]. apply is_perm_spec in P.
  assert (ND : NoDup perm) by (eapply Permutation_NoDup; [exact P|apply seq_NoDup]).
  assert (Ln : List.length perm = rank t) by (rewrite <- (Permutation_length P), seq_length; auto).
  assert (Lt : forall p, In p perm -> p < rank t) by (intros p I; eapply Permutation_in in I; [|symmetry; exact P]; apply in_seq in I; lia).
  apply (collects_inj _ _ _ (fun j => map (fun q => nth (pos_of q perm) j 0) (seq 0 (rank t)))); cbn [t_shape t_at].
  - intros i j Hi [= <-]. pose proof (in_shape_len _ _ Hi) as L. split.
    + unfold permuted. apply in_shape_intro; rewrite !map_length; auto. intros k K. rewrite !(nth_map' _ _ _ _ 0) by auto. apply in_shape_nth; auto. apply Lt, nth_In. auto.
    + rewrite <- (map_nth_seq 0 i) at 1. unfold rank in *. rewrite L. apply map_ext_in. intros q Iq. unfold permuted.
      assert (In q perm) by (eapply Permutation_in; eauto). rewrite (nth_map' _ _ _ _ 0) by (apply pos_of_spec; auto). rewrite nth_pos_of; auto.
  - intros j Hj. split; auto. pose proof (in_shape_len _ _ Hj) as L. rewrite map_length in L. split.
    + apply in_shape_intro; [rewrite map_length, seq_length; auto|]. intros q Q. change (List.length (t_shape t)) with (rank t) in Q. rewrite (nth_map_seq (fun q => nth (pos_of q perm) j 0)) by auto.
      assert (I : In q perm) by (eapply Permutation_in; [exact P|apply in_seq; lia]). pose proof (pos_of_spec q perm I) as (A & _). pose proof (in_shape_nth _ _ (pos_of q perm) Hj) as B. rewrite map_length in B. specialize (B A).
      rewrite (nth_map' (fun p => nth p (t_shape t) 0) perm _ 0 0) in B by auto. rewrite nth_pos_of in B; auto.
    + f_equal. unfold permuted. transitivity (map (fun k => nth k j 0) (seq 0 (List.length j))); [|apply map_nth_seq]. rewrite <- (map_nth_seq 0 perm) at 1. rewrite map_map, L. apply map_ext_in. intros k Ik. apply in_seq in Ik.
      rewrite (nth_map_seq (fun q => nth (pos_of q perm) j 0)); [|apply Lt, nth_In; lia]. rewrite pos_of_nth; auto. lia.
Qed.
(** moving one axis to the front and back *)
Definition others (n k : nat) : list nat := filter (fun i => negb (Nat.eqb i k)) (seq 0 n).
Lemma others_eq n k : k < n -> others n k = seq 0 k ++ seq (S k) (n - S k).
Proof.
  intros H. unfold others. replace n with (k + S (n - S k)) at 1 by lia. rewrite seq_app, filter_app. cbn [seq filter plus]. rewrite Nat.eqb_refl. cbn [negb]. f_equal.
  - assert (E : forall l, (forall x, In x l -> x <> k) -> filter (fun i => negb (i =? k)) l = l).
    { induction l as [|a l IH]; cbn; auto. intros E. destruct (Nat.eqb_spec a k) as [->|N]; [exfalso; apply (E k); auto|]. cbn. rewrite IH; auto. }
    apply E. intros x I. apply in_seq in I. lia.
  - assert (E : forall l, (forall x, In x l -> x <> k) -> filter (fun i => negb (i =? k)) l = l).
    { induction l as [|a l IH]; cbn; auto. intros E. destruct (Nat.eqb_spec a k) as [->|N]; [exfalso; apply (E k); auto|]. cbn. rewrite IH; auto. }
    apply E. intros x I. apply in_seq in I. lia.
Qed.
Lemma front_perm n k : k < n -> is_perm n (k :: others n k) = true.
Proof. intros H. apply is_perm_intro. rewrite others_eq by auto. replace n with (k + S (n - S k)) at 1 by lia. rewrite seq_app. cbn [seq plus]. symmetry. apply Permutation_middle. Qed.
Lemma map_nth_firstn {A} (d : A) l k : k <= List.length l -> map (fun p => nth p l d) (seq 0 k) = firstn k l.
Proof.
  revert l. induction k as [|k IH]; intros l H; auto. destruct l as [|a l]; cbn in H; [lia|]. cbn [seq map firstn]. f_equal. rewrite <- seq_shift, map_map. cbn [nth]. apply IH. lia.
Qed.
Lemma map_nth_skipn {A} (d : A) l k n : n = List.length l - k -> map (fun p => nth p l d) (seq k n) = skipn k l.
Proof.
  revert l n. induction k as [|k IH]; intros l n ->; [rewrite Nat.sub_0_r; apply map_nth_seq|]. destruct l as [|a l]; [reflexivity|]. cbn [List.length Nat.sub skipn]. rewrite <- seq_shift, map_map. cbn [nth]. apply IH. auto.
Qed.
Lemma permuted_front n k i : k < n -> List.length i = n -> permuted (k :: others n k) i = nth k i 0 :: remove_at k i.
Proof.
  intros H L. unfold permuted. cbn [map]. f_equal. rewrite others_eq by auto. rewrite map_app. unfold remove_at. f_equal; [apply map_nth_firstn; lia|apply map_nth_skipn; lia].
Qed.
Definition back (n k : nat) : list nat := map (fun i => pos_of i (k :: others n k)) (seq 0 n).
Lemma others_len n k : k < n -> List.length (others n k) = n - 1.
Proof. intros H. rewrite others_eq, app_length, !seq_length by auto. lia. Qed.
Lemma front_nth n k j : k < n -> j < n -> nth j (k :: others n k) 0 = if j =? 0 then k else if j <=? k then j - 1 else j.
Proof.
  intros H J. destruct j as [|j]; [reflexivity|]. cbn [nth]. cbn [Nat.eqb]. rewrite others_eq by auto. destruct (Nat.leb_spec (S j) k).
  - rewrite app_nth1 by (rewrite seq_length; lia). rewrite seq_nth; lia.
  - rewrite app_nth2 by (rewrite seq_length; lia). rewrite seq_length, seq_nth; lia.
Qed.
Lemma front_pos n k j : k < n -> j < n -> pos_of j (k :: others n k) = if j =? k then 0 else if j <? k then S j else j.
Proof.
  intros H J. pose proof (is_perm_spec _ _ (front_perm n k H)) as P. assert (ND : NoDup (k :: others n k)) by (eapply Permutation_NoDup; [exact P|apply seq_NoDup]).
  assert (L : List.length (k :: others n k) = n) by (rewrite <- (Permutation_length P), seq_length; auto).
  set (q := if j =? k then 0 else if j <? k then S j else j). assert (Q : q < n) by (subst q; destruct (Nat.eqb_spec j k); destruct (Nat.ltb_spec j k); lia).
  rewrite <- (pos_of_nth (k :: others n k) q ND) by lia. f_equal. rewrite front_nth by auto. subst q. destruct (Nat.eqb_spec j k); [subst; auto|]. destruct (Nat.ltb_spec j k); cbn [Nat.eqb].
  - destruct (Nat.leb_spec (S j) k); lia.
  - destruct j; [lia|]. cbn [Nat.eqb]. destruct (Nat.leb_spec (S j) k); lia.
Qed.
Lemma permuted_back n k v i : k < n -> S (List.length i) = n -> permuted (back n k) (v :: i) = insert_at k v i.
Proof.
  intros H L. unfold permuted, back. rewrite map_map. apply (nth_ext _ _ 0 0).
  - rewrite map_length, seq_length. unfold insert_at. rewrite app_length, firstn_length_le by lia. cbn [List.length]. rewrite skipn_length. lia.
  - intros j J. rewrite map_length, seq_length in J. rewrite (nth_map_seq (fun x => nth (pos_of x (k :: others n k)) (v :: i) 0)) by auto. rewrite front_pos by auto. unfold insert_at.
    destruct (Nat.eqb_spec j k) as [->|N]; [|destruct (Nat.ltb_spec j k)].
    + rewrite app_nth2 by (rewrite firstn_length; lia). rewrite firstn_length_le, Nat.sub_diag by lia. auto.
    + rewrite app_nth1 by (rewrite firstn_length; lia). cbn [nth]. rewrite <- (firstn_skipn k i) at 1. apply app_nth1. rewrite firstn_length; lia.
    + rewrite app_nth2 by (rewrite firstn_length; lia). rewrite firstn_length_le by lia. destruct j as [|j]; [lia|]. cbn [nth]. replace (S j - k) with (S (j - k)) by lia. cbn [nth].
      rewrite <- (firstn_skipn k i) at 1. rewrite app_nth2 by (rewrite firstn_length; lia). rewrite firstn_length_le by lia. auto.
Qed.
Lemma back_perm n k : k < n -> is_perm n (back n k) = true.
Proof.
  intros H. apply is_perm_intro. unfold back. apply NoDup_Permutation_bis; [apply seq_NoDup|rewrite map_length; lia|]. intros j I. apply in_seq in I. apply in_map_iff. exists (nth j (k :: others n k) 0).
  pose proof (is_perm_spec _ _ (front_perm n k H)) as P. assert (ND : NoDup (k :: others n k)) by (eapply Permutation_NoDup; [exact P|apply seq_NoDup]). assert (L : List.length (k :: others n k) = n) by (rewrite <- (Permutation_length P), seq_length; auto).
  split; [apply pos_of_nth; auto; lia|]. eapply Permutation_in; [symmetry; exact P|]. apply nth_In. lia.
Qed.
