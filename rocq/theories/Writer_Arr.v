(** Array facts: argsort, gathers, block fills. *)
From Coq Require Import List Arith Bool String Permutation Sorted Lia.
From Verif Require Import PyList PyDict Order Num Writer_Model Writer_Spec Writer_Layout Writer_Inv.
Import ListNotations.
Local Open Scope list_scope.

Lemma sorted_map {A K} (key : A -> K) (R : K -> K -> Prop) (l : list A) :
  StronglySorted (fun x y => R (key x) (key y)) l -> StronglySorted R (map key l).
Proof.
  induction 1; simpl; constructor; auto. rewrite Forall_forall in *. intros y Hy. apply in_map_iff in Hy.
  destruct Hy as (x & <- & Hx). auto.
Qed.
Lemma sorted_impl {A} (R S : A -> A -> Prop) l :
  (forall x y, R x y -> S x y) -> StronglySorted R l -> StronglySorted S l.
Proof.
  intros H. induction 1; constructor; auto. eapply Forall_impl; [|eauto]. simpl. auto.
Qed.
Lemma sorted_le_NoDup_lt l : StronglySorted le l -> NoDup l -> StronglySorted lt l.
Proof.
  induction 1; intros N; constructor; inversion N; subst; auto.
  rewrite Forall_forall in *. intros x Hx. specialize (H0 x Hx). assert (a <> x) by congruence. lia.
Qed.
Lemma sorted_le_seq s n : StronglySorted le (seq s n).
Proof.
  revert s. induction n; intros s; simpl; constructor; auto. apply Forall_forall. intros x H. apply in_seq in H. lia.
Qed.
Lemma sorted_le_unique l1 l2 : StronglySorted le l1 -> StronglySorted le l2 -> Permutation l1 l2 -> l1 = l2.
Proof.
  revert l2. induction l1 as [|x l1 IH]; intros l2 S1 S2 P. { apply Permutation_nil in P. auto. }
  destruct l2 as [|y l2]. { apply Permutation_sym, Permutation_nil in P. discriminate. }
  inversion S1; subst. inversion S2; subst. rewrite Forall_forall in *.
  assert (x = y).
  { assert (Hx: In x (y :: l2)) by (eapply Permutation_in; [exact P|left; auto]).
    assert (Hy: In y (x :: l1)) by (eapply Permutation_in; [apply Permutation_sym; exact P|left; auto]).
    destruct Hx as [|Hx]; auto. destruct Hy as [|Hy]; auto.
    apply Nat.le_antisymm; auto. }
  subst. f_equal. apply IH; auto. eapply Permutation_cons_inv; eauto.
Qed.

Lemma combine_nth_In {A B} (l : list A) (m : list B) x y da db : List.length l = List.length m ->
  In (x, y) (combine l m) -> exists i, i < List.length l /\ nth i l da = x /\ nth i m db = y.
Proof.
  revert m. induction l as [|a l IH]; intros [|b m]; simpl; try discriminate; [contradiction|].
  intros E [H|H].
  - injection H as -> ->. exists 0. simpl. auto with arith.
  - destruct (IH m (eq_add_S _ _ E) H) as (i & H1 & H2 & H3). exists (S i). simpl. auto with arith.
Qed.

Lemma argsort_perm ks : Permutation (argsort ks) (seq 0 (List.length ks)).
Proof.
  unfold argsort. eapply perm_trans. { apply Permutation_map, sort_perm. }
  assert (map snd (combine ks (seq 0 (List.length ks))) = seq 0 (List.length ks)) as ->; auto.
  generalize 0. induction ks as [|k ks IH]; intros s; simpl; f_equal; auto.
Qed.
Lemma argsort_length ks : List.length (argsort ks) = List.length ks.
Proof. rewrite (Permutation_length (argsort_perm ks)), seq_length. auto. Qed.
Lemma argsort_sorted ks : StronglySorted le (gather 0 ks (argsort ks)).
Proof.
  unfold argsort, gather. rewrite map_map.
  set (sl := sort_k fst Nat.compare (combine ks (seq 0 (List.length ks)))).
  assert (E : map (fun x => nth (snd x) ks 0) sl = map fst sl).
  { apply map_ext_in. intros [k i] H. unfold sl in H. apply sort_in in H.
    apply (combine_nth_In _ _ _ _ 0 0) in H; [|rewrite seq_length; auto].
    destruct H as (j & Hj & <- & H). rewrite seq_nth in H by auto. simpl in H. subst. auto. }
  rewrite E. apply sorted_map. unfold sl.
  eapply sorted_impl; [|apply (sort_sorted fst Nat.compare nat_cmp)].
  intros x y. unfold le_k. destruct (Nat.compare (fst x) (fst y)) eqn:C; try discriminate; intros _.
  - apply Nat.compare_eq_iff in C. lia.
  - apply Nat.compare_lt_iff in C. lia.
Qed.
Lemma gather_perm {A} (d : A) l idx : Permutation idx (seq 0 (List.length l)) -> Permutation (gather d l idx) l.
Proof.
  intros P. unfold gather. eapply perm_trans. { apply Permutation_map. exact P. }
  rewrite map_nth_seq. auto.
Qed.
(** argsort of a permutation is its inverse *)
Lemma argsort_inv n order i : Permutation order (seq 0 n) -> i < n ->
  nth i (argsort order) 0 < n /\ nth (nth i (argsort order) 0) order 0 = i.
Proof.
  intros P Hi. assert (L : List.length order = n) by (rewrite (Permutation_length P), seq_length; auto).
  pose proof (argsort_perm order) as PA. rewrite L in PA.
  assert (LA : List.length (argsort order) = n) by (rewrite argsort_length; auto).
  split.
  - assert (H : In (nth i (argsort order) 0) (seq 0 n)).
    { eapply Permutation_in; [exact PA|]. apply nth_In. lia. }
    apply in_seq in H. lia.
  - assert (E : gather 0 order (argsort order) = seq 0 n).
    { apply sorted_le_unique. { apply argsort_sorted. } { apply sorted_le_seq. }
      eapply perm_trans; [apply gather_perm; rewrite L; auto|auto]. }
    assert (F : nth i (gather 0 order (argsort order)) 0 = i) by (rewrite E, seq_nth; auto).
    unfold gather in F. rewrite (nth_indep _ 0 (nth 0 order 0)) in F by (rewrite map_length; lia).
    rewrite (map_nth (fun i => nth i order 0)) in F. auto.
Qed.

Lemma In_enumerate {A} (l : list A) k x : In (k, x) (enumerate l) <-> nth_error l k = Some x.
Proof.
  unfold enumerate.
  assert (G : forall s, In (k, x) (combine (seq s (List.length l)) l) <-> s <= k /\ nth_error l (k - s) = Some x).
  { induction l as [|y l IH]; intros s; simpl.
    - split; [contradiction|]. intros [_ H]. destruct (k - s); discriminate.
    - rewrite IH. split.
      + intros [E|[H1 H2]].
        * injection E as -> ->. split; auto. rewrite Nat.sub_diag. auto.
        * split; [lia|]. replace (k - s) with (S (k - S s)) by lia. auto.
      + intros [H1 H2]. destruct (Nat.eq_dec s k).
        * subst. rewrite Nat.sub_diag in H2. simpl in H2. left. congruence.
        * right. split; [lia|]. replace (k - s) with (S (k - S s)) in H2 by lia. auto. }
  rewrite G, Nat.sub_0_r. split; [intros []|]; auto with arith.
Qed.
Lemma enumerate_NoDup {A} (l : list A) : NoDup (enumerate l).
Proof.
  unfold enumerate. generalize 0. induction l as [|x l IH]; intros s; simpl; constructor; auto.
  intros H. apply in_combine_l in H. apply in_seq in H. lia.
Qed.

Lemma NoDup_flat_map {A B} (f : A -> list B) l : NoDup l -> (forall x, In x l -> NoDup (f x)) ->
  (forall x y b, In x l -> In y l -> In b (f x) -> In b (f y) -> x = y) -> NoDup (flat_map f l).
Proof.
  induction 1 as [|x l Hx N IH]; simpl; intros H1 H2; [constructor|].
  assert (NoDup (f x)) as Nx by auto.
  assert (NoDup (flat_map f l)) as Nl by (apply IH; intros; eauto).
  assert (forall b, In b (f x) -> ~ In b (flat_map f l)) as D.
  { intros b Hb Hc. apply in_flat_map in Hc. destruct Hc as (y & Hy & Hb').
    assert (x = y) by eauto. subst. auto. }
  clear - Nx Nl D. induction (f x) as [|b l1 IH]; simpl; auto. inversion Nx; subst. constructor.
  - rewrite in_app_iff. intros [|Hb]; auto. eapply D; [left; auto|auto].
  - apply IH; auto. intros. apply D. right. auto.
Qed.

(** a point of an array after a sequence of writes that agree on it *)
Lemma fold_point {X S A} (wr : S -> X -> S) (get : S -> A) (cov : X -> bool) (v : A) cs : forall s0,
  (forall s x, In x cs -> get (wr s x) = if cov x then v else get s) ->
  get (fold_left wr cs s0) = if existsb cov cs then v else get s0.
Proof.
  induction cs as [|x cs IH]; intros s0 H; simpl; auto.
  rewrite IH by (intros; apply H; right; auto). rewrite H by (left; auto).
  destruct (cov x); simpl; auto. destruct (existsb cov cs); auto.
Qed.

Lemma in_block_spec i n b : in_block i n b = true <-> i <= b < i + n.
Proof. unfold in_block. rewrite andb_true_iff, Nat.leb_le, Nat.ltb_lt. tauto. Qed.

Lemma offsets_ge nb chs : forall ib c s n, In (c, (s, n)) (offsets nb ib chs) -> ib <= s.
Proof.
  induction chs as [|c' chs IH]; simpl; intros ib c s n; [contradiction|].
  intros [E|H]; [injection E as <- <- <-; auto|]. apply IH in H. lia.
Qed.
Lemma offsets_disjoint nb chs b : forall ib c1 s1 n1 c2 s2 n2, NoDup chs ->
  In (c1, (s1, n1)) (offsets nb ib chs) -> In (c2, (s2, n2)) (offsets nb ib chs) ->
  s1 <= b < s1 + n1 -> s2 <= b < s2 + n2 -> c1 = c2 /\ s1 = s2 /\ n1 = n2.
Proof.
  induction chs as [|c chs IH]; simpl; intros ib c1 s1 n1 c2 s2 n2 N H1 H2 B1 B2; [contradiction|].
  inversion N; subst. destruct H1 as [E1|H1], H2 as [E2|H2].
  - injection E1 as <- <- <-. injection E2 as <- <- <-. auto.
  - injection E1 as <- <- <-. apply offsets_ge in H2. lia.
  - injection E2 as <- <- <-. apply offsets_ge in H1. lia.
  - eapply IH; eauto.
Qed.
Lemma offsets_names nb chs : forall ib, map fst (offsets nb ib chs) = chs.
Proof. induction chs; intros; simpl; f_equal; auto. Qed.
Lemma offsets_unique nb chs ib c s1 n1 s2 n2 : NoDup chs ->
  In (c, (s1, n1)) (offsets nb ib chs) -> In (c, (s2, n2)) (offsets nb ib chs) -> s1 = s2 /\ n1 = n2.
Proof.
  revert ib. induction chs as [|c' chs IH]; simpl; intros ib N H1 H2; [contradiction|].
  inversion N; subst. 
  assert (forall s n ib, In (c, (s, n)) (offsets nb ib chs) -> In c chs) as Hn.
  { intros s n ib' H. rewrite <- (offsets_names nb chs ib'). apply in_map_iff. exists (c, (s, n)). auto. }
  destruct H1 as [E1|H1], H2 as [E2|H2].
  - split; congruence.
  - injection E1 as -> <- <-. exfalso. eauto.
  - injection E2 as -> <- <-. exfalso. eauto.
  - eapply IH; eauto.
Qed.
Lemma offsets_size nb chs : forall ib c s n, In (c, (s, n)) (offsets nb ib chs) ->
  n = match dget c nb with Some n => n | None => 0 end.
Proof.
  induction chs as [|c' chs IH]; simpl; intros ib c s n; [contradiction|].
  intros [E|H]; [|eauto]. injection E as -> _ <-. auto.
Qed.
