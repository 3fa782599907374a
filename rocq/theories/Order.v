(** Comparison functions with laws, lexicographic lists, stable sorting (python's [sorted]). *)
From Coq Require Import List Arith NArith Ascii String Bool Permutation Sorted Lia.
Import ListNotations.

Record CmpLaws {A} (c : A -> A -> comparison) : Prop := mkCmp {
  c_eq : forall x y, c x y = Eq <-> x = y;
  c_anti : forall x y, c y x = CompOpp (c x y);
  c_trans : forall x y z, c x y = Lt -> c y z = Lt -> c x z = Lt }.

Lemma nat_cmp : CmpLaws Nat.compare.
Proof.
  split.
  - apply Nat.compare_eq_iff.
  - intros; apply Nat.compare_antisym.
  - intros x y z. rewrite !Nat.compare_lt_iff. lia.
Qed.
Lemma N_cmp : CmpLaws N.compare.
Proof.
  split.
  - apply N.compare_eq_iff.
  - intros; apply N.compare_antisym.
  - intros x y z. rewrite !N.compare_lt_iff. lia.
Qed.

(** lexicographic order of lists (python list/str comparison) *)
Fixpoint lexc {A} (c : A -> A -> comparison) (xs ys : list A) : comparison :=
  match xs, ys with
  | [], [] => Eq
  | [], _ :: _ => Lt
  | _ :: _, [] => Gt
  | x :: xs', y :: ys' => match c x y with Eq => lexc c xs' ys' | r => r end
  end.

Lemma lex_cmp {A} (c : A -> A -> comparison) : CmpLaws c -> CmpLaws (lexc c).
Proof.
  intros [E An Tr]. split.
  - induction x as [|a x IH]; intros [|b y]; simpl; split; try congruence.
    + destruct (c a b) eqn:C; try congruence. apply E in C. subst. intros H. f_equal. apply IH; auto.
    + intros H. injection H as -> ->. rewrite (proj2 (E b b) eq_refl). apply IH. auto.
  - induction x as [|a x IH]; intros [|b y]; simpl; auto.
    rewrite An. destruct (c a b); simpl; auto.
  - induction x as [|a x IH]; intros [|b y] [|d z]; simpl; try congruence.
    destruct (c a b) eqn:C1; try congruence.
    + apply E in C1. subst. destruct (c b d); try congruence. eauto.
    + intros _. destruct (c b d) eqn:C2; try congruence.
      * apply E in C2. subst. rewrite C1. auto.
      * rewrite (Tr _ _ _ C1 C2). auto.
Qed.

Definition sumc {A B} (ca : A -> A -> comparison) (cb : B -> B -> comparison) (x y : A + B) :=
  match x, y with
  | inl a, inl b => ca a b
  | inl _, inr _ => Lt
  | inr _, inl _ => Gt
  | inr a, inr b => cb a b
  end.
Lemma sum_cmp {A B} (ca : A -> A -> comparison) (cb : B -> B -> comparison) :
  CmpLaws ca -> CmpLaws cb -> CmpLaws (sumc ca cb).
Proof.
  intros [E1 A1 T1] [E2 A2 T2]. split.
  - intros [a|a] [b|b]; simpl; split; try congruence.
    + intros H; apply E1 in H; congruence.
    + intros H; injection H as ->; apply E1; auto.
    + intros H; apply E2 in H; congruence.
    + intros H; injection H as ->; apply E2; auto.
  - intros [a|a] [b|b]; simpl; auto.
  - intros [a|a] [b|b] [d|d]; simpl; eauto; congruence.
Qed.

(** order of characters and strings by code point *)
Definition ascii_code (a : ascii) : nat := nat_of_ascii a.
Definition ascii_c (a b : ascii) : comparison := Nat.compare (nat_of_ascii a) (nat_of_ascii b).
Lemma ascii_cmp : CmpLaws ascii_c.
Proof.
  destruct nat_cmp as [E An Tr]. split; unfold ascii_c.
  - intros x y. rewrite E. split; [|congruence]. intros H.
    rewrite <- (ascii_nat_embedding x), <- (ascii_nat_embedding y). congruence.
  - intros; apply An.
  - intros; eauto.
Qed.

Definition string_c (s t : string) : comparison :=
  lexc ascii_c (list_ascii_of_string s) (list_ascii_of_string t).
Lemma list_ascii_inj s t : list_ascii_of_string s = list_ascii_of_string t -> s = t.
Proof.
  intros H. rewrite <- (string_of_list_ascii_of_string s), <- (string_of_list_ascii_of_string t). congruence.
Qed.
Lemma string_cmp : CmpLaws string_c.
Proof.
  destruct (lex_cmp _ ascii_cmp) as [E An Tr]. split; unfold string_c.
  - intros x y. rewrite E. split; [apply list_ascii_inj|congruence].
  - intros; apply An.
  - intros; eauto.
Qed.

(** *** stable sort by key *)
Section Sort.
  Context {A K : Type}.
  Variables (key : A -> K) (c : K -> K -> comparison).

  Definition le_k (x y : A) : bool := match c (key x) (key y) with Gt => false | _ => true end.

  Fixpoint insert_k (x : A) (l : list A) : list A :=
    match l with
    | [] => [x]
    | y :: l' => if le_k x y then x :: l else y :: insert_k x l'
    end.
  Definition sort_k (l : list A) : list A := fold_right insert_k [] l.

  Lemma insert_perm x l : Permutation (insert_k x l) (x :: l).
  Proof.
    induction l as [|y l IH]; simpl; auto. destruct (le_k x y); auto.
    eapply perm_trans; [apply perm_skip, IH|]. constructor.
  Qed.
  Lemma sort_perm l : Permutation (sort_k l) l.
  Proof.
    induction l; simpl; auto. eapply perm_trans; [apply insert_perm|]. auto.
  Qed.
  Lemma sort_in l x : In x (sort_k l) <-> In x l.
  Proof. split; apply Permutation_in; [|apply Permutation_sym]; apply sort_perm. Qed.
  Lemma sort_length l : List.length (sort_k l) = List.length l.
  Proof. apply Permutation_length, sort_perm. Qed.
  Lemma sort_NoDup l : NoDup l -> NoDup (sort_k l).
  Proof. apply Permutation_NoDup, Permutation_sym, sort_perm. Qed.

  Hypothesis laws : CmpLaws c.

  Lemma le_k_total x y : le_k x y = false -> le_k y x = true.
  Proof.
    unfold le_k. rewrite (c_anti c laws (key x) (key y)). destruct (c (key x) (key y)); simpl; congruence.
  Qed.
  Lemma le_k_trans x y z : le_k x y = true -> le_k y z = true -> le_k x z = true.
  Proof.
    unfold le_k. destruct (c (key x) (key y)) eqn:C1; try congruence;
      destruct (c (key y) (key z)) eqn:C2; try congruence; intros _ _.
    - apply (c_eq c laws) in C1. rewrite C1, C2. auto.
    - apply (c_eq c laws) in C1. rewrite C1, C2. auto.
    - apply (c_eq c laws) in C2. rewrite <- C2, C1. auto.
    - rewrite (c_trans c laws _ _ _ C1 C2). auto.
  Qed.
  Lemma le_k_anti x y : le_k x y = true -> le_k y x = true -> key x = key y.
  Proof.
    unfold le_k. rewrite (c_anti c laws (key x) (key y)). destruct (c (key x) (key y)) eqn:C; simpl; try congruence.
    intros _ _. apply (c_eq c laws). auto.
  Qed.

  Definition sortedk (l : list A) := StronglySorted (fun x y => le_k x y = true) l.

  Lemma insert_sorted x l : sortedk l -> sortedk (insert_k x l).
  Proof.
    induction 1 as [|y l Hl IH Hy]; simpl. { repeat constructor. }
    destruct (le_k x y) eqn:E.
    - constructor. { constructor; auto. } constructor; auto.
      eapply Forall_impl; [|exact Hy]. simpl. intros; eapply le_k_trans; eauto.
    - constructor; auto. apply Forall_forall. intros z Hz.
      apply (Permutation_in _ (insert_perm x l)) in Hz. destruct Hz as [<-|Hz].
      + apply le_k_total; auto.
      + rewrite Forall_forall in Hy. auto.
  Qed.
  Lemma sort_sorted l : sortedk (sort_k l).
  Proof. induction l; simpl; [constructor|]. apply insert_sorted; auto. Qed.

  Lemma sorted_unique l1 l2 :
    (forall x y, In x l1 -> In y l1 -> key x = key y -> x = y) ->
    sortedk l1 -> sortedk l2 -> Permutation l1 l2 -> l1 = l2.
  Proof.
    revert l2. induction l1 as [|x l1 IH]; intros l2 Hinj S1 S2 P.
    - apply Permutation_nil in P. auto.
    - destruct l2 as [|y l2]. { apply Permutation_sym, Permutation_nil in P. discriminate. }
      inversion S1; subst. inversion S2; subst.
      assert (x = y).
      { assert (Hx: In x (y :: l2)) by (eapply Permutation_in; [exact P|left; auto]).
        assert (Hy: In y (x :: l1)) by (eapply Permutation_in; [apply Permutation_sym; exact P|left; auto]).
        destruct Hx as [Hx|Hx]; auto. destruct Hy as [Hy|Hy]; auto.
        rewrite Forall_forall in H2, H4.
        apply Hinj; [left; auto|right; auto|]. apply le_k_anti; auto. }
      subst y. f_equal. apply IH; auto.
      + intros; apply Hinj; simpl; auto.
      + eapply Permutation_cons_inv; eauto.
  Qed.

  (** the sorted list does not depend on the input order when keys are distinct *)
  Lemma sort_unique l1 l2 :
    (forall x y, In x l1 -> In y l1 -> key x = key y -> x = y) ->
    Permutation l1 l2 -> sort_k l1 = sort_k l2.
  Proof.
    intros Hinj P. apply sorted_unique; try apply sort_sorted.
    - intros x y Hx Hy. apply Hinj; apply sort_in; auto.
    - eapply perm_trans; [apply sort_perm|]. eapply perm_trans; [exact P|]. apply Permutation_sym, sort_perm.
  Qed.
End Sort.
