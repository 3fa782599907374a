(** Python dictionaries (insertion ordered association lists) and sets of strings. *)
From Coq Require Import List String Bool Permutation Lia.
Import ListNotations.

Definition dict (V : Type) := list (string * V).

Fixpoint dget {V} (k : string) (d : dict V) : option V :=
  match d with
  | [] => None
  | (k', v) :: d' => if String.eqb k k' then Some v else dget k d'
  end.
(** [d[k] = v]: keeps the position of an existing key, appends a new one *)
Fixpoint dset {V} (k : string) (v : V) (d : dict V) : dict V :=
  match d with
  | [] => [(k, v)]
  | (k', v') :: d' => if String.eqb k k' then (k', v) :: d' else (k', v') :: dset k v d'
  end.
Definition dkeys {V} (d : dict V) : list string := map fst d.
Definition dvals {V} (d : dict V) : list V := map snd d.
(** [{**d1, **d2}] *)
Definition dmerge {V} (d1 d2 : dict V) : dict V :=
  fold_left (fun d kv => dset (fst kv) (snd kv) d) d2 d1.

(** [s.add(x)] on a set listed without repetition *)
Definition set_add (x : string) (s : list string) : list string :=
  if existsb (String.eqb x) s then s else s ++ [x].
Definition smem (x : string) (s : list string) : bool := existsb (String.eqb x) s.

(** [xs.index(x)] / {x: i for i, x in enumerate(xs)}[x] when the names are distinct *)
Fixpoint index_of (x : string) (l : list string) : option nat :=
  match l with
  | [] => None
  | y :: l' => if String.eqb x y then Some 0 else option_map S (index_of x l')
  end.
(** {x: i for i, x in enumerate(xs)}: the last position wins *)
Fixpoint last_index_from (i : nat) (x : string) (l : list string) : option nat :=
  match l with
  | [] => None
  | y :: l' => match last_index_from (S i) x l' with
               | Some j => Some j
               | None => if String.eqb x y then Some i else None
               end
  end.
Definition last_index (x : string) (l : list string) : option nat := last_index_from 0 x l.

Lemma smem_In x s : smem x s = true <-> In x s.
Proof.
  unfold smem. rewrite existsb_exists. split.
  - intros (y & Hy & E). apply String.eqb_eq in E. subst. auto.
  - intros H. exists x. split; auto. apply String.eqb_refl.
Qed.
Lemma set_add_In x y s : In y (set_add x s) <-> y = x \/ In y s.
Proof.
  unfold set_add. change (existsb (String.eqb x) s) with (smem x s).
  destruct (smem x s) eqn:E.
  - apply smem_In in E. split; auto. intros [->|]; auto.
  - rewrite in_app_iff. simpl. intuition.
Qed.
Lemma set_add_NoDup x s : NoDup s -> NoDup (set_add x s).
Proof.
  unfold set_add. change (existsb (String.eqb x) s) with (smem x s).
  destruct (smem x s) eqn:E; auto. intros H.
  apply (Permutation_NoDup (Permutation_cons_append s x)). constructor; auto.
  intros Hx. apply smem_In in Hx. congruence.
Qed.

Lemma dget_dset_same {V} k (v : V) d : dget k (dset k v d) = Some v.
Proof.
  induction d as [|[k' v'] d IH]; simpl. { rewrite String.eqb_refl. auto. }
  destruct (String.eqb k k') eqn:E; simpl; rewrite E; auto.
Qed.
Lemma dget_dset_other {V} k k' (v : V) d : k <> k' -> dget k' (dset k v d) = dget k' d.
Proof.
  intros H. induction d as [|[k2 v2] d IH]; simpl.
  - apply not_eq_sym, String.eqb_neq in H. rewrite H. auto.
  - destruct (String.eqb k k2) eqn:E; simpl; auto.
    + apply String.eqb_eq in E. subst. apply not_eq_sym, String.eqb_neq in H. rewrite H. auto.
    + rewrite IH. auto.
Qed.
Lemma dget_dset {V} k k' (v : V) d : dget k' (dset k v d) = if String.eqb k k' then Some v else dget k' d.
Proof.
  destruct (String.eqb k k') eqn:E.
  - apply String.eqb_eq in E. subst. apply dget_dset_same.
  - apply String.eqb_neq in E. apply dget_dset_other. auto.
Qed.
Lemma dkeys_dset {V} k (v : V) d : forall x, In x (dkeys (dset k v d)) <-> x = k \/ In x (dkeys d).
Proof.
  intros x. induction d as [|[k' v'] d IH]; simpl. { intuition. }
  destruct (String.eqb k k') eqn:E; simpl.
  - apply String.eqb_eq in E. subst. intuition.
  - rewrite IH. intuition.
Qed.
Lemma dkeys_dset_NoDup {V} k (v : V) d : NoDup (dkeys d) -> NoDup (dkeys (dset k v d)).
Proof.
  induction d as [|[k' v'] d IH]; simpl; intros H. { repeat constructor; auto. }
  inversion H; subst. destruct (String.eqb k k') eqn:E; simpl; constructor; auto.
  intros Hin. apply dkeys_dset in Hin. apply String.eqb_neq in E. destruct Hin; auto.
Qed.
Lemma dget_In {V} k (v : V) d : dget k d = Some v -> In (k, v) d.
Proof.
  induction d as [|[k' v'] d IH]; simpl; [discriminate|].
  destruct (String.eqb k k') eqn:E; auto. apply String.eqb_eq in E. intros H. left. congruence.
Qed.
Lemma In_dget {V} k (v : V) d : NoDup (dkeys d) -> In (k, v) d -> dget k d = Some v.
Proof.
  induction d as [|[k' v'] d IH]; simpl; [contradiction|]. intros Hn. inversion Hn; subst.
  intros [E|Hin].
  - injection E as -> ->. rewrite String.eqb_refl. auto.
  - destruct (String.eqb k k') eqn:E; auto. apply String.eqb_eq in E. subst. exfalso. apply H1.
    apply in_map_iff. exists (k', v). auto.
Qed.
Lemma dget_None {V} k (d : dict V) : dget k d = None <-> ~ In k (dkeys d).
Proof.
  induction d as [|[k' v'] d IH]; simpl. { tauto. }
  destruct (String.eqb k k') eqn:E.
  - apply String.eqb_eq in E. subst. split; [discriminate|]. intuition.
  - apply String.eqb_neq in E. rewrite IH. intuition.
Qed.
Lemma dset_new {V} k (v : V) d : ~ In k (dkeys d) -> dset k v d = d ++ [(k, v)].
Proof.
  induction d as [|[k' v'] d IH]; simpl; auto. intros H.
  destruct (String.eqb k k') eqn:E. { apply String.eqb_eq in E. subst. tauto. }
  rewrite IH; tauto.
Qed.

Lemma index_of_Some x l i : index_of x l = Some i -> nth_error l i = Some x.
Proof.
  revert i. induction l as [|y l IH]; simpl; [discriminate|]. intros i.
  destruct (String.eqb x y) eqn:E.
  - intros H. injection H as <-. apply String.eqb_eq in E. subst. auto.
  - destruct (index_of x l); simpl; [|discriminate]. intros H. injection H as <-. simpl. auto.
Qed.
Lemma index_of_In x l : In x l -> exists i, index_of x l = Some i.
Proof.
  induction l as [|y l IH]; simpl; [contradiction|]. intros H.
  destruct (String.eqb x y) eqn:E; eauto. apply String.eqb_neq in E.
  destruct H as [->|H]; [congruence|]. destruct (IH H) as [i ->]. simpl. eauto.
Qed.
Lemma last_index_from_spec i x l :
  match last_index_from i x l with
  | Some j => i <= j /\ nth_error l (j - i) = Some x
  | None => ~ In x l
  end.
Proof.
  revert i. induction l as [|y l IH]; intros i; simpl; auto.
  specialize (IH (S i)). destruct (last_index_from (S i) x l) as [j|].
  - destruct IH as [H1 H2]. split; [lia|]. replace (j - i) with (S (j - S i)) by lia. auto.
  - destruct (String.eqb x y) eqn:E.
    + apply String.eqb_eq in E. subst. split; auto. rewrite PeanoNat.Nat.sub_diag. auto.
    + apply String.eqb_neq in E. simpl. intuition.
Qed.
Lemma last_index_Some x l i : last_index x l = Some i -> nth_error l i = Some x.
Proof.
  intros H. pose proof (last_index_from_spec 0 x l) as S. unfold last_index in H. rewrite H in S.
  destruct S as [_ S]. rewrite PeanoNat.Nat.sub_0_r in S. auto.
Qed.
Lemma last_index_In x l : In x l -> exists i, last_index x l = Some i.
Proof.
  intros H. unfold last_index. pose proof (last_index_from_spec 0 x l) as S.
  destruct (last_index_from 0 x l); [eauto|contradiction].
Qed.
