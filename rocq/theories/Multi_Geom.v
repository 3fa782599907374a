(** Index arithmetic of the slices: runs of a sorted list, positions by axis name. *)
From Coq Require Import List Arith Bool String Permutation Sorted Lia.
From Verif Require Import PyList PyDict ListUtil Order Num Shape Names_Model Writer_Model Writer_Spec Writer_Layout Writer_Inv Writer_Hist Multi_Model Multi_Spec.
Import ListNotations.
Local Open Scope list_scope.
Local Open Scope nat_scope.

(** *** runs of equal keys *)
Lemma sorted_split {A} (f : A -> nat) (l : list A) k : StronglySorted (fun x y => f x <= f y) l ->
  l = filter (fun x => Nat.ltb (f x) k) l ++ filter (fun x => negb (Nat.ltb (f x) k)) l.
Proof.
  induction 1 as [|a l S IH F]; cbn [filter]; auto. destruct (Nat.ltb_spec (f a) k); cbn [negb app]. { f_equal. auto. }
  assert (filter (fun x => Nat.ltb (f x) k) l = []) as ->.
  { apply filter_none. intros x Hx. rewrite Forall_forall in F. specialize (F _ Hx). apply Nat.ltb_ge. lia. }
  cbn [app]. f_equal. symmetry. apply filter_all. intros x Hx. rewrite Forall_forall in F. specialize (F _ Hx).
  apply negb_true_iff, Nat.ltb_ge. lia.
Qed.
Lemma searchsorted_map {A} (f : A -> nat) l k : searchsorted (map f l) k = List.length (filter (fun x => Nat.ltb (f x) k) l).
Proof. unfold searchsorted. induction l as [|a l IH]; cbn [map filter]; auto. destruct (Nat.ltb (f a) k); cbn [List.length]; auto. Qed.
Lemma StronglySorted_filter {A} (R : A -> A -> Prop) (g : A -> bool) l : StronglySorted R l -> StronglySorted R (filter g l).
Proof.
  induction 1 as [|a l S IH F]; cbn [filter]; [constructor|]. destruct (g a); auto. constructor; auto.
  rewrite Forall_forall in *. intros x Hx. apply filter_In in Hx. apply F. tauto.
Qed.
Lemma pyslice_run {A} (f : A -> nat) (l : list A) k : StronglySorted (fun x y => f x <= f y) l ->
  pyslice (searchsorted (map f l) k) (searchsorted (map f l) (S k)) l = filter (fun x => Nat.eqb (f x) k) l.
Proof.
  intros S. rewrite !searchsorted_map. pose proof (sorted_split f l k S) as E.
  set (lo := filter (fun x => Nat.ltb (f x) k) l) in *. set (hi := filter (fun x => negb (Nat.ltb (f x) k)) l) in *.
  assert (SH : StronglySorted (fun x y => f x <= f y) hi) by (apply StronglySorted_filter; auto).
  pose proof (sorted_split f hi (Datatypes.S k) SH) as E2.
  assert (Q : filter (fun x => Nat.ltb (f x) (Datatypes.S k)) hi = filter (fun x => Nat.eqb (f x) k) l).
  { unfold hi. clear. induction l as [|a l IH]; cbn [filter]; auto.
    destruct (Nat.ltb_spec (f a) k); cbn [negb filter]; destruct (Nat.eqb_spec (f a) k); try lia; auto.
    - destruct (Nat.ltb_spec (f a) (Datatypes.S k)); [f_equal; auto|lia].
    - destruct (Nat.ltb_spec (f a) (Datatypes.S k)); [lia|auto]. }
  assert (L : List.length (filter (fun x => Nat.ltb (f x) (Datatypes.S k)) l) =
              List.length lo + List.length (filter (fun x => Nat.eqb (f x) k) l)).
  { unfold lo. clear. induction l as [|a l IH]; cbn [filter]; auto.
    destruct (Nat.ltb_spec (f a) k); destruct (Nat.eqb_spec (f a) k); destruct (Nat.ltb_spec (f a) (Datatypes.S k)); cbn [List.length]; lia. }
  unfold pyslice. rewrite L. replace (List.length lo + List.length (filter (fun x => Nat.eqb (f x) k) l) - List.length lo) with (List.length (filter (fun x => Nat.eqb (f x) k) l)) by lia.
  rewrite E at 2. rewrite skipn_app, skipn_all, Nat.sub_diag. cbn [app skipn].
  rewrite E2, Q, firstn_app, firstn_all, Nat.sub_diag, firstn_O, app_nil_r. auto.
Qed.

(** *** at_or0 from membership *)
Section At.
  Context {V : Type} {NV : Num V}.
  Lemma at_or0_char i w (e : list (nat * V)) : (forall v, In (i, v) e -> v = w) ->
    (~ In i (map fst e) -> w = n0) -> at_or0 i e = w.
  Proof.
    intros H K. unfold at_or0. destruct (assoc i e) as [v|] eqn:A.
    - apply H. apply assoc_In. auto.
    - symmetry. apply K. apply assoc_None. auto.
  Qed.
  Lemma hist_at_or0 (e : list (nat * V)) n i : hist_at (HSparse e n) i = at_or0 i e.
  Proof. cbn [hist_at]. unfold at_or0. induction e as [|[j v] e IH]; cbn [find assoc fst]; auto. destruct (Nat.eqb i j); auto. Qed.
  Lemma mh_at_or0 axes (e : list (nat * V)) m : mh_at (MSparse axes e) m = at_or0 (ravel (map x_extent axes) m) e.
  Proof. cbn [mh_at]. unfold at_or0. induction e as [|[j v] e IH]; cbn [find assoc fst]; auto. destruct (Nat.eqb _ j); auto. Qed.
  Lemma at_or0_perm i (e e' : list (nat * V)) : Permutation e e' -> NoDup (map fst e) -> at_or0 i e = at_or0 i e'.
  Proof.
    intros P N. apply at_or0_char.
    - intros v Hv. symmetry. apply at_or0_In; [|eapply Permutation_in; eauto]. eapply Permutation_NoDup; [apply Permutation_map; eauto|auto].
    - intros H. apply at_or0_out. intros K. apply H. eapply Permutation_in; [|exact K]. apply Permutation_sym, Permutation_map. auto.
  Qed.
  Lemma at_or0_rel i j (e e' : list (nat * V)) : NoDup (map fst e) -> NoDup (map fst e') ->
    (forall v, In (i, v) e <-> In (j, v) e') -> at_or0 i e = at_or0 j e'.
  Proof.
    intros N N' H. apply at_or0_char.
    - intros v Hv. symmetry. apply at_or0_In; auto. apply H. auto.
    - intros K. apply at_or0_out. intros L. apply in_map_iff in L. destruct L as ([k v] & E & L). cbn [fst] in E. subst.
      apply K. apply in_map_iff. exists (i, v). split; auto. apply H. auto.
  Qed.
  Lemma sort_flat_perm (e : list (nat * V)) : Permutation (sort_flat e) e.
  Proof. apply sort_perm. Qed.
  Lemma sort_flat_sorted (e : list (nat * V)) : NoDup (map fst e) -> StronglySorted lt (map fst (sort_flat e)).
  Proof.
    intros N. assert (N' : NoDup (map fst (sort_flat e))).
    { eapply Permutation_NoDup; [apply Permutation_map, Permutation_sym, sort_flat_perm|auto]. }
    pose proof (sort_sorted fst Nat.compare nat_cmp e) as S. fold (sort_flat e) in S. revert S N'. generalize (sort_flat e) as l. clear. intros l S.
    induction S as [|a l S IH F]; cbn [map]; intros N'; constructor; inversion N'; subst; auto.
    rewrite Forall_forall in *. intros x Hx. apply in_map_iff in Hx. destruct Hx as (y & <- & Hy). specialize (F _ Hy). unfold le_k in F.
    destruct (Nat.compare_spec (fst a) (fst y)); try discriminate; try lia. exfalso. apply H1. rewrite H. apply in_map. auto.
  Qed.
  Lemma sort_fst_sorted {B} (l : list (nat * B)) : StronglySorted (fun x y => fst x <= fst y) (sort_k fst Nat.compare l).
  Proof.
    pose proof (sort_sorted (@fst nat B) Nat.compare nat_cmp l) as S. induction S as [|a r S IH F]; constructor; auto.
    rewrite Forall_forall in *. intros x Hx. specialize (F _ Hx). unfold le_k in F. destruct (Nat.compare_spec (fst a) (fst x)); try discriminate; lia.
  Qed.
End At.

(** *** ravel and unravel *)
Lemma unravel_ravel s m : in_shape s m -> unravel s (ravel s m) = m.
Proof. intros H. unfold unravel. apply nth_error_nth. apply all_idx_nth. auto. Qed.
Lemma unravel_in s k : k < prodn s -> in_shape s (unravel s k).
Proof. intros H. destruct (all_idx_at s k H) as (idx & E & I & _). unfold unravel. rewrite (nth_error_nth _ _ _ E). auto. Qed.
Lemma ravel_unravel s k : k < prodn s -> ravel s (unravel s k) = k.
Proof. intros H. destruct (all_idx_at s k H) as (idx & E & I & R). unfold unravel. rewrite (nth_error_nth _ _ _ E). auto. Qed.
Lemma all_idx_unravel s : all_idx s = map (unravel s) (seq 0 (prodn s)).
Proof. rewrite <- all_idx_len. symmetry. apply map_nth_seq. Qed.

(** *** map2 *)
Lemma map2_len {A B C} (f : A -> B -> C) l m : List.length (map2 f l m) = Nat.min (List.length l) (List.length m).
Proof. unfold map2. rewrite map_length, combine_length. auto. Qed.
Lemma map2_cons {A B C} (f : A -> B -> C) a l b m : map2 f (a :: l) (b :: m) = f a b :: map2 f l m.
Proof. reflexivity. Qed.
Lemma map2_inj_r (l : list maxis) (i j : list nat) : List.length i = List.length l -> List.length j = List.length l ->
  map2 (fun a k => x_under a + k) l i = map2 (fun a k => x_under a + k) l j -> i = j.
Proof.
  revert i j. induction l as [|a l IH]; intros [|x i] [|y j]; cbn [List.length]; intros H K E; try discriminate; auto.
  rewrite !map2_cons in E. injection E as E1 E2. f_equal; [lia|apply IH; auto].
Qed.

(** regular bins of axes: position with flow bins and back *)
Definition shifted (l : list maxis) (i : list nat) : list nat := map2 (fun a k => x_under a + k) l i.
Lemma regular_iff (l : list maxis) (i m : list nat) : in_shape (map x_size l) i -> List.length m = List.length l ->
  (all_regular l m = true /\ ravel (map x_size l) (off_under l m) = ravel (map x_size l) i <-> m = shifted l i).
Proof.
  intros I L.
  assert (A : forall m, List.length m = List.length l -> all_regular l m = true -> in_shape (map x_size l) (off_under l m) /\ shifted l (off_under l m) = m).
  { clear. unfold all_regular, off_under, shifted. induction l as [|a l IH]; intros [|x m] L; try discriminate; cbn [map].
    - intros _. split; [constructor|reflexivity].
    - rewrite !map2_cons. cbn [forallb]. intros H. apply andb_true_iff in H. destruct H as [H1 H2]. unfold regular in H1. apply andb_true_iff in H1.
      destruct H1 as [H1 H3]. apply Nat.leb_le in H1. apply Nat.ltb_lt in H3. injection L as L. destruct (IH m L H2) as [I1 I2]. split.
      + constructor; auto. lia.
      + f_equal; [lia|auto]. }
  split.
  - intros [R E]. destruct (A m L R) as [I1 I2]. apply ravel_inj in E; auto. rewrite <- E. auto.
  - intros ->. revert I. clear. unfold shifted, all_regular, off_under. intros I.
    assert (forallb (fun b => b) (map2 regular l (map2 (fun a k => x_under a + k) l i)) = true /\ map2 (fun a k => k - x_under a) l (map2 (fun a k => x_under a + k) l i) = i) as [-> ->]; auto.
    revert i I. induction l as [|a l IH]; intros [|x i] I; cbn [map] in I; inversion I; subst; auto.
    rewrite !map2_cons. cbn [forallb]. destruct (IH i) as [J1 J2]; auto. split.
    + apply andb_true_iff. split; auto. unfold regular. apply andb_true_iff. split; [apply Nat.leb_le; lia|apply Nat.ltb_lt; lia].
    + f_equal; [lia|auto].
Qed.
Lemma shifted_regular (l : list maxis) i : in_shape (map x_size l) i -> all_regular l (shifted l i) = true /\ off_under l (shifted l i) = i.
Proof.
  intros I. unfold shifted, all_regular, off_under. revert i I. induction l as [|a l IH]; intros [|x i] I; cbn [map] in I; inversion I; subst; auto.
  rewrite !map2_cons. cbn [forallb]. destruct (IH i) as [J1 J2]; auto. split.
  - apply andb_true_iff. split; auto. unfold regular. apply andb_true_iff. split; [apply Nat.leb_le; lia|apply Nat.ltb_lt; lia].
  - f_equal; [lia|auto].
Qed.
Lemma regular_shifted (l : list maxis) m : List.length m = List.length l -> all_regular l m = true ->
  in_shape (map x_size l) (off_under l m) /\ shifted l (off_under l m) = m.
Proof.
  unfold all_regular, off_under, shifted. revert m. induction l as [|a l IH]; intros [|x m] L; try discriminate; cbn [map].
  - intros _. split; [constructor|reflexivity].
  - rewrite !map2_cons. cbn [forallb]. intros H. apply andb_true_iff in H. destruct H as [H1 H2]. unfold regular in H1. apply andb_true_iff in H1.
    destruct H1 as [H1 H3]. apply Nat.leb_le in H1. apply Nat.ltb_lt in H3. injection L as L. destruct (IH m L H2) as [I1 I2]. split.
    + constructor; auto. lia.
    + f_equal; [lia|auto].
Qed.

(** *** lookup by name *)
Lemma lookup_combine ns vs rest : NoDup ns -> List.length vs = List.length ns ->
  map (lookup (combine ns vs ++ rest)) ns = vs.
Proof.
  revert vs. induction ns as [|n ns IH]; intros [|v vs] N L; try discriminate; auto.
  cbn [combine app map lookup]. rewrite String.eqb_refl. inversion N; subst. f_equal.
  transitivity (map (lookup (combine ns vs ++ rest)) ns); [|apply IH; auto].
  apply map_ext_in. intros x Hx. cbn [lookup]. destruct (String.eqb_spec x n); auto. subst. contradiction.
Qed.
Lemma lookup_skip l r n : ~ In n (map fst l) -> lookup (l ++ r) n = lookup r n.
Proof.
  induction l as [|[k v] l IH]; cbn [app map lookup fst]; auto. intros H. destruct (String.eqb_spec n k); [subst; cbn [In] in H; tauto|].
  apply IH. intros K. apply H. right. auto.
Qed.
Lemma index_of_nth_coord names m : NoDup names -> List.length m = List.length names -> map (coord_of names m) names = m.
Proof.
  intros N L. revert m L. induction names as [|n ns IH]; intros [|x m] L; try discriminate; auto. inversion N; subst. cbn [map].
  f_equal. { unfold coord_of. cbn [index_of]. rewrite String.eqb_refl. auto. }
  injection L as L. transitivity (map (coord_of ns m) ns); [|apply IH; auto]. apply map_ext_in. intros y Hy. unfold coord_of. cbn [index_of].
  destruct (String.eqb_spec y n); [subst; contradiction|]. destruct (index_of y ns); auto.
Qed.
Lemma coord_of_map names (c : string -> nat) n : In n names -> coord_of names (map c names) n = c n.
Proof.
  intros H. unfold coord_of. destruct (index_of_In _ _ H) as (k & E). rewrite E. apply index_of_Some in E.
  apply nth_error_nth. rewrite nth_error_map, E. auto.
Qed.
