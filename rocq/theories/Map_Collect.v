(** Sums over the cells that go to a place. *)
From Coq Require Import Reals List Arith ZArith Bool String Lia Lra Permutation.
From Verif Require Import RBase PyList PyDict ListUtil Shape Map_Model Map_Spec.
Import ListNotations.
Local Open Scope nat_scope.

Lemma cell_eqb_spec a b : reflect (a = b) (cell_eqb a b).
Proof. unfold cell_eqb. destruct (list_eq_dec Nat.eq_dec a b); constructor; auto. Qed.
Lemma hits_true pl j i : hits pl j i = true <-> pl i = Some j.
Proof. unfold hits. destruct (pl i) as [k|]; [|split; discriminate]. destruct (cell_eqb_spec k j); split; intros; subst; try congruence; auto. Qed.
Lemma sumR_perm l l' : Permutation l l' -> sumR l = sumR l'.
Proof. induction 1; simpl in *; lra. Qed.
Lemma collects_list t t' pl (L : list nat -> list (list nat)) :
  (forall i j, in_shape (t_shape t) i -> pl i = Some j -> in_shape (t_shape t') j) ->
  (forall j, in_shape (t_shape t') j -> t_at t' j = sumR (map (t_at t) (L j))) ->
  (forall j, in_shape (t_shape t') j -> NoDup (L j)) ->
  (forall j i, in_shape (t_shape t') j -> (In i (L j) <-> in_shape (t_shape t) i /\ pl i = Some j)) -> collects t t' pl.
Proof.
  intros A B C D. split; auto. intros j Hj. rewrite B by auto. unfold collected. apply sumR_perm, Permutation_map, NoDup_Permutation; [auto|apply NoDup_filter', all_idx_NoDup|].
  intros i. rewrite D by auto. rewrite filter_In, all_idx_In, hits_true. tauto.
Qed.
Lemma collects_inj t t' pl (g : list nat -> list nat) :
  (forall i j, in_shape (t_shape t) i -> pl i = Some j -> in_shape (t_shape t') j /\ i = g j) ->
  (forall j, in_shape (t_shape t') j -> t_at t' j = t_at t (g j) /\ in_shape (t_shape t) (g j) /\ pl (g j) = Some j) -> collects t t' pl.
Proof.
  intros A B. apply (collects_list t t' pl (fun j => [g j])).
  - intros i j Hi Hj. apply (A i j); auto.
  - intros j Hj. destruct (B j Hj) as (E & _). simpl. rewrite E. lra.
  - intros. constructor; [simpl; tauto|constructor].
  - intros j i Hj. destruct (B j Hj) as (_ & S & P). split; [intros [<-|[]]; auto|]. intros (Hi & E). left. symmetry. apply (A i j); auto.
Qed.
Lemma sumR_filter {A} (f : A -> R) p l : sumR (map f (filter p l)) = sumR (map (fun x => if p x then f x else 0%R) l).
Proof. induction l as [|a l IH]; simpl; auto. destruct (p a); simpl; rewrite IH; lra. Qed.
Lemma sumR_swap {A B} (f : A -> B -> R) la lb : sumR (map (fun a => sumR (map (f a) lb)) la) = sumR (map (fun b => sumR (map (fun a => f a b) la)) lb).
Proof.
  induction la as [|a la IH]; simpl; [rewrite sumR_map_0; auto|]. rewrite IH, <- sumR_map_plus. auto.
Qed.
Lemma sumR_one {A} (d : forall x y : A, {x = y} + {x <> y}) (l : list A) k v : NoDup l -> In k l -> sumR (map (fun x => if d k x then v else 0%R) l) = v.
Proof.
  induction 1 as [|a l N ND IH]; simpl; [tauto|]. intros [<-|I].
  - destruct (d a a); [|congruence]. replace (sumR (map (fun x => if d a x then v else 0%R) l)) with 0%R; [lra|]. symmetry. transitivity (sumR (map (fun _ : A => 0%R) l)); [|apply sumR_map_0].
    apply sumR_map_ext. intros x Ix. destruct (d a x); auto. subst. tauto.
  - rewrite IH by auto. destruct (d k a); [subst; tauto|lra].
Qed.
Definition then_ (p q : list nat -> option (list nat)) (i : list nat) : option (list nat) := match p i with Some k => q k | None => None end.
Theorem collects_trans t t1 t2 p q : collects t t1 p -> collects t1 t2 q -> collects t t2 (then_ p q).
Proof.
  intros (A1 & B1) (A2 & B2). split.
  - intros i j Hi. unfold then_. destruct (p i) as [k|] eqn:E; [|discriminate]. intros. eapply A2; eauto.
  - intros j Hj. rewrite B2 by auto. unfold collected. rewrite sumR_filter.
    transitivity (sumR (map (fun k => sumR (map (fun i => if hits q j k then if hits p k i then t_at t i else 0%R else 0%R) (all_idx (t_shape t)))) (all_idx (t_shape t1)))).
    { apply sumR_map_ext. intros k Ik. apply all_idx_In in Ik. rewrite B1 by auto. unfold collected. destruct (hits q j k).
      - rewrite sumR_filter. auto. - rewrite sumR_map_0. auto. }
    rewrite sumR_swap, sumR_filter. apply sumR_map_ext. intros i Ii. apply all_idx_In in Ii.
    replace (hits (then_ p q) j i) with (match p i with Some k => hits q j k | None => false end) by (unfold hits, then_; destruct (p i); auto).
    destruct (p i) as [k|] eqn:E.
    + assert (Ik : In k (all_idx (t_shape t1))) by (apply all_idx_In; eapply A1; eauto).
      rewrite <- (sumR_one (list_eq_dec Nat.eq_dec) (all_idx (t_shape t1)) k (if hits q j k then t_at t i else 0%R) (all_idx_NoDup _) Ik).
      apply sumR_map_ext. intros x _. unfold hits at 2. rewrite E. destruct (list_eq_dec Nat.eq_dec k x) as [<-|N].
      * destruct (cell_eqb_spec k k); [auto|congruence].
      * destruct (cell_eqb_spec k x); [congruence|]. destruct (hits q j x); auto.
    + transitivity (sumR (map (fun _ : list nat => 0%R) (all_idx (t_shape t1)))); [|apply sumR_map_0]. apply sumR_map_ext. intros x _. unfold hits at 2. rewrite E. destruct (hits q j x); auto.
Qed.
Lemma collects_ext t t' p q : collects t t' p -> (forall i, in_shape (t_shape t) i -> p i = q i) -> collects t t' q.
Proof.
  intros (A & B) E. split; [intros i j Hi; rewrite <- E by auto; eapply A; eauto|]. intros j Hj. rewrite B by auto. unfold collected. rewrite !sumR_filter. apply sumR_map_ext. intros i Ii. apply all_idx_In in Ii. unfold hits. rewrite E; auto.
Qed.
Lemma collects_id t : collects t t Some.
Proof. apply (collects_inj t t Some (fun i => i)); [intros i j Hi [= <-]; auto|auto]. Qed.
Definition kept_total (t : tensor) (pl : list nat -> option (list nat)) : R := sumR (map (fun i => match pl i with Some _ => t_at t i | None => 0%R end) (all_idx (t_shape t))).
Theorem collects_total t t' pl : collects t t' pl -> total t' = kept_total t pl.
Proof.
  intros (A & B). unfold total, flat, kept_total. transitivity (sumR (map (fun j => sumR (map (fun i => if hits pl j i then t_at t i else 0%R) (all_idx (t_shape t)))) (all_idx (t_shape t')))).
  - apply sumR_map_ext. intros j Ij. apply all_idx_In in Ij. rewrite B by auto. unfold collected. apply sumR_filter.
  - rewrite sumR_swap. apply sumR_map_ext. intros i Ii. apply all_idx_In in Ii. unfold hits. destruct (pl i) as [k|] eqn:E; [|apply sumR_map_0].
    assert (Ik : In k (all_idx (t_shape t'))) by (apply all_idx_In; eapply A; eauto).
    etransitivity; [|exact (sumR_one (list_eq_dec Nat.eq_dec) (all_idx (t_shape t')) k (t_at t i) (all_idx_NoDup _) Ik)]. apply sumR_map_ext. intros x _. unfold cell_eqb. destruct (list_eq_dec Nat.eq_dec k x); auto.
Qed.

(** ** list surgery *)
Lemma insert_remove {A} (d : A) : forall k l, k < List.length l -> insert_at k (nth k l d) (remove_at k l) = l.
Proof.
  intros k l H. unfold insert_at, remove_at. rewrite firstn_app, firstn_firstn, Nat.min_id, firstn_length_le by lia. rewrite Nat.sub_diag. cbn [firstn]. rewrite app_nil_r.
  rewrite skipn_app, firstn_length_le by lia. rewrite (skipn_all2 (firstn k l)) by (rewrite firstn_length; lia). rewrite Nat.sub_diag. cbn [skipn app].
  transitivity (firstn k l ++ skipn k l); [|apply firstn_skipn]. f_equal. revert l H. induction k as [|k IH]; intros [|a l] H; cbn [List.length] in H; try lia; auto. cbn [nth skipn]. apply IH. lia.
Qed.
Lemma remove_insert {A} (v : A) k l : k <= List.length l -> remove_at k (insert_at k v l) = l.
Proof.
  intros H. unfold insert_at, remove_at. rewrite firstn_app, firstn_firstn, Nat.min_id, firstn_length_le by lia. rewrite Nat.sub_diag. cbn [firstn]. rewrite app_nil_r.
  rewrite skipn_app, firstn_length_le by lia. rewrite skipn_all2 by (rewrite firstn_length; lia). replace (S k - k) with 1 by lia. cbn [skipn app]. apply firstn_skipn.
Qed.
Lemma nth_insert {A} (d v : A) k l : k <= List.length l -> nth k (insert_at k v l) d = v.
Proof. intros H. unfold insert_at. rewrite app_nth2 by (rewrite firstn_length; lia). rewrite firstn_length_le by lia. rewrite Nat.sub_diag. auto. Qed.
Lemma Forall2_app_split {A B} (P : A -> B -> Prop) a b c : Forall2 P (a ++ b) c -> Forall2 P a (firstn (List.length a) c) /\ Forall2 P b (skipn (List.length a) c).
Proof. intros H. apply Forall2_app_inv_l in H as (x & y & X & Y & ->). pose proof (Forall2_len _ _ _ X) as L. rewrite L, firstn_app, firstn_all, Nat.sub_diag, skipn_app, skipn_all, Nat.sub_diag. cbn. rewrite app_nil_r. auto. Qed.
Lemma in_shape_remove shape i k : in_shape shape i -> in_shape (remove_at k shape) (remove_at k i).
Proof.
  unfold in_shape, remove_at. intros H. apply Forall2_app.
  - clear - H. revert k. induction H; intros [|k]; cbn; constructor; auto.
  - revert k. induction H; intros k; [destruct k; constructor|]. destruct k; [cbn; auto|]. change (Forall2 (fun n i => i < n) (skipn (S k) l) (skipn (S k) l')). apply IHForall2.
Qed.
Lemma in_shape_insert shape i k n v : in_shape (remove_at k shape) i -> nth_error shape k = Some n -> v < n -> in_shape shape (insert_at k v i).
Proof.
  intros H N V. pose proof (nth_error_Some shape k) as L. rewrite N in L. assert (k < List.length shape) by (apply L; discriminate). clear L.
  unfold in_shape, remove_at, insert_at in *. apply Forall2_app_split in H as (H1 & H2). rewrite firstn_length_le in H1, H2 by lia.
  rewrite <- (firstn_skipn k shape). apply Forall2_app; auto. replace (skipn k shape) with (n :: skipn (S k) shape); [constructor; auto|].
  clear - N. revert k N. induction shape as [|a s IH]; intros [|k] N; cbn in *; try discriminate; [congruence|]. apply IH. auto.
Qed.
Lemma remove_len {A} k (l : list A) : k < List.length l -> List.length (remove_at k l) = List.length l - 1.
Proof. intros H. unfold remove_at. rewrite app_length, firstn_length_le, skipn_length by lia. lia. Qed.
Lemma nth_nth_error {A} (d : A) k l : k < List.length l -> nth_error l k = Some (nth k l d).
Proof. apply nth_error_nth'. Qed.
Lemma in_shape_nth shape i k : in_shape shape i -> k < List.length shape -> nth k i 0 < nth k shape 0.
Proof. intros H. revert k. induction H; intros [|k] L; cbn in *; try lia. apply IHForall2. lia. Qed.

Theorem sum_axis_collects k t : k < rank t -> collects t (sum_axis k t) (fun i => Some (remove_at k i)).
Proof.
  intros K. unfold rank in K. apply (collects_list t (sum_axis k t) _ (fun j => map (fun v => insert_at k v j) (seq 0 (nth k (t_shape t) 0)))); cbn [sum_axis t_shape t_at].
  - intros i j Hi [= <-]. apply in_shape_remove. auto.
  - intros j Hj. rewrite map_map. auto.
  - intros j Hj. pose proof (in_shape_len _ _ Hj) as L. rewrite remove_len in L by auto. apply FinFun.Injective_map_NoDup; [|apply seq_NoDup]. intros x y E. apply (f_equal (fun l => nth k l 0)) in E. rewrite !nth_insert in E by lia. auto.
  - intros j i Hj. pose proof (in_shape_len _ _ Hj) as L. rewrite remove_len in L by auto. rewrite in_map_iff. split.
    + intros (v & <- & Iv). apply in_seq in Iv. split; [|rewrite remove_insert by lia; auto]. apply (in_shape_insert _ _ _ (nth k (t_shape t) 0)); [auto|apply nth_nth_error; auto|lia].
    + intros (Hi & [= <-]). pose proof (in_shape_len _ _ Hi). exists (nth k i 0). split; [apply insert_remove; lia|]. apply in_seq. pose proof (in_shape_nth _ _ k Hi K). lia.
Qed.
