(** Row-major multi-indices: itertools.product, np.reshape, broadcasting. *)
From Coq Require Import List Arith Lia.
From Verif Require Import PyList ListUtil.
Import ListNotations.

(** itertools.product of ranges, the last index runs fastest *)
Fixpoint all_idx (shape : list nat) : list (list nat) :=
  match shape with
  | [] => [[]]
  | n :: r => flat_map (fun i => map (cons i) (all_idx r)) (seq 0 n)
  end.
(** position of an index in a flattened array *)
Fixpoint ravel (shape idx : list nat) : nat :=
  match shape, idx with
  | _ :: r, i :: is => i * prodn r + ravel r is
  | _, _ => 0
  end.
Definition in_shape (shape idx : list nat) : Prop := Forall2 (fun n i => i < n) shape idx.

Lemma prodn_cons n r : prodn (n :: r) = n * prodn r.
Proof. reflexivity. Qed.
Lemma prodn_app a b : prodn (a ++ b) = prodn a * prodn b.
Proof. induction a as [|x a IH]; [change (prodn b = 1 * prodn b); lia|]. change (x * prodn (a ++ b) = x * prodn a * prodn b). rewrite IH. lia. Qed.
Lemma flat_map_len {A B} (f : A -> list B) c l : (forall x, In x l -> length (f x) = c) -> length (flat_map f l) = length l * c.
Proof. induction l; intros H; simpl; auto. rewrite app_length, H, IHl; simpl; auto. intros; apply H; simpl; auto. Qed.
Lemma all_idx_len shape : length (all_idx shape) = prodn shape.
Proof.
  induction shape as [|n r IH]; auto. cbn [all_idx]. rewrite (flat_map_len _ (prodn r)), seq_length, prodn_cons; auto.
  intros. rewrite map_length. auto.
Qed.
Lemma all_idx_In shape idx : In idx (all_idx shape) <-> in_shape shape idx.
Proof.
  revert idx. induction shape as [|n r IH]; intros idx; cbn [all_idx].
  - split; [intros [<-|[]]; constructor|]. intros H. inversion H; subst; simpl; auto.
  - rewrite in_flat_map. split.
    + intros (i & Hi & H). apply in_map_iff in H as (l & <- & Hl). apply in_seq in Hi. constructor; [lia|]. apply IH; auto.
    + intros H. inversion H; subst. exists y. split; [apply in_seq; lia|]. apply in_map. apply IH; auto.
Qed.
Lemma in_shape_len shape idx : in_shape shape idx -> length idx = length shape.
Proof. intros H. symmetry. eapply Forall2_len; eauto. Qed.
Lemma ravel_lt shape idx : in_shape shape idx -> ravel shape idx < prodn shape.
Proof.
  intros H. induction H as [|n i r is H H' IH]; [change (0 < 1); lia|]. rewrite prodn_cons. cbn [ravel]. nia.
Qed.
Lemma flat_map_nth {A B} (f : A -> list B) c l : (forall x, In x l -> length (f x) = c) -> forall k j x,
  nth_error l k = Some x -> j < c -> nth_error (flat_map f l) (k * c + j) = nth_error (f x) j.
Proof.
  induction l as [|a l IH]; intros H k j x E J; [destruct k; discriminate|]. cbn [flat_map]. destruct k as [|k]; simpl in E.
  - injection E as ->. rewrite nth_error_app1; auto. rewrite H by (simpl; auto). lia.
  - rewrite nth_error_app2 by (rewrite H by (simpl; auto); lia). rewrite H by (simpl; auto).
    replace (S k * c + j - c) with (k * c + j) by lia. apply IH; auto. intros; apply H; simpl; auto.
Qed.
Lemma all_idx_nth shape idx : in_shape shape idx -> nth_error (all_idx shape) (ravel shape idx) = Some idx.
Proof.
  intros H. induction H as [|n i r is H H' IH]; auto. cbn [all_idx ravel].
  rewrite (flat_map_nth _ (prodn r)) with (x := i).
  - rewrite nth_error_map', IH. reflexivity.
  - intros. rewrite map_length. apply all_idx_len.
  - rewrite nth_error_seq' by auto. f_equal.
  - apply ravel_lt. auto.
Qed.
Lemma all_idx_NoDup shape : NoDup (all_idx shape).
Proof.
  induction shape as [|n r IH]; [repeat constructor; intros []|]. cbn [all_idx]. assert (N := seq_NoDup n 0). revert N. generalize (seq 0 n).
  induction l as [|i l IHl]; intros N; [constructor|]. inversion N; subst. cbn [flat_map]. apply NoDup_app'; auto.
  - apply FinFun.Injective_map_NoDup; auto. intros a b E. injection E. auto.
  - intros x Hx Hy. apply in_map_iff in Hx as (a & <- & _). apply in_flat_map in Hy as (j & Hj & Hy). apply in_map_iff in Hy as (b & E & _). injection E as -> _. contradiction.
Qed.
Lemma all_idx_pos shape k idx : nth_error (all_idx shape) k = Some idx -> k = ravel shape idx.
Proof.
  intros H. assert (I : in_shape shape idx) by (apply all_idx_In; eapply nth_error_In; eauto).
  assert (X := all_idx_nth _ _ I). eapply nth_error_inj; eauto. apply all_idx_NoDup.
Qed.
Lemma ravel_inj shape a b : in_shape shape a -> in_shape shape b -> ravel shape a = ravel shape b -> a = b.
Proof. intros Ha Hb E. apply all_idx_nth in Ha. apply all_idx_nth in Hb. rewrite E in Ha. congruence. Qed.
Lemma all_idx_at shape k : k < prodn shape -> exists idx, nth_error (all_idx shape) k = Some idx /\ in_shape shape idx /\ ravel shape idx = k.
Proof.
  intros H. destruct (nth_error (all_idx shape) k) as [idx|] eqn:E.
  - exists idx. split; auto. split; [apply all_idx_In; eapply nth_error_In; eauto|]. symmetry. apply all_idx_pos. auto.
  - apply nth_error_None in E. rewrite all_idx_len in E. lia.
Qed.
