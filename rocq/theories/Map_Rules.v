(** Operations that act on each axis on its own, and their composition. *)
From Coq Require Import Reals List Arith ZArith Bool String Lia Lra Permutation.
From Verif Require Import RBase PyList PyDict ListUtil Shape Map_Model Map_Spec Map_Collect Map_Perm.
Import ListNotations.
Local Open Scope nat_scope.

(** [Gone f]: the axis is removed, bins with f are kept; [Stay f]: bin i goes to f i *)
Inductive rule := Gone (f : nat -> bool) | Stay (f : nat -> option nat).
Fixpoint place (rs : list rule) (idx : list nat) : option (list nat) :=
  match rs, idx with
  | Gone f :: r, i :: q => if f i then place r q else None
  | Stay f :: r, i :: q => match f i, place r q with Some j, Some p => Some (j :: p) | _, _ => None end
  | _, q => Some q
  end.
Definition then_rule (r s : rule) : rule :=
  match r, s with
  | Stay f, Stay g => Stay (fun i => match f i with Some j => g j | None => None end)
  | Stay f, Gone g => Gone (fun i => match f i with Some j => g j | None => false end)
  | Gone f, _ => Gone f
  end.
Fixpoint compose (rs ss : list rule) : list rule :=
  match rs with
  | [] => ss
  | Gone f :: r => Gone f :: compose r ss
  | Stay f :: r => match ss with [] => rs | s :: q => then_rule (Stay f) s :: compose r q end
  end.
Lemma place_nil idx : place [] idx = Some idx.
Proof. destruct idx; auto. Qed.
Lemma place_nil_idx rs : place rs [] = Some [].
Proof. destruct rs as [|[|] r]; auto. Qed.
Lemma compose_nil rs : compose rs [] = rs.
Proof. induction rs as [|[f|f] r IH]; cbn [compose]; auto. rewrite IH. auto. Qed.
Lemma compose_place : forall rs ss idx, List.length rs <= List.length idx -> then_ (place rs) (place ss) idx = place (compose rs ss) idx.
Proof.
  unfold then_. induction rs as [|[f|f] r IH]; intros ss idx L.
  - rewrite ?place_nil. auto.
  - destruct idx as [|i q]; cbn in L; [lia|]. cbn [place compose]. destruct (f i); auto. apply IH. lia.
  - destruct idx as [|i q]; cbn in L; [lia|]. cbn [place compose]. destruct ss as [|s ss].
    + cbn [place]. destruct (f i); auto. destruct (place r q); auto.
    + destruct s as [g|g]; cbn [then_rule place]; rewrite <- (IH ss q) by lia; destruct (f i) as [j|]; auto; destruct (place r q) as [p|]; cbn [place]; auto; [destruct (g j); auto|destruct (g j); auto].
Qed.
Definition id_rule : rule := Stay Some.
Lemma place_id k rs idx : k <= List.length idx -> place (repeat id_rule k ++ rs) idx = option_map (app (firstn k idx)) (place rs (skipn k idx)).
Proof.
  revert idx. induction k as [|k IH]; intros idx L; cbn [repeat app firstn skipn]; [destruct (place rs idx); auto|]. destruct idx as [|i q]; cbn in L; [lia|]. cbn [id_rule place skipn firstn]. fold id_rule. rewrite IH by lia. destruct (place rs (skipn k q)); auto.
Qed.
(** one axis *)
Definition on_axis (k : nat) (r : rule) : list rule := repeat id_rule k ++ [r].
Lemma skipn_nth {A} (d : A) k l : k < List.length l -> skipn k l = nth k l d :: skipn (S k) l.
Proof. revert k. induction l as [|a l IH]; intros [|k] L; cbn in L; try lia; auto. cbn [skipn nth]. apply IH. lia. Qed.
Lemma place_on_axis k r idx : k < List.length idx ->
  place (on_axis k r) idx = match r with
    | Gone f => if f (nth k idx 0) then Some (remove_at k idx) else None
    | Stay f => option_map (fun j => set_at k j idx) (f (nth k idx 0)) end.
Proof.
  intros K. unfold on_axis. rewrite place_id by lia. rewrite (skipn_nth 0) by auto. unfold remove_at, set_at. destruct r as [f|f]; cbn [place].
  - rewrite ?place_nil. destruct (f _); auto.
  - rewrite ?place_nil. destruct (f _); auto.
Qed.
Theorem sum_axis_rule k t : k < rank t -> collects t (sum_axis k t) (place (on_axis k (Gone (fun _ => true)))).
Proof. intros K. eapply collects_ext; [apply sum_axis_collects; auto|]. intros i Hi. apply in_shape_len in Hi. rewrite place_on_axis by (unfold rank in K; lia). auto. Qed.

(** ** slices on the first axis *)
Theorem slice0_collects a b t n r : t_shape t = n :: r -> collects t (slice0 a b t) (place [Stay (fun i => if (a <=? i) && (i <? Nat.min b n) then Some (i - a) else None)]).
Proof.
  intros S. unfold slice0. rewrite S. apply (collects_inj _ _ _ (fun j => match j with x :: q => a + x :: q | [] => [] end)); cbn [t_shape t_at]; rewrite S.
  - intros i j Hi. inversion Hi as [|x y l q A B]; subst. cbn [place]. rewrite ?place_nil. destruct (Nat.leb_spec a y); [|discriminate]. destruct (Nat.ltb_spec y (Nat.min b n)); [|discriminate]. cbn. intros [= <-]. split; [|f_equal; lia]. constructor; [lia|auto].
  - intros j Hj. inversion Hj as [|x y l q A B]; subst. split; auto. split; [constructor; auto; lia|]. cbn [place]. rewrite ?place_nil. destruct (Nat.leb_spec a (a + y)); [|lia]. destruct (Nat.ltb_spec (a + y) (Nat.min b n)); [|lia]. cbn. do 2 f_equal. lia.
Qed.
(** ** segment sums *)
Lemma count_last ids : count_of ids = match ids with [] => 0 | _ => Z.to_nat (last ids (-1)%Z + 1) end.
Proof. unfold count_of. destruct ids as [|a l] using rev_ind; auto. rewrite rev_app_distr. cbn [rev app]. rewrite last_last. destruct l; auto. Qed.
Lemma sorted_last ids : sorted_ids ids = true -> forall i, i < List.length ids -> (0 <= nth i ids (-1) <= last ids (-1))%Z.
Proof.
  induction ids as [|a l IH]; intros H i I; cbn in I; [lia|]. cbn [sorted_ids] in H. apply andb_true_iff in H as (H & Hl). apply andb_true_iff in H as (Ha & Hb). apply Z.leb_le in Ha. destruct l as [|b l].
  - destruct i; cbn in *; lia.
  - apply Z.leb_le in Hb. change (last (a :: b :: l) (-1)%Z) with (last (b :: l) (-1)%Z). destruct i as [|i]; cbn [nth].
    + specialize (IH Hl 0). cbn [nth] in IH. cbn [List.length] in IH. specialize (IH ltac:(lia)). lia.
    + apply (IH Hl i). cbn [List.length] in *. lia.
Qed.
Theorem segment_sum_collects t ids n r : t_shape t = n :: r -> List.length ids = n -> sorted_ids ids = true ->
  exists t', segment_sum t ids = Ok t' /\ t_shape t' = count_of ids :: r /\ collects t t' (place [Stay (fun i => Some (Z.to_nat (nth i ids (-1)%Z)))]).
Proof.
  intros S L H. unfold segment_sum. rewrite S, L, Nat.eqb_refl, H. cbn [negb]. eexists. split; [reflexivity|]. split; [reflexivity|].
  apply (collects_list _ _ _ (fun j => match j with s :: q => map (fun x => x :: q) (filter (fun x => Z.eqb (nth x ids (-1)%Z) (Z.of_nat s)) (seq 0 n)) | [] => [] end)); cbn [t_shape t_at]; try rewrite S.
  - intros i j Hi. inversion Hi as [|x y l q A B]; subst. cbn [place]. rewrite ?place_nil. intros [= <-]. constructor; auto. pose proof (sorted_last _ H y A). rewrite count_last. destruct ids; cbn in A; [lia|]. lia.
  - intros j Hj. inversion Hj as [|x y l q A B]; subst. rewrite map_map. auto.
  - intros j Hj. inversion Hj as [|x y l q A B]; subst. apply FinFun.Injective_map_NoDup; [intros ? ? [= ->]; auto|]. apply NoDup_filter', seq_NoDup.
  - intros j i Hj. inversion Hj as [|x y l q A B]; subst. rewrite in_map_iff. split.
    + intros (v & <- & Iv). apply filter_In in Iv as (I & E). apply in_seq in I. apply Z.eqb_eq in E. split; [constructor; auto; lia|]. cbn [place]. rewrite ?place_nil, E, Nat2Z.id. auto.
    + intros (Hi & E). inversion Hi as [|x' v l' q' A' B']; subst. cbn [place] in E. rewrite ?place_nil in E. injection E as E ->. exists v. split; auto. apply filter_In. split; [apply in_seq; lia|]. apply Z.eqb_eq. pose proof (sorted_last _ H v A'). lia.
Qed.
Definition seg_f (ids : list Z) (i : nat) : option nat := if (nth i ids (-1) <? 0)%Z then None else Some (Z.to_nat (nth i ids (-1)%Z)).
Lemma leading_lt ids i : i < leading ids -> nth i ids (-1)%Z = (-1)%Z.
Proof. revert i. induction ids as [|z l IH]; intros i; cbn; [destruct i; auto|]. destruct (Z.eqb_spec z (-1)); [|lia]. destruct i; auto. intros. apply IH. lia. Qed.
Lemma leading_le ids : leading ids <= List.length ids.
Proof. induction ids as [|z l IH]; cbn; auto. destruct (Z.eqb z (-1)); lia. Qed.
Lemma nth_pyslice {A} (d : A) a b l i : i < b - a -> b <= List.length l -> nth i (pyslice a b l) d = nth (a + i) l d.
Proof.
  intros H L. unfold pyslice. assert (E : nth_error (firstn (b - a) (skipn a l)) i = nth_error l (a + i)) by (rewrite nth_error_firstn, nth_error_skipn; destruct (Nat.ltb_spec i (b - a)); auto; lia).
  rewrite (nth_error_nth' l d) in E by lia. apply nth_error_nth with (d := d) in E. auto.
Qed.
Lemma pyslice_len {A} a b (l : list A) : b <= List.length l -> List.length (pyslice a b l) = b - a.
Proof. intros H. unfold pyslice. rewrite firstn_length, skipn_length. lia. Qed.
Lemma set_insert {A} (v : A) k l : k < List.length l -> insert_at k v (remove_at k l) = set_at k v l.
Proof.
  intros H. unfold insert_at, remove_at, set_at. rewrite firstn_app, firstn_firstn, Nat.min_id, firstn_length_le, Nat.sub_diag by lia. cbn [firstn]. rewrite app_nil_r. f_equal. f_equal.
  rewrite skipn_app, firstn_length_le by lia. rewrite skipn_all2 by (rewrite firstn_length; lia). rewrite Nat.sub_diag. auto.
Qed.
Theorem segment_axis t ids k num : k < rank t -> List.length ids = nth k (t_shape t) 0 ->
  let mid := pyslice (leading ids) (List.length ids - leading (rev ids)) ids in
  sorted_ids mid = true -> count_of mid = num ->
  exists t', segment_sum_along_axis t ids k num = Ok t' /\ t_shape t' = set_at k num (t_shape t) /\ collects t t' (place (on_axis k (Stay (seg_f ids)))).
Proof.
  intros K L mid HS HC. unfold segment_sum_along_axis. change (filter (fun i => negb (i =? k)) (seq 0 (rank t))) with (others (rank t) k).
  destruct (transpose_collects (k :: others (rank t) k) t (front_perm _ _ K)) as (t1 & -> & S1 & C1). cbn [rbind].
  rewrite (permuted_front (rank t)) in S1 by auto. rewrite S1. cbn [hd].
  pose proof (slice0_collects (leading ids) (nth k (t_shape t) 0 - leading (rev ids)) t1 _ _ S1) as C2.
  assert (S2 : t_shape (slice0 (leading ids) (nth k (t_shape t) 0 - leading (rev ids)) t1) = (nth k (t_shape t) 0 - leading (rev ids) - leading ids) :: remove_at k (t_shape t)).
  { unfold slice0. rewrite S1. cbn [t_shape]. f_equal. lia. }
  set (t2 := slice0 _ _ t1) in *. fold mid.
  assert (Lm : List.length mid = nth k (t_shape t) 0 - leading (rev ids) - leading ids) by (unfold mid; rewrite pyslice_len; lia).
  destruct (segment_sum_collects t2 mid _ _ S2 Lm HS) as (t3 & -> & S3 & C3). cbn [rbind]. rewrite S3. cbn [hd]. rewrite HC, Nat.eqb_refl. cbn [negb].
  assert (R3 : rank t3 = rank t) by (unfold rank in *; rewrite S3; cbn [List.length]; rewrite remove_len by auto; lia).
  assert (Lp : List.length (k :: others (rank t) k) = rank t) by (cbn [List.length]; rewrite others_len by auto; lia). rewrite Lp.
  change (map (fun i => pos_of i (k :: others (rank t) k)) (seq 0 (rank t))) with (back (rank t) k).
  destruct (transpose_collects (back (rank t) k) t3) as (t4 & -> & S4 & C4); [rewrite R3; apply back_perm; auto|].
  exists t4. split; auto. split.
  { rewrite S4, S3, permuted_back by (auto; rewrite remove_len; unfold rank in *; lia). rewrite HC. apply set_insert. auto. }
  eapply collects_ext; [eapply collects_trans; [exact C1|]; eapply collects_trans; [exact C2|]; eapply collects_trans; [exact C3|exact C4]|].
  intros i Hi. pose proof (in_shape_len _ _ Hi) as Li. pose proof (in_shape_nth _ _ k Hi K) as Lk. unfold then_. rewrite (permuted_front (rank t)) by (auto; unfold rank; lia). cbn [place]. rewrite ?place_nil.
  rewrite place_on_axis by (unfold rank in K; lia). unfold seg_f. set (v := nth k i 0) in *.
  destruct (Nat.leb_spec (leading ids) v) as [A|A].
  - destruct (Nat.ltb_spec v (Nat.min (nth k (t_shape t) 0 - leading (rev ids)) (nth k (t_shape t) 0))) as [B|B]; cbn [andb].
    + cbn [place]. rewrite ?place_nil. assert (E : nth (v - leading ids) mid (-1)%Z = nth v ids (-1)%Z) by (unfold mid; rewrite nth_pyslice; [f_equal; lia|lia|lia]). rewrite E.
      pose proof (sorted_last _ HS (v - leading ids)) as Q. rewrite E in Q. destruct (Z.ltb_spec (nth v ids (-1)%Z) 0%Z); [lia|]. cbn [option_map]. f_equal. rewrite permuted_back; [|auto|rewrite remove_len; unfold rank in *; lia]. apply set_insert. unfold rank in *; lia.
    + assert (E : nth v ids (-1)%Z = (-1)%Z); [|rewrite E; auto]. pose proof (leading_le (rev ids)) as Q. rewrite rev_length in Q.
      pose proof (leading_lt (rev ids) (List.length ids - 1 - v)) as P. rewrite rev_nth in P by lia. replace (List.length ids - S (List.length ids - 1 - v)) with v in P by lia. apply P. lia.
  - cbn [andb]. rewrite leading_lt by auto. auto.
Qed.
(** ** selections *)
Definition find_pos (l : list nat) (i : nat) : option nat := if existsb (Nat.eqb i) l then Some (pos_of i l) else None.
Definition asel_rule (s : asel) : rule := match s with APos l => Stay (find_pos l) | AIdx k => Gone (Nat.eqb k) end.
Lemma find_pos_spec l i j : NoDup l -> (find_pos l i = Some j <-> j < List.length l /\ nth j l 0 = i).
Proof.
  intros ND. unfold find_pos. destruct (existsb (Nat.eqb i) l) eqn:E.
  - apply existsb_exists in E as (x & I & X). apply Nat.eqb_eq in X. subst x. split.
    + intros [= <-]. split; [apply pos_of_spec; auto|apply nth_pos_of; auto].
    + intros (J & <-). f_equal. apply pos_of_nth; auto.
  - split; [discriminate|]. intros (J & <-). exfalso. assert (T : existsb (Nat.eqb (nth j l 0)) l = true); [|congruence]. apply existsb_exists. exists (nth j l 0). split; [apply nth_In; auto|apply Nat.eqb_refl].
Qed.
(** the positions are inside the axis and distinct *)
Definition asel_fits (s : asel) (n : nat) : Prop := match s with APos l => NoDup l /\ forall x, In x l -> x < n | AIdx k => k < n end.
Lemma select_place ss shape : Forall2 asel_fits ss (firstn (List.length ss) shape) -> List.length ss <= List.length shape ->
  (forall i j, in_shape shape i -> place (map asel_rule ss) i = Some j -> in_shape (sel_shape ss shape) j /\ i = sel_idx ss j) /\
  (forall j, in_shape (sel_shape ss shape) j -> in_shape shape (sel_idx ss j) /\ place (map asel_rule ss) (sel_idx ss j) = Some j).
Proof.
  revert shape. induction ss as [|s ss IH]; intros shape F L.
  - cbn [map sel_shape sel_idx]. split; [intros i j Hi; rewrite ?place_nil; intros [= <-]; destruct i; auto|]. intros j Hj. rewrite ?place_nil. destruct j; auto.
  - destruct shape as [|n r]; cbn in L; [lia|]. cbn [List.length firstn] in F. inversion F as [|? ? ? ? F1 F2]; subst. destruct (IH r F2 ltac:(lia)) as (I1 & I2). destruct s as [l|k]; cbn [sel_shape map asel_rule].
    + destruct F1 as (ND & Lt). split.
      * intros i j Hi. inversion Hi as [|x y a q A B]; subst. cbn [place]. destruct (find_pos l y) as [p|] eqn:E; [|discriminate]. apply find_pos_spec in E as (P & E); auto. destruct (place _ q) as [w|] eqn:W; [|discriminate]. intros [= <-].
        destruct (I1 _ _ B W) as (U & ->). split; [constructor; auto|]. cbn [sel_idx]. rewrite E. auto.
      * intros j Hj. inversion Hj as [|x y a q A B]; subst. destruct (I2 _ B) as (U & W). cbn [sel_idx]. split; [constructor; auto; apply Lt, nth_In; auto|]. cbn [place]. rewrite W. replace (find_pos l (nth y l 0)) with (Some y); auto. symmetry. apply find_pos_spec; auto.
    + cbn in F1. split.
      * intros i j Hi. inversion Hi as [|x y a q A B]; subst. cbn [place]. destruct (Nat.eqb_spec k y) as [->|]; [|discriminate]. intros W. destruct (I1 _ _ B W) as (U & ->). split; auto; cbn [sel_idx]; destruct j; auto.
      * intros j Hj. destruct (I2 _ Hj) as (U & W). assert (E : sel_idx (AIdx k :: ss) j = k :: sel_idx ss j) by (destruct j; auto). rewrite E. split; [constructor; auto|]. cbn [place]. rewrite Nat.eqb_refl. auto.
Qed.
Theorem select_collects ss t : Forall2 asel_fits ss (firstn (List.length ss) (t_shape t)) -> List.length ss <= rank t ->
  exists t', select_t ss t = Ok t' /\ t_shape t' = sel_shape ss (t_shape t) /\ collects t t' (place (map asel_rule ss)).
Proof.
  intros F L. unfold select_t. destruct (Nat.ltb_spec (rank t) (List.length ss)); [lia|].
  replace (forallb asel_ok (combine ss (t_shape t))) with true.
  - eexists. split; [reflexivity|]. split; [reflexivity|]. destruct (select_place ss (t_shape t) F L) as (A & B). apply (collects_inj _ _ _ (sel_idx ss)); cbn [t_shape t_at]; auto.
  - symmetry. unfold rank in L. clear H. generalize dependent (t_shape t). induction ss as [|s ss IH]; intros sh F L; auto. destruct sh as [|n r]; cbn in L; [lia|]. cbn [List.length firstn] in F. inversion F as [|? ? ? ? F1 F2]; subst. cbn [combine forallb]. rewrite IH by (auto; lia). rewrite andb_true_r. unfold asel_ok. cbn [fst snd]. destruct s; auto. apply Nat.ltb_lt. auto.
Qed.
(** ** reshapes *)
Theorem reshape_collects t shape : prodn (t_shape t) = prodn shape ->
  exists t', reshape_t t shape = Ok t' /\ t_shape t' = shape /\ collects t t' (fun i => nth_error (all_idx shape) (ravel (t_shape t) i)).
Proof.
  intros E. unfold reshape_t. rewrite E, Nat.eqb_refl. eexists. split; [reflexivity|]. split; [reflexivity|].
  apply (collects_inj _ _ _ (fun j => nth (ravel shape j) (all_idx (t_shape t)) [])); cbn [t_shape t_at].
  - intros i j Hi Hj. pose proof (nth_error_In _ _ Hj) as I. apply all_idx_In in I. split; auto. apply all_idx_pos in Hj. rewrite <- Hj. symmetry. apply nth_error_nth, all_idx_nth. auto.
  - intros j Hj. split; auto. pose proof (ravel_lt _ _ Hj) as Lt. rewrite <- E in Lt. destruct (all_idx_at _ _ Lt) as (i & N & I & R). rewrite (nth_error_nth _ _ [] N). split; auto. rewrite R. apply all_idx_nth. auto.
Qed.
