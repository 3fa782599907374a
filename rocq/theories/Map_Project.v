(** Projections. *)
From Coq Require Import Reals List Arith ZArith Bool String Lia Lra Permutation.
From Verif Require Import RBase PyList PyDict ListUtil Shape Map_Model Map_Spec Map_Collect Map_Perm Map_Rules Map_Term Map_Merge Map_Select Map_Cells Param_Names.
Import ListNotations.
Local Open Scope nat_scope.

Definition kept_names (axes : list haxis) (keep : list string) : list string := filter (fun m => smem m keep) (map ha_name axes).
Definition kept_coords (axes : list haxis) (keep : list string) (idx : list nat) : list nat := map snd (filter (fun ai => smem (ha_name (fst ai)) keep) (combine axes idx)).
Definition size_of (axes : list haxis) (n : string) : nat := match find (fun a => String.eqb (ha_name a) n) axes with Some a => ha_size a | None => 0 end.
Lemma kept_place keep : forall axes idx tl, List.length idx = List.length axes ->
  place (map (summed (fun a => negb (smem (ha_name a) keep))) axes) (idx ++ tl) = Some (kept_coords axes keep idx ++ tl).
Proof.
  unfold kept_coords. induction axes as [|a axes IH]; intros [|i q] tl L; try discriminate; [cbn; destruct tl; auto|]. cbn in L. cbn [map app combine filter fst snd]. unfold summed at 1. destruct (smem (ha_name a) keep); cbn [negb place id_rule]; rewrite IH by lia; auto.
Qed.
Lemma kept_nth axes keep idx n j : List.length idx = List.length axes -> In n keep -> index_of n (kept_names axes keep) = Some j -> nth j (kept_coords axes keep idx) 0 = coordinate axes idx n.
Proof.
  intros L I. unfold coordinate, kept_names, kept_coords. revert idx j L. induction axes as [|a axes IH]; intros [|i q] j L; try discriminate. cbn in L. cbn [map filter combine find fst snd].
  destruct (smem (ha_name a) keep) eqn:E.
  - cbn [index_of map]. rewrite (String.eqb_sym (ha_name a) n). destruct (String.eqb n (ha_name a)); [intros [= <-]; auto|]. destruct (index_of n (filter _ _)) as [k|] eqn:K; [|discriminate]. cbn [option_map]. intros [= <-]. cbn [nth]. apply IH; auto; lia.
  - destruct (String.eqb_spec (ha_name a) n) as [Q|Q]; [|apply IH; lia]. intros _. exfalso. subst n. apply smem_In in I. congruence.
Qed.
Lemma kept_len keep : forall axes idx, List.length idx = List.length axes -> List.length (kept_coords axes keep idx) = List.length (kept_names axes keep).
Proof. unfold kept_coords, kept_names. induction axes as [|a axes IH]; intros [|i q] L; try discriminate; auto. cbn in L. cbn [combine filter map fst snd]. destruct (smem (ha_name a) keep); cbn [map List.length]; rewrite IH by lia; auto. Qed.
Section Keep.
Variables (axes : list haxis) (keep : list string).
Hypothesis (ND : NoDup (map ha_name axes)) (Nk : NoDup keep) (Hk : forall n, In n keep -> In n (map ha_name axes)).
Lemma kept_permutation : Permutation (kept_names axes keep) keep.
Proof.
  apply NoDup_Permutation; [apply NoDup_filter'; auto|auto|]. intros n. unfold kept_names. rewrite filter_In, smem_In. split; [tauto|]. intros I. split; auto.
Qed.
Lemma index_nth : forall l j, NoDup l -> j < List.length l -> index_of (nth j l ""%string) l = Some j.
Proof.
  induction l as [|a l IH]; intros j N L; cbn in L; [lia|]. inversion N as [|? ? Na Nl]; subst. destruct j as [|j]; cbn [nth index_of]; [rewrite String.eqb_refl; auto|].
  destruct (String.eqb_spec (nth j l ""%string) a) as [E|E]; [exfalso; apply Na; rewrite <- E; apply nth_In; lia|]. rewrite IH by (auto; lia). auto.
Qed.
Lemma perm_ok : is_perm (List.length (kept_names axes keep)) (project_perm axes keep) = true.
Proof.
  pose proof kept_permutation as P. unfold is_perm, project_perm. rewrite map_length, (Permutation_length P), Nat.eqb_refl. cbn [andb]. apply forallb_forall. intros j I. apply in_seq in I. apply existsb_exists. exists j. split; [|apply Nat.eqb_refl].
  apply in_map_iff. exists (nth j (kept_names axes keep) ""%string). fold (kept_names axes keep). rewrite index_nth; [split; auto|apply NoDup_filter'; auto|rewrite (Permutation_length P); lia]. eapply Permutation_in; [exact P|]. apply nth_In. rewrite (Permutation_length P). lia.
Qed.
Lemma project_perm_len : List.length (project_perm axes keep) = List.length (kept_names axes keep).
Proof. unfold project_perm. rewrite map_length, (Permutation_length kept_permutation). auto. Qed.
Lemma permuted_project idx tl : List.length idx = List.length axes -> permuted (project_perm axes keep) (kept_coords axes keep idx ++ tl) = projected axes keep idx.
Proof.
  intros L. unfold permuted, project_perm, projected. rewrite map_map. apply map_ext_in. intros n I. fold (kept_names axes keep). destruct (index_of_In n (kept_names axes keep)) as (j & J); [eapply Permutation_in; [symmetry; exact kept_permutation|auto]|]. rewrite J.
  rewrite app_nth1; [apply kept_nth; auto|]. rewrite kept_len by auto. apply nth_error_Some. rewrite (index_of_Some _ _ _ J). discriminate.
Qed.
Lemma perm_app n m perm : is_perm n perm = true -> is_perm (n + m) (perm ++ seq n m) = true.
Proof. intros H. apply is_perm_intro. rewrite seq_app. cbn [plus]. apply Permutation_app_tail. apply is_perm_spec. auto. Qed.
Lemma permuted_tail p n m x y : List.length x = n -> List.length y = m -> permuted (p ++ seq n m) (x ++ y) = permuted p (x ++ y) ++ y.
Proof.
  intros Lx Ly. unfold permuted. rewrite map_app. f_equal. rewrite (map_nth_skipn 0 (x ++ y) n m) by (rewrite app_length; lia). subst n. rewrite skipn_app, skipn_all, Nat.sub_diag. auto.
Qed.
Lemma kept_sizes : map ha_size (filter (fun a => negb (negb (smem (ha_name a) keep))) axes) = kept_coords axes keep (map ha_size axes).
Proof. unfold kept_coords. clear. induction axes as [|a l IH]; cbn; auto. destruct (smem (ha_name a) keep); cbn; rewrite IH; auto. Qed.
Lemma coordinate_size n : coordinate axes (map ha_size axes) n = size_of axes n.
Proof. unfold coordinate, size_of. clear. induction axes as [|a l IH]; cbn; auto. destruct (String.eqb (ha_name a) n); auto. Qed.
Definition pick (k : nat) (idx : list nat) : list nat := projected axes keep (firstn k idx) ++ skipn k idx.
Theorem project_collects v tail : t_shape v = map ha_size axes ++ tail ->
  exists t, project_t axes keep v = Ok t /\ t_shape t = map (size_of axes) keep ++ tail /\ collects v t (fun i => Some (pick (List.length axes) i)).
Proof.
  intros S. unfold project_t.
  assert (D : dropped axes keep = map fst (filter (fun x => negb (smem (ha_name (snd x)) keep)) (combine (seq 0 (List.length axes)) axes))) by reflexivity.
  destruct (reduce_rules (fun a => negb (smem (ha_name a) keep)) axes 0 [] tail v eq_refl S) as (S1 & C1). cbn [app repeat] in S1, C1. change (reduce_sum _ v) with (reduce_sum (dropped axes keep) v) in S1, C1. set (e := reduce_sum (dropped axes keep) v) in *.
  rewrite kept_sizes in S1. set (m := List.length (kept_names axes keep)). assert (Lk : List.length (kept_coords axes keep (map ha_size axes)) = m) by (apply kept_len; apply map_length).
  assert (Re : rank e = m + List.length tail) by (unfold rank; rewrite S1, app_length, Lk; auto).
  assert (Pe : (if List.length (project_perm axes keep) <? rank e then project_perm axes keep ++ seq (List.length (project_perm axes keep)) (rank e - List.length (project_perm axes keep)) else project_perm axes keep) = project_perm axes keep ++ seq m (List.length tail)).
  { rewrite project_perm_len. fold m. rewrite Re. replace (m + List.length tail - m) with (List.length tail) by lia. destruct (Nat.ltb_spec m (m + List.length tail)); auto. destruct tail; cbn in *; [rewrite app_nil_r; auto|lia]. }
  rewrite Pe. destruct (transpose_collects (project_perm axes keep ++ seq m (List.length tail)) e) as (t & T & S2 & C2); [rewrite Re; apply perm_app, perm_ok|].
  exists t. split; auto. split.
  - rewrite S2, S1, permuted_tail by auto. f_equal. rewrite permuted_project by apply map_length. apply map_ext. intros. apply coordinate_size.
  - eapply collects_ext; [eapply collects_trans; [exact C1|exact C2]|]. intros i Hi. pose proof (in_shape_len _ _ Hi) as Li. rewrite S, app_length, map_length in Li. unfold then_.
    rewrite <- (firstn_skipn (List.length axes) i) at 1. assert (Lf : List.length (firstn (List.length axes) i) = List.length axes) by (apply firstn_length_le; lia). rewrite kept_place by auto. f_equal. unfold pick.
    rewrite permuted_tail; [|rewrite kept_len by auto; auto|rewrite skipn_length; lia]. rewrite permuted_project by auto. auto.
Qed.
End Keep.
Lemma collects_unique v t t' pl : collects v t pl -> collects v t' pl -> t_shape t = t_shape t' -> forall j, in_shape (t_shape t) j -> t_at t j = t_at t' j.
Proof. intros (_ & A) (_ & B) S j J. rewrite A by auto. rewrite B by (rewrite <- S; auto). auto. Qed.
Lemma collects_flat v t t' pl : collects v t pl -> collects v t' pl -> t_shape t = t_shape t' -> flat t = flat t'.
Proof. intros A B S. unfold flat. rewrite <- S. apply map_ext_in. intros j J. apply all_idx_In in J. eapply collects_unique; eauto. Qed.
(** ** in two steps *)
Lemma pick_names axes keep : (forall n, In n keep -> In n (map ha_name axes)) -> map ha_name (pick_axes axes keep) = keep.
Proof.
  unfold pick_axes. induction keep as [|n keep IH]; intros H; auto. cbn [flat_map]. rewrite map_app, IH by (intros; apply H; cbn; auto). specialize (H n (or_introl eq_refl)). destruct (find (fun a => String.eqb (ha_name a) n) axes) as [a|] eqn:F.
  - apply find_some in F as (_ & E). apply String.eqb_eq in E. cbn. rewrite E. auto.
  - exfalso. apply in_map_iff in H as (a & <- & I). pose proof (find_none _ _ F a I) as Q. cbn in Q. rewrite String.eqb_refl in Q. discriminate.
Qed.
Lemma pick_sizes axes keep : (forall n, In n keep -> In n (map ha_name axes)) -> map ha_size (pick_axes axes keep) = map (size_of axes) keep.
Proof.
  unfold pick_axes, size_of. induction keep as [|n keep IH]; intros H; auto. cbn [flat_map map]. rewrite map_app, IH by (intros; apply H; cbn; auto). specialize (H n (or_introl eq_refl)). destruct (find (fun a => String.eqb (ha_name a) n) axes) as [a|] eqn:F; auto.
  exfalso. apply in_map_iff in H as (a & <- & I). pose proof (find_none _ _ F a I) as Q. cbn in Q. rewrite String.eqb_refl in Q. discriminate.
Qed.
Lemma coordinate_map axes (g : string -> nat) n : In n (map ha_name axes) -> coordinate axes (map g (map ha_name axes)) n = g n.
Proof. unfold coordinate. induction axes as [|a l IH]; cbn; [tauto|]. destruct (String.eqb_spec (ha_name a) n) as [<-|N]; auto. intros [E|I]; [tauto|auto]. Qed.
Lemma size_pick axes keep n : (forall m, In m keep -> In m (map ha_name axes)) -> In n keep -> size_of (pick_axes axes keep) n = size_of axes n.
Proof.
  intros Hk I. rewrite <- (coordinate_size (pick_axes axes keep) n). rewrite (pick_sizes axes keep Hk). rewrite <- (pick_names axes keep Hk) at 2. apply coordinate_map. rewrite pick_names; auto.
Qed.
Theorem project_two_steps axes keep keep2 v tail t : NoDup (map ha_name axes) -> NoDup keep -> NoDup keep2 -> (forall n, In n keep -> In n (map ha_name axes)) -> (forall n, In n keep2 -> In n keep) -> t_shape v = map ha_size axes ++ tail ->
  project_t axes keep v = Ok t -> exists t1 t2, project_t (pick_axes axes keep) keep2 t = Ok t1 /\ project_t axes keep2 v = Ok t2 /\ t_shape t1 = t_shape t2 /\ flat t1 = flat t2.
Proof.
  intros ND Nk Nk2 Hk Hk2 S E. destruct (project_collects axes keep ND Nk Hk v tail S) as (t' & E' & S' & C'). rewrite E' in E. apply ok_inj in E. subst t'.
  assert (Np : NoDup (map ha_name (pick_axes axes keep))) by (rewrite pick_names; auto).
  destruct (project_collects (pick_axes axes keep) keep2 Np Nk2) with (v := t) (tail := tail) as (t1 & E1 & S1 & C1); [intros n I; rewrite pick_names; auto|rewrite pick_sizes; auto|].
  destruct (project_collects axes keep2 ND Nk2) with (v := v) (tail := tail) as (t2 & E2 & S2 & C2); [auto|auto|].
  assert (Sq : t_shape t1 = t_shape t2) by (rewrite S1, S2; f_equal; apply map_ext_in; intros n I; apply size_pick; auto).
  exists t1, t2. split; auto. split; auto. split; auto. eapply collects_flat; [|exact C2|auto]. eapply collects_ext; [eapply collects_trans; [exact C'|exact C1]|]. intros i Hi. pose proof (in_shape_len _ _ Hi) as Li. rewrite S, app_length, map_length in Li. unfold then_, pick. f_equal.
  assert (Lp : List.length (projected axes keep (firstn (List.length axes) i)) = List.length (pick_axes axes keep)) by (unfold projected; rewrite <- (map_length ha_name (pick_axes axes keep)), pick_names, map_length by auto; auto).
  rewrite <- Lp. rewrite firstn_app, firstn_all, Nat.sub_diag, skipn_app, skipn_all, Nat.sub_diag. cbn [firstn skipn app]. rewrite app_nil_r. f_equal.
  unfold projected. apply map_ext_in. intros n I. set (g := coordinate axes (firstn (List.length axes) i)). rewrite <- (pick_names axes keep Hk) at 2. apply coordinate_map. rewrite pick_names; auto.
Qed.
Theorem project_total axes keep v tail t : NoDup (map ha_name axes) -> NoDup keep -> (forall n, In n keep -> In n (map ha_name axes)) -> t_shape v = map ha_size axes ++ tail -> project_t axes keep v = Ok t -> total t = total v.
Proof.
  intros ND Nk Hk S E. destruct (project_collects axes keep ND Nk Hk v tail S) as (t' & E' & S' & C'). rewrite E' in E. apply ok_inj in E. subst t'. rewrite (collects_total _ _ _ C'). unfold kept_total, total, flat. auto.
Qed.
(** ** mappings *)
Definition resized (axes : list haxis) (sh : list nat) : list haxis := map (fun p => mkHaxis (ha_name (fst p)) (snd p) (snd p) []) (combine axes sh).
Lemma resized_names axes sh : List.length sh = List.length axes -> map ha_name (resized axes sh) = map ha_name axes.
Proof. unfold resized. revert sh. induction axes as [|a l IH]; intros [|n sh] L; try discriminate; auto. cbn in *. rewrite IH; auto. Qed.
Lemma resized_sizes axes sh : List.length sh = List.length axes -> map ha_size (resized axes sh) = sh.
Proof. unfold resized. revert sh. induction axes as [|a l IH]; intros [|n sh] L; try discriminate; auto. cbn in *. rewrite IH; auto. Qed.
Lemma dropped_names keep : forall a b, map ha_name a = map ha_name b -> dropped a keep = dropped b keep.
Proof.
  unfold dropped. intros a b E. assert (L : List.length a = List.length b) by (rewrite <- (map_length ha_name a), E, map_length; auto). rewrite L. clear L. assert (Q : forall o, map fst (filter (fun p => negb (smem (ha_name (snd p)) keep)) (combine (seq o (List.length b)) a)) = map fst (filter (fun p => negb (smem (ha_name (snd p)) keep)) (combine (seq o (List.length b)) b))); [|apply Q].
  revert b E. induction a as [|x a IH]; intros [|y b] E o; try discriminate; auto. cbn in E. injection E as E1 E2. cbn [List.length seq combine filter snd]. rewrite E1. destruct (negb _); cbn [map fst]; rewrite (IH b E2); auto.
Qed.
Lemma project_names a b keep v : map ha_name a = map ha_name b -> project_t a keep v = project_t b keep v.
Proof. intros E. unfold project_t, project_perm. rewrite (dropped_names keep a b E), E. auto. Qed.
Lemma projected_names keep idx : forall a b, map ha_name a = map ha_name b -> projected a keep idx = projected b keep idx.
Proof.
  intros a b E. unfold projected. apply map_ext. intros n. unfold coordinate. revert b idx E. induction a as [|x a IH]; intros [|y b] idx E; try discriminate; auto. cbn in E. injection E as E1 E2. destruct idx as [|i q]; auto. cbn [combine find fst]. rewrite E1. destruct (String.eqb _ _); auto.
Qed.
Lemma whole_place : forall l idx tl, in_shape l idx -> place (map asel_rule (map (fun n => APos (seq 0 n)) l)) (idx ++ tl) = Some (idx ++ tl).
Proof.
  induction l as [|n l IH]; intros idx tl H; inversion H as [|? i ? q A B]; subst; [cbn; destruct tl; auto|]. cbn [map asel_rule app place]. rewrite find_pos_seq. cbn [plus]. destruct (Nat.leb_spec 0 i); [|lia]. destruct (Nat.ltb_spec i n); [|lia]. cbn [andb]. rewrite (IH q tl B), Nat.sub_0_r. auto.
Qed.
Lemma whole_term procs c tm : term_init procs c [] [] [] [] = Ok tm -> tm_start tm = ci_start c /\ tm_stop tm = ci_stop c /\ tm_shape tm = chan_shape c /\ tm_procs tm = [] /\ tm_sel tm = map (fun n => APos (seq 0 n)) (chan_shape c) /\ tm_seg tm = [] /\ tm_sum tm = [].
Proof.
  unfold term_init. cbn [forallb negb rebin_loop rbind fst]. intros E. apply ok_inj in E. subst tm. cbn [tm_start tm_stop tm_shape tm_procs tm_sel tm_seg tm_sum]. split; auto. split; auto. split; auto. split.
  { rewrite proc_positions_eq. induction (seq 0 (List.length procs)); cbn; auto. }
  split; [|split; auto].
  - assert (Q : forall a l, List.length l = List.length a -> map (fun p : haxis * nat => match dget (ha_name (fst p)) [] with Some s => to_asel (snd p) s | None => APos (seq 0 (snd p)) end) (combine a l) = map (fun n => APos (seq 0 n)) l) by (induction a as [|x a IH]; intros [|n l] L; try discriminate; auto; cbn in L; cbn [combine map fst snd dget]; rewrite IH by lia; auto). apply Q. unfold chan_shape. rewrite map_length. auto.
  - assert (Q : forall (l : list (nat * haxis)), filter (fun p => smem (ha_name (snd p)) []) l = []) by (induction l; cbn; auto). rewrite Q. auto.
Qed.
Lemma whole_finish tm v shape tail : tm_sel tm = map (fun n => APos (seq 0 n)) shape -> tm_seg tm = [] -> tm_sum tm = [] -> t_shape v = shape ++ tail ->
  exists t, finish tm v = Ok t /\ t_shape t = shape ++ tail /\ forall i, in_shape (shape ++ tail) i -> t_at t i = t_at v i.
Proof.
  intros E1 E2 E3 S. unfold finish. rewrite E1, E2, E3.
  destruct (select_collects (map (fun n => APos (seq 0 n)) shape) v) as (t & T & S2 & C).
  { rewrite S, map_length, firstn_app, firstn_all, Nat.sub_diag. cbn [firstn]. rewrite app_nil_r. clear. induction shape; cbn [map]; constructor; auto. cbn. split; [apply seq_NoDup|]. intros x I. apply in_seq in I. lia. }
  { unfold rank. rewrite S, app_length, map_length. lia. }
  rewrite T. cbn [rbind seg_steps reduce_sum fold_right]. exists t. split; auto.
  assert (Sh : sel_shape (map (fun n => APos (seq 0 n)) shape) (shape ++ tail) = shape ++ tail) by (clear; induction shape as [|n l IH]; cbn [map sel_shape app]; [destruct tail; auto|rewrite seq_length, IH; auto]).
  rewrite S, Sh in S2. split; auto. intros i I. assert (C' : collects v t Some). { eapply collects_ext; [exact C|]. intros j J. rewrite S in J. apply Forall2_app_inv_l in J as (x & y & X & Y & ->). apply whole_place. auto. }
  apply (collects_unique v t v Some C' (collects_id v)); rewrite ?S2, ?S; auto.
Qed.
Lemma sum_positions v t f pl shape : collects v t pl -> t_shape v = shape -> (forall i, in_shape shape i -> t_at v i = f i) -> flat t = map (collected f shape pl) (all_idx (t_shape t)).
Proof. intros C S E. unfold flat. apply map_ext_in. intros j J. apply all_idx_In in J. eapply collects_values; eauto. rewrite S. auto. Qed.
(** channels of any kind: flow bins count like the others *)
Definition filled (c : cinfo) : Prop := NoDup (map ha_name (ci_axes c)) /\ ci_stop c = ci_start c + prodn (chan_shape c).
Definition shape_of (c : cinfo) (n : string) : nat := coordinate (ci_axes c) (chan_shape c) n.
Lemma size_of_resized axes sh n : List.length sh = List.length axes -> size_of (resized axes sh) n = coordinate axes sh n.
Proof. unfold size_of, resized, coordinate. revert sh. induction axes as [|a l IH]; intros [|k sh] L; try discriminate; auto. cbn in *. destruct (String.eqb (ha_name a) n); auto. Qed.
Section Mapping.
Variables (procs : list string) (c : cinfo) (keep : list string).
Hypothesis (Hc : filled c) (Nk : NoDup keep) (Hk : forall n, In n keep -> In n (map ha_name (ci_axes c))).
Let shape := chan_shape c.
Lemma chan_len : List.length shape = List.length (ci_axes c).
Proof. unfold shape, chan_shape. apply map_length. Qed.
Lemma project_any v tail : t_shape v = shape ++ tail ->
  exists t, project_t (ci_axes c) keep v = Ok t /\ t_shape t = map (shape_of c) keep ++ tail /\ collects v t (fun i => Some (pick (ci_axes c) keep (List.length (ci_axes c)) i)).
Proof.
  intros S. pose proof chan_len as Lc. destruct Hc as (ND & _). destruct (project_collects (resized (ci_axes c) shape) keep) with (v := v) (tail := tail) as (t & T & St & C); auto.
  - rewrite resized_names; auto.
  - rewrite resized_names; auto.
  - rewrite resized_sizes; auto.
  - exists t. rewrite (project_names (ci_axes c) (resized (ci_axes c) shape)) by (rewrite resized_names; auto). split; auto. split.
    + rewrite St. f_equal. apply map_ext. intros n. rewrite size_of_resized; auto.
    + eapply collects_ext; [exact C|]. intros i _. unfold pick. assert (Lr : List.length (resized (ci_axes c) shape) = List.length (ci_axes c)) by (rewrite <- (map_length ha_name), resized_names, map_length; auto). rewrite Lr. do 2 f_equal. apply projected_names. apply resized_names. auto.
Qed.
Lemma keep_check : forallb (fun n => smem n (map ha_name (ci_axes c))) keep = true.
Proof. apply forallb_forall. intros n I. apply smem_In. auto. Qed.
Lemma term_exists : exists tm, term_init procs c [] [] [] [] = Ok tm.
Proof. unfold term_init. cbn [forallb negb rebin_loop rbind]. eexists. reflexivity. Qed.
Lemma whole_flat tm obs n : term_init procs c [] [] [] [] = Ok tm -> t_shape obs = [n] -> ci_stop c <= n ->
  exists v, term_select tm false true obs = Ok v /\ t_shape v = shape /\ forall i, in_shape shape i -> t_at v i = t_at obs [ci_start c + ravel shape i].
Proof.
  intros T So Sn. destruct Hc as (ND & St). destruct (whole_term _ _ _ T) as (F1 & F2 & F3 & F4 & F5 & F6 & F7).
  destruct (first_stage_flat obs (ci_start c) (ci_stop c) n shape So Sn St) as (v & V & Sv & Av).
  assert (Rk : rank (slice0 (tm_start tm) (tm_stop tm) obs) = 1) by (unfold slice0, rank; rewrite So; auto).
  rewrite (select_finish tm true obs v) by (rewrite Rk, F1, F2, F3; auto).
  destruct (whole_finish tm v shape [] F5 F6 F7) as (t & Ft & St' & At); [rewrite app_nil_r; auto|]. rewrite app_nil_r in *. exists t. split; auto. split; auto. intros i I. rewrite At by auto. apply Av; auto.
Qed.
Lemma whole_procs tm obs n m : term_init procs c [] [] [] [] = Ok tm -> t_shape obs = [n; m] -> ci_stop c <= n ->
  exists v, term_select tm false false obs = Ok v /\ t_shape v = shape ++ [m] /\ forall i p, in_shape shape i -> p < m -> t_at v (i ++ [p]) = t_at obs [ci_start c + ravel shape i; p].
Proof.
  intros T So Sn. destruct Hc as (ND & St). destruct (whole_term _ _ _ T) as (F1 & F2 & F3 & F4 & F5 & F6 & F7).
  destruct (first_stage_procs obs (ci_start c) (ci_stop c) n _ shape So Sn St) as (S1 & A1). destruct (reshape_procs _ _ shape S1) as (w & W & Sw & Aw).
  assert (Rk : rank (slice0 (tm_start tm) (tm_stop tm) obs) = 2) by (unfold slice0, rank; rewrite So; auto).
  rewrite (select_finish tm false obs w).
  2:{ rewrite Rk, F1, F2, F3, F4. cbn [Nat.eqb]. cbv zeta. rewrite S1. cbn [nth]. fold shape. rewrite W. auto. }
  destruct (whole_finish tm w shape [m] F5 F6 F7 Sw) as (t & Ft & St' & At). exists t. split; auto. split; auto. intros i p I P. rewrite At by (apply Forall2_app; auto; constructor; auto; constructor). rewrite Aw by auto. apply A1. apply ravel_lt; auto.
Qed.
Definition proj_place (i : list nat) : option (list nat) := Some (projected (ci_axes c) keep i).
Lemma pick_whole i : in_shape shape i -> pick (ci_axes c) keep (List.length (ci_axes c)) i = projected (ci_axes c) keep i.
Proof. intros I. pose proof (in_shape_len _ _ I) as L. rewrite chan_len in L. unfold pick. rewrite <- L, firstn_all, skipn_all, app_nil_r. auto. Qed.
Theorem project_flat obs n : t_shape obs = [n] -> ci_stop c <= n ->
  exists m, project_mapping procs c keep false = Ok m /\ mp_axes m = pick_axes (ci_axes c) keep /\
    mp_flat m obs = Ok (map (collected (fun i => t_at obs [ci_start c + ravel shape i]) shape proj_place) (all_idx (map (shape_of c) keep))).
Proof.
  intros So Sn. destruct term_exists as (tm & T). unfold project_mapping. rewrite T. cbn [rbind]. rewrite keep_check. cbn [negb]. eexists. split; [reflexivity|]. cbn [mp_axes mp_flat]. split; auto.
  destruct (whole_flat tm obs n T So Sn) as (v & -> & Sv & Av). cbn [rbind]. unfold out_flat. destruct (project_any v []) as (t & -> & St & C); [rewrite app_nil_r; auto|]. cbn [rbind]. f_equal. rewrite app_nil_r in St. rewrite <- St. apply (sum_positions v t); auto. eapply collects_ext; [exact C|]. intros i I. cbv beta. rewrite Sv in I. rewrite pick_whole by auto. auto.
Qed.
Definition chan_total (obs : tensor) : R := sumR (map (fun i => t_at obs [ci_start c + ravel shape i]) (all_idx shape)).
Theorem normalize_flat obs n : t_shape obs = [n] -> ci_stop c <= n ->
  exists m, project_mapping procs c keep true = Ok m /\
    mp_flat m obs = Ok (map (fun j => collected (fun i => t_at obs [(ci_start c + ravel shape i)%nat]) shape proj_place j / chan_total obs)%R (all_idx (map (shape_of c) keep))).
Proof.
  intros So Sn. destruct term_exists as (tm & T). unfold project_mapping. rewrite T. cbn [rbind]. rewrite keep_check. cbn [negb]. eexists. split; [reflexivity|]. cbn [mp_flat].
  destruct (whole_flat tm obs n T So Sn) as (v & -> & Sv & Av). cbn [rbind]. unfold out_flat, normalize_t. destruct (project_any (map_t (fun x => (x / total v)%R) v) []) as (t & -> & St & C); [rewrite app_nil_r; auto|]. cbn [rbind]. f_equal. rewrite app_nil_r in St. rewrite <- St.
  assert (Tv : total v = chan_total obs) by (unfold total, flat, chan_total; rewrite Sv; apply sumR_map_ext; intros i I; apply all_idx_In in I; auto).
  rewrite (sum_positions (map_t (fun x => (x / total v)%R) v) t (fun i => (t_at obs [(ci_start c + ravel shape i)%nat] / chan_total obs)%R) proj_place shape).
  - apply map_ext. intros j. unfold collected. unfold Rdiv. rewrite Rmult_comm, <- sumR_map_scal. apply sumR_map_ext. intros. lra.
  - eapply collects_ext; [exact C|]. intros i I. cbv beta. cbn [map_t t_shape] in I. rewrite Sv in I. rewrite pick_whole by auto. auto.
  - auto.
  - intros i I. cbn [map_t t_at]. rewrite Tv, Av by auto. auto.
Qed.
End Mapping.
