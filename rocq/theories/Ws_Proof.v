From Coq Require Import Reals List Arith Bool String Ascii Lia.
From Verif Require Import RBase PyList PyDict ListUtil Shape Map_Model Map_Collect Map_Cells Map_Merge Nll_Proof Parse_Model Ws_Model Ws_Spec.
Import ListNotations.
Local Open Scope nat_scope.

Lemma skipn_skipn {A} x : forall y (l : list A), skipn x (skipn y l) = skipn (x + y) l.
Proof. induction y as [|y IH]; intros l; [rewrite Nat.add_0_r; auto|]. rewrite Nat.add_succ_r. destruct l as [|a l]; [rewrite skipn_nil; auto|]. cbn [skipn]. apply IH. Qed.
(** ** contents of a histogram *)
Lemma reshape_at l s t : reshape_t (of_list l) s = Ok t -> t_shape t = s /\ List.length l = prodn s /\ (forall i, in_shape s i -> t_at t i = nth (ravel s i) l 0%R).
Proof.
  unfold reshape_t. change (t_shape (of_list l)) with [List.length l]. rewrite prodn_cons. change (prodn []) with 1. rewrite Nat.mul_1_r. destruct (Nat.eqb_spec (List.length l) (prodn s)) as [E|]; [|discriminate]. intros H. injection H as <-. split; [reflexivity|]. split; auto.
  intros i I. change (nth (hd 0 (nth (ravel s i) (all_idx [List.length l]) [])) l 0%R = nth (ravel s i) l 0%R). pose proof (ravel_lt _ _ I) as B. assert (S1 : in_shape [List.length l] [ravel s i]) by (repeat constructor; lia). pose proof (all_idx_nth _ _ S1) as N. cbn [ravel] in N. change (prodn []) with 1 in N. rewrite Nat.mul_1_r, Nat.add_0_r in N. rewrite (nth_error_nth (all_idx [List.length l]) _ [] N). reflexivity.
Qed.
Lemma reshape_ok l s : List.length l = prodn s -> exists t, reshape_t (of_list l) s = Ok t.
Proof. intros E. unfold reshape_t. change (t_shape (of_list l)) with [List.length l]. rewrite prodn_cons. change (prodn []) with 1. rewrite Nat.mul_1_r, E, Nat.eqb_refl. eauto. Qed.
Lemma reshape_bad l s : List.length l <> prodn s -> reshape_t (of_list l) s = Raise ValueError.
Proof. intros E. unfold reshape_t. change (t_shape (of_list l)) with [List.length l]. rewrite prodn_cons. change (prodn []) with 1. rewrite Nat.mul_1_r. destruct (Nat.eqb_spec (List.length l) (prodn s)); [lia|auto]. Qed.
Lemma flat_list s t l : t_shape t = s -> List.length l = prodn s -> (forall i, in_shape s i -> t_at t i = nth (ravel s i) l 0%R) -> flat t = l.
Proof.
  intros S L H. apply (nth_ext _ _ 0%R 0%R); unfold flat; rewrite map_length, S, all_idx_len; auto. intros n N. destruct (all_idx_at s n N) as (i & E & I & R).
  rewrite (nth_indep _ 0%R (t_at t [])) by (rewrite map_length, all_idx_len; auto). rewrite map_nth. erewrite nth_error_nth by exact E. rewrite H by auto. rewrite R. auto.
Qed.
Lemma pad_cats_shape : forall axes k t, List.length (t_shape t) = k + List.length axes -> t_shape (pad_cats k axes t) = firstn k (t_shape t) ++ map (fun p => if wa_cat (fst p) then snd p + 1 else snd p) (combine axes (skipn k (t_shape t))).
Proof.
  induction axes as [|a r IH]; intros k t L; cbn [List.length] in L.
  - cbn [pad_cats combine map]. rewrite app_nil_r, firstn_all2 by lia. auto.
  - cbn [pad_cats]. set (u := if wa_cat a then pad_axis k t else t).
    destruct (skipn k (t_shape t)) as [|n q] eqn:Q; [apply (f_equal (@List.length nat)) in Q; rewrite skipn_length in Q; cbn in Q; lia|].
    assert (T : t_shape t = firstn k (t_shape t) ++ n :: q) by (rewrite <- Q; symmetry; apply firstn_skipn).
    assert (U : t_shape u = firstn k (t_shape t) ++ (if wa_cat a then n + 1 else n) :: q).
    { unfold u. destruct (wa_cat a); [|auto]. cbn [pad_axis t_shape]. unfold set_at. f_equal. assert (N : nth k (t_shape t) 0 = n) by (rewrite T, app_nth2; rewrite firstn_length_le by lia; [rewrite Nat.sub_diag; auto|lia]). rewrite N. f_equal.
      replace (S k) with (1 + k) by lia. rewrite <- skipn_skipn, Q. auto. }
    rewrite IH by (rewrite U, app_length; cbn [List.length]; rewrite T, app_length in L; cbn [List.length] in L; lia).
    rewrite U. assert (K : List.length (firstn k (t_shape t)) = k) by (apply firstn_length_le; lia).
    rewrite firstn_app, skipn_app, K. replace (S k - k) with 1 by lia. rewrite (firstn_all2 (firstn k (t_shape t))) by lia. rewrite (skipn_all2 (firstn k (t_shape t))) by lia. cbn [firstn skipn app combine map fst snd]. rewrite <- app_assoc. auto.
Qed.
Lemma pad_shape_nth k t j : nth j (t_shape (pad_axis k t)) 0 = (if Nat.eqb j k then nth k (t_shape t) 0 + 1 else nth j (t_shape t) 0) \/ List.length (t_shape t) <= k.
Proof.
  destruct (Nat.lt_ge_cases k (List.length (t_shape t))); [left|auto]. cbn [pad_axis t_shape]. rewrite set_at_nth by auto. auto.
Qed.
Lemma pad_cats_in : forall axes k t i, k + List.length axes <= List.length (t_shape t) -> (forall j a, nth_error axes j = Some a -> wa_cat a = true -> nth (k + j) i 0 < nth (k + j) (t_shape t) 0) -> t_at (pad_cats k axes t) i = t_at t i.
Proof.
  induction axes as [|a r IH]; intros k t i L H; [auto|]. cbn [pad_cats List.length] in *. rewrite IH.
  - destruct (wa_cat a) eqn:C; [|auto]. cbn [pad_axis t_at]. specialize (H 0 a eq_refl C). rewrite Nat.add_0_r in H. apply Nat.ltb_lt in H. rewrite H. auto.
  - destruct (wa_cat a); [cbn [pad_axis t_shape]; rewrite set_at_len by lia|]; lia.
  - intros j b B C. specialize (H (S j) b B C). replace (k + S j) with (S k + j) in H by lia. destruct (wa_cat a); [|auto]. destruct (pad_shape_nth k t (S k + j)) as [->|]; [|lia]. destruct (Nat.eqb_spec (S k + j) k); [lia|auto].
Qed.
Lemma pad_cats_out : forall axes k t i j a, k + List.length axes <= List.length (t_shape t) -> nth_error axes j = Some a -> wa_cat a = true -> nth (k + j) (t_shape t) 0 <= nth (k + j) i 0 -> t_at (pad_cats k axes t) i = 1%R.
Proof.
  assert (P : forall axes k t i, (forall i', i' = i -> t_at t i' = 1%R) -> t_at (pad_cats k axes t) i = 1%R).
  { induction axes as [|a r IH]; intros k t i H; [apply H; auto|]. cbn [pad_cats]. apply IH. intros i' ->. destruct (wa_cat a); [|auto]. cbn [pad_axis t_at]. destruct (Nat.ltb _ _); auto. }
  induction axes as [|a r IH]; intros k t i j b L E C H; [destruct j; discriminate|]. cbn [pad_cats List.length] in *. destruct j as [|j].
  - injection E as ->. rewrite C. apply P. intros i' ->. cbn [pad_axis t_at]. rewrite Nat.add_0_r in H. destruct (Nat.ltb_spec (nth k i 0) (nth k (t_shape t) 0)); [lia|auto].
  - apply (IH (S k) _ i j b); auto.
    + destruct (wa_cat a); [cbn [pad_axis t_shape]; rewrite set_at_len by lia|]; lia.
    + replace (k + S j) with (S k + j) in H by lia. destruct (wa_cat a); [|auto]. destruct (pad_shape_nth k t (S k + j)) as [->|]; [|lia]. destruct (Nat.eqb_spec (S k + j) k); [lia|auto].
Qed.
Definition base (flow : bool) (a : waxis) : nat := if flow then if wa_cat a then wa_size a else wa_extent a else wa_size a.
Lemma nth_base flow axes j a : nth_error axes j = Some a -> nth j (map (base flow) axes) 0 = base flow a.
Proof. intros E. apply nth_error_nth. rewrite nth_error_map, E. auto. Qed.
Lemma hist_at flow axes l t : hist_tensor flow axes l = Ok t -> List.length l = prodn (map (base flow) axes) /\ t_shape t = map (fun a => if flow then wa_extent a else wa_size a) axes /\
  (forall i, in_shape (map (base flow) axes) i -> t_at t i = nth (ravel (map (base flow) axes) i) l 0%R) /\
  (flow = true -> forall i j a, nth_error axes j = Some a -> wa_cat a = true -> wa_size a <= nth j i 0 -> t_at t i = 1%R).
Proof.
  unfold hist_tensor. destruct flow.
  - change (map (fun a => if wa_cat a then wa_size a else wa_extent a) axes) with (map (base true) axes). destruct (reshape_t (of_list l) (map (base true) axes)) as [u|] eqn:E; [|discriminate]. cbn [rbind]. destruct (list_eq_dec _ _ _) as [S|]; [|discriminate]. intros H. injection H as <-.
    apply reshape_at in E. destruct E as (U & L & A). assert (LU : 0 + List.length axes <= List.length (t_shape u)) by (rewrite U, map_length; lia).
    split; [auto|]. split; [exact S|]. split.
    + intros i I. rewrite pad_cats_in; auto. intros j a J C. cbn [Nat.add]. rewrite U. apply in_shape_nth; auto. rewrite map_length. apply nth_error_Some. congruence.
    + intros _ i j a J C B. apply (pad_cats_out axes 0 u i j a); auto. cbn [Nat.add]. rewrite U, (nth_base true _ _ _ J). unfold base. rewrite C. auto.
  - change (map wa_size axes) with (map (base false) axes). intros E. apply reshape_at in E. destruct E as (U & L & A). repeat split; auto. discriminate.
Qed.
Lemma hist_ok flow axes l : List.length l = prodn (map (base flow) axes) -> Forall good_axis axes -> exists t, hist_tensor flow axes l = Ok t.
Proof.
  intros L G. destruct (reshape_ok l _ L) as (u & E). unfold hist_tensor. destruct flow; [|exists u; exact E].
  change (map (fun a => if wa_cat a then wa_size a else wa_extent a) axes) with (map (base true) axes). rewrite E. cbn [rbind]. apply reshape_at in E. destruct E as (U & _).
  assert (S : t_shape (pad_cats 0 axes u) = map wa_extent axes).
  { rewrite pad_cats_shape by (rewrite U, map_length; auto). rewrite U. cbn [firstn skipn app]. clear U L. induction G as [|a r A G IH]; [auto|]. cbn [map combine fst snd]. rewrite IH. f_equal. unfold base, good_axis in *. destruct (wa_cat a); lia. }
  destruct (list_eq_dec _ _ _); [eauto|contradiction].
Qed.
Lemma hist_flat flow axes l t : hist_tensor flow axes l = Ok t -> (flow = true -> Forall (fun a => wa_cat a = false) axes) -> flat t = l.
Proof.
  intros H C. apply hist_at in H. destruct H as (L & S & A & _). apply (flat_list (map (base flow) axes)); auto. rewrite S. apply map_ext_in. intros a I. unfold base. destruct flow; auto. rewrite (proj1 (Forall_forall _ _) (C eq_refl) a I). auto.
Qed.

(** ** rows *)
Lemma concat_len {A} m (rows : list (list A)) : Forall (fun r => List.length r = m) rows -> List.length (List.concat rows) = List.length rows * m.
Proof. induction 1 as [|r rows H _ IH]; [auto|]. cbn [List.concat List.length]. rewrite app_length, IH, H. lia. Qed.
Lemma concat_nth {A} (d : A) m rows r j : Forall (fun x => List.length x = m) rows -> r < List.length rows -> j < m -> nth (r * m + j) (List.concat rows) d = nth j (nth r rows []) d.
Proof.
  intros F. revert r. induction F as [|x rows H _ IH]; intros r B J; cbn [List.length] in B; [lia|]. cbn [List.concat]. destruct r as [|r]; [cbn [Nat.mul Nat.add nth]; apply app_nth1; lia|].
  rewrite app_nth2 by lia. cbn [nth]. rewrite <- IH by lia. f_equal. lia.
Qed.
Lemma pyslice_len {A} a b (l : list A) : b <= List.length l -> List.length (pyslice a b l) = b - a.
Proof. intros. unfold pyslice. rewrite firstn_length, skipn_length. lia. Qed.
Lemma pyslice_nth {A} a b (l : list A) r d : r < b - a -> nth r (pyslice a b l) d = nth (a + r) l d.
Proof.
  intros H. unfold pyslice. rewrite nth_firstn' by lia. apply nth_skipn'.
Qed.
Lemma pyslice_app {A} a b c (l : list A) : a <= b -> b <= c -> pyslice a b l ++ pyslice b c l = pyslice a c l.
Proof.
  intros H K. unfold pyslice. rewrite <- (firstn_skipn (b - a) (firstn (c - a) (skipn a l))) at 1. rewrite firstn_firstn, Nat.min_l by lia. f_equal. rewrite skipn_firstn_comm, skipn_skipn. f_equal; [lia|]. f_equal. lia.
Qed.
Lemma pyslice_all {A} (l : list A) n : List.length l <= n -> pyslice 0 n l = l.
Proof. intros. unfold pyslice. cbn [skipn]. rewrite Nat.sub_0_r. apply firstn_all2. auto. Qed.
Lemma pyslice_Forall {A} (P : A -> Prop) a b l : Forall P l -> Forall P (pyslice a b l).
Proof.
  intros H. apply Forall_forall. intros x I. rewrite Forall_forall in H. apply H. unfold pyslice in I.
  rewrite <- (firstn_skipn a l). apply in_or_app. right. rewrite <- (firstn_skipn (b - a) (skipn a l)). apply in_or_app. auto.
Qed.

(** ** the loops *)
Definition chan_axes (c : wchan) : list waxis := match wc_axes c with [] => [yield_axis] | l => l end.
Lemma chan_bins_shape c : chan_bins c = prodn (bin_shape c).
Proof. reflexivity. Qed.
Lemma expected_nth pa extra rows : forall cs start hs, expected_loop pa extra rows start cs = Ok hs -> List.length hs = List.length cs /\ forall k c, nth_error cs k = Some c ->
  exists h, nth_error hs k = Some (wc_name c, h) /\ let a := start + offset cs k in add_hist (wc_flow c) false (hist_axes pa c extra) rows (Some (a, a + chan_bins c)) = Ok h.
Proof.
  induction cs as [|c cs IH]; intros start hs H; cbn [expected_loop] in H.
  - injection H as <-. split; auto. intros [|k]; discriminate.
  - destruct (add_hist _ _ _ _ _) as [h|] eqn:E; [|discriminate]. cbn [rbind] in H. destruct (expected_loop pa extra rows (start + chan_bins c) cs) as [r|] eqn:R; [|discriminate]. cbn [rbind] in H. injection H as <-.
    destruct (IH _ _ R) as (L & N). split; [cbn; auto|]. intros [|k] d D; cbn [nth_error] in *.
    + injection D as <-. exists h. split; auto. unfold offset. cbn [firstn map sumn fold_right]. cbv zeta. rewrite Nat.add_0_r. exact E.
    + destruct (N k d D) as (h' & A & B). exists h'. split; auto. cbv zeta in *. replace (start + offset (c :: cs) (S k)) with (start + chan_bins c + offset cs k); [exact B|]. unfold offset. cbn [firstn map]. change (sumn (?x :: ?l)) with (x + sumn l). rewrite chan_bins_shape. lia.
Qed.
Lemma expected_okay pa extra rows : forall cs start, (forall k c, nth_error cs k = Some c -> let a := start + offset cs k in exists h, add_hist (wc_flow c) false (hist_axes pa c extra) rows (Some (a, a + chan_bins c)) = Ok h) -> exists hs, expected_loop pa extra rows start cs = Ok hs.
Proof.
  induction cs as [|c cs IH]; intros start H; cbn [expected_loop]; [eauto|]. destruct (H 0 c eq_refl) as (h & E). unfold offset in E. cbn [firstn map sumn fold_right] in E. cbv zeta in E. rewrite Nat.add_0_r in E. rewrite E. cbn [rbind].
  destruct (IH (start + chan_bins c)) as (hs & R); [|rewrite R; cbn [rbind]; eauto]. intros k d D. destruct (H (S k) d D) as (h' & E'). cbv zeta in *. exists h'. replace (start + chan_bins c + offset cs k) with (start + offset (c :: cs) (S k)); auto.
  unfold offset. cbn [firstn map]. change (sumn (?x :: ?l)) with (x + sumn l). rewrite chan_bins_shape. lia.
Qed.
Lemma map_base_axes c : flow_ok c -> map (base (wc_flow c)) (chan_axes c) = match wc_axes c with [] => [1] | _ => bin_shape c end.
Proof.
  intros F. unfold chan_axes. destruct (wc_axes c) as [|a r] eqn:E; [unfold base; cbn; destruct (wc_flow c); auto|]. unfold bin_shape. rewrite E. apply map_ext_in. intros x I. unfold base. destruct (wc_flow c) eqn:W; auto. specialize (F W). rewrite E in F. rewrite (proj1 (Forall_forall _ _) F x I). auto.
Qed.
Lemma map_base_plain flow l : Forall plain_axis l -> map (base flow) l = map wa_size l.
Proof. intros H. apply map_ext_in. intros a I. rewrite Forall_forall in H. specialize (H a I). unfold base, plain_axis in *. destruct flow, (wa_cat a); auto. Qed.
Lemma extras_plain pa c extra : Forall plain_axis extra -> Forall plain_axis (extras pa c extra).
Proof. intros H. unfold extras. destruct pa; auto. constructor; auto. reflexivity. Qed.
Lemma base_split pa c extra : flow_ok c -> Forall plain_axis extra ->
  map (base (wc_flow c)) (hist_axes pa c extra) = (match wc_axes c with [] => [1] | _ => bin_shape c end) ++ map wa_size (extras pa c extra).
Proof. intros F P. change (hist_axes pa c extra) with (chan_axes c ++ extras pa c extra). rewrite map_app, map_base_axes, map_base_plain; auto. apply extras_plain. auto. Qed.
Lemma bins_prod c : prodn (match wc_axes c with [] => [1] | _ => bin_shape c end) = prodn (bin_shape c).
Proof. unfold bin_shape. destruct (wc_axes c); auto. Qed.
Lemma bin_in c i : in_shape (bin_shape c) i -> in_shape (match wc_axes c with [] => [1] | _ => bin_shape c end) (bin_idx c i) /\ ravel (match wc_axes c with [] => [1] | _ => bin_shape c end) (bin_idx c i) = ravel (bin_shape c) i.
Proof.
  unfold bin_idx, bin_shape. destruct (wc_axes c) as [|a r]; [|auto]. cbn [map]. intros H. inversion H. split; [repeat constructor|]. reflexivity.
Qed.
Lemma expected_content pa extra rows cs hs k c i e : expected_hists pa extra rows cs = Ok hs -> nth_error cs k = Some c -> flow_ok c -> Forall plain_axis extra ->
  Forall (fun r => List.length r = prodn (map wa_size (extras pa c extra))) rows -> in_shape (bin_shape c) i -> in_shape (map wa_size (extras pa c extra)) e ->
  exists h, nth_error hs k = Some (wc_name c, h) /\ t_at h (bin_idx c i ++ e) = nth (ravel (map wa_size (extras pa c extra)) e) (nth (offset cs k + ravel (bin_shape c) i) rows []) 0%R.
Proof.
  intros H C F P R I E. apply expected_nth in H. destruct H as (_ & H). destruct (H k c C) as (h & N & A). exists h. split; auto. cbv zeta in A. cbn [Nat.add] in A. clear H N.
  unfold add_hist in A. apply hist_at in A. destruct A as (L & _ & A & _). rewrite base_split in A, L by auto. destruct (bin_in c i I) as (I1 & I2). set (bs := match wc_axes c with [] => [1] | _ => bin_shape c end) in *. set (es := map wa_size (extras pa c extra)) in *.
  rewrite A by (apply Forall2_app; auto). rewrite ravel_app by auto. rewrite I2. pose proof (ravel_lt _ _ E) as Ej. pose proof (ravel_lt _ _ I) as Ei.
  rewrite concat_nth; auto.
  - rewrite pyslice_nth; auto. rewrite chan_bins_shape. lia.
  - apply pyslice_Forall. auto.
  - rewrite (concat_len (prodn es)) in L by (apply pyslice_Forall; auto). rewrite prodn_app in L. unfold bs in L. rewrite bins_prod in L.
    assert (0 < prodn es) by lia. assert (List.length (pyslice (offset cs k) (offset cs k + chan_bins c) rows) = prodn (bin_shape c)) by nia. lia.
Qed.
(** in flow channels the entries beyond the categories are one *)
Lemma expected_ones pa extra rows cs hs k c i : expected_hists pa extra rows cs = Ok hs -> nth_error cs k = Some c -> wc_flow c = true ->
  exists h, nth_error hs k = Some (wc_name c, h) /\ forall j a, nth_error (hist_axes pa c extra) j = Some a -> wa_cat a = true -> wa_size a <= nth j i 0 -> t_at h i = 1%R.
Proof.
  intros H C F. apply expected_nth in H. destruct H as (_ & H). destruct (H k c C) as (h & N & A). exists h. split; auto. cbv zeta in A. unfold add_hist in A. apply hist_at in A. destruct A as (_ & _ & _ & A). apply A. auto.
Qed.
Lemma offset_bound cs k c : nth_error cs k = Some c -> offset cs k + prodn (bin_shape c) <= sumn (map (fun c => prodn (bin_shape c)) cs).
Proof.
  revert k. induction cs as [|d cs IH]; intros [|k] H; try discriminate; cbn [nth_error] in H; unfold offset; cbn [firstn map]; change (sumn (?x :: ?l)) with (x + sumn l).
  - injection H as ->. cbn [sumn fold_right]. lia.
  - apply IH in H. unfold offset in H. change (sumn (?x :: ?l)) with (x + sumn l). lia.
Qed.
Lemma good_yield : good_axis yield_axis.
Proof. unfold good_axis. cbn. lia. Qed.
Lemma plain_good a : plain_axis a -> good_axis a.
Proof. unfold plain_axis, good_axis. destruct (wa_cat a); lia. Qed.
Lemma hist_axes_good pa c extra : Forall good_axis (wc_axes c) -> Forall plain_axis extra -> Forall good_axis (hist_axes pa c extra).
Proof.
  intros G P. change (hist_axes pa c extra) with (chan_axes c ++ extras pa c extra). apply Forall_app. split; [unfold chan_axes; destruct (wc_axes c); [constructor; [apply good_yield|constructor]|auto]|].
  eapply Forall_impl; [apply plain_good|]. apply extras_plain. auto.
Qed.
Lemma expected_total pa extra rows cs : sumn (map (fun c => prodn (bin_shape c)) cs) <= List.length rows -> Forall plain_axis extra ->
  (forall c, In c cs -> flow_ok c /\ Forall good_axis (wc_axes c) /\ Forall (fun r => List.length r = prodn (map wa_size (extras pa c extra))) rows) -> exists hs, expected_hists pa extra rows cs = Ok hs.
Proof.
  intros B P H. apply expected_okay. intros k c C. cbv zeta. cbn [Nat.add]. destruct (H c (nth_error_In _ _ C)) as (F & G & R). unfold add_hist. apply hist_ok; [|apply hist_axes_good; auto].
  rewrite (concat_len _ _ (pyslice_Forall _ _ _ _ R)), base_split, prodn_app, bins_prod by auto. pose proof (offset_bound _ _ _ C). rewrite pyslice_len by (rewrite chan_bins_shape; lia). rewrite chan_bins_shape. f_equal. lia.
Qed.
(** concatenation of what is stored *)
Lemma expected_concat pa extra rows : forall cs start hs, expected_loop pa extra rows start cs = Ok hs -> (forall c, In c cs -> wc_flow c = true -> Forall (fun a => wa_cat a = false) (hist_axes pa c extra)) ->
  List.concat (map (fun h => flat (snd h)) hs) = List.concat (pyslice start (start + sumn (map (fun c => prodn (bin_shape c)) cs)) rows).
Proof.
  induction cs as [|c cs IH]; intros start hs H F; cbn [expected_loop] in H.
  - injection H as <-. cbn [map sumn fold_right]. unfold pyslice. replace (start + 0 - start) with 0 by lia. auto.
  - destruct (add_hist _ _ _ _ _) as [h|] eqn:E; [|discriminate]. cbn [rbind] in H. destruct (expected_loop pa extra rows (start + chan_bins c) cs) as [r|] eqn:R; [|discriminate]. cbn [rbind] in H. injection H as <-.
    cbn [map snd List.concat]. rewrite (IH _ _ R) by (intros d D; apply F; right; auto). unfold add_hist in E. apply hist_flat in E; [|intros W; apply F; auto; left; auto]. rewrite E, <- concat_app. f_equal.
    change (sumn (?x :: ?l)) with (x + sumn l). rewrite chan_bins_shape. rewrite pyslice_app by lia. f_equal. lia.
Qed.
(** a category axis in a channel with flow bins cannot be stored *)
Lemma flow_category extra rows cs k c pa : nth_error cs k = Some c -> wc_flow c = true -> Forall good_axis (wc_axes c) -> existsb wa_cat (wc_axes c) = true -> Forall (fun a => 0 < wa_size a) (wc_axes c) ->
  Forall plain_axis extra -> Forall (fun r => List.length r = prodn (map wa_size (extras pa c extra))) rows -> 0 < prodn (map wa_size (extras pa c extra)) -> offset cs k + prodn (bin_shape c) <= List.length rows ->
  forall hs, expected_hists pa extra rows cs <> Ok hs.
Proof.
  intros C F G X Z P R PE B hs H. apply expected_nth in H. destruct H as (_ & H). destruct (H k c C) as (h & _ & A). cbv zeta in A. cbn [Nat.add] in A. unfold add_hist in A. apply hist_at in A. destruct A as (L & _).
  rewrite (concat_len _ _ (pyslice_Forall _ _ _ _ R)) in L. change (hist_axes pa c extra) with (chan_axes c ++ extras pa c extra) in L. rewrite map_app, prodn_app, (map_base_plain _ (extras pa c extra)) in L by (apply extras_plain; auto).
  rewrite pyslice_len in L by (rewrite chan_bins_shape; auto). apply Nat.mul_cancel_r in L; [|lia]. rewrite chan_bins_shape in L. replace (offset cs k + prodn (bin_shape c) - offset cs k) with (prodn (bin_shape c)) in L by lia.
  assert (Q : forall axes, Forall good_axis axes -> Forall (fun a => 0 < wa_size a) axes -> 0 < prodn (map (base true) axes) /\ prodn (map (base true) axes) <= prodn (map wa_extent axes) /\ (existsb wa_cat axes = true -> prodn (map (base true) axes) < prodn (map wa_extent axes))).
  { clear. intros axes G Z. induction axes as [|a r IH]; [cbn; split; [lia|split; [lia|discriminate]]|]. inversion G; inversion Z; subst. destruct (IH) as (I1 & I2 & I3); auto. cbn [map existsb]. rewrite !prodn_cons. unfold base at 1 3 5. unfold good_axis in *. destruct (wa_cat a); cbn [orb].
    - rewrite H1. split; [nia|]. split; [nia|]. intros _. nia.
    - split; [nia|]. split; [nia|]. intros E. specialize (I3 E). nia. }
  destruct (Q _ G Z) as (_ & _ & Q3). specialize (Q3 X). unfold bin_shape, chan_axes in L. rewrite F in L. destruct (wc_axes c) as [|a0 r0]; [discriminate|]. change (prodn (map wa_extent (a0 :: r0)) = prodn (map (base true) (a0 :: r0))) in L. lia.
Qed.

(** ** data *)
Lemma observed_filter m rows : forall cs start, observed_loop m rows start cs = observed_loop m rows start (unmasked cs).
Proof.
  induction cs as [|c cs IH]; intros start; [auto|]. unfold unmasked in *. cbn [observed_loop filter]. destruct (wc_masked c) eqn:M; cbn [negb]; [apply IH|]. cbn [observed_loop]. rewrite M, IH. auto.
Qed.
Definition obs_axes (m : bool) (c : wchan) : list waxis := if m then chan_axes c ++ chan_axes c else chan_axes c.
Lemma observed_nth m rows : forall cs start hs, Forall (fun c => wc_masked c = false) cs -> observed_loop m rows start cs = Ok hs -> map fst hs = map wc_name cs /\ forall k c, nth_error cs k = Some c ->
  exists h, nth_error hs k = Some (wc_name c, h) /\ let a := start + obs_offset cs k in add_hist false m (obs_axes m c) rows (Some (a, a + obs_bins c)) = Ok h.
Proof.
  induction cs as [|c cs IH]; intros start hs F H; cbn [observed_loop] in H.
  - injection H as <-. split; auto. intros [|k]; discriminate.
  - inversion F as [|? ? M F']; subst. rewrite M in H. fold (chan_axes c) in H. fold (obs_axes m c) in H. destruct (add_hist _ _ _ _ _) as [h|] eqn:E; [|discriminate]. cbn [rbind] in H. destruct (observed_loop m rows (start + obs_bins c) cs) as [r|] eqn:R; [|discriminate]. cbn [rbind] in H. injection H as <-.
    destruct (IH _ _ F' R) as (L & N). split; [cbn [map fst]; rewrite L; auto|]. intros [|k] d D; cbn [nth_error] in *.
    + injection D as <-. exists h. split; auto. unfold obs_offset. cbn [firstn map sumn fold_right]. cbv zeta. rewrite Nat.add_0_r. exact E.
    + destruct (N k d D) as (h' & A & B). exists h'. split; auto. cbv zeta in *. replace (start + obs_offset (c :: cs) (S k)) with (start + obs_bins c + obs_offset cs k); [exact B|]. unfold obs_offset. cbn [firstn map]. change (sumn (?x :: ?l)) with (x + sumn l). change (obs_bins c) with (prodn (obs_shape c)). lia.
Qed.
Lemma unmasked_Forall cs : Forall (fun c => wc_masked c = false) (unmasked cs).
Proof. apply Forall_forall. intros c I. apply filter_In in I. destruct I as (_ & I). destruct (wc_masked c); auto; discriminate. Qed.
Lemma obs_base c : map (base false) (chan_axes c) = match wc_axes c with [] => [1] | _ => obs_shape c end.
Proof. unfold chan_axes, obs_shape. destruct (wc_axes c); auto. Qed.
Lemma obs_prod c : prodn (match wc_axes c with [] => [1] | _ => obs_shape c end) = prodn (obs_shape c).
Proof. unfold obs_shape. destruct (wc_axes c); auto. Qed.
Lemma obs_in c i : in_shape (obs_shape c) i -> in_shape (match wc_axes c with [] => [1] | _ => obs_shape c end) (bin_idx c i) /\ ravel (match wc_axes c with [] => [1] | _ => obs_shape c end) (bin_idx c i) = ravel (obs_shape c) i.
Proof. unfold bin_idx, obs_shape. destruct (wc_axes c) as [|a r]; [|auto]. cbn [map]. intros H. inversion H. split; [repeat constructor|]. reflexivity. Qed.
Lemma observed_names m rows cs hs : observed_hists m rows cs = Ok hs -> map fst hs = map wc_name (unmasked cs).
Proof. unfold observed_hists. rewrite observed_filter. intros H. apply observed_nth in H; [|apply unmasked_Forall]. apply H. Qed.
Lemma concat_single {A} (l : list A) : List.concat (map (fun v => [v]) l) = l.
Proof. induction l as [|a l IH]; [auto|]. cbn. rewrite IH. auto. Qed.
Lemma pyslice_map' {A B} (f : A -> B) a b l : pyslice a b (map f l) = map f (pyslice a b l).
Proof. unfold pyslice. rewrite skipn_map, firstn_map. auto. Qed.
Lemma observed_content data cs hs k c i : observed_hists false (map (fun v => [v]) data) cs = Ok hs -> nth_error (unmasked cs) k = Some c -> in_shape (obs_shape c) i ->
  exists h, nth_error hs k = Some (wc_name c, h) /\ t_at h (bin_idx c i) = nth (obs_offset (unmasked cs) k + ravel (obs_shape c) i) data 0%R.
Proof.
  unfold observed_hists. rewrite observed_filter. intros H C I. apply observed_nth in H; [|apply unmasked_Forall]. destruct H as (_ & H). destruct (H k c C) as (h & N & A). exists h. split; auto. cbv zeta in A. cbn [Nat.add] in A.
  unfold add_hist, obs_axes in A. apply hist_at in A. destruct A as (_ & _ & A & _). rewrite obs_base in A. destruct (obs_in c i I) as (I1 & I2). rewrite A by auto. rewrite I2, pyslice_map', concat_single. apply pyslice_nth. pose proof (ravel_lt _ _ I). change (obs_bins c) with (prodn (obs_shape c)). lia.
Qed.
(** block of the covariance *)
Lemma observed_cov rows n cs hs k c i j : List.length rows = n -> Forall (fun r => List.length r = n) rows -> observed_hists true rows cs = Ok hs -> nth_error (unmasked cs) k = Some c -> in_shape (obs_shape c) i -> in_shape (obs_shape c) j ->
  obs_offset (unmasked cs) k + prodn (obs_shape c) <= n ->
  exists h, nth_error hs k = Some (wc_name c, h) /\ t_at h (bin_idx c i ++ bin_idx c j) = nth (obs_offset (unmasked cs) k + ravel (obs_shape c) j) (nth (obs_offset (unmasked cs) k + ravel (obs_shape c) i) rows []) 0%R.
Proof.
  unfold observed_hists. rewrite observed_filter. intros Ln U H C I J B. apply observed_nth in H; [|apply unmasked_Forall]. destruct H as (_ & H). destruct (H k c C) as (h & N & A). exists h. split; auto. cbv zeta in A. cbn [Nat.add] in A. clear H N.
  unfold add_hist, obs_axes in A. apply hist_at in A. destruct A as (_ & _ & A & _). rewrite map_app, obs_base in A. destruct (obs_in c i I) as (I1 & I2). destruct (obs_in c j J) as (J1 & J2). rewrite A by (apply Forall2_app; auto). rewrite ravel_app, I2, J2, obs_prod by auto.
  set (a := obs_offset (unmasked cs) k) in *. change (obs_bins c) with (prodn (obs_shape c)) in *. pose proof (ravel_lt _ _ I) as Bi. pose proof (ravel_lt _ _ J) as Bj.
  assert (PL : List.length (pyslice a (a + prodn (obs_shape c)) rows) = prodn (obs_shape c)) by (rewrite pyslice_len; lia).
  rewrite concat_nth; auto; [|apply Forall_map; eapply Forall_impl; [|apply pyslice_Forall; exact U]; intros r R; cbv beta in *; rewrite pyslice_len; lia|rewrite map_length; lia].
  rewrite (nth_indep _ [] (pyslice a (a + prodn (obs_shape c)) [])) by (rewrite map_length; lia). rewrite map_nth, pyslice_nth by lia. f_equal. apply pyslice_nth. lia.
Qed.
Lemma observed_okay m rows : forall cs start, Forall (fun c => wc_masked c = false) cs -> (forall k c, nth_error cs k = Some c -> let a := start + obs_offset cs k in exists h, add_hist false m (obs_axes m c) rows (Some (a, a + obs_bins c)) = Ok h) -> exists hs, observed_loop m rows start cs = Ok hs.
Proof.
  induction cs as [|c cs IH]; intros start F H; cbn [observed_loop]; [eauto|]. inversion F as [|? ? M F']; subst. rewrite M. fold (chan_axes c). fold (obs_axes m c). destruct (H 0 c eq_refl) as (h & E). unfold obs_offset in E. cbn [firstn map sumn fold_right] in E. cbv zeta in E. rewrite Nat.add_0_r in E. rewrite E. cbn [rbind].
  destruct (IH (start + obs_bins c)) as (hs & R); auto; [|rewrite R; cbn [rbind]; eauto]. intros k d D. destruct (H (S k) d D) as (h' & E'). cbv zeta in *. exists h'. replace (start + obs_bins c + obs_offset cs k) with (start + obs_offset (c :: cs) (S k)); auto.
  unfold obs_offset. cbn [firstn map]. change (sumn (?x :: ?l)) with (x + sumn l). change (obs_bins c) with (prodn (obs_shape c)). lia.
Qed.
Lemma obs_offset_bound cs k c : nth_error cs k = Some c -> obs_offset cs k + prodn (obs_shape c) <= sumn (map (fun c => prodn (obs_shape c)) cs).
Proof.
  revert k. induction cs as [|d cs IH]; intros [|k] H; try discriminate; cbn [nth_error] in H; unfold obs_offset; cbn [firstn map]; change (sumn (?x :: ?l)) with (x + sumn l).
  - injection H as ->. cbn [sumn fold_right]. lia.
  - apply IH in H. unfold obs_offset in H. change (sumn (?x :: ?l)) with (x + sumn l). lia.
Qed.
Lemma observed_total data cs : sumn (map (fun c => prodn (obs_shape c)) (unmasked cs)) <= List.length data -> exists hs, observed_hists false (map (fun v => [v]) data) cs = Ok hs.
Proof.
  intros B. unfold observed_hists. rewrite observed_filter. apply observed_okay; [apply unmasked_Forall|]. intros k c C. cbv zeta. cbn [Nat.add]. unfold add_hist, hist_tensor, obs_axes. apply reshape_ok. rewrite pyslice_map', concat_single. pose proof (obs_offset_bound _ _ _ C). change (obs_bins c) with (prodn (obs_shape c)). rewrite pyslice_len by lia.
  change (map wa_size (chan_axes c)) with (map (base false) (chan_axes c)). rewrite obs_base, obs_prod. lia.
Qed.
Lemma observed_concat data : forall cs start hs, Forall (fun c => wc_masked c = false) cs -> observed_loop false (map (fun v => [v]) data) start cs = Ok hs ->
  List.concat (map (fun h => flat (snd h)) hs) = pyslice start (start + sumn (map (fun c => prodn (obs_shape c)) cs)) data.
Proof.
  induction cs as [|c cs IH]; intros start hs F H; cbn [observed_loop] in H.
  - injection H as <-. cbn [map sumn fold_right]. unfold pyslice. replace (start + 0 - start) with 0 by lia. auto.
  - inversion F as [|? ? M F']; subst. rewrite M in H. destruct (add_hist _ _ _ _ _) as [h|] eqn:E; [|discriminate]. cbn [rbind] in H. destruct (observed_loop _ _ (start + obs_bins c) cs) as [r|] eqn:R; [|discriminate]. cbn [rbind] in H. injection H as <-.
    cbn [map snd List.concat]. rewrite (IH _ _ F' R). unfold add_hist in E. apply hist_flat in E; [|discriminate]. rewrite E, pyslice_map', concat_single. change (sumn (?x :: ?l)) with (x + sumn l). change (obs_bins c) with (prodn (obs_shape c)). rewrite pyslice_app by lia. f_equal. lia.
Qed.

(** ** the results dictionary *)
Fixpoint is_prefix (p q : list string) : bool := match p, q with [], _ => true | a :: p', b :: q' => String.eqb a b && is_prefix p' q' | _ :: _, [] => false end.
Lemma put_same : forall p o d d', put_path p o d = Ok d' -> get_path p d' = Some o.
Proof.
  induction p as [|k r IH]; intros o d d' H; [discriminate|]. cbn [put_path get_path] in *. destruct r as [|k2 r].
  - injection H as <-. apply dget_dset_same.
  - destruct (dget k d) as [[t|x]|] eqn:E; [discriminate| |].
    + destruct (put_path (k2 :: r) o x) as [y|] eqn:P; [|discriminate]. cbn [rbind] in H. injection H as <-. rewrite dget_dset_same. eapply IH; eauto.
    + destruct (put_path (k2 :: r) o []) as [y|] eqn:P; [|discriminate]. cbn [rbind] in H. injection H as <-. rewrite dget_dset_same. eapply IH; eauto.
Qed.
Lemma put_other : forall p o d d' q, put_path p o d = Ok d' -> is_prefix p q = false -> is_prefix q p = false -> get_path q d' = get_path q d.
Proof.
  induction p as [|k r IH]; intros o d d' q H A B; [discriminate|]. destruct q as [|a q]; [discriminate|]. cbn [is_prefix] in A, B. rewrite String.eqb_sym in B. cbn [put_path] in H. cbn [get_path]. destruct (String.eqb_spec k a) as [<-|N]; cbn [andb] in A, B.
  - destruct r as [|k2 r]; [discriminate|]. destruct q as [|q2 q]; [discriminate|]. destruct (dget k d) as [[t|x]|] eqn:E; [discriminate| |].
    + destruct (put_path (k2 :: r) o x) as [y|] eqn:P; [|discriminate]. cbn [rbind] in H. injection H as <-. rewrite dget_dset_same. eapply IH; eauto.
    + destruct (put_path (k2 :: r) o []) as [y|] eqn:P; [|discriminate]. cbn [rbind] in H. injection H as <-. rewrite dget_dset_same. rewrite (IH _ _ _ _ P A B). cbn [get_path]. destruct q; auto.
  - assert (D : dget a d' = dget a d).
    { destruct r as [|k2 r]; [injection H as <-; apply dget_dset_other; auto|]. destruct (dget k d) as [[t|x]|]; [discriminate| |].
      + destruct (put_path (k2 :: r) o x) as [y|]; [|discriminate]. cbn [rbind] in H. injection H as <-. apply dget_dset_other; auto.
      + destruct (put_path (k2 :: r) o []) as [y|]; [|discriminate]. cbn [rbind] in H. injection H as <-. apply dget_dset_other; auto. }
    rewrite D. auto.
Qed.
(** above a written entry are dictionaries *)
Lemma put_above : forall p o d d' q, put_path p o d = Ok d' -> is_prefix q p = true -> q <> p -> q <> [] -> exists x, get_path q d' = Some (Dict x).
Proof.
  induction p as [|k r IH]; intros o d d' q H A N Z; [discriminate|]. destruct q as [|a q]; [congruence|]. cbn [is_prefix] in A. destruct (String.eqb_spec a k) as [->|]; [|discriminate]. cbn [andb] in A. cbn [put_path] in H. cbn [get_path].
  destruct r as [|k2 r]; [destruct q; [congruence|discriminate]|].
  assert (D : exists y x, put_path (k2 :: r) o y = Ok x /\ d' = dset k (Dict x) d).
  { destruct (dget k d) as [[t|x]|]; [discriminate| |]; match type of H with context [put_path ?p ?o ?x] => destruct (put_path p o x) as [y|] eqn:P; [|discriminate]; cbn [rbind] in H; injection H as <-; eauto end. }
  destruct D as (y & x & P & ->). rewrite dget_dset_same. destruct q as [|q2 q]; [eauto|]. apply (IH _ _ _ (q2 :: q) P); auto; congruence.
Qed.
Lemma put_ok : forall p o d, p <> [] -> (forall q t, is_prefix q p = true -> q <> p -> get_path q d <> Some (Leaf t)) -> exists d', put_path p o d = Ok d'.
Proof.
  induction p as [|k r IH]; intros o d Z H; [congruence|]. cbn [put_path]. destruct r as [|k2 r]; [eauto|]. destruct (dget k d) as [[t|x]|] eqn:E.
  - exfalso. apply (H [k] t); [cbn; rewrite String.eqb_refl; auto|discriminate|exact E].
  - destruct (IH o x) as (y & P); [discriminate| |rewrite P; cbn [rbind]; eauto]. intros q t A N G. destruct q as [|q2 q]; [discriminate|]. apply (H (k :: q2 :: q) t); [cbn [is_prefix] in *; rewrite String.eqb_refl; auto|congruence|]. cbn [get_path] in *. rewrite E. exact G.
  - destruct (IH o []) as (y & P); [discriminate| |rewrite P; cbn [rbind]; eauto]. intros q t A N G. destruct q as [|q2 [|q3 q]]; discriminate.
Qed.
Lemma is_prefix_app p q : is_prefix p q = true <-> exists r, q = p ++ r.
Proof.
  revert q. induction p as [|a p IH]; intros q; cbn [is_prefix]; [split; [intros _; exists q; auto|auto]|].
  destruct q as [|b q].
  { split; [intros X; discriminate X|]. intros (r & E). discriminate E. }
  rewrite andb_true_iff, IH, String.eqb_eq. split; [intros (-> & r & ->); exists r; auto|]. intros (r & E). injection E as -> ->. split; [auto|exists r; auto].
Qed.
Lemma paths_prefix k k' : good_name (snd k) -> good_name (snd k') -> is_prefix (path3 k) (path3 k') = true -> k = k'.
Proof.
  destruct k as ((m & c) & n), k' as ((m' & c') & n'). intros (A & B) (A' & B') H. cbn [fst snd] in *. apply is_prefix_app in H. destruct H as (r & E). unfold path3, path_of in E. cbn [fst snd] in E.
  destruct m as [m|], c as [c|], m' as [m'|], c' as [c'|]; cbn [app] in E; try (injection E; intros; subst; congruence); try discriminate; try (injection E; intros; subst; try congruence; try discriminate).
Qed.
Lemma last_write_app k ws w : last_write k (ws ++ [w]) = if key3_dec (fst w) k then Some (snd w) else last_write k ws.
Proof. unfold last_write. rewrite rev_app_distr. cbn [rev app find]. destruct (key3_dec (fst w) k); auto. Qed.
Lemma writes_app a b d : writes (a ++ b) d = (d <- writes a d ;; writes b d).
Proof. revert d. induction a as [|(k & t) a IH]; intros d; [auto|]. cbn [app writes]. destruct (dump_obj _ _ _ _ _); [cbn [rbind]; apply IH|auto]. Qed.
Lemma get_nil p : get_path p [] = None.
Proof. destruct p as [|a [|b p]]; auto. Qed.
Theorem results_map ws : Forall (fun w => good_name (snd (fst w))) ws -> exists d, writes ws [] = Ok d /\ forall k, good_name (snd k) -> get_path (path3 k) d = option_map Leaf (last_write k ws).
Proof.
  intros G. cut (exists d, writes ws [] = Ok d /\ (forall k, good_name (snd k) -> get_path (path3 k) d = option_map Leaf (last_write k ws)) /\
    (forall k q t, good_name (snd k) -> is_prefix q (path3 k) = true -> q <> path3 k -> get_path q d <> Some (Leaf t))); [intros (d & A & B & _); eauto|].
  revert G. induction ws as [|w ws IH] using rev_ind; intros G.
  - exists []. split; [auto|]. split; [intros; rewrite get_nil; auto|]. intros. rewrite get_nil. discriminate.
  - apply Forall_app in G. destruct G as (G & Gw). inversion Gw as [|? ? Gn _]; subst. destruct (IH G) as (d & W & L & S). destruct w as (k0 & t0). cbn [fst] in Gn.
    destruct (put_ok (path3 k0) (Leaf t0) d) as (d' & P). { unfold path3, path_of. intros E. apply app_eq_nil in E as (_ & E). apply app_eq_nil in E as (_ & E). discriminate. } { intros q t A N. apply (S k0); auto. }
    exists d'. split; [|split].
    + rewrite writes_app, W. cbn [rbind writes fst snd]. unfold dump_obj. change (path_of (fst (fst k0)) (snd (fst k0)) (snd k0)) with (path3 k0). rewrite P. auto.
    + intros k Gk. rewrite last_write_app. cbn [fst snd]. destruct (key3_dec k0 k) as [->|N]; [apply put_same in P; auto|].
      rewrite (put_other _ _ _ _ (path3 k) P); [apply L; auto| |].
      * destruct (is_prefix (path3 k0) (path3 k)) eqn:E; auto. apply paths_prefix in E; auto. contradiction.
      * destruct (is_prefix (path3 k) (path3 k0)) eqn:E; auto. apply paths_prefix in E; auto. congruence.
    + intros k q t Gk A N E. destruct (list_eq_dec string_dec q []) as [->|Z]; [discriminate|].
      destruct (is_prefix q (path3 k0)) eqn:Q.
      * destruct (list_eq_dec string_dec q (path3 k0)) as [->|Nq]; [apply paths_prefix in A; auto; subst; contradiction|]. destruct (put_above _ _ _ _ _ P Q Nq Z) as (x & X). congruence.
      * destruct (is_prefix (path3 k0) q) eqn:Q'.
        -- apply is_prefix_app in Q'. destruct Q' as (r & ->). apply is_prefix_app in A. destruct A as (r' & A). rewrite <- app_assoc in A. assert (K : is_prefix (path3 k0) (path3 k) = true) by (apply is_prefix_app; eauto). apply paths_prefix in K; auto. subst k. apply (f_equal (@List.length string)) in A. rewrite !app_length in A. destruct r as [|x r]; [|cbn in A; lia]. apply N. rewrite app_nil_r. auto.
        -- rewrite (put_other _ _ _ _ q P Q' Q) in E. apply (S k q t Gk A N E).
Qed.
Lemma store_writes name mk hs d : store name mk hs d = writes (map (fun h => ((mk, Some (fst h), name), snd h)) hs) d.
Proof. revert d. induction hs as [|(c & h) hs IH]; intros d; [auto|]. cbn [store map writes fst snd]. destruct (dump_obj _ _ _ _ _); cbn [rbind]; auto. Qed.

(** ** file name *)
Lemma has_dot_app a b : has_dot (a ++ b) = has_dot a || has_dot b.
Proof. unfold has_dot. apply existsb_app. Qed.
Lemma rsplit_none s : has_dot s = false -> rsplit_dot s = None.
Proof. induction s as [|c s IH]; [auto|]. unfold has_dot in *. cbn [existsb rsplit_dot]. intros H. apply orb_false_iff in H as (A & B). rewrite IH by auto. rewrite Ascii.eqb_sym, A. auto. Qed.
Lemma rsplit_last a b : has_dot b = false -> rsplit_dot (a ++ dot :: b) = Some (a, b).
Proof. intros H. induction a as [|c a IH]; cbn [app rsplit_dot]; [rewrite rsplit_none, Ascii.eqb_refl; auto|]. rewrite IH. auto. Qed.
Lemma rsplit_some s : has_dot s = true -> exists a b, rsplit_dot s = Some (a, b) /\ s = a ++ dot :: b /\ has_dot b = false.
Proof.
  induction s as [|c s IH]; [discriminate|]. cbn [rsplit_dot]. destruct (has_dot s) eqn:E.
  - intros _. destruct (IH eq_refl) as (a & b & -> & -> & B). exists (c :: a), b. auto.
  - intros H. rewrite rsplit_none by auto. unfold has_dot in *. cbn [existsb] in H. rewrite E, orb_false_r in H. rewrite Ascii.eqb_sym, H. apply Ascii.eqb_eq in H. subst. exists [], s. auto.
Qed.
Lemma join_form dir name : exists pre, path_join dir name = pre ++ name.
Proof.
  unfold path_join. destruct name as [|c n].
  - destruct (rev dir) as [|x r]; [exists []; auto|]. destruct (Ascii.eqb x slash); eexists; rewrite app_nil_r; eauto.
  - destruct (Ascii.eqb c slash); [exists []; auto|]. destruct (rev dir) as [|x r]; [exists []; auto|]. destruct (Ascii.eqb x slash); [eauto|]. exists (dir ++ [slash]). rewrite <- app_assoc. auto.
Qed.
Definition dir_prefix (dir : text) : text := match rev dir with [] => [] | c :: _ => if Ascii.eqb c slash then dir else dir ++ [slash] end.
Lemma join_relative dir name : (forall r, name <> slash :: r) -> path_join dir name = dir_prefix dir ++ name.
Proof.
  intros H. unfold path_join, dir_prefix. destruct name as [|c n].
  - rewrite app_nil_r. auto.
  - destruct (Ascii.eqb_spec c slash) as [->|N]; [destruct (H n); auto|]. destruct (rev dir) as [|x r]; [auto|]. destruct (Ascii.eqb x slash); auto. rewrite <- app_assoc. auto.
Qed.
Lemma no_slash_head s t : no_slash s -> forall r, s ++ dot :: t <> slash :: r.
Proof. intros H r E. destruct s as [|c s]; cbn in E; [discriminate|]. injection E as -> _. apply H. left. auto. Qed.
Lemma suffix_head s x t : no_slash s -> forall r, s ++ suffix x ++ dot :: t <> slash :: r.
Proof. intros H r E. destruct s as [|c s]; cbn [app] in E; [destruct x; cbn in E; discriminate|]. injection E as -> _. apply H. left. auto. Qed.
Lemma dot_in s e : has_dot (s ++ dot :: e) = true.
Proof. rewrite has_dot_app. unfold has_dot at 2. cbn [existsb]. rewrite Ascii.eqb_refl, orb_true_r. auto. Qed.
Lemma file_with_ext dir stem ext postfix : no_slash stem -> has_dot ext = false ->
  file_path dir (stem ++ dot :: ext) postfix = Ok (path_join dir (stem ++ suffix postfix ++ dot :: ext)).
Proof.
  intros S E. unfold file_path. cbv zeta. rewrite dot_in. rewrite !join_relative by (try apply suffix_head; try apply no_slash_head; auto). destruct postfix as [x|]; cbn [suffix app]; [|auto].
  rewrite app_assoc, rsplit_last by auto. f_equal. rewrite <- !app_assoc. auto.
Qed.
Lemma hdf5_text : T ".hdf5" = dot :: T "hdf5" /\ has_dot (T "hdf5") = false.
Proof. split; reflexivity. Qed.
Lemma file_no_ext dir name postfix : no_slash name -> has_dot name = false ->
  file_path dir name postfix = Ok (path_join dir (name ++ suffix postfix ++ T ".hdf5")).
Proof.
  intros S E. unfold file_path. cbv zeta. rewrite E. destruct hdf5_text as (-> & X). rewrite join_relative by (intros r ->; apply S; left; auto). rewrite join_relative by (apply suffix_head; auto). destruct postfix as [x|]; cbn [suffix app]; [|rewrite app_assoc; auto].
  rewrite rsplit_last by auto. f_equal. rewrite <- !app_assoc. auto.
Qed.
Lemma file_total dir name postfix : exists p a b, (if has_dot name then path_join dir name else path_join dir name ++ T ".hdf5") = p /\ p = a ++ dot :: b /\ has_dot b = false /\ file_path dir name postfix = Ok (a ++ suffix postfix ++ dot :: b).
Proof.
  set (p := if has_dot name then path_join dir name else path_join dir name ++ T ".hdf5").
  assert (D : has_dot p = true).
  { unfold p. destruct (join_form dir name) as (pre & ->). destruct (has_dot name) eqn:E; rewrite !has_dot_app, ?E; [apply orb_true_r|]. cbn. apply orb_true_r. }
  destruct (rsplit_some p D) as (a & b & R & P & B). exists p, a, b. split; [reflexivity|]. split; [auto|]. split; [auto|]. unfold file_path. cbv zeta. fold p. destruct postfix as [x|]; [rewrite R|rewrite P]; auto.
Qed.
Lemma file_injective dir name x y : file_path dir name x = file_path dir name y -> x = y.
Proof.
  destruct (file_total dir name x) as (p & a & b & P & E & B & ->). destruct (file_total dir name y) as (p' & a' & b' & P' & E' & B' & ->). rewrite P' in P. subst p'.
  pose proof (rsplit_last a b B) as R. pose proof (rsplit_last a' b' B') as R'. rewrite <- E in R. rewrite <- E' in R'. rewrite R in R'. injection R' as <- <-. intros H. injection H as H. apply app_inv_head in H. apply app_inv_tail in H. destruct x, y; cbn in H; congruence.
Qed.
Lemma append_inj_l a b c : (a ++ b = a ++ c)%string -> b = c.
Proof. induction a as [|x a IH]; cbn; intros H; [auto|]. injection H as H. auto. Qed.
Lemma expected_name_inj a b c a' b' c' : expected_name a b c = expected_name a' b' c' -> a = a' /\ b = b' /\ c = c'.
Proof. destruct a, b, c, a', b', c'; cbn; intros H; try discriminate; auto. Qed.
Lemma scan_name_inj p q : scan_name p = scan_name q -> p = q.
Proof. apply append_inj_l. Qed.
Lemma result_name_inj a b c k a' b' c' k' : result_name a b c k = result_name a' b' c' k' -> a = a' /\ b = b' /\ c = c' /\ k = k'.
Proof. destruct a, b, c, k, a', b', c', k'; vm_compute; intros H; try discriminate H; auto. Qed.
Lemma result_name_good a b c k : good_name (result_name a b c k).
Proof. split; destruct a, b, c, k; discriminate. Qed.
