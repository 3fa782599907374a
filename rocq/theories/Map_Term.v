(** The cells of a term. *)
From Coq Require Import Reals List Arith ZArith Bool String Lia Lra Permutation.
From Verif Require Import RBase PyList PyDict ListUtil Shape Map_Model Map_Spec Map_Collect Map_Perm Map_Rules.
Import ListNotations.
Local Open Scope nat_scope.

(** ** sums over named axes *)
Definition summed (p : haxis -> bool) (a : haxis) : rule := if p a then Gone (fun _ => true) else id_rule.
Lemma place_id_app k rs i q : place (repeat id_rule k ++ rs) (i ++ q) = if Nat.eqb (List.length i) k then option_map (app i) (place rs q) else place (repeat id_rule k ++ rs) (i ++ q).
Proof. destruct (Nat.eqb_spec (List.length i) k) as [E|E]; auto. rewrite place_id by (rewrite app_length; lia). subst k. rewrite firstn_app, firstn_all, Nat.sub_diag, skipn_app, skipn_all, Nat.sub_diag. cbn. rewrite app_nil_r. auto. Qed.
Lemma reduce_rules p : forall H o pre tail t, List.length pre = o -> t_shape t = pre ++ map ha_size H ++ tail ->
  let ks := map fst (filter (fun x => p (snd x)) (combine (seq o (List.length H)) H)) in
  t_shape (reduce_sum ks t) = pre ++ map ha_size (filter (fun a => negb (p a)) H) ++ tail /\
  collects t (reduce_sum ks t) (place (repeat id_rule o ++ map (summed p) H)).
Proof.
  induction H as [|a H IH]; intros o pre tail t Lo Sh; cbn [List.length seq combine filter map].
  - cbn. split; auto. eapply collects_ext; [apply collects_id|]. intros i Hi. apply in_shape_len in Hi. rewrite Sh, app_length in Hi. rewrite place_id by lia. rewrite place_nil. cbn. rewrite firstn_skipn. auto.
  - destruct (IH (S o) (pre ++ [ha_size a]) tail t) as (S1 & C1); [rewrite app_length; cbn; lia|rewrite Sh, <- app_assoc; auto|]. unfold summed at 1. cbn [snd]. destruct (p a) eqn:E; cbn [negb map fst].
    + set (ks := map fst (filter (fun x => p (snd x)) (combine (seq (S o) (List.length H)) H))) in *. change (reduce_sum (o :: ks) t) with (sum_axis o (reduce_sum ks t)).
      assert (K : o < rank (reduce_sum ks t)) by (unfold rank; rewrite S1, !app_length; cbn; lia). split.
      * cbn [sum_axis t_shape]. rewrite S1, <- app_assoc. unfold remove_at. rewrite firstn_app, Lo. replace (o - o) with 0 by lia. cbn [firstn]. rewrite app_nil_r, firstn_all2 by lia. f_equal.
        rewrite skipn_app. rewrite skipn_all2 by lia. rewrite Lo. replace (S o - o) with 1 by lia. auto.
      * eapply collects_ext; [eapply collects_trans; [exact C1|apply sum_axis_rule; auto]|]. intros i Hi. apply in_shape_len in Hi. rewrite Sh, app_length in Hi. cbn [map app List.length] in Hi. unfold then_.
        rewrite !place_id by lia. rewrite (skipn_nth 0 o) by lia. cbn [place]. destruct (place (map (summed p) H) (skipn (S o) i)) as [q|]; auto. cbn [option_map].
        rewrite place_on_axis by (rewrite app_length, firstn_length_le; lia). f_equal. unfold remove_at. rewrite firstn_app, firstn_length_le, firstn_firstn by lia. replace (o - S o) with 0 by lia. rewrite firstn_O, app_nil_r, Nat.min_l by lia. f_equal.
        rewrite skipn_app, (skipn_all2 (firstn (S o) i)) by (rewrite firstn_length; lia). rewrite firstn_length_le, Nat.sub_diag by lia. auto.
    + rewrite <- app_assoc in S1. split; auto. eapply collects_ext; [exact C1|]. intros i Hi. apply in_shape_len in Hi. rewrite Sh, app_length in Hi. cbn [map app List.length] in Hi. rewrite !place_id by lia. rewrite (skipn_nth 0 o) by lia. cbn [place id_rule].
      assert (F : firstn (S o) i = firstn o i ++ [nth o i 0]) by (rewrite <- (firstn_skipn o i) at 1; rewrite (skipn_nth 0) by lia; rewrite firstn_app, firstn_length_le by lia; replace (S o - o) with 1 by lia; rewrite firstn_firstn, Nat.min_r by lia; auto).
      rewrite F. destruct (place (map (summed p) H) (skipn (S o) i)); auto. cbn [option_map]. rewrite <- app_assoc. auto.
Qed.
(** ** merging bins *)
Definition below (c : list nat) (i : nat) : nat := List.length (filter (fun x => x <=? i) c).
Lemma rising_head a c : rising (a :: c) -> forall x, In x c -> a < x.
Proof. revert a. induction c as [|b c IH]; intros a; cbn [rising]; [cbn; tauto|]. intros (A & R) x [<-|I]; auto. pose proof (IH b R x I). lia. Qed.
Lemma rising_tl a c : rising (a :: c) -> rising c.
Proof. cbn. tauto. Qed.
Lemma below_0 c i : (forall x, In x c -> i < x) -> below c i = 0.
Proof. unfold below. induction c as [|a c IH]; cbn; auto. intros H. destruct (Nat.leb_spec a i); [specialize (H a (or_introl eq_refl)); lia|]. apply IH. auto. Qed.
Lemma bin_of_below c i : rising c -> bin_of c i = if (below c i =? 0) || (below c i =? List.length c) then None else Some (below c i - 1).
Proof.
  induction c as [|a c IH]; intros R; [reflexivity|]. pose proof (rising_head _ _ R) as Hd. pose proof (rising_tl _ _ R) as Rc. cbn [bin_of]. unfold below. cbn [filter]. destruct (Nat.leb_spec a i) as [Q|Q].
  - cbn [List.length]. fold (below c i). destruct c as [|b c]; [reflexivity|]. destruct (Nat.ltb_spec i b) as [P|P].
    + rewrite (below_0 (b :: c) i); [cbn; auto|]. intros x [<-|I]; auto. pose proof (rising_head _ _ Rc x I). lia.
    + cbn [andb]. rewrite IH by auto. assert (B : below (b :: c) i <> 0) by (unfold below; cbn [filter]; destruct (Nat.leb_spec b i); [cbn; lia|lia]). cbn [Nat.eqb orb].
      destruct (Nat.eqb_spec (below (b :: c) i) 0); [tauto|]. cbn [orb]. destruct (Nat.eqb_spec (below (b :: c) i) (List.length (b :: c))); auto. cbn [option_map]. f_equal. lia.
  - fold (below c i). assert (B : below c i = 0) by (apply below_0; intros x I; specialize (Hd x I); lia). rewrite B. cbn [Nat.eqb orb]. destruct c as [|b c]; auto. cbn [andb]. rewrite IH, B by auto. auto.
Qed.
Lemma below_step c i : rising c -> below c (S i) = below c i + (if existsb (Nat.eqb (S i)) c then 1 else 0).
Proof.
  unfold below. induction c as [|a c IH]; intros R; auto. pose proof (rising_head _ _ R) as Hd. pose proof (rising_tl _ _ R) as Rc. cbn [filter existsb]. destruct (Nat.leb_spec a i).
  - destruct (Nat.leb_spec a (S i)); [|lia]. cbn [List.length]. rewrite IH by auto. destruct (Nat.eqb_spec (S i) a); [lia|]. auto.
  - destruct (Nat.eqb_spec (S i) a) as [E|E].
    + destruct (Nat.leb_spec a (S i)); [|lia]. cbn [orb List.length]. rewrite IH by auto. replace (existsb (Nat.eqb (S i)) c) with false; [lia|]. symmetry. apply not_true_iff_false. intros X. apply existsb_exists in X as (x & I & X). apply Nat.eqb_eq in X. specialize (Hd x I). lia.
    + destruct (Nat.leb_spec a (S i)); [lia|]. auto.
Qed.
Lemma existsb_lt k c : (forall x, In x c -> k < x) -> existsb (Nat.eqb k) c = false.
Proof. intros H. apply not_true_iff_false. intros X. apply existsb_exists in X as (x & I & X). apply Nat.eqb_eq in X. specialize (H x I). lia. Qed.
Lemma below_zero c : rising c -> below c 0 = if existsb (Nat.eqb 0) c then 1 else 0.
Proof.
  intros R. destruct c as [|a c]; auto. pose proof (rising_head _ _ R) as Hd. destruct a as [|a].
  - unfold below. cbn [filter existsb Nat.leb Nat.eqb orb List.length]. fold (below c 0). rewrite below_0; auto.
  - rewrite below_0, existsb_lt; auto; intros x [<-|I]; try lia; specialize (Hd x I); lia.
Qed.
Lemma below_le c i : below c i <= List.length c.
Proof. unfold below. induction c as [|a c IH]; cbn; auto. destruct (a <=? i); cbn; lia. Qed.
Lemma below_mono c i j : i <= j -> below c i <= below c j.
Proof. intros H. unfold below. induction c as [|a c IH]; cbn; auto. destruct (Nat.leb_spec a i); destruct (Nat.leb_spec a j); cbn; lia. Qed.
Lemma seg_loop_len new : forall old s, List.length (seg_loop new old s) = List.length old.
Proof. induction old as [|v r IH]; intros s; cbn; auto. Qed.
(** the running number of the segment counts the new edges passed *)
Lemma seg_loop_nth new c : rising c -> forall old o, (forall i, i < List.length old -> existsb (isclose (nth i old 0%R)) new = existsb (Nat.eqb (o + i)) c) ->
  forall s, s = (match o with O => 0 | S q => Z.of_nat (below c q) end - 1)%Z -> forall i, i < List.length old -> nth i (seg_loop new old s) (-1)%Z = (Z.of_nat (below c (o + i)) - 1)%Z.
Proof.
  intros Rc. induction old as [|v r IH]; intros o H s -> i I; cbn in I; [lia|]. cbn [seg_loop]. pose proof (H 0 ltac:(cbn; lia)) as H0. cbn [nth] in H0. rewrite Nat.add_0_r in H0.
  assert (E : (if existsb (isclose v) new then (match o with O => 0 | S q => Z.of_nat (below c q) end - 1 + 1)%Z else (match o with O => 0 | S q => Z.of_nat (below c q) end - 1)%Z) = (Z.of_nat (below c o) - 1)%Z).
  { rewrite H0. destruct o as [|q]; [rewrite below_zero by auto|rewrite below_step by auto]; destruct (existsb _ c); lia. }
  rewrite E. destruct i as [|i]; cbn [nth]; [rewrite Nat.add_0_r; auto|]. rewrite (IH (S o)); [do 3 f_equal; lia| |auto|lia].
  intros j J. specialize (H (S j) ltac:(cbn; lia)). cbn [nth] in H. rewrite H. f_equal. f_equal. lia.
Qed.
Lemma removelast_nth {A} (d : A) l i : i < List.length l - 1 -> nth i (removelast l) d = nth i l d.
Proof. revert i. induction l as [|a l IH]; intros i H; cbn in H; [lia|]. destruct l as [|b l]; cbn in *; [lia|]. destruct i; auto. rewrite <- (IH i) by lia. auto. Qed.
Lemma removelast_len {A} (l : list A) : List.length (removelast l) = List.length l - 1.
Proof. induction l as [|a l IH]; auto. destruct l; auto. cbn [removelast List.length] in *. lia. Qed.
Lemma last_nth {A} (d : A) l : last l d = nth (List.length l - 1) l d.
Proof. induction l as [|a l IH]; auto. destruct l as [|b l]; auto. change (last (a :: b :: l) d) with (last (b :: l) d). rewrite IH. cbn [List.length]. replace (S (S (List.length l)) - 1) with (S (S (List.length l) - 1)) by lia. auto. Qed.
Lemma positions_mem old new c i : positions old new c -> i < List.length old -> existsb (isclose (nth i old 0%R)) new = existsb (Nat.eqb i) c.
Proof.
  intros (L & _ & _ & P) I. apply eq_true_iff_eq. rewrite !existsb_exists. split.
  - intros (x & Ix & X). apply (In_nth _ _ 0%R) in Ix as (j & J & <-). destruct (P i j I J) as (Q & _). apply Q in X. exists (nth j c 0). split; [apply nth_In; lia|]. apply Nat.eqb_eq; auto.
  - intros (x & Ix & X). apply Nat.eqb_eq in X. subst x. apply (In_nth _ _ 0) in Ix as (j & J & E). exists (nth j new 0%R). split; [apply nth_In; lia|]. apply (P i j); auto. lia.
Qed.
Lemma below_all c i : (forall x, In x c -> x <= i) -> below c i = List.length c.
Proof. unfold below. induction c as [|a c IH]; cbn; auto. intros H. destruct (Nat.leb_spec a i); [cbn; rewrite IH; auto|specialize (H a (or_introl eq_refl)); lia]. Qed.
Lemma rising_max c : rising c -> forall x, In x c -> x <= last c 0.
Proof.
  induction c as [|a c IH]; intros R x; [intros []|]. destruct c as [|b c]; [intros [<-|[]]; cbn; lia|]. change (last (a :: b :: c) 0) with (last (b :: c) 0). pose proof (rising_tl _ _ R) as Rc. intros [<-|I]; [|apply IH; auto].
  pose proof (rising_head _ _ R b (or_introl eq_refl)). pose proof (IH Rc b (or_introl eq_refl)). lia.
Qed.
Lemma last_In {A} (d : A) l : l <> [] -> In (last l d) l.
Proof. intros H. destruct l as [|x l] using rev_ind; [tauto|]. rewrite last_last. apply in_app_iff. cbn. auto. Qed.
Lemma below_lt c i : rising c -> c <> [] -> i < last c 0 -> below c i < List.length c.
Proof.
  intros R N H. pose proof (below_le c i). assert (below c i <> List.length c); [|lia]. intros E.
  assert (A : forall x, In x c -> x <= i). { clear - E. unfold below in E. induction c as [|a c IH]; cbn in *; [tauto|]. pose proof (below_le c i) as Q. unfold below in Q. destruct (Nat.leb_spec a i); cbn in E; [|lia]. intros x [<-|I]; auto; apply IH; auto. }
  specialize (A _ (last_In 0 _ N)). lia.
Qed.
(** number of a bin in the segments, -1 outside *)
Lemma segments_nth old new c n : positions old new c -> List.length old = S n -> 2 <= List.length new -> forall i, i < n ->
  nth i (segments new old) (-1)%Z = match bin_of c i with Some j => Z.of_nat j | None => (-1)%Z end.
Proof.
  intros P L M i I. pose proof P as (Lc & Rc & Pb & Pq). unfold segments.
  assert (N : forall k, k < n -> nth k (seg_loop new (removelast old) (-1)%Z) (-1)%Z = (Z.of_nat (below c k) - 1)%Z).
  { intros k K. rewrite (seg_loop_nth new c Rc (removelast old) 0); auto; [|rewrite removelast_len; lia]. intros j J. rewrite removelast_len in J. rewrite removelast_nth by lia. apply positions_mem; auto; lia. }
  assert (Ll : List.length (seg_loop new (removelast old) (-1)%Z) = n) by (rewrite seg_loop_len, removelast_len; lia).
  set (ids := seg_loop new (removelast old) (-1)%Z) in *.
  assert (Nc : c <> []) by (intros ->; cbn in Lc; lia). assert (Lb : last c 0 < S n) by (rewrite last_nth; rewrite <- L; apply Pb; lia).
  assert (Z1 : last ids (-1)%Z = (Z.of_nat (below c (n - 1)) - 1)%Z) by (rewrite last_nth, Ll; apply N; lia).
  assert (Cl : isclose (last new 0%R) (last old 0%R) = true <-> n = last c 0).
  { rewrite (last_nth 0%R new), (last_nth 0%R old), (last_nth 0 c), Lc, L. replace (S n - 1) with n by lia. apply (Pq n (List.length new - 1)); lia. }
  rewrite bin_of_below by auto.
  destruct (isclose (last new 0%R) (last old 0%R)); cbn [negb].
  - destruct Cl as (Cl & _). specialize (Cl eq_refl). rewrite N by auto. pose proof (below_lt c i Rc Nc ltac:(lia)). destruct (Nat.eqb_spec (below c i) 0); cbn [orb]; [lia|]. destruct (Nat.eqb_spec (below c i) (List.length c)); [lia|]. lia.
  - assert (Q : last c 0 <= n - 1) by (destruct (Nat.eq_dec n (last c 0)); [exfalso; apply Cl in e; discriminate|lia]).
    assert (Ba : below c (n - 1) = List.length c) by (apply below_all; intros x X; pose proof (rising_max _ Rc x X); lia). rewrite Z1, Ba.
    assert (Nm : nth i (map (fun z => if Z.eqb z (Z.of_nat (List.length c) - 1) then (-1)%Z else z) ids) (-1)%Z = (if Z.eqb (nth i ids (-1)%Z) (Z.of_nat (List.length c) - 1) then (-1)%Z else nth i ids (-1)%Z)).
    { rewrite (nth_indep _ (-1)%Z ((fun z => if Z.eqb z (Z.of_nat (List.length c) - 1) then (-1)%Z else z) (-1)%Z)) by (rewrite map_length; lia). apply (map_nth (fun z => if Z.eqb z (Z.of_nat (List.length c) - 1) then (-1)%Z else z)). }
    rewrite Nm, N by auto. destruct (Z.eqb_spec (Z.of_nat (below c i) - 1) (Z.of_nat (List.length c) - 1)) as [E|E].
    + assert (E' : below c i = List.length c) by lia. rewrite E', Nat.eqb_refl, orb_true_r. auto.
    + destruct (Nat.eqb_spec (below c i) (List.length c)); [lia|]. destruct (Nat.eqb_spec (below c i) 0); cbn [orb]; lia.
Qed.
Lemma segments_len new old : List.length (segments new old) = List.length old - 1.
Proof. unfold segments. destruct (negb _); rewrite ?map_length, seg_loop_len, removelast_len; auto. Qed.
