(** Merging bins of one axis and of several ones. *)
From Coq Require Import Reals List Arith ZArith Bool String Lia Lra Permutation.
From Verif Require Import RBase PyList PyDict ListUtil Shape Map_Model Map_Spec Map_Collect Map_Perm Map_Rules Map_Term.
Import ListNotations.
Local Open Scope nat_scope.

Lemma leading_intro : forall ids k, (forall i, i < k -> nth i ids (-1)%Z = (-1)%Z) -> (k < List.length ids -> nth k ids (-1)%Z <> (-1)%Z) -> k <= List.length ids -> leading ids = k.
Proof.
  induction ids as [|z l IH]; intros k A B C; cbn in C; [destruct k; [auto|lia]|]. cbn [leading]. destruct k as [|k].
  - specialize (B ltac:(cbn; lia)). cbn in B. destruct (Z.eqb_spec z (-1)); [tauto|auto].
  - pose proof (A 0 ltac:(lia)) as E. cbn in E. subst z. cbn [Z.eqb Pos.eqb]. f_equal. apply IH; [|intros D; apply (B ltac:(cbn; lia))|lia]. intros i I. apply (A (S i)). lia.
Qed.
Lemma sorted_intro : forall ids, (forall i, i < List.length ids -> (0 <= nth i ids (-1))%Z) -> (forall i, S i < List.length ids -> (nth i ids (-1) <= nth (S i) ids (-1))%Z) -> sorted_ids ids = true.
Proof.
  induction ids as [|a l IH]; intros A B; auto. cbn [sorted_ids]. rewrite IH.
  - rewrite andb_true_r. apply andb_true_iff. split; [apply Z.leb_le, (A 0); cbn; lia|]. destruct l as [|b l]; auto. apply Z.leb_le, (B 0). cbn. lia.
  - intros i I. apply (A (S i)). cbn. lia.
  - intros i I. apply (B (S i)). cbn. lia.
Qed.
Lemma zmax_intro l m : (forall z, In z l -> (z <= m)%Z) -> In m l -> (-1 <= m)%Z -> zmax l = m.
Proof.
  intros A B C. unfold zmax. apply Z.le_antisymm.
  - clear B. induction l as [|a l IH]; cbn; [lia|]. pose proof (A a (or_introl eq_refl)). specialize (IH (fun z I => A z (or_intror I))). lia.
  - clear A. induction l as [|a l IH]; cbn; [destruct B|]. destruct B as [->|B]; [lia|]. specialize (IH B). lia.
Qed.
Definition first_cut (c : list nat) : nat := hd 0 c.
Lemma bin_of_out c i : rising c -> i < first_cut c \/ last c 0 <= i -> bin_of c i = None.
Proof.
  intros R H. rewrite bin_of_below by auto. destruct H as [H|H].
  - rewrite (below_0 c i); auto. intros x I. destruct c as [|a c]; [destruct I|]. cbn in H. destruct I as [<-|I]; auto. pose proof (rising_head _ _ R x I). lia.
  - rewrite (below_all c i), Nat.eqb_refl, orb_true_r; auto. intros x I. pose proof (rising_max _ R x I). lia.
Qed.
Lemma below_pos c i : c <> [] -> first_cut c <= i -> 0 < below c i.
Proof. intros N H. destruct c as [|a c]; [tauto|]. cbn in H. unfold below. cbn [filter]. destruct (Nat.leb_spec a i); [cbn; lia|lia]. Qed.
Lemma bin_of_in c i : rising c -> c <> [] -> first_cut c <= i < last c 0 -> bin_of c i = Some (below c i - 1) /\ 0 < below c i < List.length c.
Proof.
  intros R N (A & B). pose proof (below_pos c i N A). pose proof (below_lt c i R N B). rewrite bin_of_below by auto. destruct (Nat.eqb_spec (below c i) 0); [lia|]. destruct (Nat.eqb_spec (below c i) (List.length c)); [lia|]. auto.
Qed.
Lemma below_last c : rising c -> 2 <= List.length c -> below c (last c 0 - 1) = List.length c - 1.
Proof.
  intros R L. destruct c as [|x c] using rev_ind; [cbn in L; lia|]. clear IHc. rewrite last_last, app_length in *. cbn in *.
  assert (P : forall y, In y c -> y < x). { clear L. induction c as [|a c IH]; [intros y []|]. intros y [<-|I]; [apply (rising_head a (c ++ [x]) R); apply in_app_iff; cbn; auto|]. apply IH; auto. apply (rising_tl a). exact R. }
  assert (0 < x). { destruct c as [|a c]; cbn in L; [lia|]. specialize (P a (or_introl eq_refl)). lia. }
  unfold below. rewrite filter_app, app_length. cbn [filter]. destruct (Nat.leb_spec x (x - 1)); [lia|]. fold (below c (x - 1)). rewrite below_all; [cbn; lia|]. intros y I. specialize (P y I). lia.
Qed.
Lemma first_last c : rising c -> 2 <= List.length c -> first_cut c < last c 0.
Proof. intros R L. destruct c as [|a [|b c]]; cbn in L; try lia. pose proof (rising_head _ _ R b (or_introl eq_refl)). pose proof (rising_max _ (rising_tl _ _ R) b (or_introl eq_refl)). cbn [first_cut hd]. change (last (a :: b :: c) 0) with (last (b :: c) 0). lia. Qed.

(** the ids of a rebinned axis *)
Lemma segments_valid old new c n : positions old new c -> List.length old = S n -> 2 <= List.length new ->
  let ids := segments new old in let mid := pyslice (leading ids) (List.length ids - leading (rev ids)) ids in
  List.length ids = n /\ sorted_ids mid = true /\ count_of mid = List.length c - 1 /\ Z.to_nat (zmax ids + 1) = List.length c - 1 /\ forall i, i < n -> seg_f ids i = bin_of c i.
Proof.
  intros P L M ids mid. pose proof P as (Lc & Rc & Pb & Pq). pose proof (segments_nth old new c n P L M) as N. fold ids in N.
  assert (Li : List.length ids = n) by (unfold ids; rewrite segments_len; lia).
  assert (Lb : last c 0 <= n) by (rewrite last_nth; specialize (Pb (List.length c - 1)); lia).
  assert (L2 : 2 <= List.length c) by lia. pose proof (first_last c Rc L2) as Fl. assert (Nc : c <> []) by (intros ->; cbn in L2; lia).
  assert (Le : leading ids = first_cut c).
  { apply leading_intro; [|intros _|lia].
    - intros i I. rewrite N by lia. rewrite bin_of_out by auto. auto.
    - rewrite N by lia. destruct (bin_of_in c (first_cut c) Rc Nc ltac:(lia)) as (-> & _). lia. }
  assert (Lr : leading (rev ids) = n - last c 0).
  { apply leading_intro; rewrite ?rev_length; [| |lia].
    - intros i I. rewrite rev_nth by lia. rewrite N by lia. rewrite bin_of_out; [auto|auto|lia].
    - intros I. rewrite rev_nth by lia. rewrite N by lia. destruct (bin_of_in c (List.length ids - S (n - last c 0)) Rc Nc ltac:(lia)) as (-> & _). lia. }
  assert (Lm : List.length mid = last c 0 - first_cut c) by (unfold mid; rewrite pyslice_len; lia).
  assert (Nm : forall i, i < List.length mid -> nth i mid (-1)%Z = Z.of_nat (below c (first_cut c + i) - 1) /\ 0 < below c (first_cut c + i)).
  { intros i I. unfold mid. rewrite nth_pyslice by lia. rewrite Le, N by lia. destruct (bin_of_in c (first_cut c + i) Rc Nc ltac:(lia)) as (-> & B). split; auto. lia. }
  split; auto. split; [|split; [|split]].
  - apply sorted_intro.
    + intros i I. rewrite (proj1 (Nm i I)). lia.
    + intros i I. destruct (Nm i ltac:(lia)) as (-> & _). destruct (Nm (S i) I) as (-> & _). pose proof (below_mono c (first_cut c + i) (first_cut c + S i) ltac:(lia)). lia.
  - rewrite count_last, last_nth. destruct (Nm (List.length mid - 1) ltac:(lia)) as (E & _). rewrite E. destruct mid eqn:Em; [cbn in Lm; lia|]. rewrite <- Em in *. replace (first_cut c + (List.length mid - 1)) with (last c 0 - 1) by lia. rewrite below_last by auto. lia.
  - rewrite (zmax_intro ids (Z.of_nat (List.length c - 2))); [lia| | |lia].
    + intros z I. apply (In_nth _ _ (-1)%Z) in I as (i & I & <-). rewrite N by lia. destruct (bin_of c i) as [j|] eqn:E; [|lia]. destruct (lt_dec i (first_cut c)); [rewrite bin_of_out in E by auto; discriminate|]. destruct (le_dec (last c 0) i); [rewrite bin_of_out in E by auto; discriminate|].
      destruct (bin_of_in c i Rc Nc ltac:(lia)) as (E' & B). rewrite E' in E. injection E as <-. lia.
    + replace (Z.of_nat (List.length c - 2)) with (nth (last c 0 - 1) ids (-1)%Z); [apply nth_In; lia|]. rewrite N by lia. destruct (bin_of_in c (last c 0 - 1) Rc Nc ltac:(lia)) as (-> & _). rewrite below_last by auto. lia.
  - intros i I. unfold seg_f. rewrite N by auto. destruct (bin_of c i) as [j|]; [|auto]. destruct (Z.ltb_spec (Z.of_nat j) 0); [lia|]. rewrite Nat2Z.id. auto.
Qed.

(** ** several axes *)
Definition merge (cuts : list (string * list nat)) (n : string) : nat -> option nat := match dget n cuts with Some c => bin_of c | None => Some end.
Definition merges cuts (names : list string) : list rule := map (fun n => Stay (merge cuts n)) names.
Lemma set_at_len {A} k (v : A) l : k < List.length l -> List.length (set_at k v l) = List.length l.
Proof. intros H. unfold set_at. rewrite app_length. cbn [List.length]. rewrite firstn_length_le, skipn_length by lia. lia. Qed.
Lemma set_at_nth {A} (d : A) k v l j : k < List.length l -> nth j (set_at k v l) d = if j =? k then v else nth j l d.
Proof.
  unfold set_at. revert k j. induction l as [|a l IH]; intros k j H; cbn in H; [lia|]. destruct k as [|k]; [destruct j; auto|]. destruct j as [|j]; auto. cbn [firstn skipn app nth Nat.eqb]. apply IH. lia.
Qed.
Lemma set_at_map {A B} (f : A -> B) k v l : map f (set_at k v l) = set_at k (f v) (map f l).
Proof. unfold set_at. rewrite map_app, firstn_map. cbn [map]. rewrite skipn_map. auto. Qed.
Lemma set_at_same {A} k (v : A) l : nth_error l k = Some v -> set_at k v l = l.
Proof. intros H. unfold set_at. revert l H. induction k as [|k IH]; intros [|a l] H; try discriminate; [cbn in *; congruence|]. cbn [firstn skipn app] in *. f_equal. apply IH. auto. Qed.
Lemma set_at_app {A} k (v : A) l r : k < List.length l -> set_at k v (l ++ r) = set_at k v l ++ r.
Proof. intros H. unfold set_at. rewrite firstn_app, skipn_app. replace (k - List.length l) with 0 by lia. replace (S k - List.length l) with 0 by lia. cbn [firstn skipn]. rewrite app_nil_r, <- app_assoc. auto. Qed.
Lemma merge_off cuts n c x : x <> n -> merge ((n, c) :: cuts) x = merge cuts x.
Proof. intros H. unfold merge. cbn [dget]. destruct (String.eqb_spec x n); [tauto|auto]. Qed.
Lemma merge_step cuts n c : forall names k idx, NoDup names -> nth_error names k = Some n -> dget n cuts = None -> List.length names <= List.length idx ->
  match bin_of c (nth k idx 0) with Some j => place (merges cuts names) (set_at k j idx) | None => None end = place (merges ((n, c) :: cuts) names) idx.
Proof.
  induction names as [|a names IH]; intros k idx ND E D L; [destruct k; discriminate|]. inversion ND as [|? ? Na Nd]; subst. destruct idx as [|i idx]; cbn in L; [lia|].
  unfold merges. cbn [map place]. fold (merges cuts names) (merges ((n, c) :: cuts) names). destruct k as [|k].
  - cbn in E. injection E as ->. unfold merge at 2. cbn [dget]. rewrite String.eqb_refl. cbn [nth set_at firstn skipn app place]. unfold set_at. cbn [firstn skipn app place].
    assert (Q : merges ((n, c) :: cuts) names = merges cuts names) by (unfold merges; apply map_ext_in; intros x X; f_equal; apply merge_off; congruence). rewrite Q.
    destruct (bin_of c i) as [j|]; auto. unfold merge. rewrite D. auto.
  - cbn [nth_error] in E. rewrite merge_off by (intros <-; apply Na; eapply nth_error_In; eauto). cbn [nth]. specialize (IH k idx Nd E D ltac:(lia)). rewrite <- IH. destruct (bin_of c (nth k idx 0)) as [j|].
    + change (set_at (S k) j (i :: idx)) with (i :: set_at k j idx). cbn [place]. auto.
    + destruct (merge cuts a i); auto.
Qed.
Lemma merges_none names idx : place (merges [] names) idx = Some idx.
Proof. revert idx. induction names as [|a names IH]; intros idx; [destruct idx; auto|]. destruct idx; auto. unfold merges. cbn [map place]. unfold merge at 1. cbn [dget]. fold (merges [] names). rewrite IH. auto. Qed.
Definition sized (cuts : list (string * list nat)) (a : haxis) : nat := match dget (ha_name a) cuts with Some c => List.length c - 1 | None => ha_size a end.
Lemma dget_In' {V} k (d : list (string * V)) v : dget k d = Some v -> In (k, v) d.
Proof. induction d as [|(a, b) d IH]; cbn; [discriminate|]. destruct (String.eqb_spec k a); [intros [= <-]; subst; auto|auto]. Qed.
Lemma dget_None' {V} k (d : list (string * V)) : ~ In k (map fst d) -> dget k d = None.
Proof. induction d as [|(a, b) d IH]; cbn; auto. intros H. destruct (String.eqb_spec k a); [subst; tauto|auto]. Qed.
Theorem rebin_steps : forall rebin cuts axes tail t out, NoDup (map ha_name axes) -> NoDup (map fst rebin) -> map fst cuts = map fst rebin ->
  (forall a, In a axes -> edges_ok a) -> (forall a new c, In a axes -> In (ha_name a, new) rebin -> In (ha_name a, c) cuts -> positions (ha_edges a) new c) ->
  rebin_loop rebin axes = Ok out -> t_shape t = map ha_size axes ++ tail ->
  map ha_name (fst out) = map ha_name axes /\ map ha_size (fst out) = map (sized cuts) axes /\
  exists t', seg_steps (snd out) t = Ok t' /\ t_shape t' = map ha_size (fst out) ++ tail /\ collects t t' (place (merges cuts (map ha_name axes))).
Proof.
  induction rebin as [|(n, new) rebin IH]; intros [|(n', c) cuts] axes tail t out ND Nr Ec He Hp E Sh; try discriminate Ec.
  - cbn in E. apply (f_equal (fun r => match r with Ok x => x | Raise _ => out end)) in E. subst out. cbn [fst snd seg_steps]. split; auto. split; [apply map_ext; auto|]. exists t. split; auto. split; auto. eapply collects_ext; [apply collects_id|]. intros. rewrite merges_none. auto.
  - cbn [map fst] in Ec. injection Ec as -> Ec. cbn [map fst] in Nr. inversion Nr as [|? ? Nn Nr']; subst. cbn [rebin_loop] in E. destruct (index_of n (map ha_name axes)) as [k|] eqn:K; [|discriminate]. apply index_of_Some in K.
    assert (Kl : k < List.length axes) by (assert (X : nth_error (map ha_name axes) k <> None) by (rewrite K; discriminate); apply nth_error_Some in X; rewrite map_length in X; auto).
    set (a := nth k axes (mkHaxis n 0 0 [])) in *. assert (Ia : In a axes) by (apply nth_In; auto).
    assert (Na : ha_name a = n) by (rewrite nth_error_map' in K; rewrite (nth_error_nth' axes (mkHaxis n 0 0 []) Kl) in K; cbn in K; injection K as K; exact K).
    destruct (rebin_ok (ha_edges a) new) eqn:Ok1; [|discriminate]. cbn [negb] in E.
    assert (M : 2 <= List.length new) by (unfold rebin_ok in Ok1; apply andb_true_iff in Ok1 as (_ & Q); apply Nat.leb_le; auto).
    set (m := List.length new - 1) in *. set (axes1 := set_at k (mkHaxis n m (m + (ha_extent a - ha_size a)) new) axes) in *.
    destruct (rebin_loop rebin axes1) as [rest|] eqn:Rr; [|discriminate]. cbn [rbind] in E. apply (f_equal (fun r => match r with Ok x => x | Raise _ => out end)) in E. subst out. cbn [fst snd].
    assert (P : positions (ha_edges a) new c) by (apply Hp; [auto|left; rewrite Na; auto|left; rewrite Na; auto]). pose proof P as (Lc & _).
    destruct (segments_valid _ _ _ _ P (He a Ia) M) as (V1 & V2 & V3 & V4 & V5).
    assert (Sk : nth k (t_shape t) 0 = ha_size a) by (rewrite Sh, app_nth1 by (rewrite map_length; auto); apply nth_error_nth; rewrite nth_error_map', (nth_error_nth' axes (mkHaxis n 0 0 []) Kl); auto).
    assert (Kr : k < rank t) by (unfold rank; rewrite Sh, app_length, map_length; lia).
    destruct (segment_axis t (segments new (ha_edges a)) k (Z.to_nat (zmax (segments new (ha_edges a)) + 1)) Kr) as (t1 & T1 & S1 & C1); [rewrite Sk; auto|auto|rewrite V4; auto|].
    assert (N1 : map ha_name axes1 = map ha_name axes) by (unfold axes1; rewrite set_at_map; cbn [ha_name]; apply set_at_same; auto).
    assert (Z1 : map ha_size axes1 = set_at k (List.length c - 1) (map ha_size axes)) by (unfold axes1; rewrite set_at_map; cbn [ha_size]; unfold m; rewrite Lc; auto).
    assert (Iu : forall b, In b axes1 -> ha_name b <> n -> In b axes).
    { intros b I Q. unfold axes1, set_at in I. apply in_app_iff in I as [I|[<-|I]]; [rewrite <- (firstn_skipn k axes); apply in_app_iff; auto|cbn in Q; tauto|]. rewrite <- (firstn_skipn (S k) axes). apply in_app_iff; auto. }
    assert (D0 : dget n cuts = None) by (apply dget_None'; rewrite Ec; auto).
    destruct (IH cuts axes1 tail t1 rest) as (R1 & R2 & t2 & T2 & S2 & C2); auto.
    + rewrite N1. auto.
    + intros b I. destruct (string_dec (ha_name b) n) as [Q|Q]; [|apply He, Iu; auto]. unfold axes1, set_at in I. apply in_app_iff in I as [I|[<-|I]].
      * apply He. rewrite <- (firstn_skipn k axes). apply in_app_iff; auto.
      * unfold edges_ok. cbn [ha_edges ha_size]. unfold m. lia.
      * apply He. rewrite <- (firstn_skipn (S k) axes). apply in_app_iff; auto.
    + intros b nw c' I I1 I2. apply Hp; [|right; auto|right; auto]. apply Iu; auto. intros Q. apply Nn. rewrite <- Q. apply in_map_iff. exists (ha_name b, nw). auto.
    + rewrite S1, Sh, set_at_app by (rewrite map_length; auto). rewrite Z1, V4. auto.
    + rewrite R1, N1. split; auto. split.
      * rewrite R2. apply (nth_ext _ _ 0 0); [rewrite !map_length; unfold axes1; rewrite set_at_len by auto; auto|].
        intros j J. rewrite map_length in J. assert (J' : j < List.length axes) by (unfold axes1 in J; rewrite set_at_len in J by auto; auto).
        rewrite !(nth_map' _ _ _ _ (mkHaxis n 0 0 [])) by auto.
        assert (Nj : ha_name (nth j axes1 (mkHaxis n 0 0 [])) = ha_name (nth j axes (mkHaxis n 0 0 []))) by (rewrite <- !(nth_map' ha_name _ _ ""%string) by auto; rewrite N1; auto).
        assert (Zj : ha_size (nth j axes1 (mkHaxis n 0 0 [])) = nth j (set_at k (List.length c - 1) (map ha_size axes)) 0) by (rewrite <- Z1; symmetry; apply nth_map'; auto).
        unfold sized. rewrite Nj, Zj. cbn [dget]. destruct (String.eqb_spec (ha_name (nth j axes (mkHaxis n 0 0 []))) n) as [Q|Q].
        -- rewrite Q, D0. assert (j = k). { rewrite NoDup_nth_error in ND. apply ND; [rewrite map_length; auto|]. rewrite K, nth_error_map', (nth_error_nth' axes (mkHaxis n 0 0 []) J'). cbn. congruence. } subst j.
           rewrite set_at_nth, Nat.eqb_refl by (rewrite map_length; auto). auto.
        -- assert (Nk : j <> k) by (intros ->; apply Q; exact Na). rewrite set_at_nth by (rewrite map_length; auto). apply Nat.eqb_neq in Nk. rewrite Nk, (nth_map' ha_size _ _ 0 (mkHaxis n 0 0 [])) by auto. reflexivity.
      * cbn [seg_steps]. rewrite T1. cbn [rbind]. exists t2. split; auto. split; auto. rewrite N1 in C2. eapply collects_ext; [eapply collects_trans; [exact C1|exact C2]|]. intros i Hi. pose proof (in_shape_len _ _ Hi) as Li. rewrite Sh, app_length, map_length in Li. unfold then_. rewrite place_on_axis by lia.
        rewrite V5 by (pose proof (in_shape_nth _ _ k Hi Kr) as Q; lia).
        rewrite <- (merge_step cuts n c (map ha_name axes) k i) by (auto; rewrite map_length; lia). destruct (bin_of c (nth k i 0)); auto.
Qed.
