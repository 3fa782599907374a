(** The slices of a histogram hold its content, bin by bin. *)
From Coq Require Import List Arith Bool String Permutation Sorted Lia.
From Verif Require Import PyList PyDict ListUtil Order Num Shape Names_Model Writer_Model Writer_Spec Writer_Layout Writer_Inv Writer_Hist
  Multi_Model Multi_Spec Multi_Geom.
Import ListNotations.
Local Open Scope list_scope.
Local Open Scope nat_scope.

Lemma Permutation_filter {A} (f : A -> bool) l1 l2 : Permutation l1 l2 -> Permutation (filter f l1) (filter f l2).
Proof.
  induction 1; cbn [filter]; auto.
  - destruct (f x); auto.
  - destruct (f x); destruct (f y); auto. constructor.
  - etransitivity; eauto.
Qed.
Lemma filter_map {A B} (f : B -> bool) (g : A -> B) l : filter f (map g l) = map g (filter (fun a => f (g a)) l).
Proof. induction l as [|a l IH]; cbn [map filter]; auto. destruct (f (g a)); cbn [map]; f_equal; auto. Qed.
Lemma filter_filter {A} (f g : A -> bool) l : filter f (filter g l) = filter (fun a => g a && f a) l.
Proof. induction l as [|a l IH]; cbn [filter]; auto. destruct (g a); cbn [filter andb]; [destruct (f a)|]; rewrite IH; auto. Qed.
Lemma NoDup_map_fst {A B} (g : nat * A -> nat * B) l : NoDup (map fst l) ->
  (forall x y, In x l -> In y l -> fst (g x) = fst (g y) -> fst x = fst y) -> NoDup (map fst (map g l)).
Proof.
  intros N H. induction l as [|x l IH]; cbn [map]; [constructor|]. cbn [map] in N. inversion N; subst. constructor.
  - intros K. apply in_map_iff in K. destruct K as (z & E & K). apply in_map_iff in K. destruct K as (y & <- & K).
    apply H2. rewrite (H x y); [apply in_map; auto|left; auto|right; auto|auto].
  - apply IH; auto. intros a b Ha Hb. apply H; right; auto.
Qed.
Lemma NoDup_fst_filter {A} (f : nat * A -> bool) l : NoDup (map fst l) -> NoDup (map fst (filter f l)).
Proof.
  induction l as [|x l IH]; cbn [map filter]; auto. intros N. inversion N; subst. destruct (f x); auto. cbn [map]. constructor; auto.
  intros K. apply H1. apply in_map_iff in K. destruct K as (y & E & K). apply filter_In in K. apply in_map_iff. exists y. tauto.
Qed.

(** *** axes *)
Lemma axis_by_name_In axes n a : axis_by_name axes n = Some a -> In a axes /\ x_name a = n.
Proof. intros H. apply find_some in H. destruct H as [H E]. apply String.eqb_eq in E. auto. Qed.
Lemma axis_by_name_found axes n : In n (x_names axes) -> exists a, axis_by_name axes n = Some a.
Proof.
  intros H. destruct (axis_by_name axes n) eqn:E; eauto. exfalso. unfold x_names in H. apply in_map_iff in H. destruct H as (a & <- & H).
  eapply find_none in E; eauto. rewrite String.eqb_refl in E. discriminate.
Qed.
Lemma axes_by_name_names axes ns : incl ns (x_names axes) -> x_names (axes_by_name axes ns) = ns.
Proof.
  intros H. induction ns as [|n ns IH]; cbn [axes_by_name flat_map]; auto.
  destruct (axis_by_name_found axes n) as (a & E); [apply H; left; auto|]. rewrite E. cbn [app x_names map].
  f_equal. { apply (axis_by_name_In _ _ _ E). } apply IH. intros x Hx. apply H. right. auto.
Qed.
Lemma axes_by_name_incl axes ns : incl (axes_by_name axes ns) axes.
Proof.
  intros a H. apply in_flat_map in H. destruct H as (n & _ & H). destruct (axis_by_name axes n) eqn:E; [|contradiction].
  destruct H as [<-|[]]. apply (axis_by_name_In _ _ _ E).
Qed.
Lemma names_inj axes a b : NoDup (x_names axes) -> In a axes -> In b axes -> x_name a = x_name b -> a = b.
Proof.
  unfold x_names. induction axes as [|c l IH]; cbn [map In]; intros N Ha Hb E; [contradiction|].
  destruct Ha as [<-|Ha]; destruct Hb as [<-|Hb]; inversion N; subst; auto.
  - exfalso. apply H1. rewrite E. apply in_map. auto.
  - exfalso. apply H1. rewrite <- E. apply in_map. auto.
Qed.
Lemma same_by_name axes chx : (forall n, In n (x_names chx) -> In n (x_names axes)) ->
  (forall a c, In a axes -> In c chx -> x_name a = x_name c -> same_bins a c) ->
  Forall2 same_bins (axes_by_name axes (x_names chx)) chx.
Proof.
  intros C S. induction chx as [|c l IH]; cbn [x_names map axes_by_name flat_map]; [constructor|].
  destruct (axis_by_name_found axes (x_name c)) as (a & E); [apply C; left; auto|]. rewrite E. destruct (axis_by_name_In _ _ _ E) as [I N].
  cbn [app]. constructor; [apply S; auto; left; auto|]. apply IH; intros; [apply C; right; auto|apply S; auto; right; auto].
Qed.

Lemma same_layout flow l l' : Forall2 same_bins l l' -> layout flow l = layout flow l'.
Proof.
  intros H. unfold layout. induction H as [|a b l l' H _ IH]; cbn [map]; auto. rewrite IH. destruct H as (_ & H1 & H2 & H3). unfold x_extent. rewrite H1, H2, H3. auto.
Qed.
Lemma same_sizes l l' : Forall2 same_bins l l' -> map x_size l = map x_size l'.
Proof. apply (same_layout false). Qed.
Lemma same_extents l l' : Forall2 same_bins l l' -> map x_extent l = map x_extent l'.
Proof. apply (same_layout true). Qed.
Lemma same_to_flow flow l l' b : Forall2 same_bins l l' -> to_flow flow l b = to_flow flow l' b.
Proof.
  intros H. unfold to_flow. destruct flow; auto. revert b. induction H as [|x y l l' H _ IH]; intros [|k b]; auto.
  rewrite !map2_cons, IH. destruct H as (_ & _ & -> & _). auto.
Qed.
Lemma same_shifted l l' b : Forall2 same_bins l l' -> shifted l b = shifted l' b.
Proof. apply (same_to_flow false). Qed.
Lemma same_regular l l' m : Forall2 same_bins l l' -> all_regular l m = all_regular l' m.
Proof.
  intros H. unfold all_regular. revert m. induction H as [|x y l l' H _ IH]; intros [|k m]; auto.
  rewrite !map2_cons. cbn [forallb]. rewrite IH. unfold regular. destruct H as (_ & -> & -> & _). auto.
Qed.
Lemma same_off l l' m : Forall2 same_bins l l' -> off_under l m = off_under l' m.
Proof.
  intros H. unfold off_under. revert m. induction H as [|x y l l' H _ IH]; intros [|k m]; auto.
  rewrite !map2_cons, IH. destruct H as (_ & _ & -> & _). auto.
Qed.
Lemma Forall2_len {A B} (P : A -> B -> Prop) l l' : Forall2 P l l' -> List.length l = List.length l'.
Proof. induction 1; cbn [List.length]; auto. Qed.
Lemma same_names l l' : Forall2 same_bins l l' -> x_names l = x_names l'.
Proof. intros H. unfold x_names. induction H as [|x y l l' H _ IH]; cbn [map]; auto. rewrite IH. destruct H as (-> & _). auto. Qed.

Lemma to_flow_len flow l b : List.length b = List.length l -> List.length (to_flow flow l b) = List.length l.
Proof. unfold to_flow. destruct flow; auto. rewrite map2_len. lia. Qed.
Lemma to_flow_in flow l b : in_shape (layout flow l) b -> in_shape (map x_extent l) (to_flow flow l b).
Proof.
  unfold layout, to_flow. destruct flow; auto. revert b. induction l as [|a l IH]; intros [|k b] H; cbn [map] in *; inversion H; subst; [constructor|].
  rewrite map2_cons. constructor; [unfold x_extent; lia|apply IH; auto].
Qed.
Lemma in_shape_layout_len flow l b : in_shape (layout flow l) b -> List.length b = List.length l.
Proof. intros H. apply in_shape_len in H. unfold layout in H. rewrite map_length in H. auto. Qed.

(** *** positions *)
Lemma position_extra flow ex chx i b : NoDup (x_names ex) -> List.length i = List.length ex ->
  map (position flow ex chx i b) (x_names ex) = shifted ex i.
Proof.
  intros N L. unfold position.
  assert (E : map (fun ai => (x_name (fst ai), x_under (fst ai) + snd ai)) (combine ex i) = combine (x_names ex) (shifted ex i)).
  { clear N. revert i L. unfold shifted. induction ex as [|a l IH]; intros [|k i] L; try discriminate; auto. cbn [combine map x_names fst snd]. rewrite map2_cons. cbn [combine]. f_equal. apply IH. auto. }
  rewrite E. apply lookup_combine; auto. unfold shifted, x_names. rewrite map2_len, map_length. lia.
Qed.
Lemma position_chan flow ex chx i b : NoDup (x_names chx) -> (forall n, In n (x_names ex) -> ~ In n (x_names chx)) ->
  List.length b = List.length chx -> map (position flow ex chx i b) (x_names chx) = to_flow flow chx b.
Proof.
  intros N D L. unfold position.
  assert (E : map (fun ab => (x_name (fst ab), if flow then snd ab else x_under (fst ab) + snd ab)) (combine chx b) = combine (x_names chx) (to_flow flow chx b)).
  { clear N D. unfold to_flow. destruct flow.
    - revert b L. induction chx as [|a l IH]; intros [|k b] L; try discriminate; auto. cbn [combine map x_names fst snd]. f_equal. apply IH. auto.
    - revert b L. induction chx as [|a l IH]; intros [|k b] L; try discriminate; auto. cbn [combine map x_names fst snd]. rewrite map2_cons. cbn [combine]. f_equal. apply IH. auto. }
  rewrite E. transitivity (map (lookup (combine (x_names chx) (to_flow flow chx b) ++ [])) (x_names chx)).
  2: { apply lookup_combine; auto. rewrite to_flow_len by auto. unfold x_names. rewrite map_length. auto. }
  apply map_ext_in. intros n Hn. rewrite app_nil_r. apply lookup_skip. rewrite map_map. cbn [fst]. intros K.
  apply (D n); auto. apply in_map_iff in K. destruct K as ([a k] & E' & K). cbn [fst] in E'. subst. apply in_combine_l in K. apply in_map. auto.
Qed.

Lemma in_shape_names (l : list maxis) (c : string -> nat) : in_shape (map x_extent l) (map c (x_names l)) <-> (forall a, In a l -> c (x_name a) < x_extent a).
Proof.
  unfold x_names. induction l as [|a l IH]; cbn [map]; split.
  - intros _ ? [].
  - constructor.
  - intros H. inversion H; subst. intros x [<-|Hx]; auto. apply IH; auto.
  - intros H. constructor; [apply H; left; auto|]. apply IH. intros x Hx. apply H. right. auto.
Qed.
Lemma shifted_in l i : in_shape (map x_size l) i -> in_shape (map x_extent l) (shifted l i).
Proof. apply (to_flow_in false). Qed.

(** coordinates [c] of a bin in terms of the extra and the channel axes *)
Section Geom.
  Variables (axes chx : list maxis) (extra : list string).
  Hypothesis G : geom axes extra chx.
  Let ex := axes_by_name axes extra.
  Lemma ex_names : x_names ex = extra.
  Proof. apply axes_by_name_names. intros n H. apply (g_cover _ _ _ G). auto. Qed.
  Lemma ch_same : Forall2 same_bins (axes_by_name axes (x_names chx)) chx.
  Proof. apply same_by_name; [|apply (g_same _ _ _ G)]. intros n H. apply (g_cover _ _ _ G). auto. Qed.
  Lemma coords_in (c : string -> nat) i m : in_shape (map x_size ex) i -> map c extra = shifted ex i ->
    in_shape (map x_extent chx) m -> map c (x_names chx) = m -> in_shape (map x_extent axes) (map c (x_names axes)).
  Proof.
    intros I E1 I2 E2. apply in_shape_names. intros a Ha. assert (Hn : In (x_name a) (x_names axes)) by (apply in_map; auto).
    apply (g_cover _ _ _ G) in Hn. destruct Hn as [Hn|Hn].
    - rewrite <- ex_names in Hn. unfold x_names in Hn. apply in_map_iff in Hn. destruct Hn as (e & En & He).
      assert (e = a) by (eapply (names_inj axes); eauto using g_names; apply (axes_by_name_incl _ _ _ He)). subst e.
      assert (in_shape (map x_extent ex) (map c (x_names ex))) as Q by (rewrite ex_names, E1; apply shifted_in; auto).
      apply in_shape_names with (a := a) in Q; auto.
    - unfold x_names in Hn. apply in_map_iff in Hn. destruct Hn as (d & En & Hd).
      assert (x_extent a = x_extent d) as ->. { destruct (g_same _ _ _ G a d Ha Hd) as (_ & H1 & H2 & H3); auto. unfold x_extent. congruence. }
      rewrite <- E2 in I2. rewrite <- En. apply (proj1 (in_shape_names chx c)); auto.
  Qed.
  Lemma coords_unique (c : string -> nat) m : in_shape (map x_extent axes) m ->
    map (coord_of (x_names axes) m) extra = map c extra ->
    map (coord_of (x_names axes) m) (x_names chx) = map c (x_names chx) -> m = map c (x_names axes).
  Proof.
    intros I E1 E2. rewrite <- (index_of_nth_coord (x_names axes) m (g_names _ _ _ G)).
    2: { apply in_shape_len in I. unfold x_names. rewrite map_length in *. auto. }
    apply map_ext_in. intros n Hn. apply (g_cover _ _ _ G) in Hn. destruct Hn as [Hn|Hn].
    - eapply ext_in_map in E1; eauto.
    - eapply ext_in_map in E2; eauto.
  Qed.
  Lemma coords_of_map (c : string -> nat) ns : incl ns (x_names axes) -> map (coord_of (x_names axes) (map c (x_names axes))) ns = map c ns.
  Proof. intros H. apply map_ext_in. intros n Hn. apply coord_of_map. auto. Qed.
End Geom.

Section Slices.
  Context {V : Type} {NV : Num V}.

  (** *** a histogram in the layout of the channel *)
  Definition regular_ents (axes : list maxis) (ents : list (nat * V)) : list (nat * V) :=
    map (fun e => (ravel (map x_size axes) (off_under axes (unravel (map x_extent axes) (fst e))), snd e))
      (filter (fun e => all_regular axes (unravel (map x_extent axes) (fst e))) ents).
  Lemma unravel_len axes k : k < prodn (map x_extent axes) -> List.length (unravel (map x_extent axes) k) = List.length axes.
  Proof. intros H. apply unravel_in in H. apply in_shape_len in H. rewrite map_length in H. auto. Qed.
  Lemma regular_ents_In axes ents b v : Forall (fun e : nat * V => fst e < prodn (map x_extent axes)) ents ->
    in_shape (map x_size axes) b ->
    (In (ravel (map x_size axes) b, v) (regular_ents axes ents) <-> In (ravel (map x_extent axes) (shifted axes b), v) ents).
  Proof.
    intros R I. rewrite Forall_forall in R. unfold regular_ents. rewrite in_map_iff. split.
    - intros ([k w] & E & H). cbn [fst snd] in E. apply filter_In in H. destruct H as [H K]. cbn [fst] in K.
      specialize (R _ H). cbn [fst] in R. assert (w = v) by congruence. subst w. apply (f_equal fst) in E. cbn [fst] in E.
      assert (unravel (map x_extent axes) k = shifted axes b). { apply regular_iff; auto. apply unravel_len. auto. }
      rewrite <- H0, ravel_unravel; auto.
    - intros H. exists (ravel (map x_extent axes) (shifted axes b), v). cbn [fst snd].
      pose proof (shifted_regular _ _ I) as [Q1 Q2]. rewrite (unravel_ravel _ _ (shifted_in _ _ I)). split; [rewrite Q2; auto|].
      apply filter_In. split; auto. cbn [fst]. rewrite (unravel_ravel _ _ (shifted_in _ _ I)). auto.
  Qed.
  Lemma regular_ents_NoDup axes ents : Forall (fun e : nat * V => fst e < prodn (map x_extent axes)) ents ->
    NoDup (map fst ents) -> NoDup (map fst (regular_ents axes ents)).
  Proof.
    intros R N. unfold regular_ents. rewrite Forall_forall in R. apply NoDup_map_fst. { apply NoDup_fst_filter; auto. }
    intros x y Hx Hy. apply filter_In in Hx, Hy. cbn [fst]. destruct Hx as [Hx Kx]. destruct Hy as [Hy Ky].
    specialize (R _ Hx) as Rx. specialize (R _ Hy) as Ry. intros E.
    destruct (regular_shifted _ _ (unravel_len _ _ Rx) Kx) as [Ix Sx]. destruct (regular_shifted _ _ (unravel_len _ _ Ry) Ky) as [Iy Sy].
    apply ravel_inj in E; auto. rewrite E, Sy in Sx. rewrite <- (ravel_unravel _ _ Rx), <- (ravel_unravel _ _ Ry), Sx. auto.
  Qed.
  Lemma regular_ents_range axes ents : Forall (fun e : nat * V => fst e < prodn (map x_extent axes)) ents ->
    Forall (fun i => i < prodn (map x_size axes)) (map fst (regular_ents axes ents)).
  Proof.
    intros R. rewrite Forall_forall in *. intros k Hk. unfold regular_ents in Hk. rewrite map_map in Hk. apply in_map_iff in Hk.
    destruct Hk as (e & <- & H). cbn [fst]. apply filter_In in H. destruct H as [H K]. specialize (R _ H).
    apply ravel_lt. apply regular_shifted; auto. apply unravel_len. auto.
  Qed.

  Lemma to_histo_size flow (h : mhist V) : hsize (to_histo flow h) = prodn (layout flow (mh_axes h)).
  Proof. destruct h; cbn [to_histo hsize mh_axes]; auto. rewrite map_length, all_idx_len. auto. Qed.
  Lemma to_histo_wf flow (h : mhist V) : wf_mhist h -> wf_hist (to_histo flow h).
  Proof.
    destruct h as [axes f|axes ents]; cbn [to_histo wf_hist]; auto. intros (_ & N & R). unfold to_flat_csr, layout. destruct flow.
    - split; [apply sort_flat_sorted; auto|]. rewrite Forall_forall in *. intros k Hk. apply in_map_iff in Hk. destruct Hk as (e & <- & He).
      apply R. eapply Permutation_in; [apply sort_flat_perm|auto].
    - fold (regular_ents axes ents). split; [apply sort_flat_sorted, regular_ents_NoDup; auto|].
      pose proof (regular_ents_range axes ents R) as Q. rewrite Forall_forall in *. intros k Hk. apply Q.
      eapply Permutation_in; [apply Permutation_map, sort_flat_perm|auto].
  Qed.
  Lemma to_histo_at flow (h : mhist V) b : wf_mhist h -> in_shape (layout flow (mh_axes h)) b ->
    hist_at (to_histo flow h) (ravel (layout flow (mh_axes h)) b) = mh_at h (to_flow flow (mh_axes h) b).
  Proof.
    destruct h as [axes f|axes ents]; cbn [mh_axes].
    - intros _ I. cbn [to_histo hist_at mh_at]. erewrite nth_error_nth; [reflexivity|]. rewrite nth_error_map, all_idx_nth; auto.
    - intros (_ & N & R) I. rewrite mh_at_or0. cbn [to_histo]. rewrite hist_at_or0. unfold to_flat_csr, layout, to_flow in *. destruct flow.
      + apply at_or0_perm. { apply sort_flat_perm. } eapply Permutation_NoDup; [apply Permutation_map, Permutation_sym, sort_flat_perm|auto].
      + fold (regular_ents axes ents). rewrite (at_or0_perm _ _ (regular_ents axes ents)).
        * apply at_or0_rel; auto. { apply regular_ents_NoDup; auto. } intros v. apply regular_ents_In; auto.
        * apply sort_flat_perm.
        * eapply Permutation_NoDup; [apply Permutation_map, Permutation_sym, sort_flat_perm|]. apply regular_ents_NoDup; auto.
  Qed.

  (** *** the slice of a dense histogram *)
  Lemma dget_combine_shift (l : list maxis) idx (c : string -> nat) : List.length idx = List.length l -> map c (x_names l) = shifted l idx ->
    NoDup (x_names l) -> forall a, In a l -> exists k, dget (x_name a) (combine (x_names l) idx) = Some k /\ c (x_name a) = x_under a + k.
  Proof.
    revert idx. unfold x_names, shifted. induction l as [|a l IH]; intros [|k idx] L E N x Hx; try discriminate; try contradiction.
    cbn [map] in E. rewrite map2_cons in E. injection E as E1 E2. cbn [map combine dget]. inversion N; subst. destruct Hx as [<-|Hx].
    - rewrite String.eqb_refl. eauto.
    - destruct (String.eqb_spec (x_name x) (x_name a)) as [Q|Q]; [|apply IH; auto]. exfalso. apply H1. rewrite <- Q. apply in_map. auto.
  Qed.
  Lemma merge_coords (axes : list maxis) (extra : list string) (sel : dict nat) (c : string -> nat) :
    (forall a, In a axes -> In (x_name a) extra -> exists k, dget (x_name a) sel = Some k /\ c (x_name a) = x_under a + k) ->
    (forall n, ~ In n extra -> dget n sel = None) ->
    merge_idx axes sel (map c (x_names (keep_axes axes extra))) = map c (x_names axes).
  Proof.
    intros H1 H2. unfold keep_axes, x_names. induction axes as [|a l IH]; cbn [merge_idx filter map]; auto.
    assert (IH' : merge_idx l sel (map c (map x_name (filter (fun a0 => negb (smem (x_name a0) extra)) l))) = map c (map x_name l)).
    { apply IH. intros x Hx. apply H1. right. auto. }
    destruct (smem (x_name a) extra) eqn:E; cbn [negb map].
    - apply smem_In in E. destruct (H1 a (or_introl eq_refl) E) as (k & -> & ->). f_equal. auto.
    - rewrite H2. { cbn [hd tl]. f_equal. auto. } intros K. apply smem_In in K. congruence.
  Qed.

  (** *** the slices of a sparse histogram *)
  Definition e_coords (axes : list maxis) (k : nat) (ns : list string) : list nat :=
    map (coord_of (x_names axes) (unravel (map x_extent axes) k)) ns.
  Definition slice_ents (axes : list maxis) (ents : list (nat * V)) (extra kept : list string) (keep : list maxis) (k : nat) : list (nat * V) :=
    let exax := axes_by_name axes extra in
    map (fun e => (ravel (map x_extent keep) (e_coords axes (fst e) kept), snd e))
      (filter (fun e => all_regular exax (e_coords axes (fst e) extra) &&
                        Nat.eqb (ravel (map x_size exax) (off_under exax (e_coords axes (fst e) extra))) k) ents).
  Lemma sparse_slices_perm axes ents extra keep k : k < prodn (map x_size (axes_by_name axes extra)) ->
    exists s, nth_error (sparse_slices axes ents extra keep) k = Some (MSparse keep (sort_flat s)) /\
      Permutation s (slice_ents axes ents extra (filter (fun n => negb (smem n extra)) (x_names axes)) keep k).
  Proof.
    intros H. unfold sparse_slices. rewrite nth_error_map, (nth_error_nth' _ 0) by (rewrite seq_length; auto).
    rewrite seq_nth by auto. cbn [option_map plus]. eexists. split; [reflexivity|].
    rewrite pyslice_run by apply sort_fst_sorted. unfold slice_ents, e_coords, to_flat_csr.
    set (kept := filter (fun n => negb (smem n extra)) (x_names axes)). set (exax := axes_by_name axes extra).
    etransitivity. { apply Permutation_map, Permutation_filter, sort_perm. }
    rewrite !filter_map, !map_map. cbn [fst snd]. rewrite filter_filter. apply Permutation_map.
    apply Permutation_filter. apply sort_flat_perm.
  Qed.
  Section Sp.
    Variables (axes chx keep : list maxis) (extra kept : list string) (ents : list (nat * V)).
    Hypothesis G : geom axes extra chx.
    Hypothesis R : Forall (fun e : nat * V => fst e < prodn (map x_extent axes)) ents.
    Hypothesis N : NoDup (map fst ents).
    Hypothesis K : Forall2 same_bins keep chx.
    Hypothesis KN : kept = x_names chx.
    Let ex := axes_by_name axes extra.
    Lemma e_coords_in k : k < prodn (map x_extent axes) -> in_shape (map x_extent chx) (e_coords axes k (x_names chx)).
    Proof.
      intros H. unfold e_coords. apply in_shape_names. intros d Hd.
      assert (Hn : In (x_name d) (x_names axes)) by (apply (g_cover _ _ _ G); right; apply in_map; auto).
      unfold x_names in Hn. apply in_map_iff in Hn. destruct Hn as (a & Ea & Ha).
      assert (x_extent d = x_extent a) as ->. { destruct (g_same _ _ _ G a d Ha Hd Ea) as (_ & H1 & H2 & H3). unfold x_extent. congruence. }
      rewrite <- Ea. assert (Q : in_shape (map x_extent axes) (map (coord_of (x_names axes) (unravel (map x_extent axes) k)) (x_names axes))).
      { rewrite index_of_nth_coord; [apply unravel_in; auto|apply (g_names _ _ _ G)|]. unfold x_names. rewrite map_length. apply unravel_len. auto. }
      apply (proj1 (in_shape_names axes _)) with (a := a) in Q; auto.
    Qed.
    Lemma e_coords_len k ns : List.length (e_coords axes k ns) = List.length ns.
    Proof. unfold e_coords. apply map_length. Qed.
    Lemma ex_len : List.length extra = List.length ex.
    Proof. rewrite <- (ex_names _ _ _ G). unfold x_names. apply map_length. Qed.
    Lemma slice_key i e : in_shape (map x_size ex) i ->
      (all_regular ex (e_coords axes e extra) && Nat.eqb (ravel (map x_size ex) (off_under ex (e_coords axes e extra))) (ravel (map x_size ex) i) = true
       <-> e_coords axes e extra = shifted ex i).
    Proof.
      intros I. rewrite andb_true_iff, Nat.eqb_eq. apply regular_iff; auto. rewrite e_coords_len. apply ex_len.
    Qed.
    Lemma slice_ents_In i (c : string -> nat) v : in_shape (map x_size ex) i -> map c extra = shifted ex i ->
      in_shape (map x_extent chx) (map c (x_names chx)) ->
      (In (ravel (map x_extent keep) (map c (x_names chx)), v) (slice_ents axes ents extra kept keep (ravel (map x_size ex) i)) <->
       In (ravel (map x_extent axes) (map c (x_names axes)), v) ents).
    Proof.
      intros I E Ib. unfold slice_ents. fold ex. rewrite (same_extents _ _ K). subst kept. rewrite in_map_iff. split.
      - intros ([k w] & Q & H). cbn [fst snd] in Q. apply filter_In in H. destruct H as [H L]. cbn [fst] in L. apply slice_key in L; auto.
        rewrite Forall_forall in R. specialize (R _ H). cbn [fst] in R.
        assert (w = v) by congruence. subst w. apply (f_equal fst) in Q. cbn [fst] in Q. apply ravel_inj in Q; auto using e_coords_in.
        assert (unravel (map x_extent axes) k = map c (x_names axes)) as <-.
        { apply (coords_unique axes chx extra G); [apply unravel_in; auto|unfold e_coords in *; congruence|auto]. }
        rewrite ravel_unravel; auto.
      - intros H. exists (ravel (map x_extent axes) (map c (x_names axes)), v). cbn [fst snd].
        pose proof (coords_in axes chx extra G c i _ I E Ib eq_refl) as J.
        assert (C : forall ns, incl ns (x_names axes) -> e_coords axes (ravel (map x_extent axes) (map c (x_names axes))) ns = map c ns).
        { intros ns Hs. unfold e_coords. rewrite unravel_ravel by auto. apply coords_of_map. auto. }
        split.
        + rewrite C; auto. intros n Hn. apply (g_cover _ _ _ G). auto.
        + apply filter_In. split; auto. cbn [fst]. apply slice_key; auto. rewrite C; auto. intros n Hn. apply (g_cover _ _ _ G). auto.
    Qed.
    Lemma slice_ents_range k : Forall (fun e => fst e < prodn (map x_extent keep)) (slice_ents axes ents extra kept keep k).
    Proof.
      rewrite Forall_forall in *. intros x Hx. unfold slice_ents in Hx. apply in_map_iff in Hx. destruct Hx as (e & <- & H). cbn [fst].
      apply filter_In in H. destruct H as [H _]. rewrite (same_extents _ _ K). apply ravel_lt. subst kept. apply e_coords_in. auto.
    Qed.
    Lemma slice_ents_NoDup i : in_shape (map x_size ex) i -> NoDup (map fst (slice_ents axes ents extra kept keep (ravel (map x_size ex) i))).
    Proof.
      intros I. unfold slice_ents. fold ex. apply NoDup_map_fst. { apply NoDup_fst_filter; auto. }
      rewrite Forall_forall in R. intros x y Hx Hy. apply filter_In in Hx, Hy. destruct Hx as [Hx Lx]. destruct Hy as [Hy Ly]. cbn [fst].
      apply slice_key in Lx, Ly; auto. specialize (R _ Hx) as Rx. specialize (R _ Hy) as Ry. intros Q.
      rewrite (same_extents _ _ K) in Q. subst kept. apply ravel_inj in Q; auto using e_coords_in.
      assert (unravel (map x_extent axes) (fst x) = unravel (map x_extent axes) (fst y)) as U.
      { rewrite (coords_unique axes chx extra G (coord_of (x_names axes) (unravel (map x_extent axes) (fst y))) (unravel (map x_extent axes) (fst x))).
        - apply index_of_nth_coord; [apply (g_names _ _ _ G)|]. unfold x_names. rewrite map_length. apply unravel_len. auto.
        - apply unravel_in; auto.
        - unfold e_coords in *. congruence.
        - exact Q. }
      rewrite <- (ravel_unravel _ _ Rx), <- (ravel_unravel _ _ Ry), U. auto.
    Qed.
  End Sp.

  (** the kept axes are those of the channel, in the channel's order *)
  Definition ordered (axes : list maxis) (extra : list string) (chx : list maxis) : Prop :=
    Forall2 same_bins (keep_axes axes extra) chx.
  Lemma kept_names axes extra : filter (fun n => negb (smem n extra)) (x_names axes) = x_names (keep_axes axes extra).
  Proof. exact (filter_map (fun n => negb (smem n extra)) x_name axes). Qed.

  (** the slices of a histogram *)
  Lemma hist_slices_ok (ref h : mhist V) extra chx i : wf_mhist h -> geom (mh_axes h) extra chx -> ordered (mh_axes h) extra chx ->
    ordered (mh_axes ref) extra chx ->
    Forall2 same_bins (axes_by_name (mh_axes h) extra) (axes_by_name (mh_axes ref) extra) ->
    let ex := axes_by_name (mh_axes ref) extra in
    in_shape (map x_size ex) i ->
    exists s, nth_error (hist_slices ref h extra) (ravel (map x_size ex) i) = Some s /\ wf_mhist s /\
      Forall2 same_bins (mh_axes s) chx /\
      (mh_axes s = keep_axes (mh_axes h) extra \/ mh_axes s = keep_axes (mh_axes ref) extra) /\
      forall (c : string -> nat), map c extra = shifted ex i -> in_shape (map x_extent chx) (map c (x_names chx)) ->
        mh_at s (map c (x_names chx)) = named_at h c.
  Proof.
    intros W G O Or X ex I. destruct W as [Wn W]. destruct h as [axes f|axes ents]; cbn [mh_axes] in *.
    - exists (slice_dense axes f extra i). cbn [hist_slices]. fold ex. split.
      { rewrite nth_error_map, all_idx_nth; auto. }
      unfold slice_dense. cbn [mh_axes]. split; [|split; [exact O|split; [auto|]]].
      { split; cbn [mh_axes]; auto. unfold wf_axes. rewrite (same_names _ _ O). apply (g_ch _ _ _ G). }
      intros c E Ib. unfold named_at. cbn [mh_at mh_axes]. f_equal.
      rewrite <- (same_names _ _ O). rewrite <- (map_map x_name c). fold (x_names axes). apply merge_coords.
      + intros a Ha Hn. rewrite <- (ex_names _ _ _ G) in Hn. unfold x_names in Hn at 1. apply in_map_iff in Hn. destruct Hn as (e & En & He).
        assert (e = a) by (eapply (names_inj axes); eauto using g_names; apply (axes_by_name_incl _ _ _ He)). subst e.
        pose proof (dget_combine_shift (axes_by_name axes extra) i c) as Q. rewrite (ex_names _ _ _ G) in Q. apply Q; auto.
        * apply in_shape_len in I. rewrite map_length in I. rewrite I. symmetry. apply (Forall2_len same_bins); auto.
        * rewrite (same_shifted _ _ _ X). auto.
        * apply (g_extra _ _ _ G).
      + intros n Hn. apply dget_None. intros Q. apply Hn. unfold dkeys in Q. apply in_map_iff in Q. destruct Q as ([a k] & <- & Q). eapply in_combine_l; eauto.
    - destruct W as [N R]. cbn [hist_slices].
      assert (SZ : map x_size ex = map x_size (axes_by_name axes extra)) by (symmetry; apply same_sizes; auto).
      destruct (sparse_slices_perm axes ents extra (keep_axes (mh_axes ref) extra) (ravel (map x_size ex) i)) as (s & E & P).
      { rewrite <- SZ. apply ravel_lt. auto. }
      exists (MSparse (keep_axes (mh_axes ref) extra) (sort_flat s)). split; auto. cbn [mh_axes].
      set (kept := filter (fun n => negb (smem n extra)) (x_names axes)) in *.
      assert (KN : kept = x_names chx). { unfold kept. rewrite kept_names. apply same_names. auto. }
      rewrite SZ in P, I. 
      assert (PS : Permutation (sort_flat s) (slice_ents axes ents extra kept (keep_axes (mh_axes ref) extra) (ravel (map x_size (axes_by_name axes extra)) i))).
      { etransitivity; [apply sort_flat_perm|exact P]. }
      pose proof (slice_ents_NoDup axes chx (keep_axes (mh_axes ref) extra) extra kept ents G R N Or KN i I) as ND.
      split; [|split; [exact Or|split; [auto|]]].
      + split; cbn [mh_axes]. { unfold wf_axes. rewrite (same_names _ _ Or). apply (g_ch _ _ _ G). }
        split. { eapply Permutation_NoDup; [apply Permutation_map, Permutation_sym, PS|auto]. }
        eapply Permutation_Forall; [apply Permutation_sym, PS|]. eapply slice_ents_range; eauto.
      + intros c Ec Ib. unfold named_at. cbn [mh_axes]. rewrite !mh_at_or0.
        rewrite (at_or0_perm _ _ _ PS) by (eapply Permutation_NoDup; [apply Permutation_map, Permutation_sym, PS|auto]).
        apply at_or0_rel; auto. intros v. rewrite <- (map_map x_name c). fold (x_names axes).
        eapply slice_ents_In; eauto. rewrite Ec. unfold ex. symmetry. apply same_shifted. auto.
  Qed.
End Slices.
