(** The loop over slices is the sequence of single bookings. *)
From Coq Require Import List Arith Bool String Permutation Sorted Lia.
From Verif Require Import PyList PyDict ListUtil Order Num Shape Names_Model Writer_Model Writer_Spec Writer_Layout Writer_Inv Writer_Hist
  Multi_Model Multi_Spec Multi_Geom Multi_Slices.
Import ListNotations.
Local Open Scope list_scope.
Local Open Scope nat_scope.

(** *** names *)
Lemma concat_join a b r : String.concat "_" ((a ++ b)%string :: r) = (a ++ String.concat "_" (b :: r))%string.
Proof.
  assert (A : forall x y z : string, ((x ++ y) ++ z = x ++ (y ++ z))%string).
  { induction x as [|c x IH]; intros y z; cbn [append]; auto. rewrite IH. auto. }
  destruct r as [|x r]; cbn [String.concat]; auto.
Qed.
Lemma sub_name_spec ex : forall name i, List.length i = List.length ex -> sub_name name ex i = spec_name name ex i.
Proof.
  unfold sub_name. induction ex as [|a ex IH]; intros name [|k i] L; try discriminate; auto.
  rewrite map2_cons. cbn [spec_name]. rewrite <- IH by auto. rewrite !concat_join. cbn [String.concat]. reflexivity.
Qed.
Lemma nth_axis_labels a i : i < x_size a -> nth i (axis_labels a) ""%string = label_of a i.
Proof.
  intros H. unfold axis_labels, label_of. destruct (x_cats a) as [l|]; erewrite nth_error_nth; try reflexivity;
  rewrite nth_error_map, (nth_error_nth' _ 0) by (rewrite seq_length; auto); rewrite seq_nth by auto; reflexivity.
Qed.
Lemma batch_names_spec name ex : batch_names name ex = map (spec_name name ex) (all_idx (map x_size ex)).
Proof.
  assert (B : forall l : list maxis, map (fun k => String.concat "_" (name :: map2 (fun l i => nth i l ""%string) (map axis_labels l) (unravel (map x_size l) k)))
                  (seq 0 (prodn (map x_size l))) = map (spec_name name l) (all_idx (map x_size l))).
  { intros l. rewrite all_idx_unravel, map_map. apply map_ext_in. intros k Hk. apply in_seq in Hk.
    assert (I : in_shape (map x_size l) (unravel (map x_size l) k)) by (apply unravel_in; lia).
    rewrite <- sub_name_spec. 2: { apply in_shape_len in I. rewrite map_length in I. auto. }
    unfold sub_name. do 2 f_equal. revert I. generalize (unravel (map x_size l) k). clear. induction l as [|a l IH]; intros [|j i] I; cbn [map] in *; inversion I; subst; auto.
    rewrite !map2_cons. f_equal; [|auto]. apply nth_axis_labels. auto. }
  unfold batch_names. destruct ex as [|a [|b r]]; [apply (B [])| |apply (B (a :: b :: r))].
  transitivity (map (fun i => spec_name name [a] [i]) (seq 0 (x_size a))).
  - apply map_ext_in. intros i Hi. apply in_seq in Hi. rewrite nth_axis_labels by lia. auto.
  - cbn [map all_idx]. generalize (seq 0 (x_size a)). induction l as [|x l IH]; cbn [map flat_map app]; auto. f_equal. auto.
Qed.

Lemma Forall2_nth {A B} (P : A -> B -> Prop) l l' : List.length l = List.length l' ->
  (forall k x, nth_error l k = Some x -> exists y, nth_error l' k = Some y /\ P x y) -> Forall2 P l l'.
Proof.
  revert l'. induction l as [|a l IH]; intros [|b l'] L H; try discriminate; constructor.
  - destruct (H 0 a eq_refl) as (y & E & Q). cbn in E. congruence.
  - apply IH; [auto|]. intros k x E. apply (H (S k) x E).
Qed.
Lemma nth_error_combine {A B} (l : list A) (m : list B) k a b : nth_error l k = Some a -> nth_error m k = Some b -> nth_error (combine l m) k = Some (a, b).
Proof. revert m k. induction l as [|x l IH]; intros [|y m] [|k] H K; try discriminate; cbn in *; [congruence|auto]. Qed.
Lemma nth_error_map2 {A B C} (f : A -> B -> C) l m k a b : nth_error l k = Some a -> nth_error m k = Some b -> nth_error (map2 f l m) k = Some (f a b).
Proof. intros H K. unfold map2. rewrite nth_error_map, (nth_error_combine _ _ _ _ _ H K). auto. Qed.

Section Loop.
  Context {V : Type} {NV : Num V}.

  (** histogram with its axes in the order of the channel *)
  Definition fits (h : mhist V) (extra : list string) (chx : list maxis) : Prop :=
    wf_mhist h /\ geom (mh_axes h) extra chx /\ ordered (mh_axes h) extra chx /\
    check_edges chx (keep_axes (mh_axes h) extra) = None.
  Definition fits_input (h : minput V) (extra : list string) (chx : list maxis) : Prop :=
    match h with
    | ISingle h => fits h extra chx
    | IPair u d => fits u extra chx /\ fits d extra chx /\
        Forall2 same_bins (axes_by_name (mh_axes d) extra) (axes_by_name (mh_axes u) extra)
    end.
  Lemma same_bins_refl l : Forall2 same_bins l l.
  Proof. induction l; constructor; auto. repeat split. Qed.

  Lemma hist_slices_len ref h extra chx : fits h extra chx ->
    Forall2 same_bins (axes_by_name (mh_axes h) extra) (axes_by_name (mh_axes ref) extra) ->
    List.length (hist_slices ref h extra) = prodn (map x_size (axes_by_name (mh_axes ref) extra)).
  Proof.
    intros F X. destruct h; cbn [hist_slices mh_axes] in *.
    - rewrite map_length, all_idx_len. auto.
    - unfold sparse_slices. rewrite map_length, seq_length, (same_sizes _ _ X). auto.
  Qed.
  Lemma slice_histo flow ref h extra chx i : fits h extra chx -> fits ref extra chx ->
    Forall2 same_bins (axes_by_name (mh_axes h) extra) (axes_by_name (mh_axes ref) extra) ->
    let ex := axes_by_name (mh_axes ref) extra in
    in_shape (map x_size ex) i ->
    exists s, nth_error (hist_slices ref h extra) (ravel (map x_size ex) i) = Some s /\
      wf_hist (to_histo flow s) /\ check_edges chx (mh_axes s) = None /\ slice_of flow ex chx h i (to_histo flow s).
  Proof.
    intros (W & G & O & C) (Wr & Gr & Or & Cr) X ex I.
    destruct (hist_slices_ok ref h extra chx i W G O Or X I) as (s & E & Ws & Sb & Sx & H). exists s. split; auto.
    split; [apply to_histo_wf; auto|]. split. { destruct Sx as [->| ->]; auto. }
    split. { rewrite to_histo_size. rewrite (same_layout flow _ _ Sb). auto. }
    intros b Ib. rewrite <- (same_layout flow _ _ Sb) in *. rewrite to_histo_at by auto. rewrite (same_to_flow flow _ _ b Sb).
    assert (NE : x_names ex = extra) by (apply (ex_names _ _ _ Gr)).
    rewrite (same_layout flow _ _ Sb) in Ib.
    assert (PC : map (position flow ex chx i b) (x_names chx) = to_flow flow chx b).
    { apply position_chan. { apply (g_ch _ _ _ G). } { rewrite NE. apply (g_disj _ _ _ G). } eapply in_shape_layout_len; eauto. }
    rewrite <- PC. apply H.
    - transitivity (map (position flow ex chx i b) (x_names ex)); [rewrite NE; auto|]. apply (position_extra flow ex chx i b). { rewrite NE. apply (g_extra _ _ _ G). } apply in_shape_len in I. rewrite map_length in I. auto.
    - rewrite PC. apply to_flow_in. auto.
  Qed.

  Definition call_of (flow : bool) (p ch : string) (kf : V) (mirror : bool) (m : symmode) (ad : bool) (kw : kwargs) (nh : string * minput V) : op V :=
    AddSystematic (match snd nh with ISingle s => SSingle (to_histo flow s) | IPair u d => SPair (to_histo flow u) (to_histo flow d) end)
      (fst nh) p ch kf mirror m ad kw.
  Definition edges_ok (chx : list maxis) (nh : string * minput V) : Prop :=
    match snd nh with
    | ISingle s => check_edges chx (mh_axes s) = None
    | IPair u d => check_edges chx (mh_axes u) = None /\ check_edges chx (mh_axes d) = None
    end.
  Lemma book_slice_step cfg chx flow st nh p ch kf mirror m ad kw : edges_ok chx nh ->
    book_slice cfg chx flow st (snd nh) (fst nh) p ch kf mirror m ad kw =
    match step cfg st (call_of flow p ch kf mirror m ad kw nh) with (st1, None) => Ok st1 | (_, Some e) => Raise e end.
  Proof.
    unfold edges_ok, book_slice, call_of. cbn [step]. unfold add_systematic. destruct nh as [n h]; cbn [fst snd].
    destruct h as [s|u d]; intros E; [rewrite E|destruct E as [-> ->]]; destruct (st_norm st ch p); auto.
  Qed.
  Lemma book_slices_run cfg chx flow p ch kf mirror m ad kw l : Forall (edges_ok chx) l -> forall st,
    book_slices cfg chx flow st l p ch kf mirror m ad kw = run cfg st (map (call_of flow p ch kf mirror m ad kw) l).
  Proof.
    induction 1 as [|[n h] l E _ IH]; intros st; cbn [book_slices map]; auto.
    pose proof (book_slice_step cfg chx flow st (n, h) p ch kf mirror m ad kw E) as B. cbn [fst snd] in B. rewrite B. unfold run at 1. fold (run (V := V) cfg).
    destruct (step cfg st _) as [st1 [e|]]; cbn [rbind]; auto.
  Qed.

  Lemma get_slices_ok flow (h : minput V) name extra chx p ch kf mirror m ad kw l : fits_input h extra chx ->
    get_slices h name extra = Ok l ->
    Forall (edges_ok chx) l /\
    Forall2 (fun i o => single_call flow (axes_by_name (mh_axes (ref_of h)) extra) chx h name p ch kf mirror m ad kw i o /\ wf_op o)
      (all_idx (map x_size (axes_by_name (mh_axes (ref_of h)) extra))) (map (call_of flow p ch kf mirror m ad kw) l).
  Proof.
    intros F. unfold get_slices, slice_names. set (ex := axes_by_name (mh_axes (ref_of h)) extra).
    assert (NM : forall k i, nth_error (all_idx (map x_size ex)) k = Some i -> k = ravel (map x_size ex) i /\ in_shape (map x_size ex) i /\
             nth_error (map (sub_name name ex) (all_idx (map x_size ex))) k = Some (spec_name name ex i)).
    { intros k i E. assert (I : in_shape (map x_size ex) i) by (apply all_idx_In; eapply nth_error_In; eauto).
      split; [apply all_idx_pos; auto|]. split; auto. rewrite nth_error_map, E. cbn [option_map]. f_equal. apply sub_name_spec.
      apply in_shape_len in I. rewrite map_length in I. auto. }
    destruct h as [h1|u d]; cbn [ref_of fits_input] in *.
    - intros H. injection H as <-.
      assert (Q : Forall2 (fun i nh => edges_ok chx nh /\ single_call flow ex chx (ISingle h1) name p ch kf mirror m ad kw i (call_of flow p ch kf mirror m ad kw nh) /\ wf_op (call_of flow p ch kf mirror m ad kw nh))
         (all_idx (map x_size ex)) (combine (map (sub_name name ex) (all_idx (map x_size ex))) (map ISingle (hist_slices h1 h1 extra)))).
      { apply Forall2_nth.
        - rewrite combine_length, !map_length, (hist_slices_len h1 h1 extra chx F (same_bins_refl _)), !all_idx_len. fold ex. lia.
        - intros k i E. destruct (NM k i E) as (-> & I & N).
          destruct (slice_histo flow h1 h1 extra chx i F F (same_bins_refl _) I) as (s & Es & W & C & S). fold ex in Es, S.
          exists (spec_name name ex i, ISingle s). split. { apply nth_error_combine; auto. rewrite nth_error_map, Es. auto. }
          unfold edges_ok, call_of. cbn [fst snd single_call wf_op]. repeat split; auto. exists (to_histo flow s). auto. }
      clear NM. split.
      + clear - Q. induction Q as [|x y l l' Q _ IH]; constructor; tauto.
      + clear - Q. induction Q as [|x y l l' Q _ IH]; cbn [map]; constructor; tauto.
    - destruct F as (Fu & Fd & X). destruct (is_sparsehist u && negb (is_sparsehist d)); [discriminate|]. intros H. injection H as <-.
      assert (Q : Forall2 (fun i nh => edges_ok chx nh /\ single_call flow ex chx (IPair u d) name p ch kf mirror m ad kw i (call_of flow p ch kf mirror m ad kw nh) /\ wf_op (call_of flow p ch kf mirror m ad kw nh))
         (all_idx (map x_size ex)) (combine (map (sub_name name ex) (all_idx (map x_size ex))) (map2 IPair (hist_slices u u extra) (hist_slices u d extra)))).
      { apply Forall2_nth.
        - rewrite combine_length, map_length, map2_len, (hist_slices_len u u extra chx Fu (same_bins_refl _)), (hist_slices_len u d extra chx Fd X), !all_idx_len. fold ex. lia.
        - intros k i E. destruct (NM k i E) as (-> & I & N).
          destruct (slice_histo flow u u extra chx i Fu Fu (same_bins_refl _) I) as (su & Es & W & C & S). fold ex in Es, S.
          destruct (slice_histo flow u d extra chx i Fd Fu X I) as (sd & Es' & W' & C' & S'). fold ex in Es', S'.
          exists (spec_name name ex i, IPair su sd). split. { apply nth_error_combine; auto. apply nth_error_map2; auto. }
          unfold edges_ok, call_of. cbn [fst snd single_call wf_op]. repeat split; auto; try apply S; try apply S'. exists (to_histo flow su), (to_histo flow sd). auto. }
      clear NM. split.
      + clear - Q. induction Q as [|x y l l' Q _ IH]; constructor; tauto.
      + clear - Q. induction Q as [|x y l l' Q _ IH]; cbn [map]; constructor; tauto.
  Qed.
End Loop.
