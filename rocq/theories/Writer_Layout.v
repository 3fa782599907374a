(** Channel layout (C02). *)
From Coq Require Import List Arith Bool String Permutation Lia.
From Verif Require Import PyList PyDict Num Names_Model Writer_Model Writer_Spec Writer_Frame.
Import ListNotations.
Local Open Scope string_scope.
Local Open Scope list_scope.

(** *** dictionaries *)
Lemma dict_of_snoc {B} (l : list (string * B)) k v : dict_of (l ++ [(k, v)]) = dset k v (dict_of l).
Proof. unfold dict_of. rewrite fold_left_app. reflexivity. Qed.
Lemma dict_of_keys {B} (l : list (string * B)) x : In x (dkeys (dict_of l)) <-> In x (map fst l).
Proof.
  induction l as [|[k v] l IH] using rev_ind; simpl; [tauto|].
  rewrite dict_of_snoc, dkeys_dset, map_app, in_app_iff, IH. simpl. intuition.
Qed.
Lemma dict_of_NoDup {B} (l : list (string * B)) : NoDup (dkeys (dict_of l)).
Proof.
  induction l as [|[k v] l IH] using rev_ind; [constructor|].
  rewrite dict_of_snoc. apply dkeys_dset_NoDup; auto.
Qed.
Lemma dict_of_In {B} (l : list (string * B)) kv : In kv (dict_of l) -> In kv l.
Proof.
  induction l as [|[k v] l IH] using rev_ind; auto.
  rewrite dict_of_snoc, in_app_iff. simpl. intros H.
  assert (forall d, In kv (dset k v d) -> kv = (k, v) \/ In kv d) as A.
  { induction d as [|[k' v'] d IHd]; simpl. { intuition. }
    destruct (String.eqb k k') eqn:E; simpl; intros [<-|H']; auto.
    - apply String.eqb_eq in E. subst. auto.
    - destruct (IHd H'); auto. }
  apply A in H. destruct H as [->|H]; auto.
Qed.
Lemma dget_dict_of_snoc {B} (l : list (string * B)) k v x :
  dget x (dict_of (l ++ [(k, v)])) = if String.eqb k x then Some v else dget x (dict_of l).
Proof. rewrite dict_of_snoc. apply dget_dset. Qed.

Lemma dset_app_l {B} k (v : B) d1 d2 : ~ In k (dkeys d1) -> dset k v (d1 ++ d2) = d1 ++ dset k v d2.
Proof.
  induction d1 as [|[k' v'] d1 IH]; simpl; auto. intros H.
  destruct (String.eqb k k') eqn:E. { apply String.eqb_eq in E. subst. tauto. }
  rewrite IH; tauto.
Qed.
Lemma dget_app {B} k (d1 d2 : dict B) :
  dget k (d1 ++ d2) = match dget k d1 with Some v => Some v | None => dget k d2 end.
Proof. induction d1 as [|[k' v'] d1 IH]; simpl; auto. destruct (String.eqb k k'); auto. Qed.
Lemma dmerge_disjoint {B} (d2 : dict B) : forall d1,
  NoDup (dkeys d2) -> (forall k, In k (dkeys d2) -> ~ In k (dkeys d1)) -> dmerge d1 d2 = d1 ++ d2.
Proof.
  induction d2 as [|[k v] d2 IH]; intros d1 N D. { unfold dmerge. simpl. rewrite app_nil_r. auto. }
  inversion N; subst. unfold dmerge in *. cbn [fold_left fst snd]. rewrite dset_new by (apply D; left; auto).
  rewrite IH; auto.
  - rewrite <- app_assoc. auto.
  - intros x Hx. unfold dkeys. rewrite map_app, in_app_iff. simpl. intros [H|[H|[]]].
    + eapply D; [right|]; eauto.
    + subst. auto.
Qed.
Lemma filter_all {A} (f : A -> bool) l : (forall x, In x l -> f x = true) -> filter f l = l.
Proof.
  induction l as [|x l IH]; simpl; auto. intros H. rewrite (H x) by auto. f_equal. apply IH. auto.
Qed.
Lemma filter_none {A} (f : A -> bool) l : (forall x, In x l -> f x = false) -> filter f l = [].
Proof.
  induction l as [|x l IH]; simpl; auto. intros H. rewrite (H x) by auto. apply IH. auto.
Qed.
Lemma set_add_app x s : set_add x s = if smem x s then s else s ++ [x].
Proof. reflexivity. Qed.

(** two dictionaries with the same look-ups are permutations of each other *)
Lemma dict_perm {B} (d1 d2 : dict B) : NoDup (dkeys d1) -> NoDup (dkeys d2) ->
  (forall k, dget k d1 = dget k d2) -> Permutation d1 d2.
Proof.
  intros N1 N2 E.
  assert (forall d : dict B, NoDup (dkeys d) -> NoDup d) as ND.
  { intros d. apply NoDup_map_inv. }
  apply NoDup_Permutation; auto. intros [k v]. split; intros H.
  - apply dget_In. rewrite <- E. apply In_dget; auto.
  - apply dget_In. rewrite E. apply In_dget; auto.
Qed.
Lemma sumn_perm l1 l2 : Permutation l1 l2 -> sumn l1 = sumn l2.
Proof. unfold sumn. induction 1; simpl; lia. Qed.
Lemma sumn_app l1 l2 : sumn (l1 ++ l2) = sumn l1 + sumn l2.
Proof. unfold sumn. induction l1; simpl; lia. Qed.

Lemma tiles_app a b c r1 r2 : tiles a b r1 -> tiles b c r2 -> tiles a c (r1 ++ r2).
Proof.
  revert a. induction r1 as [|[n [s e]] r1 IH]; simpl; intros a H1 H2. { subst. auto. }
  destruct H1 as (-> & L & H1). auto.
Qed.
Lemma tiles_reader d : forall a, tiles a (a + sumn (map (fun kv => isize (snd kv)) d)) (reader_ranges a d).
Proof.
  induction d as [|[c i] d IH]; intros a; simpl. { unfold sumn. simpl. lia. }
  repeat split; auto; try lia. unfold sumn in *. simpl. fold (isize i).
  specialize (IH (a + isize i)). rewrite Nat.add_assoc. exact IH.
Qed.
Lemma reader_app d1 : forall a d2, reader_ranges a (d1 ++ d2) =
  reader_ranges a d1 ++ reader_ranges (a + sumn (map (fun kv => isize (snd kv)) d1)) d2.
Proof.
  induction d1 as [|[c i] d1 IH]; intros a d2; simpl. { unfold sumn. simpl. rewrite Nat.add_0_r. auto. }
  f_equal. rewrite IH. unfold sumn. simpl. fold (isize i). rewrite Nat.add_assoc. auto.
Qed.
Lemma reader_names d : forall a, map fst (reader_ranges a d) = dkeys d.
Proof. induction d as [|[c i] d IH]; intros a; simpl; f_equal; auto. Qed.

Section Layout.
  Context {V : Type} {NV : Num V}.

  Definition layoutU (d : list (string * chinfo)) := dict_of (filter (fun kv => negb (ch_masked (snd kv))) d).
  Definition layoutM (d : list (string * chinfo)) := dict_of (filter (fun kv => ch_masked (snd kv)) d).
  Definition layout d := layoutU d ++ layoutM d.

  Definition ChanInv (st : state V) (d : list (string * chinfo)) : Prop :=
    st_channels st = layout d /\
    st_nbinschan st = dict_of (map (fun kv => (fst kv, isize (snd kv))) d).

  Lemma layoutU_flag d k i : In (k, i) (layoutU d) -> ch_masked i = false.
  Proof.
    intros H. apply dict_of_In, filter_In in H. destruct H as [_ H]. apply negb_true_iff in H. auto.
  Qed.
  Lemma layoutM_flag d k i : In (k, i) (layoutM d) -> ch_masked i = true.
  Proof. intros H. apply dict_of_In, filter_In in H. apply H. Qed.
  Lemma layoutU_sub d k i : In (k, i) (layoutU d) -> In (k, i) d.
  Proof. intros H. apply dict_of_In, filter_In in H. apply H. Qed.
  Lemma layoutM_sub d k i : In (k, i) (layoutM d) -> In (k, i) d.
  Proof. intros H. apply dict_of_In, filter_In in H. apply H. Qed.
  Lemma keys_ex {B} (d : dict B) k : In k (dkeys d) -> exists v, In (k, v) d.
  Proof. unfold dkeys. rewrite in_map_iff. intros ([k' v] & E & H). simpl in E. subst. eauto. Qed.

  Lemma layout_disj d k : flags_stable d -> In k (dkeys (layoutU d)) -> In k (dkeys (layoutM d)) -> False.
  Proof.
    intros S H1 H2. apply keys_ex in H1, H2. destruct H1 as [i H1], H2 as [j H2].
    pose proof (layoutU_flag _ _ _ H1). pose proof (layoutM_flag _ _ _ H2).
    apply layoutU_sub in H1. apply layoutM_sub in H2. pose proof (S _ _ _ H1 H2). congruence.
  Qed.
  Lemma layout_NoDup d : flags_stable d -> NoDup (dkeys (layout d)).
  Proof.
    intros S. unfold layout, dkeys. rewrite map_app.
    pose proof (dict_of_NoDup (filter (fun kv => negb (ch_masked (snd kv))) d)) as NU.
    pose proof (dict_of_NoDup (filter (fun kv => ch_masked (snd kv)) d)) as NM.
    fold (layoutU d) in NU. fold (layoutM d) in NM. unfold dkeys in *.
    assert (forall k, In k (map fst (layoutU d)) -> ~ In k (map fst (layoutM d))) as D
      by (intros k H1 H2; eapply layout_disj; eauto).
    clear S. induction (map fst (layoutU d)) as [|x l IH]; simpl; auto.
    inversion NU; subst. constructor.
    - rewrite in_app_iff. intros [H|H]; [auto|]. eapply D; [left; reflexivity|auto].
    - apply IH; auto. intros k Hk. apply D. right. auto.
  Qed.
  Lemma layout_keys d x : In x (dkeys (layout d)) <-> In x (map fst d).
  Proof.
    unfold layout, dkeys. rewrite map_app, in_app_iff.
    change (In x (dkeys (layoutU d)) \/ In x (dkeys (layoutM d)) <-> In x (map fst d)).
    unfold layoutU, layoutM. rewrite !dict_of_keys, !in_map_iff. split.
    - intros [(kv & E & H)|(kv & E & H)]; apply filter_In in H; exists kv; tauto.
    - intros (kv & E & H). destruct (ch_masked (snd kv)) eqn:M.
      + right. exists kv. rewrite filter_In. auto.
      + left. exists kv. rewrite filter_In, M. auto.
  Qed.
  (** look-up in the layout is the last declaration *)
  Lemma layout_dget d k : flags_stable d -> dget k (layout d) = dget k (dict_of d).
  Proof.
    intros S. unfold layout. rewrite dget_app.
    induction d as [|[n i] d IH] using rev_ind; auto.
    assert (S' : flags_stable d).
    { intros a b c H1 H2. apply (S a b c); apply in_or_app; auto. }
    specialize (IH S'). unfold layoutU, layoutM in *. rewrite !filter_app. simpl.
    rewrite dget_dict_of_snoc. destruct (String.eqb n k) eqn:E.
    - apply String.eqb_eq in E. subst. destruct (ch_masked i) eqn:M; simpl.
      + rewrite !app_nil_r. rewrite dict_of_snoc, dget_dset_same.
        destruct (dget k (dict_of (filter _ d))) as [v|] eqn:G; auto.
        apply dget_In in G. pose proof (layoutU_flag d _ _ G). apply layoutU_sub in G.
        exfalso. assert (ch_masked v = ch_masked i).
        { apply (S k); apply in_or_app; simpl; auto. } congruence.
      + rewrite !app_nil_r. rewrite dict_of_snoc, dget_dset_same. auto.
    - destruct (ch_masked i) eqn:M; simpl; rewrite !app_nil_r, dict_of_snoc, dget_dset, E; auto.
  Qed.

  Definition chan_name (n : nat) (name : option string) : string :=
    match name with Some x => x | None => ("ch" ++ nat_str n)%string end.
  Lemma add_channel_inv cfg st name axes masked flow st' :
    step cfg st (AddChannel name axes masked flow) = (st', None) ->
    flow && negb masked = false /\
    let nm := chan_name (List.length (dkeys (st_channels st))) name in
    st_channels st' = (if masked then dset nm (mkCh axes masked flow) (st_channels st)
      else dmerge (dset nm (mkCh axes masked flow) (filter (fun kv => negb (ch_masked (snd kv))) (st_channels st)))
                  (filter (fun kv => ch_masked (snd kv)) (st_channels st))) /\
    st_nbinschan st' = dset nm (axes_size axes flow) (st_nbinschan st) /\
    st_norm st' = upd1 (st_norm st) nm (fun _ => None) /\
    st_sumw2 st' = upd1 (st_sumw2 st) nm (fun _ => None) /\
    st_logkavg st' = upd1 (st_logkavg st) nm (fun _ => []) /\
    st_logkhalf st' = upd1 (st_logkhalf st) nm (fun _ => []) /\
    st_symmetric st' = st_symmetric st /\ st_signals st' = st_signals st /\ st_bkgs st' = st_bkgs st /\
    st_data_obs st' = st_data_obs st /\ st_data_var st' = st_data_var st /\
    st_pseudodata st' = st_pseudodata st /\ st_pseudonames st' = st_pseudonames st.
  Proof.
    unfold step, add_channel. destruct (flow && negb masked) eqn:F; [congruence|].
    intros H. injection H as <-. split; auto. unfold dkeys. rewrite map_length.
    repeat split; reflexivity.
  Qed.

  Lemma step_chan cfg st o st' d : step cfg st o = (st', None) -> ChanInv st d ->
    flags_stable (d ++ chan_decls (dkeys (st_channels st)) [o]) ->
    ChanInv st' (d ++ chan_decls (dkeys (st_channels st)) [o]).
  Proof.
    intros H [C N] S. pose proof (step_base _ _ _ _ H) as B.
    destruct o; try (simpl in *; rewrite app_nil_r; unfold ChanInv;
      destruct B as (_ & _ & -> & -> & _); split; assumption);
      try (simpl in *; rewrite app_nil_r; unfold base in B; unfold ChanInv;
        split; [transitivity (st_channels st)|transitivity (st_nbinschan st)]; auto; congruence).
    - apply add_channel_inv in H. destruct H as (F & H).
      cbn [chan_decls] in S |- *. unfold dkeys in S, H |- *. rewrite map_length in S, H |- *.
      fold (chan_name (List.length (st_channels st)) name) in S, H |- *.
      set (nm := chan_name (List.length (st_channels st)) name) in *. clearbody nm. clear B.
      destruct H as (HC & HN & _).
      assert (S' : flags_stable d).
      { intros a b c H1 H2. apply (S a b c); apply in_or_app; auto. }
      split.
      + rewrite HC, C. destruct masked.
        * unfold layout, layoutU, layoutM. rewrite !filter_app. simpl. rewrite app_nil_r.
          rewrite dict_of_snoc. apply dset_app_l. intros Hin. fold (layoutU d) in Hin.
          apply keys_ex in Hin. destruct Hin as [v Hv]. pose proof (layoutU_flag _ _ _ Hv).
          apply layoutU_sub in Hv.
          assert (ch_masked v = ch_masked (mkCh axes true flow)).
          { apply (S nm); apply in_or_app; simpl; auto. } simpl in *. congruence.
        * assert (FU : filter (fun kv => negb (ch_masked (snd kv))) (layout d) = layoutU d).
          { unfold layout. rewrite filter_app, filter_all, filter_none, app_nil_r; auto.
            - intros [k i] Hx. simpl. rewrite (layoutM_flag _ _ _ Hx). auto.
            - intros [k i] Hx. simpl. rewrite (layoutU_flag _ _ _ Hx). auto. }
          assert (FM : filter (fun kv => ch_masked (snd kv)) (layout d) = layoutM d).
          { unfold layout. rewrite filter_app, filter_none, filter_all; auto.
            - intros [k i] Hx. simpl. rewrite (layoutM_flag _ _ _ Hx). auto.
            - intros [k i] Hx. simpl. rewrite (layoutU_flag _ _ _ Hx). auto. }
          rewrite FU, FM. rewrite dmerge_disjoint.
          -- unfold layout. f_equal.
             ++ unfold layoutU. rewrite filter_app. simpl. rewrite dict_of_snoc. auto.
             ++ unfold layoutM. rewrite filter_app. simpl. rewrite app_nil_r. auto.
          -- apply dict_of_NoDup.
          -- intros k Hk. rewrite dkeys_dset. intros [->|Hu].
             ++ apply keys_ex in Hk. destruct Hk as [v Hv]. pose proof (layoutM_flag _ _ _ Hv).
                apply layoutM_sub in Hv.
                assert (ch_masked v = ch_masked (mkCh axes false flow)).
                { apply (S nm); apply in_or_app; simpl; auto. } simpl in *. congruence.
             ++ eapply layout_disj; eauto.
      + rewrite HN, N, map_app. simpl. rewrite dict_of_snoc. auto.
    - simpl in H. apply add_process_inv in H.
      destruct H as (_ & _ & nm & w & _ & _ & _ & _ & _ & _ & _ & _ & E1 & E2 & _).
      simpl. rewrite app_nil_r. split; [rewrite E1|rewrite E2]; auto.
  Qed.

  Lemma dkeys_set_add {B} k (v : B) d x : In x (set_add k (dkeys d)) <-> In x (dkeys (dset k v d)).
  Proof. rewrite set_add_In, dkeys_dset. tauto. Qed.

  (** chan_decls only depends on the number of distinct seen names and on which they are *)
  Lemma chan_decls_perm ops : forall s1 s2, Permutation s1 s2 -> chan_decls (V := V) s1 ops = chan_decls s2 ops.
  Proof.
    induction ops as [|o ops IH]; intros s1 s2 P; simpl; auto.
    destruct o; try apply IH; auto. rewrite (Permutation_length P). f_equal. apply IH.
    rewrite !set_add_app.
    set (nm := match name with Some x => x | None => _ end).
    assert (smem nm s1 = smem nm s2) as ->.
    { apply eq_true_iff_eq. rewrite !smem_In. split; apply Permutation_in; auto. apply Permutation_sym; auto. }
    destruct (smem nm s2); auto. apply Permutation_app_tail. auto.
  Qed.
  Lemma chan_decls_cons o ops seen : chan_decls (V := V) seen (o :: ops) =
    chan_decls seen [o] ++ chan_decls (fold_left (fun s kv => set_add (fst kv) s) (chan_decls seen [o]) seen) ops.
  Proof. destruct o; simpl; auto. Qed.

  Lemma fold_set_add_NoDup {B} (l : list (string * B)) : forall l0, NoDup l0 ->
    NoDup (fold_left (fun s kv => set_add (fst kv) s) l l0).
  Proof. induction l as [|kv l IHl]; simpl; auto. intros l0 ND. apply IHl. apply set_add_NoDup. auto. Qed.
  Lemma fold_set_add_In {B} (l : list (string * B)) x : forall l0,
    In x (fold_left (fun s kv => set_add (fst kv) s) l l0) <-> In x l0 \/ In x (map fst l).
  Proof.
    induction l as [|kv l IHl]; simpl; intros l0; [tauto|]. rewrite IHl, set_add_In. intuition.
  Qed.

  Lemma run_chan cfg ops : forall st st' d, run cfg st ops = Ok st' -> ChanInv st d ->
    flags_stable (d ++ chan_decls (dkeys (st_channels st)) ops) ->
    ChanInv st' (d ++ chan_decls (dkeys (st_channels st)) ops).
  Proof.
    induction ops as [|o ops IH]; intros st st' d H C S.
    { simpl in *. injection H as <-. rewrite app_nil_r. auto. }
    apply run_cons in H. destruct H as (s & H1 & H2).
    rewrite chan_decls_cons in *.
    assert (S1 : flags_stable (d ++ chan_decls (dkeys (st_channels st)) [o])).
    { intros a b c Ha Hb. apply (S a b c); rewrite app_assoc; apply in_or_app; auto. }
    pose proof (step_chan _ _ _ _ _ H1 C S1) as C1.
    assert (S0 : flags_stable d).
    { intros a b c Ha Hb. apply (S1 a b c); apply in_or_app; auto. }
    assert (P : Permutation (fold_left (fun s kv => set_add (fst kv) s)
                  (chan_decls (dkeys (st_channels st)) [o]) (dkeys (st_channels st)))
                (dkeys (st_channels s))).
    { apply NoDup_Permutation.
      - assert (ND : NoDup (dkeys (st_channels st))) by (rewrite (proj1 C); apply layout_NoDup; auto).
        apply fold_set_add_NoDup. auto.
      - rewrite (proj1 C1). apply layout_NoDup; auto.
      - intros x. rewrite (proj1 C1), layout_keys, map_app, in_app_iff.
        rewrite <- (layout_keys d), <- (proj1 C).
        rewrite fold_set_add_In. tauto. }
    rewrite (chan_decls_perm ops _ _ P) in *. rewrite app_assoc. apply IH; auto. rewrite <- app_assoc. auto.
  Qed.

  Lemma run_chan_init cfg ops st : run cfg (init_state (V := V)) ops = Ok st ->
    flags_stable (chan_decls [] ops) -> ChanInv st (chan_decls [] ops).
  Proof.
    intros H S. apply (run_chan cfg ops init_state st [] H); [split; reflexivity|]. exact S.
  Qed.

  (** *** ranges *)
  Lemma nbins_lookup (nb : dict nat) (d : dict chinfo) : 
    (forall c, In c (dkeys d) -> dget c nb = option_map isize (dget c d)) -> NoDup (dkeys d) ->
    forall a, offsets nb a (dkeys d) = map (fun r => (fst r, (fst (snd r), snd (snd r) - fst (snd r)))) (reader_ranges a d).
  Proof.
    intros H ND.
    assert (G : forall c i, In (c, i) d -> dget c nb = Some (isize i)).
    { intros c i Hin. rewrite H. { erewrite In_dget; eauto. reflexivity. }
      apply in_map_iff. exists (c, i). auto. }
    clear H ND. induction d as [|[c i] d IH]; intros a; simpl; auto.
    rewrite (G c i) by (left; auto). fold (isize i). f_equal.
    - f_equal. f_equal. lia.
    - apply IH. intros. apply G. right. auto.
  Qed.

  Lemma inv_nb st d c : ChanInv st d -> flags_stable d ->
    dget c (st_nbinschan st) = option_map isize (dget c (st_channels st)).
  Proof.
    intros [C N] S. rewrite C, N, layout_dget by auto. clear.
    induction d as [|[n i] d IH] using rev_ind; auto.
    rewrite map_app. simpl. rewrite !dget_dict_of_snoc. destruct (String.eqb n c); auto.
  Qed.
  Lemma inv_nb_NoDup st d : ChanInv st d -> NoDup (dkeys (st_nbinschan st)).
  Proof. intros [_ ->]. apply dict_of_NoDup. Qed.
  Lemma inv_ch_NoDup st d : ChanInv st d -> flags_stable d -> NoDup (dkeys (st_channels st)).
  Proof. intros [-> _] S. apply layout_NoDup; auto. Qed.

  Lemma inv_nb_perm st d : ChanInv st d -> flags_stable d ->
    Permutation (st_nbinschan st) (map (fun kv => (fst kv, isize (snd kv))) (st_channels st)).
  Proof.
    intros C S. apply dict_perm.
    - eapply inv_nb_NoDup; eauto.
    - unfold dkeys. rewrite map_map. simpl. eapply inv_ch_NoDup; eauto.
    - intros k. rewrite (inv_nb _ _ _ C S). induction (st_channels st) as [|[c i] l IH]; simpl; auto.
      destruct (String.eqb k c); auto.
  Qed.

  Definition nbins_of (st : state V) : nat :=
    sumn (map (fun kv => match dget (fst kv) (st_channels st) with
                         | Some i => if ch_masked i then 0 else snd kv
                         | None => 0 end) (st_nbinschan st)).

  Lemma nbins_eq st d : ChanInv st d -> flags_stable d ->
    nbins_of st = sumn (map (fun kv => isize (snd kv)) (layoutU d)).
  Proof.
    intros C S. unfold nbins_of.
    erewrite sumn_perm by (apply Permutation_map; eapply inv_nb_perm; eauto).
    rewrite map_map. simpl. pose proof (inv_ch_NoDup _ _ C S) as ND.
    assert (forall l, incl l (st_channels st) ->
      sumn (map (fun x => match dget (fst x) (st_channels st) with
                          | Some i => if ch_masked i then 0 else isize (snd x) | None => 0 end) l)
      = sumn (map (fun kv => if ch_masked (snd kv) then 0 else isize (snd kv)) l)) as E.
    { induction l as [|[c i] l IH]; intros Hi; auto. unfold sumn in *. simpl.
      rewrite (In_dget c i) by (auto; apply Hi; left; auto). rewrite IH; auto.
      intros x Hx. apply Hi. right. auto. }
    rewrite E by apply incl_refl. clear E. rewrite (proj1 C). unfold layout. rewrite map_app, sumn_app.
    assert (sumn (map (fun kv => if ch_masked (snd kv) then 0 else isize (snd kv)) (layoutM d)) = 0) as ->.
    { assert (forall kv, In kv (layoutM d) -> ch_masked (snd kv) = true) as F.
      { intros [k i] H. apply (layoutM_flag _ _ _ H). }
      induction (layoutM d) as [|kv l IH]; auto. unfold sumn in *. simpl.
      rewrite (F kv) by (left; auto). apply IH. intros. apply F. right. auto. }
    rewrite Nat.add_0_r.
    assert (forall kv, In kv (layoutU d) -> ch_masked (snd kv) = false) as F.
    { intros [k i] H. apply (layoutU_flag _ _ _ H). }
    f_equal. apply map_ext_in. intros kv H. rewrite (F kv H). auto.
  Qed.
  Lemma nbinsfull_eq st d : ChanInv st d -> flags_stable d ->
    sumn (dvals (st_nbinschan st)) = sumn (map (fun kv => isize (snd kv)) (layout d)).
  Proof.
    intros C S. unfold dvals. erewrite sumn_perm by (apply Permutation_map; eapply inv_nb_perm; eauto).
    rewrite map_map. simpl. rewrite (proj1 C). auto.
  Qed.

  Lemma write_fields cfg st w : write cfg st = Ok w ->
    w_channels w = st_channels st /\ w_nbins w = nbins_of st /\
    w_nbinsfull w = sumn (dvals (st_nbinschan st)) /\
    w_procs w = sorted_str (st_signals st) ++ sorted_str (st_bkgs st) /\
    w_signals w = sorted_str (st_signals st) /\
    w_systs w = get_systs st /\ w_cw w = get_constraintweights st /\
    get_systgroups st = Ok (w_groups w) /\ get_noiidxs st = Ok (w_noiidxs w) /\
    w_noconstraint w = natural_sort (st_noconstraint st) /\
    w_sumw w = fill_sumw st (w_procs w) /\ w_sumw2 w = fill_sumw2 st (w_procs w) /\
    w_symmetric w = st_symmetric st /\ w_type w = c_type cfg /\
    fill_data st (st_data_obs st) = Ok (w_data_obs w) /\
    fill_data st (st_data_var st) = Ok (w_data_var w) /\
    w_pseudonames w = st_pseudonames st /\ fill_pseudo st = Ok (w_pseudo w) /\
    (forall s, In s (st_signals st) -> ~ In s (st_bkgs st)) /\
    match w_tensors w with
    | TSparse s => c_sparse cfg = true /\ write_sparse st (w_procs w) (w_systs w) = Ok s
    | TDense n k => c_sparse cfg = false /\ n = fill_norm st (w_procs w) /\
                    k = fill_logk st (w_procs w) (w_systs w)
    end.
  Proof.
    unfold write. destruct (existsb _ _) eqn:X; [discriminate|].
    destruct (fill_data st (st_data_obs st)) eqn:E1; simpl; [|discriminate].
    destruct (fill_data st (st_data_var st)) eqn:E2; simpl; [|discriminate].
    destruct (fill_pseudo st) eqn:E3; simpl; [|discriminate].
    assert (D : forall s, In s (st_signals st) -> ~ In s (st_bkgs st)).
    { intros s H1 H2. assert (existsb (fun s => smem s (st_bkgs st)) (st_signals st) = true); [|congruence].
      apply existsb_exists. exists s. split; auto. apply smem_In. auto. }
    destruct (c_sparse cfg) eqn:SP.
    - destruct (write_sparse _ _ _) eqn:E4; simpl; [|discriminate].
      destruct (get_noiidxs st) eqn:E5; simpl; [|discriminate].
      destruct (get_systgroups st) eqn:E6; simpl; [|discriminate].
      intros H. injection H as <-. simpl. repeat split; auto.
    - simpl.
      destruct (get_noiidxs st) eqn:E5; simpl; [|discriminate].
      destruct (get_systgroups st) eqn:E6; simpl; [|discriminate].
      intros H. injection H as <-. simpl. repeat split; auto.
  Qed.

  (** the same from the invariant of the state alone *)
  Theorem layout_state cfg decls st w :
    ChanInv st decls -> write cfg st = Ok w ->
    flags_stable decls ->
    let R := reader_ranges 0 (w_channels w) in
    NoDup (map fst R) /\
    (forall c, In c (map fst R) <-> In c (map fst decls)) /\
    tiles 0 (w_nbinsfull w) R /\
    (exists R1 R2, R = R1 ++ R2 /\ tiles 0 (w_nbins w) R1 /\ tiles (w_nbins w) (w_nbinsfull w) R2 /\
       (forall c i, In c (map fst R1) -> In (c, i) decls -> ch_masked i = false) /\
       (forall c i, In c (map fst R2) -> In (c, i) decls -> ch_masked i = true)) /\
    (forall c s e, In (c, (s, e)) R -> exists i, dget c (dict_of decls) = Some i /\ e = s + isize i) /\
    map (fun co => (fst co, (fst (snd co), fst (snd co) + snd (snd co)))) (chan_offsets st) = R.
  Proof.
    intros C HW S R.
    apply write_fields in HW. destruct HW as (E1 & E2 & E3 & _).
    rewrite (nbins_eq _ _ C S) in E2. rewrite (nbinsfull_eq _ _ C S) in E3.
    unfold R. rewrite E1. rewrite (proj1 C). rewrite reader_names.
    split; [apply layout_NoDup; auto|]. split; [intros; apply layout_keys|].
    split. { rewrite E3. apply (tiles_reader _ 0). }
    split.
    { unfold layout. rewrite reader_app. eexists _, _. split; [reflexivity|].
      rewrite E2. split. { apply (tiles_reader _ 0). } split.
      { rewrite E3. unfold layout. rewrite map_app, sumn_app. apply tiles_reader. }
      rewrite !reader_names. split.
      - intros c i H1 H2. apply keys_ex in H1. destruct H1 as [j H1].
        pose proof (layoutU_flag _ _ _ H1). apply layoutU_sub in H1.
        rewrite (S c i j); auto.
      - intros c i H1 H2. apply keys_ex in H1. destruct H1 as [j H1].
        pose proof (layoutM_flag _ _ _ H1). apply layoutM_sub in H1.
        rewrite (S c i j); auto. }
    split.
    { intros c s e H. rewrite <- layout_dget by auto.
      pose proof (layout_NoDup _ S) as ND.
      assert (forall d a, In (c, (s, e)) (reader_ranges a d) -> exists i, In (c, i) d /\ e = s + isize i) as G.
      { induction d as [|[k i] d IH]; simpl; [contradiction|]. intros a [Hx|Hx].
        - injection Hx as -> <- <-. exists i. auto.
        - destruct (IH _ Hx) as (j & Hj & ->). eauto. }
      apply G in H. destruct H as (i & Hi & ->). exists i. split; auto. apply In_dget; auto. }
    unfold chan_offsets. rewrite <- (proj1 C). rewrite (nbins_lookup _ (st_channels st)).
    - rewrite map_map. simpl.
      assert (forall d a, map (fun x => (fst x, (fst (snd x), fst (snd x) + (snd (snd x) - fst (snd x)))))
               (reader_ranges a d) = reader_ranges a d) as G.
      { induction d as [|[k i] d IH]; intros a; simpl; auto. rewrite IH. f_equal. f_equal. f_equal. lia. }
      apply G.
    - intros c _. eapply inv_nb; eauto.
    - eapply inv_ch_NoDup; eauto.
  Qed.
  Theorem layout_correct cfg ops st w :
    run cfg (init_state (V := V)) ops = Ok st -> write cfg st = Ok w ->
    flags_stable (chan_decls [] ops) ->
    let decls := chan_decls [] ops in
    let R := reader_ranges 0 (w_channels w) in
    NoDup (map fst R) /\
    (forall c, In c (map fst R) <-> In c (map fst decls)) /\
    tiles 0 (w_nbinsfull w) R /\
    (exists R1 R2, R = R1 ++ R2 /\ tiles 0 (w_nbins w) R1 /\ tiles (w_nbins w) (w_nbinsfull w) R2 /\
       (forall c i, In c (map fst R1) -> In (c, i) decls -> ch_masked i = false) /\
       (forall c i, In c (map fst R2) -> In (c, i) decls -> ch_masked i = true)) /\
    (forall c s e, In (c, (s, e)) R -> exists i, dget c (dict_of decls) = Some i /\ e = s + isize i) /\
    map (fun co => (fst co, (fst (snd co), fst (snd co) + snd (snd co)))) (chan_offsets st) = R.
  Proof.
    intros HR HW S decls R. apply (layout_state cfg); auto. apply (run_chan_init _ _ _ HR S).
  Qed.
End Layout.
