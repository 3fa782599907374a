(** Invariants of the writer state: stored templates fit their channel, stored variations
    live on the populated bins of their template. *)
From Coq Require Import List Arith Bool String Permutation Sorted Lia.
From Verif Require Import PyList PyDict Order Num Names_Model Writer_Model Writer_Spec Writer_Frame Writer_Layout Writer_Meta.
Import ListNotations.
Local Open Scope string_scope.
Local Open Scope list_scope.

Section Inv.
  Context {V : Type} {NV : Num V} {NL : NumLaws V}.

  (** strictly sorted, in range *)
  Definition wf_ents (e : list (nat * V)) (n : nat) : Prop :=
    StronglySorted lt (map fst e) /\ Forall (fun i => i < n) (map fst e).
  (** content of a histogram, template or variation in bin [i] *)
  Definition hden (h : histo V) (i : nat) : V :=
    match h with HDense v _ => nth i v n0 | HSparse e _ => at_or0 i e end.
  Definition nden (nm : normarr V) (i : nat) : V :=
    match nm with NDense l => nth i l n0 | NSparse e _ => at_or0 i e end.
  Definition lden (e : lentry V) (i : nat) : V :=
    match e with LDense l => nth i l n0 | LSparse e => at_or0 i e end.
  Definition nsize (nm : normarr V) : nat :=
    match nm with NDense l => List.length l | NSparse _ n => n end.
  (** bins where variations are computed *)
  Definition nidx (nm : normarr V) : list nat :=
    match nm with NDense l => seq 0 (List.length l) | NSparse e _ => map fst e end.

  Definition wf_hist (h : histo V) : Prop :=
    match h with HDense _ _ => True | HSparse e n => wf_ents e n end.
  Definition wf_var (h : histo V) (vs : option (list V)) : Prop :=
    match vs, h with
    | Some l, _ => List.length l = hsize h
    | None, HDense v w => List.length w = List.length v
    | None, HSparse _ _ => True
    end.
  (** the shape conditions numpy and scipy enforce on the inputs *)
  Definition wf_op (o : op V) : Prop :=
    match o with
    | AddProcess h _ _ _ vs => wf_hist h /\ wf_var h vs
    | AddSystematic (SSingle h) _ _ _ _ _ _ _ _ => wf_hist h
    | AddSystematic (SPair u d) _ _ _ _ _ _ _ _ => wf_hist u /\ wf_hist d
    | AddData _ v w => List.length w = List.length v
    | _ => True
    end.

  Definition wf_norm (cfg : config) (nm : normarr V) : Prop :=
    match nm with NDense _ => True | NSparse e n => c_sparse cfg = true /\ wf_ents e n end.
  Definition wf_lentry (cfg : config) (nm : normarr V) (e : lentry V) : Prop :=
    match e with
    | LDense z => c_sparse cfg = false /\ exists l, nm = NDense l /\ List.length z = List.length l
    | LSparse ents => c_sparse cfg = true /\ NoDup (map fst ents) /\
        incl (map fst ents) (map fst (coo_entries nm)) /\ Forall (fun x => snd x <> n0) ents
    end.

  (** *** association lists *)
  Lemma assoc_None i (e : list (nat * V)) : assoc i e = None <-> ~ In i (map fst e).
  Proof.
    induction e as [|[j v] e IH]; simpl; [tauto|]. destruct (Nat.eqb_spec i j).
    - subst. split; [discriminate|tauto].
    - rewrite IH. intuition.
  Qed.
  Lemma assoc_In i v (e : list (nat * V)) : assoc i e = Some v -> In (i, v) e.
  Proof.
    induction e as [|[j w] e IH]; simpl; [discriminate|]. destruct (Nat.eqb_spec i j); auto.
    intros H. injection H as ->. subst. auto.
  Qed.
  Lemma In_assoc i v (e : list (nat * V)) : NoDup (map fst e) -> In (i, v) e -> assoc i e = Some v.
  Proof.
    induction e as [|[j w] e IH]; simpl; [contradiction|]. intros N [H|H]; inversion N; subst.
    - injection H as -> ->. rewrite Nat.eqb_refl. auto.
    - destruct (Nat.eqb_spec i j); auto. subst. exfalso. apply H2. apply in_map_iff. exists (j, v). auto.
  Qed.
  Lemma sorted_lt_NoDup l : StronglySorted lt l -> NoDup l.
  Proof.
    induction 1; constructor; auto. intros H1. rewrite Forall_forall in H0. specialize (H0 _ H1). lia.
  Qed.
  Lemma at_or0_In i v (e : list (nat * V)) : NoDup (map fst e) -> In (i, v) e -> at_or0 i e = v.
  Proof. intros N H. unfold at_or0. rewrite (In_assoc _ _ _ N H). auto. Qed.
  Lemma at_or0_out i (e : list (nat * V)) : ~ In i (map fst e) -> at_or0 i e = n0.
  Proof. intros H. unfold at_or0. apply assoc_None in H. rewrite H. auto. Qed.

  Lemma nonzero_spec (x : nat * V) : nonzero x = true <-> snd x <> n0.
  Proof. unfold nonzero. rewrite negb_true_iff, <- not_true_iff_false, neq0_spec. tauto. Qed.
  Lemma neq0_n0 : neq0 (V := V) n0 = true.
  Proof. apply neq0_spec. auto. Qed.

  Lemma sorted_filter (f : nat * V -> bool) e :
    StronglySorted lt (map fst e) -> StronglySorted lt (map fst (filter f e)).
  Proof.
    induction e as [|x e IH]; simpl; auto. intros H. inversion H; subst.
    destruct (f x); auto. simpl. constructor; auto.
    rewrite Forall_forall in *. intros j Hj. apply H3. apply in_map_iff in Hj.
    destruct Hj as (y & <- & Hy). apply filter_In in Hy. apply in_map_iff. exists y. tauto.
  Qed.
  Lemma filter_incl (f : nat * V -> bool) e : incl (map fst (filter f e)) (map fst e).
  Proof.
    intros j Hj. apply in_map_iff in Hj. destruct Hj as (y & <- & Hy). apply filter_In in Hy.
    apply in_map_iff. exists y. tauto.
  Qed.
  Lemma at_or0_filter e i : NoDup (map fst e) -> at_or0 i (filter nonzero e) = at_or0 i e.
  Proof.
    intros N. unfold at_or0. destruct (assoc i e) as [v|] eqn:A.
    - pose proof (assoc_In _ _ _ A) as Hin. destruct (nonzero (i, v)) eqn:Z.
      + rewrite (In_assoc i v); auto.
        * clear - N. induction e as [|x e IH]; simpl in *; auto. inversion N; subst.
          destruct (nonzero x); auto. simpl. constructor; auto. intros H. apply filter_incl in H. auto.
        * apply filter_In. auto.
      + assert (assoc i (filter nonzero e) = None) as ->.
        { apply assoc_None. intros H. apply in_map_iff in H. destruct H as ([j w] & E & H). simpl in E. subst.
          apply filter_In in H. destruct H as [H1 H2]. rewrite (In_assoc _ _ _ N H1) in A. congruence. }
        symmetry. apply not_true_iff_false in Z. rewrite nonzero_spec in Z. simpl in Z.
        destruct (neq0 v) eqn:Q. { apply neq0_spec. auto. }
        exfalso. apply Z. intros E. subst. rewrite neq0_n0 in Q. discriminate.
    - apply assoc_None in A. assert (assoc i (filter nonzero e) = None) as ->; auto.
      apply assoc_None. intros H. apply A. eapply filter_incl; eauto.
  Qed.

  Lemma map_fst_combine {A B} (l : list A) (m : list B) :
    List.length l <= List.length m -> map fst (combine l m) = l.
  Proof.
    revert m. induction l as [|x l IH]; intros [|y m]; simpl; auto; try lia. intros H. f_equal. apply IH. lia.
  Qed.
  Lemma combine_map_r {A B} (f : A -> B) l : combine l (map f l) = map (fun x => (x, f x)) l.
  Proof. induction l; simpl; f_equal; auto. Qed.
  Lemma map2_map {A B C D} (f : B -> C -> D) (g : A -> B) (h : A -> C) l :
    map2 f (map g l) (map h l) = map (fun x => f (g x) (h x)) l.
  Proof. unfold map2. induction l; simpl; f_equal; auto. Qed.
  Lemma map_nth_seq {A} (l : list A) d : map (fun i => nth i l d) (seq 0 (List.length l)) = l.
  Proof.
    apply nth_ext with (d := nth 0 l d) (d' := d). { rewrite map_length, seq_length. auto. }
    intros i Hi. rewrite map_length, seq_length in Hi.
    rewrite (map_nth (fun i => nth i l d)). rewrite seq_nth; auto.
  Qed.
  Lemma at_or0_graph (f : nat -> V) l i :
    at_or0 i (map (fun x => (x, f x)) l) = if in_dec Nat.eq_dec i l then f i else n0.
  Proof.
    unfold at_or0. induction l as [|x l IH]; simpl; auto.
    destruct (Nat.eqb_spec i x).
    - subst. destruct (Nat.eq_dec x x); [|congruence]. simpl. auto.
    - destruct (Nat.eq_dec x i); [congruence|]. rewrite IH. destruct (in_dec Nat.eq_dec i l); auto.
  Qed.

  (** *** templates and variations as functions of the bin *)
  Lemma norm_vals_graph cfg nm : wf_norm cfg nm -> norm_vals nm = map (nden nm) (nidx nm).
  Proof.
    destruct nm as [l|e n]; simpl; intros W. { symmetry. apply map_nth_seq. }
    destruct W as (_ & S & _). apply sorted_lt_NoDup in S. rewrite map_map. apply map_ext_in.
    intros [i v] H. simpl. symmetry. apply at_or0_In; auto.
  Qed.
  Lemma nidx_sorted cfg nm : wf_norm cfg nm -> StronglySorted lt (nidx nm).
  Proof.
    destruct nm as [l|e n]; simpl; intros W; [|apply W]. generalize 0.
    induction (List.length l); intros s; simpl; constructor; auto.
    apply Forall_forall. intros x H. apply in_seq in H. lia.
  Qed.
  Lemma nidx_range cfg nm i : wf_norm cfg nm -> In i (nidx nm) -> i < nsize nm.
  Proof.
    destruct nm as [l|e n]; simpl; intros W H. { apply in_seq in H. lia. }
    destruct W as (_ & _ & F). rewrite Forall_forall in F. auto.
  Qed.

  Lemma count_lt_sorted (l : list nat) : StronglySorted lt l -> forall k, k < List.length l ->
    searchsorted l (nth k l 0) = k.
  Proof.
    unfold searchsorted. induction 1 as [|a l S IH F]; simpl; intros k Hk; [lia|].
    rewrite Forall_forall in F. destruct k as [|k].
    - rewrite Nat.ltb_irrefl. clear IH Hk.
      assert (filter (fun y => Nat.ltb y a) l = []) as ->; auto.
      apply filter_none. intros x Hx. apply Nat.ltb_ge. specialize (F _ Hx). lia.
    - assert (a < nth k l 0) by (apply F, nth_In; lia). apply Nat.ltb_lt in H. rewrite H. simpl.
      rewrite IH by lia. auto.
  Qed.
  Lemma count_lt_le (l : list nat) x : searchsorted l x <= List.length l.
  Proof.
    unfold searchsorted. induction l as [|y l IH]; simpl; [lia|]. destruct (Nat.ltb y x); simpl; lia.
  Qed.
  Lemma searchsorted_absent (l : list nat) i : StronglySorted lt l ->
    searchsorted l i < List.length l -> nth (searchsorted l i) l 0 = i -> In i l.
  Proof. intros S H E. rewrite <- E. apply nth_In. auto. Qed.

  Lemma sparse_values_at_ok e n idx vals : wf_ents e n -> sparse_values_at e idx = Ok vals ->
    vals = map (fun i => at_or0 i e) idx.
  Proof.
    intros (S & _) H. unfold sparse_values_at in H. destruct (forallb _ idx) eqn:F; [|discriminate].
    injection H as <-. apply map_ext_in. intros i Hi. rewrite forallb_forall in F.
    specialize (F _ Hi). apply Nat.ltb_lt in F.
    destruct (Nat.eqb_spec (nth (searchsorted (map fst e) i) (map fst e) 0) i) as [E|E].
    - symmetry. apply at_or0_In. { apply sorted_lt_NoDup; auto. }
      rewrite map_length in F. rewrite <- E at 1.
      rewrite (nth_indep _ 0 (fst (0, n0 (V := V)))) by (rewrite map_length; auto).
      rewrite (nth_indep _ n0 (snd (0, n0 (V := V)))) by (rewrite map_length; auto).
      rewrite !map_nth. rewrite <- surjective_pairing. apply nth_In. auto.
    - symmetry. apply at_or0_out. intros Hin. apply In_nth with (d := 0) in Hin.
      destruct Hin as (k & Hk & Ek). apply E. rewrite <- Ek at 1. rewrite count_lt_sorted; auto.
  Qed.

  Lemma syst_vals_graph nm h vals : wf_hist h -> hsize h = nsize nm -> syst_vals nm h = Ok vals ->
    vals = map (hden h) (nidx nm).
  Proof.
    intros W E. destruct nm as [l|e n]; simpl.
    - intros H. injection H as <-. simpl in E. destruct h as [v w|s m]; simpl in *.
      + rewrite <- E. symmetry. apply map_nth_seq.
      + unfold to_dense. rewrite E. auto.
    - destruct h as [v w|s m]; simpl in *.
      + intros H. injection H as <-. auto.
      + apply sparse_values_at_ok with (n := m). auto.
  Qed.

  Lemma get_logk_graph t kf (f g : nat -> V) (l : list nat) k : get_logk t kf (map f l) (map g l) = Ok k ->
    k = map (fun i => logk1 t kf (f i) (g i)) l /\ (forall i, In i l -> nfinite (f i) = true).
  Proof.
    unfold get_logk. destruct (forallb nfinite (map f l)) eqn:F; [|discriminate].
    intros H. injection H as <-. rewrite map2_map. split; auto.
    rewrite forallb_forall in F. intros i Hi. apply F. apply in_map. auto.
  Qed.
  Lemma shift_graph ad (f g : nat -> V) (l : list nat) : shift ad (map f l) (map g l) =
    map (fun i => if ad then nadd (f i) (g i) else g i) l.
  Proof. unfold shift. destruct ad; auto. apply map2_map. Qed.

  Lemma coo_idx_NDense l i : In i (map fst (coo_entries (NDense l))) <->
    i < List.length l /\ nth i l n0 <> n0.
  Proof.
    simpl. assert (E : combine (seq 0 (List.length l)) l = map (fun i => (i, nth i l n0)) (seq 0 (List.length l))).
    { rewrite <- combine_map_r, map_nth_seq. auto. }
    rewrite E. rewrite in_map_iff. split.
    - intros ([j v] & <- & H). apply filter_In in H. destruct H as [H1 H2]. apply in_map_iff in H1.
      destruct H1 as (k & Ek & Hk). injection Ek as -> <-. apply in_seq in Hk. apply nonzero_spec in H2.
      simpl in *. split; auto. lia.
    - intros [H1 H2]. exists (i, nth i l n0). split; auto. apply filter_In. split.
      + apply in_map_iff. exists i. split; auto. apply in_seq. lia.
      + apply nonzero_spec. auto.
  Qed.
  Lemma coo_sorted cfg nm : wf_norm cfg nm -> StronglySorted lt (map fst (coo_entries nm)).
  Proof.
    destruct nm as [l|e n]; simpl; intros W; [|apply W].
    apply sorted_filter. rewrite map_fst_combine by (rewrite seq_length; auto).
    apply (nidx_sorted cfg (NDense l)). simpl. auto.
  Qed.
  Lemma coo_den cfg nm i : wf_norm cfg nm -> at_or0 i (coo_entries nm) = nden nm i.
  Proof.
    destruct nm as [l|e n]; simpl; intros W; auto.
    rewrite at_or0_filter by (rewrite map_fst_combine by (rewrite seq_length; auto); apply seq_NoDup).
    assert (E : combine (seq 0 (List.length l)) l = map (fun i => (i, nth i l n0)) (seq 0 (List.length l))).
    { rewrite <- combine_map_r, map_nth_seq. auto. }
    rewrite E, at_or0_graph. destruct (in_dec Nat.eq_dec i (seq 0 (List.length l))) as [H|H]; auto.
    rewrite nth_overflow; auto. rewrite in_seq in H. lia.
  Qed.

  (** [populated]: the bins at which a variation may be nonzero *)
  Definition populated (nm : normarr V) (i : nat) : Prop := In i (map fst (coo_entries nm)).
  Lemma populated_NSparse e n i : populated (NSparse e n) i <-> In i (map fst e).
  Proof. reflexivity. Qed.

  Lemma mk_lentry_wf cfg nm f : wf_norm cfg nm -> wf_lentry cfg nm (mk_lentry cfg nm (map f (nidx nm))).
  Proof.
    intros W. destruct nm as [l|e n]; simpl in *.
    - assert (EL : map2 (fun n1 k => if neq0 n1 then n0 else k) l (map f (seq 0 (List.length l)))
                  = map (fun i => if neq0 (nth i l n0) then n0 else f i) (seq 0 (List.length l))).
      { rewrite <- (map_nth_seq l n0) at 1. apply map2_map. }
      rewrite EL. destruct (c_sparse cfg) eqn:C; simpl.
      + split; auto. rewrite map_length, seq_length, combine_map_r. repeat split.
        * apply sorted_lt_NoDup, sorted_filter. rewrite map_map. simpl. rewrite map_id.
          apply (nidx_sorted cfg (NDense l)). simpl. auto.
        * intros i Hi. apply in_map_iff in Hi. destruct Hi as ([j v] & <- & H). apply filter_In in H.
          destruct H as [H1 H2]. apply in_map_iff in H1. destruct H1 as (k & Ek & Hk).
          injection Ek as -> <-. apply nonzero_spec in H2. simpl in H2 |- *.
          change (map fst (filter nonzero (combine (seq 0 (List.length l)) l))) with (map fst (coo_entries (NDense l))).
          apply coo_idx_NDense. apply in_seq in Hk. split; [lia|].
          intros Z. apply neq0_spec in Z. rewrite Z in H2. auto.
        * apply Forall_forall. intros x Hx. apply filter_In in Hx. apply nonzero_spec. apply Hx.
      + split; auto. exists l. split; auto. rewrite map_length, seq_length. auto.
    - destruct W as (C & S & F). split; auto. rewrite combine_map_r. repeat split.
      + apply sorted_lt_NoDup, sorted_filter. rewrite map_map. simpl. rewrite map_id. auto.
      + intros i Hi. apply filter_incl in Hi. rewrite map_map in Hi. simpl in Hi. rewrite map_id in Hi. auto.
      + apply Forall_forall. intros x Hx. apply filter_In in Hx. apply nonzero_spec. apply Hx.
  Qed.

  (** a booked variation: the computed value on populated bins, zero elsewhere *)
  Lemma mk_lentry_den cfg nm f i : wf_norm cfg nm ->
    (populated nm i -> lden (mk_lentry cfg nm (map f (nidx nm))) i = f i) /\
    (~ populated nm i -> lden (mk_lentry cfg nm (map f (nidx nm))) i = n0).
  Proof.
    intros W. destruct nm as [l|e n].
    - unfold populated. rewrite coo_idx_NDense. simpl.
      assert (EL : map2 (fun n1 k => if neq0 n1 then n0 else k) l (map f (seq 0 (List.length l)))
                  = map (fun i => if neq0 (nth i l n0) then n0 else f i) (seq 0 (List.length l))).
      { rewrite <- (map_nth_seq l n0) at 1. apply map2_map. }
      rewrite EL. set (z := fun i => if neq0 (nth i l n0) then n0 else f i).
      assert (G : lden (if c_sparse cfg then LSparse (filter nonzero (combine (seq 0 (List.length (map z (seq 0 (List.length l))))) (map z (seq 0 (List.length l)))))
                        else LDense (map z (seq 0 (List.length l)))) i
              = if in_dec Nat.eq_dec i (seq 0 (List.length l)) then z i else n0).
      { destruct (c_sparse cfg); simpl.
        - rewrite map_length, seq_length, combine_map_r. rewrite at_or0_filter.
          + apply at_or0_graph.
          + rewrite map_map. simpl. rewrite map_id. apply seq_NoDup.
        - destruct (in_dec Nat.eq_dec i (seq 0 (List.length l))) as [H|H].
          + apply in_seq in H. rewrite (nth_indep _ n0 (z 0)) by (rewrite map_length, seq_length; lia).
            rewrite map_nth, seq_nth by lia. auto.
          + apply nth_overflow. rewrite map_length, seq_length. rewrite in_seq in H. lia. }
      rewrite G. unfold z. destruct (in_dec Nat.eq_dec i (seq 0 (List.length l))) as [H|H].
      + apply in_seq in H. destruct (neq0 (nth i l n0)) eqn:Z.
        * apply neq0_spec in Z. split; auto. intros [_ ?]. contradiction.
        * split; auto. intros X. exfalso. apply X. split; [lia|]. intros Y. apply neq0_spec in Y. congruence.
      + rewrite in_seq in H. split; auto. intros [? _]. lia.
    - simpl in *. rewrite combine_map_r. rewrite at_or0_filter.
      + rewrite at_or0_graph. unfold populated. simpl.
        destruct (in_dec Nat.eq_dec i (map fst e)); split; auto; tauto.
      + rewrite map_map. simpl. rewrite map_id. apply sorted_lt_NoDup. apply W.
  Qed.

  Lemma wf_lentry_out cfg nm e i : wf_lentry cfg nm e -> nsize nm <= i -> wf_norm cfg nm -> lden e i = n0.
  Proof.
    destruct e as [z|ents]; simpl.
    - intros (_ & l & -> & E) H _. simpl in H. apply nth_overflow. lia.
    - intros (_ & _ & I & _) H W. apply at_or0_out. intros Hin. apply I in Hin.
      destruct nm as [l|e n].
      + apply coo_idx_NDense in Hin. simpl in H. lia.
      + simpl in *. destruct W as (_ & _ & F). rewrite Forall_forall in F. specialize (F _ Hin). lia.
  Qed.

  (** *** what is booked by the operations *)
  Definition veff (t : systype) (kf : V) (ad : bool) (nm : normarr V) (h : histo V) (i : nat) : V :=
    logk1 t kf (if ad then nadd (nden nm i) (hden h i) else hden h i) (nden nm i).

  Lemma add_systematic_graph cfg st h n p ch kf mi m ad kw st' :
    add_systematic cfg st h n p ch kf mi m ad kw = (st', None) ->
    (forall nm, st_norm st ch p = Some nm -> wf_norm cfg nm /\
        exists i, dget ch (st_channels st) = Some i /\ nsize nm = isize i) ->
    wf_op (AddSystematic h n p ch kf mi m ad kw) ->
    exists nm, st_norm st ch p = Some nm /\ wf_norm cfg nm /\
    match h with
    | SSingle h1 =>
        st' = book_systematic (book_avg cfg st nm (map (veff (c_type cfg) kf ad nm h1) (nidx nm)) ch p n) n kw /\
        (forall i, In i (nidx nm) -> nfinite (if ad then nadd (nden nm i) (hden h1 i) else hden h1 i) = true)
    | SPair hu hd =>
        let ku := veff (c_type cfg) kf ad nm hu in
        let kd := fun i => nopp (veff (c_type cfg) kf ad nm hd i) in
        let (st1, r) := compute_asym_syst cfg st nm (map ku (nidx nm)) (map kd (nidx nm)) n p ch m kw in
        st' = book_systematic (book_avg cfg st1 nm (fst r) ch p (snd r)) (snd r) kw
    end.
  Proof.
    intros H I W. apply add_systematic_inv in H. destruct H as (nm & N & H). exists nm. split; auto.
    destruct (I nm N) as (Wn & info & Di & Sz). split; auto.
    assert (HS : forall hh, check_hist st hh ch = None -> hsize hh = nsize nm).
    { intros hh. unfold check_hist. rewrite Di. fold (isize info).
      destruct (Nat.eqb_spec (hsize hh) (isize info)); [|discriminate]. congruence. }
    rewrite (norm_vals_graph cfg nm Wn) in H. destruct h as [h1|hu hd].
    - destruct H as (_ & C & s & k & E1 & E2 & ->).
      apply syst_vals_graph in E1; auto. subst s. rewrite shift_graph in E2.
      apply get_logk_graph in E2. destruct E2 as (-> & F). split; auto.
    - destruct H as (C1 & C2 & u & d & ku & kd & E1 & E2 & E3 & E4 & H). simpl in W. destruct W as [W1 W2].
      apply syst_vals_graph in E1; auto. apply syst_vals_graph in E2; auto. subst u d.
      rewrite shift_graph in E3, E4. apply get_logk_graph in E3, E4.
      destruct E3 as (-> & _), E4 as (-> & _). rewrite map_map in H. exact H.
  Qed.
End Inv.
