(** The batched path stores, for every bin of the extra axes, the variation the slice at that
    bin stands for. *)
From Coq Require Import List Arith Bool String Permutation Sorted Lia.
From Verif Require Import PyList PyDict ListUtil Order Num Shape Names_Model Writer_Model Writer_Spec Writer_Frame Writer_Layout
  Writer_Meta Writer_Inv Writer_State Writer_Hist Writer_Denote Multi_Model Multi_Spec Multi_Geom Multi_Slices Multi_Loop.
Import ListNotations.
Local Open Scope list_scope.
Local Open Scope nat_scope.

Lemma NoDup_map_inj {A B C} (f : A -> B) (g : A -> C) l : NoDup (map f l) ->
  (forall x y, In x l -> In y l -> g x = g y -> f x = f y) -> NoDup (map g l).
Proof.
  intros N H. induction l as [|x l IH]; cbn [map]; [constructor|]. cbn [map] in N. inversion N; subst. constructor.
  - intros K. apply in_map_iff in K. destruct K as (y & E & K). apply H2. rewrite (H x y); [apply in_map; auto|left; auto|right; auto|auto].
  - apply IH; auto. intros a b Ha Hb. apply H; right; auto.
Qed.
Lemma NoDup_map_filter {A B} (f : A -> B) p l : NoDup (map f l) -> NoDup (map f (filter p l)).
Proof.
  induction l as [|x l IH]; cbn [map filter]; auto. intros N. inversion N; subst. destruct (p x); auto. cbn [map]. constructor; auto.
  intros K. apply H1. apply in_map_iff in K. destruct K as (y & E & K). apply filter_In in K. apply in_map_iff. exists y. tauto.
Qed.

Section Entries.
  Context {V : Type} {NV : Num V} {NL : NumLaws V}.
  Variables (axes chx : list maxis) (extra : list string) (flow : bool) (ents : list (nat * V)).
  Hypothesis G : geom axes extra chx.
  Hypothesis N : NoDup (map fst ents).
  Hypothesis R : Forall (fun e => fst e < prodn (map x_extent axes)) ents.
  Let ex := axes_by_name axes extra.
  Let names := x_names axes.

  Definition bkey (x : nat * (nat * V)) : nat * nat := (fst x, fst (snd x)).

  Lemma pos_extra i b : in_shape (map x_size ex) i -> map (position flow ex chx i b) extra = shifted ex i.
  Proof.
    intros I. pose proof (ex_names _ _ _ G) as NE. fold ex in NE.
    transitivity (map (position flow ex chx i b) (x_names ex)); [rewrite NE; auto|].
    apply (position_extra flow ex chx i b). { rewrite NE. apply (g_extra _ _ _ G). } apply in_shape_len in I. rewrite map_length in I. auto.
  Qed.
  Lemma pos_chan i b : in_shape (layout flow chx) b -> map (position flow ex chx i b) (x_names chx) = to_flow flow chx b.
  Proof.
    intros I. pose proof (ex_names _ _ _ G) as NE. fold ex in NE.
    apply position_chan. { apply (g_ch _ _ _ G). } { rewrite NE. apply (g_disj _ _ _ G). } eapply in_shape_layout_len; eauto.
  Qed.
  Lemma pos_in i b : in_shape (map x_size ex) i -> in_shape (layout flow chx) b ->
    in_shape (map x_extent axes) (map (position flow ex chx i b) names).
  Proof.
    intros I J. apply (coords_in axes chx extra G _ i (to_flow flow chx b)); auto using pos_extra, pos_chan. apply to_flow_in. auto.
  Qed.

  (** the entries before normalisation, seen from one stored entry *)
  Definition kept_entry (q : nat) (i b : list nat) : Prop :=
    in_shape (map x_size ex) i /\ in_shape (layout flow chx) b /\ q = ravel (map x_extent axes) (map (position flow ex chx i b) names).
  Lemma kept_iff q i b : q < prodn (map x_extent axes) ->
    (kept_entry q i b <->
     in_shape (map x_size ex) i /\ in_shape (layout flow chx) b /\
     e_coords axes q extra = shifted ex i /\ e_coords axes q (x_names chx) = to_flow flow chx b).
  Proof.
    intros Q. unfold kept_entry. split.
    - intros (I & J & ->). split; auto. split; auto. unfold e_coords. rewrite unravel_ravel by (apply pos_in; auto).
      unfold names. rewrite !coords_of_map.
      + split; [apply pos_extra; auto|apply pos_chan; auto].
      + intros n Hn. apply (g_cover _ _ _ G). auto.
      + intros n Hn. apply (g_cover _ _ _ G). auto.
    - intros (I & J & E1 & E2). split; auto. split; auto.
      rewrite <- (ravel_unravel (map x_extent axes) q) at 1 by auto. f_equal.
      apply (coords_unique axes chx extra G); [apply unravel_in; auto| |].
      + rewrite pos_extra by auto. exact E1.
      + rewrite pos_chan by auto. exact E2.
  Qed.
  Lemma kept_unique q q' i b : kept_entry q i b -> kept_entry q' i b -> q = q'.
  Proof. intros (_ & _ & ->) (_ & _ & ->). auto. Qed.

  Lemma batch_valid q : q < prodn (map x_extent axes) ->
    let cx := e_coords axes q extra in let cc := e_coords axes q (x_names chx) in
    let kp := axes_by_name axes (x_names chx) in
    all_regular ex cx && (flow || all_regular kp cc) = true ->
    exists i b, kept_entry q i b /\ ravel (map x_size ex) (off_under ex cx) = ravel (map x_size ex) i /\
      (if flow then ravel (map x_extent kp) cc else ravel (map x_size kp) (off_under kp cc)) = ravel (layout flow chx) b.
  Proof.
    intros Q cx cc kp H. apply andb_true_iff in H. destruct H as [H1 H2].
    pose proof (ch_same _ _ _ G) as S. fold kp in S.
    assert (L1 : List.length cx = List.length ex) by (unfold cx; rewrite e_coords_len; apply (ex_len axes chx extra G)).
    assert (L2 : List.length cc = List.length chx) by (unfold cc; rewrite e_coords_len; unfold x_names; apply map_length).
    destruct (regular_shifted ex cx L1 H1) as [I S1].
    rewrite (same_extents _ _ S), (same_sizes _ _ S), (same_off _ _ cc S). rewrite (same_regular _ _ cc S) in H2.
    exists (off_under ex cx), (if flow then cc else off_under chx cc). split; [|split; [auto|destruct flow; auto]].
    apply kept_iff; auto. fold cx cc. split; auto. split; [|split; [auto|]].
    - unfold layout. destruct flow; [apply (e_coords_in axes chx extra G); auto|]. apply regular_shifted; auto.
    - unfold to_flow. destruct flow; auto. symmetry. apply regular_shifted; auto.
  Qed.
  Lemma valid_batch q i b : q < prodn (map x_extent axes) -> kept_entry q i b ->
    let cx := e_coords axes q extra in let cc := e_coords axes q (x_names chx) in
    let kp := axes_by_name axes (x_names chx) in
    all_regular ex cx && (flow || all_regular kp cc) = true /\ ravel (map x_size ex) (off_under ex cx) = ravel (map x_size ex) i /\
      (if flow then ravel (map x_extent kp) cc else ravel (map x_size kp) (off_under kp cc)) = ravel (layout flow chx) b.
  Proof.
    intros Q K cx cc kp. pose proof (ch_same _ _ _ G) as S. fold kp in S.
    rewrite (same_extents _ _ S), (same_sizes _ _ S), (same_off _ _ cc S), (same_regular _ _ cc S).
    apply kept_iff in K; auto. destruct K as (I & J & E1 & E2). fold cx in E1. fold cc in E2. rewrite E1, E2.
    destruct (shifted_regular ex i I) as [-> ->]. unfold to_flow, layout in *. destruct flow; cbn [andb orb]; auto.
    destruct (shifted_regular chx b J) as [A B]. fold (shifted chx b). rewrite A, B. auto.
  Qed.

  Definition BE := batch_entries axes ents extra (x_names chx) flow.
  Lemma BE_eq : BE = map (fun e => (ravel (map x_size ex) (off_under ex (e_coords axes (fst e) extra)),
      (let kp := axes_by_name axes (x_names chx) in
       if flow then ravel (map x_extent kp) (e_coords axes (fst e) (x_names chx))
       else ravel (map x_size kp) (off_under kp (e_coords axes (fst e) (x_names chx))), snd e)))
    (filter (fun e => all_regular ex (e_coords axes (fst e) extra) &&
       (flow || all_regular (axes_by_name axes (x_names chx)) (e_coords axes (fst e) (x_names chx)))) ents).
  Proof. unfold BE, batch_entries. rewrite filter_map, map_map. reflexivity. Qed.
  Lemma BE_In k j v : In (k, (j, v)) BE <->
    exists i b, in_shape (map x_size ex) i /\ in_shape (layout flow chx) b /\ k = ravel (map x_size ex) i /\ j = ravel (layout flow chx) b /\
      In (ravel (map x_extent axes) (map (position flow ex chx i b) names), v) ents.
  Proof.
    rewrite Forall_forall in R. rewrite BE_eq, in_map_iff. split.
    - intros ([q w] & E & H). cbn [fst snd] in E. apply filter_In in H. destruct H as [H K]. cbn [fst] in K.
      destruct (batch_valid q (R _ H) K) as (i & b & KE & E1 & E2). injection E as <- <- <-. exists i, b.
      destruct KE as (I & J & <-). repeat split; auto.
    - intros (i & b & I & J & -> & -> & H). exists (ravel (map x_extent axes) (map (position flow ex chx i b) names), v). cbn [fst snd].
      destruct (valid_batch _ i b (R _ H)) as (A & B & C); [split; auto|]. cbn [fst] in A, B, C. rewrite B, C. split; auto. apply filter_In. auto.
  Qed.
  Lemma BE_NoDup : NoDup (map bkey BE).
  Proof.
    rewrite Forall_forall in R. rewrite BE_eq, map_map. unfold bkey. cbn [fst snd].
    apply (NoDup_map_inj fst). { apply NoDup_map_filter. auto. }
    intros [q v] [q' v'] H H'. apply filter_In in H, H'. destruct H as [H K]. destruct H' as [H' K']. cbn [fst] in *.
    destruct (batch_valid q (R _ H) K) as (i & b & KE & E1 & E2). destruct (batch_valid q' (R _ H') K') as (i' & b' & KE' & E1' & E2').
    intros E. injection E as Ea Eb. rewrite E1, E1' in Ea. rewrite E2, E2' in Eb.
    destruct KE as (I & J & Eq). destruct KE' as (I' & J' & Eq'). apply ravel_inj in Ea; auto. apply ravel_inj in Eb; auto. subst. auto.
  Qed.
End Entries.

(** a zero variation has no effect *)
Definition zero_law (V : Type) {NV : Num V} : Prop :=
  forall t (kf n : V), n <> n0 -> logk1 t kf (nadd n n0) n = n0.

Section Norm.
  Context {V : Type} {NV : Num V} {NL : NumLaws V}.

  Definition pop (nm : normarr V) (x : nat * (nat * V)) : bool := negb (neq0 (nden nm (fst (snd x)))).
  Lemma pop_spec nm x : pop nm x = true <-> nden nm (fst (snd x)) <> n0.
  Proof. unfold pop. rewrite negb_true_iff, <- not_true_iff_false, neq0_spec. tauto. Qed.

  Lemma batch_norm_eq cfg nm l q : wf_norm cfg nm -> (forall i, populated nm i <-> nden nm i <> n0) ->
    batch_norm nm l = Ok q ->
    q = map (fun x => (fst x, (fst (snd x), (snd (snd x), nden nm (fst (snd x)))))) (filter (pop nm) l).
  Proof.
    intros W P. destruct nm as [n|e n].
    - cbn [batch_norm]. destruct (forallb _ l); [|discriminate]. intros H. injection H as <-. rewrite filter_map. reflexivity.
    - cbn [batch_norm]. intros H. injection H as <-. destruct W as (_ & S & _).
      induction l as [|x l IH]; cbn [flat_map filter map]; auto. rewrite IH. set (j := fst (snd x)).
      assert (Q : (Nat.ltb (searchsorted (map fst e) j) (List.length (map fst e)) && Nat.eqb (nth (searchsorted (map fst e) j) (map fst e) 0) j = true <-> In j (map fst e))
              /\ (In j (map fst e) -> nth (searchsorted (map fst e) j) (map snd e) n0 = at_or0 j e)).
      { split.
        - rewrite andb_true_iff, Nat.ltb_lt, Nat.eqb_eq. split.
          + intros [A B]. rewrite <- B. apply nth_In. auto.
          + intros H. apply In_nth with (d := 0) in H. destruct H as (k & Hk & Ek). rewrite <- Ek. rewrite count_lt_sorted by auto. auto.
        - intros H. apply In_nth with (d := 0) in H. destruct H as (k & Hk & Ek). rewrite <- Ek at 1. rewrite count_lt_sorted by auto.
          symmetry. apply at_or0_In. { apply sorted_lt_NoDup. auto. } rewrite map_length in Hk. rewrite <- Ek.
          rewrite (nth_indep _ 0 (fst (0, n0 (V := V)))) by (rewrite map_length; auto).
          rewrite (nth_indep _ n0 (snd (0, n0 (V := V)))) by (rewrite map_length; auto).
          rewrite !map_nth. rewrite <- surjective_pairing. apply nth_In. auto. }
      destruct Q as [Q1 Q2]. specialize (P j). unfold populated in P. cbn [coo_entries nden] in P.
      assert (E : pop (NSparse e n) x = true <-> In j (map fst e)). { rewrite pop_spec. symmetry. exact P. }
      destruct (_ && _) eqn:A.
      + assert (I : In j (map fst e)) by (apply Q1; auto). rewrite (proj2 E I). cbn [map app nden]. rewrite Q2 by auto. auto.
      + destruct (pop (NSparse e n) x); auto. exfalso. assert (I : In j (map fst e)) by (apply E; auto). apply Q1 in I. congruence.
  Qed.

  (** the stored value of one kept entry *)
  Definition bval cfg (kf : V) (nm : normarr V) (x : nat * (nat * V)) : nat * (nat * V) :=
    (fst x, (fst (snd x), logk1 (c_type cfg) kf (nadd (nden nm (fst (snd x))) (snd (snd x))) (nden nm (fst (snd x))))).
  Lemma batch_logk_eq cfg kf nm l r : wf_norm cfg nm -> (forall i, populated nm i <-> nden nm i <> n0) ->
    batch_logk cfg kf nm l = Ok r -> r = filter (fun x => nonzero (snd x)) (map (bval cfg kf nm) (filter (pop nm) l)).
  Proof.
    intros W P H. unfold batch_logk in H. destruct (batch_norm nm l) as [q|] eqn:B; cbn [rbind] in H; [|discriminate].
    apply (batch_norm_eq cfg) in B; auto. destruct (negb _); [discriminate|]. injection H as <-. subst q. rewrite map_map. reflexivity.
  Qed.
  Lemma batch_logk_NoDup cfg kf nm l r : wf_norm cfg nm -> (forall i, populated nm i <-> nden nm i <> n0) ->
    batch_logk cfg kf nm l = Ok r -> NoDup (map bkey l) -> NoDup (map bkey r).
  Proof.
    intros W P H N. apply batch_logk_eq in H; auto. subst r. apply NoDup_map_filter. rewrite map_map. unfold bval, bkey. cbn [fst snd].
    apply (NoDup_map_filter bkey). auto.
  Qed.
  Lemma batch_logk_In cfg kf nm l r k j v : wf_norm cfg nm -> (forall i, populated nm i <-> nden nm i <> n0) ->
    batch_logk cfg kf nm l = Ok r ->
    (In (k, (j, v)) r <-> exists d, In (k, (j, d)) l /\ nden nm j <> n0 /\ v = logk1 (c_type cfg) kf (nadd (nden nm j) d) (nden nm j) /\ v <> n0).
  Proof.
    intros W P H. apply batch_logk_eq in H; auto. subst r. rewrite filter_In, in_map_iff, nonzero_spec. cbn [snd]. split.
    - intros (([k' [j' d]] & E & H) & Z). unfold bval in E. cbn [fst snd] in E. injection E as -> -> <-. apply filter_In in H. destruct H as [H K].
      apply pop_spec in K. exists d. auto.
    - intros (d & H & K & -> & Z). split; auto. exists (k, (j, d)). split; auto. apply filter_In. split; auto. apply pop_spec. auto.
  Qed.

  (** *** the run of one systematic *)
  Definition brun (k : nat) (sorted : list (nat * (nat * V))) : list (nat * V) := map snd (filter (fun x => Nat.eqb (fst x) k) sorted).
  Lemma batch_entry_run cfg size sorted k : StronglySorted (fun x y => fst x <= fst y) sorted ->
    batch_entry cfg size sorted k = if c_sparse cfg then LSparse (brun k sorted) else LDense (scatter size (brun k sorted)).
  Proof. intros S. unfold batch_entry. rewrite pyslice_run by auto. reflexivity. Qed.
  Lemma brun_In k j v l : In (j, v) (brun k l) <-> In (k, (j, v)) l.
  Proof.
    unfold brun. rewrite in_map_iff. split.
    - intros ([k' jv] & E & H). cbn [snd] in E. subst. apply filter_In in H. destruct H as [H K]. cbn [fst] in K. apply Nat.eqb_eq in K. subst. auto.
    - intros H. exists (k, (j, v)). split; auto. apply filter_In. split; auto. apply Nat.eqb_refl.
  Qed.
  Lemma brun_NoDup k l : NoDup (map bkey l) -> NoDup (map fst (brun k l)).
  Proof.
    intros N. unfold brun. rewrite map_map. apply (NoDup_map_inj bkey). { apply NoDup_map_filter. auto. }
    intros x y Hx Hy E. apply filter_In in Hx, Hy. destruct Hx as [_ Hx]. destruct Hy as [_ Hy]. apply Nat.eqb_eq in Hx, Hy.
    unfold bkey. f_equal; [lia|auto].
  Qed.

  Lemma set_at_len i (v : V) l : List.length (set_at i v l) = List.length l.
  Proof.
    unfold set_at. destruct (Nat.ltb_spec i (List.length l)); auto. rewrite app_length. cbn [List.length]. rewrite firstn_length, skipn_length. lia.
  Qed.
  Lemma set_at_nth i (v : V) l j : i < List.length l -> nth j (set_at i v l) n0 = if Nat.eqb j i then v else nth j l n0.
  Proof.
    intros H. unfold set_at. destruct (Nat.ltb_spec i (List.length l)); [|lia]. clear H0. revert i j H. induction l as [|a l IH]; intros i j H; cbn [List.length] in H; [lia|].
    destruct i as [|i]; destruct j as [|j]; cbn [firstn skipn app nth]; auto. rewrite IH by lia. auto.
  Qed.
  Lemma fold_scatter_len (e : list (nat * V)) : forall l, List.length (fold_left (fun l x => set_at (fst x) (snd x) l) e l) = List.length l.
  Proof. induction e as [|x e IH]; intros l; cbn [fold_left]; auto. rewrite IH. apply set_at_len. Qed.
  Lemma scatter_len n (e : list (nat * V)) : List.length (scatter n e) = n.
  Proof. unfold scatter. rewrite fold_scatter_len. apply repeat_length. Qed.
  Lemma scatter_at n (e : list (nat * V)) j : NoDup (map fst e) -> Forall (fun x => fst x < n) e -> nth j (scatter n e) n0 = at_or0 j e.
  Proof.
    intros N F. unfold scatter.
    assert (Q : forall l, List.length l = n -> nth j (fold_left (fun l x => set_at (fst x) (snd x) l) e l) n0 = if in_dec Nat.eq_dec j (map fst e) then at_or0 j e else nth j l n0).
    { induction e as [|[i v] e IH]; intros l L; cbn [fold_left fst snd]; auto. inversion N; inversion F; subst. cbn [fst] in *.
      rewrite IH; auto; [|apply set_at_len]. rewrite set_at_nth by auto. unfold at_or0 at 2. cbn [assoc map fst].
      destruct (Nat.eqb_spec j i).
      - subst. destruct (in_dec Nat.eq_dec i (map fst e)); [contradiction|]. destruct (in_dec Nat.eq_dec i (i :: map fst e)) as [_|K]; auto. exfalso. apply K. left. auto.
      - destruct (in_dec Nat.eq_dec j (map fst e)) as [K|K]; destruct (in_dec Nat.eq_dec j (i :: map fst e)) as [K'|K']; auto.
        + exfalso. apply K'. right. auto.
        + exfalso. destruct K' as [K'|K']; auto. }
    rewrite Q by apply repeat_length. destruct (in_dec Nat.eq_dec j (map fst e)); auto. rewrite at_or0_out by auto.
    destruct (Nat.lt_ge_cases j n); [apply nth_repeat|apply nth_overflow; rewrite repeat_length; auto].
  Qed.
End Norm.

Section Stored.
  Context {V : Type} {NV : Num V} {NL : NumLaws V}.
  Variables (cfg : config) (axes chx : list maxis) (extra : list string) (flow : bool) (ents : list (nat * V)).
  Variables (nm : normarr V) (kf : V) (sorter : list (nat * (nat * V)) -> list (nat * (nat * V))) (r : list (nat * (nat * V))).
  Hypothesis G : geom axes extra chx.
  Hypothesis WH : wf_mhist (MSparse axes ents).
  Hypothesis W : wf_norm cfg nm.
  Hypothesis P : forall i, populated nm i <-> nden nm i <> n0.
  Hypothesis SZ : nsize nm = prodn (layout flow chx).
  Hypothesis SO : a_sort sorter.
  Hypothesis ZL : zero_law V.
  Hypothesis RL : batch_logk cfg kf nm (batch_entries axes ents extra (x_names chx) flow) = Ok r.
  Let ex := axes_by_name axes extra.

  Let N : NoDup (map fst ents). Proof. apply WH. Qed.
  Let R : Forall (fun e => fst e < prodn (map x_extent axes)) ents. Proof. apply WH. Qed.

  Definition bent (k : nat) : lentry V :=
    batch_entry cfg (prodn (layout flow (axes_by_name axes (x_names chx)))) (sorter r) k.
  Lemma r_NoDup : NoDup (map bkey r).
  Proof. eapply batch_logk_NoDup; eauto. apply BE_NoDup; auto. Qed.
  Lemma run_NoDup k : NoDup (map fst (brun k (sorter r))).
  Proof.
    apply brun_NoDup. destruct (SO r) as [Pm _]. eapply Permutation_NoDup; [apply Permutation_map, Permutation_sym, Pm|]. apply r_NoDup.
  Qed.
  Lemma run_In k j v : In (j, v) (brun k (sorter r)) <->
    exists i b d, in_shape (map x_size ex) i /\ in_shape (layout flow chx) b /\ k = ravel (map x_size ex) i /\ j = ravel (layout flow chx) b /\
      In (ravel (map x_extent axes) (map (position flow ex chx i b) (x_names axes)), d) ents /\
      nden nm j <> n0 /\ v = logk1 (c_type cfg) kf (nadd (nden nm j) d) (nden nm j) /\ v <> n0.
  Proof.
    rewrite brun_In. destruct (SO r) as [Pm _]. split.
    - intros H. eapply Permutation_in in H; [|exact Pm]. apply (batch_logk_In _ _ _ _ _ k j v W P RL) in H.
      destruct H as (d & H & K). apply (BE_In axes chx extra flow ents G R) in H. destruct H as (i & b & I & J & E1 & E2 & H). exists i, b, d. tauto.
    - intros (i & b & d & I & J & E1 & E2 & H & K). eapply Permutation_in; [apply Permutation_sym; exact Pm|].
      apply (batch_logk_In _ _ _ _ _ k j v W P RL). exists d. split; auto. apply (BE_In axes chx extra flow ents G R). exists i, b. tauto.
  Qed.
  Lemma bent_run k : bent k = if c_sparse cfg then LSparse (brun k (sorter r)) else LDense (scatter (prodn (layout flow chx)) (brun k (sorter r))).
  Proof. unfold bent. rewrite batch_entry_run by apply SO. rewrite (same_layout flow _ _ (ch_same _ _ _ G)). auto. Qed.
  Lemma run_range k : Forall (fun x => fst x < prodn (layout flow chx)) (brun k (sorter r)).
  Proof.
    apply Forall_forall. intros [j v] H. apply run_In in H. destruct H as (i & b & d & _ & J & _ & -> & _). cbn [fst]. apply ravel_lt. auto.
  Qed.
  Lemma bent_lden k j : lden (bent k) j = at_or0 j (brun k (sorter r)).
  Proof. rewrite bent_run. destruct (c_sparse cfg); auto. cbn [lden]. apply scatter_at; [apply run_NoDup|apply run_range]. Qed.
  Lemma bent_wf k : wf_lentry cfg nm (bent k).
  Proof.
    rewrite bent_run. destruct (c_sparse cfg) eqn:C; cbn [wf_lentry].
    - split; auto. split; [apply run_NoDup|]. split.
      + intros j Hj. apply in_map_iff in Hj. destruct Hj as ([j' v] & E & H). cbn [fst] in E. subst. apply run_In in H. apply P.
        destruct H as (i & b & d & _ & _ & _ & _ & _ & H & _). auto.
      + apply Forall_forall. intros [j v] H. apply run_In in H. cbn [snd]. destruct H as (i & b & d & H). tauto.
    - split; auto. destruct nm as [l|e n]; [|destruct W; congruence]. exists l. split; auto. rewrite scatter_len. symmetry. exact SZ.
  Qed.
  (** the array stored for bin [i] of the extra axes is the effect of the slice at that bin *)
  Lemma bent_den i s : in_shape (map x_size ex) i -> slice_of flow ex chx (MSparse axes ents) i s ->
    forall j, lden (bent (ravel (map x_size ex) i)) j = stored (c_type cfg) (nden nm) (Some (EOne kf true s)) j.
  Proof.
    intros I [Hs Hc] j. rewrite bent_lden. cbn [stored].
    destruct (neq0 (nden nm j)) eqn:Z.
    - apply neq0_spec in Z. apply at_or0_out. intros H. apply in_map_iff in H. destruct H as ([j' v] & E & H). cbn [fst] in E. subst.
      apply run_In in H. destruct H as (i' & b & d & H). tauto.
    - assert (NZ : nden nm j <> n0) by (intros Q; apply neq0_spec in Q; congruence).
      assert (L : j < prodn (layout flow chx)).
      { rewrite <- SZ. destruct (Nat.lt_ge_cases j (nsize nm)) as [L|L]; auto. exfalso. apply NZ. destruct nm as [l|e n]; cbn [nden nsize] in *.
        - apply nth_overflow. auto.
        - apply at_or0_out. intros H. destruct W as (_ & _ & F). rewrite Forall_forall in F. specialize (F _ H). lia. }
      assert (exists b, in_shape (layout flow chx) b /\ j = ravel (layout flow chx) b) as (b & J & Ej).
      { exists (unravel (layout flow chx) j). split; [apply unravel_in; auto|symmetry; apply ravel_unravel; auto]. }
      cbn [eval_effect]. unfold tmpl_eff. change spec_logk with (@logk1 V NV). 
      assert (HA : hist_at s j = named_at (MSparse axes ents) (position flow ex chx i b)) by (rewrite Ej; apply Hc; auto). rewrite HA. cbn [andb].
      unfold named_at. rewrite mh_at_or0. cbn [mh_axes].
      replace (map (fun a => position flow ex chx i b (x_name a)) axes) with (map (position flow ex chx i b) (x_names axes)) by (unfold x_names; rewrite map_map; auto).
      set (q := ravel (map x_extent axes) (map (position flow ex chx i b) (x_names axes))).
      destruct (in_dec Nat.eq_dec q (map fst ents)) as [H|H].
      + apply in_map_iff in H. destruct H as ([q' d] & E & H). cbn [fst] in E. subst q'. rewrite (at_or0_In q d ents N H).
        set (v := logk1 (c_type cfg) kf (nadd (nden nm j) d) (nden nm j)).
        apply at_or0_char.
        * intros w Hw. apply run_In in Hw. destruct Hw as (i' & b' & d' & I' & J' & E1 & E2 & H' & _ & -> & _).
          apply ravel_inj in E1; auto. rewrite Ej in E2. apply ravel_inj in E2; auto. subst i' b'. fold q in H'.
          assert (d' = d) by (rewrite <- (at_or0_In q d' ents N H'), <- (at_or0_In q d ents N H); auto). subst. auto.
        * intros K. destruct (neq0 v) eqn:Zv; [apply neq0_spec; auto|]. exfalso. apply K. apply in_map_iff. exists (j, v). split; auto.
          apply run_In. exists i, b, d. repeat split; auto. intros Q. apply neq0_spec in Q. congruence.
      + rewrite (at_or0_out q) by auto. rewrite ZL by auto. apply at_or0_out. intros K. apply H. apply in_map_iff in K. destruct K as ([j' w] & E & K).
        cbn [fst] in E. subst j'. apply run_In in K. destruct K as (i' & b' & d' & I' & J' & E1 & E2 & H' & _).
        apply ravel_inj in E1; auto. rewrite Ej in E2. apply ravel_inj in E2; auto. subst i' b'. apply in_map_iff. exists (q, d'). auto.
  Qed.
End Stored.
