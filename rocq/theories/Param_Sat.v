(** The model of the saturated projection test. *)
From Coq Require Import Reals List Arith ZArith Bool String Lia Lra.
From Verif Require Import RBase PyList PyDict ListUtil Shape Writer_Model Yields_Model Init_Model Param_Model Param_Spec Param_Comp Param_Mix Param_Axis.
Import ListNotations.
Open Scope R_scope.

(** the kept axes of every channel are some of its axes, in its order *)
Definition mapping_ok (d : pdata) (mp : list (string * list axis)) : Prop :=
  forall k sel, In (k, sel) mp -> sel <> [] /\ exists c, In (k, c) (pd_channels d) /\ subseq sel (cn_axes c) /\ named_axes c.
Definition sat_value (env : string -> R) (mp : list (string * list axis)) (k : string) (c : chan) (idx : list nat) : R :=
  match dget k mp with
  | None => 1
  | Some sel => env ("saturated_" ++ k ++ "_" ++ label (map ax_name sel) (map (coord (cn_axes c) idx) (map ax_name sel)))%string
  end.
Lemma subseq_map {A B} (f : A -> B) a b : subseq a b -> subseq (map f a) (map f b).
Proof. intros H. induction H; cbn [map]; constructor; auto. Qed.
Lemma subseq_filter_axes sel axes : NoDup (map ax_name axes) -> subseq sel axes -> kept axes (map ax_name sel) = sel.
Proof.
  intros ND S. unfold kept. induction S as [l|x a b S IH|x a b S IH]; [apply filter_false; auto| |]; cbn [map] in ND; inversion ND; subst; cbn [filter map].
  - replace (smem (ax_name x) (ax_name x :: map ax_name a)) with true by (symmetry; apply smem_In; simpl; auto). f_equal.
    etransitivity; [|exact (IH H2)]. apply filter_ext_in. intros y Iy. apply smem_cons_other. intros E. apply H1. rewrite <- E. apply in_map. auto.
  - replace (smem (ax_name x) (map ax_name a)) with false; [apply IH; auto|]. symmetry. apply not_true_iff_false. intros I. apply smem_In in I. apply H1.
    eapply subseq_In; [apply subseq_map|]; eauto.
Qed.
Lemma sat_shape sel axes : NoDup (map ax_name axes) -> subseq sel axes ->
  map (fun a => if existsb (same_axis a) sel then ax_size a else 1%nat) axes = kept_shape axes (map ax_name sel).
Proof.
  intros ND S. unfold kept_shape. apply map_ext_in. intros a I. replace (existsb (same_axis a) sel) with (smem (ax_name a) (map ax_name sel)); auto.
  destruct (smem (ax_name a) (map ax_name sel)) eqn:E; symmetry.
  - apply smem_In in E. apply in_map_iff in E as (b & Nb & Ib). apply existsb_exists. exists b. split; auto.
    assert (b = a). { assert (J : In b axes) by (eapply subseq_In; eauto). pose proof (find_axis_In axes a ND I) as Fa. pose proof (find_axis_In axes b ND J) as Fb. congruence. }
    subst b. unfold same_axis. rewrite String.eqb_refl, Nat.eqb_refl. auto.
  - apply not_true_iff_false. intros X. apply existsb_exists in X as (b & Ib & X). apply andb_true_iff in X as (X & _). apply String.eqb_eq in X.
    apply not_true_iff_false in E. apply E. apply smem_In. rewrite X. apply in_map. auto.
Qed.
Lemma subseq_hd {A} (x y : A) a b : subseq (x :: a) (y :: b) -> NoDup (y :: b) -> (In y (x :: a) -> x = y /\ subseq a b) /\ (~ In y (x :: a) -> subseq (x :: a) b).
Proof.
  intros S ND. inversion ND; subst. inversion S; subst.
  - split; auto. intros N. exfalso. apply N. simpl. auto.
  - split; auto. intros I. exfalso. apply H1. eapply subseq_In; eauto.
Qed.
Lemma dget_none_keys {V} (q : string) (l : list (string * V)) : ~ In q (map fst l) -> dget q l = None.
Proof. intros H. apply dget_None. auto. Qed.
Lemma sat_rows_ok (env : string -> R) mp post chs : forall rest pre, NoDup (map fst chs) -> subseq (map fst rest) (map fst chs) ->
  (forall k, In k (map fst chs) -> dget k mp = dget k rest) ->
  (forall k sel, In (k, sel) rest -> sel <> [] /\ exists c, In (k, c) chs /\ subseq sel (cn_axes c) /\ named_axes c) ->
  exists rs, sat_rows mp (List.length pre) chs (pre ++ map env (sat_names rest) ++ post) = Ok (List.concat rs) /\
    Forall2 (fun kc rows => List.length rows = prodn (shape_of (snd kc)) /\ forall idx g (j : nat), in_shape (shape_of (snd kc)) idx ->
      nth_error rows (ravel (shape_of (snd kc)) idx) = Some g -> g j = sat_value env mp (fst kc) (snd kc) idx) chs rs.
Proof.
  induction chs as [|[k c] chs IH]; intros rest pre ND S Hd Hc; cbn [sat_rows].
  - exists []. split; auto.
  - cbn [map fst] in *. pose proof (Hd k (or_introl eq_refl)) as Dk. inversion ND as [|? ? Nk ND']; subst.
    destruct (in_dec String.string_dec k (map fst rest)) as [I|N].
    + destruct rest as [|[k' sel] rest]; [destruct I|]. cbn [map fst] in *. destruct (subseq_hd _ _ _ _ S ND) as (S1 & _). destruct (S1 I) as (-> & S'). clear S1.
      destruct (Hc k sel (or_introl eq_refl)) as (NE & c' & Ic & Ss & NA).
      assert (c' = c). { destruct Ic as [E|Ic]; [congruence|]. exfalso. apply Nk. apply (in_map fst) in Ic. auto. } subst c'.
      cbn [dget] in Dk. rewrite String.eqb_refl in Dk. rewrite Dk. destruct sel as [|a0 sel0] eqn:Esel; [congruence|]. rewrite <- Esel in *. clear NE.
      rewrite (sat_shape sel (cn_axes c) NA Ss). cbn [sat_names flat_map fst snd]. fold (sat_names rest). rewrite map_app.
      set (blk := map env (map (fun idx => ("saturated_" ++ k ++ "_" ++ bin_label sel idx)%string) (all_idx (sizes sel)))).
      assert (LB : List.length blk = prodn (sizes sel)) by (unfold blk; rewrite !map_length, all_idx_len; auto).
      assert (PS : pyslice (List.length pre) (List.length pre + prodn (sizes sel)) (pre ++ (blk ++ map env (sat_names rest)) ++ post) = blk).
      { rewrite <- LB, <- app_assoc. apply pyslice_mid. auto. }
      rewrite PS. pose proof (subseq_filter_axes sel (cn_axes c) NA Ss) as KP.
      assert (SBm : subseq (map ax_name sel) (map ax_name (cn_axes c))) by (apply subseq_map; auto).
      assert (BE : blk = map (fun x => x) (map (fun cell => env ("saturated_" ++ k ++ "_" ++ label (map ax_name sel) cell)%string) (all_idx (sizes (kept (cn_axes c) (map ax_name sel)))))).
      { unfold blk. rewrite map_id, map_map, KP. apply map_ext. intros cell. rewrite label_eq. auto. }
      assert (RS : reshape blk (kept_shape (cn_axes c) (map ax_name sel)) = Ok blk) by (rewrite BE; apply block_reshape).
      rewrite RS. cbn [rbind].
      destruct (IH rest (pre ++ blk)) as (rs & E & F).
      * auto.
      * auto.
      * intros q Iq. rewrite Hd by (right; auto). cbn [dget]. destruct (String.eqb_spec q k); [subst; tauto|auto].
      * intros q sq Iq. destruct (Hc q sq (or_intror Iq)) as (NE & c' & Ic' & R'). split; auto. exists c'. split; auto. destruct Ic' as [X|Ic']; auto. exfalso. injection X as <- <-.
        apply Nk. eapply subseq_In; eauto. apply (in_map fst) in Iq. auto.
      * rewrite app_length, LB in E. replace (pre ++ (blk ++ map env (sat_names rest)) ++ post) with ((pre ++ blk) ++ map env (sat_names rest) ++ post) by (rewrite <- !app_assoc; auto).
        rewrite E. cbn [rbind]. exists (map (fun idx _ => 1 * bcast_at blk (kept_shape (cn_axes c) (map ax_name sel)) idx) (all_idx (sizes (cn_axes c))) :: rs). split; [reflexivity|].
        constructor; auto. cbn [fst snd]. split; [rewrite map_length, all_idx_len; auto|]. intros idx g j Sh G. rewrite nth_error_map' in G. change (sizes (cn_axes c)) with (shape_of c) in G.
        rewrite all_idx_nth in G by auto. cbn [option_map] in G. injection G as <-. unfold sat_value. rewrite Dk. rewrite BE, block_at by auto. ring.
    + assert (Dn : dget k rest = None) by (apply dget_none_keys; auto). rewrite Dn in Dk. rewrite Dk.
      destruct (IH rest pre) as (rs & E & F).
      * auto.
      * destruct rest as [|[k' sel] rest]; [constructor|]. cbn [map fst] in *. destruct (subseq_hd _ _ _ _ S ND) as (_ & S2). auto.
      * intros q Iq. apply Hd. right. auto.
      * intros q sq Iq. destruct (Hc q sq Iq) as (NE & c' & Ic & R'). split; auto. exists c'. split; auto. destruct Ic as [X|Ic]; auto. exfalso. injection X as <- <-. apply N. apply (in_map fst) in Iq. auto.
      * rewrite E. cbn [rbind]. exists (unit_rows c :: rs). split; [reflexivity|]. constructor; auto. cbn [fst snd]. unfold unit_rows. split; [rewrite map_length, all_idx_len; auto|].
        intros idx g j Sh G. rewrite nth_error_map' in G. change (sizes (cn_axes c)) with (shape_of c) in G.
        rewrite all_idx_nth in G by auto. cbn [option_map] in G. injection G as <-. unfold sat_value. rewrite Dk. auto.
Qed.
Lemma subseq_split {A} (a u m : list A) : subseq a (u ++ m) -> exists a1 a2, a = a1 ++ a2 /\ subseq a1 u /\ subseq a2 m.
Proof.
  revert a. induction u as [|x u IH]; intros a S; cbn [app] in S; [exists [], a; split; auto; split; [constructor|auto]|].
  inversion S; subst.
  - exists [], []. repeat split; constructor.
  - destruct (IH _ H1) as (a1 & a2 & -> & S1 & S2). exists (x :: a1), a2. repeat split; auto. constructor; auto.
  - destruct (IH _ H1) as (a1 & a2 & -> & S1 & S2). exists a1, a2. repeat split; auto. constructor; auto.
Qed.
Lemma map_app_inv {A B} (f : A -> B) l a b : map f l = a ++ b -> exists l1 l2, l = l1 ++ l2 /\ map f l1 = a /\ map f l2 = b.
Proof.
  revert a. induction l as [|x l IH]; intros a E; cbn [map] in E.
  - symmetry in E. apply app_eq_nil in E as (-> & ->). exists [], []. auto.
  - destruct a as [|y a]; cbn [app] in E; [exists [], (x :: l); auto|]. injection E as <- E. destruct (IH a E) as (l1 & l2 & -> & <- & <-). exists (x :: l1), l2. auto.
Qed.
Lemma F2_impl {A B} (P Q : A -> B -> Prop) l m : (forall a b, P a b -> Q a b) -> Forall2 P l m -> Forall2 Q l m.
Proof. intros H F. induction F; constructor; auto. Qed.
Theorem saturated_spec d mp an m env full : saturated_model d mp an = Ok m -> layout d -> subseq (map fst mp) (map fst (pd_channels d)) -> mapping_ok d mp ->
  exists r, m_compute m (map env (m_params m)) full = Ok r /\ scales d full r (fun k c idx _ => sat_value env mp k c idx).
Proof.
  intros H Lay S Ok_. unfold saturated_model in H. destruct (set_param_default _ _ _ _) as [dft|]; [|discriminate]. cbn [rbind] in H. injection H as <-.
  unfold simple_model. cbn [m_params m_compute].
  pose proof (included_layout d full Lay) as (_ & _ & Inc & NDi). set (inc := filter (fun nc : string * chan => included full (snd nc)) (pd_channels d)) in *.
  destruct Lay as (ND & LO & Tot & u & mm & E & U & M & TU).
  assert (Spl : exists out, pd_channels d = inc ++ out).
  { unfold inc. destruct full.
    - exists []. rewrite filter_true, app_nil_r; auto.
    - exists mm. rewrite E, filter_app, (filter_true _ u), (filter_false _ mm), app_nil_r; auto; rewrite Forall_forall in *.
      + intros [k c] I. apply M in I. cbn [snd] in *. unfold included. rewrite I. auto.
      + intros [k c] I. apply U in I. cbn [snd] in *. unfold included. rewrite I. auto. }
  destruct Spl as (out & Spl). rewrite Spl, map_app in S, ND. destruct (subseq_split _ _ _ S) as (a1 & a2 & Ea & S1 & S2). destruct (map_app_inv _ _ _ _ Ea) as (mp1 & mp2 & -> & <- & <-).
  assert (Dis : forall k, In k (map fst inc) -> ~ In k (map fst out)).
  { intros k I J. clear -ND I J. induction (map fst inc) as [|x l IH]; [destruct I|]. cbn [app] in ND. inversion ND; subst. destruct I as [->|I]; [apply H1, in_app_iff; auto|auto]. }
  destruct (sat_rows_ok env (mp1 ++ mp2) (map env (sat_names mp2)) inc mp1 []) as (rs & Er & F); auto.
  - intros k I. clear -I Dis S2. assert (N : ~ In k (map fst mp2)) by (intros J; apply (Dis k I); eapply subseq_In; eauto). clear -N.
    induction mp1 as [|[k' v] mp1 IH]; cbn [app dget]; [apply dget_none_keys; auto|]. destruct (String.eqb k k'); auto.
  - intros k sel I. destruct (Ok_ k sel) as (NE & c & Ic & R'); [apply in_app_iff; auto|]. split; auto. exists c. split; auto. rewrite Spl in Ic. apply in_app_iff in Ic as [Ic|Ic]; auto.
    exfalso. apply (Dis k); [eapply subseq_In; eauto; apply (in_map fst) in I; auto|]. apply (in_map fst) in Ic. auto.
  - cbn [app List.length] in Er. replace (map env (sat_names (mp1 ++ mp2))) with (map env (sat_names mp1) ++ map env (sat_names mp2)) by (unfold sat_names; rewrite flat_map_app, map_app; auto).
    rewrite Er. cbn [rbind]. eexists. split; [reflexivity|]. apply rows_scale.
    + rewrite <- map_app, <- Spl in ND. split; auto. split; auto. split; auto. exists u, mm. auto.
    + fold inc. eapply F2_impl; [|exact F]. intros kc rows (L & V). split; [exact L|]. intros idx g j p Sh G _. eapply V; eauto.
Qed.
