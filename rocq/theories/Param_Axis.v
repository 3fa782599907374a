(** Models with one parameter per bin of some axes. *)
From Coq Require Import Reals List Arith ZArith Bool String Lia Lra.
From Verif Require Import RBase PyList PyDict ListUtil Shape Writer_Model Yields_Model Init_Model Param_Model Param_Spec Param_Comp Param_Mix.
Import ListNotations.
Open Scope R_scope.

(** *** rows of the channels *)
Lemma nth_error_concat (kcs : list (string * chan)) rs : Forall2 (fun kc (rows : list (nat -> R)) => List.length rows = prodn (shape_of (snd kc))) kcs rs ->
  forall start pre, laid_out start kcs -> List.length pre = start -> forall k c rows j, In ((k, c), rows) (combine kcs rs) ->
  (j < prodn (shape_of c))%nat -> nth_error (pre ++ List.concat rs) (cn_start c + j) = nth_error rows j.
Proof.
  intros H. induction H as [|[k0 c0] r0 kcs rs L0 H IH]; intros start pre Lay Lp k c rows j I J; [destruct I|].
  cbn [laid_out snd] in *. destruct Lay as (St & Lay). cbn [List.concat]. destruct I as [E|I].
  - injection E as -> -> ->. rewrite nth_error_app2 by lia. replace (_ + _ - _)%nat with j by lia. apply nth_error_app1. lia.
  - rewrite app_assoc. eapply IH; eauto. rewrite app_length. lia.
Qed.
Lemma concat_total kcs rs : Forall2 (fun kc (rows : list (nat -> R)) => List.length rows = prodn (shape_of (snd kc))) kcs rs -> List.length (List.concat rs) = total kcs.
Proof. intros H. induction H; auto. cbn [List.concat]. rewrite app_length. unfold total in *. cbn [map]. rewrite sumn_cons. lia. Qed.
Lemma laid_out_app u m : forall s, laid_out s (u ++ m) -> laid_out s u.
Proof. induction u as [|[k c] u IH]; intros s; simpl; auto. intros (A & B). split; auto. Qed.
Lemma included_layout d full : layout d ->
  let inc := filter (fun nc : string * chan => included full (snd nc)) (pd_channels d) in
  laid_out 0 inc /\ total inc = nrows d full /\ (forall k c, In (k, c) inc <-> In (k, c) (pd_channels d) /\ (full = true \/ cn_masked c = false)) /\ NoDup (map fst inc).
Proof.
  intros (ND & Lay & Tot & u & m & E & U & M & TU) inc.
  assert (I : forall k c, In (k, c) inc <-> In (k, c) (pd_channels d) /\ (full = true \/ cn_masked c = false)).
  { intros k c. unfold inc. rewrite filter_In. cbn [snd]. unfold included. split; intros (A & B); (split; [exact A|]).
    - apply orb_true_iff in B as [B|B]; auto. right. destruct (cn_masked c); auto.
    - apply orb_true_iff. destruct B as [->| ->]; auto. }
  assert (NI : NoDup (map fst inc)).
  { clear -ND. unfold inc. revert ND. induction (pd_channels d) as [|[k c] l IH]; intros ND; [constructor|]. cbn [map fst] in ND. inversion ND; subst. cbn [filter].
    destruct (included full (snd (k, c))); auto. cbn [map fst]. constructor; auto. intros I. apply H1. apply in_map_iff in I as (x & E & I). apply filter_In in I as (I & _). rewrite <- E. apply in_map. auto. }
  split; [|split; [|split]]; auto.
  - unfold inc. destruct full; [rewrite filter_true; auto|]. rewrite E in *. rewrite filter_app, (filter_true _ u), (filter_false _ m), app_nil_r; [eapply laid_out_app; eauto| |].
    + intros [k c] J. rewrite Forall_forall in M. apply M in J. cbn [snd] in *. unfold included. rewrite J. auto.
    + intros [k c] J. rewrite Forall_forall in U. apply U in J. cbn [snd] in *. unfold included. rewrite J. auto.
  - unfold inc. destruct full; [rewrite filter_true; auto|]. rewrite E in *. rewrite filter_app, (filter_true _ u), (filter_false _ m), app_nil_r; auto.
    + intros [k c] J. rewrite Forall_forall in M. apply M in J. cbn [snd] in *. unfold included. rewrite J. auto.
    + intros [k c] J. rewrite Forall_forall in U. apply U in J. cbn [snd] in *. unfold included. rewrite J. auto.
Qed.
Lemma Forall2_combine_In {A B} (P : A -> B -> Prop) l m : Forall2 P l m -> forall a, In a l -> exists b, In (a, b) (combine l m) /\ P a b.
Proof. intros H. induction H; intros a I; [destruct I|]. destruct I as [->|I]; [exists y; simpl; auto|]. destruct (IHForall2 a I) as (b & J & K). exists b. simpl. auto. Qed.
Lemma rn_bins_at n f b p : (b < n)%nat -> rn_bcast (RBins n f) b p = f b p.
Proof. intros H. cbn [rn_bcast]. destruct (Nat.eqb_spec n 1) as [->|]; auto. replace b with 0%nat by lia. auto. Qed.
(** collecting one list of rows per channel *)
Lemma rows_scale d full (f : string -> chan -> list nat -> string -> R) rs : layout d ->
  let inc := filter (fun nc : string * chan => included full (snd nc)) (pd_channels d) in
  Forall2 (fun kc rows => List.length rows = prodn (shape_of (snd kc)) /\ forall idx g j p, in_shape (shape_of (snd kc)) idx ->
      nth_error rows (ravel (shape_of (snd kc)) idx) = Some g -> nth_error (pd_procs d) j = Some p -> g j = f (fst kc) (snd kc) idx p) inc rs ->
  scales d full (RBins (List.length (List.concat rs)) (fun b p => nth b (List.concat rs) (fun _ => 0) p)) f.
Proof.
  intros Lay inc H. destruct (included_layout d full Lay) as (LO & Tot & Inc & ND). fold inc in LO, Tot, Inc, ND.
  assert (H1 : Forall2 (fun kc (rows : list (nat -> R)) => List.length rows = prodn (shape_of (snd kc))) inc rs) by (clear -H; induction H; constructor; tauto).
  pose proof (concat_total _ _ H1) as CT. split.
  - cbn [rn_fits]. rewrite CT, Tot, Nat.eqb_refl. auto.
  - intros k c idx j p I Fl Sh P. assert (J : In (k, c) inc) by (apply Inc; auto).
    destruct (Forall2_combine_In _ _ _ H _ J) as (rows & K & L & V). cbn [fst snd] in *. pose proof (ravel_lt _ _ Sh) as Rl.
    assert (E : nth_error (List.concat rs) (cn_start c + ravel (shape_of c) idx) = nth_error rows (ravel (shape_of c) idx)).
    { apply (nth_error_concat inc rs H1 0%nat [] LO eq_refl k c rows _ K Rl). }
    destruct (nth_error rows (ravel (shape_of c) idx)) as [g|] eqn:G; [|apply nth_error_None in G; lia].
    rewrite rn_bins_at by (apply nth_error_Some; congruence). rewrite (nth_error_nth _ _ _ E). apply (V idx g j p); auto.
Qed.
(** *** one row *)
Lemma scaled_row_from pidx scal p : NoDup pidx -> forall k acc,
  fold_left (fun acc ip => acc + (scal (fst ip) - 1) * (if Nat.eqb p (snd ip) then 1 else 0)) (combine (seq k (List.length pidx)) pidx) acc =
  acc + match find (fun ip => Nat.eqb p (snd ip)) (combine (seq k (List.length pidx)) pidx) with Some ip => scal (fst ip) - 1 | None => 0 end.
Proof.
  induction pidx as [|q pidx IH]; intros ND k acc; cbn [List.length seq combine fold_left find]; [ring|]. inversion ND; subst. cbn [fst snd]. rewrite IH by auto.
  destruct (Nat.eqb_spec p q) as [->|N]; [|ring].
  replace (find (fun ip => Nat.eqb q (snd ip)) (combine (seq (S k) (List.length pidx)) pidx)) with (@None (nat * nat)); [cbn [fst]; ring|].
  symmetry. destruct (find _ _) as [[i q']|] eqn:F; auto. apply find_some in F as (I & E). cbn [snd] in E. apply Nat.eqb_eq in E. subst q'.
  apply in_combine_r in I. tauto.
Qed.
Lemma scaled_row_hit pidx scal i p : NoDup pidx -> nth_error pidx i = Some p -> scaled_row pidx scal p = scal i.
Proof.
  intros ND E. unfold scaled_row. rewrite scaled_row_from by auto.
  destruct (find (fun ip => Nat.eqb p (snd ip)) (combine (seq 0 (List.length pidx)) pidx)) as [[k q]|] eqn:F.
  - apply find_some in F as (I & Q). cbn [snd fst] in *. apply Nat.eqb_eq in Q. subst q. apply In_nth_error in I as (m & M).
    assert (M1 : nth_error (seq 0 (List.length pidx)) m = Some k /\ nth_error pidx m = Some p).
    { clear -M. revert M. generalize (seq 0 (List.length pidx)). revert m. induction pidx; intros [|m] [|s l] M; simpl in *; try discriminate; [injection M as <- <-; auto|apply IHpidx; auto]. }
    destruct M1 as (M1 & M2). rewrite (NoDup_nth _ _ _ _ ND M2 E) in M1. rewrite nth_error_seq' in M1 by (apply nth_error_Some; congruence). injection M1 as <-. ring_simplify. auto.
  - exfalso. assert (L : (i < List.length pidx)%nat) by (apply nth_error_Some; congruence).
    assert (I : In (i, p) (combine (seq 0 (List.length pidx)) pidx)).
    { apply nth_error_In with i. apply nth_error_combine; auto. rewrite nth_error_seq' by auto. auto. }
    pose proof (find_none _ _ F _ I) as X. cbn [snd] in X. rewrite Nat.eqb_refl in X. discriminate.
Qed.
Lemma scaled_row_miss pidx scal p : NoDup pidx -> ~ In p pidx -> scaled_row pidx scal p = 1.
Proof.
  intros ND N. unfold scaled_row. rewrite scaled_row_from by auto.
  destruct (find (fun ip => Nat.eqb p (snd ip)) (combine (seq 0 (List.length pidx)) pidx)) as [[k q]|] eqn:F; [|ring].
  apply find_some in F as (I & Q). cbn [snd] in *. apply Nat.eqb_eq in Q. subst q. apply in_combine_r in I. tauto.
Qed.
Lemma proc_idx_spec d p j : NoDup (pd_procs d) -> nth_error (pd_procs d) j = Some p -> proc_idx d p = j.
Proof.
  intros ND E. unfold proc_idx. destruct (index_of_In p (pd_procs d)) as (i & I); [eapply nth_error_In; eauto|]. rewrite I. apply index_of_Some in I. eapply NoDup_nth; eauto.
Qed.
Lemma proc_idx_at d p : In p (pd_procs d) -> nth_error (pd_procs d) (proc_idx d p) = Some p.
Proof. intros I. unfold proc_idx. destruct (index_of_In p (pd_procs d) I) as (i & E). rewrite E. apply index_of_Some. auto. Qed.
Lemma proc_idxs_NoDup d procs : NoDup procs -> (forall p, In p procs -> In p (pd_procs d)) -> NoDup (map (proc_idx d) procs).
Proof.
  intros ND H. induction ND as [|p l N ND IH]; [constructor|]. cbn [map]. constructor; [|apply IH; intros; apply H; simpl; auto].
  intros I. apply in_map_iff in I as (q & E & Q). assert (nth_error (pd_procs d) (proc_idx d p) = Some p) by (apply proc_idx_at, H; simpl; auto).
  rewrite <- E in H0. rewrite proc_idx_at in H0 by (apply H; simpl; auto). injection H0 as ->. auto.
Qed.
Lemma target_ok d spec procs : target_procs d spec = Ok procs -> procs = (match spec with None => pd_procs d | Some l => l end) /\ forall p, In p procs -> In p (pd_procs d).
Proof.
  unfold target_procs. destruct spec as [l|].
  - destruct (forallb (fun p => smem p (pd_procs d)) l) eqn:F; [|discriminate]. intros E. injection E as <-. split; auto. intros p I. rewrite forallb_forall in F. apply smem_In. auto.
  - intros E. injection E as <-. auto.
Qed.
(** *** the scale factors of a per-bin model *)
Lemma per_bin_scales {V} d channel procs (v : nat -> result V) (scal : V -> list nat -> R) (g : string -> list nat -> R) c full :
  layout d -> NoDup (pd_procs d) -> NoDup procs -> (forall p, In p procs -> In p (pd_procs d)) -> dget channel (pd_channels d) = Some c ->
  (forall i p, nth_error procs i = Some p -> exists w, v i = Ok w /\ forall idx, in_shape (shape_of c) idx -> scal w idx = g p idx) ->
  exists r, per_bin_compute d channel (map (proc_idx d) procs) v scal full = Ok r /\
    scales d full r (fun k c' idx p => if String.eqb k channel && smem p procs then g p idx else 1).
Proof.
  intros Lay ND NP Hp Ec Hv.
  assert (HV : exists vs, rmap v (seq 0 (List.length (map (proc_idx d) procs))) = Ok vs /\ forall i p, nth_error procs i = Some p -> exists w, nth_error vs i = Some w /\ v i = Ok w).
  { rewrite map_length.
    assert (G : forall s n, (forall i, (s <= i < s + n)%nat -> exists w, v i = Ok w) -> exists vs, rmap v (seq s n) = Ok vs /\ forall i, (i < n)%nat -> exists w, nth_error vs i = Some w /\ v (s + i)%nat = Ok w).
    { intros s n. revert s. induction n as [|n IH]; intros s Hw; [exists []; split; auto; intros; lia|]. cbn [seq rmap]. destruct (Hw s ltac:(lia)) as (w & Ew). rewrite Ew. cbn [rbind].
      destruct (IH (S s)) as (vs & -> & P); [intros; apply Hw; lia|]. cbn [rbind]. exists (w :: vs). split; auto. intros [|i] I; [exists w; rewrite Nat.add_0_r; auto|].
      destruct (P i ltac:(lia)) as (w' & A & B). exists w'. split; auto. rewrite <- B. f_equal. lia. }
    destruct (G 0%nat (List.length procs)) as (vs & E & P).
    - intros i I. destruct (nth_error procs i) as [p|] eqn:Ei; [|apply nth_error_None in Ei; lia]. destruct (Hv i p Ei) as (w & W & _). eauto.
    - exists vs. split; auto. intros i p Ei. destruct (P i) as (w & A & B); [apply nth_error_Some; congruence|]. eauto. }
  destruct HV as (vs & Ev & Hvs). unfold per_bin_compute, all_rows.
  set (F := fun k c' => if String.eqb k channel then vs0 <- rmap v (seq 0 (List.length (map (proc_idx d) procs))) ;;
      Ok (map (fun idx => scaled_row (map (proc_idx d) procs) (fun i => match nth_error vs0 i with Some w => scal w idx | None => 1 end)) (all_idx (sizes (cn_axes c')))) else Ok (unit_rows c')).
  assert (R : exists rs, rmap (fun nc => F (fst nc) (snd nc)) (filter (fun nc : string * chan => included full (snd nc)) (pd_channels d)) = Ok rs).
  { generalize (filter (fun nc : string * chan => included full (snd nc)) (pd_channels d)). intros l. induction l as [|[k c'] l (rs & IH)]; [exists []; auto|]. cbn [rmap fst snd]. unfold F at 1.
    destruct (String.eqb k channel); [rewrite Ev|]; cbn [rbind]; rewrite IH; cbn [rbind]; eauto. }
  destruct R as (rs & R). match goal with |- context [rmap ?f (filter ?g ?l)] => change (rmap f (filter g l)) with (rmap (fun nc => F (fst nc) (snd nc)) (filter g l)) end. rewrite R. cbn [rbind]. eexists. split; [reflexivity|]. apply rows_scale; auto. apply rmap_ok in R.
  assert (Sub : forall kc, In kc (filter (fun nc : string * chan => included full (snd nc)) (pd_channels d)) -> In kc (pd_channels d)) by (intros kc I; apply filter_In in I; tauto).
  revert R Sub. generalize (filter (fun nc : string * chan => included full (snd nc)) (pd_channels d)). intros l R Sub.
  induction R as [|[k c'] rows l rs E R IH]; constructor; [|apply IH; intros; apply Sub; simpl; auto]. cbn [fst snd] in *. unfold F in E.
  destruct (String.eqb_spec k channel) as [->|N].
  - rewrite Ev in E. cbn [rbind] in E. injection E as <-.
    assert (c' = c). { assert (I : In (channel, c') (pd_channels d)) by (apply Sub; simpl; auto). apply In_dget in I; [congruence|]. destruct Lay as (A & _). auto. } subst c'.
    split; [rewrite map_length, all_idx_len; auto|]. intros idx q j p Sh Q Pj. cbn [andb].
    rewrite nth_error_map' in Q. change (sizes (cn_axes c)) with (shape_of c) in Q. rewrite all_idx_nth in Q by auto. cbn [option_map] in Q. injection Q as <-.
    destruct (smem p procs) eqn:M.
    + apply smem_In in M. apply In_nth_error in M as (i & Ei). destruct (Hvs i p Ei) as (w & W & Wv). destruct (Hv i p Ei) as (w' & W' & Sc). rewrite Wv in W'. injection W' as <-.
      rewrite (scaled_row_hit _ _ i).
      * rewrite W. apply Sc. auto.
      * apply proc_idxs_NoDup; auto.
      * rewrite nth_error_map', Ei. cbn [option_map]. f_equal. apply proc_idx_spec; auto.
    + apply scaled_row_miss; [apply proc_idxs_NoDup; auto|]. intros I. apply in_map_iff in I as (p' & E' & I'). apply not_true_iff_false in M. apply M. apply smem_In.
      assert (X : nth_error (pd_procs d) (proc_idx d p') = Some p') by (apply proc_idx_at; auto). rewrite E', Pj in X. injection X as ->. auto.
  - injection E as <-. unfold unit_rows. split; [rewrite map_length, all_idx_len; auto|]. intros idx q j p Sh Q Pj. cbn [andb].
    rewrite nth_error_map' in Q. change (sizes (cn_axes c')) with (shape_of c') in Q. rewrite all_idx_nth in Q by auto. cbn [option_map] in Q. injection Q as <-. auto.
Qed.


(** *** kept axes *)
Definition kept (axes : list axis) (names : list string) : list axis := filter (fun a => smem (ax_name a) names) axes.
Definition kept_cell (axes : list axis) (names : list string) (idx : list nat) : list nat :=
  map snd (filter (fun ai : axis * nat => smem (ax_name (fst ai)) names) (combine axes idx)).
Lemma kept_prod axes names : prodn (kept_shape axes names) = prodn (sizes (kept axes names)).
Proof.
  induction axes as [|a axes IH]; auto. unfold kept_shape, kept, sizes in *. cbn [map filter]. destruct (smem (ax_name a) names); cbn [map]; rewrite !prodn_cons, IH; auto. lia.
Qed.
Lemma kept_ravel axes names idx : in_shape (sizes axes) idx ->
  ravel (kept_shape axes names) (bidx (kept_shape axes names) idx) = ravel (sizes (kept axes names)) (kept_cell axes names idx) /\
  in_shape (sizes (kept axes names)) (kept_cell axes names idx).
Proof.
  revert idx. induction axes as [|a axes IH]; intros idx H; unfold sizes in *; cbn [map] in H; inversion H as [|n i sh is L H' E1 E2]; subst; [split; [auto|constructor]|].
  destruct (IH is H') as (E & I). unfold kept_shape, kept, kept_cell, bidx in *. cbn [map combine filter fst snd]. destruct (smem (ax_name a) names) eqn:M; cbn [map combine ravel snd fst].
  - split; [|constructor; auto]. rewrite E. f_equal. pose proof (kept_prod axes names) as K. unfold kept_shape, kept, sizes in K. setoid_rewrite K.
    destruct (Nat.eqb_spec (ax_size a) 1); auto. f_equal. lia.
  - split; auto.
Qed.
Lemma subseq_map_inv {A B} (f : A -> B) (s : list B) l : subseq s (map f l) -> exists l', subseq l' l /\ s = map f l'.
Proof.
  revert s. induction l as [|a l IH]; intros s H; cbn [map] in H.
  - inversion H; subst. exists []. split; [constructor|auto].
  - inversion H as [|x a' b S|x a' b S]; subst.
    + exists []. split; [constructor|auto].
    + destruct (IH _ S) as (l' & P & ->). exists (a :: l'). split; [constructor; auto|auto].
    + destruct (IH _ S) as (l' & P & ->). exists l'. split; [constructor; auto|auto].
Qed.
Lemma filter_names (f : string -> bool) axes : map ax_name (filter (fun a => f (ax_name a)) axes) = filter f (map ax_name axes).
Proof. induction axes; auto. cbn [map filter]. destruct (f (ax_name a)); cbn [map]; rewrite IHaxes; auto. Qed.
Lemma kept_names axes names : NoDup (map ax_name axes) -> subseq names (map ax_name axes) -> map ax_name (kept axes names) = names.
Proof.
  intros ND S. rewrite <- (subseq_filter names (map ax_name axes) S ND) at 2. unfold kept. exact (filter_names (fun s => smem s names) axes).
Qed.
Lemma find_axis_In axes a : NoDup (map ax_name axes) -> In a axes -> find_axis (ax_name a) axes = Some a.
Proof.
  unfold find_axis. induction axes as [|b axes IH]; intros ND I; [destruct I|]. cbn [map] in ND. inversion ND; subst. cbn [find].
  destruct I as [->|I]; [rewrite String.eqb_refl; auto|]. destruct (String.eqb_spec (ax_name b) (ax_name a)) as [E|]; [|auto].
  exfalso. apply H1. rewrite E. apply in_map. auto.
Qed.
Lemma get_axes_kept axes names sel : NoDup (map ax_name axes) -> subseq names (map ax_name axes) -> rmap (get_axis axes) names = Ok sel -> sel = kept axes names.
Proof.
  intros ND S. rewrite <- (kept_names axes names ND S) at 1.
  assert (G : forall l, (forall a, In a l -> In a axes) -> rmap (get_axis axes) (map ax_name l) = Ok l).
  { induction l as [|a l IH]; intros H; auto. cbn [map rmap]. unfold get_axis at 1. rewrite (find_axis_In axes a ND) by (apply H; simpl; auto). cbn [rbind]. rewrite IH; auto. intros; apply H; simpl; auto. }
  rewrite G; [congruence|]. intros a I. apply filter_In in I. tauto.
Qed.
Lemma coord_kept axes names idx : NoDup (map ax_name axes) -> subseq names (map ax_name axes) -> List.length idx = List.length axes ->
  map (coord axes idx) names = kept_cell axes names idx.
Proof.
  intros ND S L. rewrite <- (kept_names axes names ND S) at 1. unfold kept, kept_cell. rewrite map_map. set (f := fun n => smem n names).
  assert (C : forall ai, In ai (combine axes idx) -> coord axes idx (ax_name (fst ai)) = snd ai).
  { intros ai I. unfold coord. clear -ND I. revert idx I. induction axes as [|b axes IH]; intros [|i idx] I; try destruct I. 
    - subst ai. cbn [combine find fst snd]. rewrite String.eqb_refl. auto.
    - cbn [map] in ND. inversion ND; subst. cbn [combine find fst]. destruct (String.eqb_spec (ax_name b) (ax_name (fst ai))) as [E|].
      + exfalso. apply H2. rewrite E. apply in_map. destruct ai. apply in_combine_l in H. auto.
      + apply IH; auto. }
  assert (G : forall la li, List.length li = List.length la -> (forall ai, In ai (combine la li) -> coord axes idx (ax_name (fst ai)) = snd ai) ->
    map (fun a => coord axes idx (ax_name a)) (filter (fun a => f (ax_name a)) la) = map snd (filter (fun ai : axis * nat => f (ax_name (fst ai))) (combine la li))).
  { induction la as [|a la IH]; intros [|i li] Li H; cbn in Li; try lia; auto. cbn [combine filter fst].
    assert (T : map (fun a => coord axes idx (ax_name a)) (filter (fun a => f (ax_name a)) la) = map snd (filter (fun ai : axis * nat => f (ax_name (fst ai))) (combine la li))).
    { apply IH; [lia|]. intros; apply H; simpl; auto. }
    destruct (f (ax_name a)); cbn [map snd]; rewrite T; auto. f_equal. apply (H (a, i)). simpl. auto. }
  apply (G axes idx); auto.
Qed.
(** *** parameters laid out per process *)
Lemma label_eq axes cell : bin_label axes cell = label (map ax_name axes) cell.
Proof. unfold bin_label, label, join_names. f_equal. revert cell. induction axes; intros [|i cell]; auto. cbn [map combine fst snd]. f_equal. auto. Qed.
Lemma pyslice_block {A B} (f : A -> list B) n l i a : (forall a, In a l -> List.length (f a) = n) -> nth_error l i = Some a ->
  forall o k, (o + k <= n)%nat -> pyslice (i * n + o) (i * n + o + k) (flat_map f l) = pyslice o (o + k) (f a).
Proof.
  intros H E. revert i E. induction l as [|b l IH]; intros [|i] E o k O; simpl in E; try discriminate.
  - injection E as ->. cbn [flat_map Nat.mul Nat.add]. unfold pyslice. rewrite skipn_app, firstn_app.
    rewrite skipn_length, H by (simpl; auto). replace (o + k - o - (n - o))%nat with 0%nat by lia. cbn [firstn]. apply app_nil_r.
  - cbn [flat_map]. unfold pyslice. rewrite skipn_app, H by (simpl; auto). rewrite skipn_all2 by (rewrite H by (simpl; auto); lia). cbn [app].
    etransitivity; [|exact (IH (fun a I => H a (or_intror I)) i E o k O)]. unfold pyslice. f_equal; [lia|]. f_equal. lia.
Qed.
(** values by name: the block of process p, evaluated at a bin *)
Lemma block_reshape {A} (h : A -> R) (l : list nat -> A) axes names :
  reshape (map h (map l (all_idx (sizes (kept axes names))))) (kept_shape axes names) = Ok (map h (map l (all_idx (sizes (kept axes names))))).
Proof. unfold reshape. rewrite !map_length, all_idx_len, kept_prod, Nat.eqb_refl. auto. Qed.
Lemma block_at {A} (h : A -> R) (l : list nat -> A) axes names idx : NoDup (map ax_name axes) -> subseq names (map ax_name axes) ->
  in_shape (sizes axes) idx -> bcast_at (map h (map l (all_idx (sizes (kept axes names))))) (kept_shape axes names) idx = h (l (map (coord axes idx) names)).
Proof.
  intros ND S Sh. unfold bcast_at. destruct (kept_ravel axes names idx Sh) as (-> & I). rewrite coord_kept by (auto; rewrite (in_shape_len _ _ Sh); unfold sizes; rewrite map_length; auto).
  erewrite nth_error_nth; [reflexivity|]. rewrite !nth_error_map', all_idx_nth by auto. reflexivity.
Qed.
Lemma pyslice_map {A B} (f : A -> B) a b l : pyslice a b (map f l) = map f (pyslice a b l).
Proof. unfold pyslice. rewrite skipn_map, firstn_map. auto. Qed.
Lemma pyslice_full {A} (l : list A) n : List.length l = n -> pyslice 0 n l = l.
Proof. intros <-. unfold pyslice. rewrite Nat.sub_0_r. apply firstn_all. Qed.
Lemma poly_names_len pre p axes : List.length (poly_names pre p axes) = prodn (sizes axes).
Proof. unfold poly_names. rewrite map_length, all_idx_len. auto. Qed.
Lemma norm_names_poly procs axes : norm_names procs axes = flat_map (fun p => poly_names "norm" p axes) procs.
Proof. reflexivity. Qed.
(** the names of a block, by label *)
Lemma poly_values (env : string -> R) pre p axes : map env (poly_names pre p axes) = map (fun cell => env (pre ++ "_" ++ p ++ "_" ++ label (map ax_name axes) cell)%string) (all_idx (sizes axes)).
Proof. unfold poly_names. rewrite map_map. apply map_ext. intros cell. rewrite label_eq. auto. Qed.
Lemma block_whole {A B} (f : A -> list B) n l i a : (forall a, In a l -> List.length (f a) = n) -> nth_error l i = Some a -> pyslice (i * n) ((i + 1) * n) (flat_map f l) = f a.
Proof.
  intros H E. pose proof (pyslice_block f n l i a H E 0%nat n ltac:(lia)) as P. rewrite Nat.add_0_r in P. replace ((i + 1) * n)%nat with (i * n + n)%nat by lia. rewrite P.
  apply pyslice_full. apply H. eapply nth_error_In; eauto.
Qed.
Lemma block_two {A B} (f g : A -> list B) n k l i a : (forall a, List.length (f a) = n) -> (forall a, List.length (g a) = k) -> nth_error l i = Some a ->
  pyslice (i * (n + k)) (i * (n + k) + n) (flat_map (fun a => f a ++ g a) l) = f a /\
  pyslice (i * (n + k) + n) ((i + 1) * (n + k)) (flat_map (fun a => f a ++ g a) l) = g a.
Proof.
  intros Hf Hg E. assert (H : forall a, In a l -> List.length (f a ++ g a) = (n + k)%nat) by (intros; rewrite app_length, Hf, Hg; auto).
  pose proof (pyslice_block (fun a => f a ++ g a) (n + k)%nat l i a H E) as P. split.
  - pose proof (P 0%nat n ltac:(lia)) as Q. rewrite Nat.add_0_r in Q. rewrite Q. unfold pyslice. cbn [Nat.add]. rewrite Nat.sub_0_r. cbn [skipn]. apply firstn_app_len. auto.
  - replace ((i + 1) * (n + k))%nat with (i * (n + k) + n + k)%nat by lia. rewrite (P n k ltac:(lia)). unfold pyslice. rewrite skipn_app_len by auto. replace (n + k - n)%nat with k by lia.
    rewrite <- (Hg a). apply firstn_all.
Qed.

(** *** AxisNormModel *)
Definition named (pre p : string) (names : list string) (axes : list axis) (idx : list nat) : string := (pre ++ "_" ++ p ++ "_" ++ label names (map (coord axes idx) names))%string.
Theorem axis_norm_spec d channel spec names e m c env full : axis_norm d channel spec names e = Ok m -> layout d -> NoDup (pd_procs d) ->
  dget channel (pd_channels d) = Some c -> named_axes c -> subseq names (map ax_name (cn_axes c)) ->
  let procs := match spec with None => pd_procs d | Some l => l end in NoDup procs ->
  exists r, m_compute m (map env (m_params m)) full = Ok r /\
    scales d full r (fun k _ idx p => if String.eqb k channel && smem p procs
                                      then env (named "norm" p names (cn_axes c) idx) * env (named "norm" p names (cn_axes c) idx) else 1).
Proof.
  intros H Lay ND Ec NA S procs NP. unfold axis_norm in H. rewrite Ec in H.
  destruct (rmap (get_axis (cn_axes c)) names) as [axes|] eqn:Ax; [|discriminate]. cbn [rbind] in H. pose proof (get_axes_kept _ _ _ NA S Ax) as Kx. 
  destruct (target_procs d spec) as [ps|] eqn:Tp; [|discriminate]. cbn [rbind] in H. apply target_ok in Tp as (Eps & Hp). fold procs in Eps. subst ps.
  destruct (set_defaults _ _ _) as [dft|]; [|discriminate]. cbn [rbind] in H. injection H as <-. unfold simple_model. cbn [m_params m_compute].
  apply (per_bin_scales d channel procs _ _ (fun p idx => env (named "norm" p names (cn_axes c) idx) * env (named "norm" p names (cn_axes c) idx)) c full); auto.
  intros i p Ei. rewrite norm_names_poly, pyslice_map, (block_whole _ _ _ _ _ (fun q _ => poly_names_len "norm" q axes) Ei), poly_values. subst axes.
  rewrite block_reshape. eexists. split; [reflexivity|]. intros idx Sh. rewrite block_at by auto. unfold named. rewrite kept_names by auto. reflexivity.
Qed.

(** *** AxisExpModel, AxisBernsteinModel *)
(** position of a bin between the first and the last centre *)
Definition unit_pos (a : axis) (i : nat) : R := (nth i (ax_centers a) 0 - nth 0 (ax_centers a) 0) / Rmax (nth (ax_size a - 1) (ax_centers a) 0 - nth 0 (ax_centers a) 0) (/ 1000000).
Definition axis_named (c : chan) (n : string) : axis := match find_axis n (cn_axes c) with Some a => a | None => mkAxis n 0 [] [] end.
Lemma last_nth {A} (l : list A) d : last l d = nth (List.length l - 1) l d.
Proof.
  induction l as [|a l IH]; auto. destruct l as [|b l]; auto. cbn [last]. etransitivity; [exact IH|].
  cbn [List.length]. rewrite !Nat.sub_succ, !Nat.sub_0_r. reflexivity.
Qed.
Lemma norm_centers_at a i : List.length (ax_centers a) = ax_size a -> (i < ax_size a)%nat -> nth i (norm_centers a) 0 = unit_pos a i.
Proof.
  intros L I. unfold norm_centers, unit_pos. rewrite last_nth, L. erewrite nth_error_nth; [reflexivity|]. rewrite nth_error_map'.
  rewrite (nth_error_nth' _ 0) by lia. cbn [option_map]. destruct (ax_centers a); auto.
Qed.
Lemma find_axis_name n axes a : find_axis n axes = Some a -> ax_name a = n /\ In a axes.
Proof. unfold find_axis. intros H. apply find_some in H as (I & E). apply String.eqb_eq in E. auto. Qed.
Lemma kept_one axes a : NoDup (map ax_name axes) -> In a axes -> kept axes [ax_name a] = [a].
Proof.
  unfold kept. induction axes as [|b axes IH]; intros ND I; [destruct I|]. cbn [map] in ND. inversion ND; subst. cbn [filter]. destruct I as [->|I].
  - replace (smem (ax_name a) [ax_name a]) with true by (symmetry; apply smem_In; simpl; auto). f_equal. apply filter_false. intros b I. apply not_true_iff_false. intros X.
    apply smem_In in X. destruct X as [X|[]]. apply H1. rewrite X. apply in_map. auto.
  - replace (smem (ax_name b) [ax_name a]) with false; auto. symmetry. apply not_true_iff_false. intros X. apply smem_In in X. destruct X as [X|[]]. apply H1. rewrite <- X. apply in_map. auto.
Qed.
Lemma subseq_one {A} (x : A) l : In x l -> subseq [x] l.
Proof. induction l; intros I; [destruct I|]. destruct I as [->|I]; [repeat constructor|constructor; auto]. Qed.
Lemma centers_block axes a idx : NoDup (map ax_name axes) -> In a axes -> List.length (ax_centers a) = ax_size a ->
  reshape (norm_centers a) (kept_shape axes [ax_name a]) = Ok (norm_centers a) /\
  (in_shape (sizes axes) idx -> bcast_at (norm_centers a) (kept_shape axes [ax_name a]) idx = unit_pos a (coord axes idx (ax_name a))).
Proof.
  intros ND I L. assert (LN : List.length (norm_centers a) = ax_size a) by (unfold norm_centers; rewrite map_length; auto).
  unfold reshape. rewrite kept_prod, (kept_one _ _ ND I). unfold sizes at 1. cbn [map]. rewrite prodn_cons. change (prodn []) with 1%nat. rewrite Nat.mul_1_r, LN, Nat.eqb_refl. split; auto.
  intros Sh. unfold bcast_at. destruct (kept_ravel axes [ax_name a] idx Sh) as (-> & K). rewrite <- coord_kept in * by (auto; try (apply subseq_one, in_map; auto); rewrite (in_shape_len _ _ Sh); unfold sizes; rewrite map_length; auto).
  rewrite (kept_one _ _ ND I) in *. unfold sizes in *. cbn [map ravel] in *. change (prodn []) with 1%nat. rewrite Nat.mul_1_r, Nat.add_0_r. apply norm_centers_at; auto. inversion K; auto.
Qed.
Lemma shape_axis_inv axes sn cells sa ca : shape_axis_ok axes sn cells = Ok (sa, ca) -> find_axis sn axes = Some sa /\ rmap (get_axis axes) cells = Ok ca /\ ~ In sn cells.
Proof.
  unfold shape_axis_ok, get_axis at 1. destruct (find_axis sn axes) as [a|]; [|discriminate]. cbn [rbind].
  destruct (rmap _ cells) as [l|] eqn:E; [|discriminate]. cbn [rbind]. intros X. injection X as <- <-. split; auto.
  revert l E. induction cells as [|n cells IH]; intros l E; cbn [rmap] in *; [injection E as <-; auto|].
  destruct (get_axis axes n) as [b|]; [|discriminate]. cbn [rbind] in *. destruct (String.eqb_spec n sn) as [|N]; [discriminate|]. cbn [rbind] in E.
  destruct (rmap (fun n0 => a0 <- get_axis axes n0;; (if String.eqb n0 sn then Raise ValueError else Ok a0)) cells) as [l'|]; [|discriminate]. cbn [rbind] in E. injection E as <-.
  destruct (IH l' eq_refl) as (-> & NI). split; auto. intros [X|X]; auto.
Qed.
Lemma map_id_R (l : list R) : map (fun x => x) l = l.
Proof. apply map_id. Qed.
Theorem axis_exp_spec d channel spec sn cells slopes m c env full : axis_exp d channel spec sn cells slopes = Ok m -> layout d -> NoDup (pd_procs d) ->
  dget channel (pd_channels d) = Some c -> named_axes c -> subseq cells (map ax_name (cn_axes c)) ->
  let sl := match slopes with None => cells | Some l => l end in subseq sl (map ax_name (cn_axes c)) ->
  List.length (ax_centers (axis_named c sn)) = ax_size (axis_named c sn) ->
  let procs := match spec with None => pd_procs d | Some l => l end in NoDup procs ->
  exists r, m_compute m (map env (m_params m)) full = Ok r /\
    scales d full r (fun k _ idx p => if String.eqb k channel && smem p procs
      then exp (env (named "lnAmpl" p cells (cn_axes c) idx) + env (named "slope" p sl (cn_axes c) idx) * unit_pos (axis_named c sn) (coord (cn_axes c) idx sn)) else 1).
Proof.
  intros H Lay ND Ec NA S sl Ssl Lc procs NP. unfold axis_exp in H. rewrite Ec in H.
  destruct (shape_axis_ok (cn_axes c) sn cells) as [[sa ca]|] eqn:Sa; [|discriminate]. cbn [rbind] in H. apply shape_axis_inv in Sa as (Fa & Ax & _).
  fold sl in H. destruct (negb (forallb (fun n => smem n cells) sl)); [discriminate|].
  destruct (rmap (get_axis (cn_axes c)) sl) as [la|] eqn:As; [|discriminate]. cbn [rbind] in H.
  pose proof (get_axes_kept _ _ _ NA S Ax) as Kx. pose proof (get_axes_kept _ _ _ NA Ssl As) as Ks.
  destruct (target_procs d spec) as [ps|] eqn:Tp; [|discriminate]. cbn [rbind fst snd] in H. apply target_ok in Tp as (Eps & Hp). fold procs in Eps. subst ps.
  injection H as <-. unfold simple_model. cbn [m_params m_compute]. unfold axis_named in *. rewrite Fa in *. apply find_axis_name in Fa as (Na & Ia).
  apply (per_bin_scales d channel procs _ _ (fun p idx => exp (env (named "lnAmpl" p cells (cn_axes c) idx) + env (named "slope" p sl (cn_axes c) idx) * unit_pos sa (coord (cn_axes c) idx sn))) c full); auto.
  intros i p Ei.
  destruct (block_two (fun p => poly_names "lnAmpl" p ca) (fun p => poly_names "slope" p la) _ _ procs i p (fun q => poly_names_len _ q ca) (fun q => poly_names_len _ q la) Ei) as (B1 & B2).
  rewrite !pyslice_map, B1, B2, !poly_values. rewrite <- (map_id_R (map (fun cell => env ("lnAmpl" ++ "_" ++ p ++ "_" ++ label (map ax_name ca) cell)%string) _)).
  rewrite <- (map_id_R (map (fun cell => env ("slope" ++ "_" ++ p ++ "_" ++ label (map ax_name la) cell)%string) _)). subst ca la. rewrite !block_reshape. cbn [rbind].
  rewrite <- Na. destruct (centers_block (cn_axes c) sa [] NA Ia Lc) as (-> & _). cbn [rbind]. eexists. split; [reflexivity|]. intros idx Sh. cbn beta iota.
  rewrite !block_at by auto. destruct (centers_block (cn_axes c) sa idx NA Ia Lc) as (_ & C). rewrite C by auto. unfold named. rewrite !kept_names by auto. reflexivity.
Qed.
Theorem axis_bernstein_spec d channel spec sn cells e m c env full : axis_bernstein d channel spec sn cells e = Ok m -> layout d -> NoDup (pd_procs d) ->
  dget channel (pd_channels d) = Some c -> named_axes c -> subseq cells (map ax_name (cn_axes c)) ->
  List.length (ax_centers (axis_named c sn)) = ax_size (axis_named c sn) ->
  let procs := match spec with None => pd_procs d | Some l => l end in NoDup procs ->
  exists r, m_compute m (map env (m_params m)) full = Ok r /\
    scales d full r (fun k _ idx p => if String.eqb k channel && smem p procs
      then let u := unit_pos (axis_named c sn) (coord (cn_axes c) idx sn) in
           ln (1 + exp (env (named "c0" p cells (cn_axes c) idx))) * (1 - u) + ln (1 + exp (env (named "c1" p cells (cn_axes c) idx))) * u else 1).
Proof.
  intros H Lay ND Ec NA S Lc procs NP. unfold axis_bernstein in H. rewrite Ec in H.
  destruct (shape_axis_ok (cn_axes c) sn cells) as [[sa ca]|] eqn:Sa; [|discriminate]. cbn [rbind] in H. apply shape_axis_inv in Sa as (Fa & Ax & _).
  pose proof (get_axes_kept _ _ _ NA S Ax) as Kx.
  destruct (target_procs d spec) as [ps|] eqn:Tp; [|discriminate]. cbn [rbind fst snd] in H. apply target_ok in Tp as (Eps & Hp). fold procs in Eps. subst ps.
  destruct e; [discriminate|]. injection H as <-. unfold simple_model. cbn [m_params m_compute]. unfold axis_named in *. rewrite Fa in *. apply find_axis_name in Fa as (Na & Ia).
  apply (per_bin_scales d channel procs _ _ (fun p idx => let u := unit_pos sa (coord (cn_axes c) idx sn) in ln (1 + exp (env (named "c0" p cells (cn_axes c) idx))) * (1 - u) + ln (1 + exp (env (named "c1" p cells (cn_axes c) idx))) * u) c full); auto.
  intros i p Ei.
  destruct (block_two (fun p => poly_names "c0" p ca) (fun p => poly_names "c1" p ca) _ _ procs i p (fun q => poly_names_len _ q ca) (fun q => poly_names_len _ q ca) Ei) as (B1 & B2).
  replace (i * 2 * prodn (sizes ca))%nat with (i * (prodn (sizes ca) + prodn (sizes ca)))%nat by lia. replace ((i + 1) * 2 * prodn (sizes ca))%nat with ((i + 1) * (prodn (sizes ca) + prodn (sizes ca)))%nat by lia.
  rewrite !pyslice_map, B1, B2, !poly_values. subst ca. rewrite !block_reshape. cbn [rbind].
  rewrite <- Na. destruct (centers_block (cn_axes c) sa [] NA Ia Lc) as (-> & _). cbn [rbind]. eexists. split; [reflexivity|]. intros idx Sh. cbn beta iota.
  rewrite !block_at by auto. destruct (centers_block (cn_axes c) sa idx NA Ia Lc) as (_ & C). rewrite C by auto. unfold named, softplus. rewrite !kept_names by auto. reflexivity.
Qed.
