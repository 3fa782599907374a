(** Proofs about the plots of covariance matrices. *)
From Coq Require Import Reals List Arith Bool String Ascii Lia Lra.
From Verif Require Session_Proof.
From Verif Require Import RBase PyList ListUtil Shape Hplot_Model Hplot_Spec Hplot_Proof Iplot_Model Iplot_Proof Cplot_Model Cplot_Spec.
Import ListNotations.
Local Open Scope nat_scope.

Lemma cells_idx sizes : cells sizes = all_idx sizes.
Proof. induction sizes as [|n r IH]; [reflexivity|]. cbn [cells all_idx]. rewrite IH. reflexivity. Qed.
Lemma size_prodn sizes : size sizes = prodn sizes.
Proof. induction sizes as [|n r IH]; [reflexivity|]. rewrite prodn_cons, <- IH. reflexivity. Qed.
Lemma bins_idx axes : bins_of axes = all_idx (map snd axes).
Proof. unfold bins_of. induction axes as [|a axes IH]; [reflexivity|]. cbn [map product all_idx]. rewrite IH. reflexivity. Qed.

(** arrays *)
Lemma get_build shape f i : in_shape shape i -> get (build shape f) i = f i.
Proof.
  intros H. unfold get, build. cbn [t_shape t_data]. apply nth_error_nth. rewrite nth_error_map', (all_idx_nth _ _ H). reflexivity.
Qed.
Lemma build_len shape f : List.length (t_data (build shape f)) = prodn shape.
Proof. unfold build. cbn. rewrite map_length. apply all_idx_len. Qed.
Lemma ravel_app a b u w : List.length u = List.length a -> ravel (a ++ b) (u ++ w) = ravel a u * prodn b + ravel b w.
Proof.
  revert u. induction a as [|n a IH]; intros [|x u] L; try discriminate; [reflexivity|]. cbn [app ravel]. rewrite IH by (cbn in L; lia). rewrite prodn_app. lia.
Qed.
Lemma get2 n m l x y : get (mkArr [n; m] l) [x; y] = nth (x * m + y) l 0%R.
Proof. unfold get. cbn [t_shape t_data ravel]. f_equal. change (prodn [m]) with (m * 1). change (prodn []) with 1. lia. Qed.
(** a square array of any number of dimensions *)
Lemma flat2_square dims l : List.length l = prodn dims * prodn dims -> dims <> [] ->
  flat2 (mkArr (dims ++ dims) l) = Ok (mkArr [prodn dims; prodn dims] l).
Proof.
  intros L NE. unfold flat2. cbn [t_shape]. rewrite app_length. destruct (Nat.ltb_spec 2 (List.length dims + List.length dims)).
  - assert (E : (List.length dims + List.length dims) / 2 = List.length dims).
    { replace (List.length dims + List.length dims) with (List.length dims * 2) by lia. apply Nat.div_mul. lia. }
    rewrite E. replace (firstn (List.length dims) (dims ++ dims)) with dims.
    + unfold reshape. cbn [t_data]. change (prodn [prodn dims; prodn dims]) with (prodn dims * (prodn dims * 1)).
      replace (prodn dims * (prodn dims * 1)) with (List.length l) by lia. rewrite Nat.eqb_refl. reflexivity.
    + rewrite firstn_app, Nat.sub_diag, firstn_all. cbn. rewrite app_nil_r. reflexivity.
  - destruct dims as [|d [|d' dims]]; [contradiction| |cbn in H; lia]. cbn [app]. change (prodn [d]) with (d * 1). rewrite Nat.mul_1_r. reflexivity.
Qed.
Lemma get_square dims l u w : List.length u = List.length dims -> in_shape dims w ->
  get (mkArr (dims ++ dims) l) (u ++ w) = get (mkArr [prodn dims; prodn dims] l) [ravel dims u; ravel dims w].
Proof. intros U W. rewrite get2. unfold get. cbn [t_shape t_data]. rewrite ravel_app by exact U. reflexivity. Qed.

(** one plot *)
Lemma entry_correct corr m C i j x y : get m [i; j] = C x y -> get m [i; i] = C x x -> get m [j; j] = C y y -> entry_ok corr C x y (entry corr m i j).
Proof.
  intros A B D. unfold entry, entry_ok. destruct corr; [|rewrite A; reflexivity]. cbv zeta. rewrite A, B, D.
  unfold Rltb, Reqb. destruct (Rlt_dec (C x x) 0); cbn [orb]; [left; lra|]. destruct (Rlt_dec (C y y) 0); cbn [orb]; [right; lra|].
  destruct (Req_EM_T (sqrt (C x x) * sqrt (C y y)) 0) as [Z|Z].
  - apply Rmult_integral in Z. destruct Z as [Z|Z]; apply sqrt_eq_0 in Z; lra.
  - assert (X : (0 < C x x)%R). { destruct (Rtotal_order 0 (C x x)) as [H|[H|H]]; [exact H| |lra]. exfalso. apply Z. rewrite <- H, sqrt_0. lra. }
    assert (Y : (0 < C y y)%R). { destruct (Rtotal_order 0 (C y y)) as [H|[H|H]]; [exact H| |lra]. exfalso. apply Z. rewrite <- H, sqrt_0. lra. }
    split; [exact X|]. split; [exact Y|]. field. split; apply Rgt_not_eq, sqrt_lt_R0; assumption.
Qed.
Lemma seq_nth_error n i : i < n -> nth_error (seq 0 n) i = Some i.
Proof. intros H. rewrite nth_error_seq' by exact H. reflexivity. Qed.
Lemma plot_shows a ch ax suf ticks m0 m C bins : flat2 m0 = Ok m -> t_shape m = [List.length bins; List.length bins] ->
  (forall i j x y, nth_error bins i = Some x -> nth_error bins j = Some y -> get m [i; j] = C x y) ->
  exists p, plot_matrix a ch ax suf ticks m0 = Ok p /\ shows (a_corr a) C bins (p_rows p) /\ p_file p = file_name a ch ax suf /\ p_ticks p = ticks.
Proof.
  intros F T G. unfold plot_matrix. rewrite F. cbn [rbind]. rewrite T, Nat.eqb_refl, andb_false_r.
  eexists. split; [reflexivity|]. cbn [p_rows p_file p_ticks]. split; [|split; reflexivity]. split; [rewrite map_length, seq_length; reflexivity|]. split.
  - intros row I. apply in_map_iff in I. destruct I as (i & <- & _). rewrite map_length, seq_length. reflexivity.
  - intros i j x y X Y. assert (LI : i < List.length bins) by (apply nth_error_Some; congruence). assert (LJ : j < List.length bins) by (apply nth_error_Some; congruence).
    eexists. eexists. rewrite nth_error_map', (seq_nth_error _ _ LI). cbn [option_map]. split; [reflexivity|]. rewrite nth_error_map', (seq_nth_error _ _ LJ). cbn [option_map]. split; [reflexivity|].
    apply entry_correct; apply G; assumption.
Qed.
Lemma flat2_two m n k : t_shape m = [n; k] -> flat2 m = Ok m.
Proof. intros H. unfold flat2. rewrite H. reflexivity. Qed.

(** a part of the matrix *)
Lemma seq_at s n i x : nth_error (seq s n) i = Some x -> i < n /\ x = s + i.
Proof.
  intros H. assert (L : i < n) by (rewrite <- (seq_length n s); apply nth_error_Some; congruence). split; [exact L|]. rewrite nth_error_seq' in H by exact L. congruence.
Qed.
Lemma slice2_ok v N off sz : t_shape v = [N; N] -> 0 < sz -> off + sz <= N ->
  exists h, slice2 v off (off + sz) = Ok h /\ t_shape h = [sz; sz] /\ List.length (t_data h) = sz * sz /\ forall i j, i < sz -> j < sz -> get h [i; j] = get v [off + i; off + j].
Proof.
  intros T P L. unfold slice2. rewrite T. rewrite Nat.min_l by exact L. replace (off + sz - off) with sz by lia. destruct sz as [|n]; [lia|]. cbn [Nat.eqb orb].
  eexists. split; [reflexivity|]. split; [reflexivity|]. split; [rewrite build_len; change (prodn [S n; S n]) with (S n * (S n * 1)); lia|].
  intros i j I J. rewrite get_build; [reflexivity|]. constructor; [exact I|constructor; [exact J|constructor]].
Qed.

(** the bins of a slice *)
Lemma pos_filter_map {A} (p : A -> bool) (pos : A -> nat) l s : (forall k x, nth_error l k = Some x -> pos x = s + k) -> pos_filter p s l = map pos (filter p l).
Proof.
  revert s. induction l as [|x l IH]; intros s H; [reflexivity|]. cbn [pos_filter filter].
  rewrite IH by (intros k y K; rewrite (H (S k) y K); lia). assert (E := H 0 x eq_refl). rewrite Nat.add_0_r in E. destruct (p x); [cbn [map]; rewrite E|]; reflexivity.
Qed.
Lemma filter_flat {A B} (p : B -> bool) (f : A -> list B) l : filter p (flat_map f l) = flat_map (fun x => filter p (f x)) l.
Proof. induction l as [|x l IH]; [reflexivity|]. cbn [flat_map]. rewrite filter_app, IH. reflexivity. Qed.
Lemma filter_map {A B} (p : B -> bool) (f : A -> B) l : filter p (map f l) = map f (filter (fun x => p (f x)) l).
Proof. induction l as [|x l IH]; [reflexivity|]. cbn [map filter]. rewrite IH. destruct (p (f x)); reflexivity. Qed.
Lemma flat_one {B} (f : nat -> list B) j s n : s <= j < s + n -> (forall i, i <> j -> f i = []) -> flat_map f (seq s n) = f j.
Proof.
  intros J H. revert s J. induction n as [|n IH]; intros s J; [lia|]. cbn [seq flat_map]. destruct (Nat.eq_dec s j) as [->|N].
  - assert (E : forall m s', j < s' -> flat_map f (seq s' m) = []). { induction m as [|m IHm]; intros s' L; [reflexivity|]. cbn [seq flat_map]. rewrite H by lia. apply IHm. lia. }
    rewrite E by lia. apply app_nil_r.
  - rewrite (H s N). cbn [app]. apply IH. lia.
Qed.
Definition layout (a : args) (axes : list (string * nat)) : list (bool * nat) := map (fun x => (mem (fst x) (a_selaxes a), snd x)) axes.
Lemma layout_snd a axes : map snd (layout a axes) = map snd axes.
Proof. unfold layout. rewrite map_map. reflexivity. Qed.
Lemma layout_any a axes : existsb fst (layout a axes) = match filter (selected (a_selaxes a)) axes with [] => false | _ => true end.
Proof. induction axes as [|x axes IH]; [reflexivity|]. cbn. change (mem (fst x) (a_selaxes a)) with (selected (a_selaxes a) x). destruct (selected (a_selaxes a) x); [reflexivity|exact IH]. Qed.
Lemma layout_sel a axes : map snd (filter fst (layout a axes)) = map snd (filter (selected (a_selaxes a)) axes).
Proof. induction axes as [|x axes IH]; [reflexivity|]. cbn. change (mem (fst x) (a_selaxes a)) with (selected (a_selaxes a) x). destruct (selected (a_selaxes a) x); cbn; [f_equal|]; exact IH. Qed.
Lemma in_slice_weave a axes b : valid (filter (selected (a_selaxes a)) axes) b ->
  filter (in_slice (map fst (layout a axes)) b) (all_idx (map snd axes)) = map (weave (a_selaxes a) axes b) (all_idx (map snd (others a axes))).
Proof.
  revert b. induction axes as [|x axes IH]; intros b V; [reflexivity|]. cbn [layout map filter] in *. cbn [all_idx]. unfold others in *. cbn [filter]. cbn [fst].
  change (mem (fst x) (a_selaxes a)) with (selected (a_selaxes a) x). destruct (selected (a_selaxes a) x) eqn:S; cbn [negb].
  - inversion V as [|? j ? b' J V']; subst. rewrite filter_flat. rewrite (flat_one _ j).
    + rewrite filter_map. cbn [in_slice]. rewrite Nat.eqb_refl. cbn [andb]. change (map (fun x0 => (mem (fst x0) (a_selaxes a), snd x0)) axes) with (layout a axes).
      transitivity (map (cons j) (filter (in_slice (map fst (layout a axes)) b') (all_idx (map snd axes)))); [reflexivity|].
      rewrite (IH b' V'), map_map. apply map_ext. intros u. cbn [weave]. rewrite S. reflexivity.
    + lia.
    + intros i N. rewrite filter_map. cbn [in_slice]. replace (Nat.eqb i j) with false by (symmetry; apply Nat.eqb_neq; exact N). cbn [andb].
      clear. induction (all_idx (map snd axes)) as [|y l IHl]; [reflexivity|exact IHl].
  - cbn [map all_idx]. rewrite filter_flat. rewrite !flat_map_concat_map, concat_map. apply (f_equal (@List.concat _)). rewrite (map_map (fun i => map (cons i) _) (map (weave _ _ _))). apply map_ext. intros i. rewrite filter_map. cbn [in_slice].
    change (map (fun x0 => (mem (fst x0) (a_selaxes a), snd x0)) axes) with (layout a axes).
    transitivity (map (cons i) (filter (in_slice (map fst (layout a axes)) b) (all_idx (map snd axes)))); [reflexivity|]. rewrite (IH b V), !map_map. apply map_ext. intros u. cbn [weave]. rewrite S. reflexivity.
Qed.
Lemma slice_bins a axes b first : valid (filter (selected (a_selaxes a)) axes) b ->
  pos_filter (in_slice (map fst (layout a axes)) b) first (cells (map snd (layout a axes))) =
  map (fun u => first + ravel (map snd axes) (weave (a_selaxes a) axes b u)) (all_idx (map snd (others a axes))).
Proof.
  intros V. rewrite layout_snd, cells_idx. rewrite (pos_filter_map _ (fun v => first + ravel (map snd axes) v)).
  - rewrite in_slice_weave by exact V. rewrite map_map. reflexivity.
  - intros k x K. rewrite (all_idx_pos _ _ _ K). reflexivity.
Qed.
Lemma valid_shape axes v : valid axes v <-> in_shape (map snd axes) v.
Proof.
  unfold valid, in_shape. revert v. induction axes as [|x axes IH]; intros v; cbn; split; intros H; inversion H; subst; constructor; try assumption; apply IH; assumption.
Qed.

(** the plots of the slices of a channel *)
Lemma Forall2_map_r {A B C} (P : A -> B -> Prop) (f : C -> A) l ys : Forall2 (fun x y => P (f x) y) l ys -> Forall2 P (map f l) ys.
Proof. induction 1; constructor; auto. Qed.
Lemma seqr_forall {A B C} (f : A -> result B) (P : C -> B -> Prop) (g : A -> C) l : (forall x, In x l -> exists y, f x = Ok y /\ P (g x) y) ->
  exists ys, seqr (map f l) = Ok ys /\ Forall2 P (map g l) ys.
Proof.
  induction l as [|x l IH]; intros H; [exists []; split; [reflexivity|constructor]|]. destruct (H x (or_introl eq_refl)) as (y & E & Q).
  destruct IH as (ys & E' & Q'); [intros z Z; apply H; right; exact Z|]. exists (y :: ys). cbn [map seqr]. rewrite E. cbn [rbind]. rewrite E'. split; [reflexivity|constructor; assumption].
Qed.
Lemma in_shape_app a b u w : in_shape a u -> in_shape b w -> in_shape (a ++ b) (u ++ w).
Proof. intros A B. induction A as [|x y l l' L A IH]; [exact B|constructor; assumption]. Qed.
Lemma pick_shows a channel axes suf b h2 l C first : valid (filter (selected (a_selaxes a)) axes) b -> others a axes <> [] ->
  h2 = mkArr (map snd axes ++ map snd axes) l ->
  (forall x y, x < prodn (map snd axes) -> y < prodn (map snd axes) -> get (mkArr [prodn (map snd axes); prodn (map snd axes)] l) [x; y] = C (first + x) (first + y)) ->
  exists p, plot_matrix a (Some channel) (Some (map fst (others a axes))) (Some suf) None (pick2 a axes b h2) = Ok p /\
    shows (a_corr a) C (pos_filter (in_slice (map fst (layout a axes)) b) first (cells (map snd (layout a axes)))) (p_rows p) /\
    p_file p = file_name a (Some channel) (Some (map fst (others a axes))) (Some suf).
Proof.
  intros V NE E H. rewrite slice_bins by exact V. set (od := map snd (others a axes)). assert (NO : od <> []) by (unfold od; destruct (others a axes); [contradiction|discriminate]).
  unfold pick2. fold od. set (f := fun i => get h2 _).
  edestruct (plot_shows a (Some channel) (Some (map fst (others a axes))) (Some suf) None (build (od ++ od) f) (mkArr [prodn od; prodn od] (t_data (build (od ++ od) f))) C
    (map (fun u => first + ravel (map snd axes) (weave (a_selaxes a) axes b u)) (all_idx od))) as (p & P1 & P2 & P3 & _).
  - replace (build (od ++ od) f) with (mkArr (od ++ od) (t_data (build (od ++ od) f))) at 1 by reflexivity. apply flat2_square; [|exact NO]. rewrite build_len, prodn_app. reflexivity.
  - cbn [t_shape]. rewrite map_length, all_idx_len. reflexivity.
  - intros i j x y X Y. rewrite nth_error_map' in X, Y. destruct (nth_error (all_idx od) i) as [u|] eqn:U; [|discriminate]. destruct (nth_error (all_idx od) j) as [w|] eqn:W; [|discriminate].
    injection X as <-. injection Y as <-.
    assert (IU : in_shape od u) by (apply all_idx_In; eapply nth_error_In; exact U). assert (IW : in_shape od w) by (apply all_idx_In; eapply nth_error_In; exact W).
    rewrite (all_idx_pos _ _ _ U), (all_idx_pos _ _ _ W).
    assert (LU : List.length u = List.length od) by (apply in_shape_len; exact IU).
    rewrite <- get_square by assumption. change (mkArr (od ++ od) (t_data (build (od ++ od) f))) with (build (od ++ od) f). rewrite get_build by (apply in_shape_app; assumption).
    unfold f. rewrite <- LU. rewrite firstn_app, Nat.sub_diag, firstn_all, skipn_app, skipn_all, Nat.sub_diag. cbn [firstn skipn app]. rewrite app_nil_r.
    assert (VU : valid axes (weave (a_selaxes a) axes b u)) by (apply weave_valid; [exact V|apply valid_shape; exact IU]).
    assert (VW : valid axes (weave (a_selaxes a) axes b w)) by (apply weave_valid; [exact V|apply valid_shape; exact IW]).
    subst h2. rewrite get_square; [|apply in_shape_len; apply valid_shape; exact VU|apply valid_shape; exact VW]. apply H; apply ravel_lt, valid_shape; assumption.
  - exists p. auto.
Qed.
Lemma sel_shows a channel label axes h m first C : others a axes <> [] -> flat2 h = Ok m -> t_shape m = [prodn (map snd axes); prodn (map snd axes)] ->
  List.length (t_data m) = prodn (map snd axes) * prodn (map snd axes) ->
  (forall x y, x < prodn (map snd axes) -> y < prodn (map snd axes) -> get m [x; y] = C (first + x) (first + y)) ->
  filter (selected (a_selaxes a)) axes <> [] ->
  exists ps, sel_plots a channel label axes h = Ok ps /\ Forall2 (fun bins p => shows (a_corr a) C bins (p_rows p)) (slices first (layout a axes)) ps /\
    Forall2 (fun b p => p_file p = file_name a (Some channel) (Some (map fst (others a axes))) (Some (sel_suffix channel label (filter (selected (a_selaxes a)) axes) b))) (bins_of (filter (selected (a_selaxes a)) axes)) ps.
Proof.
  intros NE F T L H NS. unfold sel_plots. rewrite F. cbn [rbind]. rewrite T. cbn [nth]. unfold reshape at 1. rewrite prodn_cons, L, Nat.eqb_refl. cbn [rbind].
  unfold reshape. cbn [t_data]. rewrite prodn_app, L, Nat.eqb_refl. cbn [rbind].
  set (sel := filter (selected (a_selaxes a)) axes) in *.
  edestruct (seqr_forall (fun b => match others a axes with [] => Raise GenericException | o => plot_matrix a (Some channel) (Some (map fst o)) (Some (sel_suffix channel label sel b)) None (pick2 a axes b (mkArr (map snd axes ++ map snd axes) (t_data m))) end)
    (fun b p => shows (a_corr a) C (pos_filter (in_slice (map fst (layout a axes)) b) first (cells (map snd (layout a axes)))) (p_rows p) /\
       p_file p = file_name a (Some channel) (Some (map fst (others a axes))) (Some (sel_suffix channel label sel b))) (fun b => b) (bins_of sel)) as (ps & E & Q).
  - intros b B. apply in_bins in B. edestruct (pick_shows a channel axes (sel_suffix channel label sel b) b (mkArr (map snd axes ++ map snd axes) (t_data m)) (t_data m) C first) as (p & P1 & P2 & P3); try exact B; try exact NE; try reflexivity.
    + intros x y X Y. rewrite <- (H x y X Y). destruct m as [sh d]. cbn in T. subst sh. reflexivity.
    + exists p. destruct (others a axes) as [|o os]; [contradiction|]. split; [exact P1|split; assumption].
  - rewrite map_id in Q. exists ps. split; [exact E|]. split.
    + unfold slices. rewrite layout_any. fold sel. destruct sel as [|s0 sel'] eqn:ES; [contradiction|]. rewrite <- ES in *. replace (map snd (filter fst (layout a axes))) with (map snd sel) by (unfold sel; rewrite layout_sel; reflexivity).
      rewrite cells_idx, <- bins_idx. apply Forall2_map_r. clear -Q. induction Q as [|x y l l' [A B] Q IH]; constructor; assumption.
    + clear -Q. induction Q as [|x y l l' [A B] Q IH]; constructor; assumption.
Qed.

(** a channel can be drawn: no empty axis, and an axis is left when others are selected *)
Definition drawable (a : args) (axes : list (string * nat)) : Prop :=
  (forall x, In x axes -> 0 < snd x) /\ ((forall x, In x axes -> ~ In (fst x) (a_selaxes a)) \/ exists x, In x axes /\ ~ In (fst x) (a_selaxes a)).
Lemma selected_in sel x : selected sel x = true <-> In (fst x) sel.
Proof. apply mem_in. Qed.
Lemma drawable_pos a axes : drawable a axes -> 0 < prodn (map snd axes).
Proof.
  intros [H _]. induction axes as [|x axes IH]; [change (0 < 1); lia|]. cbn [map]. rewrite prodn_cons. apply Nat.mul_pos_pos; [apply H; left; reflexivity|apply IH; intros y Y; apply H; right; exact Y].
Qed.
Lemma drawable_others a axes : drawable a axes -> filter (selected (a_selaxes a)) axes <> [] -> others a axes <> [].
Proof.
  intros [_ [H|(x & X & N)]] S.
  - exfalso. destruct (filter (selected (a_selaxes a)) axes) as [|y l] eqn:E; [contradiction|]. assert (I : In y (y :: l)) by (left; reflexivity). rewrite <- E in I. apply filter_In in I. destruct I as [I J].
    apply (H y I). apply selected_in. exact J.
  - intros E. assert (I : In x (others a axes)). { apply filter_In. split; [exact X|]. destruct (selected (a_selaxes a) x) eqn:Q; [|reflexivity]. exfalso. apply N, selected_in. exact Q. }
    rewrite E in I. destruct I.
Qed.
Lemma no_slices a axes first : filter (selected (a_selaxes a)) axes = [] -> slices first (layout a axes) = [].
Proof. intros E. unfold slices. rewrite layout_any, E. reflexivity. Qed.
Lemma Forall2_app' {A B} (P : A -> B -> Prop) a b c d : Forall2 P a c -> Forall2 P b d -> Forall2 P (a ++ b) (c ++ d).
Proof. intros X Y. induction X; [exact Y|constructor; assumption]. Qed.
Lemma loop_shows a v N : t_shape v = [N; N] -> forall cs axs off suf, Forall2 (fun kc ax => c_axes (snd kc) = Some ax) cs axs -> (forall ax, In ax axs -> drawable a ax) ->
  off + all_bins (map (layout a) axs) <= N ->
  exists ps, chan_loop a true (mkS off (Some v) suf) cs = Ok ps /\ Forall2 (fun bins p => shows (a_corr a) (fun x y => get v [x; y]) bins (p_rows p)) (blocks off (map (layout a) axs)) ps.
Proof.
  intros T. induction cs as [|[k c] cs IH]; intros axs off suf F D L; inversion F as [|? ax ? axs' E F']; subst; [exists []; split; [reflexivity|constructor]|].
  cbn [snd] in E. assert (DA : drawable a ax) by (apply D; left; reflexivity). assert (P := drawable_pos _ _ DA).
  cbn [map] in L. unfold all_bins in L. cbn [map list_sum fold_right] in L. rewrite layout_snd, size_prodn in L.
  change (fold_right Nat.add 0 (map (fun c => size (map snd c)) (map (layout a) axs'))) with (all_bins (map (layout a) axs')) in L.
  destruct (slice2_ok v N off (prodn (map snd ax)) T P) as (h & H1 & H2 & H3 & H4); [lia|].
  destruct (plot_shows a (Some k) (Some (map fst ax)) (Some suf) None h h (fun x y => get v [x; y]) (seq off (prodn (map snd ax)))) as (p & P1 & P2 & _).
  { apply (flat2_two h _ _ H2). } { rewrite seq_length. exact H2. }
  { intros i j x y X Y. apply seq_at in X, Y. destruct X as [X ->], Y as [Y ->]. apply H4; assumption. }
  cbn [map blocks]. rewrite layout_snd, size_prodn.
  cbn [chan_loop fst snd]. unfold chan_step. rewrite E. cbn [s_cov s_start s_suffix]. rewrite H1. cbn [rbind]. rewrite P1. cbn [rbind].
  destruct (filter (selected (a_selaxes a)) ax) as [|s0 sel] eqn:ES.
  - destruct (IH axs' (off + prodn (map snd ax)) suf F') as (ps & Q1 & Q2); [intros y Y; apply D; right; exact Y|lia|]. cbn [rbind snd fst]. rewrite Q1. cbn [rbind].
    exists (p :: ps). split; [reflexivity|]. rewrite (no_slices a ax off ES). constructor; assumption.
  - destruct (sel_shows a k (c_label c) ax h h off (fun x y => get v [x; y])) as (qs & Q1 & Q2 & _).
    + apply drawable_others; [exact DA|rewrite ES; discriminate].
    + apply (flat2_two h _ _ H2).
    + exact H2.
    + exact H3.
    + exact H4.
    + rewrite ES. discriminate.
    + rewrite Q1. cbn [rbind s_start s_cov s_suffix].
      edestruct (IH axs' (off + prodn (map snd ax))) as (ps & R1 & R2); [exact F'|intros y Y; apply D; right; exact Y|lia|]. cbn [snd fst]. rewrite R1. cbn [rbind].
      eexists. split; [reflexivity|]. cbn [app]. constructor; [exact P2|]. apply Forall2_app'; assumption.
Qed.

(** positions of the parameters *)
Lemma index_of_ok n l i : index_of n l = Some i -> nth_error l i = Some n /\ forall k, k < i -> nth_error l k <> Some n.
Proof.
  revert i. induction l as [|x l IH]; intros i H; [discriminate|]. cbn in H. destruct (String.eqb_spec x n) as [->|N].
  - injection H as <-. split; [reflexivity|]. intros k K. lia.
  - destruct (index_of n l) as [j|]; [|discriminate]. injection H as <-. destruct (IH j eq_refl) as [A B]. split; [exact A|]. intros [|k] K; [cbn; congruence|]. apply B. lia.
Qed.
Lemma index_of_in n l : In n l -> exists i, index_of n l = Some i.
Proof.
  induction l as [|x l IH]; intros []; cbn.
  - subst. rewrite String.eqb_refl. eauto.
  - destruct (String.eqb x n); eauto. destruct (IH H) as (i & ->). cbn. eauto.
Qed.
Lemma indices_ok ps names : (forall p, In p ps -> In p names) -> Forall2 (fun p i => index_of p names = Some i) ps (indices ps names).
Proof.
  induction ps as [|p ps IH]; intros H; [constructor|]. cbn. destruct (index_of_in p names (H p (or_introl eq_refl))) as (i & E). rewrite E. cbn. constructor; [exact E|apply IH; intros q Q; apply H; right; exact Q].
Qed.

Lemma ix_names names (label : string -> string) ps ix : Forall2 (fun p i => index_of p names = Some i) ps ix ->
  Forall2 (fun q i => nth_error names i = Some q) ps ix /\ map (fun i => label (nth i names EmptyString)) ix = map label ps.
Proof.
  intros H. induction H as [|x y u w E H [A B]]; [split; [constructor|reflexivity]|]. apply index_of_ok in E. destruct E as [E _]. split; [constructor; assumption|].
  cbn [map]. rewrite B, (nth_error_nth _ _ _ E). reflexivity.
Qed.

(** correlations *)
Lemma sumR_cons (x : R) l : sumR (x :: l) = (x + sumR l)%R.
Proof. reflexivity. Qed.
Lemma two_sum n (i j : nat) (F : nat -> R) : i <> j -> i < n -> j < n -> (forall k, k <> i -> k <> j -> F k = 0%R) -> sumR (map F (seq 0 n)) = (F i + F j)%R.
Proof.
  intros NE I J Z. assert (G : forall m s (E : nat -> R) q, s <= q < s + m -> (forall k, k <> q -> E k = 0%R) -> sumR (map E (seq s m)) = E q).
  { induction m as [|m IHm]; intros s E q Q ZE; [lia|]. cbn [seq map]. rewrite sumR_cons. destruct (Nat.eq_dec s q) as [->|NQ].
    - replace (sumR (map E (seq (S q) m))) with 0%R; [lra|]. assert (W : forall t, q < t -> 0%R = sumR (map E (seq t m))); [|apply W; lia].
      clear -ZE. induction m as [|m IH]; intros t T; [reflexivity|]. cbn [seq map]. rewrite sumR_cons. rewrite ZE by lia. rewrite <- (IH (S t)) by lia. lra.
    - rewrite ZE by exact NQ. rewrite (IHm (S s) E q); [lra|lia|exact ZE]. }
  replace (sumR (map F (seq 0 n))) with (sumR (map (fun k => (if Nat.eqb k i then F k else 0) + (if Nat.eqb k i then 0 else F k))%R (seq 0 n))).
  - rewrite sumR_map_plus. rewrite (G n 0 _ i), (G n 0 _ j); [|lia| |lia|].
    + rewrite Nat.eqb_refl. replace (Nat.eqb j i) with false by (symmetry; apply Nat.eqb_neq; congruence). reflexivity.
    + intros k K. destruct (Nat.eqb_spec k i); [reflexivity|apply Z; assumption].
    + intros k K. destruct (Nat.eqb_spec k i); [contradiction|reflexivity].
  - f_equal. apply map_ext. intros k. destruct (Nat.eqb k i); lra.
Qed.
Lemma minor n C i j : symmetric C -> semidefinite n C -> i <> j -> i < n -> j < n -> forall s t, (0 <= s * s * C i i + 2 * s * t * C i j + t * t * C j j)%R.
Proof.
  intros S P NE I J s t. set (x := fun k => if Nat.eqb k i then s else if Nat.eqb k j then t else 0%R).
  assert (Xi : x i = s) by (unfold x; rewrite Nat.eqb_refl; reflexivity).
  assert (Xj : x j = t). { unfold x. rewrite Nat.eqb_refl. replace (Nat.eqb j i) with false; [reflexivity|symmetry; apply Nat.eqb_neq; congruence]. }
  assert (X0 : forall k, k <> i -> k <> j -> x k = 0%R). { intros k A B. unfold x. apply Nat.eqb_neq in A, B. rewrite A, B. reflexivity. }
  specialize (P x). rewrite (two_sum n i j) in P; [|exact NE|exact I|exact J|].
  - rewrite !(two_sum n i j) in P; try exact NE; try exact I; try exact J; try (intros k A B; rewrite (X0 k A B); lra). rewrite Xi, Xj, (S j i) in P. lra.
  - intros k A B. rewrite (X0 k A B). clear. induction (seq 0 n) as [|y l IH]; [reflexivity|]. cbn [map]. rewrite sumR_cons, IH. lra.
Qed.
Lemma cauchy n C i j : symmetric C -> semidefinite n C -> i < n -> j < n -> (0 < C i i)%R -> (0 < C j j)%R -> (C i j * C i j <= C i i * C j j)%R.
Proof.
  intros S P I J A B. destruct (Nat.eq_dec i j) as [->|N]; [lra|]. assert (M := minor n C i j S P N I J (C i j) (- C i i)%R).
  apply Rminus_le. apply Ropp_le_cancel. rewrite Ropp_0. apply (Rmult_le_reg_l (C i i)); [exact A|]. rewrite Rmult_0_r.
  replace (C i i * - (C i j * C i j - C i i * C j j))%R with (C i j * C i j * C i i + 2 * C i j * - C i i * C i j + - C i i * - C i i * C j j)%R by ring. exact M.
Qed.

(** names of files *)
Local Open Scope string_scope.
Lemma app_inj_r (a b c : string) : a ++ c = b ++ c -> a = b.
Proof.
  assert (L : forall x y : string, String.length (x ++ y) = String.length x + String.length y). { induction x as [|h x IH]; intros y; cbn; [reflexivity|rewrite IH; reflexivity]. }
  revert b. induction a as [|x a IH]; intros [|y b] E; cbn in E.
  - reflexivity.
  - exfalso. apply (f_equal String.length) in E. cbn in E. rewrite L in E. lia.
  - exfalso. apply (f_equal String.length) in E. cbn in E. rewrite L in E. lia.
  - injection E as -> E. f_equal. apply IH. exact E.
Qed.
Lemma free_cons c x s : free c (String x s) <-> c <> x /\ free c s.
Proof. unfold free. cbn. split; [intros H; split; [intros ->; apply H; left; reflexivity|intros I; apply H; right; exact I]|intros [A B] [E|I]; [congruence|contradiction]]. Qed.
Lemma replace_inj c d s s' : free d s -> free d s' -> replace c (String d "") s = replace c (String d "") s' -> s = s'.
Proof.
  revert s'. induction s as [|x s IH]; intros [|y s'] F F' E; cbn in E.
  - reflexivity.
  - destruct (Ascii.eqb y c); discriminate.
  - destruct (Ascii.eqb x c); discriminate.
  - apply free_cons in F, F'. destruct F as [Fx F], F' as [Fy F'].
    destruct (Ascii.eqb_spec x c) as [->|X]; destruct (Ascii.eqb_spec y c) as [->|Y]; cbn in E.
    + injection E as E. f_equal. apply IH; assumption.
    + injection E as E1 E. congruence.
    + injection E as E1 E. congruence.
    + injection E as -> E. f_equal. apply IH; assumption.
Qed.
Lemma replace_free c d x s : x <> d -> free x s -> free x (replace c (String d "") s).
Proof.
  intros N. induction s as [|y s IH]; intros F; [exact F|]. apply free_cons in F. destruct F as [Fy F]. cbn. destruct (Ascii.eqb y c); cbn; apply free_cons; split; auto.
Qed.
Lemma free_split (l l' r r' : string) : free "_" l -> free "_" l' -> (r = "" \/ exists t, r = "_" ++ t) -> (r' = "" \/ exists t, r' = "_" ++ t) -> l ++ r = l' ++ r' -> l = l' /\ r = r'.
Proof.
  revert l'. induction l as [|x l IH]; intros [|y l'] F F' Hr Hr' E; cbn in E.
  - auto.
  - exfalso. apply free_cons in F'. destruct F' as [F' _]. destruct Hr as [->|(t & ->)]; [discriminate|]. cbn in E. injection E as E _. congruence.
  - exfalso. apply free_cons in F. destruct F as [F _]. destruct Hr' as [->|(t & ->)]; [discriminate|]. cbn in E. injection E as E _. congruence.
  - injection E as -> E. apply free_cons in F, F'. destruct F as [_ F], F' as [_ F']. destruct (IH l' F F' Hr Hr' E) as [-> ->]. auto.
Qed.
Definition clean (s : string) : string := replace "-" "m" (replace "." "p" s).
(** texts of bins as of numbers: distinct, without _, p and m *)
Definition plain (label : string -> nat -> string) : Prop :=
  (forall n i, free "_" (label n i) /\ free "p" (label n i) /\ free "m" (label n i)) /\ forall n i j, label n i = label n j -> i = j.
Lemma clean_free s : free "_" s -> free "_" (clean s).
Proof. intros H. unfold clean. apply replace_free; [discriminate|]. apply replace_free; [discriminate|exact H]. Qed.
Lemma clean_inj s s' : free "p" s -> free "m" s -> free "p" s' -> free "m" s' -> clean s = clean s' -> s = s'.
Proof.
  intros P M P' M' E. unfold clean in E. apply replace_inj in E; [|apply replace_free; [discriminate|assumption]|apply replace_free; [discriminate|assumption]]. apply replace_inj in E; assumption.
Qed.
Lemma concat_tail (x : string) l : exists t, String.concat "_" (x :: l) = x ++ t /\ (t = "" \/ exists u, t = "_" ++ u) /\ (l = [] -> t = "") /\ (l <> [] -> t = "_" ++ String.concat "_" l).
Proof.
  destruct l as [|y l].
  - exists "". split; [|split; [left; reflexivity|split; [reflexivity|intros H; contradiction]]]. cbn. clear. induction x as [|c x IH]; [reflexivity|cbn; rewrite <- IH; reflexivity].
  - exists ("_" ++ String.concat "_" (y :: l)). split; [reflexivity|]. split; [right; eexists; reflexivity|]. split; [discriminate|reflexivity].
Qed.
Definition piece (label : string -> nat -> string) (p : (string * nat) * nat) : string := fst (fst p) ++ "_" ++ clean (label (fst (fst p)) (snd p)).
Lemma pieces_inj label sel b b' : plain label -> List.length b = List.length sel -> List.length b' = List.length sel ->
  String.concat "_" (map (piece label) (combine sel b)) = String.concat "_" (map (piece label) (combine sel b')) -> b = b'.
Proof.
  intros [F I]. revert b b'. induction sel as [|x sel IH]; intros [|i b] [|j b'] L L' E; try discriminate; [reflexivity|]. cbn [combine map] in E. cbn in L, L'.
  destruct (concat_tail (piece label (x, i)) (map (piece label) (combine sel b))) as (t & E1 & T & N1 & N2). destruct (concat_tail (piece label (x, j)) (map (piece label) (combine sel b'))) as (t' & E1' & T' & N1' & N2').
  rewrite E1, E1' in E. unfold piece in E. cbn [fst snd] in E. rewrite !sapp_assoc in E. apply Session_Proof.app_inj_l in E. apply Session_Proof.app_inj_l in E.
  destruct (F (fst x) i) as (A & B & C). destruct (F (fst x) j) as (A' & B' & C').
  apply free_split in E; [|apply clean_free; exact A|apply clean_free; exact A'|exact T|exact T']. destruct E as [E ->]. apply clean_inj in E; try assumption. apply I in E. subst j. f_equal.
  apply IH; [lia|lia|]. destruct (map (piece label) (combine sel b)) as [|p l] eqn:Q; destruct (map (piece label) (combine sel b')) as [|p' l'] eqn:Q'.
  - reflexivity.
  - assert (X := N1 eq_refl). assert (Y := N2' ltac:(discriminate)). rewrite X in Y. discriminate.
  - assert (X := N1' eq_refl). assert (Y := N2 ltac:(discriminate)). rewrite X in Y. discriminate.
  - assert (X := N2 ltac:(discriminate)). assert (Y := N2' ltac:(discriminate)). rewrite X in Y. apply Session_Proof.app_inj_l in Y. exact Y.
Qed.
Lemma concat_mid (A B : list string) : exists pre post, forall s, String.concat "_" (A ++ s :: B)%list = pre ++ s ++ post.
Proof.
  induction A as [|x A (pre & post & IH)].
  - destruct B as [|y B]; [exists "", ""|exists "", ("_" ++ String.concat "_" (y :: B))]; intros s; cbn [app].
    + cbn. clear. induction s as [|c s IH]; [reflexivity|cbn; rewrite <- IH; reflexivity].
    + reflexivity.
  - exists (x ++ "_" ++ pre), post. intros s. cbn [app]. specialize (IH s). destruct (A ++ s :: B)%list as [|z l] eqn:Q; [destruct A; discriminate|].
    change (String.concat "_" (x :: z :: l)) with (x ++ "_" ++ String.concat "_" (z :: l)). rewrite IH. rewrite !sapp_assoc. reflexivity.
Qed.
Lemma file_mid a ch names : exists pre post, forall s, s <> "" -> file_name a ch names (Some s) = pre ++ s ++ post.
Proof.
  set (keep := fun s : string => negb (String.eqb s "")).
  set (A := filter keep ((if a_corr a then "hist_corr" else "hist_cov") :: (if a_data a then "data" else if a_prefit a then "prefit" else "postfit") :: (match ch with Some s => [s] | None => [] end ++ match names with Some l => [String.concat "_" l] | None => [] end))%list).
  destruct (concat_mid A (filter keep [a_postfix a])) as (pre & post & H). exists pre, (post ++ (if a_prelim a then "_preliminary" else "")). intros s N.
  rewrite <- !sapp_assoc. rewrite (sapp_assoc pre). rewrite <- H. unfold file_name. f_equal. f_equal.
  replace (A ++ s :: filter keep [a_postfix a])%list with (filter keep (((if a_corr a then "hist_corr" else "hist_cov") :: (if a_data a then "data" else if a_prefit a then "prefit" else "postfit") :: (match ch with Some s => [s] | None => [] end ++ match names with Some l => [String.concat "_" l] | None => [] end)) ++ [s; a_postfix a]))%list.
  - fold keep. apply f_equal. destruct (a_corr a), ch, names; reflexivity.
  - rewrite filter_app. unfold A. f_equal. cbn [filter]. replace (keep s) with true; [reflexivity|]. unfold keep. destruct (String.eqb_spec s ""); [contradiction|reflexivity].
Qed.
Lemma sel_files a ch names label sel b b' : plain label -> List.length b = List.length sel -> List.length b' = List.length sel ->
  file_name a ch names (Some (sel_suffix (match ch with Some c => c | None => "" end) label sel b)) = file_name a ch names (Some (sel_suffix (match ch with Some c => c | None => "" end) label sel b')) -> b = b'.
Proof.
  intros P L L' E. destruct (file_mid a ch names) as (pre & post & H).
  assert (NE : forall c x, sel_suffix c label sel x <> ""). { intros c x. unfold sel_suffix. destruct c; discriminate. }
  rewrite (H _ (NE _ _)), (H _ (NE _ _)) in E. apply Session_Proof.app_inj_l in E. apply app_inj_r in E. unfold sel_suffix in E. apply Session_Proof.app_inj_l in E. apply Session_Proof.app_inj_l in E.
  revert E. apply (pieces_inj label sel b b' P L L').
Qed.
