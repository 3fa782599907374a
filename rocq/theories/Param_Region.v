(** The bins of a region, in the order of its free axes. *)
From Coq Require Import Reals List Arith ZArith Bool String Lia Lra.
From Verif Require Import RBase PyList PyDict ListUtil Shape Writer_Model Yields_Model Init_Model Param_Model Param_Spec Param_Comp Param_Mix Param_Axis.
Import ListNotations.
Local Open Scope nat_scope.

Fixpoint match_fx (fx : list (option nat)) (idx : list nat) : bool :=
  match fx, idx with
  | o :: fx, i :: idx => (match o with Some v => Nat.eqb i v | None => true end) && match_fx fx idx
  | _, _ => true
  end.
Fixpoint free_of {A} (fx : list (option nat)) (l : list A) : list A :=
  match fx, l with
  | o :: fx, x :: l => match o with Some _ => free_of fx l | None => x :: free_of fx l end
  | _, _ => []
  end.
Definition in_range (shape : list nat) (fx : list (option nat)) : Prop := Forall2 (fun n o => match o with Some v => v < n | None => True end) shape fx.
Lemma filter_flat {A B} (f : B -> bool) (g : A -> list B) l : filter f (flat_map g l) = flat_map (fun a => filter f (g a)) l.
Proof. induction l; auto. cbn [flat_map]. rewrite filter_app, IHl. auto. Qed.
Lemma filter_map {A B} (f : B -> bool) (g : A -> B) l : filter f (map g l) = map g (filter (fun a => f (g a)) l).
Proof. induction l; auto. cbn [map filter]. destruct (f (g a)); cbn [map]; rewrite IHl; auto. Qed.
Lemma flat_map_single {B} (F : nat -> list B) v : forall n s, s <= v < s + n -> (forall i, i <> v -> F i = []) -> flat_map F (seq s n) = F v.
Proof.
  induction n as [|n IH]; intros s H E; [lia|]. cbn [seq flat_map]. destruct (Nat.eq_dec s v) as [->|N].
  - rewrite (flat_map_ext_in F (fun _ => [])).
    + clear. replace (flat_map (fun _ : nat => @nil B) (seq (S v) n)) with (@nil B); [apply app_nil_r|]. generalize (seq (S v) n). induction l; auto.
    + intros a I. apply in_seq in I. apply E. lia.
  - rewrite E by auto. cbn [app]. apply IH; auto. lia.
Qed.
Lemma sel_list shape fx : in_range shape fx ->
  List.length (filter (match_fx fx) (all_idx shape)) = prodn (free_of fx shape) /\
  forall idx, in_shape shape idx -> match_fx fx idx = true ->
    in_shape (free_of fx shape) (free_of fx idx) /\ nth_error (filter (match_fx fx) (all_idx shape)) (ravel (free_of fx shape) (free_of fx idx)) = Some idx.
Proof.
  intros H. induction H as [|n o shape fx Ho H (L & P)].
  - split; auto. intros idx I _. inversion I; subst. split; [constructor|auto].
  - cbn [all_idx]. rewrite filter_flat.
    rewrite (flat_map_ext_in _ (fun i => map (cons i) (filter (fun l => match_fx (o :: fx) (i :: l)) (all_idx shape)))) by (intros; apply filter_map).
    destruct o as [v|]; cbn [free_of].
    + rewrite (flat_map_single _ v); [|lia|intros i N; cbn [match_fx]; destruct (Nat.eqb_spec i v); [congruence|]; cbn [andb]; rewrite (filter_false _ _ (fun a _ => eq_refl)); reflexivity].
      cbn [match_fx]. rewrite Nat.eqb_refl. cbn [andb]. change (fun l => match_fx fx l) with (match_fx fx). split; [rewrite map_length; auto|]. intros idx I M. inversion I as [|? i ? is Li I' E1 E2]; subst. cbn [match_fx] in M.
      apply andb_true_iff in M as (M & M'). apply Nat.eqb_eq in M. subst i. cbn [free_of]. destruct (P is I' M') as (Q & Q'). split; auto. rewrite nth_error_map', Q'. auto.
    + cbn [match_fx]. cbn [andb]. change (fun l => match_fx fx l) with (match_fx fx).
      assert (Ln : forall x, In x (seq 0 n) -> List.length (map (cons x) (filter (match_fx fx) (all_idx shape))) = prodn (free_of fx shape)) by (intros; rewrite map_length; auto).
      split.
      * rewrite (flat_map_len _ (prodn (free_of fx shape))) by auto. rewrite seq_length, prodn_cons. auto.
      * intros idx I M. inversion I as [|? i ? is Li I' E1 E2]; subst. cbn [match_fx andb] in M. cbn [free_of]. destruct (P is I' M) as (Q & Q'). split; [constructor; auto|].
        cbn [ravel]. rewrite (flat_map_nth _ (prodn (free_of fx shape))) with (x := i); auto.
        -- rewrite nth_error_map', Q'. auto.
        -- rewrite nth_error_seq' by auto. auto.
        -- apply ravel_lt. auto.
Qed.
(** *** from the selection of axes by name *)
Definition fx_at (fixed : list (nat * nat)) (j : nat) : option nat := option_map snd (find (fun f => Nat.eqb (fst f) j) fixed).
Definition fx_list (fixed : list (nat * nat)) (k n : nat) : list (option nat) := map (fx_at fixed) (seq k n).
Lemma match_fx_spec fx : forall idx, List.length idx = List.length fx -> (match_fx fx idx = true <-> forall j v, nth_error fx j = Some (Some v) -> nth j idx O = v).
Proof.
  induction fx as [|o fx IH]; intros [|i idx] L; simpl in L; try lia; cbn [match_fx].
  - split; auto. intros _ [|j] v E; discriminate.
  - rewrite andb_true_iff, IH by lia. split.
    + intros (A & B) [|j] v E; cbn [nth nth_error] in *; [injection E as ->; apply Nat.eqb_eq; auto|auto].
    + intros H. split.
      * destruct o as [v|]; auto. apply Nat.eqb_eq. apply (H O). auto.
      * intros j v E. apply (H (S j)). auto.
Qed.
Lemma find_pos (fixed : list (nat * nat)) i w : NoDup (map fst fixed) -> In (i, w) fixed -> fx_at fixed i = Some w.
Proof.
  unfold fx_at. induction fixed as [|[i' w'] fixed IH]; intros ND I; [destruct I|]. cbn [map fst] in ND. inversion ND; subst. cbn [find fst]. destruct I as [E|I].
  - injection E as -> ->. rewrite Nat.eqb_refl. auto.
  - destruct (Nat.eqb_spec i' i) as [->|]; [exfalso; apply H1; apply (in_map fst) in I; auto|auto].
Qed.
Lemma fx_at_In fixed i w : fx_at fixed i = Some w -> In (i, w) fixed.
Proof.
  unfold fx_at. destruct (find _ fixed) as [[i' w']|] eqn:F; [|discriminate]. cbn. intros E. injection E as <-. apply find_some in F as (I & E). cbn [fst] in E. apply Nat.eqb_eq in E. subst. auto.
Qed.
Lemma fixed_match fixed idx : NoDup (map fst fixed) -> (forall i w, In (i, w) fixed -> i < List.length idx) ->
  forallb (fun f => Nat.eqb (nth (fst f) idx O) (snd f)) fixed = match_fx (fx_list fixed 0 (List.length idx)) idx.
Proof.
  intros ND B. apply eq_true_iff_eq. rewrite match_fx_spec by (unfold fx_list; rewrite map_length, seq_length; auto). rewrite forallb_forall. split.
  - intros H j v E. unfold fx_list in E. rewrite nth_error_map' in E. destruct (nth_error (seq 0 (List.length idx)) j) as [q|] eqn:S; [|discriminate]. cbn [option_map] in E. injection E as E.
    assert (J : j < List.length idx) by (rewrite <- (seq_length (List.length idx) 0); apply nth_error_Some; congruence). rewrite nth_error_seq' in S by auto. injection S as <-. cbn [Nat.add] in E.
    apply fx_at_In in E. apply H in E. apply Nat.eqb_eq in E. auto.
  - intros H [i w] I. cbn [fst snd]. apply Nat.eqb_eq. apply H. unfold fx_list. rewrite nth_error_map', nth_error_seq' by eauto. cbn [option_map Nat.add]. f_equal. apply find_pos; auto.
Qed.
Definition resolved (axes : list axis) (s : string * Z) (f : nat * nat) : Prop := axis_pos axes (fst s) = Some (fst f) /\ np_index (snd s) (nth (fst f) (sizes axes) O) = Ok (snd f).
Lemma resolve_ok axes sel fixed : resolve_sel axes sel = Ok fixed -> Forall2 (resolved axes) sel fixed.
Proof.
  unfold resolve_sel. destruct (rmap (fun s : string * Z => match axis_pos axes (fst s) with None => Raise ValueError | Some i => Ok (i, snd s) end) sel) as [pos|] eqn:P; [|discriminate]. cbn [rbind]. intros Q.
  apply rmap_ok in P, Q. revert fixed Q. induction P as [|s p sel pos E P IH]; intros fixed Q; inversion Q as [|? f ? fx Ef Q']; subst; constructor; auto.
  destruct (axis_pos axes (fst s)) as [i|] eqn:A; [|discriminate]. injection E as <-. cbn [fst snd] in Ef.
  destruct (np_index (snd s) (nth i (sizes axes) 0)) as [w|] eqn:N; [|discriminate]. cbn [rbind] in Ef. injection Ef as <-. split; auto.
Qed.
Lemma np_index_ok z n w : np_index z n = Ok w -> w < n /\ Z.of_nat w = (if z <? 0 then z + Z.of_nat n else z)%Z.
Proof.
  unfold np_index. set (v := (if z <? 0 then z + Z.of_nat n else z)%Z). destruct (Z.ltb_spec v 0); [discriminate|]. destruct (Z.leb_spec (Z.of_nat n) v); [discriminate|]. cbn [orb]. intros E. injection E as <-. lia.
Qed.
Lemma axis_pos_Some axes n i : axis_pos axes n = Some i -> exists a, nth_error axes i = Some a /\ ax_name a = n.
Proof. unfold axis_pos. intros H. apply index_of_Some in H. rewrite nth_error_map' in H. destruct (nth_error axes i) as [a|]; [|discriminate]. injection H as <-. eauto. Qed.
Lemma resolved_NoDup axes sel fixed : NoDup (map fst sel) -> Forall2 (resolved axes) sel fixed -> NoDup (map fst fixed).
Proof.
  intros ND H. induction H as [|s f sel fixed (E & _) H IH]; [constructor|]. cbn [map] in ND |- *. inversion ND; subst. constructor; auto. intros I. apply H2.
  clear -E H I. induction H as [|s' f' sel fixed (E' & _) H IH]; [destruct I|]. cbn [map] in I |- *. destruct I as [I|I]; [left|right; auto].
  apply axis_pos_Some in E as (a & A & Na). apply axis_pos_Some in E' as (a' & A' & Na'). rewrite I in A'. congruence.
Qed.
(** free axes by position are the free axes by name *)
Lemma free_axes_eq {B} axes sel fixed (l : list B) : NoDup (map ax_name axes) -> Forall2 (resolved axes) sel fixed -> List.length l = List.length axes ->
  free_of (fx_list fixed 0 (List.length axes)) l = map snd (filter (fun ab : axis * B => negb (smem (ax_name (fst ab)) (map fst sel))) (combine axes l)).
Proof.
  intros ND H.
  assert (N : forall j a, nth_error axes j = Some a -> (fx_at fixed j = None <-> smem (ax_name a) (map fst sel) = false)).
  { intros j a A. rewrite <- not_true_iff_false, smem_In. split.
    - intros F I. apply in_map_iff in I as (s & Es & I). destruct (Forall2_combine_In _ _ _ H _ I) as (f & J & (P & _)). 
      apply axis_pos_Some in P as (a' & A' & Na). assert (fst f = j). { rewrite Es in Na. apply (NoDup_nth (map ax_name axes) _ _ (ax_name a) ND); rewrite nth_error_map'; [rewrite A'|rewrite A]; cbn [option_map]; congruence. }
      apply in_combine_r in J. unfold fx_at in F. destruct (find (fun f0 => Nat.eqb (fst f0) j) fixed) eqn:Fi; [discriminate|]. apply (find_none _ _ Fi) in J. rewrite H0, Nat.eqb_refl in J. discriminate.
    - intros I. destruct (fx_at fixed j) as [w|] eqn:F; auto. exfalso. apply I. apply fx_at_In in F. clear -H F A.
      induction H as [|s f sel fixed (P & _) H IH]; [destruct F|]. destruct F as [->|F]; [left|right; auto]. cbn [fst] in P. apply axis_pos_Some in P as (a' & A' & <-). congruence. }
  assert (G : forall (la : list axis) (ll : list B) k, List.length ll = List.length la -> (forall j a, nth_error la j = Some a -> (fx_at fixed (k + j) = None <-> smem (ax_name a) (map fst sel) = false)) ->
    free_of (fx_list fixed k (List.length la)) ll = map snd (filter (fun ab : axis * B => negb (smem (ax_name (fst ab)) (map fst sel))) (combine la ll))).
  { induction la as [|a la IH]; intros [|x ll] k L M; cbn [List.length] in L; try lia; auto. unfold fx_list. cbn [List.length seq map free_of combine filter fst].
    pose proof (M 0%nat a eq_refl) as M0. rewrite Nat.add_0_r in M0. fold (fx_list fixed (S k) (List.length la)).
    assert (R : free_of (fx_list fixed (S k) (List.length la)) ll = map snd (filter (fun ab : axis * B => negb (smem (ax_name (fst ab)) (map fst sel))) (combine la ll))).
    { apply IH; [lia|]. intros j a' A'. replace (S k + j) with (k + S j) by lia. apply M. auto. }
    destruct (fx_at fixed k), (smem (ax_name a) (map fst sel)); cbn [negb map snd]; rewrite ?R; auto; destruct M0 as (M1 & M2); [discriminate (M2 eq_refl)|discriminate (M1 eq_refl)]. }
  intros L. apply G; auto.
Qed.
Lemma free_sizes axes sel : map ax_size (filter (fun a => negb (smem (ax_name a) (map fst (sel : list (string * Z))))) axes) =
  map snd (filter (fun ab : axis * nat => negb (smem (ax_name (fst ab)) (map fst sel))) (combine axes (sizes axes))).
Proof. unfold sizes. induction axes as [|a axes IH]; auto. cbn [map combine filter fst]. destruct (negb (smem (ax_name a) (map fst sel))); cbn [map snd]; rewrite IH; auto. Qed.
Theorem global_indices_spec d r idx : global_indices d r = Ok idx -> region_ok d r ->
  List.length idx = prodn (free_shape d r) /\
  (forall b cell, in_region d r b cell -> in_shape (free_shape d r) cell /\ nth_error idx (ravel (free_shape d r) cell) = Some b) /\
  (forall b, In b idx -> exists cell, in_region d r b cell) /\ NoDup idx.
Proof.
  unfold global_indices, free_shape. intros H (NS & NA). destruct (dget (rg_chan r) (pd_channels d)) as [c|] eqn:Ec; [|discriminate]. specialize (NA c eq_refl).
  destruct (resolve_sel (cn_axes c) (rg_sel r)) as [fixed|] eqn:Rs; [|discriminate]. cbn [rbind] in H. injection H as <-. apply resolve_ok in Rs.
  set (shape := sizes (cn_axes c)). set (fx := fx_list fixed 0 (List.length (cn_axes c))).
  assert (NF : NoDup (map fst fixed)) by (eapply resolved_NoDup; eauto).
  assert (PB : forall i w, In (i, w) fixed -> exists s a, In s (rg_sel r) /\ nth_error (cn_axes c) i = Some a /\ ax_name a = fst s /\ np_index (snd s) (ax_size a) = Ok w).
  { intros i w I. clear -Rs I. induction Rs as [|s f sel fixed (P & Q) H IH]; [destruct I|]. destruct I as [->|I].
    - cbn [fst snd] in *. apply axis_pos_Some in P as (a & A & Na). exists s, a. split; [simpl; auto|]. split; auto. split; auto.
      unfold sizes in Q. erewrite nth_error_nth in Q; [exact Q|]. rewrite nth_error_map', A. auto.
    - destruct (IH I) as (s' & a & J & R). exists s', a. split; simpl; auto. }
  assert (IR : in_range shape fx).
  { unfold in_range, shape, fx, sizes, fx_list.
    assert (G : forall (la : list axis) k, (forall j a w, nth_error la j = Some a -> fx_at fixed (k + j) = Some w -> w < ax_size a) ->
      Forall2 (fun n o => match o with Some v => v < n | None => True end) (map ax_size la) (map (fx_at fixed) (seq k (List.length la)))).
    { induction la as [|a la IH]; intros k M; cbn [List.length seq map]; constructor.
      - destruct (fx_at fixed k) as [w|] eqn:F; auto. apply (M 0%nat a w); auto. rewrite Nat.add_0_r. auto.
      - apply IH. intros j a' w A F. apply (M (S j) a' w); auto. rewrite <- F. f_equal. lia. }
    apply G. intros j a w A F. cbn [Nat.add] in F. apply fx_at_In in F. apply PB in F as (s & a' & _ & A' & _ & N). rewrite A in A'. injection A' as <-. apply np_index_ok in N. tauto. }
  assert (EQ : sel_bins (cn_axes c) fixed = filter (match_fx fx) (all_idx shape)).
  { unfold sel_bins. fold shape. apply filter_ext_in. intros i I. apply all_idx_In in I. pose proof (in_shape_len _ _ I) as L. unfold shape, sizes in L. rewrite map_length in L.
    rewrite fixed_match; [unfold fx; rewrite L; auto|auto|]. intros j w J. apply PB in J as (s & a & _ & A & _). rewrite L. apply nth_error_Some. congruence. }
  assert (FS : map ax_size (free_axes c r) = free_of fx shape).
  { unfold free_axes. rewrite free_sizes. unfold fx. rewrite (free_axes_eq _ (rg_sel r)); auto. unfold shape, sizes. apply map_length. }
  destruct (sel_list shape fx IR) as (SL & SP).
  assert (SEL : forall i, in_shape shape i -> (selected c r i <-> match_fx fx i = true)).
  { intros i I. pose proof (in_shape_len _ _ I) as L. unfold shape, sizes in L. rewrite map_length in L. unfold fx. rewrite <- L.
    rewrite <- fixed_match; [|auto|intros j w J; apply PB in J as (s & a & _ & A & _); rewrite L; apply nth_error_Some; congruence].
    rewrite forallb_forall. split.
    - intros S [j w] J. cbn [fst snd]. apply Nat.eqb_eq. apply PB in J as ([n z] & a & Is & A & Na & N). cbn [fst snd] in *. destruct (S n z Is) as (j' & a' & A' & Na' & V).
      assert (j' = j) by (apply (NoDup_nth (map ax_name (cn_axes c)) _ _ (ax_name a) NA); rewrite nth_error_map'; [rewrite A'|rewrite A]; cbn [option_map]; congruence).
      subst j'. rewrite A in A'. injection A' as <-. apply np_index_ok in N as (_ & N). lia.
    - intros S n z Is. destruct (Forall2_combine_In _ _ _ Rs _ Is) as (f & J & (P & Q)). cbn [fst snd] in *. apply axis_pos_Some in P as (a & A & Na). exists (fst f), a. split; auto. split; auto.
      apply in_combine_r in J. apply S in J. apply Nat.eqb_eq in J. rewrite J. unfold sizes in Q. erewrite nth_error_nth in Q; [|rewrite nth_error_map', A; cbn [option_map]; reflexivity]. apply np_index_ok in Q. tauto. }
  assert (FI : forall i, in_shape shape i -> on_free c r i = free_of fx i).
  { intros i I. unfold on_free, fx. rewrite (free_axes_eq _ (rg_sel r)); auto. rewrite (in_shape_len _ _ I). unfold shape, sizes. apply map_length. }
  rewrite EQ, FS. split; [rewrite map_length; auto|]. split; [|split].
  - intros b cell (c' & i & Ec' & I & S & -> & ->). rewrite Ec in Ec'. injection Ec' as <-. change (shape_of c) with shape in *. rewrite (FI i I). apply (SEL i I) in S. destruct (SP i I S) as (A & B).
    split; auto. rewrite nth_error_map', B. auto.
  - intros b I. apply in_map_iff in I as (i & <- & I). apply filter_In in I as (I & M). apply all_idx_In in I. exists (on_free c r i), c, i. split; auto. split; auto. split; [apply SEL; auto|]. auto.
  - assert (NN : NoDup (filter (match_fx fx) (all_idx shape))) by (apply NoDup_filter', all_idx_NoDup).
    assert (SH : forall i, In i (filter (match_fx fx) (all_idx shape)) -> in_shape shape i) by (intros i I; apply filter_In in I as (I & _); apply all_idx_In; auto).
    revert NN SH. generalize (filter (match_fx fx) (all_idx shape)). intros l NN SH. induction NN as [|i l N NN IH]; [constructor|]. cbn [map]. constructor; [|apply IH; intros; apply SH; simpl; auto].
    intros I. apply in_map_iff in I as (j & E & J). apply N. assert (ravel shape j = ravel shape i) by lia. apply ravel_inj in H; [subst; auto| |]; apply SH; simpl; auto.
Qed.
