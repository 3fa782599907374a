(** When the merge script succeeds. *)
From Coq Require Import List Arith Bool String Lia Reals Lra.
From Verif Require Import PyList PyDict ListUtil Num RBase Order Names_Model Writer_Model Writer_Spec Writer_Frame Writer_Layout Writer_Meta
  Writer_Hist Writer_Tensor Writer_Effects Pseudo_Spec Pseudo_Proof Writer_Denote Card_Model Card_Convert Merge_Model Merge_Spec Merge_Lib Merge_Proof Merge_Effects.
Import ListNotations.
Local Open Scope nat_scope.
Local Open Scope string_scope.
Local Open Scope list_scope.

(** files that can be merged: dense, no masked channel, a process, and no negative variance *)
Definition mergeable (w : workspace R) : Prop :=
  (exists norm logk, w_tensors w = TDense norm logk) /\ (forall c i, In (c, i) (w_channels w) -> ch_masked i = false) /\ w_procs w <> [] /\
  (forall c p i b ip, at_point w c p i b ip -> 0 <= w_sumw2 w b ip)%R.
(** new names of the channels are all different, those of the processes within each file *)
Definition names_apart (rn : renames) (ws : list (workspace R)) : Prop :=
  NoDup (flat_map (fun w => map (renamed (rn_chans rn)) (dkeys (w_channels w))) ws) /\ Forall (fun w => NoDup (map (renamed (rn_procs rn)) (w_procs w))) ws.
(** a name is a signal in all files or in none *)
Definition signals_agree (rn : renames) (ws : list (workspace R)) : Prop :=
  forall w1 w2 p1 p2, In w1 ws -> In w2 ws -> In p1 (w_procs w1) -> In p2 (w_procs w2) ->
    renamed (rn_procs rn) p1 = renamed (rn_procs rn) p2 -> (In p1 (w_signals w1) <-> In p2 (w_signals w2)).

Lemma run_app2 cfg (a b : list (op R)) st st' st'' : run cfg st a = Ok st' -> run cfg st' b = Ok st'' -> run cfg st (a ++ b) = Ok st''.
Proof.
  revert st. induction a as [|o a IH]; intros st H1 H2; cbn [app run] in *. { injection H1 as <-. auto. }
  destruct (step cfg st o) as [s [e|]]; [discriminate|]. apply IH; auto.
Qed.
Lemma rows_len {A} (f : nat -> A) s n : List.length (rows f s n) = n.
Proof. unfold rows. rewrite map_length, seq_length. auto. Qed.
Lemma rows_pos f s n : (forall j, j < n -> (0 <= f (s + j)%nat)%R) -> existsb neg (rows f s n) = false.
Proof.
  intros H. apply not_true_iff_false. intros X. apply existsb_exists in X as (x & X1 & X2). unfold rows in X1. apply in_map_iff in X1 as (j & <- & J). apply in_seq in J.
  unfold neg in X2. cbn in X2. rewrite Rltb_false in X2; [discriminate|]. specialize (H j ltac:(lia)). lra.
Qed.
Lemma all_finite (l : list R) : forallb nfinite l = true.
Proof. induction l; auto. Qed.

Section Steps.
  Variable rn : renames.
  Variable t : systype.
  Variable w : workspace R.
  Notation cfg := (merge_cfg t).
  Variables (norm : nat -> nat -> R) (logk : nat -> nat -> nat -> R).
  Definition same (st st' : state R) : Prop := st_channels st' = st_channels st /\ st_data_obs st' = st_data_obs st /\ st_data_var st' = st_data_var st.

  Lemma proc_steps c' s n info : n = axes_size (ch_axes info) (ch_flow info) -> forall l st, dget c' (st_channels st) = Some info ->
    NoDup (map (fun ip => cut rn w (snd ip)) l) -> (forall ip, In ip l -> st_norm st c' (cut rn w (snd ip)) = None) ->
    (forall ip, In ip l -> forall j, j < n -> (0 <= w_sumw2 w (s + j)%nat (fst ip))%R) ->
    exists st', run cfg st (map (proc_call rn w norm c' s n) l) = Ok st' /\ same st st' /\
      forall q, st_norm st c' q <> None \/ In q (map (fun ip => cut rn w (snd ip)) l) -> st_norm st' c' q <> None.
  Proof.
    intros EN. induction l as [|[ip p] l IH]; intros st D ND NN S2. { exists st. split; auto. split; [repeat split|]. intros q [H|[]]; auto. }
    cbn [map run]. inversion ND as [|? ? N1 N2]. subst x l0. unfold proc_call at 1. cbn [step fst snd]. unfold add_process.
    assert (CH : check_hist st (HDense (rows (fun b => norm b ip) s n) (rows (fun b => w_sumw2 w b ip) s n)) c' = None).
    { unfold check_hist. rewrite D. cbn [hsize]. rewrite rows_len, EN, Nat.eqb_refl. auto. }
    rewrite CH. pose proof (NN (ip, p) (or_introl eq_refl)) as N0. cbn [snd] in N0. rewrite N0. unfold store_norm. rewrite all_finite. unfold store_sumw2, flat_variances.
    rewrite rows_pos by (apply (S2 (ip, p)); left; auto). cbn [rbind]. rewrite all_finite.
    set (st1 := set_norm _ _ _). destruct (IH st1) as (st' & R & (S1 & S3 & S4) & Q).
    - unfold st1. destruct (smem p (w_signals w)); auto.
    - auto.
    - intros x Hx. unfold st1. assert (X : forall s0 : state R, st_norm s0 = st_norm st -> upd2 (st_norm s0) c' (cut rn w p) (Some (NDense (map clip0 (rows (fun b => norm b ip) s n)))) c' (cut rn w (snd x)) = None).
      { intros s0 E. unfold upd2, upd1. rewrite String.eqb_refl. destruct (String.eqb_spec (cut rn w p) (cut rn w (snd x))) as [E2|]. { exfalso. apply N1. rewrite E2. apply (in_map (fun ip => cut rn w (snd ip))). auto. }
        rewrite E. apply NN. right. auto. }
      destruct (smem p (w_signals w)); apply X; auto.
    - intros x Hx. apply S2. right. auto.
    - exists st'. split; [exact R|]. split.
      + unfold same. rewrite S1, S3, S4. unfold st1. destruct (smem p (w_signals w)); repeat split.
      + intros q H. apply Q. cbn [map In] in H. assert (X : st_norm st1 c' q = if String.eqb (cut rn w p) q then Some (NDense (map clip0 (rows (fun b => norm b ip) s n))) else st_norm st c' q).
        { unfold st1. destruct (smem p (w_signals w)); cbn; unfold upd2, upd1; rewrite String.eqb_refl; auto. }
        rewrite X. destruct (String.eqb_spec (cut rn w p) q); [left; discriminate|]. tauto.
  Qed.
  Definition okcall c' n (st : state R) (o : op R) : Prop := match o with
    | AddSystematic (SPair (HDense u _) (HDense d _)) _ q c _ _ NoSym false _ => c = c' /\ List.length u = n /\ List.length d = n /\ st_norm st c' q <> None
    | _ => False end.
  Lemma syst_steps c' n info : n = axes_size (ch_axes info) (ch_flow info) -> forall l st, dget c' (st_channels st) = Some info -> Forall (okcall c' n st) l ->
    exists st', run cfg st l = Ok st' /\ same st st'.
  Proof.
    intros EN. induction l as [|o l IH]; intros st D F. { exists st. split; [auto|repeat split]. }
    inversion F as [|? ? F1 F2]. subst x l0. destruct o as [| | | |h nm q c kf mi m ad kw|]; try contradiction. destruct h as [|[u u2|] [d d2|]]; try contradiction. destruct m; try contradiction.
    destruct ad; [contradiction|]. destruct F1 as (-> & LU & LD & N). cbn [run].
    assert (exists st1, step cfg st (AddSystematic (SPair (HDense u u2) (HDense d d2)) nm q c' kf mi NoSym false kw) = (st1, None)) as (st1 & S).
    { cbn [step]. unfold add_systematic. destruct (st_norm st c' q) as [na|]; [|congruence].
      assert (CH : forall v v2, List.length v = n -> check_hist st (HDense v v2) c' = None). { intros v v2 L. unfold check_hist. rewrite D. cbn [hsize]. rewrite L, EN, Nat.eqb_refl. auto. }
      rewrite !CH by auto. assert (SV : forall v v2, exists x, syst_vals na (HDense v v2) = Ok x) by (intros v v2; destruct na; cbn; eauto).
      destruct (SV u u2) as (x & ->). destruct (SV d d2) as (y & ->). cbn [rbind]. unfold get_logk. rewrite !all_finite. cbn [rbind].
      destruct (compute_asym_syst _ _ _ _ _ _ _ _ _ _). eauto. }
    rewrite S. pose proof (base_add_systematic _ _ _ _ _ _ _ _ _ _ _ _ S) as B. unfold base in B. injection B. intros B1 B2 B3 B4 B5 B6 B7 B8 B9 B10.
    destruct (IH st1) as (st' & R & (S1 & S2 & S3)).
    - congruence.
    - eapply Forall_impl; [|exact F2]. intros o Ho. destruct o as [| | | |h0 nm0 q0 c0 kf0 mi0 m0 ad0 kw0|]; try contradiction. destruct h0 as [|[u0 u20|] [d0 d20|]]; try contradiction. destruct m0; try contradiction.
      destruct ad0; [contradiction|]. cbn in *. rewrite B2. auto.
    - exists st'. split; auto. unfold same in *. repeat split; congruence.
  Qed.
End Steps.


Definition Iv (st : state R) : Prop := (forall x i, In (x, i) (st_channels st) -> ch_masked i = false) /\
  (forall x, In x (dkeys (st_channels st)) -> st_data_obs st x <> None /\ st_data_var st x <> None).
Lemma channel_steps rn t (w : workspace R) norm logk c info s (st : state R) :
  (forall j, j < axes_size (ch_axes info) false -> (0 <= w_data_var w (s + j)%nat)%R) ->
  (forall ip p j, nth_error (w_procs w) ip = Some p -> j < axes_size (ch_axes info) false -> (0 <= w_sumw2 w (s + j)%nat ip)%R) -> NoDup (map (cut rn w) (w_procs w)) ->
  (forall p, In p (w_procs w) -> cut rn w p = renamed (rn_procs rn) p) -> Iv st -> st_data_obs st (renamed (rn_chans rn) c) = None ->
  exists st', run (merge_cfg t) st (chan_list rn w norm logk c info s (axes_size (ch_axes info) false)) = Ok st' /\ Iv st' /\
    (forall x, st_data_obs st' x = None <-> st_data_obs st x = None /\ x <> renamed (rn_chans rn) c).
Proof.
  intros VD VS ND CF (I1 & I2) DN. set (c' := renamed (rn_chans rn) c) in *. unfold chan_list. fold c'.
  set (n := axes_size (ch_axes info) false). set (i' := mkCh (ch_axes info) false false).
  change (AddChannel (Some c') (ch_axes info) false false :: map (proc_call rn w norm c' s n) (enumerate (w_procs w)) ++
    AddData c' (rows (w_data_obs w) s n) (rows (w_data_var w) s n) :: flat_map (syst_calls rn w norm logk c' s n) (enumerate (w_systs w)))
    with ([AddChannel (Some c') (ch_axes info) false false] ++ map (proc_call rn w norm c' s n) (enumerate (w_procs w)) ++
    [AddData c' (rows (w_data_obs w) s n) (rows (w_data_var w) s n)] ++ flat_map (syst_calls rn w norm logk c' s n) (enumerate (w_systs w))).
  assert (exists st1, step (merge_cfg t) st (AddChannel (Some c') (ch_axes info) false false) = (st1, None) /\ st_channels st1 = dset c' i' (st_channels st) /\
    st_data_obs st1 = st_data_obs st /\ st_data_var st1 = st_data_var st /\ forall q, st_norm st1 c' q = None) as (st1 & S1 & C1 & O1 & V1 & N1).
  { cbn [step]. unfold add_channel. cbn [andb negb]. eexists. split; [reflexivity|]. cbn [st_channels st_data_obs st_data_var st_norm set_channels]. split; [|split; [auto|split; auto]].
    - assert (F : filter (fun kv => ch_masked (snd kv)) (st_channels st) = [] /\ filter (fun kv => negb (ch_masked (snd kv))) (st_channels st) = st_channels st).
      { revert I1. generalize (st_channels st). induction d as [|[x i] d IH]; intros H; cbn; auto. rewrite (H x i) by (left; auto). cbn. destruct IH as [-> ->]; auto. intros y j Hy. apply (H y). right. auto. }
      destruct F as [-> ->]. reflexivity.
    - intros q. unfold upd1. rewrite String.eqb_refl. auto. }
  assert (D1 : dget c' (st_channels st1) = Some i') by (rewrite C1; apply dget_dset_same).
  assert (SND : map (fun ip : nat * string => cut rn w (snd ip)) (enumerate (w_procs w)) = map (cut rn w) (w_procs w)).
  { unfold enumerate. generalize (w_procs w) 0. clear. induction l as [|p l IH]; intros k; cbn; auto. f_equal. apply IH. }
  destruct (proc_steps rn t w norm logk c' s n i' eq_refl (enumerate (w_procs w)) st1 D1) as (st2 & R2 & (C2 & O2 & V2) & Q2).
  { rewrite SND. auto. } { intros ip _. apply N1. }
  { intros [ip p] Hp j Hj. apply enumerate_In in Hp. cbn [fst]. eapply VS; eauto. }
  assert (exists st3, step (merge_cfg t) st2 (AddData c' (rows (w_data_obs w) s n) (rows (w_data_var w) s n)) = (st3, None) /\ st_channels st3 = st_channels st2 /\ st_norm st3 = st_norm st2 /\
    st_data_obs st3 = upd1 (st_data_obs st2) c' (Some (rows (w_data_obs w) s n)) /\ st_data_var st3 = upd1 (st_data_var st2) c' (Some (rows (w_data_var w) s n))) as (st3 & S3 & C3 & NO3 & O3 & V3).
  { cbn [step]. unfold add_data. assert (CH : check_hist st2 (HDense (rows (w_data_obs w) s n) (rows (w_data_var w) s n)) c' = None).
    { unfold check_hist. rewrite C2, D1. cbn [hsize]. rewrite rows_len. unfold i'. cbn. fold n. rewrite Nat.eqb_refl. auto. }
    rewrite CH, O2, O1, DN. unfold flat_variances. rewrite rows_pos by auto. eexists. split; [reflexivity|]. cbn. repeat split; rewrite ?O2, ?O1; auto. }
  destruct (syst_steps t c' n i' eq_refl (flat_map (syst_calls rn w norm logk c' s n) (enumerate (w_systs w))) st3) as (st4 & R4 & (C4 & O4 & V4)).
  { congruence. }
  { apply Forall_forall. intros o Ho. apply in_flat_map in Ho as ([k nm] & _ & Ho). cbn [syst_calls] in Ho. apply in_map_iff in Ho as ([ip p] & <- & Ho).
    apply filter_In in Ho as [Ho _]. apply enumerate_In in Ho. apply nth_error_In in Ho. cbn [okcall fst snd]. rewrite !rows_len. repeat split. rewrite NO3. apply Q2. right.
    rewrite SND, <- CF by auto. apply in_map. auto. }
  exists st4. split; [|split].
  - eapply run_app2. { cbn [run]. rewrite S1. reflexivity. } eapply run_app2; [exact R2|]. eapply run_app2; [|exact R4]. cbn [run]. rewrite S3. reflexivity.
  - split.
    + intros x i H. rewrite C4, C3, C2, C1 in H. assert (X : (x, i) = (c', i') \/ In (x, i) (st_channels st)).
      { revert H. generalize (st_channels st). clear. induction d as [|[y j] d IH]; cbn; [intros [<-|[]]; auto|]. destruct (String.eqb_spec c' y); cbn; intros [H|H]; subst; auto; try (destruct (IH H); auto). }
      destruct X as [X|X]; [injection X as -> ->; auto|]. eapply I1; eauto.
    + intros x H. rewrite C4, C3, C2, C1 in H. apply dkeys_dset in H. rewrite O4, V4, O3, V3, O2, V2, O1, V1. unfold upd1. destruct (String.eqb_spec c' x); [split; discriminate|].
      destruct H as [H|H]; [congruence|]. apply I2. auto.
  - intros x. rewrite O4, O3, O2, O1. unfold upd1. destruct (String.eqb_spec c' x) as [E|E]; [split; [discriminate|intros [_ H]; congruence]|]. split; [intros H; split; auto; congruence|tauto].
Qed.

Lemma each_cons {V A} (f : A -> trace (V := V)) x l : each f (x :: l) = andthen (f x) (each f l).
Proof. reflexivity. Qed.

(** *** variances of data are not negative *)
Lemma data_checked cfg ops : forall (st st' : state R), run cfg st ops = Ok st' -> forall c v w, In (AddData c v w) ops -> existsb neg w = false.
Proof.
  induction ops as [|o ops IH]; intros st st' RU c v w H; [contradiction|]. apply run_cons in RU as (s & S & RU). destruct H as [->|H]; [|eapply IH; eauto].
  cbn [step] in S. unfold add_data in S. destruct (check_hist _ _ _); [congruence|]. destruct (st_data_obs st c); [congruence|].
  unfold flat_variances in S. destruct (existsb neg w); [congruence|auto].
Qed.
Lemma script_var w c s e info j : from_script w -> In (c, (s, e)) (reader_ranges 0 (w_channels w)) -> dget c (w_channels w) = Some info -> ch_masked info = false ->
  j < e - s -> (0 <= w_data_var w (s + j)%nat)%R.
Proof.
  intros (cfg & o & (st & RU & Wt) & (_ & _ & C3 & _)) I D M J. destruct (written_data_var _ _ _ _ RU Wt (once_stable _ C3) _ _ _ _ I D M) as (v & V1 & V2). rewrite V2 by auto.
  apply in_map_iff in V1 as ([c0 [a b]] & E & V1). cbn in E. injection E as -> ->. unfold data_log in V1. apply in_flat_map in V1 as (x & X1 & X2). destruct x; try contradiction. destruct X2 as [X2|[]]. injection X2 as -> -> ->.
  pose proof (data_checked _ _ _ _ RU _ _ _ X1) as P. destruct (le_lt_dec (List.length v) j) as [L|L]. { rewrite nth_overflow by auto. apply Rle_refl. }
  destruct (Rlt_le_dec (nth j v 0%R) 0); auto. exfalso. assert (T : existsb neg v = true); [|congruence]. apply existsb_exists. exists (nth j v 0%R). split; [apply nth_In; auto|].
  unfold neg. cbn. apply Rltb_true. auto.
Qed.
Lemma debug_reader' w : mergeable w -> from_script w -> forall c info a n, In (c, (info, (a, n))) (debug_ranges 0 (w_channels w)) ->
  n = axes_size (ch_axes info) false /\ In (c, (a, a + n)) (reader_ranges 0 (w_channels w)) /\ dget c (w_channels w) = Some info.
Proof.
  intros (_ & U & _) F c info a n H. destruct (debug_In w _ _ _ _ H) as (I & E). split; auto.
  assert (ND : NoDup (dkeys (w_channels w))).
  { destruct F as (cfg & o & (st & RU & Wt) & (_ & _ & C3 & _)). destruct (layout_correct cfg o st w RU Wt (once_stable _ C3)) as (L1 & _). rewrite reader_names in L1. auto. }
  split; [|apply In_dget; auto]. assert (FL : forall c i, In (c, i) (w_channels w) -> ch_flow i = false).
  { intros c0 i0 H0. destruct F as (cfg & o & W1 & C1). eapply no_flow; eauto. apply In_dget; eauto. }
  revert H FL. generalize (w_channels w) 0. clear. induction d as [|[c0 i0] d IH]; intros z H FL; cbn [debug_ranges reader_ranges] in *; [contradiction|].
  destruct H as [H|H].
  - injection H as -> -> -> <-. rewrite (FL c info) by (left; auto). left. auto.
  - right. rewrite (FL c0 i0) by (left; auto). apply IH; auto. intros c1 i1 H1. apply (FL c1). right. auto.
Qed.

Section Accept.
  Variable rn : renames.
  Variable t : systype.
  Variable ws : list (workspace R).
  Hypothesis OK : Forall mergeable ws.
  Hypothesis FS : Forall from_script ws.
  Hypothesis NF : names_fit rn ws.
  Hypothesis NA : names_apart rn ws.
  Hypothesis SG : signals_agree rn ws.

  Lemma fits w p : In w ws -> In p (w_procs w) -> cut rn w p = renamed (rn_procs rn) p.
  Proof. apply cut_fits. exact NF. Qed.
  Lemma channels_steps w : In w ws -> forall d a st, incl (debug_ranges a d) (debug_ranges 0 (w_channels w)) -> NoDup (map (renamed (rn_chans rn)) (dkeys d)) -> Iv st -> (forall c, In c (dkeys d) -> st_data_obs st (renamed (rn_chans rn) c) = None) ->
    exists st', run (merge_cfg t) st (flat_map (fun x => chan_list rn w (norm_of w) (logk_of w) (fst x) (fst (snd x)) (fst (snd (snd x))) (snd (snd (snd x)))) (debug_ranges a d)) = Ok st' /\ Iv st' /\
      (forall x, st_data_obs st' x = None <-> st_data_obs st x = None /\ ~ In x (map (renamed (rn_chans rn)) (dkeys d))).
  Proof.
    intros I. assert (OW := proj1 (Forall_forall _ _) OK w I).
    assert (NP : NoDup (map (cut rn w) (w_procs w))). { rewrite (map_ext_in _ (renamed (rn_procs rn))) by (intros p Hp; apply fits; auto). apply (proj1 (Forall_forall _ _) (proj2 NA) w I). }
    assert (DR : forall c info a n, In (c, (info, (a, n))) (debug_ranges 0 (w_channels w)) -> n = axes_size (ch_axes info) false /\ In (c, (a, a + n)) (reader_ranges 0 (w_channels w)) /\ dget c (w_channels w) = Some info).
    { apply debug_reader'; auto. exact (proj1 (Forall_forall _ _) FS w I). }
    assert (VS : forall c info a n, In (c, (info, (a, n))) (debug_ranges 0 (w_channels w)) -> (forall ip p j, nth_error (w_procs w) ip = Some p -> j < n -> (0 <= w_sumw2 w (a + j)%nat ip)%R) /\ (forall j, j < n -> (0 <= w_data_var w (a + j)%nat)%R)).
    { intros c info a n H. destruct (DR c info a n H) as (E & H2 & H3). destruct OW as (_ & U & P & S). split.
      - intros ip p j Hp Hj. apply (S c p j). exists a, (a + n). repeat split; auto. lia.
      - intros j Hj. apply (script_var w c a (a + n) info); auto; [apply (proj1 (Forall_forall _ _) FS w I)| |lia]. apply (U c). apply dget_In. auto. }
    intros d a st. assert (G : incl (debug_ranges a d) (debug_ranges 0 (w_channels w)) -> NoDup (map (renamed (rn_chans rn)) (dkeys d)) -> Iv st -> (forall c, In c (dkeys d) -> st_data_obs st (renamed (rn_chans rn) c) = None) ->
    exists st', run (merge_cfg t) st (flat_map (fun x => chan_list rn w (norm_of w) (logk_of w) (fst x) (fst (snd x)) (fst (snd (snd x))) (snd (snd (snd x)))) (debug_ranges a d)) = Ok st' /\ Iv st' /\
      (forall x, st_data_obs st' x = None <-> st_data_obs st x = None /\ ~ In x (map (renamed (rn_chans rn)) (dkeys d)))); [|auto]. revert a st.
    induction d as [|[c info] d IH]; intros a st IN N V D. { exists st. split; auto. split; auto. intros x. cbn. tauto. }
    cbn [debug_ranges flat_map fst snd dkeys map] in *. inversion N as [|? ? N1 N2]. subst.
    destruct (channel_steps rn t w (norm_of w) (logk_of w) c info a st (proj2 (VS c info a _ (IN _ (or_introl eq_refl)))) (proj1 (VS c info a _ (IN _ (or_introl eq_refl)))) NP (fun p => fits w p I) V (D c (or_introl eq_refl))) as (st1 & R1 & V1 & O1).
    destruct (IH (a + axes_size (ch_axes info) false) st1 (fun x H => IN x (or_intror H)) N2 V1) as (st2 & R2 & V2 & O2).
    { intros c2 H. apply O1. split; [apply D; right; auto|]. intros E. apply N1. rewrite <- E. apply in_map. auto. }
    exists st2. split; [eapply run_app2; eauto|]. split; auto. intros x. rewrite O2, O1. cbn. intuition congruence.
  Qed.
  Lemma inputs_steps : forall l st, incl l ws -> NoDup (flat_map (fun w => map (renamed (rn_chans rn)) (dkeys (w_channels w))) l) -> Iv st ->
    (forall x, In x (flat_map (fun w => map (renamed (rn_chans rn)) (dkeys (w_channels w))) l) -> st_data_obs st x = None) ->
    exists st', run (merge_cfg t) st (flat_map (input_list rn) l) = Ok st' /\ Iv st'.
  Proof.
    induction l as [|w l IH]; intros st IN N V D. { exists st. auto. } cbn [flat_map] in *. apply NoDup_app_inv in N as (N1 & N2 & N3).
    destruct (channels_steps w (IN w (or_introl eq_refl)) (w_channels w) 0 st (fun x H => H) N1 V) as (st1 & R1 & V1 & O1).
    { intros c H. apply D. apply in_app_iff. left. apply in_map. auto. }
    destruct (IH st1) as (st2 & R2 & V2); auto. { intros x Hx. apply IN. right. auto. }
    { intros x Hx. apply O1. split; [apply D; apply in_app_iff; auto|]. intros H. exact (N3 x H Hx). }
    exists st2. split; auto. eapply run_app2; eauto.
  Qed.
  Lemma calls_ok : merge_calls rn ws = (ops rn ws, None).
  Proof.
    unfold merge_calls, ops. assert (Q : forall l, incl l ws -> each (input_calls rn) l = (flat_map (input_list rn) l, None)).
    { induction l as [|w l IH]; intros IN; [reflexivity|]. rewrite each_cons. cbn [flat_map]. rewrite IH by (intros x Hx; apply IN; right; auto).
      assert (E : input_calls rn w = (input_list rn w, None)); [|unfold andthen; rewrite E; reflexivity].
      destruct (proj1 (Forall_forall _ _) OK w (IN w (or_introl eq_refl))) as ((nm & lk & T) & U & P & _). unfold input_calls, input_list, norm_of, logk_of. rewrite T. cbn [view_norm view_logk].
      assert (U2 : forall x, In x (debug_ranges 0 (w_channels w)) -> ch_masked (fst (snd x)) = false).
      { intros [c [i [s n]]] H. apply debug_In in H as [H _]. apply (U c i H). }
      revert U2. generalize (debug_ranges 0 (w_channels w)). induction l0 as [|[c [i [s n]]] d IHd]; intros U2; [reflexivity|]. rewrite each_cons. cbn [flat_map fst snd].
      rewrite IHd by (intros x Hx; apply U2; right; auto).
      assert (E2 : channel_calls rn w nm lk (c, (i, (s, n))) = (chan_list rn w nm lk c i s n, None)); [|unfold andthen; rewrite E2; reflexivity].
      unfold channel_calls. destruct (w_procs w) eqn:EP; [contradiction|]. rewrite <- EP. pose proof (U2 (c, (i, (s, n))) (or_introl eq_refl)) as M. cbn [fst snd] in M. rewrite M.
      unfold andthen, emit, chan_list. reflexivity. }
    apply Q. intros x. auto.
  Qed.
  Lemma accepted : exists W, merge rn t ws = Ok W.
  Proof.
    destruct (inputs_steps ws init_state (fun x H => H) (proj1 NA)) as (st & RU & V1 & V2). { split; intros x; [intros i []|intros []]. } { intros x _. reflexivity. }
    fold (ops rn ws) in RU. unfold merge. rewrite calls_ok. cbn [fst snd]. rewrite RU. cbn [rbind]. unfold write.
    destruct (run_proc_sets _ _ _ RU) as (_ & _ & P1 & P2).
    assert (PD : forall p' b, In (p', b) (proc_decls (ops rn ws)) -> exists w p, In w ws /\ In p (w_procs w) /\ p' = renamed (rn_procs rn) p /\ b = smem p (w_signals w)).
    { intros p' b H. unfold proc_decls in H. apply in_flat_map in H as (o & Ho & H). apply ops_In in Ho as (w & c & info & s & n & I & D & Ho). apply chan_list_In in Ho as [->|[(ip & p & N & ->)|[->|(k & nm & ip & p & _ & _ & _ & _ & ->)]]]; try contradiction.
      cbn in H. destruct H as [H|[]]. injection H as <- <-. apply nth_error_In in N. exists w, p. split; auto. split; auto. split; auto. apply fits; auto. }
    assert (X : existsb (fun s => smem s (st_bkgs st)) (st_signals st) = false).
    { apply not_true_iff_false. intros X. apply existsb_exists in X as (p' & X1 & X2). apply smem_In in X2. apply P1, PD in X1 as (w1 & p1 & I1 & Q1 & E1 & S1). apply P2, PD in X2 as (w2 & p2 & I2 & Q2 & E2 & S2).
      symmetry in S1. apply smem_In in S1. apply (SG w1 w2 p1 p2 I1 I2 Q1 Q2 ltac:(congruence)) in S1. apply smem_In in S1. congruence. }
    rewrite X. assert (FD : forall d, (forall x, In x (dkeys (st_channels st)) -> d x <> None) -> exists a, fill_data st d = Ok a).
    { intros d H. unfold fill_data, unmasked_offsets. assert (K : forall co, In co (filter (fun co => match dget (fst co) (st_channels st) with Some i => negb (ch_masked i) | None => false end) (chan_offsets st)) -> d (fst co) <> None).
      { intros co Hco. apply filter_In in Hco as [_ Hco]. apply H. destruct (dget (fst co) (st_channels st)) eqn:G; [|discriminate]. apply dget_In in G. apply (in_map fst) in G. auto. }
      revert K. generalize (filter (fun co => match dget (fst co) (st_channels st) with Some i => negb (ch_masked i) | None => false end) (chan_offsets st)).
      intros l. generalize (fun _ : nat => @n0 R _) as a0. induction l as [|[c [ib n]] l IH]; intros a0 K; cbn [fold_left]; eauto. cbn [rbind].
      pose proof (K _ (or_introl eq_refl)) as Kc. cbn [fst] in Kc. destruct (d c); [|congruence]. apply IH. intros co Hco. apply K. right. auto. }
    destruct (FD (st_data_obs st)) as (a1 & ->). { intros x Hx. apply V2. auto. } destruct (FD (st_data_var st)) as (a2 & ->). { intros x Hx. apply V2. auto. } cbn [rbind].
    assert (PS : st_pseudonames st = []).
    { destruct (st_pseudonames st) as [|x l] eqn:E; auto. exfalso. assert (H : In x (st_pseudonames st)) by (rewrite E; left; auto). revert H. clear - RU.
      assert (G : forall os s1 s2, Forall (fun o => match o with AddPseudodata _ _ _ => False | _ => True end) os -> run (merge_cfg t) s1 os = Ok s2 -> st_pseudonames s2 = st_pseudonames s1).
      { induction os as [|o os IH]; intros s1 s2 F H. { injection H as <-. auto. } apply run_cons in H as (s & S & H). inversion F as [|? ? F1 F2]. subst. rewrite (IH _ _ F2 H). clear - S F1.
        pose proof (step_frame _ _ _ _ S) as SF. destruct o; try contradiction; tauto. }
      rewrite (G _ _ _ ltac:(apply Forall_forall; intros o Ho; apply ops_In in Ho as (w & c & info & s & n & _ & _ & Ho);
        apply chan_list_In in Ho as [->|[(ip & p & _ & ->)|[->|(k & nm & ip & p & _ & _ & _ & _ & ->)]]]; exact I) RU). auto. }
    assert (FP : exists a, fill_pseudo st = Ok a).
    { unfold fill_pseudo. rewrite PS. cbn [enumerate List.length seq combine fold_left]. generalize (unmasked_offsets st) (zeros2 (V := R)). induction l as [|[c [ib n]] l IH]; intros z; cbn [fold_left]; eauto. }
    destruct FP as (a3 & ->). cbn [rbind c_sparse merge_cfg].
    assert (MM : forall l, (forall s, In s l -> In s (get_systs st)) -> exists r, mapM (idx_or_keyerror (get_systs st)) l = Ok r).
    { induction l as [|s l IH]; intros H; cbn [mapM]; eauto. unfold idx_or_keyerror at 1. destruct (last_index_In s (get_systs st) (H s (or_introl eq_refl))) as (k & ->). cbn [rbind].
      destruct IH as (r & ->). { intros x Hx. apply H. right. auto. } cbn [rbind]. eauto. }
    pose proof (get_systs_In _ _ _ RU) as GI.
    destruct (MM (natural_sort (st_noi st))) as (r1 & E1). { intros s H. unfold natural_sort in H. rewrite sort_in in H. apply GI. apply noi_declared. eapply run_noi; eauto. }
    unfold get_noiidxs. rewrite E1. cbn [rbind].
    assert (GG : exists g, get_systgroups st = Ok g).
    { unfold get_systgroups. destruct (run_groups_s _ _ (run_sysp _ _ _ _ RU)) as (_ & _ & GM).
      assert (G2 : forall g m, In (g, m) (natural_sort_dict (st_systgroups st)) -> forall s, In s m -> In s (get_systs st)).
      { intros g m H s Hs. unfold natural_sort_dict in H. rewrite sort_in in H. apply GI. eapply group_declared. apply (GM g m H). exact Hs. }
      revert G2. generalize (natural_sort_dict (st_systgroups st)). induction d as [|[g m] d IH]; intros G2; cbn [mapM fst snd]; eauto.
      destruct (MM m) as (r & ->). { apply (G2 g). left. auto. } cbn [rbind]. destruct IH as (r2 & ->); [|cbn [rbind]; eauto]. intros g2 m2 H. apply (G2 g2). right. auto. }
    destruct GG as (g & ->). cbn [rbind]. eauto.
  Qed.
End Accept.

(** *** what scripts write *)
Lemma process_checked cfg ops : forall (st st' : state R), run cfg st ops = Ok st' -> forall h p c sg vs, In (AddProcess h p c sg vs) ops -> exists l, store_sumw2 h vs = Ok l.
Proof.
  induction ops as [|o ops IH]; intros st st' RU h p c sg vs H; [contradiction|]. apply run_cons in RU as (s & S & RU). destruct H as [->|H]; [|eapply IH; eauto].
  cbn [step] in S. apply add_process_inv in S as (_ & _ & nm & l & _ & S & _). eauto.
Qed.
Lemma last_of_In {E} (f : op R -> option E) ops e : last_of f ops = Some e -> exists o, In o ops /\ f o = Some e.
Proof.
  induction ops as [|o ops IH] using rev_ind; [discriminate|]. rewrite last_of_snoc. destruct (f o) eqn:F.
  - intros H. injection H as ->. exists o. split; auto. apply in_app_iff. right. left. auto.
  - intros H. destruct (IH H) as (x & X & Y). exists x. split; auto. apply in_app_iff. auto.
Qed.
(** a dense file of a script without masked channels and without variances taken from sparse histograms *)
Lemma dense_mergeable cfg ops w : written cfg ops w -> clean ops -> c_sparse cfg = false -> w_procs w <> [] ->
  (forall c i, In (c, i) (chan_decls [] ops) -> ch_masked i = false) ->
  (forall e n p c sg, ~ In (AddProcess (HSparse e n) p c sg None) ops) -> mergeable w.
Proof.
  intros Wr Cl D P U SP. split; [|split; [|split; [auto|]]].
  - destruct Wr as (st & RU & Wt). destruct (write_fields cfg st w Wt) as (_ & _ & _ & _ & _ & _ & _ & _ & _ & _ & _ & _ & _ & _ & _ & _ & _ & _ & _ & T).
    destruct (w_tensors w) as [a b|s]; [eauto|]. destruct T. congruence.
  - intros c i H. apply (U c). eapply channel_declared; eauto. destruct Wr as (st & RU & Wt). destruct Cl as (_ & _ & C3 & _).
    destruct (layout_correct cfg ops st w RU Wt (once_stable _ C3)) as (L1 & _). rewrite reader_names in L1. apply In_dget; auto.
  - intros c p i b ip AP. destruct (view_point _ _ _ _ _ _ _ _ Wr Cl AP) as (_ & _ & -> & _). unfold spec_sumw2.
    destruct (last_of (op_proc c p) ops) as [[h vs]|] eqn:L; [|apply Rle_refl]. apply last_of_In in L as (o & O & F). destruct o as [|h' p' c' sg vs'| | | |]; try discriminate.
    cbn in F. destruct (String.eqb c c' && String.eqb p p'); [|discriminate]. injection F as -> ->. destruct Wr as (st & RU & _). destruct (process_checked _ _ _ _ RU _ _ _ _ _ O) as (l & S).
    assert (FV : forall v l, flat_variances v = Ok l -> (0 <= nth i v 0)%R).
    { intros v l0 F. unfold flat_variances in F. destruct (existsb neg v) eqn:N; [discriminate|]. destruct (le_lt_dec (List.length v) i) as [I|I]. { rewrite nth_overflow by auto. apply Rle_refl. }
      destruct (Rlt_le_dec (nth i v 0%R) 0); auto. exfalso. assert (T : existsb neg v = true); [|congruence]. apply existsb_exists. exists (nth i v 0%R). split; [apply nth_In; auto|].
      unfold neg. cbn. apply Rltb_true. auto. }
    unfold store_sumw2 in S. destruct vs as [v|]; [|destruct h as [v v2|e n]].
    + destruct (flat_variances v) eqn:E; [|discriminate]. destruct h; eapply FV; eauto.
    + destruct (flat_variances v2) eqn:E; [|discriminate]. eapply FV; eauto.
    + exfalso. eapply SP; eauto.
Qed.
