(** The written tensors, read at (channel bin, process, nuisance), hold what the history of
    declarations means, in the dense and in the sparse layout. *)
From Coq Require Import List Arith Bool String Lia Permutation Sorted.
From Verif Require Import PyList ListUtil PyDict Order Num Names_Model Writer_Model Writer_Spec
  Writer_Frame Writer_Layout Writer_Meta Writer_Inv Writer_State Writer_Arr Writer_Tensor
  Writer_Hist Writer_Denote.
Import ListNotations.
Local Open Scope string_scope.
Local Open Scope list_scope.

Section Master.
  Context {V : Type} {NV : Num V} {NL : NumLaws V}.

  Lemma run_app cfg (o1 o2 : list (op V)) : forall st,
    run cfg st (o1 ++ o2) = match run cfg st o1 with Ok s => run cfg s o2 | Raise e => Raise e end.
  Proof.
    induction o1 as [|o o1 IH]; intros st; simpl; auto.
    destruct (step cfg st o) as [s [e|]]; auto.
  Qed.

  Lemma last_of_app {E} (f : op V -> option E) o1 o2 :
    last_of f (o1 ++ o2) = match last_of f o2 with Some e => Some e | None => last_of f o1 end.
  Proof.
    induction o2 as [|o o2 IH] using rev_ind.
    - rewrite app_nil_r. auto.
    - rewrite app_assoc, !last_of_snoc. destruct (f o); auto.
  Qed.
  Lemma last_of_None {E} (f : op V -> option E) ops :
    last_of f ops = None <-> forall o, In o ops -> f o = None.
  Proof.
    induction ops as [|o ops IH] using rev_ind.
    - unfold last_of; simpl. split; [contradiction|auto].
    - rewrite last_of_snoc. split.
      + intros H x Hx. apply in_app_iff in Hx. destruct (f o) eqn:F; [discriminate|].
        destruct Hx as [Hx|[<-|[]]]; auto. apply IH; auto.
      + intros H. rewrite (H o) by (apply in_app_iff; simpl; auto). apply IH.
        intros x Hx. apply H. apply in_app_iff; auto.
  Qed.

  Lemma off_reader_state cfg d st w c s e : ChanInv st d -> write cfg st = Ok w ->
    flags_stable d -> In (c, (s, e)) (reader_ranges 0 (w_channels w)) ->
    In (c, (s, e - s)) (chan_offsets st).
  Proof.
    intros R W F H. destruct (layout_state cfg d st w R W F) as (_ & _ & _ & _ & _ & E).
    rewrite <- E in H. apply in_map_iff in H. destruct H as [[c' [s' n]] [H1 H2]]. simpl in H1.
    injection H1 as -> -> <-. replace (s + n - s) with n by lia. auto.
  Qed.
  Lemma off_reader cfg ops st w c s e : run cfg init_state ops = Ok st -> write cfg st = Ok w ->
    flags_stable (chan_decls [] ops) -> In (c, (s, e)) (reader_ranges 0 (w_channels w)) ->
    In (c, (s, e - s)) (chan_offsets st).
  Proof. intros R W F H. eapply off_reader_state; eauto. apply (run_chan_init cfg ops st R F). Qed.

  (** what holds at one point of the tensors *)
  Definition holds_at cfg (ops : list (op V)) (w : workspace V) (c : string) (s i ip : nat) (p : string) : Prop :=
    view_norm (w_tensors w) (s + i) ip = spec_norm (c_allowneg cfg) ops c p i /\
    w_sumw w (s + i) ip = spec_norm (c_allowneg cfg) ops c p i /\
    w_sumw2 w (s + i) ip = spec_sumw2 ops c p i /\
    forall k n, nth_error (w_systs w) k = Some n ->
      view_logk (w_tensors w) (s + i) ip k = spec_avg cfg ops c p n i /\
      (w_symmetric w = false ->
       view_logk (w_tensors w) (s + i) ip (List.length (w_systs w) + k) = spec_half cfg ops c p n i).

  Theorem tensors_denote_state cfg ops d st w :
    ChanInv st d -> flags_stable d -> Inv cfg st -> KI (fun _ => False) st -> NoDup (get_systs st) ->
    Den cfg ops st -> write cfg st = Ok w ->
    w_symmetric w = negb (existsb is_asym ops) /\
    forall c s e i ip p, In (c, (s, e)) (reader_ranges 0 (w_channels w)) -> i < e - s ->
      nth_error (w_procs w) ip = Some p -> holds_at cfg ops w c s i ip p.
  Proof.
    intros CI FS IV K NS D W.
    assert (NB := fun c => inv_nb st _ c CI FS).
    assert (ND := inv_ch_NoDup st _ CI FS).
    destruct (write_fields cfg st w W) as (E1 & _ & _ & E2 & _ & E3 & _ & _ & _ & _ & ES & ES2 & EY & _ & _ & _ & _ & _ & _ & ET).
    assert (KS : forall c p s, In s (dkeys (st_logkavg st c p)) -> In s (get_systs st)).
    { intros c p s H. unfold get_systs, natural_sort. rewrite in_app_iff, !sort_in.
      destruct (K c p s H) as [[]|[H1|H1]]; auto. }
    split. { rewrite EY. apply (den_sym _ _ _ D). }
    intros c s e i ip p Hr Hi Hp.
    pose proof (off_reader_state cfg d st w c s e CI W FS Hr) as Ho.
    assert (NVq : normval st c p i = spec_norm (c_allowneg cfg) ops c p i).
    { unfold normval. pose proof (den_norm _ _ _ D c p) as Dn. destruct (st_norm st c p).
      - destruct Dn as (_ & Dn & _). apply Dn.
      - unfold spec_norm. rewrite Dn. auto. }
    assert (AVq : forall n, avgval st c p n i = spec_avg cfg ops c p n i).
    { intros n. unfold avgval. pose proof (den_avg _ _ _ D c p n) as Da. unfold entry_ok in Da.
      unfold spec_avg. destruct (dget n (st_logkavg st c p)).
      - destruct (last_of (op_avg c p n) ops); [|contradiction]. apply Da.
      - destruct (last_of (op_avg c p n) ops); [contradiction|]. auto. }
    assert (HVq : forall n, halfval st c p n i = spec_half cfg ops c p n i).
    { intros n. unfold halfval. pose proof (den_half _ _ _ D c p n) as Da. unfold entry_ok in Da.
      unfold spec_half. destruct (dget n (st_logkhalf st c p)).
      - destruct (last_of (op_half c p n) ops); [|contradiction]. apply Da.
      - destruct (last_of (op_half c p n) ops); [contradiction|]. auto. }
    rewrite E3 in *.
    assert (C3 : w_sumw2 w (s + i) ip = spec_sumw2 ops c p i).
    { rewrite ES2. rewrite (fill_sumw2_at cfg st IV ND (w_procs w) c p s (e - s) ip i Ho Hp Hi).
      pose proof (den_norm _ _ _ D c p) as Dn. destruct (st_norm st c p) as [nm|] eqn:N.
      - unfold sumw2val. destruct (inv_norm _ _ IV c p nm N) as (_ & _ & _ & (x & X & _)). rewrite X.
        apply (den_sumw2 _ _ _ D c p x); auto. congruence.
      - unfold spec_sumw2. rewrite Dn. auto. }
    assert (C2 : w_sumw w (s + i) ip = spec_norm (c_allowneg cfg) ops c p i).
    { rewrite ES, <- NVq. eapply fill_sumw_at; eauto. }
    unfold holds_at. rewrite E3. destruct (w_tensors w) as [nn kk|sp].
    - destruct ET as (SP & -> & ->). cbn [view_norm view_logk]. repeat split; auto.
      + rewrite <- NVq. eapply fill_norm_at; eauto.
      + rewrite <- AVq. eapply fill_logk_avg; eauto.
      + intros SY. rewrite <- HVq. eapply fill_logk_half; eauto; congruence.
    - destruct ET as (SP & ET). rewrite (write_sparse_eq cfg st IV (w_procs w) (get_systs st) NS KS) in ET.
      injection ET as <-. cbn [view_norm view_logk sp_norm sp_logk]. repeat split; auto.
      + rewrite <- NVq. eapply sview_norm; eauto.
      + rewrite <- AVq. eapply sview_avg; eauto.
      + intros SY. rewrite <- HVq. eapply sview_half; eauto.
  Qed.

  Theorem tensors_denote cfg ops st w :
    run cfg init_state ops = Ok st -> write cfg st = Ok w ->
    Forall wf_op ops -> Forall no_stored_zeros ops -> channels_once ops -> constraint_stable ops ->
    w_symmetric w = negb (existsb is_asym ops) /\
    forall c s e i ip p, In (c, (s, e)) (reader_ranges 0 (w_channels w)) -> i < e - s ->
      nth_error (w_procs w) ip = Some p -> holds_at cfg ops w c s i ip p.
  Proof.
    intros R W WF NZ CO CS.
    assert (FS : flags_stable (chan_decls [] ops)) by (apply once_stable; auto).
    destruct (run_Inv_init cfg ops st R WF FS) as [IV K].
    apply (tensors_denote_state cfg ops (chan_decls [] ops) st w); auto.
    - apply (run_chan_init cfg ops st R FS).
    - apply (get_systs_NoDup cfg ops st R CS).
    - apply (run_Den_init cfg ops st R WF NZ CO).
  Qed.

  (** *** a process booked in a channel is booked there once *)
  Lemma booked_state cfg ops st c p : Den cfg ops st -> booked ops c p -> st_norm st c p <> None.
  Proof.
    intros D (h & sg & vs & H) N. pose proof (den_norm _ _ _ D c p) as Dn. rewrite N in Dn.
    rewrite last_of_None in Dn. specialize (Dn _ H). simpl in Dn. rewrite !String.eqb_refl in Dn. discriminate.
  Qed.
  Lemma chan_decls_app (o1 o2 : list (op V)) : forall seen, exists r',
    chan_decls seen (o1 ++ o2) = chan_decls seen o1 ++ r'.
  Proof.
    induction o1 as [|o o1 IH]; intros seen; simpl; eauto.
    destruct o; simpl; auto. match goal with |- context[set_add ?x seen] => destruct (IH (set_add x seen)) as [r' E] end.
    rewrite E. eauto.
  Qed.
  Lemma channels_once_app (o1 o2 : list (op V)) : channels_once (o1 ++ o2) -> channels_once o1.
  Proof.
    unfold channels_once. destruct (chan_decls_app o1 o2 []) as [r' ->]. rewrite map_app.
    apply NoDup_app_l.
  Qed.

  Theorem duplicate_process cfg ops st h p c sg vs :
    run cfg init_state ops = Ok st -> Forall wf_op ops -> Forall no_stored_zeros ops -> channels_once ops ->
    booked ops c p ->
    step cfg st (AddProcess h p c sg vs) = (st, Some RuntimeError).
  Proof.
    intros R WF NZ CO B. pose proof (run_Den_init cfg ops st R WF NZ CO) as D.
    pose proof (booked_state _ _ _ _ _ D B) as N. simpl. unfold add_process.
    unfold check_hist. destruct (dget c (st_channels st)); [|auto].
    destruct (Nat.eqb _ _); auto. destruct (st_norm st c p); [auto|congruence].
  Qed.

  Theorem booked_once cfg ops st h p c sg vs :
    run cfg init_state ops = Ok st -> Forall wf_op ops -> Forall no_stored_zeros ops -> channels_once ops ->
    In (AddProcess h p c sg vs) ops -> last_of (op_proc c p) ops = Some (h, vs).
  Proof.
    intros R WF NZ CO H. destruct (in_split _ _ H) as (o1 & o2 & ->).
    assert (T : last_of (op_proc c p) o2 = None).
    { apply last_of_None. intros o Ho. destruct (op_proc c p o) as [x|] eqn:E; auto. exfalso.
      destruct (in_split _ _ Ho) as (o3 & o4 & ->).
      destruct o; try discriminate. simpl in E.
      destruct (String.eqb c ch && String.eqb p name) eqn:E1; [|discriminate].
      apply andb_true_iff in E1. destruct E1 as [E1 E2]. apply String.eqb_eq in E1, E2. subst ch name.
      set (pre := o1 ++ AddProcess h p c sg vs :: o3) in *.
      assert (EQ : o1 ++ AddProcess h p c sg vs :: o3 ++ AddProcess h0 p c signal vars :: o4
                   = pre ++ AddProcess h0 p c signal vars :: o4).
      { unfold pre. rewrite <- app_assoc. simpl. auto. }
      rewrite EQ in *. rewrite run_app in R. destruct (run cfg init_state pre) as [s1|] eqn:R1; [|discriminate].
      apply Forall_app in WF, NZ. destruct WF as [WF _], NZ as [NZ _]. apply channels_once_app in CO.
      cbn [run] in R. rewrite (duplicate_process cfg pre s1 h0 p c signal vars R1 WF NZ CO) in R; [discriminate|].
      exists h, sg, vs. unfold pre. apply in_app_iff. simpl. auto. }
    change (o1 ++ AddProcess h p c sg vs :: o2) with (o1 ++ [AddProcess h p c sg vs] ++ o2).
    rewrite !last_of_app, T. unfold last_of at 1. simpl. rewrite !String.eqb_refl. auto.
  Qed.

  Theorem signal_and_background cfg ops st p :
    run cfg init_state ops = Ok st -> In (p, true) (proc_decls ops) -> In (p, false) (proc_decls ops) ->
    write cfg st = Raise RuntimeError.
  Proof.
    intros R S B. destruct (run_proc_sets cfg ops st R) as (_ & _ & Hs & Hb).
    rewrite <- Hs in S. rewrite <- Hb in B. unfold write.
    replace (existsb (fun s => smem s (st_bkgs st)) (st_signals st)) with true; auto. symmetry.
    apply existsb_exists. exists p. split; auto. apply smem_In; auto.
  Qed.

  (** *** canonical form of the sparse tensors *)
  Theorem sparse_canonical cfg ops st w sp :
    run cfg init_state ops = Ok st -> write cfg st = Ok w -> w_tensors w = TSparse sp ->
    Forall wf_op ops -> flags_stable (chan_decls [] ops) -> constraint_stable ops ->
    StronglySorted lex2 (map fst (sp_norm sp)) /\
    (forall b ip v, In (b, ip, v) (sp_norm sp) -> b < w_nbinsfull w /\ ip < List.length (w_procs w)) /\
    StronglySorted lex2 (map fst (sp_logk sp)) /\
    sp_ncol sp = (if w_symmetric w then 1 else 2) * List.length (w_systs w) /\
    (forall j k v, In (j, k, v) (sp_logk sp) -> j < List.length (sp_norm sp) /\ k < sp_ncol sp) /\
    (forall j k v, In (j, k, v) (sp_logk sp) <->
       exists c s e i ip p x, In (c, (s, e)) (reader_ranges 0 (w_channels w)) /\ i < e - s /\
         nth_error (w_procs w) ip = Some p /\
         nth_error (sp_norm sp) j = Some (s + i, ip, x) /\
         fact st (w_systs w) c p k i v).
  Proof.
    intros R W T WF FS CS.
    destruct (run_Inv_init cfg ops st R WF FS) as [IV K].
    pose proof (run_chan_init cfg ops st R FS) as CI.
    assert (NB := fun c => inv_nb st _ c CI FS).
    assert (ND := inv_ch_NoDup st _ CI FS).
    assert (NS := get_systs_NoDup cfg ops st R CS).
    destruct (write_fields cfg st w W) as (E1 & _ & _ & E2 & _ & E3 & _ & _ & _ & _ & _ & _ & EY & _ & _ & _ & _ & _ & _ & ET).
    assert (KS : forall c p s, In s (dkeys (st_logkavg st c p)) -> In s (get_systs st)).
    { intros c p s H. unfold get_systs, natural_sort. rewrite in_app_iff, !sort_in.
      destruct (K c p s H) as [[]|[H1|H1]]; auto. }
    rewrite T in ET. destruct ET as (SP & ET). rewrite E3 in *.
    rewrite (write_sparse_eq cfg st IV (w_procs w) (get_systs st) NS KS) in ET. injection ET as <-.
    cbn [sp_norm sp_logk sp_ncol].
    destruct (layout_correct cfg ops st w R W FS) as (_ & _ & TL & _ & _ & LE).
    assert (RNG : forall c s n, In (c, (s, n)) (chan_offsets st) -> In (c, (s, s + n)) (reader_ranges 0 (w_channels w))).
    { intros c s n H. rewrite <- LE. apply in_map_iff. exists (c, (s, n)). auto. }
    assert (TB : forall r a b c s e, tiles a b r -> In (c, (s, e)) r -> e <= b).
    { clear. induction r as [|[x [s0 e0]] r IH]; intros a b c s e; simpl; [contradiction|].
      intros (-> & L & TL) [H|H]; [|eapply IH; eauto]. injection H as -> -> ->.
      clear IH. revert e L TL. induction r as [|[x [s1 e1]] r IH]; simpl; intros e L TL; [lia|].
      destruct TL as (-> & L1 & TL). specialize (IH e1 ltac:(lia) TL). lia. }
    assert (SZ : forall c ib n ip p nm i v, In (c, ib, n, ip, p, nm) (cells st (w_procs w)) ->
             In (i, v) (coo_entries nm) -> i < n).
    { intros c ib n ip p nm i v H H1. eapply coo_range; eauto. apply in_map_iff. exists (i, v). auto. }
    assert (KP : forall j k v, In (j, k, v) (ks' st (w_procs w) (get_systs st)) <->
       exists c s e i ip p x, In (c, (s, e)) (reader_ranges 0 (w_channels w)) /\ i < e - s /\
         nth_error (w_procs w) ip = Some p /\
         nth_error (ns' st (w_procs w)) j = Some (s + i, ip, x) /\
         fact st (get_systs st) c p k i v).
    { intros j k v. rewrite (In_ks' cfg st IV NB ND _ _ SP). split.
      - intros (c & ib & n & ip & p & nm & i & H1 & H2 & H3).
        pose proof H1 as H1'. apply cells_In in H1'. destruct H1' as (O & P & N).
        destruct (fact_populated cfg st IV _ _ _ _ _ _ _ N H2) as [PP _].
        apply in_map_iff in PP. destruct PP as ([i' v'] & PE & PP). simpl in PE. subst i'.
        exists c, ib, (ib + n), i, ip, p, (nden nm i). repeat split; auto.
        pose proof (SZ _ _ _ _ _ _ _ _ H1 PP). lia.
      - intros (c & s & e & i & ip & p & x & H1 & H2 & H3 & H4 & H5).
        pose proof (off_reader cfg ops st w c s e R W FS H1) as Ho.
        assert (exists nm, st_norm st c p = Some nm) as [nm N].
        { destruct (st_norm st c p) as [nm|] eqn:N; eauto. destruct (inv_none _ _ IV c p N) as [A1 A2].
          destruct H5 as [(s0 & e0 & _ & H5 & _)|(k0 & s0 & e0 & _ & _ & H5 & _)].
          - rewrite A1 in H5. discriminate. - rewrite A2 in H5. discriminate. }
        exists c, s, (e - s), ip, p, nm, i. split. { apply cells_In. auto. } split; auto.
        rewrite H4. apply nth_error_In in H4. apply In_ns' in H4.
        destruct H4 as (c' & ib' & n' & p' & nm' & i' & G1 & G2 & G3).
        assert (G4 : i' < n') by (eapply SZ; eauto).
        assert (HC : In (c, s, e - s, ip, p, nm) (cells st (w_procs w))) by (apply cells_In; auto).
        pose proof (cells_disjoint st ND (w_procs w) _ _ _ _ _ _ _ _ _ _ _ (s + i) HC G1 ltac:(lia) ltac:(lia)) as EE.
        injection EE as <- <- _ <- <-. assert (i' = i) by lia. subst i'.
        destruct (cell_size cfg st IV NB _ _ _ _ _ _ _ G1) as [_ WN].
        rewrite <- (coo_den cfg nm i WN). unfold at_or0.
        erewrite In_assoc; [reflexivity| |eauto]. apply sorted_lt_NoDup. eapply coo_sorted; eauto. }
    split. { eapply ns'_sorted; eauto. }
    split.
    { intros b ip v H. split.
      - apply In_ns' in H. destruct H as (c & ib & n & p & nm & i & H1 & -> & H2).
        pose proof (SZ _ _ _ _ _ _ _ _ H1 H2). apply cells_In in H1. destruct H1 as (O & _ & _).
        apply RNG in O. pose proof (TB _ _ _ _ _ _ TL O). lia.
      - eapply nsl_range. eapply Permutation_in; [apply ns'_perm|]. eauto. }
    split. { eapply ks'_sorted; eauto. }
    split. { rewrite EY. unfold ncol. destruct (st_symmetric st); lia. }
    split; [|exact KP].
    intros j k v H. split.
    - apply KP in H. destruct H as (c & s & e & i & ip & p & x & _ & _ & _ & H & _). apply nth_error_Some. congruence.
    - apply (In_ks' cfg st IV NB ND _ _ SP) in H. destruct H as (c & ib & n & ip & p & nm & i & H1 & H2 & _).
      apply cells_In in H1. destruct H1 as (_ & _ & N). eapply fact_col; eauto.
  Qed.

  (** with the meaning of the history: the stored numbers are the booked ones *)
  Theorem sparse_values cfg ops st w sp :
    run cfg init_state ops = Ok st -> write cfg st = Ok w -> w_tensors w = TSparse sp ->
    Forall wf_op ops -> Forall no_stored_zeros ops -> channels_once ops -> constraint_stable ops ->
    forall j k v, In (j, k, v) (sp_logk sp) ->
      exists c s e i ip p n, In (c, (s, e)) (reader_ranges 0 (w_channels w)) /\ i < e - s /\
        nth_error (w_procs w) ip = Some p /\
        nth_error (sp_norm sp) j = Some (s + i, ip, spec_norm (c_allowneg cfg) ops c p i) /\
        v <> n0 /\
        ((nth_error (w_systs w) k = Some n /\ v = spec_avg cfg ops c p n i) \/
         (w_symmetric w = false /\ exists k', k = List.length (w_systs w) + k' /\
            nth_error (w_systs w) k' = Some n /\ v = spec_half cfg ops c p n i)).
  Proof.
    intros R W T WF NZ CO CS j k v H.
    assert (FS : flags_stable (chan_decls [] ops)) by (apply once_stable; auto).
    destruct (sparse_canonical cfg ops st w sp R W T WF FS CS) as (SN & _ & SK & NC & KB & KP).
    pose proof (KB _ _ _ H) as [_ KR].
    pose proof H as H0. apply KP in H0. destruct H0 as (c & s & e & i & ip & p & x & H1 & H2 & H3 & H4 & H5).
    destruct (tensors_denote cfg ops st w R W WF NZ CO CS) as [_ TD].
    destruct (TD c s e i ip p H1 H2 H3) as (V1 & _ & _ & V4). rewrite T in V1, V4.
    assert (NDL : forall l : list (nat * nat), StronglySorted lex2 l -> NoDup l).
    { clear. induction l as [|a l IH]; intros S; inversion S; subst; constructor; auto.
      intros X. rewrite Forall_forall in H2. apply H2 in X. unfold lex2 in X. lia. }
    apply NDL in SN, SK.
    cbn [view_norm view_logk] in V1, V4.
    assert (X : look3 (s + i) ip (sp_norm sp) = Some x) by (apply In_look3; auto; eapply nth_error_In; eauto).
    rewrite X in V1. cbn [or0] in V1. subst x.
    assert (PJ : pos3 (s + i) ip (sp_norm sp) = Some j) by (eapply pos3_NoDup; eauto). rewrite PJ in V4.
    assert (XK : look3 j k (sp_logk sp) = Some v) by (apply In_look3; auto).
    assert (VN : v <> n0).
    { destruct (run_Inv_init cfg ops st R WF FS) as [IV _].
      destruct (st_norm st c p) as [nm|] eqn:N.
      - eapply fact_populated; eauto.
      - destruct (inv_none _ _ IV c p N) as [A1 A2].
        destruct H5 as [(s0 & e0 & _ & H5 & _)|(k0 & s0 & e0 & _ & _ & H5 & _)].
        + rewrite A1 in H5. discriminate. + rewrite A2 in H5. discriminate. }
    destruct (Nat.lt_ge_cases k (List.length (w_systs w))) as [L|L].
    - destruct (nth_error (w_systs w) k) as [n|] eqn:N; [|apply nth_error_None in N; lia].
      destruct (V4 k n N) as [A _]. rewrite XK in A. simpl in A.
      exists c, s, e, i, ip, p, n. repeat split; auto.
    - rewrite NC in KR. destruct (w_symmetric w) eqn:SY; [lia|].
      destruct (nth_error (w_systs w) (k - List.length (w_systs w))) as [n|] eqn:N; [|apply nth_error_None in N; lia].
      destruct (V4 _ n N) as [_ A]. specialize (A eq_refl).
      replace (List.length (w_systs w) + (k - List.length (w_systs w))) with k in A by lia.
      rewrite XK in A. simpl in A.
      exists c, s, e, i, ip, p, n. repeat split; auto. right. split; auto.
      exists (k - List.length (w_systs w)). repeat split; auto. lia.
  Qed.
End Master.
