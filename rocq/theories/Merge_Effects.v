(** Contents of the merged workspace, bin by bin. *)
From Coq Require Import List Arith Bool String Lia Reals Lra.
From Verif Require Import PyList PyDict ListUtil Num RBase Names_Model Writer_Model Writer_Spec Writer_Frame Writer_Layout Writer_Meta Writer_Inv
  Writer_State Writer_Tensor Writer_Hist Writer_Denote Writer_Master Writer_Effects Pseudo_Spec Pseudo_Proof Writer_Props
  Card_Model Card_Convert Yields_Model Yields_Spec Yields_Proof Yields_Equiv Merge_Model Merge_Spec Merge_Lib Merge_Proof.
Import ListNotations.
Local Open Scope nat_scope.
Local Open Scope string_scope.
Local Open Scope list_scope.

Lemma nth_rows {A} (a : nat -> A) s n i d : i < n -> nth i (rows a s n) d = a (s + i).
Proof.
  intros H. unfold rows. rewrite (nth_indep _ d (a (s + 0))) by (rewrite map_length, seq_length; auto).
  rewrite (map_nth (fun i => a (s + i))). rewrite seq_nth; auto.
Qed.
Lemma substring_all s : forall m, String.length s <= m -> String.substring 0 m s = s.
Proof. induction s as [|a s IH]; intros [|m] H; cbn in *; auto; try lia. f_equal. apply IH. lia. Qed.
Lemma width_le {V} (w : workspace V) q : In q (w_procs w) -> String.length q <= width w.
Proof. unfold width. induction (w_procs w) as [|x l IH]; intros H; [contradiction|]. cbn. destruct H as [->|H]; [lia|]. apply IH in H. lia. Qed.

Section Effects.
  Variable rn : renames.
  Notation ch' := (renamed (rn_chans rn)).
  Notation pr' := (renamed (rn_procs rn)).
  Notation sy' := (renamed (rn_systs rn)).
  Variable t : systype.
  Variable ws : list (workspace R).
  Variable W : workspace R.
  Hypothesis M : merge rn t ws = Ok W.
  Hypothesis FS : Forall from_script ws.
  Hypothesis CA : constraints_agree rn ws.
  Hypothesis NF : names_fit rn ws.
  Notation OPS := (ops rn ws).

  Lemma cut_fits w p : In w ws -> In p (w_procs w) -> cut rn w p = pr' p.
  Proof.
    intros I P. unfold cut. destruct (smem p (dkeys (rn_procs rn))) eqn:K.
    - destruct (proj1 (Forall_forall _ _) NF w I p P) as (q & Q & L). apply substring_all. pose proof (width_le w q Q). lia.
    - unfold renamed. destruct (dget p (rn_procs rn)) as [x|] eqn:D; auto. apply dget_In in D. apply (in_map fst) in D. cbn [fst] in D. apply smem_In in D. unfold dkeys in K. congruence.
  Qed.
  Definition WR : written (merge_cfg t) OPS W := Wr rn t ws W M.
  Definition CL : clean OPS := cleaned rn t ws W M CA.

  (** *** channels *)
  Lemma dict_of_get {B} (l : list (string * B)) c x : NoDup (map fst l) -> In (c, x) l -> dget c (dict_of l) = Some x.
  Proof.
    intros N I. destruct (dget c (dict_of l)) as [y|] eqn:E.
    - apply dget_In, dict_of_In in E. f_equal. pose proof (NoDup_map_inj fst _ _ _ N E I eq_refl). congruence.
    - exfalso. apply dget_None in E. apply E. apply dict_of_keys. apply (in_map fst) in I. auto.
  Qed.
  Lemma fsw w : In w ws -> exists cfg o, written cfg o w /\ clean o.
  Proof. intros I. rewrite Forall_forall in FS. apply (FS w I). Qed.

  Lemma merged_layout : NoDup (map fst (reader_ranges 0 (w_channels W))) /\
    (forall c', In c' (map fst (reader_ranges 0 (w_channels W))) <-> exists w c, In w ws /\ In c (dkeys (w_channels w)) /\ c' = ch' c) /\
    (forall w c info s e, In w ws -> In (c, info) (w_channels w) -> In (ch' c, (s, e)) (reader_ranges 0 (w_channels W)) -> e = s + axes_size (ch_axes info) false).
  Proof.
    destruct WR as (st & R & Wt). pose proof CL as (_ & _ & O & _).
    destruct (layout_correct _ _ _ _ R Wt (once_stable _ O)) as (L1 & L2 & _ & _ & L5 & _). split; auto.
    destruct (decls rn ws) as (d & E & E1 & E2). unfold channels_once in O. rewrite E in *. split.
    - intros c'. rewrite L2, E1. unfold new_names. rewrite in_flat_map. split.
      + intros (w & I & H). apply in_map_iff in H as (c & <- & H). eauto.
      + intros (w & c & I & H & ->). exists w. split; auto. apply in_map. auto.
    - intros w c info s e I H1 H2. destruct (L5 _ _ _ H2) as (i & D & ->).
      rewrite (dict_of_get d (ch' c) (mkCh (ch_axes info) false false)) in D; auto. { injection D as <-. auto. }
      apply E2. exists w, c, info. auto.
  Qed.
  Lemma input_range w c s e : In w ws -> In (c, (s, e)) (reader_ranges 0 (w_channels w)) ->
    exists info n, In (c, (info, (s, n))) (debug_ranges 0 (w_channels w)) /\ In (c, info) (w_channels w) /\ n = axes_size (ch_axes info) false /\ e = s + n.
  Proof.
    intros I H. rewrite <- (debug_reader rn t ws W M FS w I) in H. apply in_map_iff in H as ([c0 [info [s0 n]]] & E & H). cbn in E. injection E as <- <- <-.
    exists info, n. split; auto. apply debug_In in H as H'. destruct H'. auto.
  Qed.
  Lemma merged_procs p' : In p' (w_procs W) <-> exists w p, In w ws /\ w_channels w <> [] /\ In p (w_procs w) /\ p' = pr' p.
  Proof.
    destruct WR as (st & R & Wt). destruct (proc_axis _ _ _ _ R Wt) as (sg & bk & EP & _ & _ & _ & _ & P1 & P2). rewrite EP, in_app_iff, P1, P2.
    assert (PD : forall b, In (p', b) (proc_decls OPS) <-> exists w p, In w ws /\ w_channels w <> [] /\ In p (w_procs w) /\ p' = pr' p /\ b = smem p (w_signals w)).
    { intros b. unfold proc_decls. rewrite in_flat_map. split.
      - intros (o & Ho & H). apply ops_In in Ho as (w & c & info & s & n & I & D & Ho). apply chan_list_In in Ho as [->|[(ip & p & N & ->)|[->|(k & nm & ip & p & _ & _ & _ & _ & ->)]]]; try contradiction.
        cbn in H. destruct H as [H|[]]. injection H as <- <-. apply nth_error_In in N as N'. exists w, p. split; auto.
        split. { intros Z. apply debug_In in D as [D _]. rewrite Z in D. contradiction. } split; auto. split; auto. apply cut_fits; auto.
      - intros (w & p & I & C & P & -> & ->). destruct (w_channels w) as [|[c info] d] eqn:EC; [contradiction|].
        apply In_nth_error in P as (ip & N). exists (proc_call rn w (norm_of w) (ch' c) 0 (axes_size (ch_axes info) false) (ip, p)). split.
        + apply ops_In. exists w, c, info, 0, (axes_size (ch_axes info) false). split; auto. rewrite EC. split; [left; auto|].
          right. apply in_app_iff. left. apply in_map. apply enumerate_In. auto.
        + cbn. left. f_equal. apply cut_fits; auto. eapply nth_error_In; eauto. }
    rewrite !PD. split.
    - intros [(w & p & A)|(w & p & A)]; exists w, p; tauto.
    - intros (w & p & I & C & P & ->). destruct (smem p (w_signals w)) eqn:S; [left|right]; exists w, p; auto.
  Qed.

  Lemma point_fwd w c p i b ip : In w ws -> at_point w c p i b ip -> exists b' ip', at_point W (ch' c) (pr' p) i b' ip'.
  Proof.
    intros I (s & e & P1 & P2 & -> & P3). destruct (input_range w c s e I P1) as (info & n & D & IC & En & ->).
    destruct merged_layout as (_ & L2 & L3).
    assert (X : In (ch' c) (map fst (reader_ranges 0 (w_channels W)))). { apply L2. exists w, c. split; auto. split; auto. apply (in_map fst) in IC. auto. }
    apply in_map_iff in X as ([c0 [s' e']] & E & X). cbn in E. subst c0. pose proof (L3 w c info s' e' I IC X) as E'.
    assert (Y : In (pr' p) (w_procs W)). { apply merged_procs. exists w, p. split; auto. split; [intros Z; rewrite Z in IC; contradiction|]. split; auto. eapply nth_error_In; eauto. }
    apply In_nth_error in Y as (ip' & Y). exists (s' + i), ip', s', e'. split; auto. split; [lia|]. auto.
  Qed.
  Lemma point_back c' p' i b' ip' : at_point W c' p' i b' ip' -> exists w c, In w ws /\ In c (dkeys (w_channels w)) /\ c' = ch' c /\
    (forall p ip, nth_error (w_procs w) ip = Some p -> exists b, at_point w c p i b ip).
  Proof.
    intros (s' & e' & P1 & P2 & -> & P3). destruct merged_layout as (_ & L2 & L3).
    pose proof (proj1 (L2 c') (in_map fst _ _ P1)) as (w & c & I & K & ->). exists w, c. split; auto. split; auto. split; auto.
    intros p ip N. rewrite <- debug_names in K. apply in_map_iff in K as ([c0 [info [s n]]] & E & K). cbn in E. subst c0.
    destruct (debug_In _ _ _ _ _ K) as [K1 K2]. rewrite (L3 w c info s' e' I K1 P1) in P2. exists (s + i), s, (s + n). split; [|split; [lia|auto]].
    rewrite <- (debug_reader rn t ws W M FS w I). apply in_map_iff. exists (c, (info, (s, n))). auto.
  Qed.

  (** *** where a point comes from *)
  Lemma range_of w c p i b ip : In w ws -> at_point w c p i b ip ->
    exists info s n, In (c, (info, (s, n))) (debug_ranges 0 (w_channels w)) /\ i < n /\ b = s + i /\ nth_error (w_procs w) ip = Some p.
  Proof.
    intros I (s & e & P1 & P2 & -> & P3). destruct (input_range w c s e I P1) as (info & n & D & _ & _ & ->). exists info, s, n. split; auto. split; [lia|auto].
  Qed.
  Lemma range_point w c info s n i p ip : In w ws -> In (c, (info, (s, n))) (debug_ranges 0 (w_channels w)) -> i < n -> nth_error (w_procs w) ip = Some p -> at_point w c p i (s + i) ip.
  Proof.
    intros I D L N. exists s, (s + n). split; [|split; [lia|auto]]. rewrite <- (debug_reader rn t ws W M FS w I). apply in_map_iff. exists (c, (info, (s, n))). auto.
  Qed.
  Lemma proc_op w c info s n ip p : In w ws -> In (c, (info, (s, n))) (debug_ranges 0 (w_channels w)) -> nth_error (w_procs w) ip = Some p ->
    In (AddProcess (HDense (rows (fun b => norm_of w b ip) s n) (rows (fun b => w_sumw2 w b ip) s n)) (pr' p) (ch' c) (smem p (w_signals w)) None) OPS.
  Proof.
    intros I D N. apply ops_In. exists w, c, info, s, n. split; auto. split; auto. right. apply in_app_iff. left. apply in_map_iff. exists (ip, p).
    split; [|apply enumerate_In; auto]. unfold proc_call. cbn [fst snd]. rewrite cut_fits; auto. eapply nth_error_In; eauto.
  Qed.

  Lemma template w c p i b ip b' ip' : In w ws -> at_point w c p i b ip -> at_point W (ch' c) (pr' p) i b' ip' ->
    view_norm (w_tensors W) b' ip' = Rmax 0 (view_norm (w_tensors w) b ip) /\ w_sumw W b' ip' = Rmax 0 (view_norm (w_tensors w) b ip) /\ w_sumw2 W b' ip' = w_sumw2 w b ip.
  Proof.
    intros I P P'. destruct (range_of w c p i b ip I P) as (info & s & n & D & L & -> & N).
    destruct (C03_template R _ _ _ _ _ WR CL _ _ _ _ _ (proc_op w c info s n ip p I D N) i b' ip' P') as (V1 & V2 & V3).
    cbn [hist_at] in *. rewrite nth_rows in V1, V2, V3 by auto.
    assert (C : forall x : R, spec_clip false x = Rmax 0 x). { intros x. unfold spec_clip, Rmax. cbn. unfold Rltb. destruct (Rlt_dec x 0), (Rle_dec 0 x); auto; lra. }
    change (c_allowneg (merge_cfg t)) with false in *. rewrite C in *. auto.
  Qed.
  Lemma foreign_process w c p' i b' ip' : In w ws -> In c (dkeys (w_channels w)) -> at_point W (ch' c) p' i b' ip' -> ~ In p' (map pr' (w_procs w)) ->
    view_norm (w_tensors W) b' ip' = 0%R /\ w_sumw W b' ip' = 0%R /\ w_sumw2 W b' ip' = 0%R /\ spec_norm false OPS (ch' c) p' i = 0%R.
  Proof.
    intros I K P F. destruct (view_point _ _ _ _ _ _ _ _ WR CL P) as (V1 & V2 & V3 & _).
    assert (L : last_of (op_proc (ch' c) p') OPS = None).
    { apply last_of_None. intros o Ho. apply ops_In in Ho as (w2 & c2 & info & s & n & I2 & D & Ho). apply chan_list_In in Ho as [->|[(ip & p & N & ->)|[->|(k & nm & ip & p & _ & _ & _ & _ & ->)]]]; auto.
      unfold proc_call. cbn [op_proc fst snd]. destruct (String.eqb_spec (ch' c) (ch' c2)); cbn [andb]; auto. destruct (String.eqb_spec p' (cut rn w2 p)); auto. exfalso.
      destruct (channel_unique rn t ws W M w w2 c c2) as [-> ->]; auto. { apply debug_In in D as [D _]. apply (in_map fst) in D. auto. }
      apply F. apply in_map_iff. exists p. apply nth_error_In in N. split; auto. rewrite <- cut_fits with (w := w2); auto. }
    unfold spec_norm, spec_sumw2 in *. rewrite L in *. auto.
  Qed.

  (** *** data *)
  Lemma merged_info c' i' : dget c' (w_channels W) = Some i' -> exists w c info, In w ws /\ In (c, info) (w_channels w) /\ c' = ch' c /\ i' = mkCh (ch_axes info) false false.
  Proof.
    intros H. pose proof (channel_declared _ _ _ _ _ WR CL H) as D. destruct (decls rn ws) as (d & E & _ & E2). rewrite E in D. apply E2. auto.
  Qed.
  Lemma data_op c' o v : In (c', (o, v)) (data_log OPS) -> exists w c info s n, In w ws /\ In (c, (info, (s, n))) (debug_ranges 0 (w_channels w)) /\ c' = ch' c /\
    o = rows (w_data_obs w) s n /\ v = rows (w_data_var w) s n.
  Proof.
    unfold data_log. rewrite in_flat_map. intros (x & Hx & H). apply ops_In in Hx as (w & c & info & s & n & I & D & Hx).
    apply chan_list_In in Hx as [->|[(ip & p & _ & ->)|[->|(k & nm & ip & p & _ & _ & _ & _ & ->)]]]; try contradiction. cbn in H. destruct H as [H|[]]. injection H as <- <- <-.
    exists w, c, info, s, n. auto.
  Qed.
  Lemma data_kept w c p i b ip p' b' ip' : In w ws -> at_point w c p i b ip -> at_point W (ch' c) p' i b' ip' ->
    w_data_obs W b' = w_data_obs w b /\ w_data_var W b' = w_data_var w b.
  Proof.
    intros I P (s' & e' & Q1 & Q2 & -> & _). destruct (range_of w c p i b ip I P) as (info & s & n & D & L & -> & N).
    destruct WR as (st & R & Wt). pose proof CL as (_ & _ & O & _).
    destruct (dget (ch' c) (w_channels W)) as [i'|] eqn:G.
    2: { exfalso. apply dget_None in G. apply G. apply (in_map fst) in Q1. rewrite reader_names in Q1. auto. }
    destruct (merged_info _ _ G) as (w2 & c2 & info2 & I2 & K2 & E2 & ->).
    destruct (written_data _ _ _ _ R Wt (once_stable _ O) _ _ _ _ Q1 G eq_refl) as (o & O1 & O2).
    destruct (written_data_var _ _ _ _ R Wt (once_stable _ O) _ _ _ _ Q1 G eq_refl) as (v & Y1 & Y2).
    assert (U : forall c2 info2 w2 s2 n2, In w2 ws -> In (c2, (info2, (s2, n2))) (debug_ranges 0 (w_channels w2)) -> ch' c = ch' c2 -> w2 = w /\ s2 = s /\ n2 = n).
    { clear - M FS I D. intros c2 info2 w2 s2 n2 I2 D2 E. apply debug_In in D as D'. destruct D' as [D' _]. apply debug_In in D2 as D2'. destruct D2' as [D2' _].
      apply (in_map fst) in D', D2'. cbn [fst] in *. destruct (channel_unique rn t ws W M w w2 c c2 I I2 D' D2' E) as [<- <-].
      destruct (range_unique ws FS w c info s n info2 s2 n2) as (_ & -> & ->); auto. }
    split.
    - apply in_map_iff in O1 as ([c0 [o0 v0]] & E & O1). cbn in E. injection E as -> ->. apply data_op in O1 as (w3 & c3 & info3 & s3 & n3 & I3 & D3 & E3 & -> & _).
      destruct (U _ _ _ _ _ I3 D3 E3) as (-> & -> & ->). rewrite O2 by auto. apply nth_rows. auto.
    - apply in_map_iff in Y1 as ([c0 [o0 v0]] & E & Y1). cbn in E. injection E as -> ->. apply data_op in Y1 as (w3 & c3 & info3 & s3 & n3 & I3 & D3 & E3 & _ & ->).
      destruct (U _ _ _ _ _ I3 D3 E3) as (-> & -> & ->). rewrite Y2 by auto. apply nth_rows. auto.
  Qed.

  (** *** nuisances *)
  Lemma nonzero_iff (w : workspace R) b ip k : nonzero_at w (logk_of w) b ip k = true <-> avg_of w b ip k <> 0%R \/ half_of w b ip k <> 0%R.
  Proof.
    assert (A : forall x : R, nlt n0 (nabs x) = true <-> x <> 0%R).
    { intros x. cbn. split.
      - intros H ->. rewrite Rabs_R0 in H. unfold Rltb in H. destruct (Rlt_dec 0 0); [lra|discriminate].
      - intros H. apply Rltb_true. apply Rabs_pos_lt. auto. }
    unfold nonzero_at, half_of, avg_of, logk_of, nsyst. rewrite orb_true_iff, A, andb_true_iff, A, negb_true_iff. destruct (w_symmetric w); cbn; intuition discriminate.
  Qed.
  Lemma active_iff (w : workspace R) s n ip k : active w (logk_of w) s n ip k = true <-> exists i, i < n /\ (avg_of w (s + i) ip k <> 0%R \/ half_of w (s + i) ip k <> 0%R).
  Proof.
    unfold active. rewrite existsb_exists. split.
    - intros (i & H1 & H2). apply in_seq in H1. apply nonzero_iff in H2. exists i. split; auto. lia.
    - intros (i & H1 & H2). exists i. split; [apply in_seq; lia|apply nonzero_iff; auto].
  Qed.
  Lemma acts_active w k : In w ws -> acts w k <-> exists c info s n ip p, In (c, (info, (s, n))) (debug_ranges 0 (w_channels w)) /\ nth_error (w_procs w) ip = Some p /\ active w (logk_of w) s n ip k = true.
  Proof.
    intros I. split.
    - intros (c & p & i & b & ip & P & H). destruct (range_of w c p i b ip I P) as (info & s & n & D & L & -> & N).
      exists c, info, s, n, ip, p. split; auto. split; auto. apply active_iff. eauto.
    - intros (c & info & s & n & ip & p & D & N & A). apply active_iff in A as (i & L & A). exists c, p, i, (s + i), ip. split; auto. eapply range_point; eauto.
  Qed.
  Definition kwof (w : workspace R) k nm : kwargs := mkKw (smem nm (nois w)) (negb (smem nm (w_noconstraint w))) (Some (groups_per_syst rn w k)).
  Lemma booked_iff n' kw : In (n', kw) (all_systs OPS) <-> exists w k nm, In w ws /\ nth_error (w_systs w) k = Some nm /\ acts w k /\ n' = sy' nm /\ kw = kwof w k nm.
  Proof.
    rewrite syst_booked. split.
    - intros (w & c & info & s & n & k & nm & ip & p & I & D & K & P & A & -> & ->). exists w, k, nm. split; auto. split; auto. split; auto. apply acts_active; auto. exists c, info, s, n, ip, p. auto.
    - intros (w & k & nm & I & K & A & -> & ->). apply acts_active in A as (c & info & s & n & ip & p & D & N & A); auto. exists w, c, info, s, n, k, nm, ip, p. auto 10.
  Qed.
  Lemma input_meta w : In w ws -> NoDup (w_systs w) /\ (forall i, In i (w_noiidxs w) -> i < List.length (w_systs w)) /\
    (forall i s, nth_error (w_systs w) i = Some s -> nth_error (w_cw w) i = Some (if smem s (w_noconstraint w) then 0%R else 1%R)).
  Proof.
    intros I. destruct (fsw w I) as (cfg & o & (st & R & Wt) & (_ & _ & _ & C4)).
    destruct (metadata_correct _ _ _ _ R Wt C4) as (N & D & _ & NI & _ & CW). split; auto. split.
    - intros i H. apply NI in H as (s & H & _). apply nth_error_Some. congruence.
    - intros i s H. destruct (CW i s H) as [CW1 CW2]. destruct (syst_axis _ _ _ _ R Wt) as (u & c & E & EN & _ & _ & U1 & U2). rewrite EN.
      destruct (smem s u) eqn:S.
      + apply CW1, U1, smem_In. auto.
      + apply nth_error_In in H. rewrite E in H. apply in_app_iff in H as [H|H]; [apply smem_In in H; congruence|]. apply CW2, U2. auto.
  Qed.
  Lemma nois_iff w k nm : In w ws -> nth_error (w_systs w) k = Some nm -> smem nm (nois w) = true <-> In k (w_noiidxs w).
  Proof.
    intros I K. destruct (input_meta w I) as (ND & B & _). rewrite smem_In. unfold nois. rewrite in_map_iff. split.
    - intros (j & E & H). assert (j = k); [|subst; auto]. apply B in H. eapply NoDup_nth_error; eauto. rewrite K, <- E. symmetry. rewrite nth_error_nth' with (d := ""); auto.
    - intros H. exists k. split; auto. apply nth_error_nth. auto.
  Qed.
  Lemma groups_iff (w : workspace R) k g' : In g' (groups_per_syst rn w k) <-> exists g idx, In (g, idx) (w_groups w) /\ In k idx /\ g' = renamed (rn_groups rn) g.
  Proof.
    unfold groups_per_syst. rewrite in_flat_map. split.
    - intros ([g idx] & H & X). apply in_map_iff in X as (j & <- & X). apply filter_In in X as [X E]. apply Nat.eqb_eq in E. subst. exists g, idx. auto.
    - intros (g & idx & H & X & ->). exists (g, idx). split; auto. apply in_map_iff. exists k. split; auto. apply filter_In. split; auto. apply Nat.eqb_refl.
  Qed.
  Lemma nuisances : NoDup (w_systs W) /\ (forall n', In n' (w_systs W) <-> exists w k, In w ws /\ called rn w k n' /\ acts w k) /\
    (forall k' n', nth_error (w_systs W) k' = Some n' ->
       (forall w k, In w ws -> called rn w k n' -> acts w k -> nth_error (w_cw W) k' = nth_error (w_cw w) k) /\
       (In k' (w_noiidxs W) <-> exists w k, In w ws /\ called rn w k n' /\ acts w k /\ In k (w_noiidxs w)) /\
       (forall g', (exists idx, In (g', idx) (w_groups W) /\ In k' idx) <->
          exists w k g idx, In w ws /\ called rn w k n' /\ acts w k /\ In (g, idx) (w_groups w) /\ In k idx /\ g' = renamed (rn_groups rn) g)).
  Proof.
    destruct WR as (st & R & Wt). pose proof CL as (_ & _ & _ & C4). destruct (metadata_correct _ _ _ _ R Wt C4) as (N & D & (G1 & G2 & G3) & NI & _ & CW). split; auto. split; [|intros k' n' K'; split; [|split]].
    - intros n'. rewrite D. unfold declared. split.
      + intros (kw & H). apply booked_iff in H as (w & k & nm & I & K & A & -> & _). exists w, k. split; auto. split; auto. exists nm. auto.
      + intros (w & k & I & (nm & K & ->) & A). exists (kwof w k nm). apply booked_iff. exists w, k, nm. auto.
    - intros w k I (nm & K & ->) A. destruct (CW k' _ K') as [C1 C2]. destruct (input_meta w I) as (_ & _ & CWw). rewrite (CWw k nm K).
      destruct (smem nm (w_noconstraint w)) eqn:S; [apply C1|apply C2]; exists (kwof w k nm); (split; [apply booked_iff; exists w, k, nm; auto|]); cbn; rewrite S; auto.
    - rewrite NI. split.
      + intros (s & K2 & (kw & H & E)). rewrite K' in K2. injection K2 as <-. apply booked_iff in H as (w & k & nm & I & K & A & -> & ->). exists w, k. split; auto.
        split; [exists nm; auto|]. split; auto. apply (nois_iff w k nm); auto.
      + intros (w & k & I & (nm & K & ->) & A & H). exists (sy' nm). split; auto. exists (kwof w k nm). split; [apply booked_iff; exists w, k, nm; auto|]. cbn. apply (nois_iff w k nm); auto.
    - intros g'. split.
      + intros (idx & H1 & H2). apply (G3 g' idx H1) in H2 as (s & K2 & (kw & H & E)). rewrite K' in K2. injection K2 as <-.
        apply booked_iff in H as (w & k & nm & I & K & A & -> & ->). cbn [groups_of kwof kw_groups] in E. apply groups_iff in E as (g & idx2 & E1 & E2 & ->).
        exists w, k, g, idx2. split; auto. split; [exists nm; auto|]. auto.
      + intros (w & k & g & idx & I & (nm & K & ->) & A & E1 & E2 & ->).
        assert (DG : declared_in_group OPS (renamed (rn_groups rn) g) (sy' nm)).
        { exists (kwof w k nm). split; [apply booked_iff; exists w, k, nm; auto|]. cbn [groups_of kwof kw_groups]. apply groups_iff. eauto. }
        assert (X : In (renamed (rn_groups rn) g) (map fst (w_groups W))) by (apply G2; eauto).
        apply in_map_iff in X as ([g2 idx2] & E & X). cbn in E. subst g2. exists idx2. split; auto. apply (G3 _ _ X). eauto.
  Qed.

  (** *** effects *)
  Hypothesis SA : systs_apart rn ws.
  Definition booking (w : workspace R) cb s n ip k : effect R :=
    ETwo cb 1%R false (HDense (rows (fun b => up_at w (norm_of w) (logk_of w) b ip k) s n) []) (HDense (rows (fun b => down_at w (norm_of w) (logk_of w) b ip k) s n) []).
  Definition read (half : bool) (c p s : string) (o : op R) : option (effect R) := if half then op_half c p s o else op_avg c p s o.
  Definition cb_of (half : bool) : comb R := if half then CHalf else CAvg.
  (** which operation speaks of an entry *)
  Lemma effect_op half w c info s n ip p n' o e : In w ws -> In (c, (info, (s, n))) (debug_ranges 0 (w_channels w)) -> nth_error (w_procs w) ip = Some p ->
    In o OPS -> read half (ch' c) (pr' p) n' o = Some e ->
    exists k nm, nth_error (w_systs w) k = Some nm /\ n' = sy' nm /\ active w (logk_of w) s n ip k = true /\ e = booking w (cb_of half) s n ip k.
  Proof.
    intros I D N Ho H. apply ops_In in Ho as (w2 & c2 & info2 & s2 & n2 & I2 & D2 & Ho).
    apply chan_list_In in Ho as [->|[(ip2 & p2 & _ & ->)|[->|(k & nm & ip2 & p2 & K & P2 & A & _ & ->)]]]; try (destruct half; discriminate).
    assert (E : ch' c = ch' c2 /\ pr' p = pr' p2 /\ n' = sy' nm /\ e = booking w2 (cb_of half) s2 n2 ip2 k).
    { destruct half; cbn in H; destruct (String.eqb_spec (ch' c) (ch' c2)); try discriminate; destruct (String.eqb_spec (pr' p) (pr' p2)); try discriminate;
        cbn [andb] in H; destruct (String.eqb_spec n' (sy' nm)); try discriminate; injection H as <-; auto. }
    destruct E as (E1 & E2 & E3 & ->). apply debug_In in D as D'. destruct D' as [D' _]. apply debug_In in D2 as D2'. destruct D2' as [D2' _].
    apply (in_map fst) in D', D2'. cbn [fst] in *. destruct (channel_unique rn t ws W M w w2 c c2 I I2 D' D2' E1) as [<- <-].
    destruct (range_unique ws FS w c info s n info2 s2 n2) as (_ & -> & ->); auto.
    assert (p = p2). { apply (NoDup_map_inj (cut rn w) (w_procs w)); [eapply procs_apart; eauto| | |]; try (eapply nth_error_In; eauto; fail). rewrite !cut_fits; auto; eapply nth_error_In; eauto. }
    subst p2. assert (ip = ip2). { destruct (fsw w I) as (cfg & o & (st & R & Wt) & _). destruct (proc_axis _ _ _ _ R Wt) as (sg & bk & _ & _ & ND & _).
      eapply NoDup_nth_error; eauto. { apply nth_error_Some. congruence. } congruence. }
    subst ip2. exists k, nm. auto.
  Qed.
  Lemma effect_booked half w c info s n ip p k nm : In w ws -> In (c, (info, (s, n))) (debug_ranges 0 (w_channels w)) -> nth_error (w_procs w) ip = Some p ->
    nth_error (w_systs w) k = Some nm -> active w (logk_of w) s n ip k = true -> last_of (read half (ch' c) (pr' p) (sy' nm)) OPS = Some (booking w (cb_of half) s n ip k).
  Proof.
    intros I D N K A. apply last_of_unique.
    - eexists. split.
      + apply ops_In. exists w, c, info, s, n. split; [exact I|]. split; [exact D|]. right. apply in_app_iff. right. right. apply in_flat_map. exists (k, nm).
        split; [apply enumerate_In; exact K|]. cbn [syst_calls]. apply in_map_iff. exists (ip, p). split; [reflexivity|]. apply filter_In. split; auto. apply enumerate_In. auto.
      + destruct half; cbn; rewrite !String.eqb_refl; reflexivity.
    - intros o e Ho H. destruct (effect_op half w c info s n ip p _ o e I D N Ho H) as (k2 & nm2 & K2 & E & A2 & ->).
      assert (k2 = k); [|subst; auto]. pose proof (proj1 (Forall_forall _ _) SA w I) as ND. cbn beta in ND. eapply NoDup_nth_error; eauto.
      + rewrite map_length. apply nth_error_Some. congruence.
      + rewrite (map_nth_error _ _ _ K2), (map_nth_error _ _ _ K). congruence.
  Qed.
  Lemma effect_silent half w c info s n ip p n' : In w ws -> In (c, (info, (s, n))) (debug_ranges 0 (w_channels w)) -> nth_error (w_procs w) ip = Some p ->
    (forall k nm, nth_error (w_systs w) k = Some nm -> n' = sy' nm -> active w (logk_of w) s n ip k = false) -> last_of (read half (ch' c) (pr' p) n') OPS = None.
  Proof.
    intros I D N F. apply last_of_None. intros o Ho. destruct (read half (ch' c) (pr' p) n' o) as [e|] eqn:E; auto. exfalso.
    destruct (effect_op half w c info s n ip p n' o e I D N Ho E) as (k & nm & K & -> & A & _). rewrite (F k nm K eq_refl) in A. discriminate.
  Qed.
  Lemma effect_read half c' p' i b' ip' k' n' : at_point W c' p' i b' ip' -> nth_error (w_systs W) k' = Some n' ->
    (if (half : bool) then half_of W b' ip' k' else avg_of W b' ip' k') = stored t (spec_norm false OPS c' p') (last_of (read half c' p' n') OPS) i.
  Proof.
    intros P K. destruct (view_point _ _ _ _ _ _ _ _ WR CL P) as (_ & _ & _ & V). destruct (V k' n' K) as [V1 V2]. unfold half_of, avg_of. destruct half; [|exact V1].
    pose proof (symmetric_iff _ _ _ WR CL) as S. destruct (w_symmetric W); [|apply V2; auto].
    symmetry. apply (spec_half_sym (merge_cfg t) OPS c' p' n' i). symmetry in S. apply negb_true_iff in S. auto.
  Qed.
  Lemma input_zero w c p i b ip k : In w ws -> at_point w c p i b ip -> view_norm (w_tensors w) b ip = 0%R -> k < List.length (w_systs w) -> avg_of w b ip k = 0%R /\ half_of w b ip k = 0%R.
  Proof.
    intros I P Z K. destruct (fsw w I) as (cfg & o & Wr & Cl). destruct (view_point _ _ _ _ _ _ _ _ Wr Cl P) as (V1 & _). rewrite V1 in Z.
    pose proof (unpopulated_zero _ _ _ _ _ _ _ _ Wr Cl P Z) as U. unfold avg_of, half_of. destruct (w_symmetric w); split; auto; apply U; lia.
  Qed.
  Lemma norm_merged w c p i b ip : In w ws -> at_point w c p i b ip -> spec_norm false OPS (ch' c) (pr' p) i = Rmax 0 (view_norm (w_tensors w) b ip).
  Proof.
    intros I P. destruct (point_fwd w c p i b ip I P) as (b' & ip' & P'). destruct (template _ _ _ _ _ _ _ _ I P P') as (T & _).
    destruct (view_point _ _ _ _ _ _ _ _ WR CL P') as (V & _). cbn in V. congruence.
  Qed.

  Lemma effect_kept w c p i b ip b' ip' k nm k' : In w ws -> w_type w = t -> at_point w c p i b ip -> at_point W (ch' c) (pr' p) i b' ip' ->
    (0 <= view_norm (w_tensors w) b ip)%R -> nth_error (w_systs w) k = Some nm -> nth_error (w_systs W) k' = Some (sy' nm) ->
    avg_of W b' ip' k' = avg_of w b ip k /\ half_of W b' ip' k' = half_of w b ip k.
  Proof.
    intros I T P P' NN K K'. destruct (range_of w c p i b ip I P) as (info & s & n & D & L & EB & N).
    assert (KL : k < List.length (w_systs w)) by (apply nth_error_Some; congruence).
    pose proof (norm_merged w c p i b ip I P) as NM. rewrite Rmax_right in NM by auto.
    pose proof (effect_read false _ _ _ _ _ _ _ P' K') as RA. pose proof (effect_read true _ _ _ _ _ _ _ P' K') as RH. cbn beta iota in RA, RH. rewrite RA, RH. clear RA RH.
    destruct (active w (logk_of w) s n ip k) eqn:A.
    - rewrite !(effect_booked _ w c info s n ip p k nm) by auto.
      destruct (Req_dec (view_norm (w_tensors w) b ip) 0) as [Z|NZ].
      { destruct (input_zero w c p i b ip k I P Z KL) as [-> ->]. unfold stored. rewrite NM, Z. cbn. unfold Reqb. destruct (Req_EM_T 0 0); [auto|contradiction]. }
      assert (NB : neq0 (spec_norm false OPS (ch' c) (pr' p) i) = false). { rewrite NM. cbn. unfold Reqb. destruct (Req_EM_T _ 0); auto. contradiction. }
      assert (PT : forall f : nat -> nat -> nat -> R, tmpl_eff t (spec_norm false OPS (ch' c) (pr' p)) 1%R false (HDense (rows (fun b => f b ip k) s n) []) i = spec_logk t 1%R (f b ip k) (view_norm (w_tensors w) b ip)).
      { intros f. unfold tmpl_eff. cbn [hist_at]. rewrite nth_rows by auto. rewrite NM, EB. auto. }
      assert (LK : forall x, spec_logk t 1%R (get_syst (w_type w) x (view_norm (w_tensors w) b ip)) (view_norm (w_tensors w) b ip) = x).
      { intros x. rewrite T. unfold spec_logk, get_syst. destruct t; cbn; [|ring].
        rewrite Rltb_true. 2: { apply Rmult_lt_0_compat; [lra|]. apply Rmult_lt_0_compat; [apply exp_pos|lra]. }
        replace (exp x * view_norm (w_tensors w) b ip / view_norm (w_tensors w) b ip)%R with (exp x) by (field; auto). rewrite ln_exp. ring. }
      unfold stored. rewrite NB. unfold booking. cbn [eval_effect cb_of]. rewrite !PT. unfold up_at, down_at, norm_of. rewrite !LK.
      unfold avg_of, half_of, logk_of, nsyst. destruct (w_symmetric w); cbn [combine_eff nmul nhalf nadd nopp nsub Num_R n0]; cbn; split; field.
    - rewrite !(effect_silent _ w c info s n ip p (sy' nm)); auto.
      2,3: intros k2 nm2 K2 E; assert (k2 = k); [|subst; auto]; pose proof (proj1 (Forall_forall _ _) SA w I) as ND; cbn beta in ND; eapply NoDup_nth_error; eauto;
        [rewrite map_length; apply nth_error_Some; congruence|rewrite (map_nth_error _ _ _ K2), (map_nth_error _ _ _ K); congruence].
      cbn [stored]. assert (X : ~ (avg_of w b ip k <> 0%R \/ half_of w b ip k <> 0%R)).
      { intros X. rewrite EB in X. assert (active w (logk_of w) s n ip k = true) by (apply active_iff; eauto). congruence. }
      change (@n0 R _) with 0%R. destruct (Req_dec (avg_of w b ip k) 0), (Req_dec (half_of w b ip k) 0); try (exfalso; tauto). split; auto.
  Qed.
  (** the same for any two types of systematics: up and down variations are kept *)
  Lemma effect_any w c p i b ip b' ip' k nm k' : In w ws -> at_point w c p i b ip -> at_point W (ch' c) (pr' p) i b' ip' ->
    (0 <= view_norm (w_tensors w) b ip)%R -> nth_error (w_systs w) k = Some nm -> nth_error (w_systs W) k' = Some (sy' nm) ->
    let N := view_norm (w_tensors w) b ip in
    let L x := if Req_EM_T N 0 then 0%R else spec_logk t 1%R (get_syst (w_type w) x N) N in
    avg_of W b' ip' k' = ((L (avg_of w b ip k + half_of w b ip k) - L (- avg_of w b ip k + half_of w b ip k)) / 2)%R /\
    half_of W b' ip' k' = ((L (avg_of w b ip k + half_of w b ip k) + L (- avg_of w b ip k + half_of w b ip k)) / 2)%R.
  Proof.
    intros I P P' NN K K' N0 L0. destruct (range_of w c p i b ip I P) as (info & s & n & D & L & EB & N).
    assert (KL : k < List.length (w_systs w)) by (apply nth_error_Some; congruence).
    pose proof (norm_merged w c p i b ip I P) as NM. rewrite Rmax_right in NM by auto.
    pose proof (effect_read false _ _ _ _ _ _ _ P' K') as RA. pose proof (effect_read true _ _ _ _ _ _ _ P' K') as RH. cbn beta iota in RA, RH. rewrite RA, RH. clear RA RH.
    destruct (active w (logk_of w) s n ip k) eqn:A.
    - rewrite !(effect_booked _ w c info s n ip p k nm) by auto. unfold L0, N0.
      destruct (Req_EM_T (view_norm (w_tensors w) b ip) 0) as [Z|NZ].
      { unfold stored. rewrite NM, Z. cbn. unfold Reqb. destruct (Req_EM_T 0 0); [|contradiction]. split; field. }
      assert (NB : neq0 (spec_norm false OPS (ch' c) (pr' p) i) = false). { rewrite NM. cbn. unfold Reqb. destruct (Req_EM_T _ 0); auto. contradiction. }
      assert (PT : forall f : nat -> nat -> nat -> R, tmpl_eff t (spec_norm false OPS (ch' c) (pr' p)) 1%R false (HDense (rows (fun b => f b ip k) s n) []) i = spec_logk t 1%R (f b ip k) (view_norm (w_tensors w) b ip)).
      { intros f. unfold tmpl_eff. cbn [hist_at]. rewrite nth_rows by auto. rewrite NM, EB. auto. }
      unfold stored. rewrite NB. unfold booking. cbn [eval_effect cb_of]. rewrite !PT. unfold up_at, down_at, norm_of, avg_of, half_of, logk_of, nsyst.
      destruct (w_symmetric w); cbn [combine_eff nmul nhalf nadd nopp nsub Num_R n0]; rewrite ?Rplus_0_r; split; field.
    - rewrite !(effect_silent _ w c info s n ip p (sy' nm)); auto.
      2,3: intros k2 nm2 K2 E; assert (k2 = k); [|subst; auto]; pose proof (proj1 (Forall_forall _ _) SA w I) as ND; cbn beta in ND; eapply NoDup_nth_error; eauto;
        [rewrite map_length; apply nth_error_Some; congruence|rewrite (map_nth_error _ _ _ K2), (map_nth_error _ _ _ K); congruence].
      cbn [stored]. assert (X : ~ (avg_of w b ip k <> 0%R \/ half_of w b ip k <> 0%R)).
      { intros X. rewrite EB in X. assert (active w (logk_of w) s n ip k = true) by (apply active_iff; eauto). congruence. }
      change (@n0 R _) with 0%R. assert (E : avg_of w b ip k = 0%R /\ half_of w b ip k = 0%R) by (destruct (Req_dec (avg_of w b ip k) 0), (Req_dec (half_of w b ip k) 0); try (exfalso; tauto); auto). destruct E as [-> ->].
      replace (0 + 0)%R with 0%R by ring. replace (- 0 + 0)%R with 0%R by ring. assert (LZ : L0 0%R = 0%R).
      { unfold L0. destruct (Req_EM_T N0 0) as [|NZ]; auto. fold N0 in NN. unfold spec_logk, get_syst. destruct t, (w_type w); cbn; rewrite ?exp_0; try ring.
        - replace (1 * N0 / N0)%R with 1%R by (field; auto). rewrite ln_1. match goal with |- context [Rltb ?a ?b] => destruct (Rltb_spec a b) as [F|F] end; [ring|]. exfalso. apply F. nra.
        - replace ((0 + N0) / N0)%R with 1%R by (field; auto). rewrite ln_1. match goal with |- context [Rltb ?a ?b] => destruct (Rltb_spec a b) as [F|F] end; [ring|]. exfalso. apply F. nra. }
      rewrite LZ. split; field.
  Qed.
  Lemma effect_foreign w c p i b ip b' ip' n' k' : In w ws -> at_point w c p i b ip -> at_point W (ch' c) (pr' p) i b' ip' ->
    nth_error (w_systs W) k' = Some n' -> ~ In n' (map sy' (w_systs w)) -> avg_of W b' ip' k' = 0%R /\ half_of W b' ip' k' = 0%R.
  Proof.
    intros I P P' K' F. destruct (range_of w c p i b ip I P) as (info & s & n & D & L & EB & N).
    pose proof (effect_read false _ _ _ _ _ _ _ P' K') as RA. pose proof (effect_read true _ _ _ _ _ _ _ P' K') as RH. cbn beta iota in RA, RH. rewrite RA, RH.
    rewrite !(effect_silent _ w c info s n ip p n'); auto; intros k nm K ->; exfalso; apply F; apply in_map; eapply nth_error_In; eauto.
  Qed.
  Lemma effect_absent w c p i b ip k nm : In w ws -> at_point w c p i b ip -> nth_error (w_systs w) k = Some nm -> ~ In (sy' nm) (w_systs W) -> avg_of w b ip k = 0%R /\ half_of w b ip k = 0%R.
  Proof.
    intros I P K F. assert (X : ~ (avg_of w b ip k <> 0%R \/ half_of w b ip k <> 0%R)).
    { intros X. apply F. apply nuisances. exists w, k. split; auto. split; [exists nm; auto|]. exists c, p, i, b, ip. auto. }
    destruct (Req_dec (avg_of w b ip k) 0), (Req_dec (half_of w b ip k) 0); tauto.
  Qed.
  Lemma effect_other_process w c p' i b' ip' k' n' : In w ws -> In c (dkeys (w_channels w)) -> at_point W (ch' c) p' i b' ip' -> ~ In p' (map pr' (w_procs w)) ->
    nth_error (w_systs W) k' = Some n' -> avg_of W b' ip' k' = 0%R /\ half_of W b' ip' k' = 0%R.
  Proof.
    intros I K P F K'. destruct (foreign_process w c p' i b' ip' I K P F) as (_ & _ & _ & Z).
    pose proof (effect_read false _ _ _ _ _ _ _ P K') as RA. pose proof (effect_read true _ _ _ _ _ _ _ P K') as RH. cbn beta iota in RA, RH. rewrite RA, RH.
    unfold stored. rewrite Z. assert (E : @neq0 R _ 0%R = true) by (cbn; unfold Reqb; destruct (Req_EM_T 0 0); auto).
    rewrite E. split; [destruct (last_of (read false _ _ _) OPS)|destruct (last_of (read true _ _ _) OPS)]; auto.
  Qed.
End Effects.
