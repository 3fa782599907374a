(** The merged workspace is the union of its inputs. *)
From Coq Require Import List Arith Bool String Lia.
From Verif Require Import PyList PyDict ListUtil Num Names_Model Writer_Model Writer_Spec Writer_Frame Writer_Layout Writer_Meta Writer_Inv
  Writer_State Writer_Tensor Writer_Hist Writer_Denote Writer_Master Writer_Effects Pseudo_Spec Pseudo_Proof Writer_Props
  Card_Model Card_Convert Merge_Model Merge_Spec Merge_Lib.
Import ListNotations.
Local Open Scope nat_scope.
Local Open Scope string_scope.
Local Open Scope list_scope.

Section Proof.
  Context {V : Type} {NV : Num V} {NL : NumLaws V}.
  Variable rn : renames.
  Notation ch' := (renamed (rn_chans rn)).
  Notation pr' := (renamed (rn_procs rn)).
  Notation sy' := (renamed (rn_systs rn)).

  Lemma flat_map_none {X Y} (f : X -> list Y) l : (forall x, In x l -> f x = []) -> flat_map f l = [].
  Proof. induction l as [|x l IH]; intros H; cbn [flat_map]; auto. rewrite (H x), IH; auto; cbn; auto. intros y Hy. apply H. right. auto. Qed.
  (** the calls for a channel *)
  Definition chan_list (w : workspace V) norm logk (c : string) (info : chinfo) (s n : nat) : list (op V) :=
    AddChannel (Some (ch' c)) (ch_axes info) false false :: map (proc_call rn w norm (ch' c) s n) (enumerate (w_procs w)) ++
    AddData (ch' c) (rows (w_data_obs w) s n) (rows (w_data_var w) s n) :: flat_map (syst_calls rn w norm logk (ch' c) s n) (enumerate (w_systs w)).
  Definition norm_of (w : workspace V) := view_norm (w_tensors w).
  Definition logk_of (w : workspace V) := view_logk (w_tensors w).
  Definition input_list (w : workspace V) : list (op V) :=
    flat_map (fun x => chan_list w (norm_of w) (logk_of w) (fst x) (fst (snd x)) (fst (snd (snd x))) (snd (snd (snd x)))) (debug_ranges 0 (w_channels w)).

  Lemma channel_inv w norm logk x ops : channel_calls rn w norm logk x = (ops, None) ->
    ops = chan_list w norm logk (fst x) (fst (snd x)) (fst (snd (snd x))) (snd (snd (snd x))) /\ ch_masked (fst (snd x)) = false /\ w_procs w <> [].
  Proof.
    destruct x as [c [info [s n]]]. unfold channel_calls. destruct (w_procs w) as [|p ps] eqn:E; [discriminate|]. cbn [fst snd].
    intros H. apply andthen_inv in H as (a & b & Ha & Hb & ->). unfold emit in Ha. injection Ha as <-.
    destruct (ch_masked info); [discriminate|]. unfold emit in Hb. injection Hb as <-. unfold chan_list. rewrite E. split; [|split; congruence]. reflexivity.
  Qed.
  Lemma input_inv w ops : input_calls rn w = (ops, None) ->
    ops = input_list w /\ (exists norm logk, w_tensors w = TDense norm logk) /\
    Forall (fun x => ch_masked (fst (snd x)) = false) (debug_ranges 0 (w_channels w)).
  Proof.
    unfold input_calls, input_list, norm_of, logk_of. destruct (w_tensors w) as [norm logk|]; [|discriminate]. intros H.
    apply each_inv in H as (oss & F & ->). cbn [view_norm view_logk].
    assert (G : List.concat oss = flat_map (fun x => chan_list w norm logk (fst x) (fst (snd x)) (fst (snd (snd x))) (snd (snd (snd x)))) (debug_ranges 0 (w_channels w)) /\
      Forall (fun x : string * (chinfo * (nat * nat)) => ch_masked (fst (snd x)) = false) (debug_ranges 0 (w_channels w))).
    { induction F as [|x o l oss E F IH]; cbn; auto. apply channel_inv in E as (-> & M & _). destruct IH as [-> IH]. auto. }
    destruct G as [G1 G2]. split; [exact G1|]. split; eauto.
  Qed.

  Variable t : systype.
  Variable ws : list (workspace V).
  Variable W : workspace V.
  Hypothesis M : merge rn t ws = Ok W.
  Hypothesis FS : Forall from_script ws.
  Definition ops := flat_map input_list ws.

  Lemma merge_inv : written (merge_cfg t) ops W /\ Forall (fun w => (exists norm logk, w_tensors w = TDense norm logk) /\
    Forall (fun x => ch_masked (fst (snd x)) = false) (debug_ranges 0 (w_channels w))) ws.
  Proof.
    pose proof M as M'. unfold merge in M'. destruct (run _ _ _) as [st|] eqn:R; [|discriminate]. cbn [rbind] in M'.
    destruct (merge_calls rn ws) as [o [e|]] eqn:E; cbn [fst snd] in *; [discriminate|].
    unfold merge_calls in E. apply each_inv in E as (oss & F & ->).
    assert (G : List.concat oss = ops /\ Forall (fun w => (exists norm logk, w_tensors w = TDense norm logk) /\
      Forall (fun x => ch_masked (fst (snd x)) = false) (debug_ranges 0 (w_channels w))) ws).
    { clear - F. unfold ops. induction F as [|x o l oss E F IH]; cbn; auto. apply input_inv in E as (-> & D & U). destruct IH as [-> IH]. auto. }
    destruct G as [G1 G2]. split; auto. rewrite <- G1. exists st. auto.
  Qed.
  Lemma Wr : written (merge_cfg t) ops W. Proof. apply merge_inv. Qed.
  Lemma unmasked w c i : In w ws -> dget c (w_channels w) = Some i -> ch_masked i = false.
  Proof.
    intros I D. destruct merge_inv as [_ F]. rewrite Forall_forall in F. destruct (F w I) as [_ U]. rewrite Forall_forall in U.
    assert (G : forall d a, dget c d = Some i -> exists r, In (c, (i, r)) (debug_ranges a d)).
    { clear. induction d as [|[k x] d IH]; intros a H; [discriminate|]. cbn [dget debug_ranges] in *. destruct (String.eqb_spec c k).
      - injection H as ->. subst. eexists. left. reflexivity.
      - destruct (IH (a + axes_size (ch_axes x) false) H) as (r & Hr). exists r. right. auto. }
    destruct (G _ 0 D) as (r & Hr). apply (U _ Hr).
  Qed.
  Lemma input_dense w : In w ws -> exists norm logk, w_tensors w = TDense norm logk.
  Proof. intros I. destruct merge_inv as [_ F]. rewrite Forall_forall in F. apply (F w I). Qed.

  (** the reader's ranges *)
  Lemma chans_nodup w : In w ws -> NoDup (dkeys (w_channels w)).
  Proof.
    intros I. rewrite Forall_forall in FS. destruct (FS w I) as (cfg & o & (st & R & Wt) & (_ & _ & C3 & _)).
    destruct (layout_correct cfg o st w R Wt (once_stable _ C3)) as (L1 & _). rewrite reader_names in L1. auto.
  Qed.
  Lemma debug_reader w : In w ws -> map (fun x => (fst x, (fst (snd (snd x)), fst (snd (snd x)) + snd (snd (snd x))))) (debug_ranges 0 (w_channels w)) = reader_ranges 0 (w_channels w).
  Proof.
    intros I. pose proof (chans_nodup w I) as ND.
    assert (FL : forall c i, In (c, i) (w_channels w) -> ch_flow i = false).
    { intros c i H. apply In_dget in H; auto. rewrite Forall_forall in FS. destruct (FS w I) as (cfg & o & W1 & C1). eapply no_flow; eauto. eapply unmasked; eauto. }
    revert FL. generalize (w_channels w) 0. clear. induction d as [|[c i] d IH]; intros a FL; cbn [debug_ranges map reader_ranges fst snd]; auto.
    rewrite (FL c i) by (left; auto). f_equal. apply IH. intros c' i' H. apply (FL c'). right. auto.
  Qed.
  Lemma debug_In (w : workspace V) c info s n : In (c, (info, (s, n))) (debug_ranges 0 (w_channels w)) -> In (c, info) (w_channels w) /\ n = axes_size (ch_axes info) false.
  Proof.
    generalize (w_channels w) 0. clear. induction d as [|[k x] d IH]; intros a H; cbn [debug_ranges] in H; [contradiction|]. destruct H as [H|H].
    - injection H as -> -> -> <-. split; auto. left. auto.
    - destruct (IH _ H). split; auto. right. auto.
  Qed.
  Lemma debug_names (w : workspace V) : map fst (debug_ranges 0 (w_channels w)) = dkeys (w_channels w).
  Proof. generalize (w_channels w) 0. clear. induction d as [|[k x] d IH]; intros a; cbn [debug_ranges map fst dkeys]; f_equal; auto. Qed.

  (** *** which calls are made *)
  Lemma ops_In o : In o ops <-> exists w c info s n, In w ws /\ In (c, (info, (s, n))) (debug_ranges 0 (w_channels w)) /\ In o (chan_list w (norm_of w) (logk_of w) c info s n).
  Proof.
    unfold ops, input_list. rewrite in_flat_map. split.
    - intros (w & I & H). apply in_flat_map in H as ([c [info [s n]]] & H1 & H2). exists w, c, info, s, n. auto.
    - intros (w & c & info & s & n & I & H1 & H2). exists w. split; auto. apply in_flat_map. exists (c, (info, (s, n))). auto.
  Qed.
  Lemma chan_list_In w norm logk c info s n o : In o (chan_list w norm logk c info s n) ->
    o = AddChannel (Some (ch' c)) (ch_axes info) false false \/
    (exists ip p, nth_error (w_procs w) ip = Some p /\ o = proc_call rn w norm (ch' c) s n (ip, p)) \/
    o = AddData (ch' c) (rows (w_data_obs w) s n) (rows (w_data_var w) s n) \/
    (exists k nm ip p, nth_error (w_systs w) k = Some nm /\ nth_error (w_procs w) ip = Some p /\ active w logk s n ip k = true /\
      In o (syst_calls rn w norm logk (ch' c) s n (k, nm)) /\
      o = AddSystematic (SPair (HDense (rows (fun b => up_at w norm logk b ip k) s n) []) (HDense (rows (fun b => down_at w norm logk b ip k) s n) []))
            (sy' nm) (pr' p) (ch' c) n1 true NoSym false
            (mkKw (smem nm (nois w)) (negb (smem nm (w_noconstraint w))) (Some (groups_per_syst rn w k)))).
  Proof.
    intros [H|H]; auto. apply in_app_iff in H as [H|H].
    { apply in_map_iff in H as ([ip p] & <- & H). apply enumerate_In in H. right. left. eauto. }
    destruct H as [H|H]; auto. apply in_flat_map in H as ([k nm] & H1 & H2). apply enumerate_In in H1. pose proof H2 as H3. cbn [syst_calls] in H2.
    apply in_map_iff in H2 as ([ip p] & <- & H2). apply filter_In in H2 as [H2 A]. apply enumerate_In in H2. cbn [fst snd] in *.
    right. right. right. exists k, nm, ip, p. auto.
  Qed.

  (** *** the script is clean *)
  Definition new_names : list string := flat_map (fun w => map ch' (dkeys (w_channels w))) ws.
  Lemma data_names : map fst (data_log ops) = new_names.
  Proof.
    unfold ops, new_names, data_log. clear M FS. induction ws as [|w l IH]; cbn [flat_map map]; auto.
    rewrite flat_map_app, map_app. f_equal; [|apply IH]. clear. unfold input_list. rewrite <- debug_names.
    induction (debug_ranges 0 (w_channels w)) as [|[c [info [s n]]] l IH]; cbn [flat_map map fst snd]; auto.
    rewrite flat_map_app, map_app, IH. change (ch' c :: map ch' (map fst l)) with ([ch' c] ++ map ch' (map fst l)). f_equal.
    unfold chan_list. cbn [flat_map app]. rewrite flat_map_app. cbn [flat_map app].
    rewrite (flat_map_none _ (map (proc_call rn w (norm_of w) (ch' c) s n) _)).
    - cbn [app map fst]. f_equal. rewrite (flat_map_none _ (flat_map _ _)); auto.
      intros o Ho. apply in_flat_map in Ho as ([k nm] & _ & Ho). cbn [syst_calls] in Ho. apply in_map_iff in Ho as (ip & <- & _). auto.
    - intros o Ho. apply in_map_iff in Ho as (ip & <- & _). auto.
  Qed.
  Lemma names_nodup : NoDup new_names.
  Proof. rewrite <- data_names. destruct Wr as (st & R & _). apply (run_data_once _ _ _ _ R). Qed.

  Lemma decls : exists d, chan_decls [] ops = d /\ map fst d = new_names /\
    (forall c' i, In (c', i) d <-> exists w c info, In w ws /\ In (c, info) (w_channels w) /\ c' = ch' c /\ i = mkCh (ch_axes info) false false).
  Proof.
    exists (flat_map (fun w => map (fun x => (ch' (fst x), mkCh (ch_axes (snd x)) false false)) (w_channels w)) ws). split; [|split].
    - unfold ops. assert (Q : forall l seen rest, chan_decls seen (flat_map input_list l ++ rest) =
        flat_map (fun w => map (fun x => (ch' (fst x), mkCh (ch_axes (snd x)) false false)) (w_channels w)) l ++
        chan_decls (fold_left (fun s c => set_add c s) (flat_map (fun w => map ch' (dkeys (w_channels w))) l) seen) rest).
      { clear. induction l as [|w l IH]; intros seen rest; cbn [flat_map app fold_left]; auto. rewrite <- !app_assoc, fold_left_app.
        enough (Q : forall rest seen, chan_decls seen (input_list w ++ rest) = map (fun x => (ch' (fst x), mkCh (ch_axes (snd x)) false false)) (w_channels w) ++
          chan_decls (fold_left (fun s c => set_add c s) (map ch' (dkeys (w_channels w))) seen) rest) by (rewrite Q, IH; auto).
        clear. intros rest seen. unfold input_list. revert seen. generalize 0 at 1. generalize (w_channels w).
        induction d as [|[c info] d IH]; intros a seen; cbn [debug_ranges flat_map map app fst snd dkeys fold_left]; auto.
        unfold chan_list at 1. cbn [app chan_decls fst snd]. f_equal. rewrite <- !app_assoc.
        assert (P : forall l r sn, chan_decls sn (map (proc_call rn w (norm_of w) (ch' c) a (axes_size (ch_axes info) false)) l ++ r) = chan_decls sn r) by (induction l; intros; cbn; auto).
        rewrite P. cbn [app chan_decls].
        assert (P2 : forall l r sn, chan_decls sn (flat_map (syst_calls rn w (norm_of w) (logk_of w) (ch' c) a (axes_size (ch_axes info) false)) l ++ r) = chan_decls sn r).
        { assert (P3 : forall l (g : nat * string -> op V) r sn, (forall x, match g x with AddSystematic _ _ _ _ _ _ _ _ _ => True | _ => False end) -> chan_decls sn (map g l ++ r) = chan_decls sn r).
          { induction l as [|y l IHl]; intros g r sn Hg; cbn [map app chan_decls]; auto. specialize (Hg y) as Hy. destruct (g y); try contradiction. auto. }
          induction l as [|[k nm] l IHl]; intros r sn; cbn [flat_map app]; auto. rewrite <- app_assoc. cbn [syst_calls]. rewrite P3; auto. }
        rewrite P2. apply IH. }
      specialize (Q ws [] []). rewrite app_nil_r in Q. rewrite Q. cbn [chan_decls]. apply app_nil_r.
    - unfold new_names. clear M FS. induction ws as [|w l IH]; cbn [flat_map map]; auto. rewrite map_app, IH. f_equal. unfold dkeys. rewrite !map_map. reflexivity.
    - intros c' i. rewrite in_flat_map. split.
      + intros (w & I & H). apply in_map_iff in H as ([c info] & E & H). injection E as <- <-. exists w, c, info. auto.
      + intros (w & c & info & I & H & -> & ->). exists w. split; auto. apply in_map_iff. exists (c, info). auto.
  Qed.

  Lemma channel_unique w1 w2 c1 c2 : In w1 ws -> In w2 ws -> In c1 (dkeys (w_channels w1)) -> In c2 (dkeys (w_channels w2)) -> ch' c1 = ch' c2 -> w1 = w2 /\ c1 = c2.
  Proof.
    intros I1 I2 K1 K2 E. pose proof names_nodup as N. unfold new_names in N.
    assert (w1 = w2). { eapply (NoDup_flat _ _ N w1 w2 (ch' c1)); auto; [|rewrite E]; apply in_map; auto. }
    subst. split; auto. apply (NoDup_flat_one _ _ w2) in N; auto. cbn beta in N. apply (NoDup_map_inj _ _ _ _ N); auto.
  Qed.
  Lemma range_unique w c i1 s1 n1 i2 s2 n2 : In w ws -> In (c, (i1, (s1, n1))) (debug_ranges 0 (w_channels w)) -> In (c, (i2, (s2, n2))) (debug_ranges 0 (w_channels w)) ->
    i1 = i2 /\ s1 = s2 /\ n1 = n2.
  Proof.
    intros I H1 H2. pose proof (chans_nodup w I) as N. rewrite <- debug_names in N.
    pose proof (NoDup_map_inj fst _ _ _ N H1 H2 eq_refl) as E. injection E as -> -> ->. auto.
  Qed.

  Hypothesis CA : constraints_agree rn ws.
  Lemma wf_ops : Forall wf_op ops /\ Forall no_stored_zeros ops.
  Proof.
    split; apply Forall_forall; intros o H; apply ops_In in H as (w & c & info & s & n & I & D & H); apply chan_list_In in H as [->|[(ip & p & _ & ->)|[->|(k & nm & ip & p & _ & _ & _ & _ & ->)]]]; cbn; auto;
      unfold rows; rewrite ?map_length; auto.
  Qed.
  Lemma once : channels_once ops.
  Proof. unfold channels_once. destruct decls as (d & -> & E & _). rewrite E. apply names_nodup. Qed.

  (** nuisances booked *)
  Lemma syst_booked n' kw : In (n', kw) (all_systs ops) <-> exists w c info s n k nm ip p, In w ws /\ In (c, (info, (s, n))) (debug_ranges 0 (w_channels w)) /\
    nth_error (w_systs w) k = Some nm /\ nth_error (w_procs w) ip = Some p /\ active w (logk_of w) s n ip k = true /\ n' = sy' nm /\
    kw = mkKw (smem nm (nois w)) (negb (smem nm (w_noconstraint w))) (Some (groups_per_syst rn w k)).
  Proof.
    unfold all_systs. rewrite in_flat_map. split.
    - intros (o & Ho & H). apply ops_In in Ho as (w & c & info & s & n & I & D & Ho). apply chan_list_In in Ho as [->|[(ip & p & _ & ->)|[->|(k & nm & ip & p & K & P & A & _ & ->)]]]; try contradiction.
      cbn [syst_decls] in H. destruct H as [H|[]]. injection H as <- <-. exists w, c, info, s, n, k, nm, ip, p. auto 10.
    - intros (w & c & info & s & n & k & nm & ip & p & I & D & K & P & A & -> & ->). eexists. split.
      + apply ops_In. exists w, c, info, s, n. split; [exact I|]. split; [exact D|]. right. apply in_app_iff. right. right. apply in_flat_map. exists (k, nm).
        split; [apply enumerate_In; exact K|]. cbn [syst_calls]. apply in_map_iff. exists (ip, p). split; [reflexivity|]. apply filter_In. split; auto. apply enumerate_In. auto.
      + left. reflexivity.
  Qed.
  Lemma stable : constraint_stable ops.
  Proof.
    intros s [(k1 & H1 & E1) (k2 & H2 & E2)]. apply syst_booked in H1 as (w1 & c1 & i1 & s1 & m1 & j1 & nm1 & ip1 & p1 & I1 & _ & N1 & _ & _ & -> & ->).
    apply syst_booked in H2 as (w2 & c2 & i2 & s2 & m2 & j2 & nm2 & ip2 & p2 & I2 & _ & N2 & _ & _ & E & ->). cbn in E1, E2.
    apply negb_true_iff in E1. apply negb_false_iff in E2. apply smem_In in E2.
    rewrite <- (CA w1 w2 nm1 nm2 I1 I2 (nth_error_In _ _ N1) (nth_error_In _ _ N2) E), <- smem_In in E2. congruence.
  Qed.
  Lemma cleaned : clean ops.
  Proof. destruct wf_ops. split; auto. split; auto. split; [apply once|apply stable]. Qed.

  (** processes of one file keep different names *)
  Lemma procs_apart w c : In w ws -> In c (dkeys (w_channels w)) -> NoDup (map (cut rn w) (w_procs w)).
  Proof.
    intros I K. destruct wf_ops as [W1 W2]. destruct Wr as (st & R & _).
    assert (exists info s n, In (c, (info, (s, n))) (debug_ranges 0 (w_channels w))) as (info & s & n & D).
    { rewrite <- debug_names in K. apply in_map_iff in K as ([c0 [info [s n]]] & E & K). cbn in E. subst. eauto. }
    assert (exists a b, ops = a ++ map (proc_call rn w (norm_of w) (ch' c) s n) (enumerate (w_procs w)) ++ b) as (a & b & E).
    { unfold ops. apply in_split in I as (l1 & l2 & ->). rewrite flat_map_app. cbn [flat_map]. unfold input_list at 2.
      apply in_split in D as (d1 & d2 & ->). rewrite flat_map_app. cbn [flat_map fst snd]. unfold chan_list at 2. cbn [app].
      eexists (flat_map input_list l1 ++ flat_map _ d1 ++ [AddChannel (Some (ch' c)) (ch_axes info) false false]), _.
      rewrite <- !app_assoc. cbn [app]. rewrite <- !app_assoc. reflexivity. }
    pose proof once as O. rewrite E in *. clear E. assert (Q : forall l1 p l2 q l3, w_procs w = l1 ++ p :: l2 ++ q :: l3 -> cut rn w p = cut rn w q -> False).
    { intros l1 p l2 q l3 EP EQ. rewrite EP in *.
      assert (forall (A : Type) (l m : list A) k, combine (seq k (List.length (l ++ m))) (l ++ m) = combine (seq k (List.length l)) l ++ combine (seq (k + List.length l) (List.length m)) m) as CB.
      { clear. induction l as [|x l IH]; intros m k; cbn [List.length seq combine app]. { rewrite Nat.add_0_r. auto. } f_equal. rewrite IH. f_equal. f_equal. f_equal. lia. }
      unfold enumerate in *. rewrite CB in *. cbn [List.length seq combine] in *. rewrite CB in *. cbn [List.length seq combine] in *.
      rewrite map_app in *. cbn [map] in *. rewrite map_app in *. cbn [map] in *. repeat rewrite <- app_assoc in *. cbn [app] in *. repeat rewrite <- app_assoc in *. cbn [app] in *.
      rewrite app_assoc in R, W1, W2, O. symmetry in EQ. exact (process_twice _ _ _ _ _ _ _ _ _ _ _ _ _ _ EQ R W1 W2 O). }
    revert Q. generalize (w_procs w). clear. induction l as [|x l IH]; intros Q; cbn [map]; constructor.
    - intros X. apply in_map_iff in X as (y & E & X). apply in_split in X as (l2 & l3 & ->). apply (Q [] x l2 y l3); auto.
    - apply IH. intros l1 p l2 q l3 E. apply (Q (x :: l1) p l2 q l3). cbn. congruence.
  Qed.
End Proof.
