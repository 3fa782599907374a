(** C84: merging of input files. *)
From Coq Require Import List Arith Bool String ZArith Lia Reals Lra.
From Verif Require Import PyList PyDict ListUtil Num RBase Order Names_Model Writer_Model Writer_Spec Writer_Layout Writer_Meta Writer_Inv
  Writer_Tensor Writer_Hist Writer_Denote Writer_Master Writer_Effects Writer_Accept Writer_Props Yields_Model Yields_Spec Yields_Proof Yields_Smooth Yields_Equiv Yields_Props
  Card_Model Card_Convert Merge_Model Merge_Spec Merge_Lib Merge_Proof Merge_Effects Merge_Yields Merge_Accept.
Import ListNotations.
Local Open Scope nat_scope.
Local Open Scope string_scope.
Local Open Scope list_scope.

Section C84.
  Variables (rn : renames) (t : systype) (ws : list (workspace R)) (W : workspace R).
  Hypothesis M : merge rn t ws = Ok W.
  Hypothesis FS : Forall from_script ws.
  Hypothesis CA : constraints_agree rn ws.
  Notation ch' := (renamed (rn_chans rn)).
  Notation pr' := (renamed (rn_procs rn)).
  Notation sy' := (renamed (rn_systs rn)).

  (** each channel of each file once, with its axes *)
  Theorem C84_channels :
    NoDup (flat_map (fun w => map ch' (dkeys (w_channels w))) ws) /\ NoDup (dkeys (w_channels W)) /\
    (forall c', In c' (dkeys (w_channels W)) <-> exists w c, In w ws /\ In c (dkeys (w_channels w)) /\ c' = ch' c) /\
    (forall w c i, In w ws -> In (c, i) (w_channels w) -> dget (ch' c) (w_channels W) = Some (mkCh (ch_axes i) false false)) /\
    (forall w c i, In w ws -> In (c, i) (w_channels w) -> ch_masked i = false).
  Proof using M FS CA.
    destruct (merged_layout rn t ws W M CA) as (L1 & L2 & _). rewrite reader_names in L1. split; [exact (names_nodup rn t ws W M)|]. split; auto. split.
    { intros c'. rewrite <- L2, reader_names. tauto. }
    assert (K : forall w c i, In w ws -> In (c, i) (w_channels w) -> exists i', dget (ch' c) (w_channels W) = Some i').
    { intros w c i I H. destruct (dget (ch' c) (w_channels W)) eqn:E; eauto. exfalso. apply dget_None in E. apply E. rewrite <- reader_names with (a := 0). apply L2. exists w, c. repeat split; auto. apply (in_map fst) in H. auto. }
    split.
    - intros w c i I H. destruct (K w c i I H) as (i' & E). rewrite E. destruct (merged_info rn t ws W M CA _ _ E) as (w2 & c2 & i2 & I2 & H2 & E2 & ->).
      destruct (channel_unique rn t ws W M w w2 c c2 I I2 (in_map fst _ _ H) (in_map fst _ _ H2) E2) as [<- <-].
      pose proof (chans_nodup ws FS w I) as ND. apply In_dget in H; auto. apply In_dget in H2; auto. rewrite H in H2. injection H2 as <-. auto.
    - intros w c i I H. eapply unmasked; eauto. apply In_dget; eauto. eapply chans_nodup; eauto.
  Qed.
  Hypothesis NF : names_fit rn ws.
  Theorem C84_processes : forall p', In p' (w_procs W) <-> exists w p, In w ws /\ w_channels w <> [] /\ In p (w_procs w) /\ p' = pr' p.
  Proof using M NF. exact (merged_procs rn t ws W M NF). Qed.
  (** every bin of every process of every file has its place, and there are no others *)
  Theorem C84_points :
    (forall w c p i b ip, In w ws -> at_point w c p i b ip -> exists b' ip', at_point W (ch' c) (pr' p) i b' ip') /\
    (forall c' p' i b' ip', at_point W c' p' i b' ip' -> exists w c, In w ws /\ In c (dkeys (w_channels w)) /\ c' = ch' c /\
       forall p ip, nth_error (w_procs w) ip = Some p -> exists b, at_point w c p i b ip).
  Proof using M FS CA NF. split; [exact (point_fwd rn t ws W M FS CA NF)|exact (point_back rn t ws W M FS CA)]. Qed.
  Theorem C84_data : forall w c p i b ip p' b' ip', In w ws -> at_point w c p i b ip -> at_point W (ch' c) p' i b' ip' ->
    w_data_obs W b' = w_data_obs w b /\ w_data_var W b' = w_data_var w b.
  Proof using M FS CA. exact (data_kept rn t ws W M FS CA). Qed.
  (** the templates are kept (negative yields clipped); a process that a file does not have is empty in its channels *)
  Theorem C84_template :
    (forall w c p i b ip b' ip', In w ws -> at_point w c p i b ip -> at_point W (ch' c) (pr' p) i b' ip' ->
       view_norm (w_tensors W) b' ip' = Rmax 0 (view_norm (w_tensors w) b ip) /\ w_sumw2 W b' ip' = w_sumw2 w b ip) /\
    (forall w c p' i b' ip', In w ws -> In c (dkeys (w_channels w)) -> at_point W (ch' c) p' i b' ip' -> ~ In p' (map pr' (w_procs w)) ->
       view_norm (w_tensors W) b' ip' = 0%R /\ w_sumw2 W b' ip' = 0%R).
  Proof using M FS CA NF.
    split.
    - intros w c p i b ip b' ip' I H1 H2. destruct (template rn t ws W M FS CA NF w c p i b ip b' ip' I H1 H2) as (A & _ & B). auto.
    - intros w c p' i b' ip' I K H N. destruct (foreign_process rn t ws W M CA NF w c p' i b' ip' I K H N) as (A & _ & B & _). auto.
  Qed.
  (** a nuisance is kept iff it does anything; nuisances of the same new name are one *)
  Theorem C84_nuisances :
    NoDup (w_systs W) /\
    (forall n', In n' (w_systs W) <-> exists w k, In w ws /\ called rn w k n' /\ acts w k) /\
    (forall k' n', nth_error (w_systs W) k' = Some n' ->
       (forall w k, In w ws -> called rn w k n' -> acts w k -> nth_error (w_cw W) k' = nth_error (w_cw w) k) /\
       (In k' (w_noiidxs W) <-> exists w k, In w ws /\ called rn w k n' /\ acts w k /\ In k (w_noiidxs w)) /\
       (forall g', (exists idx, In (g', idx) (w_groups W) /\ In k' idx) <->
          exists w k g idx, In w ws /\ called rn w k n' /\ acts w k /\ In (g, idx) (w_groups w) /\ In k idx /\ g' = renamed (rn_groups rn) g)).
  Proof using M FS CA. exact (nuisances rn t ws W M FS CA). Qed.
  (** where a nuisance does nothing *)
  Theorem C84_no_effect : forall w c p i b ip b' ip' n' k', In w ws -> at_point w c p i b ip -> at_point W (ch' c) (pr' p) i b' ip' ->
    nth_error (w_systs W) k' = Some n' -> ~ In n' (map sy' (w_systs w)) -> avg_of W b' ip' k' = 0%R /\ half_of W b' ip' k' = 0%R.
  Proof using M FS CA NF. exact (effect_foreign rn t ws W M FS CA NF). Qed.
  Hypothesis SA : systs_apart rn ws.
  (** the effects are kept if the file was written with the type of systematics of the merged one *)
  Theorem C84_effect : forall w c p i b ip b' ip' k nm k', In w ws -> w_type w = t -> at_point w c p i b ip -> at_point W (ch' c) (pr' p) i b' ip' ->
    (0 <= view_norm (w_tensors w) b ip)%R -> nth_error (w_systs w) k = Some nm -> nth_error (w_systs W) k' = Some (sy' nm) ->
    avg_of W b' ip' k' = avg_of w b ip k /\ half_of W b' ip' k' = half_of w b ip k.
  Proof using M FS CA NF SA. exact (effect_kept rn t ws W M FS CA NF SA). Qed.
  (** otherwise the variations by one standard deviation are *)
  Theorem C84_as_normal : forall w c p i b ip b' ip' k nm k', In w ws -> w_type w = LogNormal -> t = Normal -> at_point w c p i b ip -> at_point W (ch' c) (pr' p) i b' ip' ->
    (0 <= view_norm (w_tensors w) b ip)%R -> nth_error (w_systs w) k = Some nm -> nth_error (w_systs W) k' = Some (sy' nm) ->
    let N := view_norm (w_tensors w) b ip in let a := avg_of w b ip k in let h := half_of w b ip k in
    (N + (avg_of W b' ip' k' + half_of W b' ip' k') = N * exp (a + h) /\ N + (- avg_of W b' ip' k' + half_of W b' ip' k') = N * exp (- a + h))%R.
  Proof using M FS CA NF SA.
    intros w c p i b ip b' ip' k nm k' I T TT P P' NN K K' N a h. destruct (effect_any rn t ws W M FS CA NF SA w c p i b ip b' ip' k nm k' I P P' NN K K') as [-> ->].
    fold N a h. rewrite T, TT. unfold spec_logk, get_syst. cbn. destruct (Req_EM_T N 0) as [Z|Z]; [rewrite Z|]; split; field.
  Qed.
  Theorem C84_as_lognormal : forall w c p i b ip b' ip' k nm k', In w ws -> w_type w = Normal -> t = LogNormal -> at_point w c p i b ip -> at_point W (ch' c) (pr' p) i b' ip' ->
    (0 < view_norm (w_tensors w) b ip)%R -> nth_error (w_systs w) k = Some nm -> nth_error (w_systs W) k' = Some (sy' nm) ->
    let N := view_norm (w_tensors w) b ip in let a := avg_of w b ip k in let h := half_of w b ip k in (0 < N + (a + h) -> 0 < N + (- a + h) ->
    N * exp (avg_of W b' ip' k' + half_of W b' ip' k') = N + (a + h) /\ N * exp (- avg_of W b' ip' k' + half_of W b' ip' k') = N + (- a + h))%R.
  Proof using M FS CA NF SA.
    intros w c p i b ip b' ip' k nm k' I T TT P P' NN K K' N a h PU PD. destruct (effect_any rn t ws W M FS CA NF SA w c p i b ip b' ip' k nm k' I P P' ltac:(lra) K K') as [-> ->].
    fold N a h. fold N in NN. rewrite T, TT. unfold spec_logk, get_syst. cbn. destruct (Req_EM_T N 0) as [Z|Z]; [lra|].
    rewrite !Rltb_true by (apply Rmult_lt_0_compat; lra). set (u := ln ((a + h + N) / N)). set (d := ln ((- a + h + N) / N)).
    replace ((1 * u - 1 * d) / 2 + (1 * u + 1 * d) / 2)%R with u by field. replace (- ((1 * u - 1 * d) / 2) + (1 * u + 1 * d) / 2)%R with d by field.
    unfold u, d. rewrite !exp_ln by (apply Rdiv_lt_0_compat; lra). split; field; auto.
  Qed.
  (** so that the merged file predicts in the channels of each file what that file predicts *)
  Theorem C84_yields : forall w np rinit tl r th full nexp nc np' rinit' tl' r' TH full' nexp' nc', In w ws -> w_type w = t ->
    (forall c p i b ip, at_point w c p i b ip -> (0 <= view_norm (w_tensors w) b ip)%R) ->
    List.length th = List.length (w_systs w) -> List.length TH = List.length (w_systs W) ->
    scale_logk (indata_of w) np rinit = Ok tl -> yields (indata_of w) tl r th full = Ok (nexp, nc) ->
    scale_logk (indata_of W) np' rinit' = Ok tl' -> yields (indata_of W) tl' r' TH full' = Ok (nexp', nc') ->
    (** parameters of the same name have the same value *)
    (forall k nm k', nth_error (w_systs w) k = Some nm -> nth_error (w_systs W) k' = Some (sy' nm) -> nth k' TH 0%R = nth k th 0%R) ->
    (** and the model of interest scales the processes alike *)
    (forall c p i b ip b' ip', at_point w c p i b ip -> at_point W (ch' c) (pr' p) i b' ip' ->
       rn_bcast r' b' ip' = rn_bcast r b ip /\
       (if Nat.eqb np' 0 then 1%R else rn_bcast rinit' b' ip') = (if Nat.eqb np 0 then 1%R else rn_bcast rinit b ip)) ->
    forall c p i b ip p' b' ip', at_point w c p i b ip -> at_point W (ch' c) p' i b' ip' ->
      (p' = pr' p -> nc' b' ip' = nc b ip) /\ nth b' nexp' 0%R = nth b nexp 0%R.
  Proof using M FS CA NF SA. exact (yields_kept rn t ws W M FS CA NF SA). Qed.
End C84.
(** files that can be merged are *)
Theorem C84_accepted : forall rn t ws, Forall mergeable ws -> Forall from_script ws -> names_fit rn ws -> names_apart rn ws -> signals_agree rn ws ->
  exists W, merge rn t ws = Ok W.
Proof. exact accepted. Qed.
Theorem C84_mergeable : forall cfg ops (w : workspace R), written cfg ops w -> clean ops -> c_sparse cfg = false -> w_procs w <> [] ->
  (forall c i, In (c, i) (chan_decls [] ops) -> ch_masked i = false) ->
  (forall e n p c sg, ~ In (AddProcess (HSparse e n) p c sg None) ops) -> mergeable w.
Proof. exact dense_mergeable. Qed.

(** ** example: two files that share a process and, after renaming, a nuisance *)
Definition exA_gen {V} (f : Z -> V) : list (op V) :=
  [ AddChannel (Some "a") [(2, 2)] false false;
    AddData "a" [f 5; f 6]%Z [f 5; f 6]%Z;
    AddProcess (HDense [f 2; f 4]%Z [f 2; f 4]%Z) "z" "a" true None;
    AddProcess (HDense [f 1; f 1]%Z [f 1; f 1]%Z) "bkg" "a" false None;
    AddSystematic (SPair (HDense [f 3; f 5]%Z []) (HDense [f 1; f 2]%Z [])) "shape" "z" "a" (f 1%Z) true NoSym false kw0;
    AddNormSystematic "lumi" ["z"; "bkg"] "a" [UScalar (f 2%Z); UScalar (f 3%Z)] Conservative kw0 ].
Definition exB_gen {V} (f : Z -> V) : list (op V) :=
  [ AddChannel (Some "b") [(1, 1)] false false;
    AddData "b" [f 7]%Z [f 7]%Z;
    AddProcess (HDense [f 3]%Z [f 3]%Z) "bkg" "b" false None;
    AddProcess (HDense [f 2]%Z [f 9]%Z) "tt" "b" false None;
    AddNormSystematic "lumiB" ["tt"] "b" [UScalar (f 3%Z)] Conservative kw0 ].
Definition ex_rn := mkRen [("lumiB", "lumi")] [] [("tt", "t2")] [("b", "c")].
Section ExR.
  #[local] Existing Instance Num_Zf.
  Lemma fields cfg (ops : list (op R)) w : written cfg ops w -> (forall p, In p (w_signals w) <-> In (p, true) (proc_decls ops)) /\
    (forall s, In s (w_noconstraint w) <-> declared_unconstrained ops s) /\ w_type w = c_type cfg.
  Proof.
    intros (st & RU & Wt). destruct (write_fields _ _ _ Wt) as (_ & _ & _ & _ & E1 & _ & _ & _ & _ & E2 & _ & _ & _ & E3 & _). split; [|split; auto].
    - intros p. rewrite E1. unfold sorted_str. rewrite sort_in. apply (run_proc_sets _ _ _ RU).
    - intros s. rewrite E2. unfold natural_sort. rewrite sort_in. apply (run_unc _ _ _ RU).
  Qed.
  Lemma exAB_written : forall t, exists wA wB, written (mkCfg false t false) (exA_gen IZR) wA /\ written (mkCfg false t false) (exB_gen IZR) wB /\
    clean (exA_gen IZR) /\ clean (exB_gen IZR) /\
    w_procs wA = ["z"; "bkg"] /\ w_procs wB = ["bkg"; "tt"] /\ w_systs wA = ["lumi"; "shape"] /\ w_systs wB = ["lumiB"] /\
    w_channels wA = [("a", mkCh [(2, 2)] false false)] /\ w_channels wB = [("b", mkCh [(1, 1)] false false)].
  Proof.
    intros t. assert (F1 : forall v : Z, nfinite v = true) by reflexivity. assert (F2 : forall v : R, nfinite v = true) by reflexivity.
    assert (SA : Forall2 op_sim (exA_gen (fun z => z)) (exA_gen IZR)) by (repeat constructor; cbn -[IZR]; rewrite ?Rltb_false by lra; reflexivity).
    assert (SB : Forall2 op_sim (exB_gen (fun z => z)) (exB_gen IZR)) by (repeat constructor; cbn -[IZR]; rewrite ?Rltb_false by lra; reflexivity).
    assert (CLA : clean (exA_gen IZR)).
    { split. { repeat constructor; simpl; try lia. } split. { repeat constructor; simpl; discriminate. } split. { repeat constructor; simpl; intuition discriminate. }
      intros s [(kw & A & B) (kw' & C & D)]. simpl in A, C. destruct A as [A|[A|[]]]; injection A as <- <-; destruct C as [C|[C|[]]]; try discriminate; injection C as <-; discriminate. }
    assert (CLB : clean (exB_gen IZR)).
    { split. { repeat constructor; simpl; try lia. } split. { repeat constructor; simpl; discriminate. } split. { repeat constructor; simpl; intuition discriminate. }
      intros s [(kw & A & B) (kw' & C & D)]. simpl in A, C. destruct A as [A|[]]; injection A as <- <-; destruct C as [C|[]]; try discriminate; injection C as <-; discriminate. }
    assert (ZA : exists w, written (mkCfg false LogNormal false) (exA_gen (fun z => z)) w /\ (w_procs w, w_systs w, w_channels w) = (["z"; "bkg"], ["lumi"; "shape"], [("a", mkCh [(2, 2)] false false)])).
    { apply (observe_written _ _ (fun w => (w_procs w, w_systs w, w_channels w))). vm_compute. reflexivity. }
    assert (ZB : exists w, written (mkCfg false LogNormal false) (exB_gen (fun z => z)) w /\ (w_procs w, w_systs w, w_channels w) = (["bkg"; "tt"], ["lumiB"], [("b", mkCh [(1, 1)] false false)])).
    { apply (observe_written _ _ (fun w => (w_procs w, w_systs w, w_channels w))). vm_compute. reflexivity. }
    destruct ZA as (a & A & EA). destruct ZB as (b & B & EB). injection EA as E1 E2 E3. injection EB as E4 E5 E6.
    destruct (written_sim F1 F2 _ (mkCfg false t false) _ _ a SA CLA A) as (wA & WA & H1 & H2 & H3 & _).
    destruct (written_sim F1 F2 _ (mkCfg false t false) _ _ b SB CLB B) as (wB & WB & G1 & G2 & G3 & _).
    exists wA, wB. split; auto. split; auto. split; auto. split; auto. repeat split; congruence.
  Qed.
End ExR.
Example C84_example : forall t, exists wA wB W, written (mkCfg false t false) (exA_gen IZR) wA /\ written (mkCfg false t false) (exB_gen IZR) wB /\
  let ws := [wA; wB] in merge ex_rn t ws = Ok W /\
  Forall from_script ws /\ Forall mergeable ws /\ constraints_agree ex_rn ws /\ names_fit ex_rn ws /\ names_apart ex_rn ws /\ signals_agree ex_rn ws /\ systs_apart ex_rn ws /\
  (forall c', In c' (dkeys (w_channels W)) <-> c' = "a" \/ c' = "c") /\ (forall p', In p' (w_procs W) <-> p' = "z" \/ p' = "bkg" \/ p' = "t2") /\
  (forall i b ip, at_point W "c" "t2" i b ip -> view_norm (w_tensors W) b ip = 2%R /\ w_sumw2 W b ip = 9%R /\ w_data_obs W b = 7%R) /\
  (forall i b ip, at_point W "c" "z" i b ip -> view_norm (w_tensors W) b ip = 0%R).
Proof.
  intros t. destruct (exAB_written t) as (wA & wB & WA & WB & CLA & CLB & PA & PB & YA & YB & KA & KB).
  destruct (fields _ _ _ WA) as (SGA & UA & TA). destruct (fields _ _ _ WB) as (SGB & UB & TB).
  assert (FS : Forall from_script [wA; wB]) by (repeat constructor; eexists; eexists; eauto).
  assert (MG : Forall mergeable [wA; wB]).
  { apply Forall_cons; [|apply Forall_cons; [|apply Forall_nil]].
    - apply (dense_mergeable _ _ _ WA CLA eq_refl). { rewrite PA. discriminate. } { cbn. intros c i [H|[]]. injection H as <- <-. auto. } cbn. intuition discriminate.
    - apply (dense_mergeable _ _ _ WB CLB eq_refl). { rewrite PB. discriminate. } { cbn. intros c i [H|[]]. injection H as <- <-. auto. } cbn. intuition discriminate. }
  assert (U : forall w s, In w [wA; wB] -> ~ In s (w_noconstraint w)).
  { intros w s [<-|[<-|[]]]; [rewrite UA|rewrite UB]; intros (kw & H & F); cbn in H; repeat (destruct H as [H|H]; [injection H as <- <-; discriminate F|]); contradiction. }
  assert (CA : constraints_agree ex_rn [wA; wB]). { intros w1 w2 n1 n2 I1 I2 _ _ _. specialize (U w1 n1 I1) as U1. specialize (U w2 n2 I2). tauto. }
  assert (NF : names_fit ex_rn [wA; wB]).
  { repeat constructor; [rewrite PA|rewrite PB].
    - intros p [<-|[<-|[]]]; exists "bkg"; cbn; split; auto; lia.
    - intros p [<-|[<-|[]]]; exists "bkg"; cbn; split; auto; lia. }
  assert (NA : names_apart ex_rn [wA; wB]).
  { split; [cbn; rewrite KA, KB; cbn; repeat constructor; cbn; intuition discriminate|]. repeat constructor; rewrite ?PA, ?PB; cbn; repeat constructor; cbn; intuition discriminate. }
  assert (SG : signals_agree ex_rn [wA; wB]).
  { intros w1 w2 p1 p2 I1 I2 Q1 Q2 E. cbn in I1, I2.
    destruct I1 as [<-|[<-|[]]], I2 as [<-|[<-|[]]]; rewrite ?PA, ?PB in Q1; rewrite ?PA, ?PB in Q2; cbn in Q1, Q2; repeat (destruct Q1 as [<-|Q1]; [|try contradiction]); repeat (destruct Q2 as [<-|Q2]; [|try contradiction]);
      try discriminate E; rewrite ?SGA, ?SGB; cbn; split; intros HH; auto; repeat (destruct HH as [HH|HH]; [try discriminate HH|]); try contradiction; auto. }
  assert (SA : systs_apart ex_rn [wA; wB]). { repeat constructor; rewrite ?YA, ?YB; cbn; repeat constructor; cbn; intuition discriminate. }
  destruct (C84_accepted ex_rn t [wA; wB] MG FS NF NA SG) as (W & M). exists wA, wB, W. split; auto. split; auto. cbv zeta. split; auto.
  split; [exact FS|]. split; [exact MG|]. split; [exact CA|]. split; [exact NF|]. split; [exact NA|]. split; [exact SG|]. split; [exact SA|].
  split; [|split; [|split]].
  - intros c'. destruct (C84_channels ex_rn t [wA; wB] W M FS CA) as (_ & _ & -> & _). split.
    + intros (w & c & [<-|[<-|[]]] & H & ->); rewrite ?KA, ?KB in H; cbn in H; destruct H as [<-|[]]; cbn; auto.
    + intros [->| ->]; [exists wA, "a"|exists wB, "b"]; rewrite ?KA, ?KB; cbn; auto.
  - intros p'. rewrite (C84_processes ex_rn t [wA; wB] W M NF). split.
    + intros (w & p & [<-|[<-|[]]] & _ & H & ->); rewrite ?PA, ?PB in H; cbn in H; destruct H as [<-|[<-|[]]]; cbn; auto.
    + intros [->|[->| ->]]; [exists wA, "z"|exists wA, "bkg"|exists wB, "tt"]; rewrite ?KA, ?KB, ?PA, ?PB; cbn; repeat split; auto; discriminate.
  - intros i b ip P. destruct (proj2 (C84_points ex_rn t [wA; wB] W M FS CA NF) _ _ _ _ _ P) as (w & c & I & K & E & H). cbn in I. destruct I as [<-|[<-|[]]]; rewrite ?KA, ?KB in K; cbn in K; destruct K as [<-|[]]; try discriminate E.
    destruct (H "tt" 1) as (b0 & P0); [rewrite PB; auto|].
    destruct (proj1 (C84_template ex_rn t [wA; wB] W M FS CA NF) wB "b" "tt" i b0 1 b ip) as (-> & ->); cbn; auto.
    destruct (C84_data ex_rn t [wA; wB] W M FS CA wB "b" "tt" i b0 1 "t2" b ip) as (-> & _); cbn; auto.
    assert (i = 0 /\ b0 = 0) as [-> ->]. { destruct P0 as (s & e & Hs & Li & -> & _). rewrite KB in Hs. cbn in Hs. destruct Hs as [Hs|[]]. injection Hs as <- <-. lia. }
    destruct (C03_template R _ _ _ _ _ WB CLB (HDense [2%R] [9%R]) "tt" "b" false None) with (i := 0) (b := 0) (ip := 1) as (-> & _ & ->); [cbn; auto|auto|].
    cbn. split; [|split; auto].
    + unfold spec_clip. cbn. rewrite Rltb_false by lra. rewrite Rmax_right by lra. auto.
    + destruct WB as (st & RU & Wt). destruct CLB as (_ & _ & C3 & _).
      destruct (Pseudo_Proof.written_data _ _ _ _ RU Wt (once_stable _ C3) "b" 0 1 (mkCh [(1, 1)] false false)) as (v & V1 & V2); rewrite ?KB; cbn; auto.
      cbn in V1. destruct V1 as [V1|[]]. injection V1 as <-. apply (V2 0). lia.
  - intros i b ip P. apply (proj2 (C84_template ex_rn t [wA; wB] W M FS CA NF) wB "b" "z" i b ip); cbn; auto. { rewrite KB. cbn. auto. } rewrite PB. cbn. intuition discriminate.
Qed.

(** the interpolation is not kept if the types differ: a factor 3 to the power 2 becomes 1 + 2 * 2 *)
Theorem C84_type_refuted : exists (w W : workspace R) tl nexp nc tl' nexp' nc' b ip b' ip',
  from_script w /\ w_type w = LogNormal /\ merge ex_rn Normal [w] = Ok W /\ at_point w "b" "tt" 0 b ip /\ at_point W "c" "t2" 0 b' ip' /\ w_systs w = ["lumiB"] /\ w_systs W = ["lumi"] /\
  scale_logk (indata_of w) 1 (RBroadcast (fun _ => 1%R)) = Ok tl /\ yields (indata_of w) tl (RBroadcast (fun _ => 1%R)) [2%R] false = Ok (nexp, nc) /\
  scale_logk (indata_of W) 1 (RBroadcast (fun _ => 1%R)) = Ok tl' /\ yields (indata_of W) tl' (RBroadcast (fun _ => 1%R)) [2%R] false = Ok (nexp', nc') /\
  nc b ip = 18%R /\ nc' b' ip' = 10%R.
Proof.
  destruct (exAB_written LogNormal) as (_ & w & _ & WB & _ & CLB & _ & PB & _ & YB & _ & KB).
  destruct (fields _ _ _ WB) as (SGB & UB & TB). cbn in TB.
  assert (FS : Forall from_script [w]) by (repeat constructor; eexists; eexists; eauto).
  assert (MG : mergeable w).
  { apply (dense_mergeable _ _ _ WB CLB eq_refl). { rewrite PB. discriminate. } { cbn. intros c i [H|[]]. injection H as <- <-. auto. } cbn. intuition discriminate. }
  assert (U : forall s, ~ In s (w_noconstraint w)).
  { intros s. rewrite UB. intros (kw & H & F); cbn in H; repeat (destruct H as [H|H]; [injection H as <- <-; discriminate F|]); contradiction. }
  assert (CA : constraints_agree ex_rn [w]). { intros w1 w2 n1 n2 [<-|[]] [<-|[]] _ _ _. specialize (U n1) as U1. specialize (U n2). tauto. }
  assert (NF : names_fit ex_rn [w]). { repeat constructor. rewrite PB. intros p [<-|[<-|[]]]; exists "bkg"; cbn; split; auto; lia. }
  assert (NA : names_apart ex_rn [w]).
  { split; [cbn; rewrite KB; cbn; repeat constructor; cbn; intuition discriminate|]. repeat constructor; rewrite ?PB; cbn; repeat constructor; cbn; intuition discriminate. }
  assert (SG : signals_agree ex_rn [w]).
  { intros w1 w2 p1 p2 [<-|[]] [<-|[]] Q1 Q2 E. rewrite !SGB. cbn. intuition congruence. }
  assert (SA : systs_apart ex_rn [w]). { repeat constructor; rewrite YB; cbn; repeat constructor; cbn; intuition discriminate. }
  destruct (C84_accepted ex_rn Normal [w] (Forall_cons _ MG (Forall_nil _)) FS NF NA SG) as (W & M).
  assert (P : at_point w "b" "tt" 0 0 1). { exists 0, 1. rewrite KB, PB. cbn. repeat split; auto. }
  destruct (proj1 (C84_points ex_rn Normal [w] W M FS CA NF) w "b" "tt" 0 0 1 (or_introl eq_refl) P) as (b' & ip' & P'). cbn in P'.
  destruct (view_point _ _ _ _ _ _ _ _ WB CLB P) as (V1 & _ & _ & V4). destruct (V4 0 "lumiB" ltac:(rewrite YB; auto)) as [VA VH].
  assert (N2 : view_norm (w_tensors w) 0 1 = 2%R). { rewrite V1. unfold spec_norm. cbn. unfold spec_clip. cbn. rewrite Rltb_false by lra. auto. }
  assert (Q2 : Reqb 2 0 = false) by (destruct (Reqb_spec 2 0); auto; lra).
  assert (A3 : avg_of w 0 1 0 = ln 3).
  { unfold avg_of. rewrite VA. unfold spec_avg, stored, spec_norm. cbn. unfold spec_clip. cbn. rewrite Rltb_false by lra. rewrite Q2, Rltb_true by lra.
    replace (2 * 3 / 2)%R with 3%R by field. ring. }
  assert (H0 : half_of w 0 1 0 = 0%R).
  { unfold half_of. destruct (w_symmetric w) eqn:S; auto. }
  assert (SW : w_systs W = ["lumi"]).
  { destruct (C84_nuisances ex_rn Normal [w] W M FS CA) as (ND & IFF & _).
    assert (X : forall n', In n' (w_systs W) <-> n' = "lumi").
    { intros n'. rewrite IFF. split.
      - intros (w1 & k & [<-|[]] & (n & K & ->) & _). rewrite YB in K. destruct k as [|[|k]]; try discriminate K. cbn in K. injection K as <-. auto.
      - intros ->. exists w, 0. split; [left; auto|]. split; [exists "lumiB"; rewrite YB; auto|]. exists "b", "tt", 0, 0, 1. split; auto. left. rewrite A3. change (@n0 R _) with 0%R. rewrite <- ln_1. apply Rgt_not_eq. apply ln_increasing; lra. }
    destruct (w_systs W) as [|x l]. { destruct (proj2 (X "lumi") eq_refl). } pose proof (proj1 (X x) (or_introl eq_refl)). subst x. f_equal. destruct l as [|y l]; auto. exfalso.
    pose proof (proj1 (X y) (or_intror (or_introl eq_refl))). subst y. inversion ND as [|? ? ND1 _]. apply ND1. left. auto. }
  destruct (C84_as_normal ex_rn Normal [w] W M FS CA NF SA w "b" "tt" 0 0 1 b' ip' 0 "lumiB" 0 (or_introl eq_refl) TB eq_refl P P') as [EU ED]; rewrite ?YB, ?SW; auto. { rewrite N2. lra. }
  rewrite N2, A3, H0 in EU, ED. rewrite Rplus_0_r, exp_ln in EU by lra. rewrite Rplus_0_r, exp_Ropp, exp_ln in ED by lra.
  destruct (proj1 (C84_template ex_rn Normal [w] W M FS CA NF) w "b" "tt" 0 0 1 b' ip' (or_introl eq_refl) P P') as (NW & _). rewrite N2, Rmax_right in NW by lra.
  destruct (scale_ok (indata_of w) 1 (fun _ => 1%R)) as (tl & S1). destruct (yields_ok (indata_of w) tl (fun _ => 1%R) [2%R] false) as ([nexp nc] & Y1).
  destruct (scale_ok (indata_of W) 1 (fun _ => 1%R)) as (tl' & S2). destruct (yields_ok (indata_of W) tl' (fun _ => 1%R) [2%R] false) as ([nexp' nc'] & Y2).
  exists w, W, tl, nexp, nc, tl', nexp', nc', 0, 1, b', ip'. split; [inversion FS; auto|]. split; auto. split; auto. split; auto. split; auto. split; auto. split; auto. split; auto. split; auto. split; auto. split; auto.
  pose proof (WR ex_rn Normal [w] W M) as WW. pose proof (CL ex_rn Normal [w] W M CA) as CW.
  assert (LY1 : List.length [2%R] = List.length (w_systs w)) by (rewrite YB; reflexivity). assert (LY2 : List.length [2%R] = List.length (w_systs W)) by (rewrite SW; reflexivity).
  destruct (yields_prediction _ _ _ _ _ _ _ _ _ _ _ WB CLB LY1 S1 Y1) as (_ & X1 & _). destruct (yields_prediction _ _ _ _ _ _ _ _ _ _ _ WW CW LY2 S2 Y2) as (_ & X2 & _). cbn [Nat.eqb] in X1, X2. cbv zeta beta in X1, X2.
  split.
  - rewrite (X1 _ _ _ _ _ P). 2: { refine (proj1 (unmasked_row _ _ _ _ _ _ _ _ WB CLB _ P)). intros c i H. apply dget_In in H. rewrite KB in H. cbn in H. destruct H as [H|[]]. injection H as <- <-. auto. }
    rewrite (prediction_cell _ _ _ _ _ _ _ _ _ _ _ WB CLB P). unfold cell. rewrite TB, YB, N2. unfold variation. cbn [List.length seq map sumR fold_right nth]. rewrite A3, H0. unfold predict_lognormal. cbn [rn_bcast].
    replace (2 * ln 3 + 2 * switch 2 * 0 + 0)%R with (ln 3 + ln 3)%R by ring. rewrite exp_plus, exp_ln by lra. lra.
  - rewrite (X2 _ _ _ _ _ P'). 2: { refine (proj1 (unmasked_row _ _ _ _ _ _ _ _ WW CW _ P')). intros c i H. eapply unmasked_W; eauto. }
    rewrite (prediction_cell _ _ _ _ _ _ _ _ _ _ _ WW CW P'). unfold cell. rewrite (type_W ex_rn Normal [w] W M), SW, NW. unfold variation. cbn [List.length seq map sumR fold_right nth]. rewrite switch_hi by lra. unfold predict_normal. cbn [rn_bcast]. lra.
Qed.

(** ** refutations (integers) *)
Section ExZ.
#[local] Existing Instance Num_Z.
Definition files (cfg : config) (l : list (list (op Z))) : result (list (workspace Z)) := mapM (file cfg) l.
Definition merged (rn : renames) (cfg : config) (l : list (list (op Z))) : result (workspace Z) := ws <- files cfg l ;; merge rn (c_type cfg) ws.
Definition no_rn := mkRen [] [] [] [].
Definition ok {A} (r : result A) : Prop := match r with Ok _ => True | Raise _ => False end.
Definition one (c : string) (p : string) (sg : bool) (y : Z) : list (op Z) :=
  [ AddChannel (Some c) [(1, 1)] false false; AddData c [5%Z] [5%Z]; AddProcess (HDense [y] [1%Z]) p c sg None ].
Definition sys (n p c : string) (u d : Z) (kw : kwargs) : op Z := AddSystematic (SPair (HDense [u] []) (HDense [d] [])) n p c 1%Z true NoSym false kw.
Definition norm_cfg := mkCfg false Normal false.

(** a masked channel has no data histogram *)
Theorem C84_masked_refuted : exists l, ok (files norm_cfg l) /\ merged no_rn norm_cfg l = Raise KeyError.
Proof. exists [one "a" "p" false 4 ++ [AddChannel (Some "gen") [(1, 1)] true false]]. split; vm_compute; auto. Qed.
Theorem C84_sparse_refuted : exists l, ok (files (mkCfg true Normal false) l) /\ merged no_rn (mkCfg true Normal false) l = Raise NotImplementedError.
Proof. exists [one "a" "p" false 4]. split; vm_compute; auto. Qed.
(** a nuisance without effect in the bins is dropped, also if it is a parameter of interest *)
Theorem C84_dropped_refuted : exists l w W, files norm_cfg l = Ok [w] /\ merge no_rn Normal [w] = Ok W /\ w_systs w = ["x"] /\ w_noiidxs w = [0] /\ w_systs W = [].
Proof.
  exists [one "a" "p" false 4 ++ [sys "x" "p" "a" 4 4 (mkKw true true None)]]. eexists. eexists. split; [vm_compute; reflexivity|]. split; [vm_compute; reflexivity|]. vm_compute. auto.
Qed.
(** negative yields of a file written with allow_negative_expectation are clipped *)
Theorem C84_negative_refuted : exists l w W, files (mkCfg false Normal true) l = Ok [w] /\ merge no_rn Normal [w] = Ok W /\ view_norm (w_tensors w) 0 0 = (-3)%Z /\ view_norm (w_tensors W) 0 0 = 0%Z.
Proof. exists [one "a" "p" false (-3)]. eexists. eexists. split; [vm_compute; reflexivity|]. split; [vm_compute; reflexivity|]. vm_compute. auto. Qed.
(** two nuisances of one file renamed alike: only the later one acts *)
Theorem C84_collision_refuted : exists rn l w W l2 w2 W2, files norm_cfg l = Ok [w] /\ merge rn Normal [w] = Ok W /\ w_systs w = ["x"; "y"] /\ w_systs W = ["y"] /\ avg_of w 0 0 0 <> 0%Z /\
  files norm_cfg l2 = Ok [w2] /\ merge rn Normal [w2] = Ok W2 /\ w_systs w2 = ["y"] /\ avg_of W 0 0 0 = avg_of W2 0 0 0 /\ half_of W 0 0 0 = half_of W2 0 0 0.
Proof.
  exists (mkRen [("x", "y")] [] [] []), [one "a" "p" false 4 ++ [sys "x" "p" "a" 6 2 kw0; sys "y" "p" "a" 12 3 kw0]]. eexists. eexists. exists [one "a" "p" false 4 ++ [sys "y" "p" "a" 12 3 kw0]]. eexists. eexists.
  split; [vm_compute; reflexivity|]. split; [vm_compute; reflexivity|]. split; [vm_compute; reflexivity|]. split; [vm_compute; reflexivity|]. split; [vm_compute; discriminate|].
  split; [vm_compute; reflexivity|]. split; [vm_compute; reflexivity|]. vm_compute. auto.
Qed.
Theorem C84_pseudodata_refuted : exists l w W, files norm_cfg l = Ok [w] /\ merge no_rn Normal [w] = Ok W /\ w_pseudonames w = ["toy"] /\ w_pseudonames W = [].
Proof. exists [one "a" "p" false 4 ++ [AddPseudodata (Some "toy") "a" [6%Z]]]. eexists. eexists. split; [vm_compute; reflexivity|]. split; [vm_compute; reflexivity|]. vm_compute. auto. Qed.
(** a process that is a signal in one file only *)
Theorem C84_signal_refuted : exists l, ok (files norm_cfg l) /\ merged no_rn norm_cfg l = Raise RuntimeError.
Proof. exists [one "a" "p" false 4; one "b" "p" true 4]. split; vm_compute; auto. Qed.
(** a nuisance constrained in one file and free in the other appears twice *)
Theorem C84_constraint_refuted : exists l w W, files norm_cfg l = Ok w /\ merge no_rn Normal w = Ok W /\ map w_systs w = [["x"]; ["x"]] /\ w_systs W = ["x"; "x"].
Proof.
  exists [one "a" "p" false 4 ++ [sys "x" "p" "a" 6 2 kw0]; one "b" "p" false 4 ++ [sys "x" "p" "b" 6 2 (mkKw false false None)]]. eexists. eexists. split; [vm_compute; reflexivity|]. split; [vm_compute; reflexivity|]. vm_compute. auto.
Qed.
(** a new name longer than the old ones is cut: the process is called differently, and with a nuisance merging fails *)
Theorem C84_name_cut_refuted : exists rn l w W, files norm_cfg l = Ok [w] /\ merge rn Normal [w] = Ok W /\ rn_procs rn = [("tt", "ttbar")] /\ w_procs w = ["tt"] /\ w_procs W = ["tt"].
Proof. exists (mkRen [] [] [("tt", "ttbar")] []), [one "a" "tt" false 4]. eexists. eexists. split; [vm_compute; reflexivity|]. split; [vm_compute; reflexivity|]. vm_compute. auto. Qed.
Theorem C84_long_name_refuted : exists rn l, ok (files norm_cfg l) /\ rn_procs rn = [("tt", "ttbar")] /\ merged rn norm_cfg l = Raise KeyError.
Proof. exists (mkRen [] [] [("tt", "ttbar")] []), [one "a" "tt" false 4 ++ [sys "x" "tt" "a" 6 2 kw0]]. split; [vm_compute; auto|]. split; [vm_compute; auto|]. vm_compute. auto. Qed.
(** the same channel in two files *)
Theorem C84_channel_refuted : exists l, ok (files norm_cfg l) /\ merged no_rn norm_cfg l = Raise RuntimeError.
Proof. exists [one "a" "p" false 4; one "a" "q" false 4]. split; vm_compute; auto. Qed.
End ExZ.

Print Assumptions C84_channels.
Print Assumptions C84_processes.
Print Assumptions C84_points.
Print Assumptions C84_data.
Print Assumptions C84_template.
Print Assumptions C84_nuisances.
Print Assumptions C84_no_effect.
Print Assumptions C84_effect.
Print Assumptions C84_as_normal.
Print Assumptions C84_as_lognormal.
Print Assumptions C84_yields.
Print Assumptions C84_accepted.
Print Assumptions C84_mergeable.
Print Assumptions C84_type_refuted.
Print Assumptions C84_masked_refuted.
Print Assumptions C84_sparse_refuted.
Print Assumptions C84_dropped_refuted.
Print Assumptions C84_negative_refuted.
Print Assumptions C84_collision_refuted.
Print Assumptions C84_pseudodata_refuted.
Print Assumptions C84_signal_refuted.
Print Assumptions C84_constraint_refuted.
Print Assumptions C84_name_cut_refuted.
Print Assumptions C84_long_name_refuted.
Print Assumptions C84_channel_refuted.
