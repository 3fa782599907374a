(** C02-C05, C07, C10-C12: what ends up in the workspace file. *)
From Coq Require Import List Arith Bool String Lia Sorted ZArith Reals Lra.
From Verif Require Import PyList PyDict Order Num RBase Names_Model Writer_Model Writer_Spec
  Writer_Layout Writer_Meta Writer_Inv Writer_State Writer_Tensor Writer_Hist Writer_Denote Writer_Master Writer_Effects.
Import ListNotations.
Local Open Scope nat_scope.
Local Open Scope string_scope.
Local Open Scope list_scope.

(** ** a concrete script used by the examples *)
#[local] Existing Instance Num_Z.
#[local] Instance NumLaws_Z : NumLaws Z.
Proof.
  split. intros v. change (Z.eqb 0 v = true <-> v = 0%Z). rewrite Z.eqb_eq. split; auto.
Qed.
Definition kw0 := mkKw false true None.
Definition kwU := mkKw true false (Some ["shape"; "all"]).
Definition ex_ops : list (op Z) :=
  [ AddChannel (Some "gen") [(2, 4)] true true;
    AddChannel (Some "sig") [(3, 5)] false false;
    AddChannel None [(1, 3); (2, 4)] false false;
    AddData "sig" [9; 22; 1]%Z [9; 22; 1]%Z;
    AddData "ch2" [5; 6]%Z [5; 6]%Z;
    AddProcess (HDense [10; 20; 0]%Z [1; 2; 0]%Z) "tt" "sig" true None;
    AddProcess (HSparse [(1, 4%Z)] 3) "qcd" "sig" false None;
    AddProcess (HDense [-3; 6]%Z [1; 1]%Z) "qcd" "ch2" false None;
    AddProcess (HDense [1; 2; 3; 4]%Z [1; 1; 1; 1]%Z) "tt" "gen" true None;
    AddSystematic (SPair (HDense [30; 20; 5]%Z []) (HDense [10; 60; 5]%Z [])) "alphaS" "tt" "sig" 1%Z true NoSym false kwU;
    AddSystematic (SSingle (HDense [3; 12]%Z [])) "pdf10" "qcd" "ch2" 2%Z true Average false kw0;
    AddNormSystematic "lumi" ["tt"; "qcd"] "sig" [UScalar 2%Z; UScalar 3%Z] Average kw0 ].
Definition file (cfg : config) (ops : list (op Z)) : result (workspace Z) :=
  st <- run cfg init_state ops ;; write cfg st.
Definition table (n m : nat) (a : nat -> nat -> Z) : list (list Z) :=
  map (fun b => map (a b) (seq 0 m)) (seq 0 n).
Definition ex_cfg sp := mkCfg sp LogNormal false.

(** reading something off the file *)
Definition probe {A} (r : result (workspace Z)) (f : workspace Z -> A) : option A :=
  match r with Ok w => Some (f w) | Raise _ => None end.
Lemma probe_ok {A} r (f : workspace Z -> A) x : probe r f = Some x -> exists w, r = Ok w /\ f w = x.
Proof. destruct r as [w|e]; [|discriminate]. simpl. intros H. injection H as <-. eauto. Qed.
Lemma probe_ex {A} (f : workspace Z -> A) x (P : workspace Z -> Prop) r :
  probe r f = Some x -> (forall w, f w = x -> P w) -> exists w, r = Ok w /\ P w.
Proof. intros H K. destruct (probe_ok r f x H) as (w & E & F). eauto. Qed.
Ltac probing f := eapply (probe_ex f);
  [ vm_compute; reflexivity
  | let w := fresh "w" in let E := fresh "E" in intros w E;
    repeat match goal with H : (_, _) = (_, _) |- _ => apply pair_equal_spec in H; destruct H end ].
Lemma file_written cfg ops w : file cfg ops = Ok w -> written cfg ops w.
Proof.
  unfold file. destruct (run cfg init_state ops) as [st|] eqn:E; [|discriminate]. intros H. exists st. auto.
Qed.
Ltac solve_stable :=
  intros s [(k1 & H1 & E1) (k2 & H2 & E2)]; vm_compute in H1, H2;
  repeat (destruct H1 as [H1|H1]; [injection H1 as <- <-|]); try contradiction; try discriminate E1;
  repeat (destruct H2 as [H2|H2]; [first [discriminate H2|injection H2 as <-; discriminate E2]|]); contradiction.
Example ex_clean : clean ex_ops.
Proof.
  split. { repeat constructor; simpl; try lia. }
  split. { repeat constructor; simpl; discriminate. }
  split. { repeat constructor; simpl; intuition discriminate. }
  solve_stable.
Qed.
Example ex_runs : forall sp, exists w, file (ex_cfg sp) ex_ops = Ok w /\
  w_procs w = ["tt"; "qcd"] /\ w_systs w = ["alphaS"; "lumi"; "pdf10"] /\
  reader_ranges 0 (w_channels w) = [("sig", (0, 3)); ("ch2", (3, 5)); ("gen", (5, 9))] /\
  w_nbins w = 5 /\ w_nbinsfull w = 9 /\ w_cw w = [0; 1; 1]%Z /\ w_noiidxs w = [0] /\
  w_groups w = [("all", [0]); ("lumi", [1]); ("pdf10", [2]); ("shape", [0])] /\
  table 9 2 (view_norm (w_tensors w)) =
    [[10; 0]; [20; 4]; [0; 0]; [0; 0]; [0; 6]; [1; 0]; [2; 0]; [3; 0]; [4; 0]]%Z.
Proof.
  intros [|]; probing (fun w => (w_procs w, w_systs w, reader_ranges 0 (w_channels w), w_nbins w, w_nbinsfull w,
    w_cw w, w_noiidxs w, w_groups w, table 9 2 (view_norm (w_tensors w)))); repeat split; auto.
Qed.

(** ** C02 *)
Theorem C02_layout : forall (V : Type) (NV : Num V) (cfg : config) (ops : list (op V)) (st : state V) (w : workspace V),
  run cfg init_state ops = Ok st -> write cfg st = Ok w -> flags_stable (chan_decls [] ops) ->
  let decls := chan_decls [] ops in
  let R := reader_ranges 0 (w_channels w) in
  NoDup (map fst R) /\
  (forall c, In c (map fst R) <-> In c (map fst decls)) /\
  tiles 0 (w_nbinsfull w) R /\
  (exists R1 R2, R = R1 ++ R2 /\ tiles 0 (w_nbins w) R1 /\ tiles (w_nbins w) (w_nbinsfull w) R2 /\
     (forall c i, In c (map fst R1) -> In (c, i) decls -> ch_masked i = false) /\
     (forall c i, In c (map fst R2) -> In (c, i) decls -> ch_masked i = true)) /\
  (forall c s e, In (c, (s, e)) R -> exists i, dget c (dict_of decls) = Some i /\ e = s + isize i) /\
  map (fun co => (fst co, (fst (snd co), fst (snd co) + snd (snd co)))) (chan_offsets st) = R.
Proof. exact @layout_correct. Qed.
Print Assumptions C02_layout.
Example C02_example : flags_stable (chan_decls [] ex_ops) /\
  map fst (chan_decls [] ex_ops) = ["gen"; "sig"; "ch2"] /\
  exists w, file (ex_cfg true) ex_ops = Ok w /\
    reader_ranges 0 (w_channels w) = [("sig", (0, 3)); ("ch2", (3, 5)); ("gen", (5, 9))].
Proof.
  split. { apply once_stable. repeat constructor; simpl; intuition discriminate. }
  split; [reflexivity|]. probing (fun w : workspace Z => reader_ranges 0 (w_channels w)). auto.
Qed.
(** Declaring a masked channel and then re-declaring its name as unmasked keeps the old masked
    entry in the channel dictionary but counts the new size: the ranges do not tile. The
    second declaration may be automatic (the third channel gets "ch2" whatever it clashes with). *)
Theorem C02_redeclared_refuted : exists (ops : list (op Z)) w, file (ex_cfg false) ops = Ok w /\
  ~ tiles 0 (w_nbinsfull w) (reader_ranges 0 (w_channels w)).
Proof.
  exists [AddChannel (Some "ch1") [(2, 2)] true false; AddChannel None [(5, 5)] false false;
          AddData "ch1" [1; 2]%Z [1; 2]%Z].
  probing (fun w : workspace Z => (w_nbinsfull w, reader_ranges 0 (w_channels w))).
  rewrite H, H0. simpl. intuition lia.
Qed.
Print Assumptions C02_redeclared_refuted.
(** Unmasked first and masked later: a masked channel sits before an unmasked one. *)
Theorem C02_masked_last_refuted : exists (ops : list (op Z)) w, file (ex_cfg false) ops = Ok w /\
  reader_ranges 0 (w_channels w) = [("a", (0, 1)); ("b", (1, 2))] /\ w_nbins w = 1 /\
  match dget "a" (w_channels w) with Some i => ch_masked i | None => false end = true.
Proof.
  exists [AddChannel (Some "a") [(1, 1)] false false; AddChannel (Some "b") [(1, 1)] false false;
          AddChannel (Some "a") [(1, 1)] true false; AddData "b" [1]%Z [1]%Z].
  probing (fun w : workspace Z => (reader_ranges 0 (w_channels w), w_nbins w,
    match dget "a" (w_channels w) with Some i => ch_masked i | None => false end)). auto.
Qed.
Print Assumptions C02_masked_last_refuted.

(** ** C03 *)
Theorem C03_template : forall (V : Type) (NV : Num V), NumLaws V -> forall cfg (ops : list (op V)) w,
  written cfg ops w -> clean ops ->
  forall h p c sg vs, In (AddProcess h p c sg vs) ops ->
  forall i b ip, at_point w c p i b ip ->
    view_norm (w_tensors w) b ip = spec_clip (c_allowneg cfg) (hist_at h i) /\
    w_sumw w b ip = spec_clip (c_allowneg cfg) (hist_at h i) /\
    w_sumw2 w b ip = match vs, h with
                     | Some l, _ => nth i l n0
                     | None, HDense _ l => nth i l n0
                     | None, HSparse _ _ => hist_at h i
                     end.
Proof.
  intros V NV NL cfg ops w Wr Cl h p c sg vs H i b ip P.
  destruct (view_point cfg ops w c p i b ip Wr Cl P) as (V1 & V2 & V3 & _).
  destruct Wr as (st & R & W). destruct Cl as (C1 & C2 & C3 & C4).
  pose proof (booked_once cfg ops st h p c sg vs R C1 C2 C3 H) as L.
  unfold spec_norm in V1, V2. unfold spec_sumw2 in V3. rewrite L in V1, V2, V3.
  repeat split; auto. rewrite V3. destruct vs, h; auto.
Qed.
Print Assumptions C03_template.
Theorem C03_unbooked : forall (V : Type) (NV : Num V), NumLaws V -> forall cfg (ops : list (op V)) w,
  written cfg ops w -> clean ops ->
  forall b ip, b < w_nbinsfull w -> ip < List.length (w_procs w) ->
  exists c p i, at_point w c p i b ip /\
    (~ booked ops c p -> view_norm (w_tensors w) b ip = n0 /\ w_sumw w b ip = n0 /\ w_sumw2 w b ip = n0).
Proof.
  intros V NV NL cfg ops w Wr Cl b ip B I.
  assert (exists c s e, In (c, (s, e)) (reader_ranges 0 (w_channels w)) /\ s <= b < e) as (c & s & e & RG & BE).
  { destruct Wr as (st & R & W). destruct Cl as (_ & _ & C3 & _).
    destruct (layout_correct cfg ops st w R W (once_stable _ C3)) as (_ & _ & T & _).
    revert T. generalize (reader_ranges 0 (w_channels w)) as r.
    assert (G : forall r a z, a <= b < z -> tiles a z r -> exists c s e, In (c, (s, e)) r /\ s <= b < e).
    { induction r as [|[c [s e]] r IH]; simpl; intros a z AB T; [lia|]. destruct T as (-> & L & T).
      destruct (Nat.lt_ge_cases b e) as [Lt|Ge].
      - exists c, a, e. split; auto. lia.
      - destruct (IH e z ltac:(lia) T) as (c' & s' & e' & H1 & H2). exists c', s', e'. auto. }
    intros r T. apply (G r 0 (w_nbinsfull w)); auto. lia. }
  destruct (nth_error (w_procs w) ip) as [p|] eqn:Np; [|apply nth_error_None in Np; lia].
  assert (P : at_point w c p (b - s) b ip).
  { exists s, e. split; auto. split; [lia|]. split; [lia|auto]. }
  exists c, p, (b - s). split; auto.
  intros NB. destruct (view_point cfg ops w c p (b - s) b ip Wr Cl P) as (V1 & V2 & V3 & _).
  assert (L : last_of (op_proc c p) ops = None).
  { apply last_of_None. intros o Ho. destruct o; auto. simpl.
    destruct (String.eqb_spec c ch); simpl; auto. destruct (String.eqb_spec p name); auto. subst.
    exfalso. apply NB. unfold booked. eauto. }
  unfold spec_norm, spec_sumw2 in *. rewrite L in V1, V2, V3. auto.
Qed.
Print Assumptions C03_unbooked.
Theorem C03_duplicate : forall (V : Type) (NV : Num V), NumLaws V -> forall cfg (ops : list (op V)) st h p c sg vs,
  run cfg init_state ops = Ok st -> Forall wf_op ops -> Forall no_stored_zeros ops -> channels_once ops ->
  booked ops c p -> step cfg st (AddProcess h p c sg vs) = (st, Some RuntimeError).
Proof. exact @duplicate_process. Qed.
Print Assumptions C03_duplicate.
Theorem C03_signal_and_background : forall (V : Type) (NV : Num V) cfg (ops : list (op V)) st p,
  run cfg init_state ops = Ok st -> In (p, true) (proc_decls ops) -> In (p, false) (proc_decls ops) ->
  write cfg st = Raise RuntimeError.
Proof. exact @signal_and_background. Qed.
Print Assumptions C03_signal_and_background.
Example C03_example : clean ex_ops /\ exists w, file (ex_cfg true) ex_ops = Ok w /\
  at_point w "ch2" "qcd" 0 3 1 /\ view_norm (w_tensors w) 3 1 = 0%Z /\ view_norm (w_tensors w) 4 1 = 6%Z /\
  exists st, run (ex_cfg true) init_state ex_ops = Ok st /\
    step (ex_cfg true) st (AddProcess (HDense [1; 1; 1]%Z [1; 1; 1]%Z) "tt" "sig" false None) = (st, Some RuntimeError).
Proof.
  split; [exact ex_clean|].
  probing (fun w => (w_procs w, reader_ranges 0 (w_channels w), view_norm (w_tensors w) 3 1, view_norm (w_tensors w) 4 1)).
  split. { exists 3, 5. rewrite H, H2. simpl. intuition lia. }
  split; auto. split; auto.
  assert (R : match run (ex_cfg true) init_state ex_ops with Ok _ => true | Raise _ => false end = true) by (vm_compute; reflexivity).
  destruct (run (ex_cfg true) init_state ex_ops) as [st|] eqn:E; [|discriminate].
  exists st. split; auto. destruct ex_clean as (C1 & C2 & C3 & _). eapply duplicate_process; eauto.
  do 3 eexists. do 5 right. left. reflexivity.
Qed.

(** ** C04 *)
Theorem C04_process_axis : forall (V : Type) (NV : Num V) cfg (ops : list (op V)) st w,
  run cfg init_state ops = Ok st -> write cfg st = Ok w ->
  exists sg bk, w_procs w = sg ++ bk /\ w_signals w = sg /\ NoDup (w_procs w) /\
    StronglySorted (fun a b => string_c a b = Lt) sg /\ StronglySorted (fun a b => string_c a b = Lt) bk /\
    (forall p, In p sg <-> In (p, true) (proc_decls ops)) /\ (forall p, In p bk <-> In (p, false) (proc_decls ops)).
Proof. exact @proc_axis. Qed.
Print Assumptions C04_process_axis.
Theorem C04_process_order : forall (V : Type) (NV : Num V) cfg1 cfg2 (ops1 ops2 : list (op V)) st1 st2 w1 w2,
  run cfg1 init_state ops1 = Ok st1 -> write cfg1 st1 = Ok w1 ->
  run cfg2 init_state ops2 = Ok st2 -> write cfg2 st2 = Ok w2 ->
  (forall d, In d (proc_decls ops1) <-> In d (proc_decls ops2)) -> w_procs w1 = w_procs w2 /\ w_signals w1 = w_signals w2.
Proof. exact @proc_order. Qed.
Print Assumptions C04_process_order.
Theorem C04_nuisance_axis : forall (V : Type) (NV : Num V) cfg (ops : list (op V)) st w,
  run cfg init_state ops = Ok st -> write cfg st = Ok w ->
  exists u c, w_systs w = u ++ c /\ w_noconstraint w = u /\
    StronglySorted (fun a b => key_c (natural_sort_key a) (natural_sort_key b) <> Gt) u /\
    StronglySorted (fun a b => key_c (natural_sort_key a) (natural_sort_key b) <> Gt) c /\
    (forall s, In s u <-> declared_unconstrained ops s) /\ (forall s, In s c <-> declared_constrained ops s).
Proof. exact @syst_axis. Qed.
Print Assumptions C04_nuisance_axis.
Theorem C04_nuisance_order : forall (V : Type) (NV : Num V) cfg1 cfg2 (ops1 ops2 : list (op V)) st1 st2 w1 w2,
  run cfg1 init_state ops1 = Ok st1 -> write cfg1 st1 = Ok w1 ->
  run cfg2 init_state ops2 = Ok st2 -> write cfg2 st2 = Ok w2 ->
  (forall s, declared_constrained ops1 s <-> declared_constrained ops2 s) ->
  (forall s, declared_unconstrained ops1 s <-> declared_unconstrained ops2 s) ->
  keys_distinct (declared ops1) -> w_systs w1 = w_systs w2 /\ w_noconstraint w1 = w_noconstraint w2.
Proof. exact @syst_order. Qed.
Print Assumptions C04_nuisance_order.
(** whatever order python enumerates the set in *)
Theorem C04_set_order : forall l1 l2, Permutation.Permutation l1 l2 -> keys_distinct (fun s => In s l1) ->
  natural_sort l1 = natural_sort l2.
Proof. exact natural_sort_enum. Qed.
Print Assumptions C04_set_order.
Example C04_example :
  natural_sort ["pdf10"; "lumi"; "pdf9"] = ["lumi"; "pdf9"; "pdf10"] /\
  keys_distinct (fun s => In s ["pdf10"; "lumi"; "pdf9"]).
Proof.
  split; [reflexivity|]. intros a b Ha Hb E. simpl in Ha, Hb.
  destruct Ha as [<-|[<-|[<-|[]]]], Hb as [<-|[<-|[<-|[]]]]; auto; vm_compute in E; discriminate.
Qed.
(** Names whose natural-sort keys coincide are ordered by the set iteration order. *)
Theorem C04_key_collision_refuted : exists l1 l2, Permutation.Permutation l1 l2 /\ NoDup l1 /\
  natural_sort l1 <> natural_sort l2.
Proof.
  exists ["pdf01"; "PDF1"], ["PDF1"; "pdf01"]. split. { apply Permutation.perm_swap. }
  split. { repeat constructor; simpl; intuition discriminate. } vm_compute. discriminate.
Qed.
Print Assumptions C04_key_collision_refuted.

(** ** C05 *)
Theorem C05_metadata : forall (V : Type) (NV : Num V) cfg (ops : list (op V)) st w,
  run cfg init_state ops = Ok st -> write cfg st = Ok w -> constraint_stable ops ->
  NoDup (w_systs w) /\
  (forall s, In s (w_systs w) <-> declared ops s) /\
  (NoDup (map fst (w_groups w)) /\
   (forall g, In g (map fst (w_groups w)) <-> (exists s, declared_in_group ops g s)) /\
   (forall g idx, In (g, idx) (w_groups w) -> forall i,
      In i idx <-> (exists s, nth_error (w_systs w) i = Some s /\ declared_in_group ops g s))) /\
  (forall i, In i (w_noiidxs w) <-> (exists s, nth_error (w_systs w) i = Some s /\ declared_noi ops s)) /\
  List.length (w_cw w) = List.length (w_systs w) /\
  (forall i s, nth_error (w_systs w) i = Some s ->
     (declared_unconstrained ops s -> nth_error (w_cw w) i = Some n0) /\
     (declared_constrained ops s -> nth_error (w_cw w) i = Some n1)).
Proof. exact @metadata_correct. Qed.
Print Assumptions C05_metadata.
Example C05_example : constraint_stable ex_ops /\ exists w, file (ex_cfg true) ex_ops = Ok w /\
  w_systs w = ["alphaS"; "lumi"; "pdf10"] /\ w_cw w = [0; 1; 1]%Z /\ w_noiidxs w = [0] /\
  w_groups w = [("all", [0]); ("lumi", [1]); ("pdf10", [2]); ("shape", [0])].
Proof.
  split; [apply ex_clean|]. probing (fun w : workspace Z => (w_systs w, w_cw w, w_noiidxs w, w_groups w)). auto.
Qed.
(** A nuisance booked constrained for one process and unconstrained for another appears twice
    and both copies carry the other one's constraint. *)
Theorem C05_mixed_constraint_refuted : exists (ops : list (op Z)) w,
  file (ex_cfg false) ops = Ok w /\ w_systs w = ["a"; "a"] /\
  w_noconstraint w = ["a"] /\ w_cw w = [1; 0]%Z.
Proof.
  exists [AddChannel (Some "c") [(1, 1)] false false; AddData "c" [1]%Z [1]%Z;
          AddProcess (HDense [2]%Z [1]%Z) "p" "c" true None; AddProcess (HDense [2]%Z [1]%Z) "q" "c" false None;
          AddNormSystematic "a" ["p"] "c" [UScalar 2%Z] Average (mkKw false true None);
          AddNormSystematic "a" ["q"] "c" [UScalar 2%Z] Average (mkKw false false None)].
  probing (fun w : workspace Z => (w_systs w, w_noconstraint w, w_cw w)). auto.
Qed.
Print Assumptions C05_mixed_constraint_refuted.
(** The same script in sparse mode dies with an assertion error instead. *)
Theorem C05_mixed_constraint_sparse_refuted : exists (ops : list (op Z)),
  (exists w, file (ex_cfg false) ops = Ok w) /\ file (ex_cfg true) ops = Raise AssertionError.
Proof.
  exists [AddChannel (Some "c") [(1, 1)] false false; AddData "c" [1]%Z [1]%Z;
          AddProcess (HDense [2]%Z [1]%Z) "p" "c" true None; AddProcess (HDense [2]%Z [1]%Z) "q" "c" false None;
          AddNormSystematic "a" ["p"] "c" [UScalar 2%Z] Average (mkKw false true None);
          AddNormSystematic "a" ["q"] "c" [UScalar 2%Z] Average (mkKw false false None)].
  split; [|vm_compute; reflexivity].
  match goal with |- exists w, ?r = Ok w => destruct (probe_ok r (fun _ => true) true) as (w & E & _) end.
  { vm_compute. reflexivity. } eauto.
Qed.
Print Assumptions C05_mixed_constraint_sparse_refuted.

(** ** C10 *)
Theorem C10_canonical : forall (V : Type) (NV : Num V), NumLaws V -> forall cfg (ops : list (op V)) st w sp,
  run cfg init_state ops = Ok st -> write cfg st = Ok w -> w_tensors w = TSparse sp ->
  Forall wf_op ops -> flags_stable (chan_decls [] ops) -> constraint_stable ops ->
  StronglySorted lex2 (map fst (sp_norm sp)) /\
  (forall b ip v, In (b, ip, v) (sp_norm sp) -> b < w_nbinsfull w /\ ip < List.length (w_procs w)) /\
  StronglySorted lex2 (map fst (sp_logk sp)) /\
  sp_ncol sp = (if w_symmetric w then 1 else 2) * List.length (w_systs w) /\
  (forall j k v, In (j, k, v) (sp_logk sp) -> j < List.length (sp_norm sp) /\ k < sp_ncol sp) /\
  (forall j k v, In (j, k, v) (sp_logk sp) <->
     exists c s e i ip p x, In (c, (s, e)) (reader_ranges 0 (w_channels w)) /\ i < e - s /\
       nth_error (w_procs w) ip = Some p /\ nth_error (sp_norm sp) j = Some (s + i, ip, x) /\
       fact st (w_systs w) c p k i v).
Proof. exact @sparse_canonical. Qed.
Print Assumptions C10_canonical.
(** in terms of the declarations: every stored variation is the one declared for the bin and
    process of the norm entry it refers to (nothing is lost by [C03_template] and C09) *)
Theorem C10_own_entry : forall (V : Type) (NV : Num V), NumLaws V -> forall cfg (ops : list (op V)) st w sp,
  run cfg init_state ops = Ok st -> write cfg st = Ok w -> w_tensors w = TSparse sp ->
  Forall wf_op ops -> Forall no_stored_zeros ops -> channels_once ops -> constraint_stable ops ->
  forall j k v, In (j, k, v) (sp_logk sp) ->
    exists c s e i ip p n, In (c, (s, e)) (reader_ranges 0 (w_channels w)) /\ i < e - s /\
      nth_error (w_procs w) ip = Some p /\
      nth_error (sp_norm sp) j = Some (s + i, ip, spec_norm (c_allowneg cfg) ops c p i) /\
      v <> n0 /\
      ((nth_error (w_systs w) k = Some n /\ v = spec_avg cfg ops c p n i) \/
       (w_symmetric w = false /\ exists k', k = List.length (w_systs w) + k' /\
          nth_error (w_systs w) k' = Some n /\ v = spec_half cfg ops c p n i)).
Proof. exact @sparse_values. Qed.
Print Assumptions C10_own_entry.
Example C10_example : exists w, file (ex_cfg true) ex_ops = Ok w /\ exists sp, w_tensors w = TSparse sp /\
  sp_norm sp = [(0, 0, 10%Z); (1, 0, 20%Z); (1, 1, 4%Z); (4, 1, 6%Z); (5, 0, 1%Z); (6, 0, 2%Z); (7, 0, 3%Z); (8, 0, 4%Z)] /\
  sp_logk sp = [(0, 0, 2%Z); (0, 1, 1%Z); (0, 3, 2%Z); (1, 0, (-2)%Z); (1, 1, 1%Z); (1, 3, 2%Z); (2, 1, 2%Z); (3, 2, 2%Z)].
Proof.
  probing (fun w : workspace Z => w_tensors w). eexists. split; [exact E|]. auto.
Qed.

(** ** C07: over the reals; [U] and [D] are the declared effects of the two templates *)
Theorem C07_average : forall cfg (ops : list (op R)) w, written cfg ops w -> clean ops ->
  forall c p i b ip, at_point w c p i b ip ->
  let nom := spec_norm (c_allowneg cfg) ops c p in nom i <> 0%R ->
  forall u d n kf mi ad kw,
  let U := tmpl_eff (c_type cfg) nom kf ad u i in let D := tmpl_eff (c_type cfg) nom kf ad d i in
  forall k, nth_error (w_systs w) k = Some n ->
    last_booking (op_avg c p n) ops (AddSystematic (SPair u d) n p c kf mi Average ad kw) ->
    view_logk (w_tensors w) b ip k = ((U + - D) / 2)%R.
Proof. intros; eapply mode_average; eauto. Qed.
Print Assumptions C07_average.
Theorem C07_conservative : forall cfg (ops : list (op R)) w, written cfg ops w -> clean ops ->
  forall c p i b ip, at_point w c p i b ip ->
  let nom := spec_norm (c_allowneg cfg) ops c p in nom i <> 0%R ->
  forall u d n kf mi ad kw,
  let U := tmpl_eff (c_type cfg) nom kf ad u i in let D := tmpl_eff (c_type cfg) nom kf ad d i in
  forall k, nth_error (w_systs w) k = Some n ->
    last_booking (op_avg c p n) ops (AddSystematic (SPair u d) n p c kf mi Conservative ad kw) ->
    let v := view_logk (w_tensors w) b ip k in
    (v = U \/ v = - D)%R /\ (Rabs U <= Rabs v)%R /\ (Rabs D <= Rabs v)%R.
Proof. intros; eapply mode_conservative; eauto. Qed.
Print Assumptions C07_conservative.
Theorem C07_linear : forall cfg (ops : list (op R)) w, written cfg ops w -> clean ops ->
  forall c p i b ip, at_point w c p i b ip ->
  let nom := spec_norm (c_allowneg cfg) ops c p in nom i <> 0%R ->
  forall u d n kf mi ad kw,
  let U := tmpl_eff (c_type cfg) nom kf ad u i in let D := tmpl_eff (c_type cfg) nom kf ad d i in
  let o := AddSystematic (SPair u d) n p c kf mi Linear ad kw in
  forall k1 k2, nth_error (w_systs w) k1 = Some (n ++ "SymAvg")%string ->
    nth_error (w_systs w) k2 = Some (n ++ "SymDiff")%string ->
    last_booking (op_avg c p (n ++ "SymAvg")) ops o -> last_booking (op_avg c p (n ++ "SymDiff")) ops o ->
    let a := view_logk (w_tensors w) b ip k1 in let f := view_logk (w_tensors w) b ip k2 in
    (a + f = U /\ f - a = D)%R.
Proof. intros; eapply mode_linear; eauto. Qed.
Print Assumptions C07_linear.
Theorem C07_quadratic : forall cfg (ops : list (op R)) w, written cfg ops w -> clean ops ->
  forall c p i b ip, at_point w c p i b ip ->
  let nom := spec_norm (c_allowneg cfg) ops c p in nom i <> 0%R ->
  forall u d n kf mi ad kw,
  let U := tmpl_eff (c_type cfg) nom kf ad u i in let D := tmpl_eff (c_type cfg) nom kf ad d i in
  let o := AddSystematic (SPair u d) n p c kf mi Quadratic ad kw in
  forall k1 k2, nth_error (w_systs w) k1 = Some (n ++ "SymAvg")%string ->
    nth_error (w_systs w) k2 = Some (n ++ "SymDiff")%string ->
    last_booking (op_avg c p (n ++ "SymAvg")) ops o -> last_booking (op_avg c p (n ++ "SymDiff")) ops o ->
    let a := view_logk (w_tensors w) b ip k1 in let f := view_logk (w_tensors w) b ip k2 in
    (a + f / sqrt 3 = U /\ f / sqrt 3 - a = D)%R.
Proof. intros; eapply mode_quadratic; eauto. Qed.
Print Assumptions C07_quadratic.
Theorem C07_asymmetric : forall cfg (ops : list (op R)) w, written cfg ops w -> clean ops ->
  forall c p i b ip, at_point w c p i b ip ->
  let nom := spec_norm (c_allowneg cfg) ops c p in nom i <> 0%R ->
  forall u d n kf mi ad kw,
  let U := tmpl_eff (c_type cfg) nom kf ad u i in let D := tmpl_eff (c_type cfg) nom kf ad d i in
  forall k, nth_error (w_systs w) k = Some n ->
    last_booking (op_avg c p n) ops (AddSystematic (SPair u d) n p c kf mi NoSym ad kw) ->
    let a := view_logk (w_tensors w) b ip k in
    let h := view_logk (w_tensors w) b ip (List.length (w_systs w) + k) in
    w_symmetric w = false /\ (a + h = U /\ h - a = D)%R.
Proof. intros; eapply mode_none; eauto. Qed.
Print Assumptions C07_asymmetric.
(** instance (integer carrier, halves are 1): up effect 2, down effect 0 in the first bin *)
Example C07_example : exists w, file (ex_cfg true) ex_ops = Ok w /\
  at_point w "sig" "tt" 0 0 0 /\ w_symmetric w = false /\
  view_logk (w_tensors w) 0 0 0 = 2%Z /\ view_logk (w_tensors w) 0 0 3 = 2%Z /\
  last_booking (op_avg "sig" "tt" "alphaS") ex_ops
    (AddSystematic (SPair (HDense [30; 20; 5]%Z []) (HDense [10; 60; 5]%Z [])) "alphaS" "tt" "sig" 1%Z true NoSym false kwU).
Proof.
  probing (fun w => (w_procs w, reader_ranges 0 (w_channels w), w_symmetric w,
    view_logk (w_tensors w) 0 0 0, view_logk (w_tensors w) 0 0 3)).
  split. { exists 0, 3. rewrite H, H3. simpl. intuition lia. }
  split; auto. split; auto. split; auto.
  exists (firstn 9 ex_ops), (skipn 10 ex_ops). split; [reflexivity|]. repeat constructor.
Qed.
(** Re-booking an asymmetric nuisance as a symmetric one leaves the old half-difference. *)
Theorem C07_rebooking_refuted : exists (ops : list (op Z)) w, file (ex_cfg false) ops = Ok w /\
  last_booking (op_avg "c" "p" "a") ops (AddSystematic (SSingle (HDense [4]%Z [])) "a" "p" "c" 1%Z true Average false kw0) /\
  view_logk (w_tensors w) 0 0 0 = 1%Z /\ view_logk (w_tensors w) 0 0 1 = 4%Z.
Proof.
  exists [AddChannel (Some "c") [(1, 1)] false false; AddData "c" [1]%Z [1]%Z;
          AddProcess (HDense [2]%Z [1]%Z) "p" "c" true None;
          AddSystematic (SPair (HDense [8]%Z []) (HDense [4]%Z [])) "a" "p" "c" 1%Z true NoSym false kw0;
          AddSystematic (SSingle (HDense [4]%Z [])) "a" "p" "c" 1%Z true Average false kw0].
  probing (fun w => (view_logk (w_tensors w) 0 0 0, view_logk (w_tensors w) 0 0 1)).
  split; auto. eexists [_; _; _; _], []. split; [reflexivity|constructor].
Qed.
Print Assumptions C07_rebooking_refuted.

(** ** C11 *)
Theorem C11_unpopulated : forall (V : Type) (NV : Num V), NumLaws V -> forall cfg (ops : list (op V)) w c p i b ip,
  written cfg ops w -> clean ops -> at_point w c p i b ip -> spec_norm (c_allowneg cfg) ops c p i = n0 ->
  forall k, k < (if w_symmetric w then 1 else 2) * List.length (w_systs w) -> view_logk (w_tensors w) b ip k = n0.
Proof. exact @unpopulated_zero. Qed.
Print Assumptions C11_unpopulated.
Theorem C11_log_normal_value : forall cfg (ops : list (op R)) w, written cfg ops w -> clean ops ->
  forall c p i b ip, at_point w c p i b ip ->
  let nom := spec_norm (c_allowneg cfg) ops c p in nom i <> 0%R ->
  forall n kf mi m h kw k, c_type cfg = LogNormal -> nth_error (w_systs w) k = Some n ->
  last_booking (op_avg c p n) ops (AddSystematic (SSingle h) n p c kf mi m false kw) ->
  ((0 < nom i * hist_at h i)%R -> view_logk (w_tensors w) b ip k = (kf * ln (hist_at h i / nom i))%R) /\
  (~ (0 < nom i * hist_at h i)%R -> view_logk (w_tensors w) b ip k = ln (1/1000)).
Proof. intros; eapply single_value; eauto. Qed.
Print Assumptions C11_log_normal_value.
Theorem C11_normal_value : forall cfg (ops : list (op R)) w, written cfg ops w -> clean ops ->
  forall c p i b ip, at_point w c p i b ip ->
  let nom := spec_norm (c_allowneg cfg) ops c p in nom i <> 0%R ->
  forall n kf mi m h kw k, c_type cfg = Normal -> nth_error (w_systs w) k = Some n ->
  last_booking (op_avg c p n) ops (AddSystematic (SSingle h) n p c kf mi m false kw) ->
  view_logk (w_tensors w) b ip k = (kf * (hist_at h i - nom i))%R.
Proof. intros; eapply single_value_normal; eauto. Qed.
Print Assumptions C11_normal_value.
Theorem C11_difference_value : forall cfg (ops : list (op R)) w, written cfg ops w -> clean ops ->
  forall c p i b ip, at_point w c p i b ip ->
  let nom := spec_norm (c_allowneg cfg) ops c p in nom i <> 0%R ->
  forall n kf mi m h kw k, c_type cfg = Normal -> nth_error (w_systs w) k = Some n ->
  last_booking (op_avg c p n) ops (AddSystematic (SSingle h) n p c kf mi m true kw) ->
  view_logk (w_tensors w) b ip k = (kf * hist_at h i)%R.
Proof. intros; eapply single_value_diff; eauto. Qed.
Print Assumptions C11_difference_value.
(** a failing add_systematic, for whatever reason, changes nothing *)
Theorem C11_systematic_atomic : forall (V : Type) (NV : Num V) cfg st h n p c kf mi m ad kw st' e,
  step cfg st (AddSystematic (V := V) h n p c kf mi m ad kw) = (st', Some e) -> st' = st.
Proof. exact @add_systematic_atomic. Qed.
Print Assumptions C11_systematic_atomic.
Theorem C11_nonfinite_systematic : forall (V : Type) (NV : Num V) cfg (st : state V) v vs n p c kf mi m ad kw nm i,
  st_norm st c p = Some nm -> In i (nidx nm) -> wf_norm cfg nm ->
  (ad = false -> nfinite (nth i v n0) = false) ->
  (ad = true -> nfinite (nadd (nden nm i) (nth i v n0)) = false) ->
  List.length v = nsize nm ->
  exists e, step cfg st (AddSystematic (SSingle (HDense v vs)) n p c kf mi m ad kw) = (st, Some e).
Proof. exact @nonfinite_systematic. Qed.
Print Assumptions C11_nonfinite_systematic.
Theorem C11_nonfinite_process : forall (V : Type) (NV : Num V) cfg (st : state V) v vs n c sg var i,
  st_norm st c n = None -> i < List.length v -> nfinite (spec_clip (c_allowneg cfg) (nth i v n0)) = false ->
  exists st', step cfg st (AddProcess (HDense v vs) n c sg var) = (st', Some RuntimeError) /\
    st_norm st' = st_norm st /\ st_sumw2 st' = st_sumw2 st.
Proof. exact @nonfinite_process. Qed.
Print Assumptions C11_nonfinite_process.
(** ... but the rejected process stays registered: caught by the script, the axis gets a process
    that has no template anywhere *)
Theorem C11_rejected_process_refuted : exists (st : state Z) h,
  run (ex_cfg false) init_state [AddChannel (Some "c") [(1, 1)] false false; AddData "c" [1]%Z [1]%Z] = Ok st /\
  exists st' w, step (ex_cfg false) st (AddProcess h "p" "c" true None) = (st', Some RuntimeError) /\
    write (ex_cfg false) st' = Ok w /\ w_procs w = ["p"].
Proof.
  eexists. exists (HDense [999]%Z [1]%Z). split; [vm_compute; reflexivity|].
  eexists. match goal with |- exists w, ?a = (?b, _) /\ _ =>
    assert (X : a = (fst a, Some RuntimeError)) by (vm_compute; reflexivity) end.
  match goal with |- exists w, ?a = _ /\ _ => 
    destruct (probe_ok (write (ex_cfg false) (fst a)) w_procs ["p"]) as (w & E1 & E2) end.
  { vm_compute. reflexivity. }
  exists w. split; [exact X|]. auto.
Qed.
Print Assumptions C11_rejected_process_refuted.
(** add_norm_systematic books the processes before the failing one *)
Theorem C11_norm_systematic_atomic_refuted : exists (ops : list (op Z)) st st',
  run (ex_cfg false) init_state ops = Ok st /\
  step (ex_cfg false) st (AddNormSystematic "a" ["p"; "q"] "c" [UScalar 2%Z; UScalar 999%Z] Average kw0) = (st', Some RuntimeError) /\
  dkeys (st_logkavg st "c" "p") = [] /\ dkeys (st_logkavg st' "c" "p") = ["a"].
Proof.
  exists [AddChannel (Some "c") [(1, 1)] false false; AddData "c" [1]%Z [1]%Z;
          AddProcess (HDense [1]%Z [1]%Z) "p" "c" true None; AddProcess (HDense [1]%Z [1]%Z) "q" "c" false None].
  eexists. eexists. split; [vm_compute; reflexivity|]. split; [vm_compute; reflexivity|]. vm_compute. auto.
Qed.
Print Assumptions C11_norm_systematic_atomic_refuted.
(** explicit zeros of a sparse nominal template carry a variation *)
Theorem C11_stored_zero_refuted : exists (ops : list (op Z)) w, file (ex_cfg true) ops = Ok w /\
  view_norm (w_tensors w) 0 0 = 0%Z /\ view_logk (w_tensors w) 0 0 0 <> 0%Z.
Proof.
  exists [AddChannel (Some "c") [(2, 2)] false false; AddData "c" [1; 1]%Z [1; 1]%Z;
          AddProcess (HSparse [(0, 0%Z); (1, 3%Z)] 2) "p" "c" true None;
          AddSystematic (SSingle (HDense [4; 4]%Z [])) "a" "p" "c" 1%Z true Average false kw0].
  probing (fun w => (view_norm (w_tensors w) 0 0, view_logk (w_tensors w) 0 0 0)).
  rewrite H, H0. split; [auto|discriminate].
Qed.
Print Assumptions C11_stored_zero_refuted.
Example C11_example : exists w, file (ex_cfg true) ex_ops = Ok w /\
  at_point w "sig" "tt" 2 2 0 /\ view_logk (w_tensors w) 2 0 0 = 0%Z /\ view_logk (w_tensors w) 4 1 2 = 2%Z.
Proof.
  probing (fun w => (w_procs w, reader_ranges 0 (w_channels w), view_logk (w_tensors w) 2 0 0, view_logk (w_tensors w) 4 1 2)).
  split; auto. exists 0, 3. rewrite H, H2. simpl. intuition lia.
Qed.

(** ** C12 *)
Theorem C12_scalar : forall cfg (ops : list (op R)) w, written cfg ops w -> clean ops ->
  forall c p i b ip, at_point w c p i b ip ->
  let nom := spec_norm (c_allowneg cfg) ops c p in nom i <> 0%R ->
  forall ps us j n m kw k, nth_error (w_systs w) k = Some n ->
  last_booking (op_avg c p n) ops (AddNormSystematic n ps c us m kw) ->
  NoDup ps -> nth_error ps j = Some p ->
  forall x, nth_error us j = Some (UScalar x) -> (0 < x)%R ->
  view_logk (w_tensors w) b ip k = match c_type cfg with LogNormal => ln x | Normal => (nom i * (x - 1))%R end.
Proof. intros; eapply norm_scalar; eauto. Qed.
Print Assumptions C12_scalar.
Theorem C12_pair : forall cfg (ops : list (op R)) w, written cfg ops w -> clean ops ->
  forall c p i b ip, at_point w c p i b ip ->
  let nom := spec_norm (c_allowneg cfg) ops c p in nom i <> 0%R ->
  forall ps us j n m kw k, nth_error (w_systs w) k = Some n ->
  last_booking (op_avg c p n) ops (AddNormSystematic n ps c us m kw) ->
  NoDup ps -> nth_error ps j = Some p ->
  forall x y, nth_error us j = Some (UPair x y) -> (0 < x)%R -> (0 < y)%R -> m <> Conservative ->
  view_logk (w_tensors w) b ip k =
    match c_type cfg with LogNormal => ((ln x - ln y) / 2)%R | Normal => (nom i * (x - y) / 2)%R end.
Proof. intros; eapply norm_pair; eauto. Qed.
Print Assumptions C12_pair.
Theorem C12_pair_conservative : forall cfg (ops : list (op R)) w, written cfg ops w -> clean ops ->
  forall c p i b ip, at_point w c p i b ip ->
  let nom := spec_norm (c_allowneg cfg) ops c p in nom i <> 0%R ->
  forall ps us j n m kw k, nth_error (w_systs w) k = Some n ->
  last_booking (op_avg c p n) ops (AddNormSystematic n ps c us m kw) ->
  NoDup ps -> nth_error ps j = Some p ->
  forall x y, nth_error us j = Some (UPair x y) -> (0 < x)%R -> (0 < y)%R -> m = Conservative ->
  c_type cfg = LogNormal ->
  let v := view_logk (w_tensors w) b ip k in
  (v = ln x \/ v = (- ln y)%R) /\ (Rabs (ln x) <= Rabs v)%R /\ (Rabs (ln y) <= Rabs v)%R.
Proof. intros; eapply norm_pair_conservative; eauto. Qed.
Print Assumptions C12_pair_conservative.
Example C12_example : exists w, file (ex_cfg true) ex_ops = Ok w /\
  view_logk (w_tensors w) 1 0 1 = 1%Z /\ view_logk (w_tensors w) 1 1 1 = 2%Z /\
  last_booking (op_avg "sig" "qcd" "lumi") ex_ops
    (AddNormSystematic "lumi" ["tt"; "qcd"] "sig" [UScalar 2%Z; UScalar 3%Z] Average kw0).
Proof.
  probing (fun w => (view_logk (w_tensors w) 1 0 1, view_logk (w_tensors w) 1 1 1)).
  split; auto. split; auto.
  exists (firstn 11 ex_ops), []. split; [reflexivity|constructor].
Qed.
(** One uncertainty for several processes reaches the first process only (zip truncates). *)
Theorem C12_one_for_all_refuted : exists (ops : list (op Z)) w, file (ex_cfg false) ops = Ok w /\
  In (AddNormSystematic "a" ["p"; "q"] "c" [UScalar 3%Z] Average kw0) ops /\
  w_procs w = ["p"; "q"] /\
  view_logk (w_tensors w) 0 0 0 = 2%Z /\ view_logk (w_tensors w) 0 1 0 = 0%Z.
Proof.
  exists [AddChannel (Some "c") [(1, 1)] false false; AddData "c" [1]%Z [1]%Z;
          AddProcess (HDense [1]%Z [1]%Z) "p" "c" true None; AddProcess (HDense [1]%Z [1]%Z) "q" "c" false None;
          AddNormSystematic "a" ["p"; "q"] "c" [UScalar 3%Z] Average kw0].
  probing (fun w => (w_procs w, view_logk (w_tensors w) 0 0 0, view_logk (w_tensors w) 0 1 0)).
  split; auto. simpl. auto 10.
Qed.
Print Assumptions C12_one_for_all_refuted.
(** Up/down pairs with the asymmetric, linear or quadratic modes raise TypeError. *)
Theorem C12_pair_modes_refuted : forall m, m = NoSym \/ m = Linear \/ m = Quadratic ->
  exists (ops : list (op Z)) st, run (ex_cfg false) init_state ops = Ok st /\
  snd (step (ex_cfg false) st (AddNormSystematic "a" ["p"] "c" [UPair 3%Z 2%Z] m kw0)) = Some TypeError.
Proof.
  intros m H.
  exists [AddChannel (Some "c") [(1, 1)] false false; AddData "c" [1]%Z [1]%Z;
          AddProcess (HDense [1]%Z [1]%Z) "p" "c" true None].
  eexists. split; [vm_compute; reflexivity|]. destruct H as [->|[->| ->]]; vm_compute; reflexivity.
Qed.
Print Assumptions C12_pair_modes_refuted.
