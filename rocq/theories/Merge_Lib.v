(** Generic facts used for merged workspaces. *)
From Coq Require Import List Arith Bool String Lia.
From Verif Require Import PyList PyDict ListUtil Num Names_Model Writer_Model Writer_Spec Writer_Frame Writer_Layout Writer_Meta Writer_Inv
  Writer_State Writer_Tensor Writer_Hist Writer_Denote Writer_Master Writer_Effects Pseudo_Spec Pseudo_Proof Card_Model Card_Convert.
Import ListNotations.
Local Open Scope nat_scope.
Local Open Scope string_scope.
Local Open Scope list_scope.

Lemma NoDup_app_inv {A} (l m : list A) : NoDup (l ++ m) -> NoDup l /\ NoDup m /\ forall x, In x l -> ~ In x m.
Proof.
  induction l as [|a l IH]; cbn [app]; intros N. { split; [constructor|]. split; auto. }
  inversion N as [|? ? N1 N2]. subst. destruct (IH N2) as (H1 & H2 & H3). split; [|split; auto].
  - constructor; auto. intros X. apply N1. apply in_app_iff. auto.
  - intros x [->|X]; auto. intros Y. apply N1. apply in_app_iff. auto.
Qed.
Lemma NoDup_flat {A B} (f : A -> list B) l : NoDup (flat_map f l) -> forall x y b, In x l -> In y l -> In b (f x) -> In b (f y) -> x = y.
Proof.
  induction l as [|a l IH]; intros N x y b Hx Hy Bx By; [contradiction|]. cbn [flat_map] in N. apply NoDup_app_inv in N as (N1 & N2 & N3).
  destruct Hx as [->|Hx], Hy as [->|Hy]; auto.
  - exfalso. apply (N3 b Bx). apply in_flat_map. eauto.
  - exfalso. apply (N3 b By). apply in_flat_map. eauto.
  - eapply IH; eauto.
Qed.
Lemma NoDup_flat_one {A B} (f : A -> list B) l x : NoDup (flat_map f l) -> In x l -> NoDup (f x).
Proof.
  induction l as [|a l IH]; intros N H; [contradiction|]. cbn [flat_map] in N. apply NoDup_app_inv in N as (N1 & N2 & N3). destruct H as [->|H]; auto.
Qed.
Lemma NoDup_map_inj {A B} (f : A -> B) l x y : NoDup (map f l) -> In x l -> In y l -> f x = f y -> x = y.
Proof.
  induction l as [|a l IH]; intros N Hx Hy E; [contradiction|]. inversion N as [|? ? N1 N2]. subst. destruct Hx as [->|Hx], Hy as [->|Hy]; auto.
  - exfalso. apply N1. rewrite E. apply in_map. auto.
  - exfalso. apply N1. rewrite <- E. apply in_map. auto.
Qed.
Lemma enumerate_In {A} (l : list A) k x : In (k, x) (enumerate l) <-> nth_error l k = Some x.
Proof.
  unfold enumerate. assert (G : forall a, In (a + k, x) (combine (seq a (List.length l)) l) <-> nth_error l k = Some x); [|exact (G 0)].
  revert k. induction l as [|y l IH]; intros k a; cbn [List.length seq combine In].
  - destruct k; cbn; split; [contradiction|discriminate|contradiction|discriminate].
  - destruct k as [|k]; cbn [nth_error].
    + split; [|intros H; injection H as ->; left; f_equal; lia]. intros [H|H]; [injection H as _ ->; auto|]. exfalso.
      apply in_combine_l, in_seq in H. lia.
    + rewrite <- (IH k (S a)). replace (S a + k) with (a + S k) by lia. split; auto. intros [H|H]; auto. injection H. lia.
Qed.

Section Lib.
  Context {V : Type} {NV : Num V} {NL : NumLaws V}.
  (** operations that agree where they say anything *)
  Lemma last_of_unique {E} (f : op V -> option E) ops e : (exists o, In o ops /\ f o = Some e) ->
    (forall o x, In o ops -> f o = Some x -> x = e) -> last_of f ops = Some e.
  Proof.
    induction ops as [|o ops IH] using rev_ind; intros (o' & I & H) U; [contradiction|]. rewrite last_of_snoc.
    destruct (f o) as [x|] eqn:F. { rewrite (U o x); auto. apply in_app_iff. right. left. auto. }
    apply IH. 2: { intros o2 x I2 F2. apply (U o2 x); auto. apply in_app_iff. auto. }
    apply in_app_iff in I as [I|[->|[]]]; [eauto|congruence].
  Qed.
  (** data are added once to a channel *)
  Lemma run_data_once cfg ops : forall st st' : state V, run cfg st ops = Ok st' ->
    NoDup (map fst (data_log ops)) /\ forall c, In c (map fst (data_log ops)) -> st_data_obs st c = None.
  Proof.
    induction ops as [|o ops IH]; intros st st' R. { split; [constructor|contradiction]. }
    apply run_cons in R as (s & S & R). pose proof (step_frame _ _ _ _ S) as F. destruct (IH _ _ R) as [I1 I2].
    unfold data_log in *. cbn [flat_map].
    destruct o; cbn [app]; try (destruct F as (F1 & F2); rewrite F1 in I2; auto; fail).
    - destruct F as (F1 & F2 & _). rewrite F2 in I2. cbn [map fst]. split.
      + constructor; auto. intros X. specialize (I2 _ X). unfold upd1 in I2. rewrite String.eqb_refl in I2. discriminate.
      + intros c [<-|X]; auto. specialize (I2 _ X). unfold upd1 in I2. destruct (String.eqb_spec ch c); [discriminate|auto].
    - destruct F as (F1 & F2 & F3 & F4). rewrite F4 in I2. auto.
  Qed.
  Lemma chan_decls_app (a b : list (op V)) : forall seen, exists seen', chan_decls seen (a ++ b) = chan_decls seen a ++ chan_decls seen' b.
  Proof.
    induction a as [|o a IH]; intros seen. { exists seen. auto. } cbn [app chan_decls].
    destruct o; try apply IH. destruct (IH (set_add (match name with Some x => x | None => ("ch" ++ nat_str (List.length seen))%string end) seen)) as (s' & ->). exists s'. auto.
  Qed.
  (** a process is added once to a channel *)
  Lemma process_twice cfg (o1 o2 o3 : list (op V)) h p c sg vs h' p' sg' vs' st : p' = p ->
    run cfg init_state (o1 ++ AddProcess h p c sg vs :: o2 ++ AddProcess h' p' c sg' vs' :: o3) = Ok st ->
    Forall wf_op (o1 ++ AddProcess h p c sg vs :: o2 ++ AddProcess h' p' c sg' vs' :: o3) ->
    Forall no_stored_zeros (o1 ++ AddProcess h p c sg vs :: o2 ++ AddProcess h' p' c sg' vs' :: o3) ->
    channels_once (o1 ++ AddProcess h p c sg vs :: o2 ++ AddProcess h' p' c sg' vs' :: o3) -> False.
  Proof.
    intros ->. set (a := o1 ++ AddProcess h p c sg vs :: o2).
    replace (o1 ++ AddProcess h p c sg vs :: o2 ++ AddProcess h' p c sg' vs' :: o3) with (a ++ AddProcess h' p c sg' vs' :: o3)
      by (unfold a; rewrite <- app_assoc; auto).
    intros R W Z C. apply Writer_Frame.run_app in R as (s & R1 & R2). apply run_cons in R2 as (s' & S & _).
    apply Forall_app in W as [W _]. apply Forall_app in Z as [Z _].
    assert (C' : channels_once a).
    { unfold channels_once in *. destruct (chan_decls_app a (AddProcess h' p c sg' vs' :: o3) []) as (s2 & E). rewrite E, map_app in C.
      apply NoDup_app_inv in C. apply C. }
    rewrite (duplicate_process cfg a s h' p c sg' vs' R1 W Z C') in S; [discriminate|].
    exists h, sg, vs. unfold a. apply in_app_iff. right. left. auto.
  Qed.
  (** flow bins only in masked channels *)
  Lemma flow_masked cfg ops : forall (st st' : state V) seen, run cfg st ops = Ok st' -> forall c i, In (c, i) (chan_decls seen ops) -> ch_flow i = true -> ch_masked i = true.
  Proof.
    induction ops as [|o ops IH]; intros st st' seen R c i H FL; [contradiction|]. apply run_cons in R as (s & S & R). cbn [chan_decls] in H.
    destruct o; try (eapply IH; eauto; fail). destruct H as [H|H]; [|eapply IH; eauto]. injection H as _ <-. cbn in FL |- *. subst flow.
    cbn [step add_channel] in S. unfold add_channel in S. destruct masked; auto. discriminate.
  Qed.
  Lemma channel_declared cfg (ops : list (op V)) w c i : written cfg ops w -> clean ops -> dget c (w_channels w) = Some i -> In (c, i) (chan_decls [] ops).
  Proof.
    intros (st & R & Wt) (_ & _ & C3 & _) H. destruct (run_chan_init cfg ops st R (once_stable _ C3)) as [L _]. destruct (write_fields cfg st w Wt) as (EC & _).
    rewrite EC, L in H. apply dget_In, in_app_iff in H as [H|H]; [apply layoutU_sub in H|apply layoutM_sub in H]; auto.
  Qed.
  Lemma no_flow cfg (ops : list (op V)) w c i : written cfg ops w -> clean ops -> dget c (w_channels w) = Some i -> ch_masked i = false -> ch_flow i = false.
  Proof.
    intros Wr Cl H M. pose proof (channel_declared _ _ _ _ _ Wr Cl H) as D. destruct Wr as (st & R & _). destruct (ch_flow i) eqn:F; auto.
    rewrite (flow_masked _ _ _ _ _ R _ _ D F) in M. discriminate.
  Qed.
  (** variances of the data *)
  Lemma run_data_var cfg ops : forall (st st' : state V), run cfg st ops = Ok st' ->
    forall c v, st_data_var st' c = Some v -> st_data_var st c = Some v \/ In (c, v) (map (fun x => (fst x, snd (snd x))) (data_log ops)).
  Proof.
    induction ops as [|o ops IH]; intros st st' R c v H. { cbn [run] in R. injection R as <-. auto. }
    apply run_cons in R as (s & S & R). specialize (IH _ _ R c v H). unfold data_log. cbn [flat_map].
    assert (E : match o with AddData ch _ w => st_data_var s = upd1 (st_data_var st) ch (Some w) | _ => st_data_var s = st_data_var st end).
    { destruct o; cbn [step] in S.
      - unfold add_channel in S. destruct (_ && _); [congruence|]. injection S as <-. auto.
      - assert (B := step_base cfg st (AddProcess h name ch signal vars) s S). cbn beta iota in B.
        unfold add_process in S. destruct (check_hist _ _ _); [congruence|]. destruct (st_norm _ _ _); [congruence|].
        destruct (store_norm _ _); [|congruence]. destruct (store_sumw2 _ _); [|congruence]. injection S as <-. destruct signal; reflexivity.
      - unfold add_data in S. destruct (check_hist _ _ _); [congruence|]. destruct (st_data_obs st ch) eqn:E; [congruence|].
        unfold flat_variances in S. destruct (existsb neg vars); [congruence|]. injection S as <-. auto.
      - unfold add_pseudodata in S. destruct (check_hist _ _ _); [congruence|]. cbv zeta in S. destruct (st_pseudodata _ _ _); [congruence|]. injection S as <-. auto.
      - assert (B := base_add_systematic _ _ _ _ _ _ _ _ _ _ _ _ S). unfold base in B. injection B. intros. auto.
      - assert (B := step_base cfg st (AddNormSystematic name procs ch unc m kw) s S). cbn beta iota in B. unfold base in B. injection B. intros. auto. }
    destruct o; cbn [app]; try (rewrite E in IH; exact IH).
    rewrite E in IH. unfold upd1 in IH. cbn [map fst snd In]. destruct (String.eqb_spec ch c) as [->|]; [|tauto].
    destruct IH as [IH|IH]; [injection IH as ->; auto|auto].
  Qed.
  Lemma written_data_var cfg (ops : list (op V)) st w : run cfg init_state ops = Ok st -> write cfg st = Ok w -> flags_stable (chan_decls [] ops) ->
    forall c s e info, In (c, (s, e)) (reader_ranges 0 (w_channels w)) -> dget c (w_channels w) = Some info -> ch_masked info = false ->
    exists v, In (c, v) (map (fun x => (fst x, snd (snd x))) (data_log ops)) /\ forall i, i < e - s -> w_data_var w (s + i) = nth i v n0.
  Proof.
    intros R W F c s e info I D M. pose proof (unmasked_range _ _ _ _ _ _ _ _ R W F I D M) as U.
    destruct (write_fields cfg st w W) as (_ & _ & _ & _ & _ & _ & _ & _ & _ & _ & _ & _ & _ & _ & _ & FD & _).
    destruct (fill_data_at st _ _ (chans_NoDup _ _ _ R F) FD c s (e - s) U) as (l & L & H). exists l. split; auto.
    apply (run_data_var cfg ops _ _ R) in L. destruct L as [L|L]; auto. discriminate.
  Qed.
End Lib.
