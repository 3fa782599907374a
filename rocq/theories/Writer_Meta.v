(** Axis order and metadata index vectors (C04, C05). *)
From Coq Require Import List Arith Bool String Permutation Sorted Lia.
From Verif Require Import PyList PyDict Order Num Names_Model Writer_Model Writer_Spec Writer_Frame Writer_Layout.
Import ListNotations.
Local Open Scope string_scope.
Local Open Scope list_scope.

Lemma last_index_NoDup l x i : NoDup l -> (last_index x l = Some i <-> nth_error l i = Some x).
Proof.
  intros N. split; [apply last_index_Some|]. intros H.
  destruct (last_index_In x l) as [j Hj]. { eapply nth_error_In; eauto. }
  pose proof (last_index_Some _ _ _ Hj) as Hj'. rewrite Hj. f_equal.
  apply (proj1 (NoDup_nth_error l) N).
  - apply nth_error_Some. congruence.
  - congruence.
Qed.
Lemma In_nth_error_iff {A} (l : list A) x : In x l <-> exists i, nth_error l i = Some x.
Proof.
  split. { apply In_nth_error. } intros [i H]. eapply nth_error_In; eauto.
Qed.

Lemma mapM_Ok {A B} (f : A -> result B) l r : mapM f l = Ok r -> Forall2 (fun a b => f a = Ok b) l r.
Proof.
  revert r. induction l as [|x l IH]; simpl; intros r H. { injection H as <-. constructor. }
  destruct (f x) eqn:E; simpl in H; [|discriminate]. destruct (mapM f l) eqn:M; simpl in H; [|discriminate].
  injection H as <-. constructor; auto.
Qed.
Lemma Forall2_In_r {A B} (R : A -> B -> Prop) l r y : Forall2 R l r -> In y r -> exists x, In x l /\ R x y.
Proof.
  induction 1; simpl; [contradiction|]. intros [->|Hin]; [eauto|].
  destruct (IHForall2 Hin) as (x' & ? & ?). eauto.
Qed.
Lemma Forall2_In_l {A B} (R : A -> B -> Prop) l r x : Forall2 R l r -> In x l -> exists y, In y r /\ R x y.
Proof.
  induction 1; simpl; [contradiction|]. intros [->|Hin]; [eauto|].
  destruct (IHForall2 Hin) as (x' & ? & ?). eauto.
Qed.

Section Meta.
  Context {V : Type} {NV : Num V}.
  Notation sp := (dict (list string) * list string * list string * list string)%type.
  Definition sp_g (x : sp) := fst (fst (fst x)).
  Definition sp_std (x : sp) := snd (fst (fst x)).
  Definition sp_noi (x : sp) := snd (fst x).
  Definition sp_unc (x : sp) := snd x.

  Lemma fold_std l : forall x s, In s (sp_std (fold_left bookp l x)) <->
    In s (sp_std x) \/ exists kw, In (s, kw) l /\ kw_constrained kw = true.
  Proof.
    induction l as [|[n kw] l IH]; intros [[[g std] noi] unc] s; simpl.
    { split; auto. intros [|(k & [] & _)]; auto. }
    rewrite IH. unfold sp_std at 1. simpl. split.
    - intros [H|(k & H & E)]; [|eauto]. destruct (kw_constrained kw) eqn:K; auto.
      apply set_add_In in H. destruct H as [->|]; eauto.
    - intros [H|(k & [H|H] & E)].
      + left. destruct (kw_constrained kw); auto. apply set_add_In. auto.
      + injection H as -> ->. rewrite E. left. apply set_add_In. auto.
      + right. eauto.
  Qed.
  Lemma fold_unc l : forall x s, In s (sp_unc (fold_left bookp l x)) <->
    In s (sp_unc x) \/ exists kw, In (s, kw) l /\ kw_constrained kw = false.
  Proof.
    induction l as [|[n kw] l IH]; intros [[[g std] noi] unc] s; simpl.
    { split; auto. intros [|(k & [] & _)]; auto. }
    rewrite IH. unfold sp_unc at 1. simpl. split.
    - intros [H|(k & H & E)]; [|eauto]. destruct (kw_constrained kw) eqn:K; auto.
      apply set_add_In in H. destruct H as [->|]; eauto.
    - intros [H|(k & [H|H] & E)].
      + left. destruct (kw_constrained kw); auto. apply set_add_In. auto.
      + injection H as -> ->. rewrite E. left. apply set_add_In. auto.
      + right. eauto.
  Qed.
  Lemma fold_noi l : forall x s, In s (sp_noi (fold_left bookp l x)) <->
    In s (sp_noi x) \/ exists kw, In (s, kw) l /\ kw_noi kw = true.
  Proof.
    induction l as [|[n kw] l IH]; intros [[[g std] noi] unc] s; simpl.
    { split; auto. intros [|(k & [] & _)]; auto. }
    rewrite IH. unfold sp_noi at 1. simpl. split.
    - intros [H|(k & H & E)]; [|eauto]. destruct (kw_noi kw) eqn:K; auto.
      apply set_add_In in H. destruct H as [->|]; eauto.
    - intros [H|(k & [H|H] & E)].
      + left. destruct (kw_noi kw); auto. apply set_add_In. auto.
      + injection H as -> ->. rewrite E. left. apply set_add_In. auto.
      + right. eauto.
  Qed.
  Lemma fold_sp_NoDup l : forall x, NoDup (sp_std x) -> NoDup (sp_unc x) -> NoDup (sp_noi x) ->
    let y := fold_left bookp l x in NoDup (sp_std y) /\ NoDup (sp_unc y) /\ NoDup (sp_noi y).
  Proof.
    induction l as [|[n kw] l IH]; intros [[[g std] noi] unc]; simpl; auto.
    intros H1 H2 H3. apply IH; simpl in *; unfold sp_std, sp_unc, sp_noi in *; simpl in *.
    - destruct (kw_constrained kw); auto. apply set_add_NoDup; auto.
    - destruct (kw_constrained kw); auto. apply set_add_NoDup; auto.
    - destruct (kw_noi kw); auto. apply set_add_NoDup; auto.
  Qed.

  Definition members (d : dict (list string)) g := match dget g d with Some m => m | None => [] end.
  Definition addg (name : string) (d : dict (list string)) (g : string) :=
    dset g (set_add name (members d g)) d.
  Lemma addg_fold name gs : forall d g s,
    In s (members (fold_left (addg name) gs d) g) <-> In s (members d g) \/ (s = name /\ In g gs).
  Proof.
    induction gs as [|g' gs IH]; intros d g s; simpl. { tauto. }
    rewrite IH. unfold addg, members at 1. rewrite dget_dset.
    destruct (String.eqb g' g) eqn:E.
    - apply String.eqb_eq in E. subst. rewrite set_add_In. intuition.
    - apply String.eqb_neq in E. fold (members d g). intuition.
  Qed.
  Lemma addg_keys name gs : forall d g,
    In g (dkeys (fold_left (addg name) gs d)) <-> In g (dkeys d) \/ In g gs.
  Proof.
    induction gs as [|g' gs IH]; intros d g; simpl. { tauto. }
    rewrite IH. unfold addg. rewrite dkeys_dset. intuition.
  Qed.
  Lemma addg_NoDup name gs : forall d, NoDup (dkeys d) -> NoDup (dkeys (fold_left (addg name) gs d)).
  Proof. induction gs; intros d H; simpl; auto. apply IHgs. apply dkeys_dset_NoDup. auto. Qed.

  Lemma fold_grp l : forall x g s, In s (members (sp_g (fold_left bookp l x)) g) <->
    In s (members (sp_g x) g) \/ exists kw, In (s, kw) l /\ In g (groups_of s kw).
  Proof.
    induction l as [|[n kw] l IH]; intros [[[gd std] noi] unc] g s; simpl.
    { split; auto. intros [|(k & [] & _)]; auto. }
    rewrite IH. unfold sp_g at 1. simpl.
    change (fold_left _ (groups_of n kw) gd) with (fold_left (addg n) (groups_of n kw) gd).
    rewrite addg_fold. unfold sp_g. simpl. split.
    - intros [[H|[-> H]]|(k & H & E)]; eauto.
    - intros [H|(k & [H|H] & E)]; auto.
      + injection H as -> ->. auto.
      + right. eauto.
  Qed.
  Lemma fold_grp_keys l : forall x g, In g (dkeys (sp_g (fold_left bookp l x))) <->
    In g (dkeys (sp_g x)) \/ exists s kw, In (s, kw) l /\ In g (groups_of s kw).
  Proof.
    induction l as [|[n kw] l IH]; intros [[[gd std] noi] unc] g; simpl.
    { split; auto. intros [|(s & k & [] & _)]; auto. }
    rewrite IH. unfold sp_g at 1. simpl.
    change (fold_left _ (groups_of n kw) gd) with (fold_left (addg n) (groups_of n kw) gd).
    rewrite addg_keys. unfold sp_g. simpl. split.
    - intros [[H|H]|(s & k & H & E)]; eauto 6.
    - intros [H|(s & k & [H|H] & E)]; auto.
      + injection H as -> ->. auto.
      + right. eauto.
  Qed.
  Lemma fold_grp_NoDup l : forall x, NoDup (dkeys (sp_g x)) -> NoDup (dkeys (sp_g (fold_left bookp l x))).
  Proof.
    induction l as [|[n kw] l IH]; intros [[[gd std] noi] unc]; auto. intros H. simpl. apply IH.
    unfold sp_g in *. simpl in *. apply (addg_NoDup n (groups_of n kw) gd). auto.
  Qed.

  (** *** consequences for a run *)
  Definition sys_of (ops : list (op V)) (st : state V) : Prop :=
    sysp st = fold_left bookp (all_systs ops) (sysp (init_state (V := V))).
  Lemma run_std_s ops st : sys_of ops st ->
    forall s, In s (st_standard st) <-> declared_constrained ops s.
  Proof.
    intros H s. unfold sys_of in H.
    change (st_standard st) with (sp_std (sysp st)). rewrite H, fold_std. unfold declared_constrained.
    simpl. split; [intros [[]|]|]; auto.
  Qed.
  Lemma run_std cfg ops st : run cfg (init_state (V := V)) ops = Ok st ->
    forall s, In s (st_standard st) <-> declared_constrained ops s.
  Proof. intros R. apply (run_std_s ops). apply (run_sysp _ _ _ _ R). Qed.
  Lemma run_unc_s ops st : sys_of ops st ->
    forall s, In s (st_noconstraint st) <-> declared_unconstrained ops s.
  Proof.
    intros H s. unfold sys_of in H.
    change (st_noconstraint st) with (sp_unc (sysp st)). rewrite H, fold_unc. unfold declared_unconstrained.
    simpl. split; [intros [[]|]|]; auto.
  Qed.
  Lemma run_unc cfg ops st : run cfg (init_state (V := V)) ops = Ok st ->
    forall s, In s (st_noconstraint st) <-> declared_unconstrained ops s.
  Proof. intros R. apply (run_unc_s ops). apply (run_sysp _ _ _ _ R). Qed.
  Lemma run_noi_s ops st : sys_of ops st ->
    forall s, In s (st_noi st) <-> declared_noi ops s.
  Proof.
    intros H s. unfold sys_of in H.
    change (st_noi st) with (sp_noi (sysp st)). rewrite H, fold_noi. unfold declared_noi.
    simpl. split; [intros [[]|]|]; auto.
  Qed.
  Lemma run_noi cfg ops st : run cfg (init_state (V := V)) ops = Ok st ->
    forall s, In s (st_noi st) <-> declared_noi ops s.
  Proof. intros R. apply (run_noi_s ops). apply (run_sysp _ _ _ _ R). Qed.
  Lemma run_sets_NoDup_s ops st : sys_of ops st ->
    NoDup (st_standard st) /\ NoDup (st_noconstraint st) /\ NoDup (st_noi st).
  Proof.
    intros H. unfold sys_of in H.
    pose proof (fold_sp_NoDup (all_systs ops) (sysp (init_state (V := V)))) as F.
    rewrite <- H in F. apply F; constructor.
  Qed.
  Lemma run_sets_NoDup cfg ops st : run cfg (init_state (V := V)) ops = Ok st ->
    NoDup (st_standard st) /\ NoDup (st_noconstraint st) /\ NoDup (st_noi st).
  Proof. intros R. apply (run_sets_NoDup_s ops). apply (run_sysp _ _ _ _ R). Qed.
  Lemma run_groups_s ops st : sys_of ops st ->
    NoDup (dkeys (st_systgroups st)) /\
    (forall g, In g (dkeys (st_systgroups st)) <-> exists s, declared_in_group ops g s) /\
    (forall g m, In (g, m) (st_systgroups st) -> forall s, In s m <-> declared_in_group ops g s).
  Proof.
    intros H. unfold sys_of in H.
    change (st_systgroups st) with (sp_g (sysp st)). rewrite H.
    assert (ND : NoDup (dkeys (sp_g (fold_left bookp (all_systs ops) (sysp (init_state (V := V))))))).
    { apply fold_grp_NoDup. constructor. }
    repeat split; auto.
    - intros Hg. apply fold_grp_keys in Hg. destruct Hg as [[]|(s & kw & A & B)]. exists s, kw. auto.
    - intros (s & kw & A & B). apply fold_grp_keys. right. eauto.
    - intros Hs. pose proof (In_dget _ _ _ ND H0) as G.
      assert (In s (members (sp_g (fold_left bookp (all_systs ops) (sysp (init_state (V := V))))) g)) as M.
      { unfold members. rewrite G. auto. }
      apply fold_grp in M. destruct M as [[]|M]. exact M.
    - intros Hs. pose proof (In_dget _ _ _ ND H0) as G.
      assert (In s (members (sp_g (fold_left bookp (all_systs ops) (sysp (init_state (V := V))))) g)) as M.
      { apply fold_grp. right. exact Hs. }
      unfold members in M. rewrite G in M. auto.
  Qed.
  Lemma run_groups cfg ops st : run cfg (init_state (V := V)) ops = Ok st ->
    NoDup (dkeys (st_systgroups st)) /\
    (forall g, In g (dkeys (st_systgroups st)) <-> exists s, declared_in_group ops g s) /\
    (forall g m, In (g, m) (st_systgroups st) -> forall s, In s m <-> declared_in_group ops g s).
  Proof. intros R. apply (run_groups_s ops). apply (run_sysp _ _ _ _ R). Qed.

  Lemma declared_cases ops s : declared (V := V) ops s <-> declared_unconstrained ops s \/ declared_constrained ops s.
  Proof.
    split.
    - intros [kw H]. destruct (kw_constrained kw) eqn:E; [right|left]; exists kw; auto.
    - intros [(kw & H & _)|(kw & H & _)]; exists kw; auto.
  Qed.
  Lemma noi_declared ops s : declared_noi (V := V) ops s -> declared ops s.
  Proof. intros (kw & H & _). exists kw. auto. Qed.
  Lemma group_declared ops g s : declared_in_group (V := V) ops g s -> declared ops s.
  Proof. intros (kw & H & _). exists kw. auto. Qed.

  Lemma get_systs_In_s ops st : sys_of ops st ->
    forall s, In s (get_systs st) <-> declared ops s.
  Proof.
    intros H s. unfold get_systs, natural_sort. rewrite in_app_iff, !sort_in.
    rewrite (run_std_s _ _ H), (run_unc_s _ _ H), declared_cases. tauto.
  Qed.
  Lemma get_systs_In cfg ops st : run cfg (init_state (V := V)) ops = Ok st ->
    forall s, In s (get_systs st) <-> declared ops s.
  Proof. intros R. apply (get_systs_In_s ops). apply (run_sysp _ _ _ _ R). Qed.
  Lemma NoDup_app_intro {A} (l1 l2 : list A) :
    NoDup l1 -> NoDup l2 -> (forall x, In x l1 -> ~ In x l2) -> NoDup (l1 ++ l2).
  Proof.
    induction 1; simpl; auto. intros N2 D. constructor.
    - rewrite in_app_iff. intros [|Hx]; auto. eapply D; eauto.
    - apply IHNoDup; auto.
  Qed.
  Lemma get_systs_NoDup_s ops st : sys_of ops st ->
    constraint_stable ops -> NoDup (get_systs st).
  Proof.
    intros H S. destruct (run_sets_NoDup_s _ _ H) as (N1 & N2 & _).
    unfold get_systs, natural_sort. apply NoDup_app_intro; try (apply sort_NoDup; auto).
    intros s. rewrite !sort_in, (run_std_s _ _ H), (run_unc_s _ _ H). intros A B. apply (S s). auto.
  Qed.
  Lemma get_systs_NoDup cfg ops st : run cfg (init_state (V := V)) ops = Ok st ->
    constraint_stable ops -> NoDup (get_systs st).
  Proof. intros R. apply (get_systs_NoDup_s ops). apply (run_sysp _ _ _ _ R). Qed.

  Theorem metadata_correct_s cfg ops st w :
    sys_of ops st -> write cfg st = Ok w -> constraint_stable ops ->
    NoDup (w_systs w) /\
    (forall s, In s (w_systs w) <-> declared ops s) /\
    (NoDup (map fst (w_groups w)) /\
     (forall g, In g (map fst (w_groups w)) <-> exists s, declared_in_group ops g s) /\
     (forall g idx, In (g, idx) (w_groups w) -> forall i,
        In i idx <-> exists s, nth_error (w_systs w) i = Some s /\ declared_in_group ops g s)) /\
    (forall i, In i (w_noiidxs w) <-> exists s, nth_error (w_systs w) i = Some s /\ declared_noi ops s) /\
    (List.length (w_cw w) = List.length (w_systs w) /\
     forall i s, nth_error (w_systs w) i = Some s ->
       (declared_unconstrained ops s -> nth_error (w_cw w) i = Some n0) /\
       (declared_constrained ops s -> nth_error (w_cw w) i = Some n1)).
  Proof.
    intros HR HW S. apply write_fields in HW.
    destruct HW as (_ & _ & _ & _ & _ & ES & EC & EG & EN & _).
    pose proof (get_systs_NoDup_s _ _ HR S) as ND. pose proof (get_systs_In_s _ _ HR) as IS.
    rewrite ES. split; auto. split; auto.
    assert (IX : forall s i, idx_or_keyerror (get_systs st) s = Ok i <-> nth_error (get_systs st) i = Some s).
    { intros s i. unfold idx_or_keyerror. rewrite <- last_index_NoDup by auto.
      destruct (last_index s (get_systs st)); split; intros E; try discriminate; congruence. }
    assert (MX : forall l r, mapM (idx_or_keyerror (get_systs st)) l = Ok r -> forall i,
              In i r <-> exists s, nth_error (get_systs st) i = Some s /\ In s l).
    { intros l r M i. apply mapM_Ok in M. split.
      - intros Hi. destruct (Forall2_In_r _ _ _ _ M Hi) as (s & Hs & E). exists s. rewrite <- IX. auto.
      - intros (s & E & Hs). destruct (Forall2_In_l _ _ _ _ M Hs) as (j & Hj & E').
        apply IX in E. congruence. }
    split; [|split].
    - destruct (run_groups_s _ _ HR) as (GN & GK & GM). unfold get_systgroups in EG.
      pose proof (mapM_Ok _ _ _ EG) as F.
      assert (FK : map fst (w_groups w) = dkeys (natural_sort_dict (st_systgroups st))).
      { clear - F. induction F; simpl; auto. f_equal; auto. destruct x, y. simpl in *.
        destruct (mapM _ l0); simpl in *; [|discriminate]. congruence. }
      assert (PK : Permutation (dkeys (natural_sort_dict (st_systgroups st))) (dkeys (st_systgroups st))).
      { unfold dkeys, natural_sort_dict. apply Permutation_map, sort_perm. }
      rewrite FK. split; [|split].
      + eapply Permutation_NoDup; [apply Permutation_sym, PK|auto].
      + intros g. rewrite <- GK. split; apply Permutation_in; auto. apply Permutation_sym; auto.
      + intros g idx Hin i. destruct (Forall2_In_r _ _ _ _ F Hin) as ([g' m] & Hm & E). simpl in E.
        destruct (mapM (idx_or_keyerror (get_systs st)) m) as [l|] eqn:M; simpl in E; [|discriminate].
        injection E as -> ->.
        rewrite (MX _ _ M). unfold natural_sort_dict in Hm. apply sort_in in Hm.
        split; intros (s & A & B); exists s; split; auto; eapply GM; eauto.
    - intros i. unfold get_noiidxs in EN. rewrite (MX _ _ EN).
      split; intros (s & A & B); exists s; split; auto.
      + unfold natural_sort in B. rewrite sort_in in B. eapply run_noi_s; eauto.
      + unfold natural_sort. rewrite sort_in. eapply run_noi_s; eauto.
    - rewrite EC. unfold get_constraintweights. rewrite map_length, seq_length. split; auto.
      intros i s Hi.
      assert (Li : i < List.length (get_systs st)) by (apply nth_error_Some; congruence).
      assert (G : nth_error (map (fun i0 => if existsb (fun o => match o with Some j => Nat.eqb i0 j | None => false end)
           (map (fun s0 => last_index s0 (get_systs st)) (natural_sort (st_noconstraint st))) then n0 else n1)
           (seq 0 (List.length (get_systs st)))) i =
         Some (if existsb (fun o => match o with Some j => Nat.eqb i j | None => false end)
           (map (fun s0 => last_index s0 (get_systs st)) (natural_sort (st_noconstraint st))) then n0 else n1)).
      { rewrite nth_error_map, (nth_error_nth' _ 0) by (rewrite seq_length; auto).
        rewrite seq_nth by auto. reflexivity. }
      rewrite G. clear G. split; intros D.
      + assert (existsb (fun o => match o with Some j => Nat.eqb i j | None => false end)
           (map (fun s0 => last_index s0 (get_systs st)) (natural_sort (st_noconstraint st))) = true) as ->; auto.
        apply existsb_exists. exists (last_index s (get_systs st)). split.
        * apply in_map_iff. exists s. split; auto. unfold natural_sort. rewrite sort_in.
          eapply run_unc_s; eauto.
        * apply last_index_NoDup in Hi; auto. rewrite Hi. apply Nat.eqb_refl.
      + destruct (existsb _ _) eqn:X; auto. exfalso.
        apply existsb_exists in X. destruct X as (o & Ho & E). apply in_map_iff in Ho.
        destruct Ho as (s' & <- & Hs'). unfold natural_sort in Hs'. rewrite sort_in in Hs'.
        apply (run_unc_s _ _ HR) in Hs'.
        destruct (last_index s' (get_systs st)) as [j|] eqn:L; [|discriminate].
        apply Nat.eqb_eq in E. subst j. apply last_index_Some in L.
        assert (s' = s) by congruence. subst. apply (S s). auto.
  Qed.
  Theorem metadata_correct cfg ops st w :
    run cfg (init_state (V := V)) ops = Ok st -> write cfg st = Ok w -> constraint_stable ops ->
    NoDup (w_systs w) /\
    (forall s, In s (w_systs w) <-> declared ops s) /\
    (NoDup (map fst (w_groups w)) /\
     (forall g, In g (map fst (w_groups w)) <-> exists s, declared_in_group ops g s) /\
     (forall g idx, In (g, idx) (w_groups w) -> forall i,
        In i idx <-> exists s, nth_error (w_systs w) i = Some s /\ declared_in_group ops g s)) /\
    (forall i, In i (w_noiidxs w) <-> exists s, nth_error (w_systs w) i = Some s /\ declared_noi ops s) /\
    (List.length (w_cw w) = List.length (w_systs w) /\
     forall i s, nth_error (w_systs w) i = Some s ->
       (declared_unconstrained ops s -> nth_error (w_cw w) i = Some n0) /\
       (declared_constrained ops s -> nth_error (w_cw w) i = Some n1)).
  Proof. intros R. apply metadata_correct_s. apply (run_sysp _ _ _ _ R). Qed.

  (** *** order (C04) *)
  Lemma fold_procs l : forall sb, let r := fold_left bookproc l sb in
    (forall s, In s (fst r) <-> In s (fst sb) \/ In (s, true) l) /\
    (forall s, In s (snd r) <-> In s (snd sb) \/ In (s, false) l) /\
    (NoDup (fst sb) -> NoDup (fst r)) /\ (NoDup (snd sb) -> NoDup (snd r)).
  Proof.
    induction l as [|[n b] l IH]; intros [sg bk]; simpl. { intuition. }
    specialize (IH (bookproc (sg, bk) (n, b))). simpl in IH.
    destruct IH as (H1 & H2 & H3 & H4). unfold bookproc in *. destruct b; simpl in *.
    - repeat split; intros.
      + apply H1 in H. rewrite set_add_In in H. destruct H as [[->|]|]; auto.
      + apply H1. rewrite set_add_In. destruct H as [|[E|]]; auto. injection E as ->. auto.
      + apply H2 in H. destruct H; auto.
      + apply H2. destruct H as [|[E|]]; auto. discriminate.
      + apply H3. apply set_add_NoDup. auto.
      + auto.
    - repeat split; intros.
      + apply H1 in H. destruct H; auto.
      + apply H1. destruct H as [|[E|]]; auto. discriminate.
      + apply H2 in H. rewrite set_add_In in H. destruct H as [[->|]|]; auto.
      + apply H2. rewrite set_add_In. destruct H as [|[E|]]; auto. injection E as ->. auto.
      + auto.
      + apply H4. apply set_add_NoDup. auto.
  Qed.
  Lemma run_proc_sets cfg ops st : run cfg (init_state (V := V)) ops = Ok st ->
    NoDup (st_signals st) /\ NoDup (st_bkgs st) /\
    (forall p, In p (st_signals st) <-> In (p, true) (proc_decls ops)) /\
    (forall p, In p (st_bkgs st) <-> In (p, false) (proc_decls ops)).
  Proof.
    intros H. apply run_procs in H. simpl in H.
    destruct (fold_procs (proc_decls ops) ([], [])) as (H1 & H2 & H3 & H4).
    rewrite <- H in *. simpl in *. split. { apply H3. constructor. } split. { apply H4. constructor. }
    split; intros p; [rewrite H1|rewrite H2]; tauto.
  Qed.

  Lemma sort_unique' {A K} (key : A -> K) c l1 l2 : CmpLaws c -> NoDup l1 -> NoDup l2 ->
    (forall x, In x l1 <-> In x l2) ->
    (forall x y, In x l1 -> In y l1 -> key x = key y -> x = y) ->
    sort_k key c l1 = sort_k key c l2.
  Proof. intros L N1 N2 E I. apply sort_unique; auto. apply NoDup_Permutation; auto. Qed.

  Theorem proc_order cfg1 cfg2 ops1 ops2 st1 st2 w1 w2 :
    run cfg1 (init_state (V := V)) ops1 = Ok st1 -> write cfg1 st1 = Ok w1 ->
    run cfg2 (init_state (V := V)) ops2 = Ok st2 -> write cfg2 st2 = Ok w2 ->
    (forall d, In d (proc_decls ops1) <-> In d (proc_decls ops2)) ->
    w_procs w1 = w_procs w2 /\ w_signals w1 = w_signals w2.
  Proof.
    intros R1 W1 R2 W2 E. apply write_fields in W1, W2.
    destruct W1 as (_ & _ & _ & P1 & S1 & _), W2 as (_ & _ & _ & P2 & S2 & _).
    destruct (run_proc_sets _ _ _ R1) as (A1 & B1 & C1 & D1).
    destruct (run_proc_sets _ _ _ R2) as (A2 & B2 & C2 & D2).
    assert (X : sorted_str (st_signals st1) = sorted_str (st_signals st2)).
    { apply sort_unique'; auto. { apply string_cmp. } intros x. rewrite C1, C2. apply E. }
    assert (Y : sorted_str (st_bkgs st1) = sorted_str (st_bkgs st2)).
    { apply sort_unique'; auto. { apply string_cmp. } intros x. rewrite D1, D2. apply E. }
    split; congruence.
  Qed.

  Theorem proc_axis cfg ops st w :
    run cfg (init_state (V := V)) ops = Ok st -> write cfg st = Ok w ->
    exists sg bk, w_procs w = sg ++ bk /\ w_signals w = sg /\ NoDup (w_procs w) /\
      StronglySorted (fun a b => string_c a b = Lt) sg /\ StronglySorted (fun a b => string_c a b = Lt) bk /\
      (forall p, In p sg <-> In (p, true) (proc_decls ops)) /\
      (forall p, In p bk <-> In (p, false) (proc_decls ops)).
  Proof.
    intros R W. apply write_fields in W.
    destruct W as (_ & _ & _ & P1 & S1 & _ & _ & _ & _ & _ & _ & _ & _ & _ & _ & _ & _ & _ & D & _).
    destruct (run_proc_sets _ _ _ R) as (A1 & B1 & C1 & D1).
    exists (sorted_str (st_signals st)), (sorted_str (st_bkgs st)). rewrite P1, S1.
    assert (ST : forall l, NoDup l -> StronglySorted (fun a b => string_c a b = Lt) (sorted_str l)).
    { intros l N. pose proof (sort_sorted (fun s : string => s) string_c string_cmp l) as Q.
      pose proof (sort_NoDup (fun s : string => s) string_c l N) as N'. unfold sorted_str.
      induction Q; constructor; inversion N'; subst; auto.
      rewrite Forall_forall in *. intros y Hy. specialize (H y Hy). unfold le_k in H.
      destruct (string_c a y) eqn:E; auto; [|discriminate]. apply (c_eq _ string_cmp) in E. subst. contradiction. }
    repeat split; auto.
    - apply NoDup_app_intro; try (apply sort_NoDup; auto). intros x. unfold sorted_str. rewrite !sort_in. apply D.
    - unfold sorted_str. rewrite sort_in. apply C1.
    - unfold sorted_str. rewrite sort_in. apply C1.
    - unfold sorted_str. rewrite sort_in. apply D1.
    - unfold sorted_str. rewrite sort_in. apply D1.
  Qed.

  Definition keys_distinct (P : string -> Prop) : Prop :=
    forall a b, P a -> P b -> natural_sort_key a = natural_sort_key b -> a = b.

  Theorem syst_order cfg1 cfg2 ops1 ops2 st1 st2 w1 w2 :
    run cfg1 (init_state (V := V)) ops1 = Ok st1 -> write cfg1 st1 = Ok w1 ->
    run cfg2 (init_state (V := V)) ops2 = Ok st2 -> write cfg2 st2 = Ok w2 ->
    (forall s, declared_constrained ops1 s <-> declared_constrained ops2 s) ->
    (forall s, declared_unconstrained ops1 s <-> declared_unconstrained ops2 s) ->
    keys_distinct (declared ops1) ->
    w_systs w1 = w_systs w2 /\ w_noconstraint w1 = w_noconstraint w2.
  Proof.
    intros R1 W1 R2 W2 EC EU K. apply write_fields in W1, W2.
    destruct W1 as (_ & _ & _ & _ & _ & S1 & _ & _ & _ & N1 & _), W2 as (_ & _ & _ & _ & _ & S2 & _ & _ & _ & N2 & _).
    destruct (run_sets_NoDup _ _ _ R1) as (A1 & B1 & _). destruct (run_sets_NoDup _ _ _ R2) as (A2 & B2 & _).
    assert (X : natural_sort (st_noconstraint st1) = natural_sort (st_noconstraint st2)).
    { apply sort_unique'; auto. { apply key_cmp. }
      - intros x. rewrite (run_unc _ _ _ R1), (run_unc _ _ _ R2). auto.
      - intros x y. rewrite !(run_unc _ _ _ R1). intros Hx Hy. apply K; apply declared_cases; auto. }
    assert (Y : natural_sort (st_standard st1) = natural_sort (st_standard st2)).
    { apply sort_unique'; auto. { apply key_cmp. }
      - intros x. rewrite (run_std _ _ _ R1), (run_std _ _ _ R2). auto.
      - intros x y. rewrite !(run_std _ _ _ R1). intros Hx Hy. apply K; apply declared_cases; auto. }
    unfold get_systs in *. split; congruence.
  Qed.
  (** the nuisance axis is ordered: unconstrained first, each part by natural key *)
  Theorem syst_axis cfg ops st w :
    run cfg (init_state (V := V)) ops = Ok st -> write cfg st = Ok w ->
    exists u c, w_systs w = u ++ c /\ w_noconstraint w = u /\
      StronglySorted (fun a b => key_c (natural_sort_key a) (natural_sort_key b) <> Gt) u /\
      StronglySorted (fun a b => key_c (natural_sort_key a) (natural_sort_key b) <> Gt) c /\
      (forall s, In s u <-> declared_unconstrained ops s) /\
      (forall s, In s c <-> declared_constrained ops s).
  Proof.
    intros R W. apply write_fields in W.
    destruct W as (_ & _ & _ & _ & _ & S1 & _ & _ & _ & N1 & _).
    exists (natural_sort (st_noconstraint st)), (natural_sort (st_standard st)). rewrite S1, N1.
    assert (ST : forall l, StronglySorted (fun a b => key_c (natural_sort_key a) (natural_sort_key b) <> Gt) (natural_sort l)).
    { intros l. pose proof (sort_sorted natural_sort_key key_c key_cmp l) as Q. unfold natural_sort.
      induction Q; constructor; auto. rewrite Forall_forall in *. intros y Hy. specialize (H y Hy).
      unfold le_k in H. destruct (key_c _ _); congruence. }
    repeat split; auto; unfold natural_sort; rewrite sort_in; try apply (run_unc _ _ _ R); apply (run_std _ _ _ R).
  Qed.

  (** enumeration order of a python set does not matter when the keys are distinct *)
  Theorem natural_sort_enum l1 l2 : Permutation l1 l2 -> keys_distinct (fun s => In s l1) ->
    natural_sort l1 = natural_sort l2.
  Proof. intros P K. apply sort_unique; auto. apply key_cmp. Qed.
End Meta.
