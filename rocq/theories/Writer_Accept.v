(** Which scripts are accepted: for dense histograms with finite contents the outcome of every
    declaration depends on the shape of the script only, not on the numbers and not on the
    storage mode. *)
From Coq Require Import List Arith Bool String Lia.
From Verif Require Import PyList ListUtil PyDict Order Num Names_Model Writer_Model Writer_Spec
  Writer_Frame Writer_Layout Writer_Meta Writer_Inv Writer_State Writer_Arr Writer_Tensor
  Writer_Hist Writer_Denote Writer_Master Writer_Effects.
Import ListNotations.
Local Open Scope nat_scope.
Local Open Scope string_scope.
Local Open Scope list_scope.

Section Accept.
  Context {V1 : Type} {N1 : Num V1} {V2 : Type} {N2 : Num V2}.
  Hypothesis F1 : forall v : V1, nfinite v = true.
  Hypothesis F2 : forall v : V2, nfinite v = true.

  Definition hist_sim (h1 : histo V1) (h2 : histo V2) : Prop :=
    match h1, h2 with
    | HDense v1 w1, HDense v2 w2 => List.length v1 = List.length v2 /\ existsb neg w1 = existsb neg w2
    | _, _ => False
    end.
  Definition var_sim (w1 : option (list V1)) (w2 : option (list V2)) : Prop :=
    match w1, w2 with
    | Some l1, Some l2 => existsb neg l1 = existsb neg l2
    | None, None => True
    | _, _ => False
    end.
  Definition unc_sim (u1 : uncval V1) (u2 : uncval V2) : Prop :=
    match u1, u2 with
    | UScalar _, UScalar _ | UPair _ _, UPair _ _ | UBad, UBad => True
    | _, _ => False
    end.
  (** same declaration up to the numbers *)
  Definition op_sim (o1 : op V1) (o2 : op V2) : Prop :=
    match o1, o2 with
    | AddChannel n a m f, AddChannel n' a' m' f' => n = n' /\ a = a' /\ m = m' /\ f = f'
    | AddProcess h n c s v, AddProcess h' n' c' s' v' =>
        hist_sim h h' /\ n = n' /\ c = c' /\ s = s' /\ var_sim v v'
    | AddData c v w, AddData c' v' w' =>
        c = c' /\ List.length v = List.length v' /\ existsb neg w = existsb neg w'
    | AddPseudodata n c v, AddPseudodata n' c' v' => n = n' /\ c = c' /\ List.length v = List.length v'
    | AddSystematic h n p c _ mi m ad kw, AddSystematic h' n' p' c' _ mi' m' ad' kw' =>
        n = n' /\ p = p' /\ c = c' /\ mi = mi' /\ m = m' /\ ad = ad' /\ kw = kw' /\
        match h, h' with
        | SSingle h, SSingle h' => hist_sim h h'
        | SPair u d, SPair u' d' => hist_sim u u' /\ hist_sim d d'
        | _, _ => False
        end
    | AddNormSystematic n ps c us m kw, AddNormSystematic n' ps' c' us' m' kw' =>
        n = n' /\ ps = ps' /\ c = c' /\ m = m' /\ kw = kw' /\ Forall2 unc_sim us us'
    | _, _ => False
    end.

  Definition isS {A} (o : option A) : bool := match o with Some _ => true | None => false end.
  Definition norm_sim (a : option (normarr V1)) (b : option (normarr V2)) : Prop :=
    match a, b with
    | None, None => True
    | Some (NDense _), Some (NDense _) => True
    | _, _ => False
    end.
  Definition st_sim (s1 : state V1) (s2 : state V2) : Prop :=
    (st_signals s1 = st_signals s2 /\ st_bkgs s1 = st_bkgs s2 /\ st_channels s1 = st_channels s2 /\
     st_nbinschan s1 = st_nbinschan s2 /\ st_pseudonames s1 = st_pseudonames s2) /\
    (st_systgroups s1 = st_systgroups s2 /\ st_standard s1 = st_standard s2 /\ st_noi s1 = st_noi s2 /\
     st_noconstraint s1 = st_noconstraint s2) /\
    (forall c, isS (st_data_obs s1 c) = isS (st_data_obs s2 c)) /\
    (forall c, isS (st_data_var s1 c) = isS (st_data_var s2 c)) /\
    (forall c n, isS (st_pseudodata s1 c n) = isS (st_pseudodata s2 c n)) /\
    (forall c p, norm_sim (st_norm s1 c p) (st_norm s2 c p)).

  Lemma forallb_fin1 l : forallb nfinite (l : list V1) = true.
  Proof. apply forallb_forall. auto. Qed.
  Lemma forallb_fin2 l : forallb nfinite (l : list V2) = true.
  Proof. apply forallb_forall. auto. Qed.
  Lemma check_sim s1 s2 h1 h2 c : st_sim s1 s2 -> hsize h1 = hsize h2 -> check_hist s1 h1 c = check_hist s2 h2 c.
  Proof. intros ((_ & _ & E & _) & _) H. unfold check_hist. rewrite E, H. auto. Qed.
  Lemma hist_size h1 h2 : hist_sim h1 h2 -> hsize h1 = hsize h2.
  Proof. destruct h1, h2; simpl; tauto. Qed.
  Lemma sim_logk s1 s2 a1 h1 y1 a2 h2 y2 : st_sim s1 s2 -> st_sim (set_logk s1 a1 h1 y1) (set_logk s2 a2 h2 y2).
  Proof. unfold st_sim. simpl. auto. Qed.
  Lemma sim_systematic s1 s2 n kw : st_sim s1 s2 -> st_sim (book_systematic s1 n kw) (book_systematic s2 n kw).
  Proof.
    intros (B & (G1 & G2 & G3 & G4) & R). unfold book_systematic. unfold st_sim. simpl.
    rewrite G1, G2, G3, G4. split; [exact B|]. split; [|exact R]. auto.
  Qed.
  Lemma sim_asym c1 c2 s1 s2 m1 m2 u1 d1 u2 d2 n p c m kw : st_sim s1 s2 ->
    st_sim (fst (compute_asym_syst c1 s1 m1 u1 d1 n p c m kw)) (fst (compute_asym_syst c2 s2 m2 u2 d2 n p c m kw)) /\
    snd (snd (compute_asym_syst c1 s1 m1 u1 d1 n p c m kw)) = snd (snd (compute_asym_syst c2 s2 m2 u2 d2 n p c m kw)).
  Proof.
    intros S. destruct m; simpl; split; auto; try (apply sim_systematic); repeat apply sim_logk; auto.
  Qed.
  Lemma norm_dense s1 s2 c p : st_sim s1 s2 -> 
    (st_norm s1 c p = None /\ st_norm s2 c p = None) \/
    (exists l1 l2, st_norm s1 c p = Some (NDense l1) /\ st_norm s2 c p = Some (NDense l2)).
  Proof.
    intros (_ & _ & _ & _ & _ & N). specialize (N c p). unfold norm_sim in N.
    destruct (st_norm s1 c p) as [[]|], (st_norm s2 c p) as [[]|]; try contradiction; eauto.
  Qed.

  Lemma loop_sim c1 c2 name ch m kw : forall pus1 pus2 s1 s2 vn s1' r,
    Forall2 (fun a b => fst a = fst b /\ unc_sim (snd a) (snd b)) pus1 pus2 -> st_sim s1 s2 ->
    norm_loop c1 s1 name ch m kw pus1 vn = (s1', Ok r) ->
    exists s2', norm_loop c2 s2 name ch m kw pus2 vn = (s2', Ok r) /\ st_sim s1' s2'.
  Proof.
    intros pus1 pus2 s1 s2 vn s1' r F. revert s1 s2 vn. induction F as [|[p u] [p' u'] l l' [E U] F IH]; intros s1 s2 vn S H.
    - simpl in *. injection H as <- <-. eauto.
    - simpl in E. subst p'. cbn [norm_loop] in *. destruct (norm_dense s1 s2 ch p S) as [[A B]|(l1 & l2 & A & B)]; rewrite A in H; rewrite B.
      { discriminate. }
      cbn [norm_vals] in *. unfold get_logk in *.
      destruct u, u'; simpl in U; try contradiction; rewrite ?forallb_fin1 in H; rewrite ?forallb_fin2.
      + apply IH with (s2 := book_avg c2 s2 (NDense l2) (map2 (logk1 (c_type c2) n1) (map (fun v => nmul v u0) l2) l2) ch p vn) in H; auto.
      + cbn [rbind] in *. destruct m; try discriminate.
        * eapply IH in H; [|apply sim_logk; exact S]. destruct H as (s2' & H1 & H2). exists s2'. split; [|auto]. apply H1.
        * eapply IH in H; [|apply sim_logk; exact S]. destruct H as (s2' & H1 & H2). exists s2'. split; [|auto]. apply H1.
      + discriminate.
  Qed.

  Lemma Forall2_combine {A B C} (R : B -> C -> Prop) (l : list A) us us' : Forall2 R us us' ->
    Forall2 (fun a b => fst a = fst b /\ R (snd a) (snd b)) (combine l us) (combine l us').
  Proof.
    intros F. revert l. induction F; intros [|a l0]; simpl; constructor; auto.
  Qed.

  Theorem step_sim c1 c2 s1 s2 o1 o2 s1' : st_sim s1 s2 -> op_sim o1 o2 ->
    step c1 s1 o1 = (s1', None) -> exists s2', step c2 s2 o2 = (s2', None) /\ st_sim s1' s2'.
  Proof.
    intros S O H. destruct o1, o2; simpl in O; try contradiction.
    - (* channel *)
      destruct O as (<- & <- & <- & <-). simpl in *. unfold add_channel in *.
      destruct (flow && negb masked)%bool; [discriminate|]. injection H as <-.
      eexists. split; [reflexivity|].
      destruct S as ((A1 & A2 & A3 & A4 & A5) & A6 & A7 & A8 & A9 & A10). unfold st_sim. simpl.
      rewrite A3, A4. repeat split; auto; try tauto.
      intros c p. unfold upd1. destruct (String.eqb _ c); simpl; auto. 
    - (* process *)
      destruct O as (Hh & <- & <- & <- & Hv). simpl in *. unfold add_process in *.
      rewrite <- (check_sim s1 s2 h h0 ch S (hist_size _ _ Hh)).
      destruct (check_hist s1 h ch); [discriminate|].
      destruct (norm_dense s1 s2 ch name S) as [[A B]|(l1 & l2 & A & B)]; rewrite A in H; rewrite B; [|discriminate].
      destruct h as [v w|], h0 as [v' w'|]; simpl in Hh; try contradiction. destruct Hh as [L X].
      unfold store_norm in *. rewrite forallb_fin1 in H. rewrite forallb_fin2.
      unfold store_sumw2 in *.
      assert (SW : forall (l1 : list V1) (l2 : list V2), existsb neg l1 = existsb neg l2 ->
        match flat_variances l1 with Ok _ => true | _ => false end = match flat_variances l2 with Ok _ => true | _ => false end).
      { intros l1 l2 E. unfold flat_variances. rewrite E. destruct (existsb neg l2); auto. }
      assert (SV : match (match vars with Some l => flat_variances l | None => flat_variances w end) with Ok _ => true | _ => false end =
                   match (match vars0 with Some l => flat_variances l | None => flat_variances w' end) with Ok _ => true | _ => false end).
      { destruct vars, vars0; simpl in Hv; try contradiction; auto. }
      assert (S' : st_sim (set_logk (if signal then set_names s1 (set_add name (st_signals s1)) (st_bkgs s1) else set_names s1 (st_signals s1) (set_add name (st_bkgs s1)))
          (upd2 (st_logkavg (if signal then set_names s1 (set_add name (st_signals s1)) (st_bkgs s1) else set_names s1 (st_signals s1) (set_add name (st_bkgs s1)))) ch name [])
          (upd2 (st_logkhalf (if signal then set_names s1 (set_add name (st_signals s1)) (st_bkgs s1) else set_names s1 (st_signals s1) (set_add name (st_bkgs s1)))) ch name [])
          (st_symmetric (if signal then set_names s1 (set_add name (st_signals s1)) (st_bkgs s1) else set_names s1 (st_signals s1) (set_add name (st_bkgs s1)))))
        (set_logk (if signal then set_names s2 (set_add name (st_signals s2)) (st_bkgs s2) else set_names s2 (st_signals s2) (set_add name (st_bkgs s2)))
          (upd2 (st_logkavg (if signal then set_names s2 (set_add name (st_signals s2)) (st_bkgs s2) else set_names s2 (st_signals s2) (set_add name (st_bkgs s2)))) ch name [])
          (upd2 (st_logkhalf (if signal then set_names s2 (set_add name (st_signals s2)) (st_bkgs s2) else set_names s2 (st_signals s2) (set_add name (st_bkgs s2)))) ch name [])
          (st_symmetric (if signal then set_names s2 (set_add name (st_signals s2)) (st_bkgs s2) else set_names s2 (st_signals s2) (set_add name (st_bkgs s2)))))).
      { apply sim_logk. destruct S as ((A1 & A2 & A3 & A4 & A5) & A6). destruct signal; unfold st_sim; simpl; rewrite A1, A2; tauto. }
      revert H S'.
      generalize (set_logk (if signal then set_names s1 (set_add name (st_signals s1)) (st_bkgs s1) else set_names s1 (st_signals s1) (set_add name (st_bkgs s1)))
          (upd2 (st_logkavg (if signal then set_names s1 (set_add name (st_signals s1)) (st_bkgs s1) else set_names s1 (st_signals s1) (set_add name (st_bkgs s1)))) ch name [])
          (upd2 (st_logkhalf (if signal then set_names s1 (set_add name (st_signals s1)) (st_bkgs s1) else set_names s1 (st_signals s1) (set_add name (st_bkgs s1)))) ch name [])
          (st_symmetric (if signal then set_names s1 (set_add name (st_signals s1)) (st_bkgs s1) else set_names s1 (st_signals s1) (set_add name (st_bkgs s1))))) as t1.
      generalize (set_logk (if signal then set_names s2 (set_add name (st_signals s2)) (st_bkgs s2) else set_names s2 (st_signals s2) (set_add name (st_bkgs s2)))
          (upd2 (st_logkavg (if signal then set_names s2 (set_add name (st_signals s2)) (st_bkgs s2) else set_names s2 (st_signals s2) (set_add name (st_bkgs s2)))) ch name [])
          (upd2 (st_logkhalf (if signal then set_names s2 (set_add name (st_signals s2)) (st_bkgs s2) else set_names s2 (st_signals s2) (set_add name (st_bkgs s2)))) ch name [])
          (st_symmetric (if signal then set_names s2 (set_add name (st_signals s2)) (st_bkgs s2) else set_names s2 (st_signals s2) (set_add name (st_bkgs s2))))) as t2.
      intros t2 t1 H S'.
      destruct (match vars with Some l => flat_variances l | None => flat_variances w end) as [r1|]; [|discriminate].
      destruct (match vars0 with Some l => flat_variances l | None => flat_variances w' end) as [r2|]; [|discriminate].
      cbn [rbind] in *. rewrite forallb_fin1 in H. rewrite forallb_fin2. injection H as <-.
      eexists. split; [reflexivity|]. destruct S' as (A1 & A2 & A3 & A4 & A5 & A6). unfold st_sim. simpl.
      repeat split; try tauto; auto. intros c p. unfold upd2. destruct (String.eqb ch c); auto.
      destruct (String.eqb name p); simpl; auto.
    - (* data *)
      destruct O as (<- & L & X). simpl in *. unfold add_data in *.
      rewrite <- (check_sim s1 s2 (HDense vals vars) (HDense vals0 vars0) ch S L).
      destruct (check_hist _ _ _); [discriminate|].
      destruct S as (A1 & A2 & A3 & A4 & A5 & A6). pose proof (A3 ch) as D.
      destruct (st_data_obs s1 ch), (st_data_obs s2 ch); simpl in D; try discriminate.
      unfold flat_variances in *. rewrite <- X. destruct (existsb neg vars); [discriminate|]. injection H as <-.
      eexists. split; [reflexivity|]. unfold st_sim. simpl.
      split; [tauto|]. split; [tauto|]. split; [|split; [|split]]; auto;
        intros c; unfold upd1; destruct (String.eqb ch c); simpl; auto.
    - (* pseudodata *)
      destruct O as (<- & <- & L). simpl in *. unfold add_pseudodata in *.
      rewrite <- (check_sim s1 s2 (HDense vals vals) (HDense vals0 vals0) ch S L).
      destruct (check_hist _ _ _); [discriminate|].
      destruct S as ((B1 & B2 & B3 & B4 & B5) & A2 & A3 & A4 & A5 & A6). rewrite <- B5.
      set (nm := match name with Some n => n | None => _ end) in *. pose proof (A5 ch nm) as D.
      destruct (st_pseudodata s1 ch nm), (st_pseudodata s2 ch nm); simpl in D; try discriminate.
      injection H as <-. eexists. split; [reflexivity|]. unfold st_sim. simpl.
      split; [tauto|]. split; [tauto|]. split; [|split; [|split]]; auto.
      intros c n. unfold upd2. destruct (String.eqb ch c); simpl; auto. destruct (String.eqb nm n); auto.
    - (* systematic *)
      destruct O as (<- & <- & <- & <- & <- & <- & <- & Hh). simpl in *. unfold add_systematic in *.
      destruct (norm_dense s1 s2 ch p S) as [[A B]|(l1 & l2 & A & B)]; rewrite A in H; rewrite B; [discriminate|].
      destruct h, h0; try contradiction.
      + rewrite <- (check_sim s1 s2 h h0 ch S (hist_size _ _ Hh)).
        destruct mirror; [|discriminate]. destruct (check_hist _ _ _); [discriminate|].
        simpl in *. unfold get_logk in *. rewrite forallb_fin1 in H. rewrite forallb_fin2. injection H as <-.
        eexists. split; [reflexivity|]. apply sim_systematic, sim_logk. auto.
      + destruct Hh as [Hu Hd].
        rewrite <- (check_sim s1 s2 up up0 ch S (hist_size _ _ Hu)). rewrite <- (check_sim s1 s2 dn dn0 ch S (hist_size _ _ Hd)).
        destruct (check_hist s1 up ch); [discriminate|]. destruct (check_hist s1 dn ch); [discriminate|].
        cbn [syst_vals rbind norm_vals] in *. unfold get_logk in *. rewrite !forallb_fin1 in H. rewrite !forallb_fin2.
        cbn [rbind] in *.
        match type of H with context [compute_asym_syst ?a ?b ?c ?d ?e ?f ?g ?h ?i ?j] =>
          match goal with |- context [compute_asym_syst ?a' ?b' ?c' ?d' ?e' ?f' ?g' ?h' ?i' ?j'] =>
            pose proof (sim_asym a a' b b' c c' d e d' e' f g h i j S) as [Q1 Q2];
            destruct (compute_asym_syst a b c d e f g h i j) as [t1 r1];
            destruct (compute_asym_syst a' b' c' d' e' f' g' h' i' j') as [t2 r2] end end.
        simpl in Q1, Q2. injection H as <-. eexists. split; [reflexivity|]. rewrite Q2.
        apply sim_systematic, sim_logk. auto.
    - (* norm systematic *)
      destruct O as (<- & <- & <- & <- & <- & U). simpl in *. unfold add_norm_systematic in *.
      assert (LU : List.length unc = List.length unc0) by (clear - U; induction U; simpl; auto).
      rewrite <- LU. destruct (_ && _)%bool; [discriminate|].
      destruct (norm_loop c1 s1 name ch m kw (combine procs unc) name) as [t1 [r|e]] eqn:NL; [|discriminate].
      injection H as <-. destruct (loop_sim c1 c2 name ch m kw _ _ s1 s2 name t1 r (Forall2_combine _ procs _ _ U) S NL) as (t2 & -> & Q).
      eexists. split; [reflexivity|]. apply sim_systematic. auto.
  Qed.

  Theorem run_sim c1 c2 ops1 ops2 : Forall2 op_sim ops1 ops2 -> forall s1 s2 s1', st_sim s1 s2 ->
    run c1 s1 ops1 = Ok s1' -> exists s2', run c2 s2 ops2 = Ok s2' /\ st_sim s1' s2'.
  Proof.
    induction 1 as [|o1 o2 l1 l2 O F IH]; intros s1 s2 s1' S H; simpl in *.
    - injection H as <-. eauto.
    - destruct (step c1 s1 o1) as [t1 [e|]] eqn:E; [discriminate|].
      destruct (step_sim c1 c2 s1 s2 o1 o2 t1 S O E) as (t2 & -> & S2). eauto.
  Qed.
  Lemma st_sim_init : st_sim init_state init_state.
  Proof. unfold st_sim. simpl. repeat split; auto. Qed.

  Lemma fill_data_sim s1 s2 d1 d2 : st_sim s1 s2 -> (forall c, isS (d1 c) = isS (d2 c)) ->
    forall a1, fill_data s1 d1 = Ok a1 -> exists a2, fill_data s2 d2 = Ok a2.
  Proof.
    intros ((_ & _ & E1 & E2 & _) & _) D a1. unfold fill_data, unmasked_offsets, chan_offsets. rewrite E1, E2.
    generalize (filter (fun co : string * (nat * nat) => match dget (fst co) (st_channels s2) with
       | Some i => negb (ch_masked i) | None => false end) (offsets (st_nbinschan s2) 0 (dkeys (st_channels s2)))).
    intros l. generalize (fun _ : nat => n0 (V := V1)) (fun _ : nat => n0 (V := V2)).
    induction l as [|[c [ib n]] l IH]; intros f g H; simpl in *; eauto.
    specialize (D c). destruct (d1 c), (d2 c); simpl in D; try discriminate.
    - eauto.
    - exfalso. clear -H. induction l as [|[? [? ?]] l IH]; simpl in H; [discriminate|auto].
  Qed.
  Lemma fill_pseudo_sim s1 s2 : st_sim s1 s2 -> forall a1, fill_pseudo s1 = Ok a1 -> exists a2, fill_pseudo s2 = Ok a2.
  Proof.
    intros ((_ & _ & E1 & E2 & E3) & _ & _ & _ & D & _) a1. unfold fill_pseudo, unmasked_offsets, chan_offsets. rewrite E1, E2, E3.
    generalize (filter (fun co : string * (nat * nat) => match dget (fst co) (st_channels s2) with
       | Some i => negb (ch_masked i) | None => false end) (offsets (st_nbinschan s2) 0 (dkeys (st_channels s2)))).
    intros l. generalize (zeros2 (V := V1)) (zeros2 (V := V2)).
    assert (RS : forall A B (f : result A -> B -> result A) l e, (forall e b, exists e', f (Raise e) b = Raise e') ->
       exists e', fold_left f l (Raise e) = Raise e').
    { intros A B f l0. induction l0; simpl; eauto. intros e Hf. destruct (Hf e a) as [e' ->]. auto. }
    assert (IN : forall c ib n ps (f : arr2 (V := V1)) (g : arr2 (V := V2)) r,
      fold_left (fun r2 in_ => a2 <- r2 ;;
        match st_pseudodata s1 c (snd in_) with
        | Some l => Ok (block2 ib n (fst in_) l a2)
        | None => Raise KeyError
        end) ps (Ok f) = Ok r -> exists r',
      fold_left (fun r2 (in_ : nat * string) => a2 <- r2 ;;
        match st_pseudodata s2 c (snd in_) with
        | Some l => Ok (block2 ib n (fst in_) l a2)
        | None => Raise KeyError
        end) ps (Ok g) = Ok r').
    { intros c ib n. induction ps as [|[k x] ps IH]; intros f g r H; simpl in *; eauto.
      specialize (D c x). destruct (st_pseudodata s1 c x), (st_pseudodata s2 c x); simpl in D; try discriminate; eauto.
      exfalso. edestruct RS as [e' R]; [|rewrite R in H; discriminate]. simpl. eauto. }
    induction l as [|[c [ib n]] l IH]; intros f g H; cbn [fold_left rbind] in *; eauto.
    match type of H with fold_left _ _ ?x = _ => destruct x as [y|e] eqn:Y end.
    - destruct (IN _ _ _ _ _ g _ Y) as [y' ->]. eauto.
    - exfalso. edestruct RS as [e' R]; [|rewrite R in H; discriminate]. intros. destruct b as [? [? ?]]. simpl. eauto.
  Qed.
End Accept.

Section AcceptWrite.
  Context {V1 : Type} {N1 : Num V1} {V2 : Type} {N2 : Num V2} {L2 : NumLaws V2}.
  Hypothesis F1 : forall v : V1, nfinite v = true.
  Hypothesis F2 : forall v : V2, nfinite v = true.

  (** a script written with one set of numbers and storage mode is also written with any other
      numbers of the same shape and any storage mode, with the same axes *)
  Theorem written_sim c1 c2 (ops1 : list (op V1)) (ops2 : list (op V2)) w1 :
    Forall2 op_sim ops1 ops2 -> clean ops2 -> written c1 ops1 w1 ->
    exists w2, written c2 ops2 w2 /\ w_procs w1 = w_procs w2 /\ w_systs w1 = w_systs w2 /\
      w_channels w1 = w_channels w2 /\ w_nbins w1 = w_nbins w2 /\ w_nbinsfull w1 = w_nbinsfull w2.
  Proof.
    intros O (C1 & C2 & C3 & C4) (s1 & R1 & W1).
    destruct (run_sim F1 F2 c1 c2 ops1 ops2 O _ _ _ st_sim_init R1) as (s2 & R2 & S).
    destruct (write_fields c1 s1 w1 W1) as (E1 & E2 & E3 & E4 & E5 & E6 & _ & EG & EN & _ & _ & _ & _ & _ & ED & EV & _ & EP & DJ & _).
    destruct (fill_data_sim s1 s2 _ (st_data_obs s2) S ltac:(apply S) _ ED) as [d2 D2].
    destruct (fill_data_sim s1 s2 _ (st_data_var s2) S ltac:(apply S) _ EV) as [v2 D3].
    destruct (fill_pseudo_sim s1 s2 S _ EP) as [p2 P2].
    assert (NS := get_systs_NoDup c2 ops2 s2 R2 C4).
    destruct (run_Inv_init c2 ops2 s2 R2 C1 (once_stable _ C3)) as [IV K].
    assert (KS : forall c p s, In s (dkeys (st_logkavg s2 c p)) -> In s (get_systs s2)).
    { intros c p s H. unfold get_systs, natural_sort. rewrite in_app_iff, !sort_in.
      destruct (K c p s H) as [[]|[H1|H1]]; auto. }
    destruct S as ((A1 & A2 & A3 & A4 & A5) & (A6 & A7 & A8 & A9) & _).
    assert (GS : get_systs s1 = get_systs s2) by (unfold get_systs; rewrite A7, A9; auto).
    assert (GN : get_noiidxs s1 = get_noiidxs s2) by (unfold get_noiidxs; rewrite GS, A8; auto).
    assert (GG : get_systgroups s1 = get_systgroups s2) by (unfold get_systgroups; rewrite GS, A6; auto).
    assert (NSG : existsb (fun s => smem s (st_bkgs s2)) (st_signals s2) = false).
    { apply not_true_iff_false. intros X. apply existsb_exists in X. destruct X as (x & X1 & X2). apply smem_In in X2.
      rewrite A1, A2 in DJ. eapply DJ; eauto. }
    assert (W2 : exists w2, write c2 s2 = Ok w2).
    { unfold write. rewrite NSG, D2, D3, P2. cbn [rbind].
      destruct (c_sparse c2).
      - rewrite (write_sparse_eq c2 s2 IV _ (get_systs s2) NS KS). cbn [rbind].
        rewrite <- GN, EN, <- GG, EG. cbn [rbind]. eauto.
      - cbn [rbind]. rewrite <- GN, EN, <- GG, EG. cbn [rbind]. eauto. }
    destruct W2 as [w2 W2]. exists w2. split. { exists s2. auto. }
    destruct (write_fields c2 s2 w2 W2) as (G1 & G2 & G3 & G4 & G5 & G6 & _).
    rewrite E1, E2, E3, E4, E6, G1, G2, G3, G4, G6. unfold nbins_of. rewrite GS, A1, A2, A3, A4. auto.
  Qed.
End AcceptWrite.

(** observing an accepted script *)
Definition observe {V A} {NV : Num V} (cfg : config) (ops : list (op V)) (f : workspace V -> A) : option A :=
  match (st <- run cfg init_state ops ;; write cfg st) with Ok w => Some (f w) | Raise _ => None end.
Lemma observe_written {V A} {NV : Num V} cfg (ops : list (op V)) (f : workspace V -> A) x :
  observe cfg ops f = Some x -> exists w, written cfg ops w /\ f w = x.
Proof.
  unfold observe, written. destruct (run cfg init_state ops) as [st|]; [|discriminate]. simpl.
  destruct (write cfg st) as [w|] eqn:W; [|discriminate]. intros H. injection H as <-. exists w. split; auto. exists st. auto.
Qed.
