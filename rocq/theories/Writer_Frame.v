(** Which parts of the writer state an operation can change. *)
From Coq Require Import List Arith Bool String Lia.
From Verif Require Import PyList PyDict Num Names_Model Writer_Model Writer_Spec.
Import ListNotations.
Local Open Scope string_scope.
Local Open Scope list_scope.

Section Frame.
  Context {V : Type} {NV : Num V}.

  (** everything but systematics and variations *)
  Definition base (st : state V) :=
    (st_signals st, st_bkgs st, st_channels st, st_nbinschan st, st_pseudonames st,
     (st_data_obs st, st_data_var st, st_pseudodata st, st_norm st, st_sumw2 st)).
  (** the declared systematics *)
  Definition sysp (st : state V) :=
    (st_systgroups st, st_standard st, st_noi st, st_noconstraint st).
  (** effect of one systematic declaration on them *)
  Definition bookp (sp : dict (list string) * list string * list string * list string)
    (d : string * kwargs) :=
    let '(g, std, noi, unc) := sp in
    let (name, kw) := d in
    (fold_left (fun d g => dset g (set_add name (match dget g d with Some m => m | None => [] end)) d)
       (groups_of name kw) g,
     if kw_constrained kw then set_add name std else std,
     if kw_noi kw then set_add name noi else noi,
     if kw_constrained kw then unc else set_add name unc).

  Lemma base_book_avg cfg st nm v ch p s : base (book_avg cfg st nm v ch p s) = base st.
  Proof. reflexivity. Qed.
  Lemma base_book_half cfg st nm v ch p s : base (book_half cfg st nm v ch p s) = base st.
  Proof. reflexivity. Qed.
  Lemma base_book_systematic st s kw : base (book_systematic st s kw) = base st.
  Proof. reflexivity. Qed.
  Lemma base_asym cfg st nm u d n p ch m kw :
    base (fst (compute_asym_syst cfg st nm u d n p ch m kw)) = base st.
  Proof. destruct m; reflexivity. Qed.
  Lemma sysp_book_avg cfg st nm v ch p s : sysp (book_avg cfg st nm v ch p s) = sysp st.
  Proof. reflexivity. Qed.
  Lemma sysp_book_systematic st s kw : sysp (book_systematic st s kw) = bookp (sysp st) (s, kw).
  Proof. reflexivity. Qed.

  Lemma base_norm_loop cfg name ch m kw : forall pus st vn,
    base (fst (norm_loop cfg st name ch m kw pus vn)) = base st.
  Proof.
    induction pus as [|[p u] pus IH]; intros st vn; simpl; auto.
    destruct (st_norm st ch p) as [nm|]; auto. destruct u; simpl; auto.
    - destruct (get_logk _ _ _ _); simpl; auto. rewrite IH. apply base_book_avg.
    - destruct (get_logk _ _ _ _); simpl; auto. destruct (get_logk _ _ _ _); simpl; auto.
      destruct m; simpl; auto; rewrite IH; apply base_book_avg.
  Qed.
  Lemma sysp_norm_loop cfg name ch m kw : forall pus st vn,
    sysp (fst (norm_loop cfg st name ch m kw pus vn)) = sysp st.
  Proof.
    induction pus as [|[p u] pus IH]; intros st vn; simpl; auto.
    destruct (st_norm st ch p) as [nm|]; auto. destruct u; simpl; auto.
    - destruct (get_logk _ _ _ _); simpl; auto. rewrite IH. apply sysp_book_avg.
    - destruct (get_logk _ _ _ _); simpl; auto. destruct (get_logk _ _ _ _); simpl; auto.
      destruct m; simpl; auto; rewrite IH; apply sysp_book_avg.
  Qed.
  Lemma norm_loop_name cfg name ch m kw : forall pus st st' vn,
    norm_loop cfg st name ch m kw pus name = (st', Ok vn) -> vn = name.
  Proof.
    induction pus as [|[p u] pus IH]; intros st st' vn; simpl. { congruence. }
    destruct (st_norm st ch p) as [nm|]; [|congruence]. destruct u; simpl; [| |congruence].
    - destruct (get_logk _ _ _ _); simpl; [|congruence]. apply IH.
    - destruct (get_logk _ _ _ _); simpl; [|congruence]. destruct (get_logk _ _ _ _); simpl; [|congruence].
      destruct m; try congruence; apply IH.
  Qed.

  Ltac inv H := injection H as <-; try subst.

  (** inversion of a successful add_systematic *)
  Lemma add_systematic_inv cfg st h n p ch kf mi m ad kw st' :
    add_systematic cfg st h n p ch kf mi m ad kw = (st', None) ->
    exists nm, st_norm st ch p = Some nm /\
    match h with
    | SPair hu hd =>
        check_hist st hu ch = None /\ check_hist st hd ch = None /\
        exists u d ku kd,
          syst_vals nm hu = Ok u /\ syst_vals nm hd = Ok d /\
          get_logk (c_type cfg) kf (shift ad (norm_vals nm) u) (norm_vals nm) = Ok ku /\
          get_logk (c_type cfg) kf (shift ad (norm_vals nm) d) (norm_vals nm) = Ok kd /\
          let (st1, r) := compute_asym_syst cfg st nm ku (map nopp kd) n p ch m kw in
          st' = book_systematic (book_avg cfg st1 nm (fst r) ch p (snd r)) (snd r) kw
    | SSingle h1 =>
        mi = true /\ check_hist st h1 ch = None /\
        exists s k, syst_vals nm h1 = Ok s /\
          get_logk (c_type cfg) kf (shift ad (norm_vals nm) s) (norm_vals nm) = Ok k /\
          st' = book_systematic (book_avg cfg st nm k ch p n) n kw
    end.
  Proof.
    unfold add_systematic. destruct (st_norm st ch p) as [nm|]; [|congruence]. intros H. exists nm. split; auto.
    destruct h as [h1|hu hd].
    - destruct mi; [|congruence]. destruct (check_hist st h1 ch); [congruence|].
      destruct (syst_vals nm h1) as [s|] eqn:E1; simpl in H; [|congruence].
      destruct (get_logk _ _ _ _) as [k|] eqn:E2; [|congruence].
      inv H. repeat split; auto. exists s, k. auto.
    - destruct (check_hist st hu ch); [destruct (check_hist st hd ch); congruence|].
      destruct (check_hist st hd ch); [congruence|].
      destruct (syst_vals nm hu) as [u|] eqn:E1; simpl in H; [|congruence].
      destruct (syst_vals nm hd) as [d|] eqn:E2; simpl in H; [|congruence].
      destruct (get_logk (c_type cfg) kf (shift ad (norm_vals nm) u) _) as [ku|] eqn:E3; simpl in H; [|congruence].
      destruct (get_logk (c_type cfg) kf (shift ad (norm_vals nm) d) _) as [kd|] eqn:E4; simpl in H; [|congruence].
      repeat split; auto. exists u, d, ku, kd. repeat split; auto.
      destruct (compute_asym_syst _ _ _ _ _ _ _ _ _ _) as [st1 r]. inv H. auto.
  Qed.

  Lemma base_add_systematic cfg st h n p ch kf mi m ad kw st' :
    add_systematic cfg st h n p ch kf mi m ad kw = (st', None) -> base st' = base st.
  Proof.
    intros H. apply add_systematic_inv in H. destruct H as (nm & _ & H). destruct h.
    - destruct H as (_ & _ & s & k & _ & _ & ->). reflexivity.
    - destruct H as (_ & _ & u & d & ku & kd & _ & _ & _ & _ & H).
      pose proof (base_asym cfg st nm ku (map nopp kd) n p ch m kw) as B.
      destruct (compute_asym_syst _ _ _ _ _ _ _ _ _ _) as [st1 r]. subst. simpl in B. exact B.
  Qed.
  Lemma sysp_add_systematic cfg st h n p ch kf mi m ad kw st' :
    add_systematic cfg st h n p ch kf mi m ad kw = (st', None) ->
    sysp st' = fold_left bookp (syst_decls (AddSystematic h n p ch kf mi m ad kw)) (sysp st).
  Proof.
    intros H. apply add_systematic_inv in H. destruct H as (nm & _ & H). destruct h.
    - destruct H as (_ & _ & s & k & _ & _ & ->). reflexivity.
    - destruct H as (_ & _ & u & d & ku & kd & _ & _ & _ & _ & H).
      destruct m; simpl in H; subst; reflexivity.
  Qed.

  Lemma add_norm_inv cfg st n ps ch us m kw st' :
    add_norm_systematic cfg st n ps ch us m kw = (st', None) ->
    (List.length us = 1 \/ List.length ps = List.length us) /\
    exists st1, norm_loop cfg st n ch m kw (combine ps us) n = (st1, Ok n) /\
                st' = book_systematic st1 n kw.
  Proof.
    unfold add_norm_systematic.
    destruct (negb (Nat.eqb (List.length us) 1) && negb (Nat.eqb (List.length ps) (List.length us))) eqn:E; [congruence|].
    destruct (norm_loop cfg st n ch m kw (combine ps us) n) as [st1 [vn|e]] eqn:L; [|congruence].
    intros H. inv H. assert (vn = n) by (eapply norm_loop_name; eauto). subst. split.
    - apply andb_false_iff in E. destruct E as [E|E]; apply negb_false_iff, Nat.eqb_eq in E; auto.
    - eauto.
  Qed.

  (** *** processes and channels *)
  Lemma add_process_inv cfg st h n ch sg vs st' :
    add_process cfg st h n ch sg vs = (st', None) ->
    check_hist st h ch = None /\ st_norm st ch n = None /\
    exists nm w, store_norm cfg h = Ok nm /\ store_sumw2 h vs = Ok w /\
      st_norm st' = upd2 (st_norm st) ch n (Some nm) /\
      st_sumw2 st' = upd2 (st_sumw2 st) ch n (Some w) /\
      st_logkavg st' = upd2 (st_logkavg st) ch n [] /\
      st_logkhalf st' = upd2 (st_logkhalf st) ch n [] /\
      st_signals st' = (if sg then set_add n (st_signals st) else st_signals st) /\
      st_bkgs st' = (if sg then st_bkgs st else set_add n (st_bkgs st)) /\
      st_channels st' = st_channels st /\ st_nbinschan st' = st_nbinschan st /\
      st_symmetric st' = st_symmetric st /\ sysp st' = sysp st /\
      st_data_obs st' = st_data_obs st /\ st_data_var st' = st_data_var st /\
      st_pseudodata st' = st_pseudodata st /\ st_pseudonames st' = st_pseudonames st.
  Proof.
    unfold add_process. destruct (check_hist st h ch); [congruence|].
    destruct (st_norm st ch n); [congruence|].
    destruct (store_norm cfg h) as [nm|]; [|congruence]. destruct (store_sumw2 h vs) as [w|]; [|congruence].
    intros H. inv H. repeat split; auto. exists nm, w. destruct sg; repeat split; auto.
  Qed.

  Lemma step_base cfg st o st' : step cfg st o = (st', None) ->
    match o with
    | AddChannel _ _ _ _ | AddProcess _ _ _ _ _ => True
    | AddData _ _ _ | AddPseudodata _ _ _ =>
        st_signals st' = st_signals st /\ st_bkgs st' = st_bkgs st /\
        st_channels st' = st_channels st /\ st_nbinschan st' = st_nbinschan st /\
        st_norm st' = st_norm st /\ st_sumw2 st' = st_sumw2 st /\
        st_logkavg st' = st_logkavg st /\ st_logkhalf st' = st_logkhalf st /\
        st_symmetric st' = st_symmetric st
    | _ => base st' = base st
    end.
  Proof.
    destruct o; simpl; auto.
    - unfold add_data. destruct (check_hist _ _ _); [congruence|]. destruct (st_data_obs _ _); [congruence|].
      destruct (flat_variances _); [|congruence]. intros H. inv H. repeat split; auto.
    - unfold add_pseudodata. destruct (check_hist _ _ _); [congruence|].
      destruct (st_pseudodata _ _ _); [congruence|]. intros H. inv H. repeat split; auto.
    - intros H. eapply base_add_systematic; eauto.
    - intros H. apply add_norm_inv in H. destruct H as (_ & st1 & L & ->).
      rewrite base_book_systematic.
      pose proof (base_norm_loop cfg name ch m kw (combine procs unc) st name) as B.
      rewrite L in B. auto.
  Qed.

  Lemma step_sysp cfg st o st' : step cfg st o = (st', None) ->
    sysp st' = fold_left bookp (syst_decls o) (sysp st).
  Proof.
    destruct o; simpl.
    - unfold add_channel. destruct (_ && _); [congruence|]. intros H. inv H. reflexivity.
    - intros H. apply add_process_inv in H. destruct H as (_ & _ & nm & w & H). apply H.
    - unfold add_data. destruct (check_hist _ _ _); [congruence|]. destruct (st_data_obs _ _); [congruence|].
      destruct (flat_variances _); [|congruence]. intros H. inv H. reflexivity.
    - unfold add_pseudodata. destruct (check_hist _ _ _); [congruence|].
      destruct (st_pseudodata _ _ _); [congruence|]. intros H. inv H. reflexivity.
    - apply sysp_add_systematic.
    - intros H. apply add_norm_inv in H. destruct H as (_ & st1 & L & ->).
      rewrite sysp_book_systematic.
      pose proof (sysp_norm_loop cfg name ch m kw (combine procs unc) st name) as B.
      rewrite L in B. simpl in B. rewrite B. reflexivity.
  Qed.

  Lemma run_cons cfg st o ops st' : run cfg st (o :: ops) = Ok st' ->
    exists st1, step cfg st o = (st1, None) /\ run cfg st1 ops = Ok st'.
  Proof. simpl. destruct (step cfg st o) as [st1 [e|]]; [discriminate|]. eauto. Qed.
  Lemma run_app cfg st ops1 ops2 st' : run cfg st (ops1 ++ ops2) = Ok st' ->
    exists st1, run cfg st ops1 = Ok st1 /\ run cfg st1 ops2 = Ok st'.
  Proof.
    revert st. induction ops1 as [|o ops1 IH]; intros st H. { exists st. auto. }
    apply run_cons in H. destruct H as (s & H1 & H2). apply IH in H2. destruct H2 as (s1 & H2 & H3).
    exists s1. split; auto. simpl. rewrite H1. auto.
  Qed.

  Lemma run_sysp cfg ops : forall st st', run cfg st ops = Ok st' ->
    sysp st' = fold_left bookp (all_systs ops) (sysp st).
  Proof.
    induction ops as [|o ops IH]; intros st st' H. { simpl in *. congruence. }
    apply run_cons in H. destruct H as (s & H1 & H2).
    unfold all_systs. simpl. rewrite fold_left_app. rewrite <- (step_sysp _ _ _ _ H1). apply IH. auto.
  Qed.

  (** process names *)
  Definition bookproc (sb : list string * list string) (d : string * bool) :=
    if snd d then (set_add (fst d) (fst sb), snd sb) else (fst sb, set_add (fst d) (snd sb)).
  Lemma run_procs cfg ops : forall st st', run cfg st ops = Ok st' ->
    (st_signals st', st_bkgs st') = fold_left bookproc (proc_decls ops) (st_signals st, st_bkgs st).
  Proof.
    induction ops as [|o ops IH]; intros st st' H. { simpl in *. congruence. }
    apply run_cons in H. destruct H as (s & H1 & H2).
    unfold proc_decls. simpl. rewrite fold_left_app. rewrite (IH _ _ H2). clear IH H2.
    pose proof (step_base _ _ _ _ H1) as B.
    destruct o; cbn [fold_left].
    - simpl in H1. unfold add_channel in H1. destruct (_ && _); [congruence|]. inv H1. reflexivity.
    - simpl in H1. apply add_process_inv in H1.
      destruct H1 as (_ & _ & nm & w & _ & _ & _ & _ & _ & _ & -> & -> & _).
      unfold bookproc. simpl. destruct signal; reflexivity.
    - destruct B as (-> & -> & _). reflexivity.
    - destruct B as (-> & -> & _). reflexivity.
    - unfold base in B. f_equal. congruence.
    - unfold base in B. f_equal. congruence.
  Qed.
End Frame.
