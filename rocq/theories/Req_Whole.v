(** Proofs about the stored results of a whole fit. *)
From Coq Require Import List Bool String.
From Verif Require Import PyList Req_Model Req_Spec Req_Proof.
Import ListNotations.
Local Open Scope string_scope.

Lemma pre_stored o ms k n :
  stored (pre_entries o ms) k n <->
  (k = None /\ n = "parms_prefit") \/
  (o_save o = true /\ exists m, In m ms /\ m_data m = true /\ (n = "hist_data_obs" \/ n = "hist_nobs") /\ k = Some (m_key m)) \/
  (o_save o = true /\ exists m, In m ms /\ m_skip_prefit m = false /\ hist_request o m true n /\ k = Some (m_key m)).
Proof.
  unfold pre_entries, save_observed. rewrite stored_cons, stored_app, !stored_when, !stored_flat. cbn [e_map e_name].
  split; (intros [H|[[S (m & H)]|[S (m & H)]]]; [left; exact H|right; left|right; right]); (split; [exact S|]); exists m.
  - destruct H as (I & H). rewrite stored_when, !stored_cons, stored_nil in H. cbn [e_map e_name] in H. intuition.
  - destruct H as (I & H). rewrite mapping_stored in H. destruct H as (K & P & H). auto.
  - destruct H as (I & D & N & K). split; [exact I|]. rewrite stored_when, !stored_cons, stored_nil. cbn [e_map e_name]. tauto.
  - destruct H as (I & D & N & K). split; [exact I|]. rewrite mapping_stored. auto.
Qed.
Lemma post_stored o ms dofit k n : hess_computed o dofit = true ->
  stored (post_entries o ms dofit) k n <->
  (k = None /\ fit_request o dofit n) \/ (o_save o = true /\ exists m, In m ms /\ hist_request o m false n /\ k = Some (m_key m)).
Proof.
  intros H. unfold post_entries. cbv zeta. rewrite H. cbn [when]. rewrite stored_app, fit_stored, stored_when, stored_flat. apply or_iff_compat_l. apply and_iff_compat_l.
  split; intros (m & I); exists m; destruct I as (I & J).
  - rewrite mapping_stored in J. tauto.
  - split; [exact I|]. rewrite mapping_stored. split; [tauto|]. split; [discriminate|tauto].
Qed.
Lemma computes_hess o dofit : computes_cov o dofit -> hess_computed o dofit = true.
Proof.
  intros (A & B & C). unfold hess_computed, loaded_cov. rewrite A, B. destruct dofit; [reflexivity|]. destruct C as [C|C]; [discriminate|].
  destruct (o_external o) as [[|]|]; [contradiction C|..]; reflexivity.
Qed.
Lemma ok_inj {A} (a b : A) : Ok a = Ok b -> a = b.
Proof. congruence. Qed.
Lemma stored_all o ms data l : let dofit := data && negb (o_noFit o) in computes_cov o dofit -> one_fit o ms data = Ok l ->
  forall k n, stored l k n <-> requested o ms dofit k n.
Proof.
  intros dofit C E k n. pose proof (computes_hess _ _ C) as HC. destruct C as (H & _). rewrite (one_fit_ok _ _ _ H) in E. fold dofit in E.
  assert (A : stored (pre_entries o ms) k n -> requested o ms dofit k n).
  { rewrite pre_stored. intros [[-> ->]|[[S (m & I & D & N & ->)]|[S (m & I & P & N & ->)]]]; [apply rq_parms|eapply rq_data|eapply rq_prefit]; eauto. }
  destruct (o_prefitOnly o) eqn:P.
  - apply ok_inj in E. subst l. split; [exact A|]. intros R. apply pre_stored. destruct R as [|m n S I D N|m n S I D N|m n S P' I N|n P' N]; [left; auto|right; left; split; [exact S|exists m; auto]|right; right; split; [exact S|exists m; auto]|congruence|congruence].
  - destruct (o_contour2 o); [discriminate|]. apply ok_inj in E. subst l. rewrite stored_app, (post_stored _ _ _ _ _ HC). split.
    + intros [R|[[-> R]|[S (m & I & R & ->)]]]; [apply A; exact R|apply rq_fit; assumption|eapply rq_postfit; eauto].
    + intros R. rewrite pre_stored. destruct R as [|m n S I D N|m n S I D N|m n S P' I N|n P' N];
        [left; left; auto|left; right; left; split; [exact S|exists m; auto]|left; right; right; split; [exact S|exists m; auto]|right; right; split; [exact S|exists m; auto]|right; left; auto].
Qed.

(** provenance *)
Definition good (P : entry -> Prop) (l : list entry) : Prop := forall e, In e l -> P e.
Lemma good_app (P : entry -> Prop) a b : good P a -> good P b -> good P (a ++ b).
Proof. intros A B e I. apply in_app_or in I. destruct I; auto. Qed.
Lemma good_cons (P : entry -> Prop) e l : P e -> good P l -> good P (e :: l).
Proof. intros A B x [<-|I]; auto. Qed.
Lemma good_nil (P : entry -> Prop) : good P [].
Proof. intros e []. Qed.
Lemma good_when (P : entry -> Prop) b l : good P l -> good P (when b l).
Proof. destruct b; [auto|intros _; apply good_nil]. Qed.
Lemma good_flat {A} (P : entry -> Prop) (f : A -> list entry) l : (forall x, good P (f x)) -> good P (flat_map f l).
Proof. intros H e I. apply in_flat_map in I. destruct I as (x & _ & I). exact (H x e I). Qed.
Lemma good_map (P : entry -> Prop) (f : string -> entry) l : (forall x, In x l -> P (f x)) -> good P (map f l).
Proof. intros H e I. apply in_map_iff in I. destruct I as (x & <- & I). exact (H x I). Qed.
Definition variations_name : string := "hist_prefit_inclusive_variations".
Definition pre_rule (e : entry) : Prop :=
  prefit_name (e_name e) = true /\ e_point e = AtStart /\ (e_cov e = NotUsed \/ e_cov e = From (if String.eqb (e_name e) variations_name then SUnit else SPrefit)).
Ltac goods := repeat match goal with |- good _ (_ ++ _) => apply good_app | |- good _ (_ :: _) => apply good_cons | |- good _ [] => apply good_nil | |- good _ (when _ _) => apply good_when end.
Lemma pre_good o ms : good pre_rule (pre_entries o ms).
Proof.
  unfold pre_entries, save_observed. goods; try (apply good_flat; intros m; unfold mapping_entries, inclusive_entries; cbv zeta; cbn [andb negb when]; goods).
  all: try destruct (o_errors o || o_cov o || o_himpacts o || o_hgaussian o); try destruct (o_perrors o); unfold pre_rule; cbn; auto.
Qed.
Definition post_rule (o : opts) (dofit : bool) (e : entry) : Prop :=
  prefit_name (e_name e) = false /\
  (lcurve_name (e_name e) = true -> e_point e = AtScan /\ e_cov e = NotUsed) /\
  (lcurve_name (e_name e) = false -> e_point e = final_point o dofit /\ (e_cov e = NotUsed \/ e_cov e = From (SHess (e_point e)))).
Lemma head_good o dofit : good (post_rule o dofit) (head_entries o dofit).
Proof. unfold head_entries. destruct dofit; cbn [andb when]; goods; unfold post_rule; cbn; auto; split; auto; split; auto; discriminate. Qed.
Ltac post1 := match goal with |- good _ _ => fail 1 | |- context [if ?b then _ else _] => destruct b | _ => idtac end; (split; [reflexivity|split; [intros E; discriminate E|intros _; split; [reflexivity|cbn; auto]]]).
Lemma post_good o ms dofit : hess_computed o dofit = true -> good (post_rule o dofit) (post_entries o ms dofit).
Proof.
  intros H. unfold post_entries, hess_entries, tail_entries, final_cov, parms_cov. cbv zeta. rewrite H. cbn [when]. goods; try post1; match goal with |- good _ (head_entries _ _) => apply head_good | _ => idtac end.
  - apply good_map. intros x I. apply in_scan in I. destruct I as [(x' & _ & ->)|(x' & y' & _ & ->)]; post1.
  - apply good_flat. intros m. unfold mapping_entries, inclusive_entries. cbv zeta. cbn [andb negb when]. goods; post1.
Qed.

(** without a covariance *)
Lemma check_iff o : o_noHessian o = true -> check_options o = None <-> accepted o.
Proof.
  intros H. unfold check_options, accepted. rewrite H. cbn [andb].
  destruct (o_impacts o), (o_variations o), (o_save o), (o_nochi2 o), (o_errors o), (o_perrors o), (o_cov o), (o_himpacts o), (o_hgaussian o); cbn; intuition discriminate.
Qed.
Lemma none_mapping o prefit m p : accepted o -> o_save o = true -> exists l, save_mapping o prefit m (mkS p None) = Ok (l, mkS p None).
Proof.
  intros (_ & A & B & C & D & E & F & G) S. specialize (B S). unfold save_mapping, save_inclusive, save_process, save_variations. rewrite A, B, C, D, E, F, G. cbn.
  destruct (prefit && m_skip_prefit m); [eauto|]. destruct (m_skip_inclusive m), (o_process o && negb (m_skip_process m)); cbn; eauto.
Qed.
Lemma none_hists o prefit ms p : accepted o -> o_save o = true -> exists l, save_hists o prefit ms (mkS p None) = Ok (l, mkS p None).
Proof.
  intros A S. induction ms as [|m ms (l & IH)]; cbn [save_hists]; [eauto|]. destruct (none_mapping o prefit m p A S) as (l' & ->). cbn [rbind snd fst]. rewrite IH. cbn. eauto.
Qed.
Lemma app_nil_iff {A} (a b : list A) : (a ++ b)%list = [] <-> a = [] /\ b = [].
Proof. split; [apply app_eq_nil|intros [-> ->]; reflexivity]. Qed.
Lemma none_tail o var p : (exists l, fit_tail o var (mkS p None) = Ok l) <->
  o_asym o = false /\ (o_globalasym o = true -> o_warmstart o = false) /\ ((o_scan o = [] /\ o_scan2 o = []) \/ o_useprefit o = true) /\ o_contour o = false /\ o_contour2 o = false.
Proof.
  unfold fit_tail, need. cbn [s_cov s_point]. fold (scan_names o). pose proof (scans_none o (scan_names o) p) as S.
  unfold scan_names in S at 2. rewrite app_nil_iff in S.
  assert (S2 : (map (fun p => "nll_scan_" ++ p) (o_scan o) = [] /\ map (fun p => "nll_scan2D_" ++ fst p ++ "_" ++ snd p) (o_scan2 o) = []) <-> o_scan o = [] /\ o_scan2 o = []).
  { destruct (o_scan o), (o_scan2 o); cbn; intuition discriminate. }
  rewrite S2 in S. clear S2.
  destruct (o_asym o); cbn [rbind]; [split; [intros (l & H); discriminate|intros (H & _); discriminate]|].
  destruct (o_globalasym o) eqn:G, (o_warmstart o) eqn:W; cbn [rbind]; try (split; [intros (l & H); discriminate|intros (_ & H & _); specialize (H eq_refl); discriminate]).
  all: destruct (scans o (scan_names o) (mkS p None)) as [r|x] eqn:E; cbn [rbind];
    [assert (T : (o_scan o = [] /\ o_scan2 o = []) \/ o_useprefit o = true) by (apply S; eauto); clear S
    |split; [intros (l & H); discriminate|intros (_ & _ & H & _); apply S in H; destruct H as (r & H); discriminate]].
  all: destruct (o_contour o), (o_contour2 o); cbn [rbind]; (split; [intros (l & H); try discriminate|intros (_ & _ & _ & H & H'); try discriminate; eauto]); auto.
Qed.
Lemma none_fit o dofit : (o_noHessian o = true) -> (exists r, fit o dofit (mkS AtStart None) = Ok r) <-> works_without o.
Proof.
  intros NH. unfold fit, works_without. destruct (loaded_cov o) eqn:L.
  - assert (X : o_external o = Some true) by (unfold loaded_cov in L; destruct (o_external o) as [[|]|]; congruence).
    unfold fit_head, load. rewrite X. cbn. split; [intros (r & H); discriminate|intros (H & _); contradiction H; reflexivity].
  - rewrite head_ok by (rewrite L; discriminate). cbn [rbind]. rewrite hess_ok. cbn [rbind]. rewrite L.
    assert (HC : hess_computed o dofit = false) by (unfold hess_computed; rewrite NH; cbn; apply andb_false_r). rewrite HC.
    match goal with |- context [fit_tail o ?v ?s] => pose proof (none_tail o v (final_point o dofit)) as T; destruct (fit_tail o v s) as [l|x] eqn:E end; cbn [rbind].
    + assert (X : o_external o <> Some true) by (intros X; unfold loaded_cov in L; rewrite X in L; discriminate).
      split; [intros _; split; [exact X|]; apply T; eauto|intros _; eauto].
    + split; [intros (r & H); discriminate|]. intros (_ & H). apply T in H. destruct H as (l & H). congruence.
Qed.
Lemma no_hessian o ms data : o_noHessian o = true ->
  (exists l, one_fit o ms data = Ok l) <-> accepted o /\ (o_prefitOnly o = true \/ works_without o).
Proof.
  intros NH. rewrite <- (check_iff o NH). unfold one_fit. destruct (check_options o) eqn:C.
  { split; [intros (l & H); discriminate|intros [H _]; discriminate]. }
  apply (check_iff o NH) in C. unfold start. rewrite NH.
  assert (Hh : forall prefit p, exists l, (if o_save o then save_hists o prefit ms (mkS p None) else Ok ([], mkS p None)) = Ok (l, mkS p None)).
  { intros prefit p. destruct (o_save o) eqn:S; [apply none_hists; assumption|eauto]. }
  destruct (Hh true AtStart) as (l & ->). cbn [rbind snd fst]. destruct (o_prefitOnly o); [split; eauto|].
  pose proof (none_fit o (data && negb (o_noFit o)) NH) as F. destruct (fit o (data && negb (o_noFit o)) (mkS AtStart None)) as [[lf s]|x] eqn:E; cbn [rbind snd fst].
  - assert (Sx : exists q, s = mkS q None).
    { unfold fit in E. rewrite head_ok in E.
      - cbn [rbind] in E. rewrite hess_ok in E. cbn [rbind] in E.
        assert (W : works_without o) by (apply F; eauto).
        assert (L : loaded_cov o = false) by (destruct W as (W & _); unfold loaded_cov; destruct (o_external o) as [[|]|]; congruence). rewrite L in E.
        assert (HC : hess_computed o (data && negb (o_noFit o)) = false) by (unfold hess_computed; rewrite NH; cbn; apply andb_false_r). rewrite HC in E.
        match type of E with context [fit_tail ?a ?b ?c] => destruct (fit_tail a b c) end; [|discriminate]. cbn [rbind] in E. apply ok_inj in E. injection E as _ <-. eauto.
      - intros L. assert (W : works_without o) by (apply F; eauto). destruct W as (W & _). unfold loaded_cov in L. destruct (o_external o) as [[|]|]; congruence. }
    destruct Sx as (q & ->). destruct (Hh false q) as (l2 & ->). cbn [rbind]. split; [intros _|eauto]. split; [reflexivity|right]. apply F. eauto.
  - split; [intros (r & H); discriminate|]. intros (_ & [H|H]); [discriminate|]. apply F in H. destruct H as (r & H). discriminate.
Qed.
