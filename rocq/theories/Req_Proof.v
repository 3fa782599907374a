(** Proofs about the stored results. *)
From Coq Require Import List Bool String.
From Verif Require Import PyList Req_Model Req_Spec.
Import ListNotations.
Local Open Scope string_scope.

Lemma in_when {A} b (l : list A) x : In x (when b l) <-> b = true /\ In x l.
Proof. destruct b; cbn; intuition discriminate. Qed.
Lemma stored_app a b k n : stored (a ++ b) k n <-> stored a k n \/ stored b k n.
Proof. unfold stored. split; [intros (e & I & H); apply in_app_or in I; destruct I; [left|right]; eauto|intros [(e & I & H)|(e & I & H)]; exists e; split; auto; apply in_or_app; auto]. Qed.
Lemma stored_nil k n : stored [] k n <-> False.
Proof. split; [intros (e & [] & _)|tauto]. Qed.
Lemma stored_cons e l k n : stored (e :: l) k n <-> (k = e_map e /\ n = e_name e) \/ stored l k n.
Proof. unfold stored. split; [intros (x & [<-|I] & H & H'); eauto|intros [[H H']|(x & I & H)]; [exists e|exists x]; cbn; auto]. Qed.
Lemma stored_when b l k n : stored (when b l) k n <-> b = true /\ stored l k n.
Proof. destruct b; cbn [when]; [tauto|rewrite stored_nil; intuition discriminate]. Qed.
Lemma and3 a b c : a && b && c = true <-> a = true /\ b = true /\ c = true.
Proof. rewrite !andb_true_iff. tauto. Qed.
Lemma neg_t b : negb b = true <-> b = false.
Proof. destruct b; cbn; intuition discriminate. Qed.
Lemma iff_app a b k n A B : (stored a k n <-> A) -> (stored b k n <-> B) -> (stored (a ++ b) k n <-> A \/ B).
Proof. rewrite stored_app. tauto. Qed.
Lemma iff_cons e l k n A : (stored l k n <-> A) -> (stored (e :: l) k n <-> (k = e_map e /\ n = e_name e) \/ A).
Proof. rewrite stored_cons. tauto. Qed.
Lemma iff_when b l k n A B : (b = true <-> A) -> (stored l k n <-> B) -> (stored (when b l) k n <-> A /\ B).
Proof. rewrite stored_when. tauto. Qed.
Lemma iff_and a b A B : (a = true <-> A) -> (b = true <-> B) -> (a && b = true <-> A /\ B).
Proof. rewrite andb_true_iff. tauto. Qed.
(** expands membership in a list that is written out *)
Ltac st := eapply iff_trans; [repeat first [apply stored_nil|apply iff_app|apply iff_cons|apply iff_when|apply iff_and|apply neg_t|apply iff_refl]|cbn [e_map e_name]].

(** with a covariance every step succeeds; the lists written out *)
Definition inclusive_entries (o : opts) (m : mapping) (prefit : bool) (p : point) (c : source) : list entry :=
  (let e n u := mkE (Some (m_key m)) n p u in let name := hist_name prefit false false in
   let u := if o_errors o || o_cov o || o_himpacts o || o_hgaussian o then From c else NotUsed in
   e name u :: when (o_himpacts o) [e (name ++ "_global_impacts")%string u; e (name ++ "_global_impacts_grouped")%string u] ++
   when (o_hgaussian o) [e (name ++ "_gaussian_global_impacts")%string u; e (name ++ "_gaussian_global_impacts_grouped")%string u] ++
   when (o_cov o) [e (name ++ "_cov")%string u] ++ when (negb (o_nochi2 o) && m_data m) [e (if prefit then "ndf_prefit" else "ndf") NotUsed; e (if prefit then "chi2_prefit" else "chi2") (From c)] ++
   when (negb prefit && m_project m && o_saturated o) (e "ndf_saturated" NotUsed :: e "chi2_saturated" NotUsed :: when (negb (o_noHessian o)) [e "edmval_saturated" NotUsed]))%list.
Definition mapping_entries (o : opts) (prefit : bool) (m : mapping) (p : point) (c : source) : list entry :=
  when (negb (prefit && m_skip_prefit m))
    (when (negb (m_skip_inclusive m)) (inclusive_entries o m prefit p c) ++
     when (o_process o && negb (m_skip_process m)) [mkE (Some (m_key m)) (hist_name prefit false true) p (if o_perrors o then From c else NotUsed)] ++
     when (o_variations o) [mkE (Some (m_key m)) (hist_name prefit true false) p (From (if prefit then SUnit else c))])%list.
Lemma inclusive_ok o m prefit p c : save_inclusive o m prefit (mkS p (Some c)) = Ok (inclusive_entries o m prefit p c).
Proof.
  unfold save_inclusive, inclusive_entries, need. cbn [s_cov s_point rbind]. cbv zeta.
  destruct (o_errors o || o_cov o || o_himpacts o || o_hgaussian o), (negb (o_nochi2 o) && m_data m); reflexivity.
Qed.
Lemma mapping_ok o prefit m p c : save_mapping o prefit m (mkS p (Some c)) = Ok (mapping_entries o prefit m p c, mkS p (Some c)).
Proof.
  unfold save_mapping, mapping_entries. destruct (prefit && m_skip_prefit m); [reflexivity|]. cbn [negb when]. rewrite inclusive_ok.
  destruct (m_skip_inclusive m), (o_process o && negb (m_skip_process m)), (o_variations o), (o_perrors o) eqn:P, prefit; cbn; unfold save_process, need; rewrite ?P; cbn; rewrite ?app_nil_r; reflexivity.
Qed.
Lemma hists_ok o prefit ms p c : save_hists o prefit ms (mkS p (Some c)) = Ok (flat_map (fun m => mapping_entries o prefit m p c) ms, mkS p (Some c)).
Proof. induction ms as [|m ms IH]; [reflexivity|]. cbn [save_hists flat_map]. rewrite mapping_ok. cbn [rbind snd fst]. rewrite IH. reflexivity. Qed.
Lemma mapping_stored o prefit m p c k n :
  stored (mapping_entries o prefit m p c) k n <-> k = Some (m_key m) /\ (prefit = true -> m_skip_prefit m = false) /\ hist_request o m prefit n.
Proof.
  assert (false <> true) by discriminate. assert (true <> false) by discriminate. assert (true = true) by reflexivity. assert (false = false) by reflexivity.
  unfold mapping_entries, inclusive_entries, hist_request. cbv zeta. destruct prefit; st; cbn; [destruct (m_skip_prefit m); tauto|tauto].
Qed.
Lemma stored_flat {A} (f : A -> list entry) l k n : stored (flat_map f l) k n <-> exists x, In x l /\ stored (f x) k n.
Proof.
  unfold stored. split.
  - intros (e & I & H). apply in_flat_map in I. destruct I as (x & I & J). eauto.
  - intros (x & I & e & J & H). exists e. split; [apply in_flat_map; eauto|assumption].
Qed.

Lemma scans_ok o l p c : scans o l (mkS p (Some c)) = Ok (map (fun n => mkE None n p (if o_useprefit o then NotUsed else From c)) l).
Proof. induction l as [|n l IH]; [reflexivity|]. cbn [scans map]. rewrite IH. unfold need. cbn. destruct (o_useprefit o); reflexivity. Qed.
Lemma scans_none o l p : (exists r, scans o l (mkS p None) = Ok r) <-> l = [] \/ o_useprefit o = true.
Proof.
  induction l as [|n l IH]; cbn [scans].
  - split; [auto|intros _; eexists; reflexivity].
  - unfold need. cbn. destruct (o_useprefit o); cbn.
    + split; [auto|intros _]. destruct (proj2 IH (or_intror eq_refl)) as (r & ->). cbn. eauto.
    + split; [intros (r & H); discriminate|intros [H|H]; discriminate].
Qed.
Definition scan_names (o : opts) : list string :=
  (map (fun p => "nll_scan_" ++ p)%string (o_scan o) ++ map (fun p => "nll_scan2D_" ++ fst p ++ "_" ++ snd p)%string (o_scan2 o))%list.
(** what [fit] stores with a covariance *)
Definition head_entries (o : opts) (dofit : bool) : list entry :=
  (when (o_lscan o) [mkE None "step_tau" AtScan NotUsed; mkE None "step_lcurve" AtScan NotUsed] ++
   when (o_loptimize o) [mkE None "best_tau" AtScan NotUsed; mkE None "best_lcurve" AtScan NotUsed] ++
   when (dofit && o_callback o) [mkE None "epoch_loss" AtMinimum NotUsed; mkE None "epoch_time" AtMinimum NotUsed])%list.
Definition hess_entries (o : opts) (p : point) : list entry :=
  (let e n := mkE None n p (From (SHess p)) in
   e "cov" :: when (o_impacts o) [e "impacts"; e "impacts_grouped"] ++ when (o_global o) [e "global_impacts"; e "global_impacts_grouped"] ++
   when (o_gaussian o) [e "gaussian_global_impacts"; e "gaussian_global_impacts_grouped"])%list.
Definition tail_entries (o : opts) (p : point) (c : source) (var : used) : list entry :=
  (let e n u := mkE None n p u in
   (e "nllvalreduced" NotUsed :: e "ndfsat" NotUsed :: e "edmval" NotUsed :: when (o_fullNll o) [e "nllvalfull" NotUsed] ++ [e "parms" var]) ++
   when (o_nonprofiled o) [e "nonprofiled_impacts_asym" NotUsed; e "nonprofiled_impacts_asym_grouped" NotUsed] ++
   when (o_asym o) [e "impacts_asym" (From c); e "impacts_asym_grouped" (From c)] ++
   when (o_globalasym o) [e "global_impacts_asym" (if o_warmstart o then From c else NotUsed); e "global_impacts_asym_grouped" (if o_warmstart o then From c else NotUsed)] ++
   map (fun n => e n (if o_useprefit o then NotUsed else From c)) (scan_names o) ++
   when (o_contour o) [e "contour_scan" (From c)])%list.
Definition loaded_cov (o : opts) : bool := match o_external o with Some true => true | _ => false end.
(** the Hessian is computed *)
Definition hess_computed (o : opts) (dofit : bool) : bool := (dofit || negb (loaded_cov o)) && negb (o_noEDM o) && negb (o_noHessian o).
Definition final_cov (o : opts) (dofit : bool) (c : source) : source :=
  if hess_computed o dofit then SHess (final_point o dofit) else if loaded_cov o then SExternal else c.
Definition parms_cov (o : opts) (dofit : bool) : used :=
  if hess_computed o dofit then From (SHess (final_point o dofit)) else if (dofit || negb (loaded_cov o)) && negb (o_noEDM o) then Rows (final_point o dofit) else IsNan.
Lemma if_ok {A} (b : bool) (l : list A) : (if b then Ok l else Ok []) = Ok (when b l).
Proof. destruct b; reflexivity. Qed.
Lemma if_warm (b w : bool) (l l' : list entry) : (if b then if w then Ok l else Ok l' else Ok []) = Ok (when b (if w then l else l')).
Proof. destruct b, w; reflexivity. Qed.
Lemma if_pair {A} (w : bool) (a b c d : A) : (if w then [a; b] else [c; d]) = [if w then a else c; if w then b else d].
Proof. destruct w; reflexivity. Qed.
Lemma if_entry (w : bool) k n p u v : (if w then mkE k n p u else mkE k n p v) = mkE k n p (if w then u else v).
Proof. destruct w; reflexivity. Qed.
Lemma tail_ok o var p c : fit_tail o var (mkS p (Some c)) = if o_contour2 o then Raise NotImplementedError else Ok (tail_entries o p c var).
Proof.
  unfold fit_tail, tail_entries, need, scan_names. cbv zeta. cbn [s_cov s_point rbind].
  rewrite scans_ok, if_ok, if_warm, if_ok, if_pair, !if_entry. cbn [rbind]. reflexivity.
Qed.
Lemma head_ok o dofit cov : (loaded_cov o = true -> cov <> None) ->
  fit_head o dofit (mkS AtStart cov) = Ok (head_entries o dofit, mkS (final_point o dofit) (if loaded_cov o then Some SExternal else cov), loaded_cov o).
Proof.
  intros H. unfold fit_head, head_entries, load, loaded_cov, final_point in *. destruct (o_external o) as [[|]|].
  - destruct cov; [|exfalso; apply H; reflexivity]. cbn [s_cov s_point rbind]. destruct dofit, (o_lscan o), (o_loptimize o); reflexivity.
  - cbn [s_cov s_point rbind]. destruct dofit, (o_lscan o), (o_loptimize o); reflexivity.
  - cbn [s_cov s_point rbind]. destruct dofit, (o_lscan o), (o_loptimize o); reflexivity.
Qed.
Lemma hess_ok o dofit p cov : fit_hess o dofit (loaded_cov o) (mkS p cov) =
  Ok (when (hess_computed o dofit) (hess_entries o p), mkS p (if hess_computed o dofit then Some (SHess p) else cov),
      if hess_computed o dofit then From (SHess p) else if (dofit || negb (loaded_cov o)) && negb (o_noEDM o) then Rows p else IsNan).
Proof.
  unfold fit_hess, hess_computed, loaded_cov, need, hess_entries.
  destruct dofit, (o_external o) as [[|]|]; cbn [orb negb andb]; destruct (o_noEDM o); cbn [negb andb]; try reflexivity; destruct (o_noHessian o); reflexivity.
Qed.
Lemma fit_ok o dofit c : fit o dofit (mkS AtStart (Some c)) =
  (if o_contour2 o then Raise NotImplementedError
   else Ok ((head_entries o dofit ++ when (hess_computed o dofit) (hess_entries o (final_point o dofit)) ++ tail_entries o (final_point o dofit) (final_cov o dofit c) (parms_cov o dofit))%list,
            mkS (final_point o dofit) (Some (final_cov o dofit c)))).
Proof.
  unfold fit. rewrite head_ok by discriminate. cbn [rbind]. rewrite hess_ok. cbn [rbind]. fold (parms_cov o dofit).
  replace (if hess_computed o dofit then Some (SHess (final_point o dofit)) else if loaded_cov o then Some SExternal else Some c) with (Some (final_cov o dofit c))
    by (unfold final_cov; destruct (hess_computed o dofit), (loaded_cov o); reflexivity).
  rewrite tail_ok. destruct (o_contour2 o); reflexivity.
Qed.

(** the whole fit when a covariance is kept *)
Definition pre_entries (o : opts) (ms : list mapping) : list entry :=
  (mkE None "parms_prefit" AtStart (From SPrefit) :: when (o_save o) (save_observed ms (mkS AtStart (Some SPrefit))) ++
   when (o_save o) (flat_map (fun m => mapping_entries o true m AtStart SPrefit) ms))%list.
Definition post_entries (o : opts) (ms : list mapping) (dofit : bool) : list entry :=
  (let p := final_point o dofit in let c := final_cov o dofit SPrefit in
   (head_entries o dofit ++ when (hess_computed o dofit) (hess_entries o p) ++ tail_entries o p c (parms_cov o dofit)) ++
   when (o_save o) (flat_map (fun m => mapping_entries o false m p c) ms))%list.
Lemma one_fit_ok o ms data : o_noHessian o = false -> one_fit o ms data =
  (if o_prefitOnly o then Ok (pre_entries o ms) else if o_contour2 o then Raise NotImplementedError else Ok (pre_entries o ms ++ post_entries o ms (data && negb (o_noFit o)))%list).
Proof.
  intros H. unfold one_fit, check_options, start, pre_entries, post_entries. rewrite H. cbn [andb]. cbv zeta. destruct (o_save o); cbn [when].
  - rewrite hists_ok. cbn [rbind snd fst]. destruct (o_prefitOnly o); [reflexivity|]. rewrite fit_ok. destruct (o_contour2 o); [reflexivity|]. cbn [rbind snd fst].
    rewrite hists_ok. cbn [rbind snd fst app]. rewrite <- !app_assoc. reflexivity.
  - cbn [rbind snd fst app]. destruct (o_prefitOnly o); [reflexivity|]. rewrite fit_ok. destruct (o_contour2 o); [reflexivity|]. cbn [rbind snd fst app]. rewrite !app_nil_r. reflexivity.
Qed.
Lemma stored_map (f : string -> entry) l k n : (forall x, e_map (f x) = None /\ e_name (f x) = x) -> stored (map f l) k n <-> k = None /\ In n l.
Proof.
  intros F. unfold stored. split.
  - intros (e & I & <- & <-). apply in_map_iff in I. destruct I as (x & <- & I). destruct (F x) as [-> ->]. auto.
  - intros [-> I]. exists (f n). split; [apply in_map; assumption|apply F].
Qed.
Lemma in_scan o n : In n (scan_names o) <-> (exists p, In p (o_scan o) /\ n = "nll_scan_" ++ p) \/ (exists p q, In (p, q) (o_scan2 o) /\ n = "nll_scan2D_" ++ p ++ "_" ++ q).
Proof.
  unfold scan_names. rewrite in_app_iff, !in_map_iff. split; intros [H|H].
  - left. destruct H as (p & <- & I). eauto.
  - right. destruct H as ((p & q) & <- & I). eauto.
  - left. destruct H as (p & I & ->). eauto.
  - right. destruct H as (p & q & I & ->). exists (p, q). auto.
Qed.
Lemma fit_stored o dofit p c u k n :
  stored (head_entries o dofit ++ hess_entries o p ++ tail_entries o p c u) k n <-> k = None /\ fit_request o dofit n.
Proof.
  unfold head_entries, hess_entries, tail_entries, fit_request. cbv zeta. pose proof (in_scan o n) as S.
  eapply iff_trans; [repeat first [apply stored_nil|apply iff_app|apply iff_cons|apply stored_map; intros; split; reflexivity|apply iff_when|apply iff_and|apply neg_t|apply iff_refl]|cbn [e_map e_name]].
  set (A := exists p, In p (o_scan o) /\ n = "nll_scan_" ++ p) in *. set (B := exists p q, In (p, q) (o_scan2 o) /\ n = "nll_scan2D_" ++ p ++ "_" ++ q) in *. tauto.
Qed.
