(** C101: what the plots of histograms show. *)
From Coq Require Import Reals List Arith Bool String Lia Lra.
From Verif Require Req_Model Req_Spec Req_Props.
From Verif Require Import RBase PyList PyDict Hplot_Model Hplot_Spec Hplot_Proof.
Import ListNotations.
Local Open Scope nat_scope.
Local Open Scope string_scope.

(** ** plots in slices *)
(** every bin is in exactly one of the plots, at one place *)
Theorem C101_partition sel h v : valid (h_axes h) v ->
  exists b i, valid (filter (selected sel) (h_axes h)) b /\ valid (h_axes (pick sel b h)) i /\ weave sel (h_axes h) b i = v /\
  h_val (pick sel b h) i = h_val h v /\ h_var (pick sel b h) i = h_var h v /\
  forall b' i', valid (filter (selected sel) (h_axes h)) b' -> valid (h_axes (pick sel b' h)) i' -> weave sel (h_axes h) b' i' = v -> b' = b /\ i' = i.
Proof.
  intros V. destruct (weave_surj sel _ _ V) as (b & i & B & I & W). exists b, i. cbn. rewrite W. do 5 (split; [auto|]).
  intros b' i' B' I' W'. apply (weave_inj sel (h_axes h)); auto. congruence.
Qed.
(** the plots are those of all combinations of bins *)
Theorem C101_plots channel sel h b : filter (selected sel) (h_axes h) <> [] ->
  valid (filter (selected sel) (h_axes h)) b <-> In (suffix channel (filter (selected sel) (h_axes h)) b, pick sel b h) (plots channel sel h) /\ List.length b = List.length (filter (selected sel) (h_axes h)).
Proof.
  intros N. unfold plots. destruct (filter (selected sel) (h_axes h)) as [|a l] eqn:E; [contradiction N; reflexivity|]. rewrite <- E. split.
  - intros V. split; [|apply valid_length; exact V]. apply (in_map (fun b => (suffix channel (filter (selected sel) (h_axes h)) b, pick sel b h))). apply in_bins. exact V.
  - intros (I & L). apply in_map_iff in I. destruct I as (b' & Q & I). apply in_bins in I. injection Q as Q _.
    assert (b' = b); [|subst; exact I]. unfold suffix in Q. apply Session_Proof.app_inj_l in Q. apply Session_Proof.app_inj_l in Q. revert Q. apply pieces_inj; [apply valid_length; exact I|exact L].
Qed.
(** their yields add up, and no plot overwrites another *)
Theorem C101_totals channel sel h : total h = sumL (fun p => total (snd p)) (plots channel sel h).
Proof. exact (total_plots channel sel h). Qed.
Theorem C101_file_names channel sel h : NoDup (map fst (plots channel sel h)).
Proof. exact (plots_nodup channel sel h). Qed.

(** ** variations *)
(** the k-th label is drawn with the variation it stands for, in both panels *)
Theorem C101_labels a known available labels : complete a -> usable a known available -> variation_names a <> [] -> var_labels a = Ok labels ->
  exists vs, variations a known available = Ok vs /\ drawn_upper labels vs = Ok (combine labels vs) /\ drawn_lower labels vs = Ok (combine labels vs) /\
  List.length vs = List.length (variation_names a) /\ List.length labels = List.length vs /\
  forall k d, k < List.length vs -> nth k vs d = meant a k.
Proof.
  intros C U N E. pose proof C as (_ & _ & N0). rewrite (variations_ok a known available N0 U). eexists. split; [reflexivity|].
  pose proof (sources_length a C) as L.
  assert (LL : List.length labels = List.length (variation_names a)).
  { unfold var_labels in E. destruct (variation_names a) as [|n ns] eqn:V; [contradiction N; reflexivity|]. destruct (a_labels a) as [l|].
    - destruct (Nat.eqb_spec (List.length l) (List.length (n :: ns))) as [Q|Q]; [|discriminate]. injection E as <-. exact Q.
    - injection E as <-. reflexivity. }
  unfold drawn_upper, drawn_lower. rewrite L, LL, Nat.leb_refl. do 4 (split; [reflexivity|]). intros k d K. apply sources_nth; assumption.
Qed.
(** without labels given, the names *)
Theorem C101_default_labels a : a_labels a = None -> var_labels a = Ok (variation_names a).
Proof. intros H. unfold var_labels. rewrite H. destruct (variation_names a); reflexivity. Qed.
(** up and down of files and groups are the central value plus and minus the uncertainty *)
Theorem C101_up_down h impact i : (0 <= h_val impact i)%R ->
  (let (u, d) := from_errors h in h_val d i <= h_val h i <= h_val u i /\ h_val u i - h_val h i = sqrt (h_var h i) /\ h_val h i - h_val d i = sqrt (h_var h i))%R /\
  (let (u, d) := from_group h impact in h_val d i <= h_val h i <= h_val u i /\ h_val u i - h_val h i = h_val impact i /\ h_val h i - h_val d i = h_val impact i)%R.
Proof. intros P. cbn. pose proof (sqrt_pos (h_var h i)). repeat split; lra. Qed.

(** ** lower panel *)
(** for ratios the band is around the line of the prediction, by its relative uncertainty *)
Theorem C101_ratio_band o b : p_diff o = false -> b_width b <> 0%R -> den o (normed o b) <> 0%R ->
  ((fst (low_band o b) + snd (low_band o b)) / 2 = low_line o b /\
   (snd (low_band o b) - fst (low_band o b)) / 2 = b_std (normed o b) / den o (normed o b))%R.
Proof.
  intros D W Z. unfold low_band, low_line, op. cbv zeta. rewrite D. cbn [fst snd].
  assert (W' : b_width (normed o b) <> 0%R) by (unfold normed; destruct (p_norm o); exact W). split; field; auto.
Qed.
(** a scaled variation: the deviation from the nominal prediction is scaled *)
Theorem C101_scaled o b : p_todata o = false -> p_diff o = false -> b_nom (normed o b) <> 0%R ->
  (low_var o b - 1 = p_scale o * (b_var b / b_nom (normed o b) - 1))%R.
Proof.
  intros T D Z. unfold low_var, op, den. cbv zeta. rewrite T, D. assert (V : b_var (normed o b) = b_var b) by (unfold normed; destruct (p_norm o); reflexivity). rewrite V.
  destruct (Req_EM_T (p_scale o) 1) as [E|E]; [rewrite E; field; exact Z|field; exact Z].
Qed.

(** ** chi2 *)
Definition sat (r : results) : Prop := has "chi2_saturated" r = true.
Example C101_ex_saturated : get_chi2 (mkR true [("nllvalreduced", 3%R); ("ndfsat", 4%R)]) false false "saturated" = Ok (Some (2 * 3)%R, Some 4%R, true).
Proof. reflexivity. Qed.
Example C101_ex_chosen : chosen ["BaseMapping"; "Project ch0 pt"] ["Select"] = Raise ValueError /\ chosen ["BaseMapping"; "Project ch0 pt"] ["Project"] = Ok ["Project ch0 pt"].
Proof. split; reflexivity. Qed.
(** value, degrees of freedom and label belong together *)
Theorem C101_chi2_consistent r none prefit kind c n s : get_chi2 r none prefit kind = Ok (Some c, n, s) ->
  (s = false /\ prefit = true /\ dget "chi2_prefit" (r_vals r) = Some c /\ n = dget "ndf_prefit" (r_vals r)) \/
  (s = false /\ prefit = false /\ dget "chi2" (r_vals r) = Some c /\ n = dget "ndf" (r_vals r)) \/
  (s = true /\ prefit = false /\ dget "chi2_saturated" (r_vals r) = Some c /\ n = dget "ndf_saturated" (r_vals r)) \/
  (s = true /\ prefit = false /\ r_profile r = true /\ (exists l, dget "nllvalreduced" (r_vals r) = Some l /\ c = (2 * l)%R) /\ n = dget "ndfsat" (r_vals r)).
Proof.
  unfold get_chi2, has. destruct none; [discriminate|]. destruct prefit.
  - destruct (String.eqb kind "saturated"); [discriminate|]. intros H. injection H as A B C. left. auto.
  - destruct (String.eqb kind "automatic" || String.eqb kind "saturated").
    + destruct (r_profile r) eqn:P; cbn [andb].
      * destruct (dget "nllvalreduced" (r_vals r)) as [l|] eqn:N.
        -- destruct (dget "ndfsat" (r_vals r)) as [k|] eqn:K; [|discriminate]. intros H. injection H as <- <- <-. right. right. right. eauto 10.
        -- destruct (dget "chi2_saturated" (r_vals r)) as [x|] eqn:X; [intros H; injection H as <- <- <-; right; right; left; auto|].
           destruct (String.eqb kind "automatic"); [|discriminate]. intros H. injection H as A B C. right. left. auto.
      * destruct (dget "chi2_saturated" (r_vals r)) as [x|] eqn:X; [intros H; injection H as <- <- <-; right; right; left; auto|].
        destruct (String.eqb kind "automatic"); [|discriminate]. intros H. injection H as A B C. right. left. auto.
    + intros H. injection H as A B C. right. left. auto.
Qed.
(** what is shown for each kind *)
Theorem C101_chi2_prefit fit inst key kind : kind <> "saturated" -> kind <> " " -> kind <> "none" ->
  shown_chi2 fit inst key true (Some kind) = Ok (dget "chi2_prefit" (r_vals inst), dget "ndf_prefit" (r_vals inst), false).
Proof.
  intros A B C. unfold shown_chi2, get_chi2. cbn [negb andb]. apply String.eqb_neq in A, B, C. rewrite B, C, A. reflexivity.
Qed.
Theorem C101_chi2_linear fit inst key : shown_chi2 fit inst key false (Some "linear") = Ok (dget "chi2" (r_vals inst), dget "ndf" (r_vals inst), false).
Proof. unfold shown_chi2. cbn. rewrite andb_false_r. reflexivity. Qed.
Theorem C101_chi2_base fit inst l n : r_profile fit = true -> dget "nllvalreduced" (r_vals fit) = Some l -> dget "ndfsat" (r_vals fit) = Some n ->
  forall kind, kind = "automatic" \/ kind = "saturated" -> shown_chi2 fit inst "BaseMapping" false (Some kind) = Ok (Some (2 * l)%R, Some n, true).
Proof. intros P L N kind [->| ->]; unfold shown_chi2, get_chi2, has; cbn; rewrite P, L, N; reflexivity. Qed.
Theorem C101_chi2_mapping fit inst key : key <> "BaseMapping" -> r_profile inst = false ->
  shown_chi2 fit inst key false (Some "automatic") =
    Ok (if has "chi2_saturated" inst then (dget "chi2_saturated" (r_vals inst), dget "ndf_saturated" (r_vals inst), true) else (dget "chi2" (r_vals inst), dget "ndf" (r_vals inst), false)) /\
  shown_chi2 fit inst key false (Some "saturated") =
    (if has "chi2_saturated" inst then Ok (dget "chi2_saturated" (r_vals inst), dget "ndf_saturated" (r_vals inst), true) else Raise ValueError).
Proof.
  intros K P. apply String.eqb_neq in K. unfold shown_chi2, get_chi2. rewrite K. cbn. rewrite P. cbn. destruct (has "chi2_saturated" inst); auto.
Qed.

(** ** the mappings and the histograms that are read *)
(** a mapping is found under its name *)
Theorem C101_chosen keys margs k : In k keys -> k = String.concat " " margs -> margs <> [] -> exists l, chosen keys margs = Ok l /\ In k l.
Proof.
  intros I E N. unfold chosen. destruct margs as [|x m]; [contradiction N; reflexivity|]. rewrite <- E.
  assert (J : In k (filter (String.prefix k) keys)).
  { apply filter_In. split; [exact I|]. clear. induction k as [|c k IH]; [reflexivity|]. cbn. destruct (Ascii.ascii_dec c c); [exact IH|contradiction]. }
  destruct (filter (String.prefix k) keys) as [|y l]; [destruct J|]. eauto.
Qed.
(** what is read was stored, if the fit was asked for it *)
Theorem C101_keys o ms data l m : let dofit := data && negb (Req_Model.o_noFit o) in
  Req_Spec.computes_cov o dofit -> Req_Model.one_fit o ms data = Ok l -> In m ms -> Req_Model.o_save o = true -> Req_Model.o_prefitOnly o = false ->
  let k := Some (Req_Model.m_key m) in
  (Req_Model.m_data m = true -> Req_Spec.stored l k (data_key false "data_obs" "postfit") /\ Req_Spec.stored l k (data_key false "nobs" "postfit")) /\
  (Req_Model.m_skip_inclusive m = false -> Req_Spec.stored l k (inclusive_key false "postfit")) /\
  (Req_Model.m_skip_inclusive m = false -> Req_Model.m_skip_prefit m = false -> Req_Spec.stored l k (inclusive_key false "prefit")) /\
  (Req_Model.m_skip_process m = false -> Req_Model.o_process o = true -> Req_Spec.stored l k (stack_key "postfit")) /\
  (Req_Model.o_variations o = true -> Req_Spec.stored l k (variations_key false "postfit")) /\
  (Req_Model.m_skip_inclusive m = false -> Req_Model.o_himpacts o = true -> Req_Spec.stored l k (groups_key "postfit")).
Proof.
  intros dofit C E I S P k. pose proof (Req_Props.C100_stored o ms data l C E k) as H. unfold k in *. repeat split; intros; apply H.
  1,2: eapply Req_Spec.rq_data; eauto.
  1,3,4,5: eapply Req_Spec.rq_postfit; eauto; unfold Req_Spec.hist_request; cbn; tauto.
  eapply Req_Spec.rq_prefit; eauto. unfold Req_Spec.hist_request. cbn. tauto.
Qed.

(** ** Examples *)
Definition h3 : hst := mkH [("charge", 2); ("pt", 2); ("eta", 3)] (fun v => INR (nth 0 v 0 * 6 + nth 1 v 0 * 3 + nth 2 v 0)) (fun v => INR (nth 2 v 0)).
Example C101_ex_plots : map fst (plots "ch0_BaseMapping" ["eta"; "charge"] h3) =
  ["ch0_BaseMapping_charge_0_eta_0"; "ch0_BaseMapping_charge_0_eta_1"; "ch0_BaseMapping_charge_0_eta_2"; "ch0_BaseMapping_charge_1_eta_0"; "ch0_BaseMapping_charge_1_eta_1"; "ch0_BaseMapping_charge_1_eta_2"].
Proof. reflexivity. Qed.
Example C101_ex_pick : h_axes (pick ["eta"; "charge"] [1; 2] h3) = [("pt", 2)] /\ h_val (pick ["eta"; "charge"] [1; 2] h3) [1] = 11%R /\ h_val (pick ["pt"] [1] h3) [0; 2] = 5%R.
Proof. repeat split; cbn; lra. Qed.
Example C101_ex_one : plots "ch0" ["mass"] h3 = [("ch0", h3)].
Proof. reflexivity. Qed.
Example C101_ex_total : total (pick ["eta"; "charge"] [1; 2] h3) = 19%R /\ total_unc (pick ["eta"; "charge"] [1; 2] h3) = 2%R.
Proof. unfold total, total_unc. cbn. split; [lra|]. replace (1 + 1 + (1 + 1 + 0))%R with (2 * 2)%R by lra. apply sqrt_square. lra. Qed.
Definition a3 : vargs := mkA (Some ["alternative"; "lumi"; "pdf"]) ["stat"] None ["postfit"] 1.
Example C101_ex_labels : variations a3 (fun n => existsb (String.eqb n) ["lumi"; "pdf"; "jes"]) (Some ["stat"; "binByBinStat"]) = Ok [VFile 0 "postfit"; VNominal "lumi"; VNominal "pdf"; VGroup "stat"] /\
  var_labels a3 = Ok ["alternative"; "lumi"; "pdf"; "stat"] /\ complete a3 /\ usable a3 (fun n => existsb (String.eqb n) ["lumi"; "pdf"; "jes"]) (Some ["stat"; "binByBinStat"]).
Proof.
  split; [reflexivity|]. split; [reflexivity|]. split.
  - unfold complete. cbn. split; [lia|]. split; [auto|discriminate].
  - split.
    + intros k K. cbn in K. destruct k as [|[|[|k]]]; try lia; reflexivity.
    + intros _. exists ["stat"; "binByBinStat"]. split; [reflexivity|]. intros g [<-|[]]. left. reflexivity.
Qed.
Example C101_ex_meant : map (meant a3) [0; 1; 2; 3] = [VFile 0 "postfit"; VNominal "lumi"; VNominal "pdf"; VGroup "stat"].
Proof. reflexivity. Qed.
Example C101_ex_types : variations (mkA (Some ["a"; "b"]) [] None ["prefit"; "postfit"] 2) (fun _ => false) None = Ok [VFile 0 "prefit"; VFile 1 "postfit"] /\
  variations (mkA None ["stat"] None ["postfit"] 0) (fun _ => false) (Some ["pdf"]) = Raise ValueError /\ variations (mkA (Some ["x"]) [] None ["postfit"] 0) (fun _ => false) None = Raise KeyError /\
  var_labels (mkA (Some ["a"; "b"]) [] (Some ["only one"]) ["postfit"] 0) = Raise ValueError.
Proof. repeat split. Qed.
Example C101_ex_groups_without : variations (mkA None ["stat"] None ["postfit"] 0) (fun _ => true) None = Raise ValueError.
Proof. reflexivity. Qed.
Example C101_ex_lengths : drawn_upper ["a"; "b"] [VNominal "a"] = Raise IndexError /\ drawn_lower ["a"] [VNominal "a"; VNominal "b"] = Raise IndexError /\ drawn_upper ["a"] [VNominal "a"; VNominal "b"] = Ok [("a", VNominal "a")].
Proof. repeat split. Qed.
(** --normToData scales prediction and band alike *)
Example C101_ex_norm_band : low_band (mkP false true (Some 2%R) 1) (mkB 20 10 2 10 1) = (0.8, 1.2)%R.
Proof. unfold low_band, normed, den. cbn. f_equal; lra. Qed.
Example C101_ex_band : low_band (mkP false false None 1) (mkB 12 10 2 11 5) = ((10 / 5 - 2 / 5) / (10 / 5), (10 / 5 + 2 / 5) / (10 / 5))%R /\
  ((10 / 5 - 2 / 5) / (10 / 5) = 0.8)%R /\ low_data (mkP false false None 1) (mkB 12 10 2 11 5) = 1.2%R /\ low_line (mkP false false None 1) (mkB 12 10 2 11 5) = 1%R.
Proof. unfold low_band, low_data, low_line, normed, op, den. cbn. repeat split; lra. Qed.
Example C101_ex_chi2 : shown_chi2 (mkR true [("nllvalreduced", 21%R); ("ndfsat", 40%R)]) (mkR false [("chi2", 44%R); ("ndf", 42%R); ("chi2_prefit", 99%R); ("ndf_prefit", 42%R)]) "BaseMapping" false (Some "automatic") = Ok (Some (2 * 21)%R, Some 40%R, true) /\
  shown_chi2 (mkR true [("nllvalreduced", 21%R); ("ndfsat", 40%R)]) (mkR false [("chi2", 44%R); ("ndf", 42%R); ("chi2_prefit", 99%R); ("ndf_prefit", 41%R)]) "BaseMapping" true (Some "automatic") = Ok (Some 99%R, Some 41%R, false) /\
  shown_chi2 (mkR true [("nllvalreduced", 21%R); ("ndfsat", 40%R)]) (mkR false [("chi2", 44%R); ("ndf", 42%R)]) "Project ch0 pt" false (Some "automatic") = Ok (Some 44%R, Some 42%R, false) /\
  shown_chi2 (mkR true []) (mkR false [("chi2", 44%R)]) "Project ch0 pt" false (Some "none") = Ok (None, None, false).
Proof. repeat split. Qed.

(** ** Where the expectation fails *)
(** --diff: the band is around the prediction and not around the difference to it, which is zero *)
Theorem C101_diff_band_refuted : exists o b, p_diff o = true /\ p_todata o = false /\ b_width b = 1%R /\ low_line o b = 0%R /\ low_band o b = (8, 12)%R.
Proof. exists (mkP true false None 1), (mkB 12 10 2 11 1). unfold low_line, low_band, op, den, normed. cbn. repeat split; [lra|f_equal; lra]. Qed.
(** in general: it contains the line only if the uncertainty is as large as the denominator *)
Theorem C101_diff_band o b : p_diff o = true -> (0 < b_width b)%R -> (fst (low_band o b) <= low_line o b <= snd (low_band o b))%R -> b_width b = 1%R -> (Rabs (den o (normed o b)) <= b_std (normed o b))%R.
Proof.
  intros D W H E. unfold low_band, low_line, op in H. cbv zeta in H. rewrite D in H. cbn [fst snd] in H.
  assert (W' : b_width (normed o b) = 1%R) by (unfold normed; destruct (p_norm o); exact E). rewrite W' in H. unfold Rdiv in H. rewrite Rinv_1, !Rmult_1_r in H.
  unfold Rabs. destruct (Rcase_abs (den o (normed o b))); lra.
Qed.
(** --normToData scales the prediction, but not the variations: one without effect is shown as an effect *)
Theorem C101_norm_refuted : exists o b, p_diff o = false /\ p_todata o = false /\ b_var b = b_nom b /\ low_line o b = 1%R /\ low_var o b = 0.5%R.
Proof.
  exists (mkP false false (Some 2%R) 1), (mkB 20 10 2 10 1). unfold low_line, low_var, op, den, normed. cbn. destruct (Req_EM_T 1 1) as [E|E]; [|contradiction E; reflexivity]. repeat split; lra.
Qed.
(** --ratioToData with --scaleVariation: the deviation from the data is scaled, so that a variation without effect is shown as one *)
Theorem C101_scaled_refuted : exists o b, p_diff o = false /\ p_todata o = true /\ p_norm o = None /\ b_var b = b_nom b /\ low_line o b = 0.5%R /\ low_var o b = (- (4))%R.
Proof.
  exists (mkP false true None 10), (mkB 20 10 2 10 1). unfold low_line, low_var, op, den, normed. cbn. destruct (Req_EM_T 10 1) as [E|E]; [lra|]. repeat split; lra.
Qed.
(** more files than names: the second file is drawn under the name of the group; more types than one and fewer than files: a file is left out and the names are shifted *)
Theorem C101_labels_refuted : exists a vs, a_files a = 2 /\ variation_names a = ["n1"; "stat"] /\ variations a (fun _ => true) (Some ["stat"]) = Ok vs /\
  drawn_upper ["n1"; "stat"] vs = Ok [("n1", VFile 0 "postfit"); ("stat", VFile 1 "postfit")] /\ drawn_lower ["n1"; "stat"] vs = Raise IndexError.
Proof. exists (mkA (Some ["n1"]) ["stat"] None ["postfit"] 2), [VFile 0 "postfit"; VFile 1 "postfit"; VGroup "stat"]. repeat split. Qed.
Theorem C101_types_refuted : exists a vs, a_files a = 3 /\ a_types a = ["prefit"; "postfit"] /\ variation_names a = ["f1"; "f2"; "f3"; "lumi"; "pdf"] /\ variations a (fun _ => true) None = Ok vs /\
  drawn_lower (variation_names a) vs = Ok [("f1", VFile 0 "prefit"); ("f2", VFile 1 "postfit"); ("f3", VNominal "lumi"); ("lumi", VNominal "pdf")].
Proof. exists (mkA (Some ["f1"; "f2"; "f3"; "lumi"; "pdf"]) [] None ["prefit"; "postfit"] 3), [VFile 0 "prefit"; VFile 1 "postfit"; VNominal "lumi"; VNominal "pdf"]. repeat split. Qed.
(** the uncertainty of the total yield ignores the correlations of the bins *)
Theorem C101_total_unc_refuted : exists h C, (forall i, h_var h [i] = C i i) /\ h_axes h = [("pt", 2)] /\ var_of_sum 2 C = 4%R /\ (total_unc h * total_unc h = 2)%R.
Proof.
  exists (mkH [("pt", 2)] (fun _ => 1%R) (fun _ => 1%R)), (fun _ _ => 1%R). split; [reflexivity|]. split; [reflexivity|]. split; [unfold var_of_sum; cbn; lra|].
  unfold total_unc. cbn. rewrite sqrt_sqrt; lra.
Qed.
(** a fit without profiled bin-by-bin parameters: no chi2 is shown for the base mapping, although there is one *)
Theorem C101_chi2_refuted : exists fit inst, dget "chi2" (r_vals inst) = Some 44%R /\ dget "chi2" (r_vals fit) = None /\ shown_chi2 fit inst "BaseMapping" false (Some "automatic") = Ok (None, None, false) /\
  shown_chi2 fit inst "BaseMapping" false (Some "linear") = Ok (Some 44%R, Some 42%R, false).
Proof. exists (mkR false [("nllvalreduced", 21%R); ("ndfsat", 40%R)]), (mkR false [("chi2", 44%R); ("ndf", 42%R)]). repeat split. Qed.
(** 'automatic' is the saturated test also for other mappings, if it is there *)
Theorem C101_automatic_refuted : exists fit inst, dget "chi2" (r_vals inst) = Some 44%R /\ shown_chi2 fit inst "Project ch0 pt" false (Some "automatic") = Ok (Some 39%R, Some 41%R, true).
Proof. exists (mkR true []), (mkR false [("chi2", 44%R); ("ndf", 42%R); ("chi2_saturated", 39%R); ("ndf_saturated", 41%R)]). repeat split. Qed.
(** a mapping is chosen by the beginning of its name: others are plotted too *)
Theorem C101_chosen_refuted : chosen ["Project ch0 pt"; "Project ch0 pt eta"; "Project ch0 ptll"; "Project ch1 pt"] ["Project"; "ch0"; "pt"] = Ok ["Project ch0 pt"; "Project ch0 pt eta"; "Project ch0 ptll"].
Proof. reflexivity. Qed.
(** the statistical uncertainty of --unfoldedXsec and the histogram of --correlatedVariations are read under names that no fit writes *)
Theorem C101_keys_refuted o ms data l k t : let dofit := data && negb (Req_Model.o_noFit o) in Req_Spec.computes_cov o dofit -> Req_Model.one_fit o ms data = Ok l -> t = "prefit" \/ t = "postfit" ->
  ~ Req_Spec.stored l (Some k) (stat_key t) /\ ~ Req_Spec.stored l (Some k) (variations_key true t).
Proof.
  intros dofit C E T. pose proof (Req_Props.C100_stored o ms data l C E (Some k)) as H.
  assert (X : forall m b n, n = stat_key t \/ n = variations_key true t -> ~ Req_Spec.hist_request o m b n).
  { intros m b n N R. unfold Req_Spec.hist_request in R. destruct T as [-> | ->], N as [-> | ->], b; cbn in R; intuition discriminate. }
  assert (Y : forall n, n = stat_key t \/ n = variations_key true t -> ~ Req_Spec.stored l (Some k) n).
  { intros n N S. apply H in S. remember (Some k) as K. destruct S as [|m n A I D Q|m n A I D Q|m n A P I Q|n P Q]; try discriminate HeqK.
    - destruct T as [-> | ->], N as [-> | ->], Q as [Q|Q]; discriminate Q.
    - exact (X _ _ _ N Q).
    - exact (X _ _ _ N Q). }
  split; apply Y; auto.
Qed.

Print Assumptions C101_partition.
Print Assumptions C101_plots.
Print Assumptions C101_totals.
Print Assumptions C101_file_names.
Print Assumptions C101_labels.
Print Assumptions C101_default_labels.
Print Assumptions C101_up_down.
Print Assumptions C101_ratio_band.
Print Assumptions C101_scaled.
Print Assumptions C101_chi2_consistent.
Print Assumptions C101_chi2_prefit.
Print Assumptions C101_chi2_linear.
Print Assumptions C101_chi2_base.
Print Assumptions C101_chi2_mapping.
Print Assumptions C101_chosen.
Print Assumptions C101_keys.
Print Assumptions C101_diff_band_refuted.
Print Assumptions C101_diff_band.
Print Assumptions C101_norm_refuted.
Print Assumptions C101_scaled_refuted.
Print Assumptions C101_labels_refuted.
Print Assumptions C101_types_refuted.
Print Assumptions C101_total_unc_refuted.
Print Assumptions C101_chi2_refuted.
Print Assumptions C101_automatic_refuted.
Print Assumptions C101_chosen_refuted.
Print Assumptions C101_keys_refuted.
