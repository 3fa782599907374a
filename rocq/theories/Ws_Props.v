(** Properties C56, C81 and C82: the output of a fit. *)
From Coq Require Import Reals List Arith Bool String Ascii Lia Lra.
From Verif Require Import RBase PyList PyDict Shape Map_Model Map_Cells Parse_Model Parse_Props Ws_Model Ws_Spec Ws_Proof.
Import ListNotations.
Local Open Scope nat_scope.

(** * C56 *)
(** every bin of every channel, for every index of the process, variation or impact axes *)
Theorem C56_expected pa extra rows cs hs k c i e : expected_hists pa extra rows cs = Ok hs -> nth_error cs k = Some c -> flow_ok c -> Forall plain_axis extra ->
  Forall (fun r => List.length r = prodn (map wa_size (extras pa c extra))) rows -> in_shape (bin_shape c) i -> in_shape (map wa_size (extras pa c extra)) e ->
  exists h, nth_error hs k = Some (wc_name c, h) /\ t_at h (bin_idx c i ++ e) = nth (ravel (map wa_size (extras pa c extra)) e) (nth (offset cs k + ravel (bin_shape c) i) rows []) 0%R.
Proof. exact (expected_content pa extra rows cs hs k c i e). Qed.
Theorem C56_expected_total pa extra rows cs : sumn (map (fun c => prodn (bin_shape c)) cs) <= List.length rows -> Forall plain_axis extra ->
  (forall c, In c cs -> flow_ok c /\ Forall good_axis (wc_axes c) /\ Forall (fun r => List.length r = prodn (map wa_size (extras pa c extra))) rows) ->
  exists hs, expected_hists pa extra rows cs = Ok hs /\ List.length hs = List.length cs.
Proof. intros B P H. destruct (expected_total pa extra rows cs B P H) as (hs & E). exists hs. split; [auto|]. apply expected_nth in E. apply E. Qed.
(** what is stored is the prediction, in order and without gaps *)
Theorem C56_cover pa extra rows cs hs : expected_hists pa extra rows cs = Ok hs -> List.length rows = sumn (map (fun c => prodn (bin_shape c)) cs) ->
  (forall c, In c cs -> wc_flow c = true -> Forall (fun a => wa_cat a = false) (hist_axes pa c extra)) ->
  List.concat (map (fun h => flat (snd h)) hs) = List.concat rows.
Proof. intros H L F. unfold expected_hists in H. rewrite (expected_concat _ _ _ _ _ _ H F). cbn [Nat.add]. rewrite <- L, pyslice_all by lia. auto. Qed.
(** the additional entries of a channel with flow bins *)
Theorem C56_flow_ones pa extra rows cs hs k c i : expected_hists pa extra rows cs = Ok hs -> nth_error cs k = Some c -> wc_flow c = true ->
  exists h, nth_error hs k = Some (wc_name c, h) /\ forall j a, nth_error (hist_axes pa c extra) j = Some a -> wa_cat a = true -> wa_size a <= nth j i 0 -> t_at h i = 1%R.
Proof. exact (expected_ones pa extra rows cs hs k c i). Qed.
(** data *)
Theorem C56_observed_channels m rows cs hs : observed_hists m rows cs = Ok hs -> map fst hs = map wc_name (unmasked cs).
Proof. exact (observed_names m rows cs hs). Qed.
Theorem C56_observed data cs hs k c i : observed_hists false (map (fun v => [v]) data) cs = Ok hs -> nth_error (unmasked cs) k = Some c -> in_shape (obs_shape c) i ->
  exists h, nth_error hs k = Some (wc_name c, h) /\ t_at h (bin_idx c i) = nth (obs_offset (unmasked cs) k + ravel (obs_shape c) i) data 0%R.
Proof. exact (observed_content data cs hs k c i). Qed.
Theorem C56_observed_total data cs : List.length data = sumn (map (fun c => prodn (obs_shape c)) (unmasked cs)) ->
  exists hs, observed_hists false (map (fun v => [v]) data) cs = Ok hs /\ List.concat (map (fun h => flat (snd h)) hs) = data.
Proof.
  intros L. destruct (observed_total data cs) as (hs & H); [lia|]. exists hs. split; auto. unfold observed_hists in H. rewrite observed_filter in H. rewrite (observed_concat _ _ _ _ (unmasked_Forall cs) H). cbn [Nat.add]. rewrite <- L. apply pyslice_all. lia.
Qed.
Theorem C56_observed_cov rows n cs hs k c i j : List.length rows = n -> Forall (fun r => List.length r = n) rows -> observed_hists true rows cs = Ok hs -> nth_error (unmasked cs) k = Some c -> in_shape (obs_shape c) i -> in_shape (obs_shape c) j ->
  obs_offset (unmasked cs) k + prodn (obs_shape c) <= n ->
  exists h, nth_error hs k = Some (wc_name c, h) /\ t_at h (bin_idx c i ++ bin_idx c j) = nth (obs_offset (unmasked cs) k + ravel (obs_shape c) j) (nth (obs_offset (unmasked cs) k + ravel (obs_shape c) i) rows []) 0%R.
Proof. exact (observed_cov rows n cs hs k c i j). Qed.
(** if no channel has flow bins, as in every fit without masked channels, data and prediction of a channel are the same rows when masked channels come last *)
Theorem C56_same_ranges us ms k c : Forall (fun c => wc_masked c = false /\ wc_flow c = false) us -> Forall (fun c => wc_masked c = true) ms -> nth_error us k = Some c ->
  unmasked (us ++ ms) = us /\ obs_offset (unmasked (us ++ ms)) k = offset (us ++ ms) k /\ obs_shape c = bin_shape c.
Proof.
  intros U M N. assert (E : unmasked (us ++ ms) = us).
  { unfold unmasked. rewrite filter_app. replace (filter _ ms) with (@nil wchan).
    - rewrite app_nil_r. clear N. induction U as [|x l (A & _) _ IH]; [auto|]. cbn [filter]. rewrite A. cbn. rewrite IH. auto.
    - induction M as [|x l A _ IH]; [auto|]. cbn [filter]. rewrite A. auto. }
  split; [auto|]. rewrite E. assert (S : forall d, In d us -> obs_shape d = bin_shape d). { intros d D. pose proof (proj1 (Forall_forall _ _) U d D) as (_ & F). unfold obs_shape, bin_shape. rewrite F. auto. }
  split; [|apply S; eapply nth_error_In; eauto]. unfold obs_offset, offset. assert (K : k < List.length us) by (apply nth_error_Some; congruence). rewrite firstn_app. replace (k - List.length us) with 0 by lia. rewrite app_nil_r. f_equal. apply map_ext_in. intros d D. rewrite S; auto. rewrite <- (firstn_skipn k us). apply in_or_app. auto.
Qed.
(** the channel with a category axis and flow bins: prediction with a value per bin including flow, nothing is stored *)
Theorem C56_flow_category extra rows cs k c pa : nth_error cs k = Some c -> wc_flow c = true -> Forall good_axis (wc_axes c) -> existsb wa_cat (wc_axes c) = true -> Forall (fun a => 0 < wa_size a) (wc_axes c) ->
  Forall plain_axis extra -> Forall (fun r => List.length r = prodn (map wa_size (extras pa c extra))) rows -> 0 < prodn (map wa_size (extras pa c extra)) -> offset cs k + prodn (bin_shape c) <= List.length rows ->
  forall hs, expected_hists pa extra rows cs <> Ok hs.
Proof. exact (flow_category extra rows cs k c pa). Qed.
Theorem C56_flow_category_refuted : exists rows cs, List.length rows = sumn (map (fun c => prodn (bin_shape c)) cs) /\ expected_hists false [] rows cs = Raise ValueError.
Proof. exists [[1%R]; [2%R]; [3%R]], [mkWc "ch"%string [category "flavour"%string ["e"; "mu"]%string] true true []]. split; reflexivity. Qed.
Definition two_channels := [mkWc "a"%string [mkWa "x"%string 2 4 false] false false ["p"; "q"]%string; mkWc "m"%string [mkWa "y"%string 1 3 false] true true ["p"; "q"]%string; mkWc "b"%string [] false false ["p"; "q"]%string].
Example C56_example : exists a m b, expected_hists true [] [[1; 2]; [3; 4]; [5; 6]; [7; 8]; [9; 10]; [11; 12]]%R two_channels = Ok [("a"%string, a); ("m"%string, m); ("b"%string, b)] /\
  flat a = [1; 2; 3; 4]%R /\ flat m = [5; 6; 1; 7; 8; 1; 9; 10; 1]%R /\ flat b = [11; 12]%R.
Proof. do 3 eexists. split; [reflexivity|]. split; [reflexivity|]. split; reflexivity. Qed.
Example C56_data_example : exists a b, observed_hists false [[5]; [6]; [7]]%R two_channels = Ok [("a"%string, a); ("b"%string, b)] /\ flat a = [5; 6]%R /\ flat b = [7]%R.
Proof. do 2 eexists. split; [reflexivity|]. split; reflexivity. Qed.

(** * C81 *)
Theorem C81_results_map ws : Forall (fun w => good_name (snd (fst w))) ws -> exists d, writes ws [] = Ok d /\ forall k, good_name (snd k) -> get_path (path3 k) d = option_map Leaf (last_write k ws).
Proof. exact (results_map ws). Qed.
(** different keys: everything written is kept *)
Theorem C81_nothing_lost (ws : list (key3 * tensor)) (k : key3) t : Forall (fun w => good_name (snd (fst w))) ws -> NoDup (map fst ws) -> In (k, t) ws -> exists d, writes ws [] = Ok d /\ get_path (path3 k) d = Some (Leaf t).
Proof.
  intros G N I. destruct (results_map ws G) as (d & W & M). exists d. split; auto. rewrite M by (apply (proj1 (Forall_forall _ _) G _ I)). clear G W M.
  assert (E : find (fun w => if key3_dec (fst w) k then true else false) (rev ws) = Some (k, t)); [|assert (E' : last_write k ws = Some t) by exact (f_equal (option_map snd) E); rewrite E'; reflexivity].
  apply in_rev in I. assert (Nr : NoDup (map fst (rev ws))) by (rewrite map_rev; apply NoDup_rev; auto). revert I Nr. generalize (rev ws). clear. induction l as [|w l IH]; [contradiction|]. cbn [map find]. intros I N. inversion N; subst. destruct (key3_dec (fst w) k) as [E|D].
  - destruct I as [->|I]; [reflexivity|]. exfalso. apply H1. rewrite E. change k with (fst (k, t)). apply in_map. auto.
  - destruct I as [->|I]; [cbn in D; contradiction|]. auto.
Qed.
Theorem C81_store name mk hs d : store name mk hs d = writes (map (fun h => ((mk, Some (fst h), name), snd h)) hs) d.
Proof. exact (store_writes name mk hs d). Qed.
(** the names of everything stored for an expectation *)
Theorem C81_names a b c k a' b' c' k' : result_name a b c k = result_name a' b' c' k' -> a = a' /\ b = b' /\ c = c' /\ k = k'.
Proof. exact (result_name_inj a b c k a' b' c' k'). Qed.
Theorem C81_names_good a b c k : good_name (result_name a b c k).
Proof. exact (result_name_good a b c k). Qed.
Theorem C81_scan_names p q : scan_name p = scan_name q -> p = q.
Proof. exact (scan_name_inj p q). Qed.
(** every channel of every expectation of different mappings *)
Theorem C81_expected_kept (es : list ((string * (bool * bool * bool * kind)) * list (string * tensor))) : NoDup (map fst es) -> Forall (fun e => NoDup (map fst (snd e))) es ->
  let ws := flat_map (fun e => let '(m, (a, b, c, k)) := fst e in map (fun h => ((Some m, Some (fst h), result_name a b c k), snd h)) (snd e)) es in
  exists d, writes ws [] = Ok d /\ forall m a b c k hs ch h, In ((m, (a, b, c, k)), hs) es -> In (ch, h) hs -> get_path ["mappings"; m; "channels"; ch; result_name a b c k]%string d = Some (Leaf h).
Proof.
  intros N C ws. assert (G : Forall (fun w => good_name (snd (fst w))) ws).
  { apply Forall_forall. intros w I. apply in_flat_map in I. destruct I as (((m & (((a & b) & c) & k)) & hs) & _ & I). cbn [fst snd] in I. apply in_map_iff in I. destruct I as (x & <- & _). apply result_name_good. }
  assert (D : NoDup (map fst ws)).
  { unfold ws. clear ws G. induction es as [|e es IH]; [constructor|]. cbn [map flat_map] in *. inversion N; inversion C; subst. rewrite map_app. destruct e as ((m & (((a & b) & c) & k)) & hs). cbn [fst snd] in *.
    assert (L : forall l1 l2 : list key3, NoDup l1 -> NoDup l2 -> (forall x, In x l1 -> ~ In x l2) -> NoDup (l1 ++ l2)).
    { clear. induction l1 as [|x l1 IH]; intros l2 A B H; [auto|]. inversion A; subst. cbn [app]. constructor; [rewrite in_app_iff; intros [I|I]; [auto|]; apply (H x); [left; auto|auto]|]. apply IH; auto. intros y Y. apply H. right. auto. }
    apply L; [|apply IH; auto|].
    - rewrite map_map. cbn [fst]. clear - H5. induction hs as [|h hs IH]; [constructor|]. cbn [map] in *. inversion H5; subst. constructor; [|auto]. intros I. apply in_map_iff in I. destruct I as (x & E & I). injection E as E. apply H1. rewrite <- E. apply in_map. auto.
    - intros x I J. rewrite map_map in I. apply in_map_iff in I. destruct I as (h & <- & _). cbn [fst] in J. apply in_map_iff in J. destruct J as (w & E & J). apply in_flat_map in J. destruct J as (((m' & (((a' & b') & c') & k')) & hs') & I' & J). cbn [fst snd] in J. apply in_map_iff in J. destruct J as (h' & <- & _). cbn [fst] in E. pose proof (f_equal snd E) as E3. pose proof (f_equal (fun x => fst (fst x)) E) as E1. cbn [fst snd] in E1, E3. injection E1 as ->. apply result_name_inj in E3. destruct E3 as (-> & -> & -> & ->). apply H1. apply (in_map fst) in I'. exact I'. }
  destruct (results_map ws G) as (d & W & M). exists d. split; auto. intros m a b c k hs ch h I J. assert (IW : In ((Some m, Some ch, result_name a b c k), h) ws).
  { apply in_flat_map. exists ((m, (a, b, c, k)), hs). split; auto. cbn [fst snd]. apply (in_map (fun h => ((Some m, Some (fst h), result_name a b c k), snd h)) hs (ch, h)). auto. }
  destruct (C81_nothing_lost ws _ _ G D IW) as (d' & W' & X). rewrite W in W'. injection W' as <-. exact X.
Qed.
Definition num (x : R) : tensor := of_list [x].
Example C81_example : exists d, writes [((Some "BaseMapping", Some "a", "hist_prefit"), num 1); ((Some "BaseMapping", Some "b", "hist_prefit"), num 2); ((Some "BaseMapping", None, "chi2"), num 3); ((None, None, "parms"), num 4)]%string [] = Ok d /\
  get_path ["mappings"; "BaseMapping"; "channels"; "b"; "hist_prefit"]%string d = Some (Leaf (num 2)) /\ get_path ["mappings"; "BaseMapping"; "chi2"]%string d = Some (Leaf (num 3)).
Proof. eexists. split; [reflexivity|]. split; reflexivity. Qed.
(** the key of Select does not contain the channel: the covariance and chi2 of the first of two mappings are lost *)
Theorem C81_select_refuted : exists a b ra rb, select_parse_args no_cplx no_floats (T "Select") [a] = Ok ra /\ select_parse_args no_cplx no_floats (T "Select") [b] = Ok rb /\ sa_channel ra <> sa_channel rb /\
  forall x y, exists d, writes [((Some (string_of_list_ascii (sa_key ra)), None, "chi2"%string), x); ((Some (string_of_list_ascii (sa_key rb)), None, "chi2"%string), y)] [] = Ok d /\
    get_path ["mappings"; string_of_list_ascii (sa_key ra); "chi2"]%string d = Some (Leaf y).
Proof. exists (T "a"), (T "b"). do 2 eexists. split; [reflexivity|]. split; [reflexivity|]. split; [discriminate|]. intros x y. eexists. split; reflexivity. Qed.
(** names of two-dimensional scans *)
Theorem C81_scan2D_refuted : exists p q, p <> q /\ scan2D_name (fst p) (snd p) = scan2D_name (fst q) (snd q).
Proof. exists ("a", "b_c")%string, ("a_b", "c")%string. split; [discriminate|reflexivity]. Qed.
(** one-dimensional scans and two-dimensional ones *)
Theorem C81_scan_kinds p a b : scan_name p <> scan2D_name a b.
Proof. unfold scan_name, scan2D_name. cbn. intros H. discriminate H. Qed.

(** * C82 *)
Theorem C82_extension dir stem ext postfix : no_slash stem -> has_dot ext = false -> file_path dir (stem ++ dot :: ext) postfix = Ok (path_join dir (stem ++ suffix postfix ++ dot :: ext)).
Proof. exact (file_with_ext dir stem ext postfix). Qed.
Theorem C82_default_extension dir name postfix : no_slash name -> has_dot name = false -> file_path dir name postfix = Ok (path_join dir (name ++ suffix postfix ++ T ".hdf5")).
Proof. exact (file_no_ext dir name postfix). Qed.
(** fits with different postfixes do not overwrite each other, for every name *)
Theorem C82_total dir name postfix : exists p, file_path dir name postfix = Ok p.
Proof. destruct (file_total dir name postfix) as (_ & a & b & _ & _ & _ & H). eauto. Qed.
Theorem C82_postfix_distinct dir name x y : file_path dir name x = file_path dir name y -> x = y.
Proof. exact (file_injective dir name x y). Qed.
Example C82_example : file_path (T "out") (T "fit.v2.hdf5") (Some (T "asimov")) = Ok (T "out/fit.v2_asimov.hdf5") /\ file_path (T "out/") (T "fit") None = Ok (T "out/fit.hdf5").
Proof. split; reflexivity. Qed.
(** a dot in a directory of the name: no extension, and the postfix changes the directory *)
Theorem C82_directory_refuted : exists dir name x, file_path dir name None = Ok (T "./v1.0/fit") /\ file_path dir name (Some x) = Ok (T "./v1_asimov.0/fit").
Proof. exists (T "."), (T "v1.0/fit"), (T "asimov"). split; reflexivity. Qed.

Print Assumptions C56_expected.
Print Assumptions C56_expected_total.
Print Assumptions C56_cover.
Print Assumptions C56_flow_ones.
Print Assumptions C56_observed_channels.
Print Assumptions C56_observed.
Print Assumptions C56_observed_total.
Print Assumptions C56_observed_cov.
Print Assumptions C56_same_ranges.
Print Assumptions C56_flow_category.
Print Assumptions C56_flow_category_refuted.
Print Assumptions C81_results_map.
Print Assumptions C81_nothing_lost.
Print Assumptions C81_store.
Print Assumptions C81_names.
Print Assumptions C81_names_good.
Print Assumptions C81_scan_names.
Print Assumptions C81_expected_kept.
Print Assumptions C81_select_refuted.
Print Assumptions C81_scan2D_refuted.
Print Assumptions C81_scan_kinds.
Print Assumptions C82_extension.
Print Assumptions C82_default_extension.
Print Assumptions C82_total.
Print Assumptions C82_postfix_distinct.
Print Assumptions C82_directory_refuted.
