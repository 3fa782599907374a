(** C96: what is read from an input file, current or old. *)
From Coq Require Import Reals List Arith Bool String Lia Lra.
From Verif Require Import RBase PyList PyDict BBStat_Model OldFile_Model OldFile_Spec OldFile_Proof.
Import ListNotations.
Local Open Scope nat_scope.
Local Open Scope string_scope.

(** Every field is the dataset of its name; the optional ones are absent when the dataset is; files of older versions use hnoigroupidxs. *)
Theorem C96_fields f mt i : read f mt = Ok i ->
  dget "hprocs" f = Some (Txt (procs i)) /\ dget "hsignals" f = Some (Txt (signals i)) /\ dget "hsysts" f = Some (Txt (systs i)) /\
  dget "hsystsnoconstraint" f = Some (Txt (noconstraint i)) /\ dget "hsystgroups" f = Some (Txt (groups i)) /\ dget "hsystgroupidxs" f = Some (Idx (groupidxs i)) /\
  (dget "hnoiidxs" f = Some (Idx (noiidxs i)) \/ (dget "hnoiidxs" f = None /\ dget "hnoigroupidxs" f = Some (Idx (noiidxs i)))) /\
  dget "hdata_cov_inv" f = cov_inv i /\ dget "hdata_obs" f = Some (V1 (data_obs i)) /\ dget "hdata_var" f = option_map V1 (data_var i) /\
  dget "hconstraintweights" f = Some (weights i) /\
  (if sparse i then dget "hnorm" f = None /\ dget "hnorm_sparse" f = Some (norm i) /\ dget "hlogk_sparse" f = Some (logk i)
   else dget "hnorm" f = Some (norm i) /\ dget "hlogk" f = Some (logk i)) /\
  dget "hbetavariations" f = betavar i /\ nbins i = List.length (data_obs i).
Proof. intros H. apply read_inv in H. tauto. Qed.
Theorem C96_metadata f mt i : read f mt = Ok i ->
  match mt with
  | None => symmetric i = false /\ systype i = "log_normal"
  | Some m => m_exponential m <> Some true /\ (symmetric i = true <-> m_symmetric m = Some true) /\
              (forall t, m_type m = Some t -> systype i = t) /\ (m_type m = None -> systype i = "log_normal")
  end.
Proof.
  intros H. apply read_inv in H as (_ & _ & _ & _ & _ & _ & _ & _ & _ & _ & _ & _ & _ & _ & _ & _ & S & T & E & _). destruct mt as [m|]; auto. rewrite S, T.
  split; [destruct (m_exponential m) as [[]|]; cbn in E; congruence|]. split; [destruct (m_symmetric m) as [[]|]; cbn; intuition congruence|].
  split; [intros t ->; auto|intros ->; auto].
Qed.
(** A complete file is read, with or without metadata. *)
Theorem C96_complete f nr mt : complete f nr -> (match mt with Some m => m_exponential m <> Some true | None => True end) -> exists i, read f mt = Ok i /\ nbinsfull i = nr.
Proof. intros C E. apply read_complete; auto. destruct mt as [m|]; auto. destruct (m_exponential m) as [[]|]; cbn; congruence. Qed.

(** Every bin belongs to exactly one channel, the channels lie one after the other in the order of the metadata. *)
Theorem C96_layout f m i : read f (Some m) = Ok i ->
  List.length (channels i) = List.length (m_channels m) /\
  (forall j k c, nth_error (channels i) j = Some (k, c) -> nth_error (m_channels m) j = Some (k, i_chan c) /\
     i_start c = total (firstn j (m_channels m)) /\ i_stop c = i_start c + size_of (i_chan c)) /\
  (forall b, b < total (m_channels m) -> exists! j, owner (channels i) b j).
Proof.
  intros H. apply read_inv in H as (_ & _ & _ & _ & _ & _ & _ & _ & _ & _ & _ & _ & _ & _ & _ & (chs & C & ->) & _). injection C as <-.
  split; [|split].
  - clear. generalize 0. induction (m_channels m) as [|[k c] d IH]; intros n; cbn; auto.
  - intros j k c E. apply ranges_chan in E. exact E.
  - intros b B. destruct (ranges_owner (m_channels m) 0 b ltac:(lia)) as (j & J). exists j. split; auto. intros j' J'. eapply ranges_unique; eauto.
Qed.
Theorem C96_old_layout f i : read f None = Ok i ->
  nbins i <= nbinsfull i /\ (forall b, b < nbinsfull i -> exists! j, owner (channels i) b j) /\
  (forall b, b < nbinsfull i -> (owner (channels i) b 0 <-> b < nbins i) /\ (owner (channels i) b 1 <-> nbins i <= b)) /\
  dkeys (channels i) = "ch0" :: if Nat.eqb (nbins i) (nbinsfull i) then [] else ["ch1_masked"].
Proof.
  intros H. apply read_inv in H as (_ & _ & _ & _ & _ & _ & _ & _ & _ & _ & _ & _ & _ & _ & _ & (chs & C & ->) & _). cbn [chans_of] in C.
  assert (L : nbins i <= nbinsfull i). { unfold old_channels in C. destruct (Nat.ltb_spec (nbinsfull i) (nbins i)); [discriminate|lia]. }
  destruct (old_channels_ok _ _ L) as (c & C' & T). rewrite C in C'. injection C' as <-.
  split; auto. split; [|split].
  - intros b B. rewrite <- T in B. destruct (ranges_owner chs 0 b ltac:(lia)) as (j & J). exists j. split; auto. intros j' J'. eapply ranges_unique; eauto.
  - intros b B. unfold old_channels in C. destruct (Nat.ltb_spec (nbinsfull i) (nbins i)); [discriminate|]. injection C as <-.
    destruct (Nat.eqb_spec (nbinsfull i - nbins i) 0); cbn [ranges]; (split; split).
    + intros (k & q & E & Q). cbn in E. injection E as <- <-. cbn in Q. lia.
    + intros Q. exists "ch0". eexists. split; [reflexivity|]. cbn. lia.
    + intros (k & q & E & Q). discriminate.
    + lia.
    + intros (k & q & E & Q). cbn in E. injection E as <- <-. cbn in Q. lia.
    + intros Q. exists "ch0". eexists. split; [reflexivity|]. cbn. lia.
    + intros (k & q & E & Q). cbn in E. injection E as <- <-. cbn in Q. lia.
    + intros Q. exists "ch1_masked". eexists. split; [reflexivity|]. cbn. lia.
  - unfold old_channels in C. destruct (Nat.ltb_spec (nbinsfull i) (nbins i)); [discriminate|]. injection C as <-.
    destruct (Nat.eqb_spec (nbinsfull i - nbins i) 0), (Nat.eqb_spec (nbins i) (nbinsfull i)); try lia; reflexivity.
Qed.

(** Dense and sparse files with the same cells have the same nominal prediction, the sum over the processes. *)
Theorem C96_nominal d nr np : matrix d nr np -> nominal np d = Ok (map (yield d np) (seq 0 nr)).
Proof. exact (nominal_spec d nr np). Qed.
Theorem C96_dense_sparse d d' nr np : matrix d nr np -> matrix d' nr np -> (forall b p, b < nr -> p < np -> cell d b p = cell d' b p) -> nominal np d = nominal np d'.
Proof.
  intros M M' E. rewrite !(nominal_spec _ _ _ M), (nominal_spec _ _ _ M'). f_equal. apply map_ext_in. intros b B. apply in_seq in B.
  unfold yield. f_equal. apply map_ext_in. intros p P. apply in_seq in P. apply E; lia.
Qed.

(** Files with hsumw2 keep their arrays; older files give back their effective number of events hkstat in every bin which
    has one, and the number of predicted events where hkstat is zero. *)
Theorem C96_current f mt i a b : read f mt = Ok i -> dget "hsumw" f = Some a -> dget "hsumw2" f = Some b -> sumw i = a /\ sumw2 i = b.
Proof.
  intros H A B. apply read_inv in H as (_ & _ & _ & _ & _ & _ & _ & _ & _ & _ & _ & _ & _ & _ & _ & _ & _ & _ & _ & S).
  rewrite (stat_new _ _ _ _ _ A B) in S. injection S as <- <-. auto.
Qed.
Theorem C96_kstat f mt i k minbb : read f mt = Ok i -> dget "hsumw2" f = None -> dget "hkstat" f = Some (V1 k) ->
  matrix (norm i) (nbinsfull i) (List.length (procs i)) -> List.length k = nbinsfull i ->
  exists l, lite_bins i minbb = Ok l /\ List.length l = nbinsfull i /\
    forall b, b < nbinsfull i -> let s := yield (norm i) (List.length (procs i)) b in let kb := nth b k 0%R in let bin := nth b l (mkBin 0 0 false 0) in
      bi_sumw bin = s /\
      (s = 0%R -> bi_mask bin = true) /\
      (s <> 0%R -> kb <> 0%R -> (minbb <= kb)%R -> bi_mask bin = false /\ bi_kstat bin = kb /\ bi_varbeta bin = (s * s / kb)%R) /\
      (s <> 0%R -> kb = 0%R -> (minbb <= s)%R -> bi_mask bin = false /\ bi_kstat bin = s /\ bi_varbeta bin = s).
Proof.
  intros H A B M L. apply read_inv in H as (_ & _ & _ & _ & _ & _ & _ & _ & _ & _ & _ & _ & _ & _ & _ & _ & _ & _ & _ & S).
  rewrite (stat_old _ _ _ _ _ A B L M) in S. injection S as S1 S2. unfold lite_bins. rewrite <- S1, <- S2.
  set (y := yield (norm i) (List.length (procs i))). eexists. split; [reflexivity|].
  assert (E : forall n, map (fun p => mkinfo (snd p) (fst p) minbb) (combine (map y (seq 0 n)) (map (fun b => sumw2_of (y b) (nth b k 0%R)) (seq 0 n)))
              = map (fun b => mkinfo (sumw2_of (y b) (nth b k 0%R)) (y b) minbb) (seq 0 n)).
  { intros n. generalize (seq 0 n). intros q. induction q; cbn; auto. f_equal; auto. }
  rewrite E. split; [rewrite map_length, seq_length; auto|]. intros b Hb. cbv zeta.
  rewrite (nth_indep _ _ (mkinfo (sumw2_of (y 0) (nth 0 k 0%R)) (y 0) minbb)) by (rewrite map_length, seq_length; auto).
  rewrite (map_nth (fun b => mkinfo (sumw2_of (y b) (nth b k 0%R)) (y b) minbb) (seq 0 (nbinsfull i)) 0 b), seq_nth by auto. cbn [plus].
  split; [reflexivity|]. split; [|split].
  - intros Z. rewrite Z. apply old_masked.
  - intros. rewrite old_info; auto.
  - intros Sn Z Mi. rewrite Z, old_info0; auto.
Qed.
(** If hkstat was computed from the weights of the processes, none of them without uncertainty, both kinds of files agree *)
Theorem C96_agree es minbb : let s := sumR (map fst es) in let v := sumR (map snd es) in
  Forall (fun e : R * R => snd e <> 0%R) es -> v <> 0%R ->
  bi_mask (mkinfo (sumw2_of s (s * s / v)) s minbb) = bi_mask (lite_info es minbb) /\
  bi_kstat (mkinfo (sumw2_of s (s * s / v)) s minbb) = bi_kstat (lite_info es minbb) /\
  (s <> 0%R -> mkinfo (sumw2_of s (s * s / v)) s minbb = lite_info es minbb).
Proof. exact (agree_info es minbb). Qed.
(** and act in the same way on the total yield and on the yields of the processes *)
Theorem C96_apply t b ps beta : (t = NormalAdd -> (0 < sumR ps)%R) ->
  let new := apply_lite t b (map (fun p => (false, p)) ps) beta in
  fst (apply_old t b ps beta) = sumR new /\ snd (apply_old t b ps beta) = map Some new.
Proof. exact (apply_agree t b ps beta). Qed.

(** A bin without prediction: the uncertainty of its processes is lost by older files, *)
Theorem C96_cancel_refuted : exists es, let s := sumR (map fst es) in let v := sumR (map snd es) in
  Forall (fun e : R * R => snd e <> 0%R) es /\ v <> 0%R /\ bi_varbeta (mkinfo (sumw2_of s (s * s / v)) s 0) <> bi_varbeta (lite_info es 0).
Proof.
  exists [(3, 3); (- 3, 3)]%R. cbn. split; [repeat constructor; cbn; lra|]. split; [lra|].
  replace (3 + (-3 + 0))%R with 0%R by lra. unfold sumw2_of. replace (0 * 0 / (3 + (3 + 0)))%R with 0%R by lra. rewrite (Reqb_true 0 0) by auto. lra.
Qed.
(** and the additive form gives no number for the processes. *)
Theorem C96_additive_refuted : exists b ps, snd (apply_old NormalAdd b ps 1) = [None; None] /\ fst (apply_old NormalAdd b ps 1) = 2%R.
Proof.
  exists (mkBin 4 0 false 1), [0; 0]%R. unfold apply_old. cbn [bi_varbeta map sumR fold_right fst snd]. unfold tfdiv. rewrite Reqb_true by lra. split; auto.
  replace 4%R with (2 * 2)%R by lra. rewrite sqrt_square by lra. lra.
Qed.
(** A negative prediction with hkstat = 0 gets a negative variance and a negative number of events *)
Theorem C96_negative_refuted : exists s, let b := mkinfo (sumw2_of s 0) s 0 in bi_mask b = false /\ (bi_varbeta b < 0)%R /\ (bi_kstat b < 0)%R.
Proof.
  exists (-2)%R. cbv zeta. unfold mkinfo, betamask_of, sumw2_of. rewrite (Reqb_true 0 0) by auto. rewrite (Reqb_false (-2)) by lra. cbn [orb].
  destruct (Rltb_spec 0 0); [lra|]. cbn [bi_mask bi_varbeta bi_kstat]. repeat split; try lra.
Qed.

(** Full mode: the betas of an older file have no process axis. With several bins and several processes this is an error, *)
Theorem C96_full_error mask beta nrm nproc : List.length mask = List.length beta -> List.length nrm = List.length beta ->
  Forall (fun r => List.length r = nproc) nrm -> List.length beta <> nproc -> 1 < List.length beta -> nproc <> 1 -> apply_full mask beta nrm = Raise GenericException.
Proof. exact (full_error mask beta nrm nproc). Qed.
(** with one process every bin is multiplied by the sum of all betas, *)
Theorem C96_full_one beta nrm : 1 < List.length beta ->
  apply_full (repeat false (List.length beta)) beta (map (fun n => [n]) nrm) = Ok (map (fun n => n * sumR beta)%R nrm).
Proof. exact (full_one beta nrm). Qed.
(** with as many processes as bins the beta of bin p scales process p in all bins. *)
Theorem C96_full_square beta nrm : Forall (fun r => List.length r = List.length beta) nrm ->
  apply_full (repeat false (List.length beta)) beta nrm = Ok (map (dot beta) nrm).
Proof. exact (full_square beta nrm). Qed.
Theorem C96_full_refuted : exists nrm, List.length nrm = 3 /\ apply_full (repeat false 3) (repeat 1%R 3) (map (fun n => [n]) nrm) = Ok (map (fun n => 3 * n)%R nrm) /\ nrm <> map (fun n => 3 * n)%R nrm.
Proof.
  exists [1; 2; 4]%R. split; auto. split.
  - assert (X := full_one (repeat 1%R 3) [1; 2; 4]%R ltac:(cbn; lia)). rewrite repeat_length in X. rewrite X. f_equal. cbn. f_equal; [lra|]. f_equal; [lra|]. f_equal; lra.
  - cbn. intros E. injection E. intros. lra.
Qed.

(** Data of masked channels: nothing is written for channels marked as masked, *)
Theorem C96_observed f m i : read f (Some m) = Ok i ->
  list_sum (map (fun p : string * info => if flag (c_masked (i_chan (snd p))) then 0 else size_noflow (i_chan (snd p))) (channels i)) <= nbins i ->
  exists h, observed 0 (channels i) (data_obs i) = Ok h /\ dkeys h = map fst (filter (fun p => has_data (i_chan (snd p))) (channels i)).
Proof.
  intros H L. assert (N : nbins i = List.length (data_obs i)) by (apply read_inv in H; tauto). rewrite N in L.
  apply (observed_ok (channels i) 0 0 (data_obs i)); auto.
Qed.
(** but the channel of the masked bins of a file without metadata is not marked: it counts as a channel with data, the
    histograms of the data cannot be made, *)
Theorem C96_masked_old f i : read f None = Ok i -> nbins i < nbinsfull i ->
  existsb (fun p => has_data (i_chan (snd p)) && Nat.leb (nbins i) (i_start (snd p))) (channels i) = true /\
  observed 0 (channels i) (data_obs i) = Raise GenericException.
Proof.
  intros H L. apply read_inv in H as (_ & _ & _ & _ & _ & _ & _ & _ & _ & _ & _ & _ & _ & N & _ & (chs & C & ->) & _). cbn [chans_of] in C.
  unfold old_channels in C. destruct (Nat.ltb_spec (nbinsfull i) (nbins i)); [lia|]. injection C as <-. destruct (Nat.eqb_spec (nbinsfull i - nbins i) 0); [lia|].
  cbn [ranges existsb snd i_chan i_start has_data c_masked flag negb andb observed]. unfold size_of, size_noflow. cbn [c_flow c_axes flag map fst snd fold_right].
  rewrite !Nat.mul_1_r, !Nat.sub_0_r, !Nat.add_0_l. split.
  - rewrite (Nat.leb_refl (nbins i)). rewrite orb_true_r. auto.
  - cbn [skipn]. rewrite N, firstn_all, Nat.eqb_refl. rewrite skipn_all. rewrite firstn_nil. cbn [List.length].
    destruct (Nat.eqb_spec 0 (nbinsfull i - List.length (data_obs i))); [lia|]. auto.
Qed.
(** and the models with a parameter per bin stop at the missing key, also without masked bins. *)
Theorem C96_key_old f i : read f None = Ok i -> fit_channels (channels i) = Raise KeyError.
Proof.
  intros H. apply read_inv in H as (_ & _ & _ & _ & _ & _ & _ & _ & _ & _ & _ & _ & _ & _ & _ & (chs & C & ->) & _). cbn [chans_of] in C.
  unfold old_channels in C. destruct (Nat.ltb (nbinsfull i) (nbins i)); [discriminate|]. injection C as <-. destruct (Nat.eqb (nbinsfull i - nbins i) 0); reflexivity.
Qed.

(** ** examples: an old file with two bins of data, one masked bin and two processes *)
Definition base : file :=
  [("hprocs", Txt ["sig"; "bkg"]); ("hsignals", Txt ["sig"]); ("hsysts", Txt ["n1"; "n2"]); ("hsystsnoconstraint", Txt ["n2"]);
   ("hsystgroups", Txt ["g"]); ("hsystgroupidxs", Idx [[0; 1]]); ("hnoigroupidxs", Idx [[1]]);
   ("hdata_obs", V1 [11; 22]%R); ("hconstraintweights", Raw [1; 0]%R)].
Definition dense : file := [("hnorm", V2 2 [[4; 6]; [8; 0]; [5; 5]]%R); ("hlogk", Raw [])].
Definition coo : file := [("hnorm_sparse", Coo 3 2 [((0, 0), 4%R); ((0, 1), 6%R); ((1, 0), 8%R); ((2, 0), 5%R); ((2, 1), 5%R)]); ("hlogk_sparse", Raw [])].
Definition kstat : file := [("hkstat", V1 [50; 0; 20]%R)].
Definition want : ds * ds := (V1 [10; 8; 10]%R, V1 [2; 8; 5]%R).
Ltac nums := repeat (f_equal; try (cbn; lra)).
Example C96_ex_dense : exists i, read (base ++ dense ++ kstat)%list None = Ok i /\ (sumw i, sumw2 i) = want /\ nbins i = 2 /\ nbinsfull i = 3 /\ sparse i = false /\ noiidxs i = [[1]] /\
  map (fun p => (fst p, i_start (snd p), i_stop (snd p))) (channels i) = [("ch0", 0, 2); ("ch1_masked", 2, 3)].
Proof.
  eexists. split; [reflexivity|]. cbn [nbins nbinsfull sparse noiidxs channels]. repeat match goal with |- _ /\ _ => split end; try reflexivity.
  cbn. unfold want, sumw2_of. rewrite (Reqb_true 0 0) by auto. rewrite !Reqb_false by lra. nums.
Qed.
Lemma lite_of i s v m : (sumw i, sumw2 i) = (V1 s, V1 v) -> lite_bins i m = Ok (map (fun p => mkinfo (snd p) (fst p) m) (combine s v)).
Proof. intros E. injection E as A B. unfold lite_bins. rewrite A, B. auto. Qed.
Example C96_ex_coo : exists i, read (base ++ coo ++ kstat)%list None = Ok i /\ (sumw i, sumw2 i) = want /\ nbinsfull i = 3 /\ sparse i = true /\
  lite_bins i 0 = Ok [mkBin 2 10 false 50; mkBin 8 8 false 8; mkBin 5 10 false 20]%R.
Proof.
  eexists. split; [reflexivity|].
  match goal with |- ?A /\ _ => assert (H : A) end.
  { cbn. unfold want, sumw2_of. rewrite (Reqb_true 0 0) by auto. rewrite !Reqb_false by lra. nums. }
  split; auto. cbn [nbinsfull sparse]. split; auto. split; auto. etransitivity; [exact (lite_of _ _ _ 0%R H)|]. clear. cbn [combine map fst snd].
  unfold mkinfo, betamask_of. destruct (Rltb_spec 0 0); [lra|]. rewrite !Reqb_false by lra. cbn [orb]. f_equal. f_equal; [f_equal; lra|]. f_equal; [f_equal; lra|]. f_equal; f_equal; lra.
Qed.
(** the masked bin of this file stops the saving of the data *)
Theorem C96_masked_refuted : exists f i, read f None = Ok i /\ dkeys (channels i) = ["ch0"; "ch1_masked"] /\ observed 0 (channels i) (data_obs i) = Raise GenericException /\
  fit_channels (channels i) = Raise KeyError.
Proof.
  exists (base ++ dense ++ kstat)%list. eexists. split; [reflexivity|]. split; [reflexivity|]. split; [|reflexivity]. reflexivity.
Qed.
(** missing datasets, and the arrays of current files *)
Example C96_ex_missing : read (base ++ dense)%list None = Raise KeyError /\ read (dense ++ kstat)%list None = Raise KeyError /\
  read (base ++ [("hnorm", V2 2 [[4; 6]]%R); ("hlogk", Raw [])] ++ kstat)%list None = Raise ValueError /\
  read (base ++ coo ++ kstat)%list (Some (mkMeta [] None (Some true) None)) = Raise NotImplementedError.
Proof. repeat split; reflexivity. Qed.
Definition extra : file := [("hnoiidxs", Idx [[0]]); ("hdata_var", V1 [3; 4]%R); ("hdata_cov_inv", Raw [7]%R); ("hbetavariations", Raw [5]%R);
  ("hsumw", V2 2 [[1; 2]]%R); ("hsumw2", V2 2 [[3; 4]]%R)].
Definition mt := mkMeta [("a", mkChan [(2, 4)] (Some false) (Some false)); ("m", mkChan [(1, 3)] (Some true) (Some true))] (Some true) None (Some "normal").
Example C96_ex_current : exists i, read (extra ++ base ++ dense ++ kstat)%list (Some mt) = Ok i /\ noiidxs i = [[0]] /\ data_var i = Some [3; 4]%R /\ cov_inv i = Some (Raw [7]%R) /\ betavar i = Some (Raw [5]%R) /\
  sumw i = V2 2 [[1; 2]]%R /\ sumw2 i = V2 2 [[3; 4]]%R /\ symmetric i = true /\ systype i = "normal" /\
  map (fun p => (fst p, i_start (snd p), i_stop (snd p))) (channels i) = [("a", 0, 2); ("m", 2, 5)] /\
  observed 0 (channels i) (data_obs i) = Ok [("a", [11; 22]%R)] /\ fit_channels (channels i) = Ok ["a"].
Proof. eexists. split; [reflexivity|]. repeat split. Qed.
(** a single bin in full mode; one hkstat for all bins and one bin with several hkstat; the bins of a current file *)
Example C96_ex_single : apply_full [false] [2%R] [[3; 5]]%R = Ok [2 * 3 + (2 * 5 + 0)]%R /\
  broadcast2 sumw2_of [1; 2]%R [4]%R = Ok [sumw2_of 1 4; sumw2_of 2 4]%R /\ broadcast2 sumw2_of [4]%R [1; 2; 3]%R = Ok [sumw2_of 4 1; sumw2_of 4 2; sumw2_of 4 3]%R /\
  broadcast2 sumw2_of [1; 2]%R [1; 2; 3]%R = Raise GenericException.
Proof. repeat split; reflexivity. Qed.
Example C96_ex_bins : exists i, read (extra ++ base ++ dense ++ kstat)%list (Some mt) = Ok i /\ lite_bins i 0 = Ok [mkBin 7 3 false (9 / 7)]%R.
Proof.
  eexists. split; [reflexivity|]. unfold lite_bins. cbn [sumw sumw2 combine map fst snd]. unfold lite_info. cbn [map fst snd sumR fold_right combine]. rewrite !Reqb_false by lra.
  unfold mkinfo, betamask_of. destruct (Rltb_spec 0 0); [lra|]. rewrite !Reqb_false by lra. cbn [orb]. f_equal. f_equal. replace (3 + (4 + 0))%R with 7%R by lra. replace (1 + (2 + 0))%R with 3%R by lra. f_equal. lra.
Qed.
Print Assumptions C96_kstat.
Print Assumptions C96_old_layout.
