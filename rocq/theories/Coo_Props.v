(** Property C99: templates given as scipy sparse arrays. *)
From Coq Require Import Reals List Arith Bool String ZArith Permutation Sorted Lia Lra.
From Verif Require Import RBase PyList PyDict Order Num ListUtil Shape Names_Model Writer_Model Writer_Spec Writer_Hist Writer_Meta Writer_Inv Writer_Effects
  Multi_Model Multi_Geom Yields_Model Yields_Spec Yields_Proof Coo_Model Coo_Spec Coo_Proof.
Import ListNotations.
Local Open Scope string_scope.
Local Open Scope list_scope.
Local Open Scope R_scope.

(** the dense form of any sparse array holds in every bin the sum of what is stored there *)
Theorem C99_dense h idx : inside h -> in_shape (r_shape h) idx ->
  nth (ravel (r_shape h) idx) (raw_dense h) 0 = content h idx /\ List.length (raw_dense h) = prodn (r_shape h).
Proof. intros I S. split; [apply dense_content; auto|apply raw_dense_len]. Qed.
(** a one- or two-dimensional array without repeated coordinates gives a sorted row with the same content *)
Theorem C99_flat h : inside h -> canonical h -> (List.length (r_shape h) = 1 \/ List.length (r_shape h) = 2)%nat ->
  exists e, flat_csr h = Ok e /\ StronglySorted lt (map fst e) /\ Permutation (map snd e) (map snd (r_ents h)) /\
    (forall idx, in_shape (r_shape h) idx -> hist_at (HSparse e (raw_size h)) (ravel (r_shape h) idx) = content h idx).
Proof.
  intros I N D. destruct (csr_content h I N D) as (e & E & (S & _) & H). exists e. split; auto. split; auto. split.
  - unfold flat_csr, flat_indices in E. destruct (r_shape h) as [|a [|b [|c r]]]; cbn in E; try discriminate; injection E as <-.
    + match goal with |- Permutation (map snd (sort_k _ _ ?l)) _ => transitivity (map snd l); [apply Permutation_map, (sort_flat_perm l)|rewrite map_map; reflexivity] end.
    + match goal with |- Permutation (map snd (sort_k _ _ ?l)) _ => transitivity (map snd l); [apply Permutation_map, (sort_flat_perm l)|rewrite map_map; reflexivity] end.
  - intros idx X. rewrite hist_at_or0, H. apply dense_content; auto.
Qed.
(** what is booked in sparse mode, in dense mode and from the dense array is the same histogram *)
Theorem C99_same_histogram h v : inside h -> canonical h -> (List.length (r_shape h) = 1 \/ List.length (r_shape h) = 2)%nat ->
  exists hs hd, raw_histo true h = Ok hs /\ raw_histo false h = Ok hd /\ same_hist hs (HDense (raw_dense h) v) /\ same_hist hd (HDense (raw_dense h) v).
Proof.
  intros I N D. destruct (csr_content h I N D) as (e & E & W & H). unfold raw_histo. rewrite E. cbn [rbind]. eexists; eexists. split; [reflexivity|]. split; [reflexivity|].
  split; split; cbn [hsize]; try (symmetry; apply raw_dense_len); intros i.
  - rewrite hist_at_or0, H. auto.
  - rewrite hist_at_or0. cbn [hist_at]. pose proof (raw_dense_len h) as L. apply at_or0_char.
    + intros w Hw. apply In_nth_error in Hw. destruct Hw as (k & K). assert (KL : (k < raw_size h)%nat) by (assert (Q : nth_error (combine (seq 0 (raw_size h)) (raw_dense h)) k <> None) by congruence; apply nth_error_Some in Q; rewrite combine_length, seq_length in Q; lia).
      rewrite (nth_error_nth' _ (0%nat, 0)) in K by (rewrite combine_length, seq_length; lia). rewrite combine_nth in K by (rewrite seq_length; auto). rewrite seq_nth in K by auto. injection K as <- <-. auto.
    + intros K. apply nth_overflow. rewrite L. destruct (le_lt_dec (raw_size h) i) as [Q|Q]; auto. exfalso. apply K. apply in_map_iff. exists (i, nth i (raw_dense h) 0). split; auto.
      apply (nth_error_In _ i). rewrite (nth_error_nth' _ (0%nat, 0)) by (rewrite combine_length, seq_length; lia). rewrite combine_nth by (rewrite seq_length; auto). rewrite seq_nth by auto. auto.
Qed.
(** two scripts whose histograms have the same contents, whatever their representation, written in any mode, predict the same *)
Theorem C99_prediction cfg1 cfg2 ops1 ops2 w1 w2 np rinit t1 t2 r th (full : bool) n1 nc1 n2 nc2 :
  c_type cfg1 = c_type cfg2 -> c_allowneg cfg1 = c_allowneg cfg2 ->
  written cfg1 ops1 w1 -> written cfg2 ops2 w2 -> clean ops1 -> clean ops2 -> Forall2 same_op ops1 ops2 ->
  scale_logk (indata_of w1) np rinit = Ok t1 -> scale_logk (indata_of w2) np rinit = Ok t2 ->
  yields (indata_of w1) t1 r (map th (w_systs w1)) full = Ok (n1, nc1) ->
  yields (indata_of w2) t2 r (map th (w_systs w2)) full = Ok (n2, nc2) ->
  n1 = n2 /\ forall b ip, (b < List.length n1)%nat -> (ip < List.length (w_procs w1))%nat -> nc1 b ip = nc2 b ip.
Proof. exact (same_contents cfg1 cfg2 ops1 ops2 w1 w2 np rinit t1 t2 r th full n1 nc1 n2 nc2). Qed.
(** the size check: without flow bins the size of the channel *)
Theorem C99_check info (h : raw R) : ch_flow info = false -> raw_check info h = None <-> prodn (r_shape h) = axes_size (ch_axes info) (ch_flow info).
Proof.
  intros F. unfold raw_check, axes_size, raw_size. rewrite F.
  assert (M : map (fun a : nat * nat => fst a) (ch_axes info) = map fst (ch_axes info)) by reflexivity. rewrite M. destruct (Nat.eqb_spec (prodn (r_shape h)) (prodn (map fst (ch_axes info)))); split; congruence.
Qed.
(** coordinates that are stored twice: a variation read at a bin is one of the stored entries, never their sum *)
Theorem C99_one_entry (h : raw R) e k v : flat_csr h = Ok e -> sparse_values_at e [k] = Ok [v] ->
  v = 0 \/ exists c, In (c, v) (r_ents h) /\ ravel (r_shape h) c = k.
Proof.
  intros E H. unfold sparse_values_at in H. destruct (forallb _ [k]) eqn:F; [|discriminate]. cbn [forallb] in F. rewrite andb_true_r in F. apply Nat.ltb_lt in F. cbn [map] in H. injection H as H.
  destruct (Nat.eqb_spec (nth (searchsorted (map fst e) k) (map fst e) 0%nat) k) as [Q|Q]; [right|left; auto].
  rewrite map_length in F. set (j := searchsorted (map fst e) k) in *.
  assert (I : In (nth j e (0%nat, 0)) e) by (apply nth_In; auto). pose proof (map_nth fst e (0%nat, 0) j) as M1. cbn [fst] in M1. rewrite M1 in Q. pose proof (map_nth snd e (0%nat, 0) j) as M2. cbn [snd] in M2. change (@n0 R _) with 0 in H. rewrite M2 in H.
  unfold flat_csr, flat_indices in E. assert (G : e = sort_flat (map (fun x => (ravel (r_shape h) (fst x), snd x)) (r_ents h))).
  { destruct (r_shape h) as [|a [|b [|c r]]]; cbn in E; try discriminate; injection E as <-; reflexivity. }
  rewrite G in I at 2. apply (Permutation_in _ (sort_flat_perm _)) in I. apply in_map_iff in I. destruct I as ([c w] & X & I). cbn [fst snd] in X. rewrite <- X in Q, H. cbn [fst snd] in Q, H. subst. exists c. auto.
Qed.

(** ** a two-dimensional array in any order *)
Definition ex_raw : raw R := mkRaw [2; 3]%nat [([1; 2]%nat, 7); ([0; 1]%nat, 5)].
Example C99_example : inside ex_raw /\ canonical ex_raw /\ no_zeros ex_raw /\ flat_csr ex_raw = Ok [(1%nat, 5); (5%nat, 7)] /\
  content ex_raw [1; 2]%nat = 7 /\ content ex_raw [1; 1]%nat = 0.
Proof.
  split; [repeat constructor|]. split; [repeat constructor; cbn; intuition discriminate|]. split; [repeat constructor; cbn; lra|]. split; [reflexivity|].
  unfold content. cbn. split; lra.
Qed.
(** the same script with the sparse array in sparse mode and with the dense array in dense mode *)
Definition ex_sparse : list (op R) := [AddChannel (Some "c") [(2, 2); (3, 3)]%nat false false;
  AddProcess (HSparse [(1%nat, 5); (5%nat, 7)] 6) "p" "c" true None; AddData "c" [1; 1; 1; 1; 1; 1] [1; 1; 1; 1; 1; 1]].
Definition ex_dense : list (op R) := [AddChannel (Some "c") [(2, 2); (3, 3)]%nat false false;
  AddProcess (HDense [0; 5; 0; 0; 0; 7] []) "p" "c" true (Some [1; 1; 1; 1; 1; 1]); AddData "c" [1; 1; 1; 1; 1; 1] [1; 1; 1; 1; 1; 1]].
Lemma ex_raw_dense : raw_dense ex_raw = [0; 5; 0; 0; 0; 7].
Proof. unfold raw_dense. cbn. repeat f_equal; lra. Qed.
Lemma flat_var_ones : flat_variances [1; 1; 1; 1; 1; 1] = Ok [1; 1; 1; 1; 1; 1].
Proof. unfold flat_variances, neg. cbn [existsb nlt n0 Num_R]. rewrite !Rltb_false by lra. reflexivity. Qed.
Lemma ex_sparse_written : exists w, written (mkCfg true LogNormal true) ex_sparse w.
Proof.
  assert (R : exists st, run (mkCfg true LogNormal true) init_state ex_sparse = Ok st /\ exists w, write (mkCfg true LogNormal true) st = Ok w).
  { unfold ex_sparse. cbn [run step]. unfold add_channel, add_process, add_data. cbn -[flat_variances write]. rewrite flat_var_ones. eexists. split; [reflexivity|]. eexists. cbv [write]. reflexivity. }
  destruct R as (st & R & w & W). exists w, st. auto.
Qed.
Definition ex_st1 : state R := fst (add_channel init_state (Some "c") [(2, 2); (3, 3)]%nat false false).
Definition ex_nm : list R := [0; 5; 0; 0; 0; 7].
Definition ex_ones : list R := [1; 1; 1; 1; 1; 1].
Definition ex_st2 : state R := let st1 := set_names ex_st1 ["p"] [] in
  let st2 := set_logk st1 (upd2 (st_logkavg st1) "c" "p" []) (upd2 (st_logkhalf st1) "c" "p" []) (st_symmetric st1) in
  set_norm st2 (upd2 (st_norm st2) "c" "p" (Some (NDense ex_nm))) (upd2 (st_sumw2 st2) "c" "p" (Some ex_ones)).
Definition ex_st3 : state R := let st1 := set_data ex_st2 (upd1 (st_data_obs ex_st2) "c" (Some ex_ones)) (st_data_var ex_st2) in
  set_data st1 (st_data_obs st1) (upd1 (st_data_var st1) "c" (Some ex_ones)).
Lemma ex_step2 : add_process (mkCfg false LogNormal true) ex_st1 (HDense ex_nm []) "p" "c" true (Some ex_ones) = (ex_st2, None).
Proof.
  unfold add_process. change (check_hist ex_st1 (HDense ex_nm []) "c") with (@None pyexc). change (st_norm ex_st1 "c" "p") with (@None (normarr R)). cbv iota beta.
  change (store_norm (mkCfg false LogNormal true) (HDense ex_nm [])) with (Ok (NDense ex_nm)). unfold store_sumw2. change ex_ones with [1; 1; 1; 1; 1; 1] at 1. rewrite flat_var_ones. reflexivity.
Qed.
Lemma ex_step3 : add_data ex_st2 "c" ex_ones ex_ones = (ex_st3, None).
Proof.
  unfold add_data. change (check_hist ex_st2 (HDense ex_ones ex_ones) "c") with (@None pyexc). change (st_data_obs ex_st2 "c") with (@None (list R)). cbv iota beta zeta.
  change (flat_variances ex_ones) with (flat_variances [1; 1; 1; 1; 1; 1]). rewrite flat_var_ones. reflexivity.
Qed.
Lemma ex_dense_written : exists w, written (mkCfg false LogNormal true) ex_dense w.
Proof.
  assert (W : exists w, write (mkCfg false LogNormal true) ex_st3 = Ok w) by (eexists; cbv [write]; reflexivity).
  destruct W as (w & W). exists w, ex_st3. split; [|exact W].
  change ex_dense with [AddChannel (Some "c") [(2, 2); (3, 3)]%nat false false; AddProcess (HDense ex_nm []) "p" "c" true (Some ex_ones); AddData "c" ex_ones ex_ones].
  cbn [run]. change (step (mkCfg false LogNormal true) init_state (AddChannel (Some "c") [(2, 2); (3, 3)]%nat false false)) with (ex_st1, @None pyexc). cbv iota beta.
  cbn [step]. rewrite ex_step2. cbv iota beta. rewrite ex_step3. reflexivity.
Qed.
Example C99_prediction_example : clean ex_sparse /\ clean ex_dense /\ Forall2 same_op ex_sparse ex_dense /\
  (exists w, written (mkCfg true LogNormal true) ex_sparse w) /\ (exists w, written (mkCfg false LogNormal true) ex_dense w).
Proof.
  split; [|split; [|split; [|split]]].
  - split; [repeat constructor; cbn; lia|]. split; [repeat constructor; cbn; try discriminate; lra|]. split; [repeat constructor; cbn; intuition discriminate|]. intros s ((kw & A & _) & _). destruct A.
  - split; [repeat constructor; cbn; lia|]. split; [repeat constructor|]. split; [repeat constructor; cbn; intuition discriminate|]. intros s ((kw & A & _) & _). destruct A.
  - constructor; [apply so_refl|]. constructor; [|constructor; [apply so_refl|constructor]]. apply so_proc. split; [reflexivity|].
    destruct C99_example as (I & N & _ & E & _). destruct (C99_same_histogram ex_raw [] I N) as (hs & hd & A & _ & (_ & B) & _); [right; reflexivity|].
    unfold raw_histo in A. rewrite E in A. injection A as <-. rewrite ex_raw_dense in B. exact B.
  - exact ex_sparse_written.
  - exact ex_dense_written.
Qed.

(** ** what fails *)
(** three dimensions: accepted in dense mode only *)
Theorem C99_dimension_refuted : exists h : raw R, inside h /\ canonical h /\ (exists hd, raw_histo false h = Ok hd) /\ raw_histo true h = Raise ValueError.
Proof.
  exists (mkRaw [1; 1; 1]%nat [([0; 0; 0]%nat, 1)]). split; [repeat constructor|]. split; [repeat constructor; cbn; tauto|]. split; [eexists; reflexivity|reflexivity].
Qed.
Theorem C99_dimension (h : raw R) : (List.length (r_shape h) <> 1)%nat -> (List.length (r_shape h) <> 2)%nat -> raw_histo true h = Raise ValueError.
Proof. intros A B. unfold raw_histo, flat_csr, flat_indices. destruct (r_shape h) as [|a [|b [|c r]]]; cbn in *; auto; congruence. Qed.
(** channels with flow bins: the accepted size is not the size of the channel *)
Theorem C99_flow_refuted : exists info (h g : raw R), ch_flow info = true /\ raw_check info h = None /\ prodn (r_shape h) <> axes_size (ch_axes info) true /\
  raw_check info g = Some RuntimeError /\ prodn (r_shape g) = axes_size (ch_axes info) true.
Proof.
  exists (mkCh [(2, 4)]%nat true true), (mkRaw [2]%nat []), (mkRaw [4]%nat []). repeat split; cbn; auto; lia.
Qed.
Section Duplicates.
#[local] Existing Instance Num_Z.
Local Open Scope Z_scope.
(** a bin filled twice: the total in the file is one of the entries (the prediction adds them up) *)
Theorem C99_repeated_total_refuted : exists (h : raw Z) e w sp, flat_csr h = Ok e /\
  written (mkCfg true LogNormal false) [AddChannel (Some "c") [(2, 2)]%nat false false; AddProcess (HSparse e 2) "p" "c" true (Some (raw_dense h)); AddData "c" [1; 1] [1; 1]] w /\
  raw_dense h = [3; 4] /\ w_sumw w 0%nat 0%nat = 2 /\ w_sumw2 w 0%nat 0%nat = 3 /\
  w_tensors w = TSparse sp /\ sp_norm sp = [((0%nat, 0%nat), 1); ((0%nat, 0%nat), 2); ((1%nat, 0%nat), 4)].
Proof.
  exists (mkRaw [2]%nat [([0]%nat, 1); ([1]%nat, 4); ([0]%nat, 2)]). eexists; eexists; eexists. split; [vm_compute; reflexivity|].
  split; [eexists; split; [vm_compute; reflexivity|vm_compute; reflexivity]|]. repeat split; vm_compute; reflexivity.
Qed.
(** a variation filled twice in one bin is read as its first entry *)
Theorem C99_repeated_variation_refuted : exists (h : raw Z) e v, flat_csr h = Ok e /\ sparse_values_at e [0%nat] = Ok [v] /\ v <> nth 0 (raw_dense h) 0.
Proof. exists (mkRaw [1]%nat [([0]%nat, 1); ([0]%nat, 1)]). eexists; eexists. split; [vm_compute; reflexivity|]. split; [vm_compute; reflexivity|]. vm_compute. discriminate. Qed.
(** negative entries are cut before they are added up *)
Theorem C99_repeated_clip_refuted : exists (h : raw Z) e n, flat_csr h = Ok e /\ nth 0 (raw_dense h) 0 = 2 /\
  store_norm (mkCfg true LogNormal false) (HSparse e 1) = Ok (NSparse n 1) /\ n = [(0%nat, 3)].
Proof. exists (mkRaw [1]%nat [([0]%nat, 3); ([0]%nat, -1)]). eexists; eexists. repeat split; vm_compute; reflexivity. Qed.
(** a variation whose last filled bin is before the last filled bin of the nominal: an error in sparse mode only *)
Theorem C99_short_variation_refuted : exists (n h : raw Z) en eh eh', flat_csr n = Ok en /\ raw_histo true h = Ok eh /\ raw_histo false h = Ok eh' /\
  let ops x := [AddChannel (Some "c") [(2, 2)]%nat false false; AddProcess (HSparse en 2) "p" "c" true None;
    AddSystematic (SSingle x) "s" "p" "c" 1 true Average false (mkKw false true None); AddData "c" [1; 1] [1; 1]] in
  run (mkCfg true LogNormal false) init_state (ops eh) = Raise IndexError /\ exists w, written (mkCfg false LogNormal false) (ops eh') w.
Proof.
  exists (mkRaw [2]%nat [([0]%nat, 1); ([1]%nat, 4)]), (mkRaw [2]%nat [([0]%nat, 2)]). eexists; eexists; eexists. split; [vm_compute; reflexivity|]. split; [vm_compute; reflexivity|]. split; [vm_compute; reflexivity|].
  split; [vm_compute; reflexivity|]. eexists. eexists. split; vm_compute; reflexivity.
Qed.
End Duplicates.

Print Assumptions C99_dense.
Print Assumptions C99_flat.
Print Assumptions C99_same_histogram.
Print Assumptions C99_prediction.
Print Assumptions C99_check.
Print Assumptions C99_one_entry.
Print Assumptions C99_dimension.
Print Assumptions C99_dimension_refuted.
Print Assumptions C99_flow_refuted.
Print Assumptions C99_repeated_total_refuted.
Print Assumptions C99_repeated_variation_refuted.
Print Assumptions C99_repeated_clip_refuted.
Print Assumptions C99_short_variation_refuted.
