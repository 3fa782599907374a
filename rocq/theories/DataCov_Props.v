(** C92: systematic uncertainties folded into the covariance of the data act as explicit nuisances. *)
From Coq Require Import Reals List Arith Bool String Lia Lra.
From Verif Require Import Mat_Proof Impacts_Solve RBase PyList PyDict Mat_Model Impacts_Model DataCov_Model DataCov_Spec DataCov_Proof.
Import ListNotations.
Open Scope R_scope.

(** a variation added to the data covariance is booked as the absolute change of its process, nothing else changes *)
Theorem C92_booked_one : forall w c p s ch e, dget c (cw_chans w) = Some ch -> dget p (ch_procs ch) = Some e -> cw_sparse w = false -> writer_ok w ->
  forall h kf m asdiff con, List.length h = ch_n ch ->
  exists w', add_cov_syst w (One h) s p c kf true m asdiff false con = Ok w' /\ booked w w' c p s (fun b => wanted_one kf asdiff (nth b (pe_norm e) 0) (nth b h 0)) (ch_n ch).
Proof. exact add_one. Qed.
Theorem C92_booked_two : forall w c p s ch e, dget c (cw_chans w) = Some ch -> dget p (ch_procs ch) = Some e -> cw_sparse w = false -> writer_ok w ->
  forall hu hd kf, List.length hu = ch_n ch -> List.length hd = ch_n ch -> forall con,
  exists w', add_cov_syst w (Two hu hd) s p c kf true Average false false con = Ok w' /\
    booked w w' c p s (fun b => wanted_avg kf (nth b (pe_norm e) 0) (nth b hu 0) (nth b hd 0)) (ch_n ch).
Proof. exact add_two. Qed.
Theorem C92_booked_split : forall w c p s ch e, dget c (cw_chans w) = Some ch -> dget p (ch_procs ch) = Some e -> cw_sparse w = false -> writer_ok w ->
  forall hu hd kf, List.length hu = ch_n ch -> List.length hd = ch_n ch -> forall m con, m = Linear \/ m = Quadratic ->
  exists w1 w', add_cov_syst w (Two hu hd) s p c kf true m false false con = Ok w' /\
    booked w w1 c p (s ++ "SymDiff") (fun b => (if match m with Quadratic => true | _ => false end then sqrt 3 else 1) * wanted_diff kf (nth b (pe_norm e) 0) (nth b hu 0) (nth b hd 0)) (ch_n ch) /\
    booked w1 w' c p (s ++ "SymAvg") (fun b => wanted_avg kf (nth b (pe_norm e) 0) (nth b hu 0) (nth b hd 0)) (ch_n ch).
Proof. exact add_split. Qed.
Theorem C92_booked_conservative : forall w c p s ch e, dget c (cw_chans w) = Some ch -> dget p (ch_procs ch) = Some e -> cw_sparse w = false -> writer_ok w ->
  forall hu hd kf, List.length hu = ch_n ch -> List.length hd = ch_n ch -> forall con,
  exists w' v, add_cov_syst w (Two hu hd) s p c kf true Conservative false false con = Ok w' /\ booked w w' c p s v (ch_n ch) /\
  forall b, (b < ch_n ch)%nat -> let u := kf * (nth b hu 0 - nth b (pe_norm e) 0) in let d := kf * (nth b (pe_norm e) 0 - nth b hd 0) in
    if Reqb (nth b (pe_norm e) 0) 0 then v b = 0 else (v b = u \/ v b = d) /\ Rabs (v b) = Rmax (Rabs u) (Rabs d).
Proof. exact add_conservative. Qed.
(** parameters of interest, one-sided and asymmetric variations are refused *)
Theorem C92_rejected : forall w c p s ch e, dget c (cw_chans w) = Some ch -> dget p (ch_procs ch) = Some e -> cw_sparse w = false -> writer_ok w ->
  forall h hu hd kf m asdiff con, List.length h = ch_n ch -> List.length hu = ch_n ch -> List.length hd = ch_n ch ->
  add_cov_syst w (One h) s p c kf true m asdiff true con = Raise ValueError /\ add_cov_syst w (One h) s p c kf false m asdiff false con = Raise RuntimeError /\
  add_cov_syst w (Two hu hd) s p c kf true NoSym asdiff false con = Raise RuntimeError.
Proof. exact add_rejected. Qed.
(** the file holds the inverse of the covariance of the data plus the outer products of the changes of the total yields *)
Theorem C92_written : forall w, writer_ok w -> no_masked w -> cw_sparse w = false -> cw_bbb w = false -> has_cov w -> data_pos w ->
  exists M W, write w = Ok (set_cov w (nbins w, M), Some (nbins w, W)) /\ inverse_of (nbins w) (total_cov w) W /\
    forall a b, (a < nbins w)%nat -> (b < nbins w)%nat -> M a b = total_cov w a b.
Proof. exact write_ok. Qed.
(** for any residuals, the chi2 with it is the minimum over the nuisances of the chi2 in which they are explicit *)
Theorem C92_profile : forall w, writer_ok w -> no_masked w -> cw_sparse w = false -> cw_bbb w = false -> has_cov w -> data_pos w ->
  exists w' W, write w = Ok (w', Some (nbins w, W)) /\ forall Vi, inverse_of (nbins w) (data_part w) Vi -> forall r,
    (exists theta, chi2_explicit w Vi r theta = chi2 (nbins w) W r) /\ forall theta, chi2 (nbins w) W r <= chi2_explicit w Vi r theta.
Proof. exact write_profile. Qed.
(** a second write adds the variations again *)
Theorem C92_again : forall w, writer_ok w -> no_masked w -> cw_sparse w = false -> cw_bbb w = false -> has_cov w -> data_pos w ->
  exists w' W w'' W', write w = Ok (w', Some (nbins w, W)) /\ write w' = Ok (w'', Some (nbins w, W')) /\
    inverse_of (nbins w) (fun a b => data_part w a b + 2 * syst_part w a b) W'.
Proof. exact write_again. Qed.
(** add_bin_by_bin_stat_to_data_cov with one process: its first sum of squared weights is added to every element *)
Theorem C92_bbb_one : forall w p, writer_ok w -> no_masked w -> cw_sparse w = false -> cw_bbb w = true -> data_pos w -> cw_procs w = [p] -> (0 < nbins w)%nat ->
  0 <= mc_variance_of (chans w) p 0 ->
  exists w' W, write w = Ok (w', Some (nbins w, W)) /\ inverse_of (nbins w) (fun a b => total_cov w a b + mc_variance_of (chans w) p 0) W.
Proof. intros w p OK. rewrite <- (sumw2_at_concat (chans w) p 0) by apply OK. apply write_bbb_one; auto. Qed.
(** with at least as many processes as bins, the b-th process in the b-th bin is added to the whole column *)
Theorem C92_bbb_square : forall w, writer_ok w -> no_masked w -> cw_sparse w = false -> cw_bbb w = true -> (nbins w <= List.length (cw_procs w))%nat ->
  regular (nbins w) (fun a b => total_cov w a b + mc_variance_of (chans w) (nth b (cw_procs w) EmptyString) b) ->
  exists w' W, write w = Ok (w', Some (nbins w, W)) /\ inverse_of (nbins w) (fun a b => total_cov w a b + mc_variance_of (chans w) (nth b (cw_procs w) EmptyString) b) W.
Proof. exact write_bbb_square. Qed.
(** with more processes, but fewer than bins, it cannot be written *)
Theorem C92_bbb_many : forall w, writer_ok w -> no_masked w -> cw_sparse w = false -> cw_bbb w = true -> (1 < List.length (cw_procs w) < nbins w)%nat -> write w = Raise ValueError.
Proof. exact write_bbb_many. Qed.
(** nor with a masked channel, nor in sparse mode *)
Theorem C92_masked : forall w c, writer_ok w -> cw_sparse w = false -> In c (chans w) -> ch_masked c = true -> (0 < ch_n c)%nat -> (0 < nbins w)%nat -> cw_covsysts w <> [] ->
  write w = Raise ValueError.
Proof. exact write_masked. Qed.
Theorem C92_sparse : forall w c p e s k, no_masked w -> cw_sparse w = true -> In c (chans w) -> In p (cw_procs w) -> dget p (ch_procs c) = Some e -> In (s, k) (pe_logk e) ->
  smem s (cw_systs w) = false -> k <> [] -> write w = Raise AssertionError.
Proof. exact write_sparse. Qed.

(** two bins with variances 1, a process with yields 4 and 2 and a variation to 5 and 4: covariance ((2,2),(2,5)) *)
Definition ex_proc := mkP [4; 2] [1; 4] [].
Definition ex_w (bbb : bool) : cwriter := mkW false bbb ["s"%string] [("c"%string, mkC 2 false [1; 1] [("s"%string, ex_proc)])] [] [] None.
Lemma ex_ok bbb : writer_ok (ex_w bbb) /\ no_masked (ex_w bbb).
Proof.
  split; [|intros c [<-|[]]; reflexivity]. split; [repeat constructor; intros []|]. split; [|split; [|exact I]].
  - constructor; [|constructor]. split; [reflexivity|]. split; [repeat constructor; intros []|]. intros p e [H|[]]. injection H as <- <-. repeat split. intros s k H. discriminate.
  - intros c p [<-|[]] [<-|[]]. left. reflexivity.
Qed.
Lemma two_pos w : nbins w = 2%nat -> (forall a b, (a < 2)%nat -> (b < 2)%nat -> data_part w a b = if Nat.eqb a b then 1 else 0) -> data_pos w.
Proof.
  intros N D. split; rewrite N.
  - intros a b Ha Hb. rewrite !D by auto. rewrite Nat.eqb_sym. reflexivity.
  - intros x (i & Hi & X). cbn [sm]. rewrite !D by lia. cbn [Nat.eqb]. assert (S0 := Rle_0_sqr (x 0%nat)). assert (S1 := Rle_0_sqr (x 1%nat)). assert (P := Rsqr_pos_lt _ X). unfold Rsqr in *.
    assert (i = 0 \/ i = 1)%nat as [-> | ->] by lia; lra.
Qed.
Definition ex_w1 : cwriter := mkW false false ["s"%string] [("c"%string, mkC 2 false [1; 1] [("s"%string, mkP [4; 2] [1; 4] [("k"%string, stored false [4; 2] (logk_normal 1 [5; 4] [4; 2]))])])] [] ["k"%string] None.
Example C92_ex_booked : add_cov_syst (ex_w false) (One [5; 4]) "k" "s" "c" 1 true Average false false true = Ok ex_w1.
Proof. reflexivity. Qed.
Lemma ex_shift : total_shift (chans ex_w1) "k" 0 = 1 /\ total_shift (chans ex_w1) "k" 1 = 2.
Proof. split; cbn; rewrite !Reqb_false by lra; ring. Qed.
Lemma ex1_ok : writer_ok ex_w1 /\ no_masked ex_w1 /\ data_pos ex_w1.
Proof.
  destruct (C92_booked_one (ex_w false) "c" "s" "k" (mkC 2 false [1; 1] [("s"%string, ex_proc)]) ex_proc) with (h := [5; 4]) (kf := 1) (m := Average) (asdiff := false) (con := true) as (w' & E & B & _); auto; [apply ex_ok|].
  rewrite C92_ex_booked in E. injection E as <-. split; [exact B|]. split; [intros c [<-|[]]; reflexivity|]. apply two_pos; [reflexivity|]. intros a b Ha Hb. cbn [data_part ex_w1 cw_cov].
  destruct (Nat.eqb a b); auto. assert (a = 0 \/ a = 1)%nat as [-> | ->] by lia; reflexivity.
Qed.
Lemma ex_total : total_cov ex_w1 0 0 = 2 /\ total_cov ex_w1 0 1 = 2 /\ total_cov ex_w1 1 0 = 2 /\ total_cov ex_w1 1 1 = 5.
Proof.
  destruct ex_shift as (S0 & S1). unfold total_cov, data_part, syst_part. change (cw_covsysts ex_w1) with ["k"%string]. cbn [map sumR fold_right]. rewrite S0, S1.
  cbn [ex_w1 cw_cov Nat.eqb]. change (data_variance (chans ex_w1) 0) with 1. change (data_variance (chans ex_w1) 1) with 1. repeat split; lra.
Qed.
Example C92_ex : exists w' W, write ex_w1 = Ok (w', Some (2%nat, W)) /\ W 0%nat 0%nat = 5 / 6 /\ W 0%nat 1%nat = - (1 / 3) /\ W 1%nat 0%nat = - (1 / 3) /\ W 1%nat 1%nat = 1 / 3.
Proof.
  destruct ex1_ok as (OK & NM & DP). destruct (C92_written ex_w1 OK NM eq_refl eq_refl) as (M & W & E & I & _); auto; [right; discriminate|].
  exists (set_cov ex_w1 (nbins ex_w1, M)), W. split; [exact E|]. change (nbins ex_w1) with 2%nat in I. destruct ex_total as (T0 & T1 & T2 & T3).
  assert (I00 := I 0%nat 0%nat ltac:(lia) ltac:(lia)). assert (I01 := I 0%nat 1%nat ltac:(lia) ltac:(lia)). assert (I10 := I 1%nat 0%nat ltac:(lia) ltac:(lia)). assert (I11 := I 1%nat 1%nat ltac:(lia) ltac:(lia)).
  cbn [sm Nat.eqb] in *. rewrite T0, T1 in *. rewrite T2, T3 in *. repeat split; lra.
Qed.
(** residuals (1, 2), exactly the variation, cost 5/6: half of it goes to the nuisance *)
Example C92_profile_ex : exists w' W, write ex_w1 = Ok (w', Some (2%nat, W)) /\ chi2 2 W (fun a => INR (S a)) = 5 / 6.
Proof. destruct C92_ex as (w' & W & E & W0 & W1 & W2 & W3). exists w', W. split; auto. unfold chi2. cbn [sm]. rewrite W0, W1, W2, W3. cbn [INR]. lra. Qed.

(** *** refuted *)
Lemma ex_bbb_total : total_cov (ex_w true) 0 0 = 1 /\ total_cov (ex_w true) 0 1 = 0 /\ total_cov (ex_w true) 1 0 = 0 /\ total_cov (ex_w true) 1 1 = 1.
Proof. unfold total_cov, data_part, syst_part. cbn. repeat split; lra. Qed.
(** the statistical variances of the prediction are not added to the diagonal *)
Theorem C92_bbb_refuted : exists w w' W, writer_ok w /\ no_masked w /\ cw_sparse w = false /\ cw_bbb w = true /\ data_pos w /\ write w = Ok (w', Some (nbins w, W)) /\
  ~ inverse_of (nbins w) (fun a b => total_cov w a b + if Nat.eqb a b then mc_variance (chans w) a else 0) W.
Proof.
  destruct (ex_ok true) as (OK & NM).
  assert (DP : data_pos (ex_w true)). { apply two_pos; [reflexivity|]. intros a b Ha Hb. cbn [data_part ex_w cw_cov]. destruct (Nat.eqb a b); auto. assert (a = 0 \/ a = 1)%nat as [-> | ->] by lia; reflexivity. }
  destruct (C92_bbb_one (ex_w true) "s" OK NM eq_refl eq_refl DP eq_refl) as (w' & W & E & I); [cbn; lia|cbn; lra|].
  exists (ex_w true), w', W. repeat split; auto; try apply OK; try apply DP. intros J. change (nbins (ex_w true)) with 2%nat in *. destruct ex_bbb_total as (T0 & T1 & T2 & T3).
  assert (I00 := I 0%nat 0%nat ltac:(lia) ltac:(lia)). assert (I10 := I 1%nat 0%nat ltac:(lia) ltac:(lia)). assert (J00 := J 0%nat 0%nat ltac:(lia) ltac:(lia)). assert (J10 := J 1%nat 0%nat ltac:(lia) ltac:(lia)).
  cbn [sm Nat.eqb] in *. rewrite T0, T1 in *. rewrite T2, T3 in *. change (mc_variance_of (chans (ex_w true)) "s" 0) with 1 in *.
  replace (mc_variance (chans (ex_w true)) 0) with 1 in * by (cbn; lra). replace (mc_variance (chans (ex_w true)) 1) with 4 in * by (cbn; lra). lra.
Qed.
Definition ex_many : cwriter := mkW false true ["b"%string; "s"%string] [("c"%string, mkC 3 false [1; 1; 1] [("s"%string, mkP [4; 2; 1] [1; 4; 1] []); ("b"%string, mkP [4; 2; 1] [1; 4; 1] [])])] [] [] None.
Theorem C92_bbb_many_refuted : exists w, writer_ok w /\ no_masked w /\ cw_sparse w = false /\ cw_bbb w = true /\ (forall b, (b < nbins w)%nat -> 0 < data_variance (chans w) b) /\ write w = Raise ValueError.
Proof.
  exists ex_many. assert (OK : writer_ok ex_many).
  { split; [repeat constructor; cbn; intuition discriminate|]. split; [|split; [|exact I]].
    - constructor; [|constructor]. split; [reflexivity|]. split; [repeat constructor; cbn; intuition discriminate|]. intros p e [H|[H|[]]]; injection H as <- <-; repeat split; intros s k H; discriminate.
    - intros c p [<-|[]] [<-|[<-|[]]]; cbn; auto. }
  assert (NM : no_masked ex_many) by (intros c [<-|[]]; reflexivity).
  split; [exact OK|]. split; [exact NM|]. split; [reflexivity|]. split; [reflexivity|]. split.
  - intros b Hb. change (nbins ex_many) with 3%nat in Hb. assert (b = 0 \/ b = 1 \/ b = 2)%nat as [-> | [-> | ->]] by lia; cbn; lra.
  - apply C92_bbb_many; auto.
Qed.
(** a masked channel *)
Definition ex_masked : cwriter := mkW false false ["s"%string] (cw_chans ex_w1 ++ [("m"%string, mkC 1 true [0] [("s"%string, mkP [4] [1] [])])]) [] ["k"%string] None.
Theorem C92_masked_refuted : exists w, writer_ok w /\ cw_sparse w = false /\ cw_bbb w = false /\ has_cov w /\ data_pos w /\ write w = Raise ValueError.
Proof.
  exists ex_masked. assert (OK : writer_ok ex_masked).
  { destruct ex1_ok as ((ND & F & IP & _) & _). split; [exact ND|]. split; [|split; [|exact I]].
    - change (chans ex_masked) with (chans ex_w1 ++ [mkC 1 true [0] [("s"%string, mkP [4] [1] [])]]). apply Forall_app. split; [exact F|]. constructor; [|constructor]. split; [reflexivity|]. split; [repeat constructor; intros []|]. intros p e [H|[]]. injection H as <- <-. repeat split. intros s k H; discriminate.
    - intros c p [<-|[<-|[]]] [<-|[]]; left; reflexivity. }
  split; [exact OK|]. split; [reflexivity|]. split; [reflexivity|]. split; [right; discriminate|]. split.
  - apply two_pos; [reflexivity|]. intros a b Ha Hb. cbn [data_part ex_masked cw_cov]. destruct (Nat.eqb a b); auto. assert (a = 0 \/ a = 1)%nat as [-> | ->] by lia; reflexivity.
  - apply (C92_masked _ (mkC 1 true [0] [("s"%string, mkP [4] [1] [])])); auto; try discriminate; try (cbn; lia). right; left; reflexivity.
Qed.
(** the sparse mode *)
Definition ex_sparse : cwriter := mkW true false ["s"%string] (cw_chans (ex_w false)) [] [] None.
Theorem C92_sparse_refuted : exists w w', cw_sparse w = true /\ no_masked w /\ add_cov_syst w (One [5; 4]) "k" "s" "c" 1 true Average false false true = Ok w' /\ write w' = Raise AssertionError.
Proof.
  exists ex_sparse. eexists. split; [reflexivity|]. split; [intros c [<-|[]]; reflexivity|]. split; [reflexivity|].
  set (k := stored true [4; 2] (logk_normal 1 [5; 4] [4; 2])).
  apply (C92_sparse _ (mkC 2 false [1; 1] [("s"%string, mkP [4; 2] [1; 4] [("k"%string, k)])]) "s" (mkP [4; 2] [1; 4] [("k"%string, k)]) "k" k); try reflexivity.
  - intros c [<-|[]]; reflexivity.
  - left; reflexivity.
  - left; reflexivity.
  - left; reflexivity.
  - unfold k. cbn. rewrite !(Reqb_false 4 0) by lra. rewrite (Reqb_false (1 * (5 - 4)) 0) by lra. cbn. discriminate.
Qed.
(** the second file differs from the first *)
Theorem C92_again_refuted : exists w w' W w'' W', write w = Ok (w', Some (nbins w, W)) /\ write w' = Ok (w'', Some (nbins w, W')) /\ W 0%nat 0%nat <> W' 0%nat 0%nat.
Proof.
  destruct ex1_ok as (OK & NM & DP). destruct (C92_again ex_w1 OK NM eq_refl eq_refl) as (w' & W & w'' & W' & E & E' & I); auto; [right; discriminate|].
  exists ex_w1, w', W, w'', W'. split; auto. split; auto. destruct C92_ex as (w0 & W0 & E0 & X & _). rewrite E0 in E. change (nbins ex_w1) with 2%nat in *. injection E as _ E. subst W0. rewrite X.
  destruct ex_total as (T0 & T1 & T2 & T3). unfold total_cov in *.
  assert (D00 : data_part ex_w1 0 0 = 1) by reflexivity. assert (D01 : data_part ex_w1 0 1 = 0) by reflexivity. assert (D10 : data_part ex_w1 1 0 = 0) by reflexivity. assert (D11 : data_part ex_w1 1 1 = 1) by reflexivity.
  assert (I00 := I 0%nat 0%nat ltac:(lia) ltac:(lia)). assert (I10 := I 1%nat 0%nat ltac:(lia) ltac:(lia)). cbn [sm Nat.eqb] in *. rewrite D00, D01, D10, D11 in *.
  replace (syst_part ex_w1 0 0) with 1 in * by lra. replace (syst_part ex_w1 0 1) with 2 in * by lra. replace (syst_part ex_w1 1 0) with 2 in * by lra. replace (syst_part ex_w1 1 1) with 4 in * by lra. lra.
Qed.
(** an unconstrained variation is folded in as if it had a unit constraint: residuals along it should cost nothing *)
Theorem C92_unconstrained_refuted : exists w w' w'' W, writer_ok w /\ add_cov_syst w (One [5; 4]) "k" "s" "c" 1 true Average false false false = Ok w' /\
  write w' = Ok (w'', Some (2%nat, W)) /\ 0 < chi2 2 W (total_shift (chans w') "k").
Proof.
  destruct C92_profile_ex as (w'' & W & E & X). exists (ex_w false), ex_w1, w'', W. split; [apply ex_ok|]. split; [reflexivity|]. split; auto.
  replace (chi2 2 W (total_shift (chans ex_w1) "k")) with (chi2 2 W (fun a => INR (S a))); [lra|]. destruct ex_shift as (S0 & S1). unfold chi2. cbn [sm]. rewrite S0, S1. cbn [INR]. ring.
Qed.
(** one name used for an explicit variation of a process and one in the covariance of another: each takes both *)
Definition ex_two : cwriter := mkW false false ["b"%string; "s"%string] [("c"%string, mkC 1 false [1] [("s"%string, mkP [10] [1] []); ("b"%string, mkP [10] [1] [])])] [] [] None.
Theorem C92_shared_name_refuted : exists w w1 w2, add_explicit w [3] "k" "s" "c" false true = Ok w1 /\ add_cov_syst w1 (One [12]) "k" "b" "c" 1 true Average false false true = Ok w2 /\
  shift_of w2 "c" "b" "k" 0 = 2 /\ total_shift (chans w2) "k" 0 = 5 /\ exists l, explicit_logk w2 "k" "b" "c" = Some l /\ nth 0 l 0 = 2.
Proof.
  exists ex_two. do 2 eexists. split; [reflexivity|]. split; [reflexivity|].
  split; [cbn; rewrite !Reqb_false by lra; ring|]. split; [cbn; rewrite !Reqb_false by lra; ring|]. eexists. split; [reflexivity|]. cbn. rewrite !Reqb_false by lra. ring.
Qed.
(** two channels with one bin, variances 3 and 5 of process "s": only the 5 of the second bin is used, in both rows *)
Definition ex_square : cwriter := mkW false true ["b"%string; "s"%string]
  [("c"%string, mkC 1 false [1] [("s"%string, mkP [4] [3] [])]); ("d"%string, mkC 1 false [1] [("s"%string, mkP [4] [5] [])])] [] [] None.
Example C92_bbb_square_ex : exists w' W, write ex_square = Ok (w', Some (2%nat, W)) /\ inverse_of 2 (fun a b => match a, b with O, O => 1 | O, _ => 5 | _, O => 0 | _, _ => 6 end) W.
Proof.
  assert (OK : writer_ok ex_square).
  { split; [repeat constructor; cbn; intuition discriminate|]. split; [|split; [|exact I]].
    - assert (G : forall v x, chan_ok (mkC 1 false [v] [("s"%string, mkP [4] [x] [])])).
      { intros v x. split; [reflexivity|]. split; [repeat constructor; intros []|]. intros p e [H|[]]. injection H as <- <-. repeat split. intros s k H; discriminate. }
      constructor; [apply G|]. constructor; [apply G|constructor].
    - intros c p [<-|[<-|[]]] [<-|[]]; right; left; reflexivity. }
  assert (X : forall a b, (a < 2)%nat -> (b < 2)%nat -> total_cov ex_square a b + mc_variance_of (chans ex_square) (nth b (cw_procs ex_square) EmptyString) b = match a, b with O, O => 1 | O, _ => 5 | _, O => 0 | _, _ => 6 end).
  { intros a b Ha Hb. unfold total_cov, data_part, syst_part. assert (a = 0 \/ a = 1)%nat as [-> | ->] by lia; assert (b = 0 \/ b = 1)%nat as [-> | ->] by lia; cbn; lra. }
  destruct (C92_bbb_square ex_square OK) as (w' & W & E & J); auto.
  - intros c [<-|[<-|[]]]; reflexivity.
  - intros z H i Hi. change (nbins ex_square) with 2%nat in *. assert (H0 := H 0%nat ltac:(lia)). assert (H1 := H 1%nat ltac:(lia)). unfold mv in H0, H1. cbn [sm] in H0, H1. rewrite !X in H0, H1 by lia.
    assert (i = 0 \/ i = 1)%nat as [-> | ->] by lia; lra.
  - exists w', W. split; [exact E|]. intros a b Ha Hb. rewrite <- (J a b Ha Hb). change (nbins ex_square) with 2%nat. apply sm_ext. intros c Hc. rewrite X; auto.
Qed.
(** sparse mode with a name that is explicit as well: the assertion holds, and the only stored value, for the first bin, is added to all bins *)
Theorem C92_sparse_broadcast_refuted : exists w w1 w2 w3 W, add_explicit w [1; 1] "k" "s" "c" false true = Ok w1 /\
  add_cov_syst w1 (One [5; 2]) "k" "s" "c" 1 true Average false false true = Ok w2 /\ write w2 = Ok (w3, Some (2%nat, W)) /\
  wanted_one 1 false 2 2 = 0 /\ inverse_of 2 (fun a b => (if Nat.eqb a b then 1 else 0) + 1) W.
Proof.
  exists ex_sparse. eexists. eexists.
  assert (SH : map2 (fun n x => if Reqb n 0 then 0 else x) [4; 2] (logk_normal 1 (shifted false [4; 2] [5; 2]) [4; 2]) = [1; 0]) by (cbn; rewrite !Reqb_false by lra; repeat f_equal; lra).
  assert (ST : stored true [4; 2] (logk_normal 1 (shifted false [4; 2] [5; 2]) [4; 2]) = [1]) by (unfold stored; rewrite SH; cbn; rewrite Reqb_false, Reqb_true by lra; reflexivity).
  set (w2 := mkW true false ["s"%string] [("c"%string, mkC 2 false [1; 1] [("s"%string, mkP [4; 2] [1; 4] [("k"%string, [1])])])] ["k"%string] ["k"%string] None).
  assert (B : forall w1, w1 = mkW true false ["s"%string] [("c"%string, mkC 2 false [1; 1] [("s"%string, mkP [4; 2] [1; 4] [("k"%string, stored true [4; 2] [1; 1])])])] ["k"%string] [] None ->
    add_cov_syst w1 (One [5; 2]) "k" "s" "c" 1 true Average false false true = Ok w2) by (intros w1 ->; cbn -[stored logk_normal shifted]; rewrite ST; reflexivity).
  set (M := fun a b : nat => (if Nat.eqb a b then 1 else 0) + 1).
  assert (P : posdef 2 M).
  { intros x (i & Hi & Nx). unfold quad, vdot, mv, M. cbn [sm Nat.eqb]. assert (Q0 := Rle_0_sqr (x 0%nat)). assert (Q1 := Rle_0_sqr (x 1%nat)). assert (Q2 := Rle_0_sqr (x 0%nat + x 1%nat)). unfold Rsqr in *.
    assert (x 0%nat <> 0 \/ x 1%nat <> 0) as [N|N] by (assert (i = 0 \/ i = 1)%nat as [-> | ->] by lia; auto); apply Rsqr_pos_lt in N; unfold Rsqr in N; lra. }
  assert (X : exists w3 W, write w2 = Ok (w3, Some (2%nat, W)) /\ inverse_of 2 M W).
  { unfold write, w2. cbn -[ginv]. match goal with |- context [ginv 2 ?F] => destruct (inverse_exists 2 M F P) as (W & G & J) end.
    - intros a b Ha Hb. unfold M. assert (a = 0 \/ a = 1)%nat as [-> | ->] by lia; assert (b = 0 \/ b = 1)%nat as [-> | ->] by lia; cbn; lra.
    - rewrite G. cbn [rbind]. do 2 eexists. split; [reflexivity|exact J]. }
  destruct X as (w3 & W & E & J). exists w3, W. split; [reflexivity|]. split; [apply B; reflexivity|]. split; [exact E|]. split; [unfold wanted_one; rewrite Reqb_false by lra; lra|exact J].
Qed.

Print Assumptions C92_bbb_square.
Print Assumptions C92_profile.
Print Assumptions C92_booked_split.
Print Assumptions C92_bbb_refuted.
Print Assumptions C92_sparse_refuted.
