(** Predictions made from the merged workspace. *)
From Coq Require Import List Arith Bool String Lia Reals Lra.
From Verif Require Import PyList PyDict ListUtil Num RBase Names_Model Writer_Model Writer_Spec Writer_Frame Writer_Layout Writer_Meta Writer_Inv
  Writer_State Writer_Tensor Writer_Hist Writer_Denote Writer_Master Writer_Effects
  Yields_Model Yields_Spec Yields_Proof Yields_Equiv Merge_Model Merge_Spec Merge_Lib Merge_Proof Merge_Effects.
Import ListNotations.
Local Open Scope nat_scope.
Local Open Scope string_scope.
Local Open Scope list_scope.

(** sums over different lists with the same contents *)
Lemma sum_matched {A B} (m : A -> string) (mB : B -> string) (g : A -> R) (f : B -> R) : forall (L : list B) (l : list A),
  NoDup (map mB L) -> NoDup (map m l) -> (forall x y, In x l -> In y L -> m x = mB y -> f y = g x) ->
  (forall x, In x l -> ~ In (m x) (map mB L) -> g x = 0%R) -> (forall y, In y L -> ~ In (mB y) (map m l) -> f y = 0%R) -> sumR (map f L) = sumR (map g l).
Proof.
  induction L as [|y L IH]; intros l N1 N2 H1 H2 H3.
  - cbn [map sumR fold_right]. rewrite (sumR_map_ext g (fun _ => 0%R)), sumR_map_0; auto.
  - inversion N1 as [|? ? N3 N4]. subst. cbn [map]. change (sumR (f y :: map f L)) with (f y + sumR (map f L))%R.
    destruct (in_dec string_dec (mB y) (map m l)) as [I|I].
    + apply in_map_iff in I as (x & E & I). apply in_split in I as (l1 & l2 & ->). rewrite map_app in *. cbn [map] in *.
      rewrite sumR_app. change (sumR (g x :: map g l2)) with (g x + sumR (map g l2))%R. apply NoDup_remove in N2 as [N2 N5].
      rewrite (H1 x y) by (auto using in_eq; apply in_app_iff; right; left; auto). rewrite (IH (l1 ++ l2)); auto.
      * rewrite map_app, sumR_app. lra.
      * rewrite map_app. auto.
      * intros x2 y2 I2 I3. apply H1; [|right; auto]. apply in_app_iff in I2. apply in_app_iff. cbn. tauto.
      * intros x2 I2 I3. apply H2. { apply in_app_iff in I2. apply in_app_iff. cbn. tauto. }
        intros [I4|I4]; auto. apply N5. rewrite <- map_app. rewrite E, I4. apply in_map. auto.
      * intros y2 I2 I3. apply H3; [right; auto|]. rewrite map_app in I3. intros I4. apply I3. apply in_app_iff in I4 as [I4|[I4|I4]]; try (apply in_app_iff; auto; fail).
        exfalso. apply N3. rewrite <- E, I4. apply in_map. auto.
    + rewrite (H3 y) by (auto using in_eq). rewrite (IH l); auto; try lra.
      * intros x2 y2 I2 I3. apply H1; auto. right. auto.
      * intros x2 I2 I3. apply H2; auto. intros [I4|I4]; auto. apply I. rewrite I4. apply in_map. auto.
      * intros y2 I2. apply H3. right. auto.
Qed.
Lemma map_nth_all (l : list string) : map (fun k => nth k l "") (seq 0 (List.length l)) = l.
Proof. apply map_nth_seq. Qed.

(** the prediction written with the arrays of the file *)
Definition cell (w : workspace R) (r r0 : R) (th : list R) (b ip : nat) : R :=
  let v := variation (List.length (w_systs w)) (fun s => nth s th 0%R) (avg_of w b ip) (half_of w b ip) in
  match w_type w with
  | LogNormal => predict_lognormal r (view_norm (w_tensors w) b ip) v
  | Normal => predict_normal r r0 (view_norm (w_tensors w) b ip) v
  end.
Lemma prediction_cell cfg ops (w : workspace R) r r0 th c p i b ip : written cfg ops w -> clean ops -> at_point w c p i b ip ->
  prediction cfg ops (w_systs w) r r0 th c p i = cell w r r0 th b ip.
Proof.
  intros Wr Cl P. destruct (view_point _ _ _ _ _ _ _ _ Wr Cl P) as (V1 & _ & _ & V4). unfold prediction, cell.
  assert (T : w_type w = c_type cfg). { destruct Wr as (st & R & Wt). apply write_fields in Wt. tauto. }
  rewrite T, V1. assert (E : variation (List.length (w_systs w)) (fun s => nth s th 0%R) (fun s => spec_avg cfg ops c p (nth s (w_systs w) "") i) (fun s => spec_half cfg ops c p (nth s (w_systs w) "") i) =
    variation (List.length (w_systs w)) (fun s => nth s th 0%R) (avg_of w b ip) (half_of w b ip)); [|rewrite E; auto].
  unfold variation. apply sumR_map_ext. intros k Hk. apply in_seq in Hk.
  assert (N : nth_error (w_systs w) k = Some (nth k (w_systs w) "")) by (apply nth_error_nth'; lia).
  destruct (V4 k _ N) as [A H]. unfold avg_of, half_of. rewrite A. destruct (w_symmetric w) eqn:S; [|rewrite H; auto].
  rewrite (symmetric_iff _ _ _ Wr Cl) in S. apply negb_true_iff in S. rewrite (spec_half_sym _ _ _ _ _ _ S). auto.
Qed.
Lemma unmasked_row cfg (ops : list (op R)) w c p i b ip : written cfg ops w -> clean ops -> (forall c i, dget c (w_channels w) = Some i -> ch_masked i = false) ->
  at_point w c p i b ip -> b < w_nbins w /\ b < w_nbinsfull w.
Proof.
  intros Wr Cl U (s & e & P1 & P2 & -> & _). pose proof (written_bins _ _ _ Wr Cl) as LE. pose proof Wr as (st & R & Wt). pose proof Cl as (_ & _ & C3 & _).
  destruct (layout_correct _ _ _ _ R Wt (once_stable _ C3)) as (_ & _ & _ & (R1 & R2 & E & T1 & T2 & U1 & U2) & _).
  assert (X : In (c, (s, e)) R1).
  { pose proof P1 as P3. rewrite E in P3. apply in_app_iff in P3 as [P3|P3]; auto. exfalso.
    destruct (dget c (w_channels w)) as [i'|] eqn:G. 2: { apply dget_None in G. apply G. apply (in_map fst) in P1. rewrite reader_names in P1. auto. }
    pose proof (U _ _ G) as M0. pose proof (channel_declared _ _ _ _ _ Wr Cl G) as D. apply (in_map fst) in P3. rewrite (U2 c i' P3 D) in M0. discriminate. }
  enough (e <= w_nbins w) by lia. revert T1 X. generalize 0 (w_nbins w). clear. induction R1 as [|[c0 [s0 e0]] R1 IH]; intros a z T X; [contradiction|]. cbn in T. destruct T as (-> & L & T).
  destruct X as [X|X]; [|eapply IH; eauto]. injection X as _ _ ->. revert T. generalize e. clear. induction R1 as [|[c0 [s0 e0]] R1 IH]; cbn; intros e T; [lia|]. destruct T as (-> & L & T). apply IH in T. lia.
Qed.

Section Yields.
  Variable rn : renames.
  Notation ch' := (renamed (rn_chans rn)).
  Notation pr' := (renamed (rn_procs rn)).
  Notation sy' := (renamed (rn_systs rn)).
  Variable t : systype.
  Variable ws : list (workspace R).
  Variable W : workspace R.
  Hypothesis M : merge rn t ws = Ok W.
  Hypothesis FS : Forall from_script ws.
  Hypothesis CA : constraints_agree rn ws.
  Hypothesis NF : names_fit rn ws.
  Hypothesis SA : systs_apart rn ws.
  Lemma type_W : w_type W = t.
  Proof. destruct (WR rn t ws W M) as (st & R & Wt). apply write_fields in Wt. cbn in Wt. tauto. Qed.

  Lemma cell_kept w c p i b ip b' ip' r r0 th TH : In w ws -> w_type w = t -> at_point w c p i b ip -> at_point W (ch' c) (pr' p) i b' ip' ->
    (0 <= view_norm (w_tensors w) b ip)%R ->
    (forall k nm k', nth_error (w_systs w) k = Some nm -> nth_error (w_systs W) k' = Some (sy' nm) -> nth k' TH 0%R = nth k th 0%R) ->
    cell W r r0 TH b' ip' = cell w r r0 th b ip.
  Proof.
    intros I T P P' NN A. unfold cell. rewrite type_W, T. destruct (template _ _ _ _ M FS CA NF _ _ _ _ _ _ _ _ I P P') as (TV & _). rewrite Rmax_right in TV by auto. rewrite TV.
    enough (E : variation (List.length (w_systs W)) (fun s => nth s TH 0%R) (avg_of W b' ip') (half_of W b' ip') =
                variation (List.length (w_systs w)) (fun s => nth s th 0%R) (avg_of w b ip) (half_of w b ip)) by (rewrite E; auto).
    unfold variation. destruct (nuisances _ _ _ _ M FS CA) as (ND & _).
    assert (NE : forall (l : list string) k, In k (seq 0 (List.length l)) -> nth_error l k = Some (nth k l "")).
    { intros l k H. apply in_seq in H. apply nth_error_nth'. lia. }
    apply (sum_matched (fun k => sy' (nth k (w_systs w) "")) (fun k => nth k (w_systs W) "")).
    - rewrite map_nth_all. auto.
    - rewrite <- (map_map (fun k => nth k (w_systs w) "") sy'), map_nth_all. apply (proj1 (Forall_forall _ _) SA w I).
    - intros k k' K K' E. apply NE in K, K'. rewrite <- E in K'. destruct (effect_kept _ _ _ _ M FS CA NF SA _ _ _ _ _ _ _ _ _ _ _ I T P P' NN K K') as [-> ->].
      rewrite (A k _ k' K K'). auto.
    - intros k K F. apply NE in K. rewrite map_nth_all in F. destruct (effect_absent _ _ _ _ M FS CA _ _ _ _ _ _ _ _ I P K F) as [-> ->]. ring.
    - intros k' K' F. apply NE in K'. rewrite <- (map_map (fun k => nth k (w_systs w) "") sy'), map_nth_all in F.
      destruct (effect_foreign _ _ _ _ M FS CA NF _ _ _ _ _ _ _ _ _ _ I P P' K' F) as [-> ->]. ring.
  Qed.
  Lemma cell_other w c p' i b' ip' r r0 TH : In w ws -> In c (dkeys (w_channels w)) -> at_point W (ch' c) p' i b' ip' -> ~ In p' (map pr' (w_procs w)) -> cell W r r0 TH b' ip' = 0%R.
  Proof.
    intros I K P F. destruct (foreign_process _ _ _ _ M CA NF _ _ _ _ _ _ I K P F) as (Z & _). unfold cell. rewrite Z.
    assert (E : variation (List.length (w_systs W)) (fun s => nth s TH 0%R) (avg_of W b' ip') (half_of W b' ip') = 0%R).
    { unfold variation. rewrite (sumR_map_ext _ (fun _ => 0%R)), sumR_map_0; auto. intros k Hk. apply in_seq in Hk.
      assert (K' : nth_error (w_systs W) k = Some (nth k (w_systs W) "")) by (apply nth_error_nth'; lia).
      destruct (effect_other_process _ _ _ _ M CA NF _ _ _ _ _ _ _ _ I K P F K') as [-> ->]. ring. }
    rewrite E. destruct (w_type W); unfold predict_lognormal, predict_normal; ring.
  Qed.
  Lemma unmasked_W c' i' : dget c' (w_channels W) = Some i' -> ch_masked i' = false.
  Proof. intros H. destruct (merged_info _ _ _ _ M CA _ _ H) as (w & c & info & _ & _ & _ & ->). auto. Qed.

  (** a fit to the merged file predicts what a fit to the single file predicts *)
  Lemma yields_kept w np rinit tl r th (full : bool) nexp nc np' rinit' tl' r' TH (full' : bool) nexp' nc' :
    In w ws -> w_type w = t -> (forall c p i b ip, at_point w c p i b ip -> (0 <= view_norm (w_tensors w) b ip)%R) ->
    List.length th = List.length (w_systs w) -> List.length TH = List.length (w_systs W) ->
    scale_logk (indata_of w) np rinit = Ok tl -> yields (indata_of w) tl r th full = Ok (nexp, nc) ->
    scale_logk (indata_of W) np' rinit' = Ok tl' -> yields (indata_of W) tl' r' TH full' = Ok (nexp', nc') ->
    (forall k nm k', nth_error (w_systs w) k = Some nm -> nth_error (w_systs W) k' = Some (sy' nm) -> nth k' TH 0%R = nth k th 0%R) ->
    (forall c p i b ip b' ip', at_point w c p i b ip -> at_point W (ch' c) (pr' p) i b' ip' ->
       rn_bcast r' b' ip' = rn_bcast r b ip /\
       (if Nat.eqb np' 0 then 1 else rn_bcast rinit' b' ip')%R = (if Nat.eqb np 0 then 1 else rn_bcast rinit b ip)%R) ->
    forall c p i b ip p' b' ip', at_point w c p i b ip -> at_point W (ch' c) p' i b' ip' ->
      (p' = pr' p -> nc' b' ip' = nc b ip) /\ nth b' nexp' 0%R = nth b nexp 0%R.
  Proof.
    intros I T NN LT LTW S Y S' Y' AG RG. destruct (fsw _ FS w I) as (cfg & o & Wr & Cl). pose proof (WR _ _ _ _ M) as Wr'. pose proof (CL _ _ _ _ M CA) as Cl'.
    destruct (yields_prediction _ _ _ _ _ _ _ _ _ _ _ Wr Cl LT S Y) as (_ & H2 & H3). destruct (yields_prediction _ _ _ _ _ _ _ _ _ _ _ Wr' Cl' LTW S' Y') as (_ & H2' & H3').
    assert (B : forall c p i b ip, at_point w c p i b ip -> b < (if full then w_nbinsfull w else w_nbins w)).
    { intros c p i b ip P. destruct (unmasked_row _ _ _ _ _ _ _ _ Wr Cl (fun c i H => unmasked _ _ _ _ M w c i I H) P). destruct full; auto. }
    assert (B' : forall c p i b ip, at_point W c p i b ip -> b < (if full' then w_nbinsfull W else w_nbins W)).
    { intros c p i b ip P. destruct (unmasked_row _ _ _ _ _ _ _ _ Wr' Cl' unmasked_W P). destruct full'; auto. }
    assert (ONE : forall c p i b ip b' ip', at_point w c p i b ip -> at_point W (ch' c) (pr' p) i b' ip' -> nc' b' ip' = nc b ip).
    { intros c p i b ip b' ip' P P'. rewrite (H2 _ _ _ _ _ P (B _ _ _ _ _ P)), (H2' _ _ _ _ _ P' (B' _ _ _ _ _ P')).
      rewrite (prediction_cell _ _ _ _ _ _ _ _ _ _ _ Wr Cl P), (prediction_cell _ _ _ _ _ _ _ _ _ _ _ Wr' Cl' P'). destruct (RG _ _ _ _ _ _ _ P P') as [-> ->].
      eapply cell_kept; eauto. }
    intros c p i b ip p' b' ip' P P'. split. { intros ->. eauto. }
    rewrite (H3 b) by eauto. rewrite (H3' b') by eauto. unfold sum_n.
    assert (NE : forall (l : list string) k, In k (seq 0 (List.length l)) -> nth_error l k = Some (nth k l "")).
    { intros l k H. apply in_seq in H. apply nth_error_nth'. lia. }
    assert (MV : forall q j, nth_error (w_procs w) j = Some q -> at_point w c q i b j). { intros q j N. destruct P as (s & e & Q1 & Q2 & Q3 & _). exists s, e. auto. }
    assert (MV' : forall q j, nth_error (w_procs W) j = Some q -> at_point W (ch' c) q i b' j). { intros q j N. destruct P' as (s & e & Q1 & Q2 & Q3 & _). exists s, e. auto. }
    assert (K : In c (dkeys (w_channels w))). { destruct P as (s & e & Q1 & _). apply (in_map fst) in Q1. rewrite reader_names in Q1. auto. }
    apply (sum_matched (fun k => pr' (nth k (w_procs w) "")) (fun k => nth k (w_procs W) "")).
    - rewrite map_nth_all. destruct Wr' as (st & R & Wt). destruct (proc_axis _ _ _ _ R Wt) as (sg & bk & _ & _ & ND & _). auto.
    - rewrite <- (map_map (fun k => nth k (w_procs w) "") pr'), map_nth_all. rewrite <- (map_ext_in (cut rn w)) by (intros q Hq; eapply cut_fits; eauto).
      eapply procs_apart; eauto.
    - intros k k' Hk Hk' E. apply NE in Hk, Hk'. rewrite <- E in Hk'. eapply ONE; eauto.
    - intros k Hk F. exfalso. apply NE in Hk. rewrite map_nth_all in F. apply F. apply (merged_procs _ _ _ _ M NF). exists w, (nth k (w_procs w) "").
      split; auto. split; [intros Z; rewrite Z in K; contradiction|]. split; auto. eapply nth_error_In; eauto.
    - intros k' Hk' F. apply NE in Hk'. rewrite <- (map_map (fun k => nth k (w_procs w) "") pr'), map_nth_all in F. pose proof (MV' _ _ Hk') as Q.
      rewrite (H2' _ _ _ _ _ Q (B' _ _ _ _ _ Q)), (prediction_cell _ _ _ _ _ _ _ _ _ _ _ Wr' Cl' Q). eapply cell_other; eauto.
  Qed.
End Yields.
