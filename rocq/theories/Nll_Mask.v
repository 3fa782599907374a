(** The likelihood does not see masked channels (C60). *)
From Coq Require Import List Arith Bool String Reals Lra Lia Permutation.
From Verif Require Import PyList ListUtil RBase Num PyDict BBStat_Model Writer_Model Writer_Spec Writer_Layout Writer_Meta Writer_Inv
  Writer_Tensor Writer_Hist Writer_Denote Writer_Master Writer_Effects Writer_Accept
  Yields_Model Yields_Spec Yields_Proof Yields_Smooth Yields_Equiv Yields_Props Ext_Model Nll_Model Init_Model Nll_Spec Nll_Proof.
Import ListNotations.
Local Open Scope R_scope.

Lemma lbeta_bin_b0 t bi b : lbeta_bin t bi b b = 0.
Proof.
  unfold lbeta_bin, logbeta0_of. destruct t; try destruct (bi_mask bi); lra.
Qed.
Lemma lbeta_row_b0 bb r : lbeta_row bb r (r_b0 r) = 0.
Proof.
  unfold lbeta_row. destruct (bb_mode bb); [apply lbeta_bin_b0|].
  generalize (r_ent r), (r_b0 r). clear r. induction l as [|x l IH]; intros [|y b]; auto.
  unfold zipw in *. simpl. rewrite lbeta_bin_b0, IH. lra.
Qed.
Lemma zipw_app {A B C} (f : A -> B -> C) a a' b b' : List.length a = List.length b ->
  zipw f (a ++ a') (b ++ b') = zipw f a b ++ zipw f a' b'.
Proof.
  revert b. induction a as [|x a IH]; intros [|y b] L; try discriminate; auto.
  unfold zipw in *. simpl. rewrite IH; auto.
Qed.
Lemma zipw_map {S A B C} (f : A -> B -> C) (g : S -> A) (h : S -> B) l :
  zipw f (map g l) (map h l) = map (fun s => f (g s) (h s)) l.
Proof. induction l; auto. unfold zipw in *. simpl. rewrite IHl. auto. Qed.
Lemma lc_app {S} pcw px px0 (f g h : S -> R) l : List.length pcw = List.length px -> List.length px = List.length px0 ->
  lc_term (pcw ++ map f l) (px ++ map g l) (px0 ++ map h l) =
  lc_term pcw px px0 + sumR (map (fun s => f s * (1 / 2) * ((g s - h s) * (g s - h s))) l).
Proof.
  intros L1 L2. unfold lc_term. rewrite (zipw_app Rminus) by auto.
  rewrite zipw_app by (rewrite zipw_length; lia). rewrite sumR_app, !zipw_map. auto.
Qed.
Lemma slice_app_l {A} n (a b : list A) : List.length a = n -> slice 0 n (a ++ b) = a.
Proof. intros <-. unfold slice. simpl. rewrite firstn_app, Nat.sub_diag, firstn_all. simpl. apply app_nil_r. Qed.
Lemma slice_pre {A} s n (a b : list A) : (s + n <= List.length a)%nat -> slice s n (a ++ b) = slice s n a.
Proof.
  intros L. unfold slice. rewrite skipn_app, firstn_app, skipn_length.
  replace (n - (List.length a - s))%nat with 0%nat by lia. simpl. apply app_nil_r.
Qed.
Lemma slice_post {A} n (a b : list A) : List.length b = n -> slice (List.length a) n (a ++ b) = b.
Proof. intros <-. unfold slice. rewrite skipn_app, skipn_all, Nat.sub_diag. simpl. apply firstn_all. Qed.
Lemma slice_all_two a b n (l : list R) : List.length l = (a + b)%nat -> n = (a + b)%nat -> slice 0 a l ++ slice a b l = l.
Proof.
  intros L _. unfold slice. simpl. rewrite (firstn_all2 (n := b)) by (rewrite skipn_length; lia). apply firstn_skipn.
Qed.

(** constraint weights by name *)
Lemma cw_by_name cfg1 cfg2 (ops1 ops2 : list (op R)) w1 w2 : written cfg1 ops1 w1 -> written cfg2 ops2 w2 -> clean ops1 -> clean ops2 ->
  all_systs ops1 = all_systs ops2 ->
  exists f, w_cw w1 = map f (w_systs w1) /\ w_cw w2 = map f (w_systs w2).
Proof.
  intros W1 W2 C1 C2 E.
  set (f := fun s : string => if existsb (fun d => String.eqb (fst d) s && negb (kw_constrained (snd d))) (all_systs ops1) then 0 else 1).
  assert (G : forall cfg ops w, written cfg ops w -> clean ops -> all_systs ops = all_systs ops1 -> w_cw w = map f (w_systs w)).
  { clear - f. intros cfg ops w (st & R & W) (_ & _ & _ & C4) E.
    destruct (metadata_correct _ _ _ _ R W C4) as (_ & D & _ & _ & L & H).
    apply nth_error_ext. intros i.
    destruct (nth_error (w_systs w) i) as [s|] eqn:S.
    - rewrite nth_error_map, S. simpl. destruct (H i s S) as [H0 H1].
      assert (Ds : declared ops s) by (apply D; eapply nth_error_In; eauto).
      unfold f. destruct (existsb _ (all_systs ops1)) eqn:X.
      + apply H0. apply existsb_exists in X. destruct X as ([s' kw] & X1 & X2). apply andb_true_iff in X2. simpl in X2.
        destruct X2 as [X2 X3]. apply String.eqb_eq in X2. subst. exists kw. rewrite E. split; auto. destruct (kw_constrained kw); auto; discriminate.
      + apply H1. apply declared_cases in Ds. destruct Ds as [(kw & K1 & K2)|Ds]; auto. exfalso.
        rewrite E in K1. assert (Y : existsb (fun d => (String.eqb (fst d) s && negb (kw_constrained (snd d)))%bool) (all_systs ops1) = true).
        { apply existsb_exists. exists (s, kw). split; auto. simpl. rewrite String.eqb_refl, K2. auto. }
        congruence.
    - rewrite nth_error_map, S. simpl. apply nth_error_None. apply nth_error_None in S. lia. }
  exists f. split; [eapply G; eauto|eapply G; eauto].
Qed.

Theorem masked_likelihood cfg ops1 ops2 w1 w2 np rinit t1 t2 pm lk nobs var bb orc pcw px0 x0f tau m1 m2 px (th : string -> R) v1 v2 :
  written cfg ops1 w1 -> written cfg ops2 w2 -> clean ops1 -> clean ops2 ->
  Forall2 (same_outside (fun c => exists info, In (c, info) (chan_decls [] ops1) /\ ch_masked info = true)) ops1 ops2 ->
  scale_logk (indata_of w1) np rinit = Ok t1 -> scale_logk (indata_of w2) np rinit = Ok t2 ->
  List.length px = (pm_npoi pm + pm_npou pm)%nat -> List.length pcw = List.length px -> List.length px0 = List.length px ->
  let P1 := file_problem w1 t1 pm lk nobs var bb orc pcw px0 x0f tau in
  let P2 := file_problem w2 t2 pm lk nobs var bb orc pcw px0 x0f tau in
  let x1 := px ++ map th (w_systs w1) in let x2 := px ++ map th (w_systs w2) in
  List.length m1 = List.length x1 -> List.length m2 = List.length x2 ->
  nll P1 (mkEff m1 None) x1 = Ok v1 -> nll P2 (mkEff m2 None) x2 = Ok v2 -> v1 = v2.
Proof.
  intros W1 W2 C1 C2 F S1 S2 Lp Lc L0 P1 P2 x1 x2 M1 M2 N1 N2.
  destruct (outside_agree _ _ _ F) as (AG & EC & EP & ES).
  destruct (cw_by_name cfg cfg ops1 ops2 w1 w2 W1 W2 C1 C2 ES) as (cwf & CW1 & CW2).
  assert (SA : same_axes w1 w2).
  { apply (files_same_axes cfg cfg ops1 ops2); auto.
    - intros; rewrite EP; tauto. - intros s. unfold declared. rewrite ES. tauto. }
  unfold nll, nll_ad in N1, N2.
  assert (G1 : forall (w : workspace R) (m : list bool), List.length m = List.length (px ++ map th (w_systs w)) ->
    get_poi pm (mkEff m None) (px ++ map th (w_systs w)) (px ++ map th (w_systs w)) = map (enc pm) (slice 0 (pm_npoi pm) px) /\
    get_nui pm (mkEff m None) (px ++ map th (w_systs w)) (px ++ map th (w_systs w)) = slice (pm_npoi pm) (pm_npou pm) px /\
    get_theta pm (List.length (w_systs w)) (mkEff m None) (px ++ map th (w_systs w)) (px ++ map th (w_systs w)) = map th (w_systs w)).
  { intros w m Lm. rewrite get_poi_value, get_nui_value, get_theta_value by lia. rewrite !slice_pre by lia. split; auto. split; auto.
    rewrite <- Lp. apply slice_post. apply map_length. }
  change (pb_model P1) with pm in N1. change (pb_model P2) with pm in N2.
  change (in_nsyst (pb_data P1)) with (List.length (w_systs w1)) in N1. change (in_nsyst (pb_data P2)) with (List.length (w_systs w2)) in N2.
  change (pb_regs P1) with (@nil (list R -> list R -> R)) in N1. change (pb_regs P2) with (@nil (list R -> list R -> R)) in N2.
  change (pb_ext P1) with (@nil ext_tf) in N1. change (pb_ext P2) with (@nil ext_tf) in N2.
  cbn [List.length Nat.eqb negb map] in N1, N2. cbv zeta in N1, N2. unfold get_x in N1, N2.
  destruct (G1 w1 m1 M1) as (A1 & A2 & A3). destruct (G1 w2 m2 M2) as (B1 & B2 & B3).
  fold x1 in A1, A2, A3. fold x2 in B1, B2, B3. rewrite A1, A2, A3 in N1. rewrite B1, B2, B3 in N2. clear A1 A2 A3 B1 B2 B3 G1.
  set (ep := map (enc pm) (slice 0 (pm_npoi pm) px) ++ slice (pm_npoi pm) (pm_npou pm) px) in *.
  assert (Lep : List.length ep = List.length px). { unfold ep. rewrite app_length, map_length, !slice_length. lia. }
  rewrite app_assoc in N1, N2. fold ep in N1, N2.
  unfold yields_beta in N1, N2.
  change (pb_data P1) with (indata_of w1) in N1. change (pb_data P2) with (indata_of w2) in N2.
  change (pb_t P1) with t1 in N1. change (pb_t P2) with t2 in N2.
  change (pb_model P1) with pm in N1. change (pb_model P2) with pm in N2.
  destruct (yields (indata_of w1) t1 (pm_compute pm false ep) (map th (w_systs w1)) false) as [[n1 nc1]|] eqn:Y1; [|discriminate].
  destruct (yields (indata_of w2) t2 (pm_compute pm false ep) (map th (w_systs w2)) false) as [[n2 nc2]|] eqn:Y2; [|discriminate].
  destruct (C60_masked_yields cfg ops1 ops2 w1 w2 np rinit t1 t2 _ th n1 nc1 n2 nc2 W1 W2 C1 C2 F S1 S2 Y1 Y2) as (EN & LN & ENC).
  subst n2. cbn [rbind] in N1, N2.
  assert (LC : lc_term (pb_cw P1) (ep ++ map th (w_systs w1)) (pb_x0 P1) = lc_term (pb_cw P2) (ep ++ map th (w_systs w2)) (pb_x0 P2)).
  { change (pb_cw P1) with (pcw ++ w_cw w1). change (pb_cw P2) with (pcw ++ w_cw w2).
    change (pb_x0 P1) with (px0 ++ map x0f (w_systs w1)). change (pb_x0 P2) with (px0 ++ map x0f (w_systs w2)).
    rewrite CW1, CW2. rewrite !lc_app by lia. f_equal. apply sumR_perm. apply Permutation_map. apply SA. }
  change (pb_bb P1) with (match bb with
     | None => None
     | Some (mo, ty, mn, b0) => Some (mkBB mo ty mn (fun b => map (fun p => (w_sumw w1 b p, w_sumw2 w1 b p)) (seq 0 (List.length (w_procs w1)))) b0)
     end) in N1.
  change (pb_bb P2) with (match bb with
     | None => None
     | Some (mo, ty, mn, b0) => Some (mkBB mo ty mn (fun b => map (fun p => (w_sumw w2 b p, w_sumw2 w2 b p)) (seq 0 (List.length (w_procs w2)))) b0)
     end) in N2.
  change (pb_lik P1) with lk in N1. change (pb_lik P2) with lk in N2.
  change (pb_nobs P1) with nobs in N1. change (pb_nobs P2) with nobs in N2.
  change (pb_var P1) with var in N1. change (pb_var P2) with var in N2.
  change (pb_orc P1) with orc in N1. change (pb_orc P2) with orc in N2.
  change (pb_tau P1) with tau in N1. change (pb_tau P2) with tau in N2.
  change (in_nbins (indata_of w1)) with (w_nbins w1) in N1. change (in_nbins (indata_of w2)) with (w_nbins w2) in N2.
  rewrite <- (sa_nb _ _ SA) in N2. change (ext_nll [] x1) with 0 in N1. change (ext_nll [] x2) with 0 in N2.
  destruct bb as [[[[mo ty] mn] b0]|].
  - cbv zeta in N1, N2. cbn [rbind] in N1, N2.
    set (bb1 := mkBB mo ty mn (fun b => map (fun p => (w_sumw w1 b p, w_sumw2 w1 b p)) (seq 0 (List.length (w_procs w1)))) b0) in *.
    set (bb2 := mkBB mo ty mn (fun b => map (fun p => (w_sumw w2 b p, w_sumw2 w2 b p)) (seq 0 (List.length (w_procs w2)))) b0) in *.
    assert (RW : map (row_of P1 bb1 nc1) (seq 0 (List.length n1)) = map (row_of P2 bb2 nc2) (seq 0 (List.length n1))).
    { apply map_ext_in. intros b Hb. apply in_seq in Hb. rewrite LN in Hb. unfold row_of.
      change (in_nproc (pb_data P1)) with (List.length (w_procs w1)). change (in_nproc (pb_data P2)) with (List.length (w_procs w2)).
      rewrite <- (sa_procs _ _ SA).
      assert (E1 : map (nc1 b) (seq 0 (List.length (w_procs w1))) = map (nc2 b) (seq 0 (List.length (w_procs w1)))).
      { apply map_ext_in. intros p Hp. apply in_seq in Hp. apply ENC; lia. }
      assert (E2 : bb_ent bb1 b = bb_ent bb2 b).
      { cbn [bb_ent bb1 bb2]. rewrite <- (sa_procs _ _ SA). apply map_ext_in. intros ip Hip. apply in_seq in Hip.
        assert (Bf : (b < w_nbinsfull w1)%nat). { pose proof (written_bins cfg ops1 w1 W1 C1). lia. }
        destruct (every_bin cfg ops1 w1 b ip W1 C1 Bf) as (c & p & i & Pt); [lia|].
        assert (Pt' : at_point w2 c p i b ip).
        { destruct Pt as (s & e & Q1 & Q2 & Q3 & Q4). exists s, e. rewrite <- (sa_chan _ _ SA), <- (sa_procs _ _ SA). auto. }
        assert (NM : ~ (exists info, In (c, info) (chan_decls [] ops1) /\ ch_masked info = true)).
        { intros (info & I1 & I2). rewrite (unmasked_bin cfg ops1 w1 c p i b ip W1 C1 Pt) with (info := info) in I2; auto; [discriminate|lia]. }
        specialize (AG c NM).
        destruct (view_point cfg ops1 w1 c p i b ip W1 C1 Pt) as (_ & V1 & V2 & _).
        destruct (view_point cfg ops2 w2 c p i b ip W2 C2 Pt') as (_ & U1 & U2 & _).
        destruct (agree_spec cfg cfg ops1 ops2 c eq_refl eq_refl AG p i) as (Nn & _).
        rewrite V1, V2, U1, U2, Nn. f_equal. unfold spec_sumw2.
        assert (LO : last_of (op_proc c p) ops1 = last_of (op_proc c p) ops2).
        { apply last_of_Forall2. clear -AG. induction AG; constructor; auto. apply H. }
        rewrite LO. auto. }
      rewrite E1, E2. auto. }
    rewrite <- RW in N2.
    set (rows := map (row_of P1 bb1 nc1) (seq 0 (List.length n1))) in *.
    assert (PR : profile_rows bb1 orc lk (w_nbins w1) rows = profile_rows bb2 orc lk (w_nbins w1) rows) by reflexivity.
    assert (TL : forall P bb nc l, sumR (map (fun r => lbeta_row bb r (r_b0 r)) (map (row_of P bb nc) l)) = 0).
    { intros P bb nc l. rewrite (sumR_map_ext _ (fun _ => 0)); [apply sumR_map_0|]. intros r _. apply lbeta_row_b0. }
    rewrite TL in N1, N2. rewrite <- PR in N2.
    change (zipw (apply_row bb2) rows) with (zipw (apply_row bb1) rows) in N2.
    change (zipw (lbeta_row bb2) rows) with (zipw (lbeta_row bb1) rows) in N2.
    rewrite <- LC in N2. congruence.
  - cbn [rbind] in N1, N2. rewrite <- LC in N2. congruence.
Qed.

(** *** regularisers only add their penalty *)
Definition with_regs (P : problem) (regs : list (list R -> list R -> R)) : problem :=
  mkPb (pb_data P) (pb_t P) (pb_model P) (pb_lik P) (pb_nobs P) (pb_var P) (pb_bb P) (pb_orc P) (pb_cw P) (pb_x0 P) regs (pb_tau P) (pb_ext P).
Lemma firstn_seq a n m : (n <= m)%nat -> firstn n (seq a m) = seq a n.
Proof. revert a n. induction m; intros a [|n] H; simpl; auto; try lia. rewrite IHm; auto. lia. Qed.
Lemma zipw_b0 bb rows : sumR (zipw (lbeta_row bb) rows (map r_b0 rows)) = 0.
Proof. induction rows; unfold zipw in *; simpl; auto. rewrite IHrows, lbeta_row_b0. lra. Qed.
Lemma zipw_firstn {A B C} (f : A -> B -> C) n : forall a b, firstn n (zipw f a b) = zipw f (firstn n a) (firstn n b).
Proof.
  induction n; intros [|x a] [|y b]; auto; unfold zipw in *; simpl; auto. rewrite IHn. auto.
Qed.
Theorem penalty_only cfg ops w np rinit t pm lk nobs var bb orc pcw px0 x0f tau regs m x v v0 :
  written cfg ops w -> clean ops -> scale_logk (indata_of w) np rinit = Ok t ->
  (forall p b ip, (b < w_nbins w)%nat -> rn_bcast (pm_compute pm true p) b ip = rn_bcast (pm_compute pm false p) b ip) ->
  (forall l, List.length (orc_cov orc l) = List.length l) ->
  let P := file_problem w t pm lk nobs var bb orc pcw px0 x0f tau in
  List.length x = npar P -> List.length m = npar P -> regs <> [] ->
  nll (with_regs P regs) (mkEff m None) x = Ok v -> nll P (mkEff m None) x = Ok v0 ->
  exists nfull nfit lb, List.length nfull = w_nbinsfull w /\ firstn (w_nbins w) nfull = nfit /\
    yields_beta P false (get_poi pm (mkEff m None) x x ++ get_nui pm (mkEff m None) x x)
       (get_theta pm (List.length (w_systs w)) (mkEff m None) x x) = Ok (nfit, lb) /\
    v = v0 + sumR (map (fun reg => reg (get_x pm (List.length (w_systs w)) (mkEff m None) x x) nfull * exp (2 * tau)) regs).
Proof.
  intros W C S Hpm Horc P Lx Lm NR N1 N0. unfold nll, nll_ad in N1, N0.
  change (pb_model (with_regs P regs)) with pm in N1. change (pb_model P) with pm in N0.
  change (in_nsyst (pb_data (with_regs P regs))) with (List.length (w_systs w)) in N1. change (in_nsyst (pb_data P)) with (List.length (w_systs w)) in N0.
  change (pb_regs (with_regs P regs)) with regs in N1. change (pb_regs P) with (@nil (list R -> list R -> R)) in N0.
  assert (NF : negb (Nat.eqb (List.length regs) 0) = true) by (destruct regs; [congruence|auto]).
  rewrite NF in N1. cbn [List.length Nat.eqb negb map] in N0. cbv zeta in N1, N0.
  set (e := mkEff m None) in *. set (pn := get_poi pm e x x ++ get_nui pm e x x) in *.
  set (theta := get_theta pm (List.length (w_systs w)) e x x) in *. set (xe := get_x pm (List.length (w_systs w)) e x x) in *.
  assert (LT : List.length theta = List.length (w_systs w)).
  { unfold theta, e. rewrite get_theta_value by lia. rewrite slice_length. unfold npar in Lx. change (pb_model P) with pm in Lx.
    change (in_nsyst (pb_data P)) with (List.length (w_systs w)) in Lx. lia. }
  unfold yields_beta in N1, N0 |- *.
  change (pb_data (with_regs P regs)) with (indata_of w) in N1. change (pb_data P) with (indata_of w) in N0 |- *.
  change (pb_t (with_regs P regs)) with t in N1. change (pb_t P) with t in N0 |- *.
  change (pb_model (with_regs P regs)) with pm in N1. change (pb_model P) with pm in N0 |- *.
  destruct (yields (indata_of w) t (pm_compute pm true pn) theta true) as [[nf ncf]|] eqn:Yf; [|discriminate].
  destruct (yields (indata_of w) t (pm_compute pm false pn) theta false) as [[n0 nc0]|] eqn:Y0; [|discriminate].
  destruct (yields_prediction _ _ _ _ _ _ _ _ _ _ _ W C LT S Yf) as (L1 & P1 & Q1).
  destruct (yields_prediction _ _ _ _ _ _ _ _ _ _ _ W C LT S Y0) as (L0 & P0 & Q0). cbv zeta in *.
  pose proof (written_bins cfg ops w W C) as LB.
  assert (NC : forall b ip, (b < w_nbins w)%nat -> (ip < List.length (w_procs w))%nat -> ncf b ip = nc0 b ip).
  { intros b ip Hb Hip. destruct (every_bin cfg ops w b ip W C) as (c & p & i & Pt); [lia|auto|].
    rewrite (P1 c p i b ip Pt), (P0 c p i b ip Pt) by lia. rewrite Hpm by auto. auto. }
  assert (FN : firstn (w_nbins w) nf = n0).
  { apply (nth_ext _ _ 0 0); [rewrite firstn_length; lia|]. intros b Hb. rewrite firstn_length in Hb.
    rewrite nth_firstn' by lia. rewrite Q1, Q0 by lia. apply sum_n_ext. intros ip Hip. apply NC; lia. }
  cbn [rbind] in N1, N0 |- *.
  change (pb_bb (with_regs P regs)) with (pb_bb P) in N1.
  change (pb_lik (with_regs P regs)) with lk in N1. change (pb_lik P) with lk in N0 |- *.
  change (pb_orc (with_regs P regs)) with orc in N1. change (pb_orc P) with orc in N0 |- *.
  change (pb_nobs (with_regs P regs)) with nobs in N1. change (pb_nobs P) with nobs in N0.
  change (pb_var (with_regs P regs)) with var in N1. change (pb_var P) with var in N0.
  change (pb_tau (with_regs P regs)) with tau in N1.
  change (pb_cw (with_regs P regs)) with (pb_cw P) in N1. change (pb_x0 (with_regs P regs)) with (pb_x0 P) in N1.
  change (pb_ext (with_regs P regs)) with (pb_ext P) in N1.
  change (in_nbins (indata_of w)) with (w_nbins w) in N1, N0 |- *.
  change (in_nbinsfull (indata_of w)) with (w_nbinsfull w) in N1, N0 |- *.
  destruct (pb_bb P) as [b|] eqn:BB; cbn [rbind] in N1, N0.
  - set (rf := map (row_of (with_regs P regs) b ncf) (seq 0 (List.length nf))) in *.
    set (r0 := map (row_of P b nc0) (seq 0 (List.length n0))) in *.
    assert (RF : firstn (w_nbins w) rf = r0).
    { unfold rf, r0. rewrite firstn_map, L1, L0, firstn_seq by lia. apply map_ext_in. intros k Hk. apply in_seq in Hk.
      unfold row_of. change (in_nproc (pb_data (with_regs P regs))) with (List.length (w_procs w)).
      change (in_nproc (pb_data P)) with (List.length (w_procs w)).
      change (pb_nobs (with_regs P regs)) with (pb_nobs P). change (pb_var (with_regs P regs)) with (pb_var P).
      f_equal. apply map_ext_in. intros ip Hip. apply in_seq in Hip. apply NC; lia. }
    assert (LR : List.length r0 = w_nbins w) by (unfold r0; rewrite map_length, seq_length; auto).
    set (B := match lk with Sep l => map (profile_row b orc l) r0 | Cov _ => orc_cov orc r0 end).
    assert (LBt : List.length B = List.length r0) by (unfold B; destruct lk; [apply map_length|apply Horc]).
    assert (PF : profile_rows b orc lk (w_nbins w) rf = B ++ map r_b0 (skipn (w_nbins w) rf)).
    { unfold profile_rows. rewrite RF. auto. }
    assert (PZ : profile_rows b orc lk (w_nbins w) r0 = B).
    { unfold profile_rows. rewrite <- LR, firstn_all, skipn_all. apply app_nil_r. }
    assert (SP : rf = r0 ++ skipn (w_nbins w) rf) by (rewrite <- RF; symmetry; apply firstn_skipn).
    eexists (zipw (apply_row b) rf (B ++ map r_b0 (skipn (w_nbins w) rf))), (zipw (apply_row b) r0 B), _.
    split; [|split; [|split]].
    + rewrite zipw_length, app_length, map_length, skipn_length, LBt, LR. unfold rf. rewrite map_length, seq_length. lia.
    + rewrite zipw_firstn, RF. f_equal. rewrite firstn_app, LBt, LR, Nat.sub_diag. simpl. rewrite app_nil_r.
      apply firstn_all2. lia.
    + rewrite PZ. reflexivity.
    + rewrite PZ in N0. rewrite PF in N1. cbn [rbind] in N0, N1. injection N1 as <-. injection N0 as <-.
      assert (E1 : firstn (w_nbins w) (zipw (apply_row b) rf (B ++ map r_b0 (skipn (w_nbins w) rf))) = firstn (w_nbins w) (zipw (apply_row b) r0 B)).
      { rewrite !zipw_firstn, RF. rewrite (firstn_all2 r0) by lia. f_equal.
        rewrite firstn_app, LBt, LR, Nat.sub_diag. simpl. rewrite app_nil_r. auto. }
      rewrite E1.
      assert (E2 : sumR (zipw (lbeta_row b) rf (B ++ map r_b0 (skipn (w_nbins w) rf))) = sumR (zipw (lbeta_row b) r0 B)).
      { rewrite SP at 1. rewrite zipw_app by auto. rewrite sumR_app, zipw_b0. lra. }
      rewrite E2.
      assert (TL : forall Q nc l, sumR (map (fun r => lbeta_row b r (r_b0 r)) (map (row_of Q b nc) l)) = 0).
      { intros Q nc l. rewrite (sumR_map_ext _ (fun _ => 0)); [apply sumR_map_0|]. intros r _. apply lbeta_row_b0. }
      rewrite !TL. simpl (sumR []). lra.
  - eexists nf, n0, _. split; auto. split; auto. split; [reflexivity|].
    injection N1 as <-. injection N0 as <-. rewrite FN. rewrite <- L0, firstn_all. simpl (sumR []). lra.
Qed.
