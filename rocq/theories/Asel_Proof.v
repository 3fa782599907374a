(** The selections are what they should be. *)
From Coq Require Import List Arith Bool String Reals Lra Lia Sorted.
From Verif Require Import PyList PyDict ListUtil RBase Num Writer_Model Writer_Tensor Yields_Model Yields_Spec Yields_Proof Yields_Smooth Freeze_Model Freeze_Spec Freeze_Proof
  Asel_Model Asel_Spec.
Import ListNotations.
Local Open Scope R_scope.

Lemma nth_map_seq' {A} (f : nat -> A) n i d : (i < n)%nat -> nth i (map f (seq 0 n)) d = f i.
Proof.
  intros H. rewrite (nth_indep _ d (f 0%nat)) by (rewrite map_length, seq_length; auto).
  rewrite map_nth, seq_nth; auto.
Qed.
(** *** the mask *)
Lemma set_nth (mask : list bool) i j : (i < List.length mask)%nat ->
  nth j (firstn i mask ++ true :: skipn (S i) mask) false = if Nat.eqb j i then true else nth j mask false.
Proof.
  revert i j. induction mask as [|a m IH]; intros i j H; simpl in H; [lia|].
  destruct i; simpl.
  - destruct j; auto.
  - destruct j; simpl; auto. apply IH. lia.
Qed.
Lemma set_len (mask : list bool) i : (i < List.length mask)%nat ->
  List.length (firstn i mask ++ true :: skipn (S i) mask) = List.length mask.
Proof.
  intros H. rewrite app_length. cbn [List.length]. rewrite firstn_length, skipn_length. lia.
Qed.
Lemma set_true_spec idx : forall mask, (forall i, In i idx -> (i < List.length mask)%nat) ->
  exists m, set_true mask idx = Ok m /\ List.length m = List.length mask /\
    forall j, nth j m false = true <-> nth j mask false = true \/ In j idx.
Proof.
  induction idx as [|i r IH]; intros mask H; cbn [set_true].
  - exists mask. split; auto. split; auto. simpl. intuition.
  - assert (I : (i < List.length mask)%nat) by (apply H; simpl; auto).
    rewrite (proj2 (Nat.ltb_lt _ _) I).
    destruct (IH (firstn i mask ++ true :: skipn (S i) mask)) as (m & E & L & N).
    { intros k Hk. rewrite set_len by auto. apply H. simpl. auto. }
    exists m. split; auto. split. { rewrite L. apply set_len. auto. }
    intros j. rewrite N, set_nth by auto. simpl. destruct (Nat.eqb_spec j i); subst; intuition congruence.
Qed.

Lemma nth_repeat_false n j : nth j (repeat false n) false = false.
Proof. revert j. induction n; intros [|j]; simpl; auto. Qed.

(** a nuisance is marked exactly if some stored half-difference is above the tolerance *)
Theorem mask_spec d atol : 0 <= atol ->
  canon (in_tens d) (in_nbinsfull d) (in_nproc d) ((if in_sym d then 1 else 2) * in_nsyst d) ->
  exists m, asym_mask d atol = Ok m /\ List.length m = in_nsyst d /\
    forall s, (s < in_nsyst d)%nat ->
      (nth s m false = true <-> in_sym d = false /\ exists b p, (b < in_nbinsfull d)%nat /\ (p < in_nproc d)%nat /\
         atol < Rabs (view_logk (in_tens d) b p (in_nsyst d + s))).
Proof.
  intros A C. unfold asym_mask. destruct (in_sym d) eqn:SY.
  { exists (repeat false (in_nsyst d)). split; auto. split; [apply repeat_length|].
    intros s _. rewrite nth_repeat_false. split; [discriminate|]. intros [E _]. discriminate. }
  destruct (in_tens d) as [n k|sp] eqn:T.
  - eexists. split; [reflexivity|]. split; [rewrite map_length, seq_length; auto|].
    intros s Hs. rewrite (nth_map_seq' _ _ _ _ Hs). rewrite existsb_exists. split.
    + intros (b & Hb & X). apply existsb_exists in X. destruct X as (p & Hp & X). apply in_seq in Hb, Hp.
      split; auto. exists b, p. cbn [view_logk]. split; [lia|]. split; [lia|].
      destruct (Rltb_spec atol (Rabs (k b p (in_nsyst d + s)%nat))); [auto|discriminate].
    + intros (_ & b & p & Hb & Hp & X). cbn [view_logk] in X. exists b. split; [apply in_seq; lia|].
      apply existsb_exists. exists p. split; [apply in_seq; lia|]. apply Rltb_true. auto.
  - destruct C as (N1 & N2 & B1 & B2).
    set (cols := map (fun e => snd (fst e)) (filter (fun e => Nat.leb (in_nsyst d) (snd (fst e)) && Rltb atol (Rabs (snd e))) (sp_logk sp))).
    assert (CI : forall c, In c cols <-> exists j v, In (j, c, v) (sp_logk sp) /\ (in_nsyst d <= c)%nat /\ atol < Rabs v).
    { intros c. unfold cols. rewrite in_map_iff. split.
      - intros ([[j c'] v] & E & H). simpl in E. subst c'. apply filter_In in H. destruct H as [H F].
        apply andb_true_iff in F. destruct F as [F1 F2]. cbn [fst snd] in F1, F2. apply Nat.leb_le in F1.
        destruct (Rltb_spec atol (Rabs v)); [|discriminate]. exists j, v. auto.
      - intros (j & v & H & L & P). exists (j, c, v). split; auto. apply filter_In. split; auto.
        cbn [fst snd]. rewrite (proj2 (Nat.leb_le _ _) L), Rltb_true by auto. auto. }
    destruct (set_true_spec (map (fun c => c - in_nsyst d)%nat (nodup Nat.eq_dec cols)) (repeat false (in_nsyst d))) as (m & E & L & N).
    { intros i Hi. apply in_map_iff in Hi. destruct Hi as (c & <- & Hc). apply nodup_In, CI in Hc.
      destruct Hc as (j & v & H & LE & _). apply B2 in H. rewrite repeat_length. lia. }
    exists m. split; [exact E|]. split; [rewrite L; apply repeat_length|].
    intros s Hs. rewrite N, nth_repeat_false. rewrite in_map_iff. split.
    + intros [X|(c & Ec & Hc)]; [discriminate|]. apply nodup_In, CI in Hc. destruct Hc as (j & v & H & LE & P).
      split; auto. destruct (B2 _ _ _ H) as [J _].
      destruct (nth_error (sp_norm sp) j) as [[[b p] x]|] eqn:NE; [|apply nth_error_None in NE; lia].
      destruct (B1 b p x) as [Hb Hp]. { eapply nth_error_In; eauto. }
      exists b, p. split; auto. split; auto. cbn [view_logk]. rewrite (pos3_NoDup _ _ _ _ _ N1 NE).
      replace (in_nsyst d + s)%nat with c by lia. rewrite (In_look3 _ _ _ _ N2 H). exact P.
    + intros (_ & b & p & Hb & Hp & X). right. cbn [view_logk] in X.
      destruct (pos3 b p (sp_norm sp)) as [j|] eqn:P3.
      2:{ exfalso. change (@n0 R _) with 0 in X. rewrite Rabs_R0 in X. lra. }
      destruct (look3 j (in_nsyst d + s) (sp_logk sp)) as [v|] eqn:L3.
      2:{ exfalso. cbn [or0] in X. change (@n0 R _) with 0 in X. rewrite Rabs_R0 in X. lra. }
      exists (in_nsyst d + s)%nat. split; [lia|]. apply nodup_In, CI. exists j, v.
      split; [apply look3_In; auto|]. split; [lia|exact X].
Qed.

(** *** what the mask means for the prediction *)
Definition halves (d : indata) (K : nat -> R) (s : nat) : R := if in_sym d then 0 else K (in_nsyst d + s)%nat.
Lemma response d th (K : nat -> R) : List.length th = in_nsyst d ->
  sum_n (List.length (mthetaalpha (in_sym d) th)) (fun col => K col * nth col (mthetaalpha (in_sym d) th) 0) =
  variation (in_nsyst d) (fun s => nth s th 0) K (halves d K).
Proof.
  intros L. rewrite <- L. apply variation_sum.
  - auto.
  - intros E s Hs. unfold halves. rewrite E, L. auto.
  - intros E s Hs. unfold halves. rewrite E. auto.
Qed.
Lemma nth_opp th s : nth s (map Ropp th) 0 = - nth s th 0.
Proof. rewrite <- Ropp_0 at 1. apply map_nth. Qed.
Lemma variation_mirror n th avg half :
  variation n (fun s => nth s th 0) avg half + variation n (fun s => nth s (map Ropp th) 0) avg half =
  2 * sum_n n (fun s => nth s th 0 * switch (nth s th 0) * half s).
Proof.
  unfold variation. fold (sum_n n (fun s => nth s th 0 * avg s + nth s th 0 * switch (nth s th 0) * half s)).
  fold (sum_n n (fun s => nth s (map Ropp th) 0 * avg s + nth s (map Ropp th) 0 * switch (nth s (map Ropp th) 0) * half s)).
  rewrite <- sum_n_plus, <- sum_n_scal. apply sum_n_ext. intros i _. rewrite nth_opp, switch_odd. ring.
Qed.
Lemma variation_nothing n (th : list R) avg half : variation n (fun s => nth s (map (fun _ => 0) th) 0) avg half = 0.
Proof.
  unfold variation. fold (sum_n n (fun s => nth s (map (fun _ => 0) th) 0 * avg s +
    nth s (map (fun _ => 0) th) 0 * switch (nth s (map (fun _ => 0) th) 0) * half s)).
  apply sum_n_0. intros i _. replace (nth i (map (fun _ => 0) th) 0) with 0; [ring|].
  clear. revert i. induction th as [|a l IH]; intros [|i]; simpl; auto.
Qed.
Lemma switch_nonzero x : x <> 0 -> switch x <> 0.
Proof.
  intros H. unfold switch. destruct (Rleb_spec (1/2) x); [lra|]. destruct (Rleb_spec x (-1/2)); [lra|].
  intros E. apply H. assert (P : 0 < 15 - 10 * (2 * x)^2 + 3 * (2 * x)^4).
  { replace (15 - 10 * (2 * x)^2 + 3 * (2 * x)^4) with (3 * ((2 * x)^2 - 5/3) * ((2 * x)^2 - 5/3) + 20/3) by field.
    pose proof (Rle_0_sqr ((2 * x)^2 - 5/3)) as Q. unfold Rsqr in Q. lra. }
  assert (E2 : (2 * x) * (15 - 10 * (2 * x)^2 + 3 * (2 * x)^4) = 0) by (replace ((2 * x) * (15 - 10 * (2 * x)^2 + 3 * (2 * x)^4)) with (8 * ((15 * (2 * x) - 10 * (2 * x) ^ 3 + 3 * (2 * x) ^ 5) / 8)) by field; rewrite E; ring).
  apply Rmult_integral in E2. destruct E2; lra.
Qed.

Section Meaning.
  Variable d : indata.
  Variable np : nat.
  Variable rinit r : rnorm.
  Variable t : tensors R.
  Hypothesis C : canon (in_tens d) (in_nbinsfull d) (in_nproc d) ((if in_sym d then 1 else 2) * in_nsyst d).
  Hypothesis NC : match in_tens d with TSparse sp => sp_ncol sp = ((if in_sym d then 1 else 2) * in_nsyst d)%nat | _ => True end.
  Hypothesis LB : (in_nbins d <= in_nbinsfull d)%nat.
  Hypothesis SC : scale_logk d np rinit = Ok t.
  Definition factor (b p : nat) : R := match in_type d with LogNormal => 1 | Normal => if Nat.eqb np 0 then 1 else rn_bcast rinit b p end.
  Definition Kof (b p : nat) : nat -> R := view_logk (in_tens d) b p.

  Lemma nc_is th (full : bool) nexp nc b p : List.length th = in_nsyst d -> yields d t r th full = Ok (nexp, nc) ->
    (b < if full then in_nbinsfull d else in_nbins d)%nat ->
    nc b p = match in_type d with
      | LogNormal => rn_bcast r b p * view_norm (in_tens d) b p * exp (variation (in_nsyst d) (fun s => nth s th 0) (Kof b p) (halves d (Kof b p)))
      | Normal => rn_bcast r b p * view_norm (in_tens d) b p + factor b p * variation (in_nsyst d) (fun s => nth s th 0) (Kof b p) (halves d (Kof b p))
      end.
  Proof.
    intros LT Y Hb.
    assert (C1 : canon t (in_nbinsfull d) (in_nproc d) (List.length (mthetaalpha (in_sym d) th))).
    { rewrite mtheta_len, LT. eapply scale_canon; eauto. }
    pose proof (yields_cell d t r th full C1 LB) as YC. rewrite Y in YC. destruct YC as [_ Y2]. rewrite (Y2 b p Hb).
    destruct (scale_view _ _ _ _ SC) as [SV1 SV2].
    { destruct (in_tens d); auto. rewrite NC. exact C. }
    unfold cell. rewrite SV1. destruct (in_type d) eqn:TY.
    - rewrite (sum_n_ext _ _ (fun col => Kof b p col * nth col (mthetaalpha (in_sym d) th) 0)).
      + rewrite response by auto. auto.
      + intros i _. rewrite SV2. unfold Kof. ring.
    - rewrite (sum_n_ext _ _ (fun col => factor b p * (Kof b p col * nth col (mthetaalpha (in_sym d) th) 0))).
      + rewrite sum_n_scal, response by auto. auto.
      + intros i _. rewrite SV2. unfold Kof, factor. rewrite TY. ring.
  Qed.

  Variable m : list bool.
  Hypothesis M : asym_mask d 0 = Ok m.
  Variable th : list R.
  Hypothesis LT : List.length th = in_nsyst d.
  Variable full : bool.
  Variable n1 n2 n3 : list R.
  Variable c1 c2 c3 : nat -> nat -> R.
  Hypothesis Y1 : yields d t r th full = Ok (n1, c1).
  Hypothesis Y2 : yields d t r (map Ropp th) full = Ok (n2, c2).
  Hypothesis Y3 : yields d t r (map (fun _ => 0) th) full = Ok (n3, c3).
  Let nb := if full then in_nbinsfull d else in_nbins d.
  Definition twist (b p : nat) : R := sum_n (in_nsyst d) (fun s => nth s th 0 * switch (nth s th 0) * halves d (Kof b p) s).

  Lemma mirrored_iff b p : (b < nb)%nat ->
    (twist b p = 0 -> mirrored (in_type d) (c1 b p) (c2 b p) (c3 b p)) /\
    ((match in_type d with LogNormal => rn_bcast r b p * view_norm (in_tens d) b p | Normal => factor b p end) <> 0 ->
     mirrored (in_type d) (c1 b p) (c2 b p) (c3 b p) -> twist b p = 0).
  Proof.
    intros Hb. unfold mirrored.
    rewrite (nc_is _ _ _ _ _ p LT Y1 Hb), (nc_is _ _ _ _ _ p (eq_trans (map_length _ _) LT) Y2 Hb),
      (nc_is _ _ _ _ _ p (eq_trans (map_length _ _) LT) Y3 Hb).
    rewrite variation_nothing.
    pose proof (variation_mirror (in_nsyst d) th (Kof b p) (halves d (Kof b p))) as V. fold (twist b p) in V.
    set (vp := variation (in_nsyst d) (fun s => nth s th 0) (Kof b p) (halves d (Kof b p))) in *.
    set (vm := variation (in_nsyst d) (fun s => nth s (map Ropp th) 0) (Kof b p) (halves d (Kof b p))) in *.
    destruct (in_type d).
    - set (A := rn_bcast r b p * view_norm (in_tens d) b p).
      replace (A * exp vp * (A * exp vm)) with (A * A * exp (vp + vm)) by (rewrite exp_plus; ring).
      rewrite exp_0, V. split.
      + intros ->. rewrite Rmult_0_r, exp_0. ring.
      + intros NZ E. assert (X : exp (2 * twist b p) = 1).
        { apply (Rmult_eq_reg_l (A * A)); [lra|]. apply Rmult_integral_contrapositive_currified; auto. }
        rewrite <- exp_0 in X. apply exp_inv in X. lra.
    - set (A := rn_bcast r b p * view_norm (in_tens d) b p). split.
      + intros E. assert (vp = - vm) by lra. nra.
      + intros NZ E. assert (X : factor b p * (vp + vm) = 0) by lra. apply Rmult_integral in X. destruct X; [contradiction|]. lra.
  Qed.

  Theorem unmarked_mirrored : (forall s, (s < in_nsyst d)%nat -> nth s th 0 <> 0 -> nth s m false = false) ->
    forall b p, (b < nb)%nat -> (p < in_nproc d)%nat -> mirrored (in_type d) (c1 b p) (c2 b p) (c3 b p).
  Proof.
    intros U b p Hb Hp. apply (proj1 (mirrored_iff b p Hb)). apply sum_n_0. intros s Hs.
    destruct (Req_dec (nth s th 0) 0) as [E|E]. { rewrite E. ring. }
    specialize (U s Hs E). unfold halves. destruct (in_sym d) eqn:SY; [ring|].
    destruct (mask_spec d 0 (Rle_refl 0)) as (m' & M' & _ & S). { rewrite SY. exact C. }
    rewrite M in M'. injection M' as <-.
    assert (Z : Kof b p (in_nsyst d + s)%nat = 0); [|rewrite Z; ring].
    destruct (Req_dec (Kof b p (in_nsyst d + s)%nat) 0) as [Z|Z]; auto. exfalso.
    assert (X : nth s m false = true); [|congruence]. apply S; auto. split; auto. exists b, p.
    split. { unfold nb in Hb. destruct full; lia. } split; auto. apply Rabs_pos_lt. exact Z.
  Qed.
End Meaning.

Theorem marked_not_mirrored d np rinit t m s x :
  canon (in_tens d) (in_nbinsfull d) (in_nproc d) ((if in_sym d then 1 else 2) * in_nsyst d) ->
  match in_tens d with TSparse sp => sp_ncol sp = ((if in_sym d then 1 else 2) * in_nsyst d)%nat | _ => True end ->
  (in_nbins d <= in_nbinsfull d)%nat ->
  scale_logk d np rinit = Ok t -> asym_mask d 0 = Ok m -> nth s m false = true -> x <> 0 ->
  exists b p, (b < in_nbinsfull d)%nat /\ (p < in_nproc d)%nat /\
    forall r n1 c1 n2 c2 n3 c3,
    (match in_type d with LogNormal => rn_bcast r b p * view_norm (in_tens d) b p <> 0 | Normal => np = 0%nat \/ rn_bcast rinit b p <> 0 end) ->
    yields d t r (only (in_nsyst d) s x) true = Ok (n1, c1) ->
    yields d t r (only (in_nsyst d) s (- x)) true = Ok (n2, c2) ->
    yields d t r (repeat 0 (in_nsyst d)) true = Ok (n3, c3) ->
    ~ mirrored (in_type d) (c1 b p) (c2 b p) (c3 b p).
Proof.
  intros C NC LB SC M E X.
  destruct (mask_spec d 0 (Rle_refl 0) C) as (m' & M' & LM & S). rewrite M in M'. injection M' as <-.
  assert (Hs : (s < in_nsyst d)%nat).
  { rewrite <- LM. destruct (Nat.ltb_spec s (List.length m)); auto. rewrite nth_overflow in E by auto. discriminate. }
  apply S in E; auto. destruct E as (SY & b & p & Hb & Hp & P). exists b, p. split; auto. split; auto.
  intros r n1 c1 n2 c2 n3 c3 NZ Y1 Y2 Y3 MI.
  assert (L1 : List.length (only (in_nsyst d) s x) = in_nsyst d) by (unfold only; rewrite map_length, seq_length; auto).
  assert (O2 : map Ropp (only (in_nsyst d) s x) = only (in_nsyst d) s (- x)).
  { unfold only. rewrite map_map. apply map_ext. intros j. destruct (Nat.eqb j s); ring. }
  assert (O3 : map (fun _ => 0) (only (in_nsyst d) s x) = repeat 0 (in_nsyst d)).
  { unfold only. rewrite map_map. clear. generalize 0%nat as a. induction (in_nsyst d); intros a; simpl; auto. f_equal. auto. }
  rewrite <- O2 in Y2. rewrite <- O3 in Y3.
  destruct (mirrored_iff d np rinit r t C NC LB SC _ L1 true _ _ _ _ _ _ Y1 Y2 Y3 b p Hb) as [_ T].
  assert (TW : twist d (only (in_nsyst d) s x) b p = 0).
  { apply T; auto. destruct (in_type d) eqn:TY; auto. unfold factor. rewrite TY. destruct NZ as [->|NZ]; simpl; [lra|].
    destruct (Nat.eqb np 0); auto. }
  unfold twist in TW. rewrite (sum_n_single _ s) in TW; auto.
  - unfold only in TW. rewrite nth_map_seq', Nat.eqb_refl in TW by auto. unfold halves in TW. rewrite SY in TW.
    apply Rmult_integral in TW. destruct TW as [TW|TW].
    + apply Rmult_integral in TW. destruct TW as [TW|TW]; auto. apply (switch_nonzero x X TW).
    + unfold Kof in TW. rewrite TW, Rabs_R0 in P. lra.
  - intros i Hi N. unfold only. rewrite nth_map_seq' by auto. destruct (Nat.eqb_spec i s); [contradiction|]. ring.
Qed.

(** *** the options *)
Lemma and_nth sel l i : nth_error (map (fun p => fst p && snd p) (combine sel l)) i = Some true <->
  nth_error sel i = Some true /\ nth_error l i = Some true.
Proof.
  revert l i. induction sel as [|a s IH]; intros l i.
  - destruct i; simpl; intuition discriminate.
  - destruct l as [|b l]. { destruct i; simpl; intuition discriminate. }
    destruct i; simpl; [|apply IH]. destruct a, b; simpl; intuition discriminate.
Qed.
Lemma and_len sel l : List.length sel = List.length l -> List.length (map (fun p => fst p && snd p) (combine sel l)) = List.length l.
Proof. intros H. rewrite map_length, combine_length. lia. Qed.
Lemma repeat_true_nth n i : nth_error (repeat true n) i = Some true <-> (i < n)%nat.
Proof.
  revert i. induction n; intros [|i]; simpl; try (split; [discriminate|lia]); [split; auto; lia|]. rewrite IHn. lia.
Qed.

Section Options.
  Variable rx : regex.
  Lemma include_spec names o sel : names <> [] -> legal rx o -> List.length sel = List.length names ->
    exists s, apply_include rx names o sel = Ok s /\ List.length s = List.length names /\
      forall i, nth_error s i = Some true <-> nth_error sel i = Some true /\
        forall e, o = Some e -> exists n, nth_error names i = Some n /\ selects rx e n.
  Proof.
    intros NE V L. destruct o as [e|]; cbn [apply_include].
    2:{ exists sel. split; auto. split; auto. intros i. split; [|tauto]. intros H. split; auto. discriminate. }
    destruct (match_params_spec rx e names) as [OK SP]. destruct (OK (V e eq_refl)) as [keep K]. rewrite K. cbn [rbind].
    destruct (SP keep K) as (_ & _ & _ & IN). unfold and_list.
    destruct (map (fun n => smem n keep) names) as [|h tl] eqn:ML. { destruct names; [contradiction|discriminate]. }
    rewrite <- ML. eexists. split; [reflexivity|]. split; [rewrite and_len by (rewrite map_length; auto); apply map_length|].
    intros i. rewrite and_nth. rewrite nth_error_map. split.
    - intros [A B]. split; auto. intros e' E. injection E as <-.
      destruct (nth_error names i) as [n|] eqn:NI; [|discriminate]. cbn in B. injection B as B. exists n. split; auto.
      apply smem_In, IN in B. tauto.
    - intros [A B]. split; auto. destruct (B e eq_refl) as (n & N & Q). rewrite N. cbn. f_equal. apply smem_In, IN.
      split; auto. eapply nth_error_In; eauto.
  Qed.
  Lemma exclude_spec names o sel : names <> [] -> legal rx o -> List.length sel = List.length names ->
    exists s, apply_exclude rx names o sel = Ok s /\ List.length s = List.length names /\
      forall i, nth_error s i = Some true <-> nth_error sel i = Some true /\
        forall e, o = Some e -> exists n, nth_error names i = Some n /\ ~ selects rx e n.
  Proof.
    intros NE V L. destruct o as [e|]; cbn [apply_exclude].
    2:{ exists sel. split; auto. split; auto. intros i. split; [|tauto]. intros H. split; auto. discriminate. }
    destruct (match_params_spec rx e names) as [OK SP]. destruct (OK (V e eq_refl)) as [keep K]. rewrite K. cbn [rbind].
    destruct (SP keep K) as (_ & _ & _ & IN). unfold and_list.
    destruct (map (fun n => negb (smem n keep)) names) as [|h tl] eqn:ML. { destruct names; [contradiction|discriminate]. }
    rewrite <- ML. eexists. split; [reflexivity|]. split; [rewrite and_len by (rewrite map_length; auto); apply map_length|].
    intros i. rewrite and_nth. rewrite nth_error_map. split.
    - intros [A B]. split; auto. intros e' E. injection E as <-.
      destruct (nth_error names i) as [n|] eqn:NI; [|discriminate]. cbn in B. injection B as B. exists n. split; auto.
      intros Q. apply negb_true_iff in B. assert (X : smem n keep = true); [|congruence]. apply smem_In, IN.
      split; auto. eapply nth_error_In; eauto.
    - intros [A B]. split; auto. destruct (B e eq_refl) as (n & N & Q). rewrite N. cbn. f_equal. apply negb_true_iff.
      destruct (smem n keep) eqn:S; auto. exfalso. apply Q. apply smem_In, IN in S. tauto.
  Qed.
  Lemma restrict_spec names inc exc sel : names <> [] -> legal rx inc -> legal rx exc -> List.length sel = List.length names ->
    exists s, restrict rx names inc exc sel = Ok s /\ List.length s = List.length names /\
      forall i, nth_error s i = Some true <-> nth_error sel i = Some true /\
        exists n, nth_error names i = Some n /\ passes rx inc exc n.
  Proof.
    intros NE V1 V2 L. unfold restrict. destruct (include_spec names inc sel NE V1 L) as (s1 & -> & L1 & S1). cbn [rbind].
    destruct (exclude_spec names exc s1 NE V2 L1) as (s2 & -> & L2 & S2). exists s2. split; auto. split; auto.
    intros i. rewrite S2, S1. split.
    - intros [[A B] D]. split; auto.
      destruct (nth_error names i) as [n|] eqn:N.
      2:{ apply nth_error_None in N. assert (X : nth_error sel i <> None) by congruence. apply nth_error_Some in X. lia. }
      exists n. split; auto. split; intros e E.
      + destruct (B e E) as (n' & Q & W). congruence.
      + destruct (D e E) as (n' & Q & W). congruence.
    - intros (A & n & N & P & Q). split; [split; auto|]; intros e E; exists n; auto.
  Qed.

  Lemma where_asc m : ascending (where_true m).
  Proof.
    unfold ascending, where_true. generalize 0%nat as a. induction m as [|b m IH]; intros a; simpl; [constructor|].
    assert (LT : forall x, In x (map fst (filter (fun p => snd p) (combine (seq (S a) (List.length m)) m))) -> (a < x)%nat).
    { intros x H. apply in_map_iff in H. destruct H as ([u v] & E & H). apply filter_In in H. destruct H as [H _].
      apply in_combine_l in H. apply in_seq in H. simpl in E. lia. }
    destruct b; simpl; auto. constructor; auto. apply Forall_forall. auto.
  Qed.

  Theorem asym_select_spec names mask skip inc exc : names <> [] -> legal rx inc -> legal rx exc ->
    (forall e, skip = true -> mask <> Raise e) -> (forall m, mask = Ok m -> List.length m = List.length names) ->
    exists idx, asym_select rx names mask skip inc exc = Ok (idx, map (fun i => nth i names EmptyString) idx) /\ ascending idx /\
      forall i, In i idx <-> exists n, nth_error names i = Some n /\ passes rx inc exc n /\
        (skip = true -> exists m, mask = Ok m /\ nth i m false = true).
  Proof.
    intros NE V1 V2 MK LM. unfold asym_select.
    assert (S0 : exists s, (if skip then (m <- mask ;; Ok (map (fun p => fst p && snd p) (combine (repeat true (List.length names)) m)))
        else Ok (repeat true (List.length names))) = Ok s /\ List.length s = List.length names /\
        forall i, nth_error s i = Some true <-> (i < List.length names)%nat /\ (skip = true -> exists m, mask = Ok m /\ nth i m false = true)).
    { destruct skip.
      - destruct mask as [m|e]; [|exfalso; eapply MK; eauto]. cbn [rbind]. eexists. split; [reflexivity|].
        assert (L : List.length m = List.length names) by auto.
        split. { rewrite and_len; auto. rewrite repeat_length. auto. }
        intros i. rewrite and_nth, repeat_true_nth. split.
        + intros [A B]. split; auto. intros _. exists m. split; auto. apply nth_error_nth. auto.
        + intros [A B]. split; auto. destruct (B eq_refl) as (m' & E & X). injection E as <-.
          rewrite (nth_error_nth' m false) by lia. rewrite X. auto.
      - eexists. split; [reflexivity|]. split; [apply repeat_length|]. intros i. rewrite repeat_true_nth.
        split; [|tauto]. intros H. split; auto. discriminate. }
    destruct S0 as (s & -> & LS & SS). cbn [rbind].
    destruct (restrict_spec names inc exc s NE V1 V2 LS) as (s2 & -> & L2 & S2). cbn [rbind].
    exists (where_true s2). split; auto. split; [apply where_asc|].
    intros i. rewrite where_true_spec, S2, SS. split.
    - intros ((A & B) & n & N & P). exists n. auto.
    - intros (n & N & P & B). split; [|eauto]. split; auto. apply nth_error_Some. congruence.
  Qed.

  (** shifted constraints *)
  Theorem ga_select_spec nparams parms systs cw priored inc exc :
    systs <> [] -> List.length cw = List.length systs -> legal rx inc -> legal rx exc ->
    exists xs names, ga_select rx nparams parms systs cw priored inc exc = Ok (xs, names) /\
      List.length names = List.length xs /\
      (forall x n, In (x, n) (combine xs names) <->
         (exists i, x = (nparams + i)%nat /\ nth_error systs i = Some n /\ 0 < nth i cw 0 /\ passes rx inc exc n) \/
         (exists q, In x priored /\ nth x parms EmptyString = q /\ n = append q "_prior" /\ passes rx inc exc q)).
  Proof.
    intros NE LC V1 V2. unfold ga_select.
    destruct (restrict_spec systs inc exc (map (Rltb 0) cw) NE V1 V2) as (s & -> & LS & SS). { rewrite map_length. auto. }
    cbn [rbind]. set (idx := where_true s).
    set (xs := map (fun i => nparams + i)%nat idx). set (ns := map (fun i => nth i systs EmptyString) idx).
    assert (LX : List.length xs = List.length ns) by (unfold xs, ns; rewrite !map_length; auto).
    assert (CW : forall i, nth_error (map (Rltb 0) cw) i = Some true <-> (i < List.length systs)%nat /\ 0 < nth i cw 0).
    { intros i. rewrite nth_error_map. rewrite <- LC. destruct (nth_error cw i) as [w|] eqn:N; cbn.
      - rewrite (nth_error_nth _ _ _ N). assert (i < List.length cw)%nat by (apply nth_error_Some; congruence).
        destruct (Rltb_spec 0 w); split; try discriminate; auto; intros [_ Q]; lra.
      - apply nth_error_None in N. split; [discriminate|lia]. }
    assert (A : forall x n, In (x, n) (combine xs ns) <->
      exists i, x = (nparams + i)%nat /\ nth_error systs i = Some n /\ 0 < nth i cw 0 /\ passes rx inc exc n).
    { intros x n. unfold xs, ns.
      assert (E : combine (map (fun i => nparams + i)%nat idx) (map (fun i => nth i systs EmptyString) idx) =
                  map (fun i => (nparams + i, nth i systs EmptyString))%nat idx).
      { clear. induction idx; simpl; auto. f_equal. auto. }
      rewrite E, in_map_iff. split.
      - intros (i & Q & H). injection Q as <- <-. unfold idx in H. apply where_true_spec, SS in H.
        destruct H as (H & n & N & P). apply CW in H. exists i. rewrite (nth_error_nth _ _ EmptyString N). tauto.
      - intros (i & -> & N & W & P). exists i. split. { f_equal. apply nth_error_nth. auto. }
        unfold idx. apply where_true_spec, SS. split; [|eauto]. apply CW. split; auto. apply nth_error_Some. congruence. }
    destruct priored as [|p0 pr] eqn:PR.
    { exists xs, ns. split; auto. split; auto. intros x n. rewrite A. split; auto. intros [H|(q & [] & _)]; auto. }
    rewrite <- PR in *. assert (PN : priored <> []) by congruence. clear PR.
    set (pnames := map (fun i => nth i parms EmptyString) priored).
    destruct (restrict_spec pnames inc exc (repeat true (List.length priored))) as (ps & -> & LP & SP); auto.
    { unfold pnames. destruct priored; [contradiction|discriminate]. }
    { rewrite repeat_length. unfold pnames. rewrite map_length. auto. }
    cbn [rbind].
    set (ok := map (fun t : nat * string * bool => (fst (fst t), snd (fst t))) (filter (fun t => snd t) (combine (combine priored pnames) ps))).
    assert (OK : forall x q, In (x, q) ok <-> In x priored /\ nth x parms EmptyString = q /\ passes rx inc exc q).
    { assert (G : forall x q, In (x, q) ok <-> exists k, nth_error priored k = Some x /\ nth_error pnames k = Some q /\ nth_error ps k = Some true).
      { clear. intros x q. unfold ok. clear ok. clearbody pnames. rewrite in_map_iff. split.
        - intros ([[u v] w] & E & H). simpl in E. injection E as -> ->. apply filter_In in H. destruct H as [H W]. simpl in W. subst w.
          revert pnames ps H. induction priored as [|a l IH]; intros pn ps H; [destruct H|].
          destruct pn as [|b pn]; [destruct H|]. destruct ps as [|c ps]; [destruct H|]. simpl in H. destruct H as [H|H].
          + injection H as -> -> ->. exists 0%nat. auto.
          + destruct (IH _ _ H) as (k & K). exists (S k). auto.
        - intros (k & K1 & K2 & K3). exists ((x, q), true). split; auto. apply filter_In. split; auto.
          revert k pnames ps K1 K2 K3. induction priored as [|a l IH]; intros k pn ps K1 K2 K3; [destruct k; discriminate|].
          destruct pn as [|b pn]; [destruct k; discriminate|]. destruct ps as [|c ps]; [destruct k; discriminate|].
          destruct k; simpl in *. { left. congruence. } right. eapply IH; eauto. }
      intros x q. rewrite G. split.
      - intros (k & K1 & K2 & K3). apply SP in K3. destruct K3 as (_ & n & N & P). rewrite K2 in N. injection N as <-.
        split. { eapply nth_error_In; eauto. } split; auto. unfold pnames in K2. rewrite nth_error_map, K1 in K2. cbn in K2. congruence.
      - intros (H1 & H2 & P). apply In_nth_error in H1. destruct H1 as [k K]. exists k. split; auto.
        assert (K2 : nth_error pnames k = Some q). { unfold pnames. rewrite nth_error_map, K. cbn. congruence. }
        split; auto. apply SP. split; [|eauto]. apply repeat_true_nth. apply nth_error_Some. congruence. }
    exists (xs ++ map fst ok), (ns ++ map (fun t => append (snd t) "_prior") ok).
    split; auto. split. { rewrite !app_length, !map_length. auto. }
    intros x n. assert (CA : combine (xs ++ map fst ok) (ns ++ map (fun t => append (snd t) "_prior") ok) =
      combine xs ns ++ map (fun t => (fst t, append (snd t) "_prior")) ok).
    { clear - LX. clearbody xs ns ok. revert ns LX. induction xs as [|a l IH]; intros [|b ns] L; try discriminate; cbn [app combine].
      - induction ok; simpl; auto. f_equal. auto.
      - f_equal. apply IH. simpl in L. congruence. }
    rewrite CA, in_app_iff, A, in_map_iff. split.
    - intros [H|([u v] & E & H)]; auto. right. cbn [fst snd] in E. injection E as -> <-. apply OK in H. exists v. tauto.
    - intros [H|(q & H1 & H2 & -> & P)]; auto. right. exists (x, q). split; auto. apply OK. auto.
  Qed.
End Options.

(** *** columns of the targets *)
Lemma first_at_spec n l k : NoDup l -> nth_error l k = Some n -> first_at n l = Ok k.
Proof.
  revert k. induction l as [|a l IH]; intros k ND H; [destruct k; discriminate|]. inversion ND; subst. cbn [first_at].
  destruct k; simpl in H.
  - injection H as ->. rewrite String.eqb_refl. auto.
  - destruct (String.eqb_spec a n) as [->|]. { exfalso. apply H2. eapply nth_error_In; eauto. }
    rewrite (IH k) by auto. auto.
Qed.
Lemma mapM_first parms ts cols : NoDup parms -> Forall2 (fun t c => nth_error parms c = Some t) ts cols ->
  target_cols parms ts = Ok cols.
Proof.
  intros ND H. unfold target_cols. induction H as [|t c ts cols H1 H2 IH]; simpl; auto.
  rewrite (first_at_spec _ _ _ ND H1). cbn [rbind]. rewrite IH. auto.
Qed.
Theorem target_cols_spec params systs npoi noi : NoDup (params ++ systs) -> (npoi <= List.length params)%nat ->
  (forall i, In i noi -> (i < List.length systs)%nat) ->
  target_cols (params ++ systs) (targets params systs npoi noi) = Ok (seq 0 npoi ++ map (fun i => List.length params + i)%nat noi).
Proof.
  intros ND L NI. apply mapM_first; auto. unfold targets. apply Forall2_app.
  - assert (G : forall a k, (a + k <= List.length params)%nat ->
      Forall2 (fun t c => nth_error (params ++ systs) c = Some t) (firstn k (skipn a params)) (seq a k)).
    { intros a k. revert a. induction k; intros a Ha; simpl; [constructor|].
      assert (A : (a < List.length params)%nat) by lia.
      destruct (nth_error params a) as [x|] eqn:E; [|apply nth_error_None in E; lia].
      assert (SK : skipn a params = x :: skipn (S a) params).
      { clear - E. revert a E. induction params as [|y l IH]; intros [|a] E; simpl in *; try discriminate; [congruence|].
        rewrite (IH a E). destruct l; auto. }
      rewrite SK. cbn [firstn]. constructor.
      - rewrite nth_error_app1 by auto. auto.
      - apply IHk. lia. }
    apply (G 0%nat npoi). lia.
  - induction noi as [|i l IH]; simpl; constructor.
    + rewrite nth_error_app2 by lia. replace (List.length params + i - List.length params)%nat with i by lia.
      apply nth_error_nth'. apply NI. simpl. auto.
    + apply IH. intros j Hj. apply NI. simpl. auto.
Qed.
