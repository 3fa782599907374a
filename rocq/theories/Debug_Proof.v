From Coq Require Import Reals List Arith Bool String Lia Lra.
From Verif Require Import RBase PyList PyDict Debug_Model Debug_Spec.
Import ListNotations.
Local Open Scope nat_scope.

Lemma plain_stored w c ch : plain w -> In (c, ch) (w_channels w) -> stored ch = size_of ch.
Proof. intros [_ F] I. rewrite Forall_forall in F. specialize (F _ I). cbn in F. unfold stored, size_of. rewrite F. auto. Qed.
Lemma sum_sizes w l : plain w -> incl l (w_channels w) -> list_sum (map (fun c => stored (snd c)) l) = list_sum (map (fun c => size_of (snd c)) l).
Proof. intros P. induction l as [|[c ch] l IH]; intros I; cbn; auto. rewrite (plain_stored w c ch); [|auto|apply I; left; auto]. unfold list_sum in IH. rewrite IH; auto. intros x X. apply I. right; auto. Qed.
Lemma incl_firstn {A} j (l : list A) : incl (firstn j l) l.
Proof. intros x X. rewrite <- (firstn_skipn j l). apply in_or_app. auto. Qed.
Lemma build_nth w d : forall st j c ch, nth_error d j = Some (c, ch) ->
  nth_error (build w st d) j = Some (c, hists_of w (st + list_sum (map (fun c => size_of (snd c)) (firstn j d))) ch).
Proof.
  induction d as [|[k c'] d IH]; intros st j c ch E; [destruct j; discriminate|]. destruct j; cbn [nth_error build firstn map list_sum fold_right] in *.
  - injection E as <- <-. rewrite Nat.add_0_r. auto.
  - rewrite (IH _ _ _ _ E). cbn [snd]. do 3 f_equal. unfold list_sum. lia.
Qed.
Lemma build_nth' w d : forall st j x, nth_error (build w st d) j = Some x -> exists c ch, nth_error d j = Some (c, ch) /\ fst x = c /\ snd x = hists_of w (st + list_sum (map (fun c => size_of (snd c)) (firstn j d))) ch.
Proof.
  intros st j x E. assert (H : j < List.length d).
  { assert (List.length (build w st d) = List.length d) by (clear; revert st; induction d as [|[k c] d IH]; intros; cbn; auto). assert (j < List.length (build w st d)) by (apply nth_error_Some; congruence). lia. }
  destruct (nth_error d j) as [[c ch]|] eqn:D; [|apply nth_error_None in D; lia]. rewrite (build_nth _ _ _ _ _ _ D) in E. exists c, ch. assert (X := f_equal (fun o => match o with Some y => y | None => x end) E). cbv beta iota in X. rewrite <- X. auto.
Qed.
Lemma build_keys w d st : dkeys (build w st d) = dkeys d.
Proof. revert st. induction d as [|[k c] d IH]; intros; cbn; auto. unfold dkeys in IH. rewrite IH. auto. Qed.
(** histograms of the channel at position j of a plain file *)
Lemma plain_hist w j c ch : plain w -> nth_error (w_channels w) j = Some (c, ch) ->
  nth_error (build w 0 (w_channels w)) j = Some (c, hists_of w (first_bin w j) ch) /\ h_n (hists_of w (first_bin w j) ch) = stored ch.
Proof.
  intros P E. rewrite (build_nth _ _ _ _ _ _ E). cbn [plus]. unfold first_bin. rewrite (sum_sizes w) by (auto using incl_firstn). split; auto.
  cbn [h_n hists_of]. symmetry. eapply plain_stored; eauto. apply nth_error_In in E. eauto.
Qed.
Lemma plain_hist_in w c h : plain w -> In (c, h) (build w 0 (w_channels w)) -> exists j ch, nth_error (w_channels w) j = Some (c, ch) /\ h = hists_of w (first_bin w j) ch /\ h_n h = stored ch.
Proof.
  intros P I. apply In_nth_error in I as (j & E). destruct (build_nth' _ _ _ _ _ E) as (c' & ch & D & X & Y). cbn [fst snd plus] in X, Y. subst c'. exists j, ch.
  unfold first_bin. rewrite (sum_sizes w) by (auto using incl_firstn). split; auto. split; auto. rewrite Y. cbn [h_n hists_of]. symmetry. eapply plain_stored; eauto. apply nth_error_In in D. eauto.
Qed.
Lemma nodup_pos {V} (d : dict V) j j' c x y : NoDup (dkeys d) -> nth_error d j = Some (c, x) -> nth_error d j' = Some (c, y) -> j = j'.
Proof.
  intros N E E'. apply (map_nth_error fst) in E, E'. cbn in *. rewrite NoDup_nth_error in N. apply N; [|unfold dkeys; congruence]. unfold dkeys. apply nth_error_Some. congruence.
Qed.

Lemma existsb_seq f n : existsb f (seq 0 n) = true <-> exists b, b < n /\ f b = true.
Proof. rewrite existsb_exists. split; intros (b & B & F); exists b; split; auto; [apply in_seq in B; lia|apply in_seq; lia]. Qed.
Lemma count_pos f n : Nat.ltb 0 (count f n) = true <-> exists b, b < n /\ f b = true.
Proof.
  rewrite <- existsb_seq, existsb_exists. unfold count. rewrite Nat.ltb_lt. split.
  - intros H. destruct (filter f (seq 0 n)) as [|x l] eqn:E; [cbn in H; lia|]. exists x. apply filter_In. rewrite E. left; auto.
  - intros H. destruct H as (b & B). apply filter_In in B. destruct (filter f (seq 0 n)); [destruct B|cbn; lia].
Qed.
Definition entry (w : indata) (b p k : nat) : Prop := w_avg w b p k <> 0%R \/ (w_symmetric w = false /\ w_half w b p k <> 0%R).
Lemma nonzero_spec x : nonzero x = true <-> x <> 0%R.
Proof. unfold nonzero. destruct (Reqb_spec x 0); cbn; intuition congruence. Qed.
Lemma active_spec w st ch p k : Nat.ltb 0 (h_active (hists_of w st ch) p k) = true <-> exists b, b < size_of ch /\ entry w (st + b) p k.
Proof.
  cbn [h_active hists_of]. rewrite count_pos. unfold entry.
  assert (Z : nonzero 0 = false) by (unfold nonzero; rewrite Reqb_true; auto).
  split; intros (b & B & F); exists b; split; auto.
  - apply orb_true_iff in F. rewrite !nonzero_spec in F. destruct (w_symmetric w); [left|]; intuition.
  - apply orb_true_iff. rewrite !nonzero_spec. destruct (w_symmetric w); intuition congruence.
Qed.
Lemma cover w j c b : in_channel w j c b -> b < all_bins w.
Proof.
  intros (ch & E & L). unfold first_bin, all_bins in *. assert (X : list_sum (map (fun c => stored (snd c)) (firstn j (w_channels w))) + stored ch <= list_sum (map (fun c => stored (snd c)) (w_channels w))); [|lia].
  clear L. revert j E. induction (w_channels w) as [|x d IH]; intros j E; [destruct j; discriminate|]. destruct j; cbn [nth_error] in E; cbn [firstn map list_sum fold_right].
  - injection E as ->. cbn. lia.
  - apply IH in E. unfold list_sum in *. lia.
Qed.
Lemma cover_all w b : b < all_bins w -> exists j c, in_channel w j c b.
Proof.
  unfold all_bins, in_channel, first_bin. generalize (w_channels w). intros d. revert b. induction d as [|[c ch] d IH]; intros b H; cbn [map list_sum fold_right snd] in H; [lia|].
  destruct (lt_dec b (stored ch)).
  - exists 0, c, ch. cbn. split; auto. lia.
  - destruct (IH (b - stored ch)) as (j & c' & ch' & E & L). { unfold list_sum. lia. } exists (S j), c', ch'. cbn [nth_error firstn map list_sum fold_right snd]. split; auto. unfold list_sum in *. lia.
Qed.
Lemma entry_moves w b p k : tidy w -> (entry w b p k <-> moves w b p k).
Proof.
  intros T. unfold entry, moves, varied, logk.
  set (a := w_avg w b p k). set (n := w_norm w b p). specialize (T : w_type w = LogNormal -> _).
  assert (X : forall h : R, (w_type w = LogNormal -> n = 0%R -> a = 0%R /\ h = 0%R) ->
     ((a <> 0 \/ h <> 0)%R <-> ((match w_type w with LogNormal => n * exp (1 * a + h) | Normal => n + (1 * a + h) end) <> n \/
        (match w_type w with LogNormal => n * exp (-1 * a + h) | Normal => n + (-1 * a + h) end) <> n)%R)).
  { intros h H. destruct (w_type w).
    - destruct (Req_dec n 0) as [N|N]. { destruct (H eq_refl N) as [-> ->]. rewrite N. split; [lra|]. intros [Q|Q]; exfalso; apply Q; lra. }
      assert (E : forall x, (n * exp x = n)%R <-> x = 0%R).
      { intros x. split; intros Q. - assert (exp x = 1)%R by (apply (Rmult_eq_reg_l n); lra). rewrite <- exp_0 in H0. apply exp_inv in H0. auto. - rewrite Q, exp_0. lra. }
      rewrite !E. split; intros Q; [|destruct Q; lra].
      destruct (Req_dec (1 * a + h) 0); auto. right. intros Y. destruct Q; lra.
    - split; intros Q; [|destruct Q; lra]. destruct (Req_dec (1 * a + h) 0); [right|left]; destruct Q; lra. }
  destruct (w_symmetric w).
  - rewrite <- X. + intuition congruence || (split; intros [Q|Q]; auto; try congruence; try tauto). + intros E N. destruct (T E b p k N). auto.
  - rewrite <- X. + intuition. + intros E N. apply (T E b p k N).
Qed.

(** *** systematics without effect *)
Lemma nth_combine {A} (l : list A) : forall st k x, In (k, x) (combine (seq st (List.length l)) l) <-> st <= k /\ nth_error l (k - st) = Some x.
Proof.
  induction l as [|y l IH]; intros st k x; cbn [List.length seq combine In].
  - split; [tauto|]. intros [_ H]. destruct (k - st); discriminate.
  - rewrite IH. split.
    + intros [E|[L E]]. * injection E as -> ->. rewrite Nat.sub_diag. auto. * split; [lia|]. replace (k - st) with (S (k - S st)) by lia. auto.
    + intros [L E]. destruct (Nat.eq_dec k st). * left. subst. rewrite Nat.sub_diag in E. cbn in E. congruence. * right. split; [lia|]. replace (k - st) with (S (k - S st)) in E by lia. auto.
Qed.
Lemma nonzero_systs_in w s : plain w -> In s (nonzero_systs (w_procs w) (w_systs w) (build w 0 (w_channels w))) <->
  exists k p b, nth_error (w_systs w) k = Some s /\ p < List.length (w_procs w) /\ b < all_bins w /\ entry w b p k.
Proof.
  intros P. unfold nonzero_systs. rewrite in_map_iff. split.
  - intros ([k s'] & <- & F). apply filter_In in F as [C F]. apply nth_combine in C as [_ C]. rewrite Nat.sub_0_r in C. cbn [fst snd] in *.
    apply existsb_exists in F as ([c h] & I & F). apply existsb_seq in F as (p & Hp & F). apply plain_hist_in in I as (j & ch & E & -> & N); auto. cbn [snd] in F. apply active_spec in F as (b & B & X).
    exists k, p, (first_bin w j + b). split; auto. split; auto. split; auto. apply (cover w j c). exists ch. split; auto. cbn [h_n hists_of] in N. lia.
  - intros (k & p & b & E & Hp & Hb & X). exists (k, s). split; auto. apply filter_In. split. { apply nth_combine. rewrite Nat.sub_0_r. split; auto. lia. }
    cbn [fst]. apply cover_all in Hb as (j & c & ch & D & L). destruct (plain_hist w j c ch P D) as [A B]. apply existsb_exists. exists (c, hists_of w (first_bin w j) ch). split; [eapply nth_error_In; eauto|].
    apply existsb_seq. exists p. split; auto. cbn [snd]. apply active_spec. cbn [h_n hists_of] in B. exists (b - first_bin w j). split; [lia|]. replace (first_bin w j + (b - first_bin w j)) with b by lia. auto.
Qed.
Lemma c4_spec w k s : plain w -> NoDup (w_systs w) -> tidy w -> nth_error (w_systs w) k = Some s ->
  (In s (c4 w (build w 0 (w_channels w))) <-> forall b p, b < all_bins w -> p < List.length (w_procs w) -> ~ moves w b p k).
Proof.
  intros P N T E. unfold c4. rewrite filter_In. split.
  - intros [_ H] b p B Hp M. apply negb_true_iff in H. assert (X : In s (nonzero_systs (w_procs w) (w_systs w) (build w 0 (w_channels w)))).
    { apply nonzero_systs_in; auto. exists k, p, b. split; auto. split; auto. split; auto. apply entry_moves; auto. }
    apply smem_In in X. congruence.
  - intros H. split; [eapply nth_error_In; eauto|]. apply negb_true_iff. destruct (smem s _) eqn:X; auto. apply smem_In in X. apply nonzero_systs_in in X as (k' & p & b & E' & Hp & Hb & X); auto.
    assert (k' = k). { rewrite NoDup_nth_error in N. apply N; [apply nth_error_Some; congruence|congruence]. } subst. exfalso. apply (H b p); auto. apply entry_moves; auto.
Qed.
(** *** processes without variations *)
Lemma channels_for_in w p c : plain w -> In c (channels_for (w_systs w) (build w 0 (w_channels w)) p) <-> exists j b k, in_channel w j c b /\ k < List.length (w_systs w) /\ entry w b p k.
Proof.
  intros P. unfold channels_for. rewrite in_map_iff. split.
  - intros ([c' h] & <- & F). apply filter_In in F as [I F]. apply plain_hist_in in I as (j & ch & E & -> & N); auto. cbn [fst snd] in *.
    apply (count_pos (fun k => Nat.ltb 0 (h_active (hists_of w (first_bin w j) ch) p k))) in F as (k & K & F). apply active_spec in F as (b & B & X).
    exists j, (first_bin w j + b), k. split; auto. exists ch. cbn [h_n hists_of] in N. split; auto. lia.
  - intros (j & b & k & (ch & E & L) & K & X). destruct (plain_hist w j c ch P E) as [A B]. cbn [h_n hists_of] in B. exists (c, hists_of w (first_bin w j) ch). split; auto. apply filter_In. split; [eapply nth_error_In; eauto|].
    apply (count_pos (fun k => Nat.ltb 0 (h_active (hists_of w (first_bin w j) ch) p k))). exists k. split; auto. apply active_spec. exists (b - first_bin w j). split; [lia|]. replace (first_bin w j + (b - first_bin w j)) with b by lia. auto.
Qed.
Lemma is_nil_spec {A} (l : list A) : is_nil l = true <-> l = [].
Proof. destruct l; cbn; split; congruence. Qed.
Lemma c5_spec w p s : plain w -> NoDup (w_procs w) -> tidy w -> nth_error (w_procs w) p = Some s ->
  (In s (c5 w (build w 0 (w_channels w))) <-> forall b k, b < all_bins w -> k < List.length (w_systs w) -> ~ moves w b p k).
Proof.
  intros P N T E. unfold c5. rewrite in_map_iff. split.
  - intros ([p' s'] & <- & F). apply filter_In in F as [C F]. apply nth_combine in C as [_ C]. rewrite Nat.sub_0_r in C. cbn [fst snd] in *.
    assert (p' = p). { rewrite NoDup_nth_error in N. apply N; [apply nth_error_Some; congruence|congruence]. } subst. apply is_nil_spec in F.
    intros b k B K M. apply cover_all in B as (j & c & IC). assert (X : In c (channels_for (w_systs w) (build w 0 (w_channels w)) p)) by (apply channels_for_in; auto; exists j, b, k; split; auto; split; auto; apply entry_moves; auto).
    rewrite F in X. destruct X.
  - intros H. exists (p, s). split; auto. apply filter_In. split. { apply nth_combine. rewrite Nat.sub_0_r. split; auto. lia. }
    cbn [fst]. apply is_nil_spec. destruct (channels_for _ _ p) as [|c l] eqn:X; auto. exfalso. assert (Y : In c (channels_for (w_systs w) (build w 0 (w_channels w)) p)) by (rewrite X; left; auto).
    apply channels_for_in in Y as (j & b & k & IC & K & Y); auto. apply (H b k); auto. { eapply cover; eauto. } apply entry_moves; auto.
Qed.

(** *** selected channels *)
Lemma selected_in w l c h : plain w -> In (c, h) (selected (build w 0 (w_channels w)) l) <-> In c l /\ exists j ch, nth_error (w_channels w) j = Some (c, ch) /\ h = hists_of w (first_bin w j) ch.
Proof.
  intros P. unfold selected. rewrite filter_In. cbn [fst]. rewrite smem_In. split.
  - intros [I S]. split; auto. apply plain_hist_in in I as (j & ch & E & -> & _); auto. eauto.
  - intros [S (j & ch & E & ->)]. split; auto. destruct (plain_hist w j c ch P E) as [A _]. eapply nth_error_In; eauto.
Qed.
Lemma bins_in f n b : In b (bins f n) <-> b < n /\ f b = true.
Proof. unfold bins. rewrite filter_In, in_seq. split; intros [A B]; split; auto; lia. Qed.
Lemma exactly_bins w j c ch (f : nat -> bool) (Q : nat -> Prop) : plain w -> nth_error (w_channels w) j = Some (c, ch) ->
  (forall b, f b = true <-> Q (first_bin w j + b)) -> exactly w j c Q (bins f (size_of ch)).
Proof.
  intros P E H b. rewrite bins_in, H. assert (S : stored ch = size_of ch) by (eapply plain_stored; eauto; apply nth_error_In in E; eauto).
  split. - intros [B X]. split; auto. exists ch. split; auto. lia. - intros [(ch' & E' & L) X]. split; auto. rewrite E in E'. injection E' as <-. lia.
Qed.
(** a list of channels with the bins satisfying a test *)
Definition listing (f : hists -> nat -> bool) (g : hists -> list nat -> nat) (d : dict hists) : list (string * nat * list nat) :=
  flat_map (fun h : string * hists => let l := bins (f (snd h)) (h_n (snd h)) in if is_nil l then [] else [(fst h, g (snd h) l, l)]) d.
Lemma listing_spec w sel f g (Q : chan -> nat -> Prop) : plain w -> (forall st ch b, f (hists_of w st ch) b = true <-> Q ch (st + b)) ->
  forall c n l, In (c, n, l) (listing f g (selected (build w 0 (w_channels w)) sel)) <->
    In c sel /\ l <> [] /\ exists j ch, nth_error (w_channels w) j = Some (c, ch) /\ l = bins (f (hists_of w (first_bin w j) ch)) (size_of ch) /\ n = g (hists_of w (first_bin w j) ch) l /\ exactly w j c (Q ch) l.
Proof.
  intros P H c n l. unfold listing. rewrite in_flat_map. split.
  - intros ([c' h] & I & X). cbn [fst snd] in X. apply selected_in in I as [S (j & ch & E & ->)]; auto. cbv zeta in X. cbn [h_n hists_of] in X.
    set (hh := hists_of w (first_bin w j) ch) in *. change (h_n hh) with (size_of ch) in X.
    destruct (is_nil (bins (f hh) (size_of ch))) eqn:Z; [destruct X|]. destruct X as [X|[]]. injection X as -> <- <-. split; auto. split. { intros Q'. rewrite Q' in Z. discriminate. }
    exists j, ch. split; auto. split; auto. split; auto. apply exactly_bins; auto. intros b. apply H.
  - intros (S & N & j & ch & E & L & G & _). exists (c, hists_of w (first_bin w j) ch). split; [apply selected_in; eauto|]. cbn [fst snd]. cbv zeta. change (h_n (hists_of w (first_bin w j) ch)) with (size_of ch). rewrite <- L.
    destruct (is_nil l) eqn:Z; [apply is_nil_spec in Z; contradiction|]. left. rewrite G. auto.
Qed.
Lemma bins_nodup f n : NoDup (bins f n).
Proof. apply NoDup_filter, seq_NoDup. Qed.

Lemma lt_div' x n t : (0 < n)%R -> ((t < x / n)%R <-> (t * n < x)%R).
Proof.
  intros N. split; intros H.
  - apply (Rmult_lt_compat_r n) in H; auto. unfold Rdiv in H. rewrite Rmult_assoc, Rinv_l in H by lra. lra.
  - apply (Rmult_lt_reg_r n); auto. unfold Rdiv. rewrite Rmult_assoc, Rinv_l by lra. lra.
Qed.
Lemma flat_map_flat {A B C} (f : B -> list C) (g : A -> list B) l : flat_map f (flat_map g l) = flat_map (fun x => flat_map f (g x)) l.
Proof. induction l; cbn; auto. rewrite flat_map_app, IHl. auto. Qed.
Lemma bins_none n : bins (fun _ => false) n = [].
Proof. unfold bins. induction (seq 0 n); cbn; auto. Qed.
Definition low_obs (h : hists) (b : nat) : bool := match h_obs h with Some o => Rltb (o b) 10 | None => false end.
Lemma c21_listing d l : c21 d l = listing low_obs (fun h _ => h_naxes h) (selected d l).
Proof.
  unfold c21, with_data, listing. rewrite flat_map_flat. apply flat_map_ext. intros [c h]. cbn [fst snd]. unfold low_obs. destruct (h_obs h); cbn [flat_map fst snd].
  - cbv zeta. rewrite app_nil_r. auto.
  - rewrite bins_none. auto.
Qed.
Lemma c22_listing w d l : c22 w d l = listing (fun h b => Rltb (tot w h b) 1) (fun _ l => List.length l) (selected d l).
Proof. reflexivity. Qed.
Lemma c23_listing w d l : c23 w d l = listing (fun h b => uncertain (totvar w h b) (tot w h b)) (fun _ l => List.length l) (selected d l).
Proof. reflexivity. Qed.
Lemma listing_complete w sel f g (Q : chan -> nat -> Prop) : plain w -> (forall st ch b, f (hists_of w st ch) b = true <-> Q ch (st + b)) ->
  forall j c ch b, In c sel -> nth_error (w_channels w) j = Some (c, ch) -> first_bin w j <= b < first_bin w j + stored ch -> Q ch b ->
    exists n l, In (c, n, l) (listing f g (selected (build w 0 (w_channels w)) sel)).
Proof.
  intros P H j c ch b S E L X. set (hh := hists_of w (first_bin w j) ch). assert (ST : stored ch = size_of ch) by (eapply plain_stored; eauto; apply nth_error_In in E; eauto).
  assert (I : In (b - first_bin w j) (bins (f hh) (size_of ch))). { apply bins_in. split; [lia|]. apply H. replace (first_bin w j + (b - first_bin w j)) with b by lia. auto. }
  exists (g hh (bins (f hh) (size_of ch))), (bins (f hh) (size_of ch)). apply (listing_spec w sel f g Q P H). split; auto. split. { intros Z. rewrite Z in I. destruct I. }
  exists j, ch. split; auto. split; auto. split; auto. apply exactly_bins; auto. intros; apply H.
Qed.
Lemma uncertain_spec v x : uncertain v x = true <-> ((0 < x /\ x * x < v) \/ (x = 0 /\ 0 < v))%R.
Proof.
  unfold uncertain. destruct (Reqb_spec x 0) as [E|E].
  - destruct (Rltb_spec 0 v); split; intros; auto; try discriminate. destruct H; lra.
  - destruct (Rltb_spec 1 (sqrt v / x)) as [L|L]; split; auto; intros H; try discriminate.
    + left. assert (X : (0 < x)%R). { destruct (Rlt_dec 0 x); auto. exfalso. assert (sqrt v / x <= 0)%R; [|lra]. assert (0 <= sqrt v)%R by apply sqrt_pos. assert (/ x < 0)%R by (apply Rinv_lt_0_compat; lra). unfold Rdiv. assert (0 <= sqrt v * - / x)%R by (apply Rmult_le_pos; lra). lra. }
      split; auto. apply (proj1 (lt_div' _ _ _ X)) in L. rewrite Rmult_1_l in L. assert (V : (0 <= v)%R). { destruct (Rle_dec 0 v); auto. rewrite sqrt_neg_0 in L; lra. }
      rewrite <- (sqrt_sqrt v V). apply Rmult_le_0_lt_compat; lra.
    + exfalso. apply L. destruct H as [[X H]|[X _]]; [|contradiction]. apply (lt_div' _ _ _ X). rewrite Rmult_1_l. rewrite <- (sqrt_square x) by lra. assert (0 <= x * x)%R by (apply Rmult_le_pos; lra). apply sqrt_lt_1; lra.
Qed.
(** *** no data *)
Lemma with_data_in w l c : plain w -> In c (map fst (with_data (build w 0 (w_channels w)) l)) <-> In c l /\ exists j ch, nth_error (w_channels w) j = Some (c, ch) /\ c_masked ch = false.
Proof.
  intros P. unfold with_data. rewrite in_map_iff. split.
  - intros ([c' x] & <- & I). apply in_flat_map in I as ([c'' h] & I & X). apply selected_in in I as [S (j & ch & E & ->)]; auto. cbn [snd fst h_obs hists_of] in X.
    destruct (c_masked ch) eqn:M; [destruct X|]. destruct X as [X|[]]. injection X as -> _. cbn. split; auto. exists j, ch. auto.
  - intros [S (j & ch & E & M)]. exists (c, (hists_of w (first_bin w j) ch, fun b => w_obs w (first_bin w j + b))). split; auto. apply in_flat_map. exists (c, hists_of w (first_bin w j) ch).
    split; [apply selected_in; eauto|]. cbn [snd h_obs hists_of fst]. rewrite M. left. auto.
Qed.
Lemma filter_none {A} (f : A -> bool) l : (forall x, In x l -> f x = false) -> filter f l = [].
Proof. induction l as [|x d IH]; intros Y; auto. cbn [filter]. rewrite Y by (left; auto). apply IH. intros; apply Y; right; auto. Qed.
Lemma c1_nil w l : plain w -> c1 w (build w 0 (w_channels w)) l = [].
Proof.
  intros P. unfold c1. assert (X : filter (fun c : string * chan => negb (smem (fst c) (map fst (with_data (build w 0 (w_channels w)) l))) && negb (c_masked (snd c)) && smem (fst c) l) (w_channels w) = []); [|rewrite X; auto].
  assert (Y : forall x, In x (w_channels w) -> negb (smem (fst x) (map fst (with_data (build w 0 (w_channels w)) l))) && negb (c_masked (snd x)) && smem (fst x) l = false).
  { intros [c ch] I. cbn [fst snd]. destruct (c_masked ch) eqn:M; [rewrite andb_false_r; auto|]. destruct (smem c l) eqn:S; [|apply andb_false_r]. apply smem_In in S.
    assert (Z : smem c (map fst (with_data (build w 0 (w_channels w)) l)) = true). { apply smem_In, with_data_in; auto. split; auto. apply In_nth_error in I as (j & E). eauto. }
    rewrite Z. auto. }
  apply filter_none. exact Y.
Qed.

(** *** extreme variations *)
Lemma below_min l t : below (nanmin l) t = true <-> exists a, In (Some a) l /\ (a < t)%R.
Proof.
  induction l as [|x l IH]; [cbn; split; [discriminate|intros (a & [] & _)]|].
  cbn [nanmin fold_right]. fold (nanmin l). destruct x as [a|].
  - assert (E : below (match nanmin l with Some b => Some (Rmin a b) | None => Some a end) t = true <-> (a < t)%R \/ below (nanmin l) t = true).
    { destruct (nanmin l) as [b|]; cbn [below].
      - destruct (Rltb_spec (Rmin a b) t), (Rltb_spec b t); unfold Rmin in *; destruct (Rle_dec a b); split; intros; try tauto; try discriminate; try (left; lra); try lra; destruct H; try lra; try discriminate.
      - destruct (Rltb_spec a t); split; intros; try tauto; try discriminate; auto. }
    destruct (nanmin l) eqn:M; rewrite E, IH; split.
    + intros [L|(b & I & L)]; [exists a|exists b]; split; auto; [left; auto|right; auto].
    + intros (b & [I|I] & L); [injection I as ->; auto|right; eauto].
    + intros [L|(b & I & L)]; [exists a|exists b]; split; auto; [left; auto|right; auto].
    + intros (b & [I|I] & L); [injection I as ->; auto|right; eauto].
  - rewrite IH. split; intros (b & I & L); exists b; split; auto; [right; auto|destruct I; [discriminate|auto]].
Qed.
Lemma above_max l t : above (nanmax l) t = true <-> exists a, In (Some a) l /\ (t < a)%R.
Proof.
  induction l as [|x l IH]; [cbn; split; [discriminate|intros (a & [] & _)]|].
  cbn [nanmax fold_right]. fold (nanmax l). destruct x as [a|].
  - assert (E : above (match nanmax l with Some b => Some (Rmax a b) | None => Some a end) t = true <-> (t < a)%R \/ above (nanmax l) t = true).
    { destruct (nanmax l) as [b|]; cbn [above].
      - destruct (Rltb_spec t (Rmax a b)), (Rltb_spec t b); unfold Rmax in *; destruct (Rle_dec a b); split; intros; try tauto; try discriminate; try (left; lra); try lra; destruct H; try lra; try discriminate.
      - destruct (Rltb_spec t a); split; intros; try tauto; try discriminate; auto. }
    destruct (nanmax l) eqn:M; rewrite E, IH; split.
    + intros [L|(b & I & L)]; [exists a|exists b]; split; auto; [left; auto|right; auto].
    + intros (b & [I|I] & L); [injection I as ->; auto|right; eauto].
    + intros [L|(b & I & L)]; [exists a|exists b]; split; auto; [left; auto|right; auto].
    + intros (b & [I|I] & L); [injection I as ->; auto|right; eauto].
  - rewrite IH. split; intros (b & I & L); exists b; split; auto; [right; auto|destruct I; [discriminate|auto]].
Qed.
Lemma in_ratio (f g : nat -> R) n a : In (Some a) (map (fun b => ratio (f b) (g b)) (seq 0 n)) <-> exists b, b < n /\ (0 < g b)%R /\ a = (f b / g b)%R.
Proof.
  rewrite in_map_iff. unfold ratio. split.
  - intros (b & E & I). apply in_seq in I. exists b. destruct (Rltb_spec 0 (g b)); [|discriminate]. injection E as <-. repeat split; auto; lia.
  - intros (b & B & G & ->). exists b. rewrite Rltb_true by auto. split; auto. apply in_seq. lia.
Qed.
Lemma varied_down w st ch b p k : h_down (hists_of w st ch) b p k = varied w (-1) (st + b) p k.
Proof.
  cbn [h_down hists_of]. unfold get_syst, varied, logk. replace (- w_avg w (st + b) p k)%R with (-1 * w_avg w (st + b) p k)%R by lra. destruct (w_type w); lra.
Qed.
Lemma varied_up w st ch b p k : h_up (hists_of w st ch) b p k = varied w 1 (st + b) p k.
Proof.
  cbn [h_up hists_of]. unfold get_syst, varied, logk. rewrite Rmult_1_l. destruct (w_type w); lra.
Qed.
Lemma div_lt x n t : (0 < n)%R -> ((x / n < t)%R <-> (x < t * n)%R).
Proof.
  intros N. split; intros H.
  - apply (Rmult_lt_compat_r n) in H; auto. unfold Rdiv in H. rewrite Rmult_assoc, Rinv_l in H by lra. lra.
  - apply (Rmult_lt_reg_r n); auto. unfold Rdiv. rewrite Rmult_assoc, Rinv_l by lra. lra.
Qed.
Lemma lt_div x n t : (0 < n)%R -> ((t < x / n)%R <-> (t * n < x)%R).
Proof.
  intros N. split; intros H.
  - apply (Rmult_lt_compat_r n) in H; auto. unfold Rdiv in H. rewrite Rmult_assoc, Rinv_l in H by lra. lra.
  - apply (Rmult_lt_reg_r n); auto. unfold Rdiv. rewrite Rmult_assoc, Rinv_l by lra. lra.
Qed.
Lemma is_extreme_spec w st ch p k : is_extreme (hists_of w st ch) p k = true <->
  exists b, b < size_of ch /\ (0 < w_norm w (st + b) p)%R /\ (varied w (-1) (st + b) p k < 1 / 2 * w_norm w (st + b) p \/ 2 * w_norm w (st + b) p < varied w 1 (st + b) p k)%R.
Proof.
  unfold is_extreme. rewrite orb_true_iff, below_min, above_max. change (h_n (hists_of w st ch)) with (size_of ch). split.
  - intros [(a & I & L)|(a & I & L)]; apply in_ratio in I as (b & B & G & ->); exists b; (split; [auto|split; [exact G|]]).
    + left. rewrite varied_down in L. exact (proj1 (div_lt _ _ _ G) L).
    + right. rewrite varied_up in L. exact (proj1 (lt_div _ _ _ G) L).
  - intros (b & B & G & [L|L]).
    + left. exists (varied w (-1) (st + b) p k / w_norm w (st + b) p)%R. split; [|apply (proj2 (div_lt _ _ _ G)); auto]. apply in_ratio. exists b. split; auto. split; auto. rewrite varied_down. auto.
    + right. exists (varied w 1 (st + b) p k / w_norm w (st + b) p)%R. split; [|apply (proj2 (lt_div _ _ _ G)); auto]. apply in_ratio. exists b. split; auto. split; auto. rewrite varied_up. auto.
Qed.
Lemma c6_spec w sel c ps ks : plain w ->
  (exists l, In (c, l) (c6 w (build w 0 (w_channels w)) sel) /\ In (ps, ks) l) <->
  In c sel /\ exists j b p k, in_channel w j c b /\ nth_error (w_procs w) p = Some ps /\ nth_error (w_systs w) k = Some ks /\ (0 < w_norm w b p)%R /\
     (varied w (-1) b p k < 1 / 2 * w_norm w b p \/ 2 * w_norm w b p < varied w 1 b p k)%R.
Proof.
  intros P. unfold c6. split.
  - intros (l & I & X). apply in_flat_map in I as ([c' h] & I & Y). apply selected_in in I as [S (j & ch & E & ->)]; auto. cbn [fst snd] in Y. cbv zeta in Y.
    match type of Y with In _ (if is_nil ?L then _ else _) => destruct (is_nil L) eqn:Z; [destruct Y|] end. destruct Y as [Y|[]]. injection Y as -> <-. split; auto.
    apply in_flat_map in X as ([k s] & K & X). apply in_flat_map in X as ([p s'] & Pp & X). cbn [fst snd] in X.
    destruct (is_extreme (hists_of w (first_bin w j) ch) p k) eqn:EX; [|destruct X]. destruct X as [X|[]]. injection X as -> ->.
    apply nth_combine in K as [_ K]. apply nth_combine in Pp as [_ Pp]. rewrite Nat.sub_0_r in *. apply is_extreme_spec in EX as (b & B & G & L).
    exists j, (first_bin w j + b), p, k. split; auto. exists ch. split; auto. rewrite (plain_stored w c ch); auto; [lia|eapply nth_error_In; eauto].
  - intros (S & j & b & p & k & (ch & E & L) & EP & EK & G & V). eexists. split.
    + apply in_flat_map. exists (c, hists_of w (first_bin w j) ch). split; [apply selected_in; eauto|]. cbn [fst snd]. cbv zeta.
      match goal with |- In _ (if is_nil ?L then _ else _) => assert (Y : In (ps, ks) L) end.
      { apply in_flat_map. exists (k, ks). split; [apply nth_combine; rewrite Nat.sub_0_r; split; auto; lia|]. apply in_flat_map. exists (p, ps). split; [apply nth_combine; rewrite Nat.sub_0_r; split; auto; lia|]. cbn [fst snd].
        assert (EX : is_extreme (hists_of w (first_bin w j) ch) p k = true). { apply is_extreme_spec. rewrite (plain_stored w c ch) in L by (auto; eapply nth_error_In; eauto). exists (b - first_bin w j). replace (first_bin w j + (b - first_bin w j)) with b by lia. split; auto. lia. }
        rewrite EX. left. auto. }
      match goal with |- In _ (if is_nil ?L then _ else _) => destruct (is_nil L) eqn:Z; [apply is_nil_spec in Z; rewrite Z in Y; destruct Y|] end. left. reflexivity.
    + cbv beta. apply in_flat_map. exists (k, ks). split; [apply nth_combine; rewrite Nat.sub_0_r; split; auto; lia|]. apply in_flat_map. exists (p, ps). split; [apply nth_combine; rewrite Nat.sub_0_r; split; auto; lia|]. cbn [fst snd].
      assert (EX : is_extreme (hists_of w (first_bin w j) ch) p k = true). { apply is_extreme_spec. rewrite (plain_stored w c ch) in L by (auto; eapply nth_error_In; eauto). exists (b - first_bin w j). replace (first_bin w j + (b - first_bin w j)) with b by lia. split; auto. lia. }
      rewrite EX. left. auto.
Qed.

Lemma c2_spec w sel c : plain w -> In c (c2 (build w 0 (w_channels w)) sel) <->
  In c sel /\ exists j ch, nth_error (w_channels w) j = Some (c, ch) /\ c_masked ch = false /\ sumR (map (fun b => w_obs w (first_bin w j + b)) (seq 0 (stored ch))) = 0%R.
Proof.
  intros P. unfold c2. rewrite in_map_iff. split.
  - intros ([c' [h o]] & <- & F). apply filter_In in F as [I F]. unfold with_data in I. apply in_flat_map in I as ([c'' hh] & I & X). apply selected_in in I as [S (j & ch & E & ->)]; auto. cbn [snd fst h_obs hists_of] in X.
    destruct (c_masked ch) eqn:M; [destruct X|]. destruct X as [X|[]]. assert (X1 := f_equal fst X). assert (X2 := f_equal (fun z => snd (snd z)) X). assert (X3 := f_equal (fun z => h_n (fst (snd z))) X). cbn [fst snd h_n] in X1, X2, X3. cbn [fst snd] in F |- *. subst c''. split; auto. exists j, ch. split; auto. split; auto.
    rewrite <- X2, <- X3 in F. rewrite (plain_stored w c' ch); auto; [|eapply nth_error_In; eauto]. change (Reqb (sumR (map (fun b => w_obs w (first_bin w j + b)) (seq 0 (size_of ch)))) 0 = true) in F. destruct (Reqb_spec (sumR (map (fun b => w_obs w (first_bin w j + b)) (seq 0 (size_of ch)))) 0); auto; discriminate.
  - intros [S (j & ch & E & M & Z)]. exists (c, (hists_of w (first_bin w j) ch, fun b => w_obs w (first_bin w j + b))). split; auto. apply filter_In. split.
    + unfold with_data. apply in_flat_map. exists (c, hists_of w (first_bin w j) ch). split; [apply selected_in; eauto|]. cbn [snd h_obs hists_of fst]. rewrite M. left. auto.
    + cbn [fst snd]. apply Reqb_true. change (h_n (hists_of w (first_bin w j) ch)) with (size_of ch). rewrite (plain_stored w c ch) in Z; auto. eapply nth_error_In; eauto.
Qed.
Lemma c3_spec w sel c ps : plain w -> (exists l, In (c, l) (c3 w (build w 0 (w_channels w)) sel) /\ In ps l) <->
  In c sel /\ exists j ch p, nth_error (w_channels w) j = Some (c, ch) /\ nth_error (w_procs w) p = Some ps /\ sumR (map (fun b => w_norm w (first_bin w j + b) p) (seq 0 (stored ch))) = 0%R.
Proof.
  intros P. unfold c3. split.
  - intros (l & I & X). apply in_flat_map in I as ([c' h] & I & Y). apply selected_in in I as [S (j & ch & E & ->)]; auto. cbn [fst snd] in Y. cbv zeta in Y.
    match type of Y with In _ (if is_nil ?L then _ else _) => destruct (is_nil L) eqn:Z; [destruct Y|] end. destruct Y as [Y|[]]. injection Y as -> <-. split; auto.
    apply in_map_iff in X as ([p s'] & <- & X). apply filter_In in X as [Pp X]. apply nth_combine in Pp as [_ Pp]. rewrite Nat.sub_0_r in *. cbn [fst snd] in *.
    exists j, ch, p. split; auto. split; auto. rewrite (plain_stored w c ch); auto; [|eapply nth_error_In; eauto]. change (h_n (hists_of w (first_bin w j) ch)) with (size_of ch) in X. unfold sum_to in X. cbn [h_nom hists_of] in X.
    destruct (Reqb_spec (sumR (map (fun b => w_norm w (first_bin w j + b) p) (seq 0 (size_of ch)))) 0); auto; discriminate.
  - intros (S & j & ch & p & E & EP & Z).
    set (L := map snd (filter (fun p0 : nat * string => Reqb (sum_to (h_n (hists_of w (first_bin w j) ch)) (fun b => h_nom (hists_of w (first_bin w j) ch) b (fst p0))) 0) (combine (seq 0 (List.length (w_procs w))) (w_procs w)))).
    assert (Y : In ps L). { apply in_map_iff. exists (p, ps). split; auto. apply filter_In. split; [apply nth_combine; rewrite Nat.sub_0_r; split; auto; lia|]. cbn [fst]. apply Reqb_true.
      change (h_n (hists_of w (first_bin w j) ch)) with (size_of ch). rewrite (plain_stored w c ch) in Z; auto. eapply nth_error_In; eauto. }
    exists L. split; auto. apply in_flat_map. exists (c, hists_of w (first_bin w j) ch). split; [apply selected_in; eauto|]. cbn [fst snd]. cbv zeta. fold L.
    destruct (is_nil L) eqn:Q; [apply is_nil_spec in Q; rewrite Q in Y; destruct Y|]. left. auto.
Qed.
