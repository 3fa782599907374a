(** Proofs about variations tied to bin-by-bin nuisances. *)
From Coq Require Import Reals List Arith Bool String Lia Lra.
From Verif Require Import RBase PyList PyDict Mat_Model Mat_Proof BetaVar_Model BetaVar_Spec.
Import ListNotations.
Open Scope R_scope.

Lemma within_spec a n x : within a n x = true <-> (a <= x < a + n)%nat.
Proof. unfold within. rewrite andb_true_iff, Nat.leb_le, Nat.ltb_lt. tauto. Qed.
Definition covers (chans : list bchan) (j : job) (I J k : nat) : bool :=
  match src_range 0 chans (bv_src (j_var j)) with
  | Some (s, nb) => (within (j_ib j) (j_n j) I && within s nb J && Nat.eqb k (j_k j))%bool
  | None => false
  end.
Definition jvalue (chans : list bchan) (j : job) (I J : nat) : R :=
  match src_range 0 chans (bv_src (j_var j)) with Some (s, nb) => bv_val (j_var j) (I - j_ib j) (J - s) | None => 0 end.
Lemma run_jobs_ok chans js : (forall j, In j js -> exists s, src_range 0 chans (bv_src (j_var j)) = Some (s, bv_cols (j_var j))) -> forall A,
  exists A', run_jobs chans js A = Ok A' /\ forall I J k v, (forall j, In j js -> covers chans j I J k = true -> jvalue chans j I J = v) ->
    A' I J k = if existsb (fun j => covers chans j I J k) js then v else A I J k.
Proof.
  induction js as [|j r IH]; intros H A; cbn [run_jobs]; [exists A; split; auto|].
  destruct (H j (or_introl eq_refl)) as (s & E). rewrite E, Nat.eqb_refl. cbn [orb].
  destruct (IH (fun x Hx => H x (or_intror Hx)) (assign j s (bv_cols (j_var j)) A)) as (A' & EA & Q). exists A'. split; auto.
  intros I J k v HV. rewrite (Q I J k v) by (intros x Hx; apply HV; right; auto). cbn [existsb]. destruct (existsb (fun x => covers chans x I J k) r) eqn:X; [rewrite orb_true_r; auto|].
  rewrite orb_false_r. unfold assign. rewrite Nat.eqb_refl. unfold covers. rewrite E. destruct (within (j_ib j) (j_n j) I && within s (bv_cols (j_var j)) J && Nat.eqb k (j_k j))%bool eqn:C; auto.
  rewrite <- (HV j (or_introl eq_refl)); [unfold jvalue; rewrite E; auto|unfold covers; rewrite E; auto].
Qed.
Lemma starts_locate l : forall o c ib I, In (c, ib) (starts o l) -> (ib <= I < ib + bc_n c)%nat -> locate l (I - o) = Some (c, (I - ib)%nat) /\ (o <= I)%nat.
Proof.
  induction l as [|d r IH]; intros o c ib I H B; cbn [starts] in H; [elim H|]. cbn [locate]. destruct H as [H|H].
  - injection H as -> ->. destruct (Nat.ltb_spec (I - ib) (bc_n c)); [split; auto; lia|lia].
  - destruct (IH _ _ _ _ H B) as (E & L). destruct (Nat.ltb_spec (I - o) (bc_n d)); [lia|]. split; [|lia]. rewrite <- E. f_equal. lia.
Qed.
Lemma locate_starts l : forall o c i b, locate l b = Some (c, i) -> In (c, (o + b - i)%nat) (starts o l) /\ (i < bc_n c)%nat /\ (i <= b)%nat.
Proof.
  induction l as [|d r IH]; intros o c i b; cbn [locate starts]; [discriminate|]. destruct (Nat.ltb_spec b (bc_n d)).
  - intros E. injection E as -> ->. split; [left; f_equal; lia|lia].
  - intros E. destruct (IH (o + bc_n d)%nat _ _ _ E) as (A & B & C). split; [right|lia]. replace (o + b - i)%nat with (o + bc_n d + (b - bc_n d) - i)%nat by lia. auto.
Qed.
Lemma src_range_filter l : forall o name, src_range o l name = src_range o (filter (fun c => negb (bc_masked c)) l) name.
Proof.
  induction l as [|c r IH]; intros o name; auto. cbn [src_range filter]. destruct (bc_masked c) eqn:M; cbn [negb]; [apply IH|]. cbn [src_range]. rewrite M. destruct (String.eqb (bc_name c) name); auto.
Qed.
Lemma src_range_some l : (forall c, In c l -> bc_masked c = false) -> forall o name s nb, src_range o l name = Some (s, nb) -> exists c, In (c, s) (starts o l) /\ bc_name c = name /\ nb = bc_n c.
Proof.
  induction l as [|c r IH]; intros M o name s nb; cbn [src_range starts]; [discriminate|]. rewrite M by (left; auto). destruct (String.eqb_spec (bc_name c) name).
  - intros E. injection E as <- <-. exists c. split; [left; auto|auto].
  - intros E. destruct (IH (fun c H => M c (or_intror H)) _ _ _ _ E) as (d & A & B & C). exists d. split; [right; auto|auto].
Qed.
Lemma src_range_in l : (forall c, In c l -> bc_masked c = false) -> NoDup (map bc_name l) -> forall o c s, In (c, s) (starts o l) -> src_range o l (bc_name c) = Some (s, bc_n c).
Proof.
  induction l as [|d r IH]; intros M ND o c s; cbn [src_range starts]; [intros []|]. rewrite M by (left; auto). inversion ND as [|? ? NI ND']; subst. intros [E|E].
  - injection E as -> ->. rewrite String.eqb_refl. auto.
  - destruct (String.eqb_spec (bc_name d) (bc_name c)) as [Q|]; [|apply IH; auto; intros x Hx; apply M; right; auto]. elim NI. rewrite Q. apply in_map.
    clear - E. revert E. generalize (o + bc_n d)%nat. induction r as [|x r IH]; cbn; intros n H; [elim H|]. destruct H as [H|H]; [injection H; auto|right; apply (IH _ H)].
Qed.
Lemma in_starts l : forall o c, In c l -> exists s, In (c, s) (starts o l).
Proof. induction l as [|d r IH]; intros o c H; [elim H|]. cbn [starts]. destruct H as [->|H]; [exists o; left; auto|]. destruct (IH (o + bc_n d)%nat c H) as (s & Hs). exists s. right; auto. Qed.
Lemma starts_in l : forall o c s, In (c, s) (starts o l) -> In c l.
Proof. induction l as [|x r IH]; cbn; intros n c s H; [elim H|]. destruct H as [H|H]; [injection H; auto|right; apply (IH _ _ _ H)]. Qed.
Lemma enum_in {A} (l : list A) k a : In (k, a) (enumerate l) <-> nth_error l k = Some a.
Proof.
  unfold enumerate. enough (G : forall o k, In (k, a) (combine (seq o (List.length l)) l) <-> (o <= k)%nat /\ nth_error l (k - o) = Some a).
  { rewrite G. rewrite Nat.sub_0_r. split; [tauto|intros; split; auto; lia]. }
  clear k. induction l as [|x r IH]; intros o k; cbn [seq combine List.length].
  - split; [intros []|]. intros (_ & H). destruct (k - o)%nat; discriminate.
  - cbn [In]. rewrite IH. split.
    + intros [H|(L & H)]; [injection H as -> ->; rewrite Nat.sub_diag; split; [lia|reflexivity]|]. split; [lia|]. replace (k - o)%nat with (S (k - S o)) by lia. auto.
    + intros (L & H). destruct (Nat.eq_dec k o) as [->|]; [rewrite Nat.sub_diag in H; injection H as ->; auto|]. right. split; [lia|]. replace (k - o)%nat with (S (k - S o)) in H by lia. auto.
Qed.
Lemma jobs_in w j : In j (jobs w) <-> exists c p, In (c, j_ib j) (starts 0 (layout w)) /\ nth_error (bw_procs w) (j_k j) = Some p /\ j_n j = bc_n c /\ In p (bc_procs c) /\
  In (j_var j) (bw_vars w) /\ bv_dest (j_var j) = bc_name c /\ bv_proc (j_var j) = p.
Proof.
  unfold jobs. rewrite in_flat_map. split.
  - intros ((c, ib) & Hc & H). rewrite in_flat_map in H. destruct H as ((k, p) & Hk & H). cbn [fst snd] in H. destruct (smem p (bc_procs c)) eqn:S; [|elim H].
    apply in_map_iff in H. destruct H as (v & <- & Hv). apply filter_In in Hv. destruct Hv as (Hv & F). apply andb_true_iff in F. destruct F as (F1 & F2). apply String.eqb_eq in F1, F2.
    apply enum_in in Hk. apply smem_In in S. exists c, p. cbn [j_ib j_k j_n j_var]. auto 10.
  - intros (c & p & Hc & Hk & Hn & Hp & Hv & F1 & F2). exists (c, j_ib j). split; auto. rewrite in_flat_map. exists (j_k j, p). split; [apply enum_in; auto|]. cbn [fst snd].
    apply smem_In in Hp. rewrite Hp. apply in_map_iff. exists (j_var j). split; [destruct j; cbn in *; subst; auto|]. apply filter_In. split; auto. rewrite F1, F2, !String.eqb_refl. auto.
Qed.
Lemma layout_in w c : In c (layout w) <-> In c (bw_chans w).
Proof. unfold layout. rewrite in_app_iff, !filter_In. destruct (bc_masked c) eqn:M; cbn; intuition. Qed.
Lemma NoDup_map_filter {A B} (f : A -> B) g l : NoDup (map f l) -> NoDup (map f (filter g l)).
Proof.
  induction l as [|a l IH]; auto. cbn [map filter]. intros ND. inversion ND as [|? ? NI ND']; subst. destruct (g a); auto. cbn [map]. constructor; auto.
  intros H. apply NI. apply in_map_iff in H. destruct H as (x & E & H). apply filter_In in H. rewrite <- E. apply in_map. tauto.
Qed.
Lemma NoDup_name_inj l c d : NoDup (map bc_name l) -> In c l -> In d l -> bc_name c = bc_name d -> c = d.
Proof.
  induction l as [|a l IH]; [intros _ []|]. cbn [map]. intros ND. inversion ND as [|? ? NI ND']; subst. intros [->|H] [->|H'] E; auto.
  - elim NI. rewrite E. apply in_map; auto.
  - elim NI. rewrite <- E. apply in_map; auto.
Qed.
Lemma requested_in w v : NoDup (map (fun v => (bv_dest v, bv_src v, bv_proc v)) (bw_vars w)) -> In v (bw_vars w) -> requested w (bv_dest v) (bv_src v) (bv_proc v) = Some v.
Proof.
  unfold requested. induction (bw_vars w) as [|a l IH]; [intros _ []|]. cbn [map find]. intros ND H. inversion ND as [|? ? NI ND']; subst.
  destruct (String.eqb (bv_dest a) (bv_dest v) && String.eqb (bv_src a) (bv_src v) && String.eqb (bv_proc a) (bv_proc v))%bool eqn:E.
  - apply andb_true_iff in E. destruct E as (E & E3). apply andb_true_iff in E. destruct E as (E1 & E2). apply String.eqb_eq in E1, E2, E3. destruct H as [->|H]; auto.
    elim NI. rewrite E1, E2, E3. apply (in_map (fun v => (bv_dest v, bv_src v, bv_proc v))) in H. auto.
  - destruct H as [->|H]; [rewrite !String.eqb_refl in E; discriminate|apply IH; auto].
Qed.
Lemma requested_some w d s p v : requested w d s p = Some v -> In v (bw_vars w) /\ bv_dest v = d /\ bv_src v = s /\ bv_proc v = p.
Proof.
  unfold requested. intros E. apply find_some in E. destruct E as (H & E). split; auto. apply andb_true_iff in E. destruct E as (E & E3). apply andb_true_iff in E. destruct E as (E1 & E2).
  apply String.eqb_eq in E1, E2, E3. auto.
Qed.

Section Ok.
Variable w : bwriter.
Hypothesis OKW : bwriter_ok w.
Lemma var_src v : In v (bw_vars w) -> exists c s, In (c, s) (starts 0 (fit_channels w)) /\ bc_name c = bv_src v /\ src_range 0 (bw_chans w) (bv_src v) = Some (s, bv_cols v) /\ bv_cols v = bc_n c.
Proof.
  destruct OKW as (ND & NP & NV & HV). intros Hv. destruct (HV v Hv) as (_ & c & Hc & Nc & Mc & Cc).
  assert (Fc : In c (fit_channels w)) by (apply filter_In; rewrite Mc; auto). destruct (in_starts _ 0 _ Fc) as (s & Hs). exists c, s. split; auto. split; auto. split; auto.
  rewrite src_range_filter, <- Nc, Cc. apply src_range_in; auto; [intros x Hx; apply filter_In in Hx; destruct (bc_masked x); cbn in Hx; intuition|apply NoDup_map_filter; auto].
Qed.
Lemma covers_wanted j I J k : In j (jobs w) -> covers (bw_chans w) j I J k = true -> jvalue (bw_chans w) j I J = wanted w I J k.
Proof.
  intros Hj C. apply jobs_in in Hj. destruct Hj as (c & p & Hc & Hk & Hn & Hp & Hv & F1 & F2). destruct (var_src (j_var j) Hv) as (d & s & Hd & Nd & R & Cd).
  unfold covers in C. unfold jvalue. rewrite R in *. apply andb_true_iff in C. destruct C as (C & C3). apply andb_true_iff in C. destruct C as (C1 & C2). apply within_spec in C1, C2. apply Nat.eqb_eq in C3. subst k.
  unfold wanted. destruct (starts_locate _ _ _ _ I Hc) as (E & _); [lia|]. rewrite Nat.sub_0_r in E. rewrite E. destruct (starts_locate _ _ _ _ J Hd) as (E' & _); [lia|]. rewrite Nat.sub_0_r in E'. rewrite E', Hk.
  rewrite Nd, <- F1, <- F2. rewrite requested_in; auto. apply OKW.
Qed.
Lemma wanted_covers I J k : existsb (fun j => covers (bw_chans w) j I J k) (jobs w) = false -> wanted w I J k = 0.
Proof.
  intros NC. unfold wanted. destruct (locate (layout w) I) as [(d, i)|] eqn:L1; auto. destruct (locate (fit_channels w) J) as [(s, jj)|] eqn:L2; auto.
  destruct (nth_error (bw_procs w) k) as [p|] eqn:K; auto. destruct (requested w (bc_name d) (bc_name s) p) as [v|] eqn:Q; auto.
  exfalso. apply requested_some in Q. destruct Q as (Hv & Q1 & Q2 & Q3). destruct (locate_starts _ 0 _ _ _ L1) as (A1 & A2 & A3). destruct (locate_starts _ 0 _ _ _ L2) as (B1 & B2 & B3).
  rewrite Nat.add_0_l in *. destruct (var_src v Hv) as (c & st & Hs & Nc & R & Cv).
  destruct OKW as (ND & NP & NV & HV). destruct (HV v Hv) as ((d' & Hd' & Nd' & Md' & Pd') & _).
  assert (d = d') by (apply (NoDup_name_inj (bw_chans w)); auto; [apply layout_in; apply (starts_in _ _ _ _ A1)|congruence]). subst d'.
  assert (NDF : NoDup (map bc_name (fit_channels w))) by (apply NoDup_map_filter; auto).
  assert (s = c). { apply (NoDup_name_inj (fit_channels w)); auto; [apply (starts_in _ _ _ _ B1)|apply (starts_in _ _ _ _ Hs)|congruence]. } subst c.
  assert (E : st = (J - jj)%nat).
  { assert (M : forall c, In c (fit_channels w) -> bc_masked c = false) by (intros x Hx; apply filter_In in Hx; destruct (bc_masked x); cbn in Hx; intuition).
    assert (X := src_range_in _ M NDF _ _ _ B1). rewrite (src_range_in _ M NDF _ _ _ Hs) in X. injection X. auto. }
  assert (C : existsb (fun j => covers (bw_chans w) j I J k) (jobs w) = true); [|congruence].
  apply existsb_exists. exists (mkJ (I - i) (bc_n d) k v). split.
  - apply jobs_in. exists d, p. cbn. rewrite Q3 in Pd'. auto 10.
  - unfold covers. cbn [j_var j_ib j_n j_k]. rewrite R. rewrite !andb_true_iff, !within_spec. repeat split; try lia. apply Nat.eqb_refl.
Qed.
Theorem write_beta_ok : bw_vars w <> [] -> exists A, write_beta w = Ok (Some A) /\ forall I J k, A I J k = wanted w I J k.
Proof.
  intros NE. unfold write_beta. destruct (run_jobs_ok (bw_chans w) (jobs w)) with (A := fun _ _ _ : nat => 0) as (A & E & Q).
  { intros j Hj. apply jobs_in in Hj. destruct Hj as (_ & _ & _ & _ & _ & _ & Hv & _). destruct (var_src _ Hv) as (_ & s & _ & _ & R & _). eauto. }
  exists A. split; [destruct (bw_vars w); [elim NE; auto|rewrite E; auto]|]. intros I J k. rewrite (Q I J k (wanted w I J k)) by (intros j Hj; apply covers_wanted; auto).
  destruct (existsb _ (jobs w)) eqn:X; auto. symmetry. apply wanted_covers. auto.
Qed.
(** rows of channels in the fit are zero *)
Theorem wanted_fit I J k c i : locate (layout w) I = Some (c, i) -> bc_masked c = false -> wanted w I J k = 0.
Proof.
  intros L M. unfold wanted. rewrite L. destruct (locate (fit_channels w) J) as [(s, jj)|]; auto. destruct (nth_error (bw_procs w) k) as [p|]; auto.
  destruct (requested w (bc_name c) (bc_name s) p) as [v|] eqn:Q; auto. exfalso. apply requested_some in Q. destruct Q as (Hv & Q1 & _ & _).
  destruct OKW as (ND & _ & _ & HV). destruct (HV v Hv) as ((d & Hd & Nd & Md & _) & _). assert (c = d); [|congruence].
  apply (NoDup_name_inj (bw_chans w)); auto; [|congruence]. apply layout_in. destruct (locate_starts _ 0 _ _ _ L) as (A & _). apply (starts_in _ _ _ _ A).
Qed.
End Ok.
Lemma set_var_in v l x : In x (set_var v l) -> x = v \/ In x l.
Proof. induction l as [|a r IH]; cbn [set_var]; [intros [->|[]]; auto|]. destruct (same_key a v); intros [H|H]; cbn; auto. destruct (IH H); auto. Qed.
Lemma same_key_eq a b : same_key a b = true <-> (bv_dest a, bv_src a, bv_proc a) = (bv_dest b, bv_src b, bv_proc b).
Proof.
  unfold same_key. rewrite !andb_true_iff, !String.eqb_eq. split; [intros ((-> & ->) & ->); auto|intros H; injection H as -> -> ->; auto].
Qed.
Lemma set_var_keys v l : NoDup (map (fun v => (bv_dest v, bv_src v, bv_proc v)) l) -> NoDup (map (fun v => (bv_dest v, bv_src v, bv_proc v)) (set_var v l)).
Proof.
  induction l as [|a r IH]; cbn [set_var map]; [repeat constructor; intros []|]. intros ND. inversion ND as [|? ? NI ND']; subst. destruct (same_key a v) eqn:K; cbn [map].
  - apply same_key_eq in K. rewrite <- K. constructor; auto.
  - constructor; auto. intros H. apply in_map_iff in H. destruct H as (x & E & H). apply set_var_in in H. destruct H as [->|H].
    + assert (same_key a v = true) by (apply same_key_eq; auto). congruence.
    + apply NI. rewrite <- E. apply (in_map (fun v => (bv_dest v, bv_src v, bv_proc v))). auto.
Qed.
Lemma set_var_find v l : find (fun x => (String.eqb (bv_dest x) (bv_dest v) && String.eqb (bv_src x) (bv_src v) && String.eqb (bv_proc x) (bv_proc v))%bool) (set_var v l) = Some v.
Proof.
  induction l as [|a r IH]; cbn [set_var find]; [rewrite !String.eqb_refl; auto|]. destruct (same_key a v) eqn:K; cbn [find].
  - rewrite !String.eqb_refl; auto.
  - unfold same_key in K. rewrite K. auto.
Qed.
Lemma set_var_other v l d s p : (d, s, p) <> (bv_dest v, bv_src v, bv_proc v) ->
  find (fun x => (String.eqb (bv_dest x) d && String.eqb (bv_src x) s && String.eqb (bv_proc x) p)%bool) (set_var v l)
  = find (fun x => (String.eqb (bv_dest x) d && String.eqb (bv_src x) s && String.eqb (bv_proc x) p)%bool) l.
Proof.
  intros NE. assert (X : forall x, (bv_dest x, bv_src x, bv_proc x) = (bv_dest v, bv_src v, bv_proc v) -> (String.eqb (bv_dest x) d && String.eqb (bv_src x) s && String.eqb (bv_proc x) p)%bool = false).
  { intros x E. destruct (_ && _)%bool eqn:C; auto. rewrite !andb_true_iff, !String.eqb_eq in C. destruct C as ((<- & <-) & <-). elim NE. auto. }
  induction l as [|a r IH]; cbn [set_var find]; [rewrite X by auto; auto|]. destruct (same_key a v) eqn:K; cbn [find].
  - apply same_key_eq in K. rewrite (X v eq_refl), (X a K). auto.
  - rewrite IH. auto.
Qed.
(** an accepted request *)
Theorem add_ok w h proc src dest : bwriter_ok w -> forall s d, find_chan w src = Some s -> find_chan w dest = Some d -> bw_sparse w = false -> bc_masked d = true -> In proc (bc_procs d) ->
  (forall a, In a (bc_axes s ++ bc_axes d) -> In (fst a) (bh_axes h)) -> NoDup (map fst (bc_axes d) ++ map fst (bc_axes s)) ->
  exists w', add_beta_variations w h proc src dest = Ok w' /\ requested w' dest src proc = Some (mkV dest src proc (prod_sizes (bc_flow d) (bc_axes s)) (bh_val h (bc_flow d))) /\
    (forall d' s' p', (d', s', p') <> (dest, src, proc) -> requested w' d' s' p' = requested w d' s' p') /\ bw_chans w' = bw_chans w /\ bw_procs w' = bw_procs w /\
    (bc_masked s = false -> bc_flow s = false -> bc_flow d = false -> bwriter_ok w').
Proof.
  intros (ND & NP & NV & HV) s d S D SP M HP HA DIS. unfold add_beta_variations. rewrite SP, S, D, M. cbn [negb].
  assert (P1 : smem proc (bc_procs d) = true) by (apply smem_In; auto). rewrite P1. cbn [negb].
  assert (P2 : forallb (fun a => smem (fst a) (bh_axes h)) (bc_axes s) = true) by (apply forallb_forall; intros a Ha; apply smem_In; apply HA; apply in_or_app; auto). rewrite P2. cbn [negb].
  assert (P3 : forallb (fun a => smem (fst a) (bh_axes h)) (bc_axes d) = true) by (apply forallb_forall; intros a Ha; apply smem_In; apply HA; apply in_or_app; auto). rewrite P3. cbn [negb].
  assert (P4 : distinct (map fst (bc_axes d) ++ map fst (bc_axes s)) = true).
  { revert DIS. generalize (map fst (bc_axes d) ++ map fst (bc_axes s)). induction l as [|a l IH]; auto. intros N. inversion N as [|? ? NI N']; subst. cbn [distinct]. rewrite IH by auto. rewrite andb_true_r.
    destruct (smem a l) eqn:Q; auto. apply smem_In in Q. contradiction. }
  rewrite P4. cbn [negb]. eexists. split; [reflexivity|]. cbn [bw_chans bw_procs]. set (v := mkV dest src proc (prod_sizes (bc_flow d) (bc_axes s)) (bh_val h (bc_flow d))).
  split; [exact (set_var_find v (bw_vars w))|]. split; [intros d' s' p' NE; exact (set_var_other v (bw_vars w) d' s' p' NE)|]. split; auto. split; auto. intros MS FS FD.
  split; [auto|]. split; [auto|]. split; [apply set_var_keys; auto|]. intros x Hx. cbn [bw_chans bw_vars] in *. apply set_var_in in Hx. destruct Hx as [->|Hx]; [|apply HV; auto].
  apply find_some in S, D. destruct S as (S1 & S2), D as (D1 & D2). apply String.eqb_eq in S2, D2. split; [exists d; auto|]. exists s. repeat split; auto. cbn [bv_cols v]. unfold bc_n. rewrite FS, FD. auto.
Qed.

(** ** the fit *)
Section Fit.
Variables (f : bfit) (bv : nat -> nat -> nat -> R).
Hypothesis HB : f_betavar f = Some bv.
(** in units of standard deviations of the nuisances *)
Theorem scaled_sigma i k t norm beta : 0 < f_n0 f i k ->
  (forall j, (j < f_nbins f)%nat -> if f_mask f j k then t j = 0 else 0 < f_kstat f j k /\ beta j k = 1 + t j * / sqrt (f_kstat f j k)) ->
  scaled f norm beta i k = norm i k * (f_n0 f i k + sm (f_nbins f) (fun j => bv i j k * t j)) / f_n0 f i k.
Proof.
  intros N0 H. unfold scaled. rewrite HB. rewrite Rltb_true by auto. rewrite (sm_ext (f_nbins f) _ (fun j => bv i j k * t j)).
  - field. lra.
  - intros j Hj. specialize (H j Hj). unfold dbeta. destruct (f_mask f j k); [rewrite H; auto|]. destruct H as (K & ->). assert (P := sqrt_lt_R0 _ K). field. lra.
Qed.
Theorem scaled_zero i k norm beta : (forall j, (j < f_nbins f)%nat -> bv i j k = 0) -> scaled f norm beta i k = norm i k.
Proof.
  intros Z. unfold scaled. rewrite HB. destruct (Rltb_spec 0 (f_n0 f i k)); auto. rewrite (sm_0 (f_nbins f)) by (intros j Hj; rewrite Z by auto; ring). field. lra.
Qed.
End Fit.
