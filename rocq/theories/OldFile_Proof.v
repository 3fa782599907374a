From Coq Require Import Reals List Arith Bool String Lia Lra.
From Verif Require Import RBase PyList PyDict BBStat_Model OldFile_Model OldFile_Spec.
Import ListNotations.
Local Open Scope nat_scope.
Local Open Scope string_scope.

Lemma bind_ok {A B} (r : result A) (g : A -> result B) (b : B) : (x <- r ;; g x) = Ok b -> exists a, r = Ok a /\ g a = Ok b.
Proof. destruct r; cbn; [|discriminate]. eauto. Qed.
Lemma get_ok k f d : get k f = Ok d <-> dget k f = Some d.
Proof. unfold get. destruct (dget k f); split; intros E; try discriminate; injection E as ->; auto. Qed.
Lemma text_ok k f l : text k f = Ok l <-> dget k f = Some (Txt l).
Proof. unfold text, get. destruct (dget k f) as [[]|]; cbn; split; intros E; try discriminate; injection E as ->; auto. Qed.
Lemma idx_ok k f l : idx k f = Ok l <-> dget k f = Some (Idx l).
Proof. unfold idx, get. destruct (dget k f) as [[]|]; cbn; split; intros E; try discriminate; injection E as ->; auto. Qed.
Lemma vec_ok k f l : vec k f = Ok l <-> dget k f = Some (V1 l).
Proof. unfold vec, get. destruct (dget k f) as [[]|]; cbn; split; intros E; try discriminate; injection E as ->; auto. Qed.
Lemma has_some k f d : dget k f = Some d -> has k f = true.
Proof. unfold has. intros ->. auto. Qed.
Lemma has_none k f : dget k f = None -> has k f = false.
Proof. unfold has. intros ->. auto. Qed.
Lemma has_false k f : has k f = false -> dget k f = None.
Proof. unfold has. destruct (dget k f); auto; discriminate. Qed.
Lemma has_true k f : has k f = true -> exists d, dget k f = Some d.
Proof. unfold has. destruct (dget k f); eauto; discriminate. Qed.
Lemma opt_ok k f o : (if has k f then d <- get k f ;; Ok (Some d) else Ok None) = Ok o -> dget k f = o.
Proof. unfold has, get. destruct (dget k f); cbn; congruence. Qed.

Definition chans_of (mt : option meta) (nb nf : nat) : result (dict chan) := match mt with Some m => Ok (m_channels m) | None => old_channels nb nf end.
Lemma read_inv f mt i : read f mt = Ok i ->
  dget "hprocs" f = Some (Txt (procs i)) /\ dget "hsignals" f = Some (Txt (signals i)) /\ dget "hsysts" f = Some (Txt (systs i)) /\
  dget "hsystsnoconstraint" f = Some (Txt (noconstraint i)) /\ dget "hsystgroups" f = Some (Txt (groups i)) /\ dget "hsystgroupidxs" f = Some (Idx (groupidxs i)) /\
  (dget "hnoiidxs" f = Some (Idx (noiidxs i)) \/ (dget "hnoiidxs" f = None /\ dget "hnoigroupidxs" f = Some (Idx (noiidxs i)))) /\
  dget "hdata_cov_inv" f = cov_inv i /\ dget "hdata_obs" f = Some (V1 (data_obs i)) /\ dget "hdata_var" f = option_map V1 (data_var i) /\
  dget "hconstraintweights" f = Some (weights i) /\
  (if sparse i then dget "hnorm" f = None /\ dget "hnorm_sparse" f = Some (norm i) /\ dget "hlogk_sparse" f = Some (logk i)
   else dget "hnorm" f = Some (norm i) /\ dget "hlogk" f = Some (logk i)) /\
  dget "hbetavariations" f = betavar i /\ nbins i = List.length (data_obs i) /\ rows (norm i) = Ok (nbinsfull i) /\
  (exists chs, chans_of mt (nbins i) (nbinsfull i) = Ok chs /\ channels i = ranges 0 chs) /\
  symmetric i = (match mt with Some m => flag (m_symmetric m) | None => false end) /\
  systype i = (match mt with Some m => match m_type m with Some t => t | None => "log_normal" end | None => "log_normal" end) /\
  (match mt with Some m => flag (m_exponential m) | None => false end) = false /\
  stat f (List.length (procs i)) (norm i) = Ok (sumw i, sumw2 i).
Proof.
  unfold read. intros H.
  apply bind_ok in H as (p & E1 & H). apply bind_ok in H as (s & E2 & H). apply bind_ok in H as (y & E3 & H). apply bind_ok in H as (nc & E4 & H).
  apply bind_ok in H as (g & E5 & H). apply bind_ok in H as (gi & E6 & H). apply bind_ok in H as (noi & E7 & H). apply bind_ok in H as (ci & E8 & H).
  apply bind_ok in H as (obs & E9 & H). apply bind_ok in H as (var & E10 & H). apply bind_ok in H as (w & E11 & H). cbv zeta in H.
  apply bind_ok in H as (n & E12 & H). apply bind_ok in H as (l & E13 & H). apply bind_ok in H as (bv & E14 & H). apply bind_ok in H as (nf & E15 & H).
  apply bind_ok in H as (chs & E16 & H). apply bind_ok in H as ([] & E17 & H). apply bind_ok in H as ([sw sv] & E18 & H). injection H as <-. cbn [procs signals systs noconstraint groups groupidxs noiidxs cov_inv data_obs data_var weights sparse norm logk betavar nbins nbinsfull channels symmetric systype sumw sumw2 fst snd].
  apply text_ok in E1, E2, E3, E4, E5. apply idx_ok in E6. apply vec_ok in E9. apply get_ok in E11, E12, E13.
  repeat match goal with |- _ /\ _ => split; auto end.
  - destruct (has "hnoiidxs" f) eqn:X. { left. apply idx_ok; auto. } right. split; [apply has_false; auto|]. apply idx_ok; auto.
  - apply opt_ok; auto.
  - destruct (has "hdata_var" f) eqn:X. { apply bind_ok in E10 as (v & V & Q). injection Q as <-. apply vec_ok in V. auto. } injection E10 as <-. apply has_false; auto.
  - destruct (has "hnorm" f) eqn:X; cbn [negb] in *; auto. split; auto. apply has_false; auto.
  - apply opt_ok; auto.
  - exists chs. auto.
  - destruct (match mt with Some m => flag (m_exponential m) | None => false end); [discriminate E17|auto].
Qed.

Lemma matrix_rows d nr nc : matrix d nr nc -> rows d = Ok nr.
Proof. destruct d; cbn; intros; try contradiction; intuition congruence. Qed.
Lemma combine_repeat1 l : dot l (repeat 1%R (List.length l)) = sumR l.
Proof. unfold dot. induction l; cbn; auto. fold (sumR l). rewrite <- IHl. unfold sumR. cbn. lra. Qed.
Lemma map_nth_seq {A} (l : list A) d : map (fun p => nth p l d) (seq 0 (List.length l)) = l.
Proof.
  induction l as [|x l IH]; auto. cbn [List.length seq map nth]. f_equal. rewrite <- seq_shift, map_map. exact IH.
Qed.
Lemma sum_one c (v : R) n : c < n -> sumR (map (fun p => if Nat.eqb c p then v else 0%R) (seq 0 n)) = v.
Proof.
  intros H. assert (X : forall a m, a <= c -> c < a + m -> sumR (map (fun p => if Nat.eqb c p then v else 0%R) (seq a m)) = v).
  { assert (Z : forall m a, c < a -> sumR (map (fun p => if Nat.eqb c p then v else 0%R) (seq a m)) = 0%R).
    { induction m; intros a L; auto. cbn [seq map sumR fold_right]. destruct (Nat.eqb_spec c a); [lia|]. fold (sumR (map (fun p => if Nat.eqb c p then v else 0%R) (seq (S a) m))). rewrite IHm; [lra|lia]. }
    intros a m. revert a. induction m; intros a L1 L2; [lia|]. cbn [seq map]. change (sumR (?x :: ?y)) with (x + sumR y)%R.
    destruct (Nat.eqb_spec c a). { subst. rewrite Z; [lra|lia]. } rewrite IHm; [lra|lia|lia]. }
  apply X; lia.
Qed.
Lemma yield_coo n c e b nproc : Forall (fun x => fst (fst x) < n /\ snd (fst x) < nproc) e ->
  sumR (map (fun x => snd x * nth (snd (fst x)) (repeat 1%R nproc) 0)%R (filter (fun x => Nat.eqb (fst (fst x)) b) e)) = yield (Coo n c e) nproc b.
Proof.
  change (yield (Coo n c e) nproc b) with (sumR (map (fun p => sumR (map (fun x => if Nat.eqb (fst (fst x)) b && Nat.eqb (snd (fst x)) p then snd x else 0%R) e)) (seq 0 nproc))).
  induction e as [|[[r q] v] e IH]; intros F.
  - cbn. symmetry. apply sumR_map_0.
  - inversion F as [|? ? [F1 F2] F3]; subst. cbn [fst snd] in F1, F2. specialize (IH F3).
    rewrite (sumR_map_ext _ (fun p => (if Nat.eqb r b && Nat.eqb q p then v else 0) + sumR (map (fun x => if Nat.eqb (fst (fst x)) b && Nat.eqb (snd (fst x)) p then snd x else 0) e)))%R by (intros; reflexivity).
    rewrite sumR_map_plus, <- IH. cbn [filter fst snd]. destruct (Nat.eqb_spec r b); cbn [andb].
    + rewrite sum_one by auto. cbn [map snd fst]. change (sumR (?x :: ?y)) with (x + sumR y)%R.
      f_equal. rewrite (nth_indep _ 0%R 1%R) by (rewrite repeat_length; auto). rewrite nth_repeat. lra.
    + rewrite sumR_map_0. lra.
Qed.
Lemma nominal_spec d nr np : matrix d nr np -> nominal np d = Ok (map (yield d np) (seq 0 nr)).
Proof.
  destruct d; cbn [matrix nominal]; try contradiction.
  - intros (-> & L & F). rewrite Nat.eqb_refl. f_equal. rewrite <- (map_nth_seq l []) at 1. rewrite map_map, L. apply map_ext_in. intros b B. apply in_seq in B.
    assert (H : List.length (nth b l []) = np). { rewrite Forall_forall in F. apply F, nth_In. lia. }
    change (yield (V2 np l) np b) with (sumR (map (fun p => nth p (nth b l []) 0%R) (seq 0 np))). unfold col. rewrite <- H. rewrite combine_repeat1, map_nth_seq. auto.
  - intros (-> & -> & F). rewrite Nat.eqb_refl. f_equal. apply map_ext. intros b. unfold col. apply yield_coo; auto.
Qed.
Lemma combine_map_seq (s k : list R) n (g : nat -> R) : List.length k = n -> s = map g (seq 0 n) ->
  map (fun p => sumw2_of (fst p) (snd p)) (combine s k) = map (fun b => sumw2_of (g b) (nth b k 0%R)) (seq 0 n).
Proof.
  intros L ->. rewrite <- (map_nth_seq k 0%R) at 1. rewrite L.
  generalize (seq 0 n). intros l. induction l; cbn; auto. f_equal. auto.
Qed.
Lemma stat_new f np d a b : dget "hsumw" f = Some a -> dget "hsumw2" f = Some b -> stat f np d = Ok (a, b).
Proof. intros A B. unfold stat, has, get. rewrite A, B. auto. Qed.
Lemma stat_old f np d nr k : dget "hsumw2" f = None -> dget "hkstat" f = Some (V1 k) -> List.length k = nr -> matrix d nr np ->
  stat f np d = Ok (V1 (map (yield d np) (seq 0 nr)), V1 (map (fun b => sumw2_of (yield d np b) (nth b k 0%R)) (seq 0 nr))).
Proof.
  intros A B L M. unfold stat. rewrite (has_none _ _ A). apply vec_ok in B. rewrite B. cbn [rbind]. rewrite (nominal_spec _ _ _ M). cbn [rbind].
  unfold broadcast2. rewrite map_length, seq_length, L, Nat.eqb_refl. cbn [rbind]. rewrite (combine_map_seq _ k nr (yield d np)); auto.
Qed.

Lemma old_channels_ok nb nf : nb <= nf -> exists c, old_channels nb nf = Ok c /\ total c = nf.
Proof.
  intros H. unfold old_channels. destruct (Nat.ltb_spec nf nb); [lia|]. destruct (Nat.eqb_spec (nf - nb) 0); eexists; split; try reflexivity; unfold total, size_of; cbn; lia.
Qed.
Lemma read_complete f nr mt : complete f nr -> (match mt with Some m => flag (m_exponential m) | None => false end) = false ->
  exists i, read f mt = Ok i /\ nbinsfull i = nr.
Proof.
  intros (p & s & y & nc & g & gi & noi & obs & w & n & l & E1 & E2 & E3 & E4 & E5 & E6 & E7 & E8 & LE & E9 & E10 & M & E11 & E12) EX.
  unfold read. rewrite (proj2 (text_ok _ _ _) E1), (proj2 (text_ok _ _ _) E2), (proj2 (text_ok _ _ _) E3), (proj2 (text_ok _ _ _) E4), (proj2 (text_ok _ _ _) E5), (proj2 (idx_ok _ _ _) E6). cbn [rbind].
  assert (N : (if has "hnoiidxs" f then idx "hnoiidxs" f else idx "hnoigroupidxs" f) = Ok noi).
  { destruct E7 as [E|[E E']]. - rewrite (has_some _ _ _ E). apply idx_ok; auto. - rewrite (has_none _ _ E). apply idx_ok; auto. }
  rewrite N. cbn [rbind].
  assert (O : forall k, (if has k f then d <- get k f ;; Ok (Some d) else Ok None) = Ok (dget k f)) by (intros k; unfold has, get; destruct (dget k f); auto).
  rewrite !O. cbn [rbind]. rewrite (proj2 (vec_ok _ _ _) E8). cbn [rbind].
  assert (V : exists v, (if has "hdata_var" f then d <- vec "hdata_var" f ;; Ok (Some d) else Ok None) = Ok v).
  { destruct E11 as [E|(v & E)]. - rewrite (has_none _ _ E). eauto. - rewrite (has_some _ _ _ E), (proj2 (vec_ok _ _ _) E). cbn. eauto. }
  destruct V as (v & ->). cbn [rbind]. rewrite (proj2 (get_ok _ _ _) E9). cbn [rbind].
  assert (X : get (if negb (has "hnorm" f) then "hnorm_sparse" else "hnorm") f = Ok n /\ get (if negb (has "hnorm" f) then "hlogk_sparse" else "hlogk") f = Ok l).
  { destruct E10 as [[A B]|(A & B & C)]. - rewrite (has_some _ _ _ A). cbn [negb]. rewrite !get_ok. auto. - rewrite (has_none _ _ A). cbn [negb]. rewrite !get_ok. auto. }
  destruct X as [-> ->]. cbn [rbind]. rewrite (matrix_rows _ _ _ M). cbn [rbind].
  assert (C : exists c, (match mt with Some m => Ok (m_channels m) | None => old_channels (List.length obs) nr end) = Ok c).
  { destruct mt; eauto. destruct (old_channels_ok _ _ LE) as (c & -> & _). eauto. }
  destruct C as (c & ->). cbn [rbind]. rewrite EX. cbn [rbind].
  assert (S : exists q, stat f (List.length p) n = Ok q).
  { destruct E12 as [(a & b & A & B)|(A & k & B & L)]. - rewrite (stat_new _ _ _ _ _ A B). eauto. - rewrite (stat_old _ _ _ _ _ A B L M). eauto. }
  destruct S as (q & ->). cbn [rbind]. eexists. split; reflexivity.
Qed.

(** ** channels *)
Lemma ranges_owner d : forall st b, st <= b < st + total d -> exists j, owner (ranges st d) b j.
Proof.
  induction d as [|[k c] d IH]; intros st b H. { unfold total in H. cbn in H. lia. }
  unfold total in H. cbn [map snd list_sum fold_right] in H. fold (list_sum (map (fun c => size_of (snd c)) d)) in H. fold (total d) in H. cbn [ranges].
  destruct (lt_dec b (st + size_of c)).
  - exists 0, k. eexists. split; [reflexivity|]. cbn. lia.
  - destruct (IH (st + size_of c) b ltac:(lia)) as (j & k' & i & E & L). exists (S j), k', i. auto.
Qed.
Lemma ranges_above d : forall st j k i, nth_error (ranges st d) j = Some (k, i) -> st <= i_start i /\ i_stop i <= st + total d.
Proof.
  induction d as [|[k c] d IH]; intros st j k' i H; [destruct j; discriminate|].
  unfold total. cbn [map snd list_sum fold_right]. fold (list_sum (map (fun c => size_of (snd c)) d)). fold (total d).
  destruct j; cbn [ranges nth_error] in H. { injection H as <- <-. cbn. lia. }
  apply IH in H. lia.
Qed.
Lemma ranges_unique d : forall st b j j', owner (ranges st d) b j -> owner (ranges st d) b j' -> j = j'.
Proof.
  induction d as [|[k c] d IH]; intros st b j j' (k1 & i1 & E1 & L1) (k2 & i2 & E2 & L2). { destruct j; discriminate. }
  destruct j, j'; auto; cbn [ranges nth_error] in *.
  - injection E1 as <- <-. apply ranges_above in E2. cbn in L1. lia.
  - injection E2 as <- <-. apply ranges_above in E1. cbn in L2. lia.
  - f_equal. eapply IH; [exists k1, i1|exists k2, i2]; eauto.
Qed.
Lemma ranges_chan d : forall st j k i, nth_error (ranges st d) j = Some (k, i) ->
  nth_error d j = Some (k, i_chan i) /\ i_start i = st + total (firstn j d) /\ i_stop i = i_start i + size_of (i_chan i).
Proof.
  induction d as [|[k c] d IH]; intros st j k' i H; [destruct j; discriminate|].
  destruct j; cbn [ranges nth_error] in H.
  - injection H as <- <-. cbn. repeat split; auto; lia.
  - apply IH in H as (A & B & C). cbn [nth_error firstn]. repeat split; auto. rewrite B. unfold total. cbn [map snd list_sum fold_right]. unfold list_sum. lia.
Qed.

(** ** kstat *)
Lemma old_info s k minbb : k <> 0%R -> s <> 0%R -> (minbb <= k)%R -> mkinfo (sumw2_of s k) s minbb = mkBin (s * s / k) s false k.
Proof.
  intros K S M. unfold mkinfo, betamask_of, sumw2_of. rewrite (Reqb_false k) by auto.
  assert (V : (s * s / k <> 0)%R). { intros E. apply (f_equal (fun z => z * k)%R) in E. unfold Rdiv in E. rewrite Rmult_assoc, Rinv_l, Rmult_0_l, Rmult_1_r in E by auto. apply Rmult_integral in E. tauto. }
  rewrite (Reqb_false (s * s / k)) by auto. rewrite (Reqb_false s) by auto. cbn [orb].
  assert (Q : (s * s / (s * s / k) = k)%R) by (field; auto). rewrite Q.
  destruct (Rltb_spec 0 minbb); auto. destruct (Rltb_spec k minbb); auto. lra.
Qed.
Lemma old_info0 s minbb : s <> 0%R -> (minbb <= s)%R -> mkinfo (sumw2_of s 0) s minbb = mkBin s s false s.
Proof.
  intros S M. unfold mkinfo, betamask_of, sumw2_of. rewrite (Reqb_true 0 0) by auto. rewrite (Reqb_false s) by auto. cbn [orb].
  assert (Q : (s * s / s = s)%R) by (field; auto). rewrite Q. destruct (Rltb_spec 0 minbb); auto. destruct (Rltb_spec s minbb); auto. lra.
Qed.
Lemma old_masked k minbb : bi_mask (mkinfo (sumw2_of 0 k) 0 minbb) = true.
Proof.
  unfold mkinfo, betamask_of. cbn. rewrite (Reqb_true 0 0) by auto. rewrite orb_true_r. cbn [orb]. destruct (Rltb 0 minbb); auto.
Qed.
Lemma active_all es : Forall (fun e : R * R => snd e <> 0%R) es -> map (fun e : R * R => if Reqb (snd e) 0 then 0%R else fst e) es = map fst es.
Proof. induction 1; cbn; auto. rewrite Reqb_false by auto. f_equal. auto. Qed.
Lemma agree_info es minbb : let s := sumR (map fst es) in let v := sumR (map snd es) in
  Forall (fun e : R * R => snd e <> 0%R) es -> v <> 0%R ->
  bi_mask (mkinfo (sumw2_of s (s * s / v)) s minbb) = bi_mask (lite_info es minbb) /\
  bi_kstat (mkinfo (sumw2_of s (s * s / v)) s minbb) = bi_kstat (lite_info es minbb) /\
  (s <> 0%R -> mkinfo (sumw2_of s (s * s / v)) s minbb = lite_info es minbb).
Proof.
  intros s v F V. unfold lite_info. rewrite active_all by auto. fold s v.
  destruct (Req_EM_T s 0) as [E|E].
  - rewrite E. assert (Z : (0 * 0 / v = 0)%R) by (field; auto). rewrite Z. unfold mkinfo, betamask_of, sumw2_of. cbn.
    rewrite (Reqb_true 0 0) by auto. rewrite (Reqb_false v 0), !orb_true_r by auto. cbn [orb]. destruct (Rltb 0 minbb); cbn [bi_mask bi_kstat]; (split; [auto|split; [auto|intros X; exfalso; apply X; reflexivity]]).
  - assert (K : sumw2_of s (s * s / v) = v).
    { unfold sumw2_of. rewrite Reqb_false. - field; auto. - intros Q. apply (f_equal (fun z => z * v)%R) in Q. unfold Rdiv in Q. rewrite Rmult_assoc, Rinv_l, Rmult_0_l, Rmult_1_r in Q by auto. apply Rmult_integral in Q. tauto. }
    rewrite K. auto.
Qed.

(** ** application *)
Lemma apply_agree t b ps beta : (t = NormalAdd -> (0 < sumR ps)%R) ->
  let new := apply_lite t b (map (fun p => (false, p)) ps) beta in
  fst (apply_old t b ps beta) = sumR new /\ snd (apply_old t b ps beta) = map Some new.
Proof.
  intros H. cbv zeta.
  assert (A : n_active (map (fun p => (false, p)) ps) = sumR ps) by (unfold n_active; rewrite map_map; cbn [fst snd]; rewrite map_id; auto).
  unfold apply_old, apply_lite. destruct t.
  - destruct (bi_mask b); cbn [fst snd orb]; rewrite !map_map; cbn [fst snd orb].
    + split; [|apply map_ext; intros; f_equal; lra]. rewrite <- (map_id ps) at 1. apply sumR_map_ext. intros; lra.
    + split; [|apply map_ext; intros; f_equal; lra]. rewrite (sumR_map_ext _ (fun x => beta * x)%R) by (intros; lra). rewrite sumR_map_scal, map_id. lra.
  - destruct (bi_mask b); cbn [fst snd orb]; rewrite !map_map; cbn [fst snd orb].
    + split; [|apply map_ext; intros; f_equal; lra]. rewrite <- (map_id ps) at 1. apply sumR_map_ext. intros; lra.
    + split; [|apply map_ext; intros; f_equal; lra]. rewrite (sumR_map_ext _ (fun x => beta * x)%R) by (intros; lra). rewrite sumR_map_scal, map_id. lra.
  - specialize (H eq_refl). cbn [fst snd]. rewrite A. assert (S : safe_pos (sumR ps) = sumR ps) by (unfold safe_pos; rewrite Rltb_true by auto; auto). rewrite S, !map_map. cbn [fst snd].
    unfold tfdiv. rewrite Reqb_false by lra. split; [|apply map_ext; auto].
    rewrite sumR_map_plus, map_id. f_equal.
    rewrite (sumR_map_ext _ (fun x => (sqrt (bi_varbeta b) * beta / sumR ps) * x)%R) by (intros; unfold Rdiv; lra). rewrite sumR_map_scal, map_id. field. lra.
Qed.

(** ** full mode *)
Lemma rmap_raise {A B} (f : A -> result B) x l : (forall y, In y (x :: l) -> f y = Raise GenericException) -> rmap f (x :: l) = Raise GenericException.
Proof. intros H. cbn. rewrite H by (left; auto). auto. Qed.
Lemma rmap_ok {A B} (f : A -> result B) g l : (forall y, In y l -> f y = Ok (g y)) -> rmap f l = Ok (map g l).
Proof. induction l; intros H; auto. cbn. rewrite H by (left; auto). rewrite IHl; auto. intros; apply H; right; auto. Qed.
Lemma full_error mask beta nrm nproc : List.length mask = List.length beta -> List.length nrm = List.length beta ->
  Forall (fun r => List.length r = nproc) nrm -> List.length beta <> nproc -> 1 < List.length beta -> nproc <> 1 -> apply_full mask beta nrm = Raise GenericException.
Proof.
  intros LM LN F D L P. unfold apply_full. rewrite Forall_forall in F.
  destruct nrm as [|x l]; [cbn in LN; lia|]. rewrite rmap_raise; auto. intros y Y. specialize (F y Y). unfold row_full.
  assert (LC : List.length (combine mask beta) = List.length beta) by (rewrite combine_length; lia).
  rewrite F, LC. destruct (Nat.eqb_spec nproc (List.length beta)); [lia|].
  destruct y as [|a [|b y]]; cbn in F; try lia; destruct (combine mask beta) as [|? [|? ?]]; cbn in LC; try lia; auto.
Qed.
Lemma combine_false (beta : list R) : combine (repeat false (List.length beta)) beta = map (fun b => (false, b)) beta.
Proof. induction beta; cbn; auto. f_equal. auto. Qed.
Lemma full_one beta nrm : 1 < List.length beta ->
  apply_full (repeat false (List.length beta)) beta (map (fun n => [n]) nrm) = Ok (map (fun n => n * sumR beta)%R nrm).
Proof.
  intros L. unfold apply_full. rewrite combine_false || idtac.
  rewrite (rmap_ok _ (fun r => map (fun b => b * nth 0 r 0)%R beta)).
  - cbn [rbind]. f_equal. rewrite !map_map. apply map_ext. intros n. cbn [nth]. rewrite (sumR_map_ext _ (fun x => n * x)%R) by (intros; lra). rewrite sumR_map_scal, map_id. auto.
  - intros y Y. apply in_map_iff in Y as (n & <- & _). unfold row_full. rewrite combine_false, map_length. cbn [List.length].
    destruct (Nat.eqb_spec 1 (List.length beta)); [lia|]. cbn [nth]. destruct (map (fun b => (false, b)) beta) eqn:E. { destruct beta; [cbn in L; lia|discriminate]. }
    rewrite <- E, map_map. cbn [fst snd]. auto.
Qed.
Lemma full_square beta nrm : Forall (fun r => List.length r = List.length beta) nrm ->
  apply_full (repeat false (List.length beta)) beta nrm = Ok (map (dot beta) nrm).
Proof.
  intros F. unfold apply_full. rewrite Forall_forall in F.
  rewrite (rmap_ok _ (fun r => map (fun q => fst q * snd q)%R (combine beta r))).
  - cbn [rbind]. f_equal. rewrite map_map. auto.
  - intros y Y. specialize (F y Y). unfold row_full. rewrite combine_false, map_length, F, Nat.eqb_refl. f_equal. clear. revert y. induction beta; intros [|z y]; cbn; auto. f_equal. auto.
Qed.

(** ** masked channels *)
Lemma firstn_le {A} n (l : list A) : n <= List.length l -> List.length (firstn n l) = n.
Proof. intros. rewrite firstn_length. lia. Qed.
Lemma observed_ok d : forall st b obs,
  st = b -> st + list_sum (map (fun p : string * info => if flag (c_masked (i_chan (snd p))) then 0 else size_noflow (i_chan (snd p))) d) <= List.length obs ->
  exists h, observed st d obs = Ok h /\ dkeys h = map fst (filter (fun p => has_data (i_chan (snd p))) d).
Proof.
  induction d as [|[k i] d IH]; intros st b obs -> H. { eexists. split; reflexivity. }
  cbn [map snd list_sum fold_right] in H. fold (list_sum (map (fun p : string * info => if flag (c_masked (i_chan (snd p))) then 0 else size_noflow (i_chan (snd p))) d)) in H.
  cbn [observed filter snd]. unfold has_data at 1. destruct (flag (c_masked (i_chan i))) eqn:M; cbn [negb].
  - apply (IH b b); auto.
  - assert (L : List.length (firstn (b + size_noflow (i_chan i) - b) (skipn b obs)) = size_noflow (i_chan i)) by (rewrite firstn_le; [lia|rewrite skipn_length; lia]).
    rewrite L, Nat.eqb_refl. destruct (IH (b + size_noflow (i_chan i)) _ obs eq_refl ltac:(lia)) as (h & -> & K). cbn [rbind].
    eexists. split; [reflexivity|]. unfold dkeys in *. cbn [map fst]. f_equal. auto.
Qed.
