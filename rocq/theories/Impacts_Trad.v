From Coq Require Import Reals List Arith Bool Lra Lia.
From Verif Require Import RBase PyList Mat_Model Mat_Proof Linear_Model Linear_Spec Linear_Proof Impacts_Model Impacts_Spec Impacts_Solve Impacts_Proof.
Import ListNotations.
Open Scope R_scope.

Lemma emap_ok {A B} (f : A -> result B) (P : A -> B -> Prop) l :
  (forall a, In a l -> exists b, f a = Ok b /\ P a b) -> exists bs, emap f l = Ok bs /\ Forall2 P l bs.
Proof.
  induction l as [|a l IH]; intros H; [eexists; split; [reflexivity|constructor]|].
  destruct (H a (or_introl eq_refl)) as (b & E & Pb). destruct IH as (bs & Es & Ps); [intros; apply H; right; auto|].
  exists (b :: bs). cbn. rewrite E, Es. cbn. auto.
Qed.
(** variational form of an entry of the inverse *)
Lemma inv_var H S i w : block_sym S H -> block_posdef S H -> NoDup S -> In i S -> inverse_entry H S i w ->
  (forall z, 2 * z i - lq S H z z <= w) /\ exists z, 2 * z i - lq S H z z = w.
Proof.
  intros BS PD ND I (c & E & W).
  assert (X : forall z, lq S H z c = z i).
  { intros z. unfold lq. rewrite (lsum_ext _ (fun k => z k * delta k i)) by (intros k Hk; rewrite E; auto).
    rewrite <- sm_list. apply in_nth in I. destruct I as (a & Ha & <-).
    transitivity (sm (List.length S) (fun b => delta a b * z (nth b S O))); [|rewrite sm_delta; auto].
    apply sm_ext. intros b Hb. unfold delta. destruct (Nat.eqb_spec (nth b S O) (nth a S O)) as [Q|Q].
    - apply (NoDup_nth S O) in Q; auto. subst. rewrite Nat.eqb_refl. ring.
    - destruct (Nat.eqb_spec a b); [subst; elim Q; auto|ring]. }
  split.
  - intros z. assert (Q := lq_nonneg S H (fun k => z k - c k) PD). rewrite lq_minus_l, !lq_minus_r in Q.
    rewrite (lq_sym S H c z BS), !X in Q. subst. lra.
  - exists c. rewrite X. subst. ring.
Qed.
Lemma inv_nonneg H S i w : block_sym S H -> block_posdef S H -> NoDup S -> In i S -> inverse_entry H S i w -> 0 <= w.
Proof.
  intros BS PD ND I E. destruct (inv_var H S i w BS PD ND I E) as (M & _). specialize (M (fun _ => 0)).
  unfold lq in M. rewrite lsum_0 in M by (intros; ring). lra.
Qed.
Lemma inv_unique H S i w w' : block_sym S H -> block_posdef S H -> NoDup S -> In i S -> inverse_entry H S i w -> inverse_entry H S i w' -> w = w'.
Proof.
  intros BS PD ND I E E'. destruct (inv_var H S i w BS PD ND I E) as (M & z & Z). destruct (inv_var H S i w' BS PD ND I E') as (M' & z' & Z').
  assert (A := M z'). assert (B := M' z). lra.
Qed.
(** floating more parameters cannot reduce a variance *)
Lemma lq_only S S' H z : NoDup S -> NoDup S' -> incl S S' -> lq S' H (only S z) (only S z) = lq S H z z.
Proof.
  intros ND ND' I.
  assert (L : forall f : nat -> R, (forall k, ~ In k S -> f k = 0) -> lsum f S' = lsum f S).
  { intros f Z. set (n := Datatypes.S (list_max S')).
    assert (R' : forall k, In k S' -> (k < n)%nat). { intros k Hk. unfold n. assert (X := proj1 (list_max_le S' (list_max S')) (le_n _)). rewrite Forall_forall in X. specialize (X k Hk). lia. }
    rewrite <- (sm_support n S'), <- (sm_support n S); auto. }
  unfold lq. rewrite L.
  - apply lsum_ext. intros k Hk. unfold only at 1. apply mem_in in Hk. rewrite Hk. f_equal. rewrite L.
    + apply lsum_ext. intros j Hj. unfold only. apply mem_in in Hj. rewrite Hj. auto.
    + intros j Hj. unfold only. apply mem_not in Hj. rewrite Hj. ring.
  - intros k Hk. unfold only at 1. apply mem_not in Hk. rewrite Hk. ring.
Qed.
Lemma inv_mono H S S' i w w' : block_sym S' H -> block_posdef S' H -> NoDup S -> NoDup S' -> incl S S' -> In i S ->
  block_posdef S H -> inverse_entry H S i w -> inverse_entry H S' i w' -> w <= w'.
Proof.
  intros BS PD ND ND' I Ii PDS E E'.
  assert (BS' : block_sym S H) by (intros a b Ha Hb; apply BS; auto).
  destruct (inv_var H S i w BS' PDS ND Ii E) as (_ & z & Z). destruct (inv_var H S' i w' BS PD ND' (I _ Ii) E') as (M & _).
  specialize (M (only S z)). rewrite lq_only in M by auto. unfold only in M. apply mem_in in Ii. rewrite Ii in M. lra.
Qed.
Lemma inv_curv H H' S i w w' : block_sym S H -> block_posdef S H -> block_sym S H' -> block_posdef S H' -> NoDup S -> In i S ->
  (forall z, lq S H z z <= lq S H' z z) -> inverse_entry H S i w -> inverse_entry H' S i w' -> w' <= w.
Proof.
  intros BS PD BS' PD' ND I LE E E'. destruct (inv_var H S i w BS PD ND I E) as (M & _). destruct (inv_var H' S i w' BS' PD' ND I E') as (_ & z & Z).
  specialize (M z). specialize (LE z). lra.
Qed.
Lemma stat_list_nodup frozen floating nstat : NoDup floating -> NoDup (stat_list frozen floating nstat).
Proof. intros. destruct frozen; cbn; [apply NoDup_filter; auto|apply seq_NoDup]. Qed.
Lemma cov_stat_ok frozen floating H nstat : NoDup floating ->
  block_posdef (stat_list frozen floating nstat) H ->
  exists c, cov_stat_floating frozen floating H nstat = Ok c /\
    (forall i, In i (stat_list frozen floating nstat) -> inverse_entry H (stat_list frozen floating nstat) i (c i i)) /\
    (forall i, (i < nstat)%nat -> ~ In i (stat_list frozen floating nstat) -> c i i = 0).
Proof.
  intros ND PD. unfold cov_stat_floating. assert (ND' := stat_list_nodup frozen floating nstat ND). destruct frozen; cbn [stat_list] in *.
  - set (S := filter _ floating) in *. destruct (ginv_spec (List.length S) (gat2 H S) (gat_regular S H ND' PD)) as (c & Ec & Ic). rewrite Ec. cbn [rbind].
    eexists. split; [reflexivity|]. split.
    + intros i Hi. exists (fun j => scatter_cov (fun _ _ => 0) S c j i). split; auto.
      intros k Hk. apply in_nth in Hk. destruct Hk as (a & Ha & <-). assert (Hi' := Hi). apply in_nth in Hi'. destruct Hi' as (b & Hb & <-).
      rewrite <- sm_list. unfold scatter_cov. rewrite (index_of_nth S ND' b Hb).
      transitivity (mm (List.length S) (gat2 H S) c a b).
      * apply sm_ext. intros d Hd. rewrite (index_of_nth S ND' d Hd). reflexivity.
      * rewrite Ic by auto. unfold delta. destruct (Nat.eqb_spec a b) as [->|N]; [rewrite Nat.eqb_refl; auto|].
        destruct (Nat.eqb_spec (nth a S O) (nth b S O)) as [Q|Q]; auto. apply (NoDup_nth S O) in Q; auto. contradiction.
    + intros i _ NI. unfold scatter_cov. rewrite index_of_none by auto. auto.
  - assert (RG : regular nstat H).
    { intros z Hz. assert (X := gat_regular (seq 0 nstat) H ND' PD). rewrite seq_length in X. intros i Hi. apply (X z); auto.
      intros k Hk. rewrite <- (Hz k Hk). unfold mv. apply sm_ext. intros j Hj. unfold gat2. rewrite !seq_nth by auto. auto. }
    destruct (ginv_spec nstat H RG) as (c & Ec & Ic). exists c. split; auto. split.
    + intros i Hi. apply in_seq in Hi. exists (fun j => c j i). split; auto. intros k Hk. apply in_seq in Hk.
      rewrite lsum_seq. apply Ic; lia.
    + intros i Hi NI. elim NI. apply in_seq. lia.
Qed.
Lemma rows_eq npoi nmod noi n nstat : (forall k, In k noi -> (nmod + k < n)%nat) -> (npoi <= nstat)%nat ->
  combine (out_rows npoi nmod noi n) (out_rows npoi nmod noi nstat) =
  map (fun i => (Some i, if Nat.ltb i nstat then Some i else None)) (reported npoi nmod noi).
Proof.
  intros R L. unfold out_rows, reported. rewrite map_app, map_map.
  assert (C : forall (X Y : Type) (a1 a2 : list X) (b1 b2 : list Y), List.length a1 = List.length b1 -> combine (a1 ++ a2) (b1 ++ b2) = combine a1 b1 ++ combine a2 b2).
  { intros X Y a1. induction a1 as [|x a1 IH]; intros a2 [|y b1] b2 E; cbn in E; try discriminate; [reflexivity|]. cbn. rewrite IH; auto. }
  rewrite C by auto. f_equal.
  - assert (M : forall l : list nat, (forall i, In i l -> (i < nstat)%nat) -> combine (map Some l) (map Some l) = map (fun i => (Some i, if Nat.ltb i nstat then Some i else None)) l).
    { induction l as [|a l IH]; intros B; [reflexivity|]. cbn [map combine]. rewrite IH by (intros; apply B; right; auto). f_equal.
      assert (X := B a (or_introl eq_refl)). apply Nat.ltb_lt in X. rewrite X. auto. }
    apply M. intros i Hi. apply in_seq in Hi. lia.
  - induction noi as [|k noi IH]; [reflexivity|]. cbn [map combine]. rewrite IH by (intros; apply R; right; auto). f_equal.
    assert (X := R k (or_introl eq_refl)). destruct (Nat.ltb_spec k (n - nmod)); [|lia]. f_equal.
    destruct (Nat.ltb_spec k (nstat - nmod)), (Nat.ltb_spec (nmod + k) nstat); auto; lia.
Qed.
Lemma share_zero H S i : ~ In i S -> stat_share H S i 0.
Proof. intros N. split; [lra|]. split; [contradiction|auto]. Qed.
Lemma share_sqrt H S i w : block_sym S H -> block_posdef S H -> NoDup S -> In i S -> inverse_entry H S i w -> tsqrt w = Some (sqrt w) /\ stat_share H S i (sqrt w).
Proof.
  intros BS PD ND I E. assert (W := inv_nonneg H S i w BS PD ND I E). unfold tsqrt. rewrite Rltb_false by lra. split; auto.
  split; [apply sqrt_pos|]. split; [|contradiction]. intros _. cbn [pow]. rewrite Rmult_1_r, sqrt_sqrt by auto. auto.
Qed.
(** one entry of the statistical covariance *)
Lemma entry_share H S i w : block_sym S H -> block_posdef S H -> NoDup S -> (In i S -> inverse_entry H S i w) -> (~ In i S -> w = 0) ->
  0 <= w /\ tsqrt w = Some (sqrt w) /\ stat_share H S i (sqrt w).
Proof.
  intros BS PD ND A B. destruct (in_dec Nat.eq_dec i S) as [I|N].
  - split; [apply (inv_nonneg H S i w); auto|]. apply share_sqrt; auto.
  - rewrite (B N). split; [lra|]. unfold tsqrt. rewrite Rltb_false, sqrt_0 by lra. split; auto. apply share_zero. auto.
Qed.
Definition curv_ok (S : list nat) (H : nat -> nat -> R) : Prop := block_sym S H /\ block_posdef S H.
Theorem impacts_parms_spec frozen floating n npoi npou nnoc cov hess hnb noi sg pg :
  let nmod := (npoi + npou)%nat in let nstat := (npoi + npou + nnoc)%nat in let fl := stat_list frozen floating nstat in
  covariance n cov -> NoDup floating -> curv_ok fl hess -> (forall h, hnb = Some h -> curv_ok fl h) ->
  (nmod <= n)%nat -> (forall k, In k noi -> (nmod + k < n)%nat) ->
  (forall g, In g sg -> group_ok n cov (map (fun k => nmod + k)%nat g)) -> (forall g, In g pg -> group_ok n cov g) ->
  exists out, impacts_parms frozen floating n npoi npou nnoc cov hess hnb noi sg pg = Ok out /\
    Forall2 (fun i row => (forall j, (j < n)%nat -> is_impact cov i j (fst row j)) /\
      exists cs ct cp, snd row = cs ++ ct ++ cp /\
        Forall2 (fun g => group_column n cov i (map (fun k => nmod + k)%nat g)) sg cs /\ stat_spec hess hnb fl i ct /\
        Forall2 (group_column n cov i) pg cp) (reported_list npoi nmod noi) out.
Proof.
  intros nmod nstat fl K ND (BS & PD) HN NM NOI SG PG. unfold impacts_parms. fold nstat.
  destruct (cov_stat_ok frozen floating hess nstat ND PD) as (c & -> & C1 & C2). fold fl in C1, C2. cbn [rbind].
  assert (NF : NoDup fl) by (apply stat_list_nodup; auto).
  assert (LT : forall i, In i fl -> (i < nstat)%nat).
  { intros i Hi. unfold fl, stat_list in Hi. destruct frozen; [apply filter_In in Hi; destruct Hi as (_ & X); apply Nat.ltb_lt; auto|apply in_seq in Hi; lia]. }
  assert (HB : exists cb, match hnb with Some h => c0 <- cov_stat_floating frozen floating h nstat ;; Ok (Some c0) | None => Ok None end = Ok cb /\
    forall i, stat_spec hess hnb fl i (stat_columns c cb (if Nat.ltb i nstat then Some i else None))).
  { assert (CE : forall i, (i < nstat)%nat -> 0 <= c i i /\ tsqrt (c i i) = Some (sqrt (c i i)) /\ stat_share hess fl i (sqrt (c i i))).
    { intros i Hi. apply entry_share; auto. }
    destruct hnb as [h|].
    - destruct (HN h eq_refl) as (BS' & PD'). destruct (cov_stat_ok frozen floating h nstat ND PD') as (c' & -> & D1 & D2). fold fl in D1, D2.
      exists (Some c'). split; auto. intros i. cbn [stat_spec stat_columns]. destruct (Nat.ltb_spec i nstat) as [L|L].
      + destruct (CE i L) as (P1 & _ & Q1). destruct (entry_share h fl i (c' i i)) as (P2 & T2 & Q2); auto.
        cbn [read_num read_row]. rewrite T2. exists (sqrt (c i i)), (sqrt (c' i i)), (sqrt (relu (c i i - c' i i))).
        assert (RN : 0 <= relu (c i i - c' i i)) by (unfold relu; destruct (Rltb_spec (c i i - c' i i) 0); lra).
        unfold tsqrt. rewrite Rltb_false by lra. split; auto. split; auto. split; auto. split; [apply sqrt_pos|].
        cbn [pow]. rewrite !Rmult_1_r, !sqrt_sqrt by auto. unfold relu, Rmax. destruct (Rltb_spec (c i i - c' i i) 0), (Rle_dec 0 (c i i - c' i i)); lra.
      + assert (N : ~ In i fl) by (intros X; apply LT in X; lia). cbn [read_num read_row]. exists 0, 0, 0.
        assert (Z : Rltb 0 0 = false) by (apply Rltb_false; lra). unfold relu. rewrite Z. unfold tsqrt. rewrite Z, sqrt_0. split; auto. split; [apply share_zero; auto|]. split; [apply share_zero; auto|].
        split; [lra|]. cbn [pow]. unfold Rmax. destruct (Rle_dec _ _); lra.
    - exists None. split; auto. intros i. cbn [stat_spec stat_columns]. destruct (Nat.ltb_spec i nstat) as [L|L].
      + destruct (CE i L) as (_ & T & Q). cbn [read_num]. rewrite T. exists (sqrt (c i i)). auto.
      + exists 0. split; auto. apply share_zero. intros X. apply LT in X. lia. }
  destruct HB as (cb & -> & ST). cbn [rbind]. unfold trad_impacts. fold nmod. rewrite rows_eq by (auto; unfold nstat; lia).
  change (reported_list npoi nmod noi) with (reported npoi nmod noi).
  assert (RI : forall i, In i (reported npoi nmod noi) -> (i < n)%nat).
  { intros i Hi. unfold reported in Hi. apply in_app_or in Hi. destruct Hi as [Hi|Hi]; [apply in_seq in Hi; unfold nmod in NM; lia|].
    apply in_map_iff in Hi. destruct Hi as (k & <- & Hk). auto. }
  revert RI. generalize (reported npoi nmod noi). intros rep RI.
  edestruct (emap_ok (fun rr : option nat * option nat =>
     let (r, rs) := rr in
     syst <- emap (fun g => compute_impact_group cov (fun j => read_row (fun i => cov i j) r) (map (fun k => nmod + k)%nat g)) sg ;;
     par <- emap (compute_impact_group cov (fun j => read_row (fun i => cov i j) r)) pg ;;
     Ok (single_impact cov r, syst ++ stat_columns c cb rs ++ par))
     (fun rr row => exists i, fst rr = Some i /\ (forall j, (j < n)%nat -> is_impact cov i j (fst row j)) /\
      exists cs ct cp, snd row = cs ++ ct ++ cp /\
        Forall2 (fun g => group_column n cov i (map (fun k => nmod + k)%nat g)) sg cs /\ stat_spec hess hnb fl i ct /\
        Forall2 (group_column n cov i) pg cp)
     (map (fun i => (Some i, if Nat.ltb i nstat then Some i else None)) rep)) as (out & E & F).
  { intros rr Hrr. apply in_map_iff in Hrr. destruct Hrr as (i & <- & Hi). assert (Hin := RI i Hi). cbn [read_row]. change (fun j : nat => cov i j) with (cov i).
    destruct (emap_ok (fun g => compute_impact_group cov (cov i) (map (fun k => nmod + k)%nat g)) (fun g => group_column n cov i (map (fun k => nmod + k)%nat g)) sg) as (cs & -> & Fs).
    { intros g Hg. destruct (SG g Hg) as (Rg & Pg). destruct (group_spec n cov i _ K Hin Rg Pg) as (a & -> & Ga). eexists. split; [reflexivity|]. exists a. auto. }
    destruct (emap_ok (compute_impact_group cov (cov i)) (group_column n cov i) pg) as (cp & -> & Fp).
    { intros g Hg. destruct (PG g Hg) as (Rg & Pg). destruct (group_spec n cov i _ K Hin Rg Pg) as (a & -> & Ga). eexists. split; [reflexivity|]. exists a. auto. }
    cbn [rbind]. eexists. split; [reflexivity|]. exists i. split; auto. cbn [fst snd]. split; [intros j Hj; apply (single_spec n); auto|].
    exists cs, (stat_columns c cb (if Nat.ltb i nstat then Some i else None)), cp. auto. }
  exists out. split; [exact E|]. revert F. clear. revert out. induction rep as [|i rep IH]; intros out F; inversion F as [|? row ? out' Hh Ft]; subst; constructor; auto.
  destruct Hh as (i' & Ei & A & B). cbn in Ei. injection Ei as <-. auto.
Qed.
