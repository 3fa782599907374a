From Coq Require Import Reals List Arith Bool Lra Lia.
From Verif Require Import RBase PyList Mat_Model Mat_Proof Linear_Model Linear_Spec Linear_Proof Impacts_Model Impacts_Spec Impacts_Solve Impacts_Proof Impacts_Trad.
Import ListNotations.
Open Scope R_scope.

Lemma sm_add n m : forall f, sm (n + m) f = sm n f + sm m (fun i => f (n + i)%nat).
Proof. induction n as [|n IH]; intros f; cbn [sm Nat.add]; [rewrite Rplus_0_l; reflexivity|]. rewrite IH. lra. Qed.
Lemma sm_flat nb np f : sm (nb * np) f = sm nb (fun b => sm np (fun p => f (b * np + p)%nat)).
Proof.
  revert f. induction nb as [|nb IH]; intros f; cbn [Nat.mul sm]; auto. rewrite sm_add. f_equal. rewrite IH.
  apply sm_ext. intros b _. apply sm_ext. intros p _. f_equal. cbn. lia.
Qed.
Lemma mv_mix n m A B u k : mv m A (mv n B u) k = mv n (fun i j => sm m (fun l => A i l * B l j)) u k.
Proof.
  unfold mv. transitivity (sm m (fun l => sm n (fun j => A k l * B l j * u j))).
  - apply sm_ext. intros l _. rewrite <- sm_scal. apply sm_ext. intros; ring.
  - rewrite sm_swap. apply sm_ext. intros j _. rewrite <- sm_scalr. apply sm_ext. intros; ring.
Qed.
Lemma quad_plus_diag n A c x : quad n (fun i j => A i j + c i * delta i j) x = quad n A x + sm n (fun i => c i * x i ^ 2).
Proof.
  unfold quad. rewrite <- sm_plus. apply sm_ext. intros i Hi. unfold mv.
  rewrite (sm_ext n (fun j => (A i j + c i * delta i j) * x j) (fun j => A i j * x j + c i * (delta i j * x j))) by (intros; ring).
  rewrite sm_plus, sm_scal, sm_delta by auto. cbn [pow]. ring.
Qed.
(** the joint form at (u, J u + q) *)
Lemma joint_form K J u d q p : sym (k_m K) (k_Dbb K) -> profiled K J ->
  (forall i, (i < k_n K)%nat -> u i * mv (k_n K) (k_prof K J) u i = u i * d i) ->
  (forall k, (k < k_m K)%nat -> q k * mv (k_m K) (k_Hbb K) q k = q k * p k) ->
  jquad (k_n K) (k_m K) (k_Dxx K) (k_Dxb K) (k_Dbb K) u (fun k => mv (k_n K) J u k + q k)
  + sm (k_n K) (fun i => k_cw K i * u i ^ 2) + sm (k_m K) (fun k => k_s K k * (mv (k_n K) J u k + q k) ^ 2)
  = sm (k_n K) (fun i => d i * u i) + sm (k_m K) (fun k => p k * q k).
Proof.
  intros SB PR HU HQ. set (n := k_n K) in *. set (m := k_m K) in *. set (w := mv n J u).
  set (b := fun k => w k + q k).
  assert (SH : sym m (k_Hbb K)).
  { intros i j Hi Hj. unfold k_Hbb. rewrite (SB i j) by auto. unfold delta. rewrite (Nat.eqb_sym j i). destruct (Nat.eqb_spec i j); [subst; ring|ring]. }
  assert (CR : forall y, sm n (fun i => u i * mv m (k_Dxb K) y i) = - sm m (fun k => y k * mv m (k_Hbb K) w k)).
  { intros y. transitivity (sm m (fun k => y k * sm n (fun i => k_Dxb K i k * u i))).
    - unfold mv. transitivity (sm n (fun i => sm m (fun k => u i * k_Dxb K i k * y k))).
      + apply sm_ext. intros i _. rewrite <- sm_scal. apply sm_ext. intros; ring.
      + rewrite sm_swap. apply sm_ext. intros k _. rewrite <- sm_scal. apply sm_ext. intros; ring.
    - rewrite <- (Rmult_1_l (sm m (fun k => y k * mv m (k_Hbb K) w k))), Ropp_mult_distr_l, <- sm_scal. apply sm_ext. intros k Hk.
      unfold w. rewrite mv_mix. unfold mv at 1.
      rewrite (sm_ext n (fun j => sm m (fun l => k_Hbb K k l * J l j) * u j) (fun j => - 1 * (k_Dxb K j k * u j))).
      + rewrite sm_scal. ring.
      + intros j Hj. rewrite PR by auto. ring. }
  assert (QP : sm n (fun i => d i * u i) = quad n (k_Hxx K) u - quad m (k_Hbb K) w).
  { transitivity (sm n (fun i => u i * mv n (k_prof K J) u i)); [apply sm_ext; intros i Hi; rewrite HU by auto; ring|].
    unfold quad. transitivity (sm n (fun i => u i * mv n (k_Hxx K) u i + u i * mv m (k_Dxb K) w i)).
    - apply sm_ext. intros i _. rewrite <- Rmult_plus_distr_l. f_equal. unfold w. rewrite mv_mix. unfold mv, k_prof. rewrite <- sm_plus. apply sm_ext. intros; fold m; ring.
    - rewrite sm_plus, CR. unfold quad. lra. }
  assert (HX : quad n (k_Hxx K) u = quad n (k_Dxx K) u + sm n (fun i => k_cw K i * u i ^ 2)) by (unfold k_Hxx; apply quad_plus_diag).
  assert (HB : quad m (k_Hbb K) b = quad m (k_Dbb K) b + sm m (fun k => k_s K k * b k ^ 2)) by (unfold k_Hbb; apply quad_plus_diag).
  unfold jquad. fold b. rewrite CR.
  assert (PQ : sm m (fun k => p k * q k) = quad m (k_Hbb K) q) by (unfold quad; apply sm_ext; intros k Hk; rewrite HQ by auto; ring).
  assert (BB : quad m (k_Hbb K) q = quad m (k_Hbb K) b - 2 * sm m (fun k => b k * mv m (k_Hbb K) w k) + quad m (k_Hbb K) w).
  { rewrite <- quad_minus by auto. apply quad_ext. intros k _. unfold b. ring. }
  rewrite PQ, QP, BB, HX, HB. change (fun k : nat => k_s K k * (w k + q k) ^ 2) with (fun k : nat => k_s K k * b k ^ 2). ring.
Qed.
(** u = C d solves the profiled system *)
Lemma cov_solves K J F C d : NoDup F -> (forall i, In i F -> (i < k_n K)%nat) -> cov_of K J F C ->
  (forall i, (i < k_n K)%nat -> ~ In i F -> d i = 0) ->
  forall i, (i < k_n K)%nat -> (In i F -> mv (k_n K) (k_prof K J) (mv (k_n K) C d) i = d i) /\ (~ In i F -> mv (k_n K) C d i = 0).
Proof.
  intros ND R (INV & Z) D i Hi.
  assert (M : forall k, mv (k_n K) C d k = lsum (fun j => C k j * d j) F).
  { intros k. unfold mv. apply sm_support; auto. intros j Hj NI. rewrite (D j) by auto. ring. }
  split.
  - intros I. unfold mv at 1. rewrite (sm_support _ F); auto.
    + transitivity (lsum (fun l => lsum (fun j => k_prof K J i l * C l j * d j) F) F).
      * apply lsum_ext. intros l _. rewrite M, <- lsum_scal. apply lsum_ext. intros; ring.
      * rewrite lsum_swap. transitivity (lsum (fun j => delta i j * d j) F).
        { apply lsum_ext. intros j Hj. rewrite <- (INV i j I Hj). rewrite (Rmult_comm _ (d j)), <- lsum_scal. apply lsum_ext. intros; ring. }
        rewrite <- (sm_support (k_n K) F); auto; [apply sm_delta; auto|]. intros j Hj NI. rewrite D by auto. ring.
    + intros j Hj NI. rewrite M, lsum_0; [ring|]. intros l Hl. destruct (Z l j Hl Hj NI) as (_ & ->). ring.
  - intros NI. rewrite M. apply lsum_0. intros l Hl. destruct (Z l i Hl Hi NI) as (_ & ->). ring.
Qed.
Lemma share_tsqrt v : 0 <= v -> share (tsqrt v) v.
Proof. intros P. unfold tsqrt. rewrite Rltb_false by lra. exists (sqrt v). split; auto. split; [apply sqrt_pos|]. cbn [pow]. rewrite Rmult_1_r, sqrt_sqrt; auto. Qed.
Lemma tsqrt_some v : 0 <= v -> tsqrt v = Some (sqrt v).
Proof. intros P. unfold tsqrt. rewrite Rltb_false by lra. auto. Qed.
Lemma sqrt_pow v : 0 <= v -> sqrt v ^ 2 = v.
Proof. intros P. cbn [pow]. rewrite Rmult_1_r, sqrt_sqrt; auto. Qed.
Lemma lsum_sq_nonneg (f : nat -> R) l : 0 <= lsum (fun j => f j ^ 2) l.
Proof. unfold lsum. induction l as [|a l IH]; cbn [map fold_right]; [lra|]. assert (X := pow2_ge_0 (f a)). lra. Qed.
Lemma group_quad_share imp l : group_share imp l (group_quad (fun j => imp j ^ 2) l).
Proof. unfold group_share, group_quad. apply share_tsqrt. apply lsum_sq_nonneg. Qed.
Lemma forall2_map {A B} (P : A -> B -> Prop) (f : A -> B) l : (forall a, P a (f a)) -> Forall2 P l (map f l).
Proof. intros H. induction l; cbn; constructor; auto. Qed.
Lemma sum_map_seq f np : fold_right Rplus 0 (map f (seq 0 np)) = sm np f.
Proof. exact (lsum_seq f np). Qed.
Lemma columns_add n nmod sg pg imp mid bbb var :
  match bbb with
  | None => exists v, mid = [Some v] /\ 0 <= v /\ sm n (fun j => imp j ^ 2) + v ^ 2 = var
  | Some (np, full) => exists v b cps, mid = Some v :: Some b :: cps /\ 0 <= v /\ 0 <= b /\
      sm n (fun j => imp j ^ 2) + b ^ 2 + v ^ 2 = var /\
      (if full : bool then exists bs, cps = map Some bs /\ List.length bs = np /\ (forall x, In x bs -> 0 <= x) /\ fold_right Rplus 0 (map (fun x => x ^ 2) bs) = b ^ 2
       else cps = [])
  end -> adds_up n nmod sg pg bbb imp (global_columns (fun j => imp j ^ 2) nmod sg pg mid) var.
Proof.
  intros H. unfold global_columns. eexists _, mid, _. split; [reflexivity|]. split; [|split; auto].
  - apply forall2_map. intros g. apply group_quad_share.
  - apply forall2_map. intros g. apply group_quad_share.
Qed.
Definition lite_one (B : bbb_in) : Prop := b_full B = false -> b_np B = 1%nat.
Lemma beta_proc_nonneg n B u q p : 0 <= beta_var_process n B u q p.
Proof. apply sm_nonneg. intros. apply pow2_ge_0. Qed.
Lemma beta_var_flat n B u q : lite_one B -> (forall k, (k < b_nb B * b_np B)%nat -> 0 <= b_curv B k) ->
  beta_var n B u q = sm (b_nb B * b_np B) (fun k => b_curv B k * (mv n (b_J B) u k + q k) ^ 2).
Proof.
  intros L P. transitivity (sm (b_nb B * b_np B) (fun k => beta_impact n B u q k ^ 2)).
  - rewrite sm_flat. unfold beta_var. destruct (b_full B) eqn:E.
    + unfold beta_var_process. rewrite sm_swap. auto.
    + rewrite (L E). unfold beta_var_process. rewrite (L E). apply sm_ext. intros b _. cbn [sm]. ring.
  - apply sm_ext. intros k Hk. unfold beta_impact. assert (X := sqrt_sqrt (b_curv B k) (P k Hk)). revert X. generalize (sqrt (b_curv B k)). intros s <-. cbn [pow]. ring.
Qed.
Lemma global_row_none n cw nmod sg pg u q var : 0 <= var - sm n (fun j => x0_impact cw u j ^ 2) ->
  adds_up n nmod sg pg None (x0_impact cw u) (snd (global_row n cw None nmod sg pg u q var)) var.
Proof.
  intros P. unfold global_row. cbn [snd]. apply columns_add. rewrite tsqrt_some by auto. eexists. split; [reflexivity|]. split; [apply sqrt_pos|].
  rewrite sqrt_pow by auto. ring.
Qed.
Lemma global_row_some n cw B nmod sg pg u q var : lite_one B ->
  0 <= var - sm n (fun j => x0_impact cw u j ^ 2) - beta_var n B u q ->
  adds_up n nmod sg pg (Some (b_np B, b_full B)) (x0_impact cw u) (snd (global_row n cw (Some B) nmod sg pg u q var)) var.
Proof.
  intros L P. unfold global_row. cbn [snd]. apply columns_add.
  assert (PB : 0 <= beta_var n B u q). { unfold beta_var. destruct (b_full B); [apply sm_nonneg; intros|]; apply beta_proc_nonneg. }
  rewrite !tsqrt_some by auto. eexists _, _, _. split; [reflexivity|]. split; [apply sqrt_pos|]. split; [apply sqrt_pos|]. rewrite !sqrt_pow by auto. split; [ring|].
  destruct (b_full B) eqn:E; auto. exists (map (fun p => sqrt (beta_var_process n B u q p)) (seq 0 (b_np B))).
  split; [rewrite map_map; apply map_ext; intros p; apply tsqrt_some; apply beta_proc_nonneg|]. split; [rewrite map_length, seq_length; auto|]. split.
  - intros x Hx. apply in_map_iff in Hx. destruct Hx as (p & <- & _). apply sqrt_pos.
  - rewrite map_map. unfold beta_var. rewrite E, <- sum_map_seq. f_equal. apply map_ext. intros p. apply sqrt_pow. apply beta_proc_nonneg.
Qed.

Definition bbb_matches (K : curvature) (J : nat -> nat -> R) (bbb : option bbb_in) : Prop :=
  match bbb with
  | None => k_m K = O
  | Some B => k_m K = (b_nb B * b_np B)%nat /\ b_curv B = k_s K /\ b_J B = J /\ lite_one B
  end.
Definition bbb_shape (bbb : option bbb_in) : option (nat * bool) := match bbb with None => None | Some B => Some (b_np B, b_full B) end.
Lemma mv_unit n C i k : (i < n)%nat -> mv n C (delta i) k = C k i.
Proof. intros Hi. unfold mv. rewrite (sm_ext n _ (fun j => delta i j * C k j)) by (intros; ring). apply sm_delta. auto. Qed.
Lemma x0_sq_sum K u : (forall i, (i < k_n K)%nat -> 0 <= k_cw K i) -> sm (k_n K) (fun j => x0_impact (k_cw K) u j ^ 2) = sm (k_n K) (fun i => k_cw K i * u i ^ 2).
Proof.
  intros P. apply sm_ext. intros i Hi. unfold x0_impact. assert (X := sqrt_sqrt _ (P i Hi)). revert X. generalize (sqrt (k_cw K i)). intros s <-. cbn [pow]. ring.
Qed.
(** one row, for a direction d *)
Theorem global_row_spec K J F C bbb nmod sg pg d p q :
  nonneg_curvature K -> convex_data K -> profiled K J -> NoDup F -> (forall i, In i F -> (i < k_n K)%nat) -> cov_of K J F C ->
  bbb_matches K J bbb -> (forall i, (i < k_n K)%nat -> ~ In i F -> d i = 0) ->
  (forall k, (k < k_m K)%nat -> q k * mv (k_m K) (k_Hbb K) q k = q k * p k) ->
  adds_up (k_n K) nmod sg pg (bbb_shape bbb) (x0_impact (k_cw K) (mv (k_n K) C d))
    (snd (global_row (k_n K) (k_cw K) bbb nmod sg pg (mv (k_n K) C d) q (obs_variance (k_n K) (k_m K) C d p q)))
    (obs_variance (k_n K) (k_m K) C d p q).
Proof.
  intros (CW & CS & SB) CX PR ND R CO BM D HQ. set (u := mv (k_n K) C d).
  assert (U := cov_solves K J F C d ND R CO D). fold u in U.
  assert (JF := joint_form K J u d q p SB PR).
  assert (HU : forall i, (i < k_n K)%nat -> u i * mv (k_n K) (k_prof K J) u i = u i * d i).
  { intros i Hi. destruct (in_dec Nat.eq_dec i F) as [I|N]; [rewrite (proj1 (U i Hi) I); auto|rewrite (proj2 (U i Hi) N); ring]. }
  specialize (JF HU HQ). change (sm (k_n K) (fun i => d i * u i) + sm (k_m K) (fun k => p k * q k)) with (obs_variance (k_n K) (k_m K) C d p q) in JF.
  revert JF. generalize (obs_variance (k_n K) (k_m K) C d p q). intros var JF.
  specialize (CX u (fun k => mv (k_n K) J u k + q k)). destruct bbb as [B|].
  - destruct BM as (M & E1 & E2 & L). cbn [bbb_shape]. apply global_row_some; auto. rewrite x0_sq_sum by auto. rewrite beta_var_flat; auto.
    + rewrite E1, E2, <- M. lra.
    + intros k Hk. rewrite E1. apply CS. lia.
  - cbn [bbb_matches bbb_shape] in *. apply global_row_none. rewrite x0_sq_sum by auto. rewrite BM in JF, CX. cbn [sm] in JF. lra.
Qed.
Lemma Forall2_map_r {A B} (P : A -> B -> Prop) (f : A -> B) l : (forall a, In a l -> P a (f a)) -> Forall2 P l (map f l).
Proof. induction l; intros H; cbn; constructor; [apply H; left; auto|apply IHl; intros; apply H; right; auto]. Qed.
Theorem global_parms_spec K J F C bbb npoi nmod noi sg pg :
  nonneg_curvature K -> convex_data K -> profiled K J -> NoDup F -> (forall i, In i F -> (i < k_n K)%nat) -> cov_of K J F C ->
  bbb_matches K J bbb -> (forall i, In i (reported_list npoi nmod noi) -> In i F) ->
  Forall2 (fun i row => (forall j, (j < k_n K)%nat -> fst row j = sqrt (k_cw K j) * C j i) /\
      adds_up (k_n K) nmod sg pg (bbb_shape bbb) (fst row) (snd row) (C i i))
    (reported_list npoi nmod noi) (global_impacts_parms (k_n K) C (k_cw K) bbb npoi nmod noi sg pg).
Proof.
  intros NN CX PR ND R CO BM RF. unfold global_impacts_parms. change (reported npoi nmod noi) with (reported_list npoi nmod noi).
  apply Forall2_map_r. intros i Hi. apply RF in Hi. assert (Hn := R i Hi). split.
  - intros j Hj. cbn [fst global_row]. unfold x0_impact. rewrite mv_unit by auto. auto.
  - assert (X := global_row_spec K J F C bbb nmod sg pg (delta i) (fun _ => 0) (fun _ => 0) NN CX PR ND R CO BM).
    assert (E : obs_variance (k_n K) (k_m K) C (delta i) (fun _ => 0) (fun _ => 0) = C i i).
    { unfold obs_variance. rewrite sm_delta by auto. rewrite mv_unit by auto. rewrite sm_0 by (intros; ring). ring. }
    rewrite E in X. apply X.
    + intros k Hk NI. unfold delta. destruct (Nat.eqb_spec i k); [subst; contradiction|auto].
    + intros; ring.
Qed.
Definition curv_matches (K : curvature) (c : beta_curv) : Prop :=
  match c with
  | BDiag msk B => forall k, (k < k_m K)%nat -> msk k = false -> B k <> 0 /\ k_Hbb K k k = B k /\ forall l, (l < k_m K)%nat -> l <> k -> k_Hbb K k l = 0
  | BFull B => (forall k l, (k < k_m K)%nat -> (l < k_m K)%nat -> B k l = k_Hbb K k l) /\ regular (k_m K) B
  end.
Definition obs_matches (K : curvature) (J : nat -> nat -> R) (bbb : option (bbb_in * beta_curv)) : Prop :=
  bbb_matches K J (option_map fst bbb) /\ match bbb with Some (_, c) => curv_matches K c | None => True end.
Theorem global_obs_spec K J F C bbb nmod sg pg d p :
  nonneg_curvature K -> convex_data K -> profiled K J -> NoDup F -> (forall i, In i F -> (i < k_n K)%nat) -> cov_of K J F C ->
  obs_matches K J bbb -> (forall i, (i < k_n K)%nat -> ~ In i F -> d i = 0) ->
  exists row q, global_impacts_obs (k_n K) C (k_cw K) bbb nmod sg pg d p = Ok row /\
    (match bbb with Some (_, c) => obs_q c (k_m K) p = Ok q | None => True end) /\
    (forall j, (j < k_n K)%nat -> fst row j = sqrt (k_cw K j) * mv (k_n K) C d j) /\
    adds_up (k_n K) nmod sg pg (bbb_shape (option_map fst bbb)) (fst row) (snd row) (obs_variance (k_n K) (k_m K) C d p q).
Proof.
  intros NN CX PR ND R CO (BM & CM) D. unfold global_impacts_obs. destruct bbb as [(B & c)|].
  - cbn [option_map fst] in BM. assert (M : k_m K = (b_nb B * b_np B)%nat) by apply BM. rewrite <- M.
    assert (Q : exists q, obs_q c (k_m K) p = Ok q /\ forall k, (k < k_m K)%nat -> q k * mv (k_m K) (k_Hbb K) q k = q k * p k).
    { destruct c as [msk Bd|Bm]; cbn [obs_q curv_matches] in *.
      - eexists. split; [reflexivity|]. intros k Hk. cbn beta. destruct (msk k) eqn:Mk; [ring|]. destruct (CM k Hk Mk) as (NZ & E & Z).
        f_equal. unfold mv. rewrite (sm_ext _ _ (fun l => delta k l * p l)).
        + apply sm_delta. auto.
        + intros l Hl. unfold delta. destruct (Nat.eqb_spec k l) as [<-|N]; [rewrite E, Mk; field; auto|]. rewrite Z by auto. ring.
      - destruct CM as (E & RG). destruct (gsolve_regular (k_m K) Bm p RG) as (q & G). rewrite G. exists q. split; auto. intros k Hk. f_equal.
        rewrite <- (gsolve_ok _ _ _ _ G k Hk). unfold mv. apply sm_ext. intros l Hl. rewrite E by auto. auto. }
    destruct Q as (q & -> & HQ). cbn [rbind]. eexists _, q. split; [reflexivity|]. split; auto. split; [intros j Hj; reflexivity|].
    cbn [option_map fst]. apply global_row_spec with (J := J) (F := F); auto.
  - eexists _, (fun _ => 0). split; [reflexivity|]. split; auto. split; [intros j Hj; reflexivity|]. cbn [option_map bbb_matches] in BM.
    assert (X := global_row_spec K J F C None nmod sg pg d p (fun _ => 0) NN CX PR ND R CO BM D).
    rewrite BM in X |- *. apply X. intros; ring.
Qed.

(** ** Gaussian approximation *)
Lemma bil_sum nobs n W (A : nat -> nat -> R) (y x : nat -> R) :
  sm n (fun i => x i * sm nobs (fun b => sm nobs (fun c => A b i * W b c * y c))) = sm nobs (fun b => mv n A x b * mv nobs W y b).
Proof.
  transitivity (sm n (fun i => sm nobs (fun b => A b i * x i * mv nobs W y b))).
  - apply sm_ext. intros i _. rewrite <- sm_scal. apply sm_ext. intros b _. unfold mv. rewrite <- !sm_scal. apply sm_ext. intros; ring.
  - rewrite sm_swap. apply sm_ext. intros b _. unfold mv at 2. rewrite <- sm_scalr. reflexivity.
Qed.
Lemma form_mv n m nobs W (A A' : nat -> nat -> R) (x y : nat -> R) (D : nat -> nat -> R) :
  (forall i j, D i j = sm nobs (fun b => sm nobs (fun c => A b i * W b c * A' c j))) ->
  sm n (fun i => x i * mv m D y i) = sm nobs (fun b => mv n A x b * mv nobs W (mv m A' y) b).
Proof.
  intros E. rewrite <- bil_sum. apply sm_ext. intros i _. f_equal. unfold mv.
  transitivity (sm m (fun j => sm nobs (fun b => sm nobs (fun c => A b i * W b c * (A' c j * y j))))).
  - apply sm_ext. intros j _. rewrite E. rewrite <- sm_scalr. apply sm_ext. intros b _. rewrite <- sm_scalr. apply sm_ext. intros; ring.
  - rewrite sm_swap. apply sm_ext. intros b _. rewrite sm_swap. apply sm_ext. intros c _. rewrite <- sm_scal. reflexivity.
Qed.
Lemma jquad_form K nobs W Ax Ab a b : sym nobs W -> data_form K nobs W Ax Ab ->
  jquad (k_n K) (k_m K) (k_Dxx K) (k_Dxb K) (k_Dbb K) a b = quad nobs W (fun c => mv (k_n K) Ax a c + mv (k_m K) Ab b c).
Proof.
  intros S (E1 & E2 & E3). unfold jquad. unfold quad at 1 2.
  rewrite (form_mv _ _ nobs W Ax Ax a a _ E1), (form_mv _ _ nobs W Ax Ab a b _ E2), (form_mv _ _ nobs W Ab Ab b b _ E3).
  set (y := mv (k_n K) Ax a). set (z := mv (k_m K) Ab b).
  rewrite (quad_ext nobs W (fun c => y c + z c) (fun c => y c - (fun k => - z k) c)) by (intros; ring). rewrite quad_minus by auto.
  assert (N : forall k, mv nobs W (fun k => - z k) k = - mv nobs W z k).
  { intros k. unfold mv. rewrite <- (Rmult_1_l (sm nobs (fun j => W k j * z j))), Ropp_mult_distr_l, <- sm_scal. apply sm_ext. intros; ring. }
  unfold quad. rewrite (sm_ext nobs (fun i => y i * mv nobs W (fun k => - z k) i) (fun i => - 1 * (y i * mv nobs W z i))) by (intros; rewrite N; ring).
  rewrite sm_scal. rewrite (sm_ext nobs (fun i => - z i * mv nobs W (fun k => - z k) i) (fun i => z i * mv nobs W z i)) by (intros; rewrite N; ring). ring.
Qed.
Lemma total_mv K Ax Ab J a c : mv (k_n K) (total_jac (k_m K) Ax Ab J) a c = mv (k_n K) Ax a c + mv (k_m K) Ab (mv (k_n K) J a) c.
Proof. rewrite mv_mix. unfold mv, total_jac. rewrite <- sm_plus. apply sm_ext. intros; ring. Qed.
Lemma jquad_total K J nobs W Ax Ab a : sym nobs W -> data_form K nobs W Ax Ab ->
  jquad (k_n K) (k_m K) (k_Dxx K) (k_Dxb K) (k_Dbb K) a (mv (k_n K) J a) = quad nobs W (mv (k_n K) (total_jac (k_m K) Ax Ab J) a).
Proof. intros S D. rewrite (jquad_form K nobs W Ax Ab) by auto. apply quad_ext. intros c _. rewrite total_mv. auto. Qed.
Definition gdata (K : curvature) (J : nat -> nat -> R) (nobs : nat) (D : data_unc) (Kn : nat -> nat -> R) : Prop :=
  match D with
  | DVar v => exists kap Ax Ab, diag_data K J nobs v kap Ax Ab Kn
  | DCovInv Vi => exists Ax Ab, cov_data K J nobs Vi Ax Ab Kn
  end.
Lemma diag_sym nobs w : sym nobs (fun b c => w b * delta b c).
Proof. intros i j _ _. unfold delta. rewrite (Nat.eqb_sym j i). destruct (Nat.eqb_spec i j); [subst; auto|ring]. Qed.
Lemma diag_quad nobs w x : quad nobs (fun b c => w b * delta b c) x = sm nobs (fun b => w b * x b ^ 2).
Proof.
  unfold quad. apply sm_ext. intros b Hb. unfold mv. rewrite (sm_ext _ _ (fun c => delta b c * (w b * x c))) by (intros; ring).
  rewrite sm_delta by auto. cbn [pow]. ring.
Qed.
Lemma data_stat_spec K J nobs D Kn cov i : sym (k_n K) cov -> (i < k_n K)%nat -> gdata K J nobs D Kn ->
  let u := fun j => cov j i in
  exists v, data_stat nobs D (dxdvar (k_n K) cov Kn i) = Ok v /\ 0 <= v /\
    v = jquad (k_n K) (k_m K) (k_Dxx K) (k_Dxb K) (k_Dbb K) u (mv (k_n K) J u).
Proof.
  intros S Hi GD u. destruct D as [v|Vi]; cbn [gdata data_stat] in *.
  - destruct GD as (kap & Ax & Ab & PV & DF & EK). eexists. split; [reflexivity|]. set (y := mv (k_n K) (total_jac (k_m K) Ax Ab J) u).
    assert (G : forall b, (b < nobs)%nat -> dxdvar (k_n K) cov Kn i b = kap b * y b).
    { intros b Hb. unfold dxdvar, y, mv. rewrite <- (Rmult_1_l (sm (k_n K) (fun j => cov i j * Kn j b))), Ropp_mult_distr_l, <- !sm_scal.
      apply sm_ext. intros j Hj. rewrite EK by auto. unfold u. rewrite (S i j) by auto. ring. }
    split; [apply sm_nonneg; intros b Hb; apply Rmult_le_pos; [apply pow2_ge_0|apply PV; auto]|].
    rewrite (jquad_total K J nobs _ Ax Ab u (diag_sym nobs (fun b => kap b * kap b * v b)) DF). fold y. rewrite diag_quad. apply sm_ext. intros b Hb. rewrite G by auto. cbn [pow]. ring.
  - destruct GD as (Ax & Ab & SV & PV & DF & EK). destruct (ginv_spec nobs Vi (posdef_regular _ _ PV)) as (V & -> & IV). cbn [rbind].
    eexists. split; [reflexivity|]. set (y := mv (k_n K) (total_jac (k_m K) Ax Ab J) u).
    assert (G : forall b, (b < nobs)%nat -> dxdvar (k_n K) cov Kn i b = mv nobs Vi y b).
    { intros b Hb. unfold dxdvar, y. rewrite mv_mix. unfold mv. rewrite <- (Rmult_1_l (sm (k_n K) (fun j => cov i j * Kn j b))), Ropp_mult_distr_l, <- !sm_scal.
      apply sm_ext. intros j Hj. rewrite EK by auto. unfold u. rewrite (S i j) by auto. ring. }
    rewrite (jquad_total K J nobs _ Ax Ab u SV DF). fold y.
    set (g := dxdvar (k_n K) cov Kn i) in *.
    assert (HY : forall j, (j < nobs)%nat -> mv nobs V g j = y j).
    { assert (Z : forall j, (j < nobs)%nat -> mv nobs V g j - y j = 0).
      { apply (posdef_regular _ _ PV). intros k Hk. rewrite mv_minus, mv_assoc, <- G by auto.
        rewrite (mv_ext nobs (mm nobs Vi V) delta g g IV) by auto. unfold mv. rewrite sm_delta by auto. ring. }
      intros j Hj. specialize (Z j Hj). lra. }
    assert (E : sm nobs (fun j => sm nobs (fun k => g j * V j k * g k)) = quad nobs Vi y).
    { unfold quad. apply sm_ext. intros j Hj. transitivity (g j * mv nobs V g j); [unfold mv; rewrite <- sm_scal; apply sm_ext; intros; ring|].
      rewrite HY, G by auto. ring. }
    rewrite E. split; auto. destruct (nonzero_dec nobs y) as [NZ|Z]; [left; apply PV; auto|rewrite quad_zero by auto; lra].
Qed.
Definition gbbb_matches (K : curvature) (J Kb : nat -> nat -> R) (bbb : option gbeta_in) : Prop :=
  match bbb with
  | None => k_m K = O
  | Some B => k_m K = (gb_nb B * gb_np B)%nat /\ (gb_full B = false -> gb_np B = 1%nat) /\
      forall k, (k < k_m K)%nat -> 0 < k_s K k /\ gb_var B k = / k_s K k /\ forall i, (i < k_n K)%nat -> Kb i k = - (J k i * k_s K k)
  end.
Definition gbbb_shape (bbb : option gbeta_in) : option (nat * bool) := match bbb with None => None | Some B => Some (gb_np B, gb_full B) end.
Lemma gbeta_var_flat B g : (gb_full B = false -> gb_np B = 1%nat) -> gbeta_var B g = sm (gb_nb B * gb_np B) (fun k => g k ^ 2 * gb_var B k).
Proof.
  intros L. rewrite sm_flat. unfold gbeta_var. destruct (gb_full B) eqn:E.
  - unfold gbeta_var_process. rewrite sm_swap. auto.
  - unfold gbeta_var_process. rewrite (L eq_refl). apply sm_ext. intros b _. cbn [sm]. ring.
Qed.
Theorem gaussian_spec K J F C nobs D bbb Kx Kn Kb npoi nmod noi sg pg :
  nonneg_curvature K -> profiled K J -> NoDup F -> (forall i, In i F -> (i < k_n K)%nat) -> cov_of K J F C -> sym (k_n K) C ->
  gdata K J nobs D Kn -> gbbb_matches K J Kb bbb ->
  (forall i j, (i < k_n K)%nat -> (j < k_n K)%nat -> Kx i j = - (k_cw K i * delta i j)) ->
  (forall i, In i (reported_list npoi nmod noi) -> In i F) ->
  exists out, gaussian_impacts_parms (k_n K) C (k_cw K) nobs D bbb Kx Kn Kb npoi nmod noi sg pg = Ok out /\
    Forall2 (fun i row => (forall j, (j < k_n K)%nat -> fst row j = sqrt (k_cw K j) * C j i) /\
      adds_up (k_n K) nmod sg pg (gbbb_shape bbb) (fst row) (snd row) (C i i)) (reported_list npoi nmod noi) out.
Proof.
  intros (CW & CS & SB) PR ND R CO SC GD BM KX RF. unfold gaussian_impacts_parms. change (reported npoi nmod noi) with (reported_list npoi nmod noi).
  apply emap_ok. intros i Hi. apply RF in Hi. assert (Hn := R i Hi). set (u := fun j => C j i).
  destruct (data_stat_spec K J nobs D Kn C i SC Hn GD) as (v & Ev & Pv & Vv). fold u in Vv. unfold gaussian_row. rewrite Ev. cbn [rbind].
  eexists. split; [reflexivity|]. cbn [fst snd].
  assert (IMP : forall j, (j < k_n K)%nat -> dxdvar (k_n K) C Kx i j * sqrt (var_x0 (k_cw K) j) = sqrt (k_cw K j) * C j i).
  { intros j Hj. unfold dxdvar. rewrite (sm_ext (k_n K) (fun l => C i l * Kx l j) (fun l => (- (C i l * k_cw K l)) * delta l j)) by (intros l Hl; rewrite KX by auto; ring).
    rewrite sm_delta' by auto. rewrite (SC i j) by auto. unfold var_x0. destruct (Reqb_spec (k_cw K j) 0) as [Z|Z]; [rewrite Z, sqrt_0; ring|].
    assert (P : 0 < k_cw K j) by (assert (X := CW j Hj); lra). rewrite sqrt_inv. assert (Q := sqrt_sqrt _ (Rlt_le _ _ P)). assert (Q2 := sqrt_lt_R0 _ P).
    revert Q Q2. generalize (sqrt (k_cw K j)). intros s <- Q2. field. lra. }
  split; [exact IMP|]. apply columns_add.
  assert (SX : sm (k_n K) (fun j => (dxdvar (k_n K) C Kx i j * sqrt (var_x0 (k_cw K) j)) ^ 2) = sm (k_n K) (fun j => k_cw K j * u j ^ 2)).
  { rewrite <- (x0_sq_sum K u CW). apply sm_ext. intros j Hj. rewrite IMP by auto. reflexivity. }
  rewrite SX.
  assert (UE : forall k, u k = mv (k_n K) C (delta i) k) by (intros k; rewrite mv_unit; auto).
  assert (U := cov_solves K J F C (delta i) ND R CO).
  assert (JF := joint_form K J u (delta i) (fun _ => 0) (fun _ => 0) SB PR).
  assert (T : jquad (k_n K) (k_m K) (k_Dxx K) (k_Dxb K) (k_Dbb K) u (mv (k_n K) J u) + sm (k_n K) (fun j => k_cw K j * u j ^ 2)
     + sm (k_m K) (fun k => k_s K k * mv (k_n K) J u k ^ 2) = C i i).
  { assert (JQ : jquad (k_n K) (k_m K) (k_Dxx K) (k_Dxb K) (k_Dbb K) u (fun k => mv (k_n K) J u k + 0) = jquad (k_n K) (k_m K) (k_Dxx K) (k_Dxb K) (k_Dbb K) u (mv (k_n K) J u)).
    { unfold jquad. f_equal; [f_equal; f_equal; apply sm_ext; intros a Ha; f_equal; unfold mv; apply sm_ext; intros; ring|]. apply quad_ext. intros; ring. }
    rewrite <- JQ. rewrite (sm_ext (k_m K) (fun k => k_s K k * mv (k_n K) J u k ^ 2) (fun k => k_s K k * (mv (k_n K) J u k + 0) ^ 2)) by (intros; rewrite Rplus_0_r; auto).
    rewrite JF.
    - rewrite sm_delta by auto. rewrite sm_0 by (intros; ring). unfold u. ring.
    - intros k Hk. assert (Dz : forall i0, (i0 < k_n K)%nat -> ~ In i0 F -> delta i i0 = 0).
      { intros a Ha NA. unfold delta. destruct (Nat.eqb_spec i a); [subst; contradiction|auto]. }
      destruct (U Dz k Hk) as (U1 & U2). destruct (in_dec Nat.eq_dec k F) as [I|N].
      + f_equal. rewrite <- (U1 I). unfold mv at 1 2. apply sm_ext. intros l _. rewrite UE. auto.
      + rewrite UE, (U2 N). ring.
    - intros; ring. }
  rewrite <- Vv in T. destruct bbb as [B|]; cbn [gbbb_matches gbbb_shape] in *.
  - destruct BM as (M & L & BK).
    assert (GB : gbeta_var B (dxdvar (k_n K) C Kb i) = sm (k_m K) (fun k => k_s K k * mv (k_n K) J u k ^ 2)).
    { rewrite gbeta_var_flat by auto. rewrite <- M. apply sm_ext. intros k Hk. destruct (BK k Hk) as (P & EV & EB). rewrite EV.
      assert (G : dxdvar (k_n K) C Kb i k = k_s K k * mv (k_n K) J u k).
      { unfold dxdvar, mv. rewrite <- (Rmult_1_l (sm (k_n K) (fun j => C i j * Kb j k))), Ropp_mult_distr_l, <- !sm_scal.
        apply sm_ext. intros j Hj. rewrite EB by auto. unfold u. rewrite (SC i j) by auto. ring. }
      rewrite G. cbn [pow]. field. lra. }
    assert (PP : forall p, (p < gb_np B)%nat -> 0 <= gbeta_var_process B (dxdvar (k_n K) C Kb i) p).
    { intros p Hp. apply sm_nonneg. intros b Hb. apply Rmult_le_pos; [apply pow2_ge_0|].
      assert (Hk : (b * gb_np B + p < k_m K)%nat) by (rewrite M; nia). destruct (BK _ Hk) as (P & EV & _). rewrite EV. left. apply Rinv_0_lt_compat. auto. }
    assert (PB : 0 <= gbeta_var B (dxdvar (k_n K) C Kb i)). { rewrite GB. apply sm_nonneg. intros k Hk. apply Rmult_le_pos; [apply CS; auto|apply pow2_ge_0]. }
    rewrite !tsqrt_some by auto. eexists _, _, _. split; [reflexivity|]. split; [apply sqrt_pos|]. split; [apply sqrt_pos|]. rewrite !sqrt_pow by auto. split; [rewrite GB; lra|].
    destruct (gb_full B) eqn:E; auto. exists (map (fun p => sqrt (gbeta_var_process B (dxdvar (k_n K) C Kb i) p)) (seq 0 (gb_np B))).
    split; [rewrite map_map; apply map_ext_in; intros p Hp; apply in_seq in Hp; apply tsqrt_some; apply PP; lia|]. split; [rewrite map_length, seq_length; auto|]. split.
    + intros x Hx. apply in_map_iff in Hx. destruct Hx as (p & <- & _). apply sqrt_pos.
    + rewrite map_map. unfold gbeta_var. rewrite E, <- sum_map_seq. f_equal. apply map_ext_in. intros p Hp. apply in_seq in Hp. apply sqrt_pow. apply PP. lia.
  - rewrite BM in T. cbn [sm] in T. rewrite tsqrt_some by auto. eexists. split; [reflexivity|]. split; [apply sqrt_pos|]. rewrite sqrt_pow by auto. lra.
Qed.
(** linear predictions have a convex data curvature *)
Lemma diag_convex K J nobs v kap Ax Ab Kn : diag_data K J nobs v kap Ax Ab Kn -> convex_data K.
Proof.
  intros (P & D & _) a b. rewrite (jquad_form K nobs _ Ax Ab a b (diag_sym nobs (fun b => kap b * kap b * v b)) D), diag_quad.
  apply sm_nonneg. intros c Hc. apply Rmult_le_pos; [|apply pow2_ge_0]. apply Rmult_le_pos; [apply Rle_0_sqr|auto].
Qed.
