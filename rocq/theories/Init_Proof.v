(** Proofs about the set-up of the fit parameters and the likelihood terms. *)
From Coq Require Import List Arith Bool String Reals Lra Lia Permutation.
From Verif Require Import PyList ListUtil RBase PyDict BBStat_Model Writer_Model Yields_Model Yields_Proof
  Freeze_Model Freeze_Spec Freeze_Proof Ext_Model Nll_Model Init_Model Nll_Spec Nll_Proof.
Import ListNotations.
Local Open Scope R_scope.

Lemma nth_zeros {A} (l : list A) j : nth j (map (fun _ => 0) l) 0 = 0.
Proof. revert j. induction l; destruct j; simpl; auto. Qed.
(** *** blinding values *)
Section Blind.
  Variables (rx : regex) (rnd : string -> R) (isint : bool).
  Lemma group_fold e m : forall (d : dict string) q,
    dget q (fold_left (fun d p => if smem p (dkeys d) then d else dset p e d) m d) =
    match dget q d with Some x => Some x | None => if smem q m then Some e else None end.
  Proof.
    induction m as [|p m IH]; intros d q; simpl.
    - destruct (dget q d); auto.
    - rewrite IH. destruct (smem p (dkeys d)) eqn:M.
      + destruct (dget q d) eqn:D; auto. destruct (String.eqb_spec q p); auto. subst.
        apply dget_None in D. apply smem_In in M. tauto.
      + rewrite dget_dset. rewrite String.eqb_sym. destruct (String.eqb_spec q p) as [->|N]; auto.
        destruct (dget p d) eqn:D; auto. exfalso. apply dget_In in D.
        assert (smem p (dkeys d) = true) by (apply smem_In; apply in_map_iff; exists (p, s); auto). congruence.
  Qed.
  Lemma selects_one e p : valid rx [e] -> (selects rx [e] p <-> (String.eqb e p || match rx e with Some f => f p | None => false end)%bool = true).
  Proof.
    intros _. unfold selects. rewrite orb_true_iff, String.eqb_eq. split.
    - intros (x & [<-|[]] & [H|(f & H1 & H2)]); auto. rewrite H1. auto.
    - intros [H|H]; exists e; split; simpl; auto. right. destruct (rx e) as [f|]; [|discriminate]. eauto.
  Qed.
  Lemma group_seeds_get groups names : forall d d', group_seeds rx groups names d = Ok d' ->
    valid rx groups /\ forall q, dget q d' = match dget q d with
      | Some x => Some x | None => if smem q names then first_group rx groups q else None end.
  Proof.
    induction groups as [|e r IH]; simpl; intros d d' H.
    - injection H as <-. split; [intros x []|]. intros q. destruct (dget q d); auto. destruct (smem q names); auto.
    - destruct (match_params rx [e] names) as [m|] eqn:M; simpl in H; [|discriminate].
      destruct (match_params_spec rx [e] names) as [_ S]. destruct (S m M) as (V & _ & _ & Sel).
      destruct (IH _ _ H) as [V' G]. split.
      { intros x [<-|X]; [apply V; simpl; auto|apply V'; auto]. }
      intros q. rewrite G, group_fold. destruct (dget q d); auto.
      destruct (smem q names) eqn:N.
      + apply smem_In in N. destruct (smem q m) eqn:Q.
        * apply smem_In, Sel in Q. destruct Q as [_ Q]. apply selects_one in Q; auto. rewrite Q. auto.
        * destruct ((_ || _)%bool) eqn:O; auto. exfalso.
          apply (selects_one e q V) in O. assert (In q m) by (apply Sel; auto). apply smem_In in H0. congruence.
      + destruct (smem q m) eqn:Q; auto. apply smem_In, Sel in Q. destruct Q as [Q _]. apply smem_In in Q. congruence.
  Qed.
  Lemma group_seeds_ok groups names : valid rx groups -> forall d, exists d', group_seeds rx groups names d = Ok d'.
  Proof.
    induction groups as [|e r IH]; simpl; intros V d; eauto.
    destruct (match_params_spec rx [e] names) as [S _]. destruct S as [m M].
    { intros x [<-|[]]. apply V. simpl; auto. }
    rewrite M. simpl. apply IH. intros x X. apply V. simpl; auto.
  Qed.
  Lemma theta_fold u (v : string -> R) systs nois : forall th, List.length th = List.length systs ->
    let r := fold_left (fun th i => let p := nth i systs ""%string in if smem p u then th else upd_nth i (v p) th) nois th in
    List.length r = List.length systs /\
    forall j s, nth_error systs j = Some s ->
      nth j r 0 = if (existsb (Nat.eqb j) nois && negb (smem s u))%bool then v s else nth j th 0.
  Proof.
    induction nois as [|i r IH]; intros th L; simpl.
    - split; auto.
    - set (th1 := if smem (nth i systs ""%string) u then th else upd_nth i (v (nth i systs ""%string)) th).
      assert (L1 : List.length th1 = List.length systs) by (unfold th1; destruct (smem _ u); rewrite ?upd_nth_length; auto).
      destruct (IH th1 L1) as [A B]. split; auto. intros j s J. etransitivity; [exact (B j s J)|].
      destruct (existsb (Nat.eqb j) r && negb (smem s u))%bool eqn:E.
      + apply andb_true_iff in E. destruct E as [E1 E2]. rewrite E1, E2, orb_true_r. auto.
      + unfold th1. destruct (Nat.eqb_spec j i) as [->|N]; simpl.
        * rewrite (nth_error_nth systs i ""%string J). destruct (smem s u) eqn:Su; simpl; auto.
          rewrite nth_upd_same; auto. rewrite L. apply nth_error_Some. congruence.
        * rewrite E. destruct (smem _ u); auto. rewrite nth_upd_other; auto.
  Qed.
  Lemma offset_seed groups names d p : group_seeds rx groups names [] = Ok d -> In p names ->
    seeded rnd isint (seed_for d p) = offset_value rx rnd isint groups p.
  Proof.
    intros G H. apply group_seeds_get in G. destruct G as [_ G]. unfold seeded, seed_for, offset_value.
    rewrite G. simpl. apply smem_In in H. rewrite H. auto.
  Qed.
  Theorem blinding_values_spec pois systs nois unblind groups vp vt :
    blinding_values rx rnd isint pois systs nois unblind groups = Ok (vp, vt) ->
    (forall i, In i nois -> (i < List.length systs)%nat) ->
    valid rx unblind /\ valid rx groups /\
    List.length vp = List.length pois /\ List.length vt = List.length systs /\
    (forall i p, nth_error pois i = Some p ->
       (selects rx unblind p /\ nth i vp 0 = 1) \/
       (~ selects rx unblind p /\ nth i vp 0 = exp (offset_value rx rnd isint groups p))) /\
    (forall i s, nth_error systs i = Some s ->
       (In i nois /\ ~ selects rx unblind s /\ nth i vt 0 = offset_value rx rnd isint groups s) \/
       ((~ In i nois \/ selects rx unblind s) /\ nth i vt 0 = 0)) /\
    (forall p, In p (pois ++ map (fun i => nth i systs ""%string) nois) -> selects rx unblind p -> first_group rx groups p = None).
  Proof.
    unfold blinding_values. set (names := blind_names pois systs nois). intros H B.
    destruct (match_params rx unblind names) as [u|] eqn:M; simpl in H; [|discriminate].
    destruct (match_params_spec rx unblind names) as [_ S]. destruct (S u M) as (V & _ & _ & Sel).
    destruct (group_seeds rx groups names []) as [d|] eqn:G; simpl in H; [|discriminate].
    pose proof (group_seeds_get _ _ _ _ G) as [Vg Gg].
    destruct (existsb _ u) eqn:O; [discriminate|]. injection H as <- E2.
    destruct (theta_fold u (fun p => seeded rnd isint (seed_for d p)) systs nois (map (fun _ => 0) systs) (map_length _ _)) as [T1 T2].
    split; auto. split; auto. split; [apply map_length|]. split; [rewrite <- E2; exact T1|]. split; [|split].
    - intros i p J. assert (Ip : In p names) by (apply in_app_iff; left; eapply nth_error_In; eauto).
      rewrite (nth_map' _ _ _ 0 p) by (apply nth_error_Some; congruence). rewrite (nth_error_nth _ _ p J).
      destruct (smem p u) eqn:Su.
      + left. split; auto. apply Sel. apply smem_In. auto.
      + right. split. { intros Q. assert (In p u) by (apply Sel; auto). apply smem_In in H. congruence. }
        f_equal. apply (offset_seed groups names d p G Ip).
    - intros i s J.
      assert (T : nth i vt 0 = if (existsb (Nat.eqb i) nois && negb (smem s u))%bool then seeded rnd isint (seed_for d s)
                               else nth i (map (fun _ => 0) systs) 0) by (rewrite <- E2; exact (T2 i s J)).
      rewrite T.
      assert (N : In i nois <-> existsb (Nat.eqb i) nois = true).
      { rewrite existsb_exists. split; [intros; exists i; rewrite Nat.eqb_refl; auto|].
        intros (k & K1 & K2). apply Nat.eqb_eq in K2. subst. auto. }
      destruct (existsb (Nat.eqb i) nois) eqn:E; simpl.
      + assert (Is : In s names).
        { apply in_app_iff. right. apply in_map_iff. exists i. split; [apply nth_error_nth; auto|apply N; auto]. }
        destruct (smem s u) eqn:Su; simpl.
        * right. split; [right; apply Sel; apply smem_In; auto|]. apply nth_zeros.
        * left. split; [apply N; auto|]. split.
          { intros Q. assert (In s u) by (apply Sel; auto). apply smem_In in H. congruence. }
          apply (offset_seed groups names d s G Is).
      + right. split; [left; rewrite N; discriminate|]. apply nth_zeros.
    - intros p Hp Q. assert (Hu : In p u) by (apply Sel; auto).
      destruct (first_group rx groups p) as [e|] eqn:Fg; auto. exfalso.
      assert (D : dget p d = Some e). { rewrite Gg. simpl. apply smem_In in Hp. unfold names, blind_names. rewrite Hp. auto. }
      apply dget_In in D. assert (X : existsb (fun p => smem p (dkeys d)) u = true); [|congruence].
      apply existsb_exists. exists p. split; auto. apply smem_In. apply in_map_iff. exists (p, e). auto.
  Qed.
  Theorem blinding_ambiguous pois systs nois unblind groups p :
    valid rx unblind -> valid rx groups -> In p (pois ++ map (fun i => nth i systs ""%string) nois) ->
    selects rx unblind p -> first_group rx groups p <> None ->
    blinding_values rx rnd isint pois systs nois unblind groups = Raise RuntimeError.
  Proof.
    intros V Vg Hp Q Fg. unfold blinding_values. set (names := blind_names pois systs nois).
    destruct (match_params_spec rx unblind names) as [S1 S2]. destruct (S1 V) as [u M]. rewrite M. simpl.
    destruct (S2 u M) as (_ & _ & _ & Sel).
    destruct (group_seeds_ok groups names Vg []) as [d G]. rewrite G. simpl.
    pose proof (group_seeds_get _ _ _ _ G) as [_ Gg].
    assert (X : existsb (fun p => smem p (dkeys d)) u = true); [|rewrite X; auto].
    apply existsb_exists. exists p. split; [apply Sel; auto|].
    destruct (first_group rx groups p) as [e|] eqn:E; [|congruence].
    assert (D : dget p d = Some e). { rewrite Gg. simpl. apply smem_In in Hp. unfold names, blind_names. rewrite Hp. auto. }
    apply dget_In in D. apply smem_In. apply in_map_iff. exists (p, e). auto.
  Qed.
  Theorem blinding_accepted pois systs nois unblind groups : valid rx unblind -> valid rx groups ->
    (forall p, In p (pois ++ map (fun i => nth i systs ""%string) nois) -> selects rx unblind p -> first_group rx groups p = None) ->
    exists v, blinding_values rx rnd isint pois systs nois unblind groups = Ok v.
  Proof.
    intros V Vg H. unfold blinding_values. set (names := blind_names pois systs nois).
    destruct (match_params_spec rx unblind names) as [S1 S2]. destruct (S1 V) as [u M]. rewrite M. simpl.
    destruct (S2 u M) as (_ & _ & _ & Sel).
    destruct (group_seeds_ok groups names Vg []) as [d G]. rewrite G. simpl.
    pose proof (group_seeds_get _ _ _ _ G) as [_ Gg].
    destruct (existsb (fun p => smem p (dkeys d)) u) eqn:X; eauto. exfalso.
    apply existsb_exists in X. destruct X as (p & Hu & Hd). apply Sel in Hu. destruct Hu as [Hn Q].
    apply smem_In in Hd. destruct (dget p d) eqn:D; [|apply dget_None in D; tauto].
    rewrite Gg in D. simpl in D. specialize (H p Hn Q). rewrite H in D. destruct (smem p names); discriminate.
  Qed.
End Blind.

(** *** C23 *)
Fixpoint lookup (s : string) (l : list (string * R)) (d : R) : R :=
  match l with [] => d | (p, v) :: r => if String.eqb p s then v else lookup s r d end.
Lemma index_of_NoDup l : NoDup l -> forall i s, nth_error l i = Some s -> index_of s l = Some i.
Proof.
  induction l as [|x l IH]; intros N i s H; [destruct i; discriminate|]. inversion N; subst.
  destruct i as [|i]; simpl in *.
  - injection H as ->. rewrite String.eqb_refl. auto.
  - destruct (String.eqb_spec s x) as [->|_].
    + exfalso. apply H2. eapply nth_error_In; eauto.
    + rewrite (IH H3 i s H). auto.
Qed.
Lemma scatter_spec params : NoDup params -> forall sig d d', scatter_defaults params sig d = Ok d' -> NoDup (map fst sig) ->
  List.length d = List.length params ->
  List.length d' = List.length d /\ forall i p, nth_error params i = Some p -> nth i d' 0 = lookup p sig (nth i d 0).
Proof.
  intros N. induction sig as [|[s v] r IH]; simpl; intros d d' H Nd L.
  - injection H as <-. auto.
  - destruct (index_of s params) as [k|] eqn:K; [|discriminate]. inversion Nd as [|? ? N1 N2]; subst.
    destruct (IH _ _ H N2) as [L1 G]; [rewrite upd_nth_length; auto|]. rewrite upd_nth_length in L1. split; auto.
    intros i p J. rewrite (G i p J). apply index_of_Some in K.
    destruct (String.eqb_spec s p) as [->|Ne].
    + assert (k = i).
      { pose proof (index_of_NoDup _ N i p J) as A. pose proof (index_of_NoDup _ N k p K) as B. congruence. }
      subst k. rewrite nth_upd_same by (rewrite L; apply nth_error_Some; congruence).
      clear - N1. induction r as [|[q w] r IH]; simpl; auto. destruct (String.eqb_spec q p) as [->|_].
      * exfalso. apply N1. simpl; auto. * apply IH. intros X. apply N1. simpl; auto.
    + rewrite nth_upd_other; auto. intros ->. apply Ne. congruence.
Qed.
Lemma scatter_length params : forall sig d d', scatter_defaults params sig d = Ok d' -> List.length d' = List.length d.
Proof.
  induction sig as [|[s v] r IH]; simpl; intros d d' H; [injection H as <-; auto|].
  destruct (index_of s params); [|discriminate]. rewrite (IH _ _ H). apply upd_nth_length.
Qed.
Definition sig_list (sig : option (list (string * R))) : list (string * R) := match sig with Some l => l | None => [] end.
Theorem default_roundtrip pm params sig (xd th : list R) (m : list bool) :
  NoDup params -> NoDup (map fst (sig_list sig)) -> (pm_npoi pm <= List.length params)%nat ->
  set_param_default params (pm_npoi pm) sig (pm_allowneg pm) = Ok xd -> List.length m = List.length (xd ++ th) ->
  (pm_allowneg pm = false -> forall p v, In (p, v) (sig_list sig) -> 0 <= v) ->
  List.length xd = List.length params /\
  (forall i p, (i < pm_npoi pm)%nat -> nth_error params i = Some p ->
     nth i (get_poi pm (mkEff m None) (xd ++ th) (xd ++ th)) 0 = lookup p (sig_list sig) 1) /\
  (forall i p, (pm_npoi pm <= i)%nat -> nth_error params i = Some p -> nth i xd 0 = lookup p (sig_list sig) 1).
Proof.
  intros N Nd Lp H Lm Pos. unfold set_param_default in H.
  assert (D : exists d, (match sig with None => Ok (map (fun _ => 1) params) | Some l => scatter_defaults params l (map (fun _ => 1) params) end) = Ok d
    /\ scatter_defaults params (sig_list sig) (map (fun _ => 1) params) = Ok d).
  { destruct sig as [l|]; simpl in *.
    - destruct (scatter_defaults params l _); [eauto|discriminate]. - eauto. }
  destruct D as (d & D1 & D2). rewrite D1 in H. simpl in H. injection H as <-.
  destruct (scatter_spec params N _ _ _ D2 Nd (map_length _ _)) as [Ld Gd]. rewrite map_length in Ld.
  assert (ones : forall i p, nth_error params i = Some p -> nth i (map (fun _ => 1) params) 0 = 1).
  { intros i p J. rewrite (nth_map' _ _ _ 0 p) by (apply nth_error_Some; congruence). auto. }
  assert (LP : List.length (if pm_allowneg pm then firstn (pm_npoi pm) d else map sqrt (firstn (pm_npoi pm) d)) = pm_npoi pm).
  { destruct (pm_allowneg pm); rewrite ?map_length, firstn_length; lia. }
  split; [rewrite app_length, LP, skipn_length; lia|]. split.
  - intros i p I J. rewrite get_poi_value by lia.
    rewrite (nth_map' _ _ _ 0 0) by (rewrite slice_length, !app_length, LP; lia).
    rewrite nth_slice by lia. cbn [Nat.add]. rewrite <- app_assoc, app_nth1 by lia.
    unfold enc. destruct (pm_allowneg pm).
    + rewrite nth_firstn' by lia. rewrite (Gd i p J), (ones i p J). auto.
    + rewrite (nth_map' _ _ _ 0 0) by (rewrite firstn_length; lia). rewrite nth_firstn' by lia.
      rewrite (Gd i p J), (ones i p J). apply sqrt_sqrt.
      specialize (Pos eq_refl). clear - Pos. induction (sig_list sig) as [|[q w] r IH]; simpl; [lra|].
      destruct (String.eqb q p); [apply (Pos q w); simpl; auto|]. apply IH. intros a b X. apply (Pos a b). simpl; auto.
  - intros i p I J. rewrite app_nth2 by lia. rewrite LP, nth_skipn'. replace (pm_npoi pm + (i - pm_npoi pm))%nat with i by lia.
    rewrite (Gd i p J), (ones i p J). auto.
Qed.
Lemma scatter_unknown params s v : forall sig d, In (s, v) sig -> ~ In s params -> scatter_defaults params sig d = Raise ValueError.
Proof.
  induction sig as [|[q w] r IH]; intros d H NI; [destruct H|]. destruct H as [E|E]; simpl.
  - injection E as -> ->. destruct (index_of s params) eqn:K; auto. apply index_of_Some, nth_error_In in K. tauto.
  - destruct (index_of q params); auto.
Qed.

(** *** C24 *)
Lemma sum_zipw {A B} (f : A -> B -> R) da db a b : List.length a = List.length b ->
  sumR (zipw f a b) = sum_n (List.length a) (fun i => f (nth i a da) (nth i b db)).
Proof.
  revert b. induction a as [|x a IH]; intros [|y b] L; try discriminate; auto.
  unfold zipw in *. simpl. rewrite IH by (simpl in L; lia). unfold sum_n. simpl. f_equal.
  rewrite <- seq_shift, map_map. auto.
Qed.
Lemma lc_sum cw x x0 : List.length x = List.length cw -> List.length x0 = List.length cw ->
  lc_term cw x x0 = sum_n (List.length cw) (fun i => nth i cw 0 * (1 / 2) * sq (nth i x 0 - nth i x0 0)).
Proof.
  intros L1 L2. unfold lc_term. rewrite (sum_zipw _ 0 0) by (rewrite zipw_length; lia).
  apply sum_n_ext. intros i I. rewrite (nth_zipw _ _ _ _ 0 0) by lia. auto.
Qed.
Lemma where_true_eq m i : where_true m = [i] -> forall j, nth_error m j = Some true <-> j = i.
Proof.
  intros H j. rewrite <- where_true_spec, H. simpl. split; [intros [<-|[]]; auto|auto].
Qed.
Lemma minima_spec systs : forall l th th', constraint_minima systs l th = Ok th' -> List.length th = List.length systs ->
  List.length th' = List.length systs /\
  forall j s, nth_error systs j = Some s -> nth j th' 0 = declared_min l s (nth j th 0).
Proof.
  induction l as [|[p v] r IH]; simpl; intros th th' H L; [injection H as <-; auto|].
  destruct (where_name systs p) as [|i [|? ?]] eqn:W; try discriminate.
  destruct (IH _ _ H) as [L' G]; [rewrite upd_nth_length; auto|]. split; auto.
  intros j s J. rewrite (G j s J). f_equal.
  assert (K : String.eqb p s = true <-> j = i).
  { unfold where_name in W. rewrite <- (where_true_eq _ _ W j). rewrite nth_error_map, J. simpl.
    rewrite String.eqb_sym. split; [intros ->; auto|intros X; injection X; auto]. }
  destruct (String.eqb p s).
  - destruct K as [K _]. rewrite (K eq_refl) in *. apply nth_upd_same. rewrite L. apply nth_error_Some. congruence.
  - apply nth_upd_other. intros <-. destruct K as [_ K]. specialize (K eq_refl). discriminate.
Qed.
Lemma param_constraints_spec pm xdef pr cw x0 : param_constraints pm xdef pr = Ok (cw, x0) ->
  let np := (pm_npoi pm + pm_npou pm)%nat in List.length xdef = np ->
  List.length cw = np /\ List.length x0 = np /\
  forall i x, (i < np)%nat -> nth i cw 0 * (1 / 2) * sq (x - nth i x0 0) =
    match pr_sigmas pr with
    | None => 0
    | Some sg => prior_pen (nth i sg None) (nth i (match pr_means pr with Some m => m | None => xdef end) 0) x
    end.
Proof.
  intros H np L. unfold param_constraints in H. fold np in H. destruct (pr_sigmas pr) as [sg|].
  - destruct (Nat.eqb_spec (List.length sg) np) as [Ls|]; [|discriminate]. cbn [negb] in H.
    set (mm := match pr_means pr with Some m => m | None => xdef end).
    assert (M : (match pr_means pr with None => Ok xdef | Some m => if Nat.eqb (List.length m) np then Ok m else Raise ValueError end) = Ok mm
                /\ List.length mm = np \/
                (match pr_means pr with None => Ok xdef | Some m => if Nat.eqb (List.length m) np then Ok m else Raise ValueError end) = Raise ValueError).
    { unfold mm. destruct (pr_means pr) as [m|]; auto. destruct (Nat.eqb_spec (List.length m) np); auto. }
    destruct M as [[M Lm]|M]; rewrite M in H; cbn [rbind] in H; [|discriminate].
    destruct (_ && _)%bool; [discriminate|]. injection H as <- <-.
    split; [rewrite map_length; auto|]. split; [rewrite zipw_length, map_length, combine_length; lia|].
    intros i x I. rewrite (nth_map' _ _ _ 0 None) by lia.
    rewrite (nth_zipw _ _ _ _ false (0, 0)) by (rewrite ?map_length, ?combine_length; lia).
    rewrite (nth_map' _ _ _ false None) by lia. rewrite combine_nth by lia. cbn [fst snd].
    unfold prior_pen, prior_on. destruct (nth i sg None) as [v|]; [|lra].
    destruct (Rltb_spec 0 v); [|lra]. unfold sq. field. lra.
  - injection H as <- <-. split; [rewrite map_length, seq_length; auto|]. split; auto.
    intros i x I. rewrite nth_zeros. lra.
Qed.
Theorem constraint_penalty pm xdef pr systs minima cws cw x0 :
  init_constraints pm xdef pr systs minima cws = Ok (cw, x0) ->
  let np := (pm_npoi pm + pm_npou pm)%nat in
  List.length xdef = np -> List.length cws = List.length systs ->
  forall xp theta, List.length xp = np -> List.length theta = List.length systs ->
  lc_term cw (xp ++ theta) x0 =
    match pr_sigmas pr with
    | None => 0
    | Some sg => sum_n np (fun i => prior_pen (nth i sg None) (nth i (match pr_means pr with Some m => m | None => xdef end) 0) (nth i xp 0))
    end
    + sum_n (List.length systs) (fun j => nth j cws 0 * (1 / 2 * sq (nth j theta 0 - declared_min minima (nth j systs ""%string) 0))).
Proof.
  intros H np Lx Lc xp theta Lxp Lt. unfold init_constraints in H.
  destruct (constraint_minima systs minima _) as [th0|] eqn:M; simpl in H; [|discriminate].
  destruct (param_constraints pm xdef pr) as [[pcw px0]|] eqn:PC; simpl in H; [|discriminate]. injection H as <- <-.
  destruct (param_constraints_spec _ _ _ _ _ PC Lx) as (L1 & L2 & G). fold np in L1, L2, G.
  destruct (minima_spec systs _ _ _ M (map_length _ _)) as [L3 G3].
  rewrite lc_sum by (rewrite !app_length; lia). rewrite app_length, sum_n_app. f_equal.
  - rewrite L1. transitivity (sum_n np (fun i => match pr_sigmas pr with
      | None => 0 | Some sg => prior_pen (nth i sg None) (nth i (match pr_means pr with Some m => m | None => xdef end) 0) (nth i xp 0) end)).
    + apply sum_n_ext. intros i I. rewrite !app_nth1 by lia. rewrite <- (G i (nth i xp 0) I). auto.
    + destruct (pr_sigmas pr); auto. apply sum_n_0. auto.
  - rewrite Lc. apply sum_n_ext. intros j J. rewrite !app_nth2 by lia. rewrite L1, L2, Lxp.
    replace (np + j - np)%nat with j by lia.
    destruct (nth_error systs j) as [s|] eqn:E; [|apply nth_error_None in E; lia].
    rewrite (G3 j s E), nth_zeros. rewrite (nth_error_nth systs j ""%string E). lra.
Qed.
Theorem lc_full_constant cw : exists K, forall x x0, List.length x = List.length cw -> List.length x0 = List.length cw ->
  lc_full cw x x0 - lc_term cw x x0 = K.
Proof.
  exists (sum_n (List.length cw) (fun i => if Rltb 0 (nth i cw 0) then 9189385332046727 / 10000000000000000 - 1 / 2 * ln (nth i cw 0) else 0)).
  intros x x0 L1 L2. rewrite lc_sum by auto. unfold lc_full. rewrite (sum_zipw _ 0 0) by (rewrite zipw_length; lia).
  rewrite (sum_n_ext _ _ (fun i => nth i cw 0 * (1 / 2) * sq (nth i x 0 - nth i x0 0) +
    (if Rltb 0 (nth i cw 0) then 9189385332046727 / 10000000000000000 - 1 / 2 * ln (nth i cw 0) else 0))).
  - rewrite sum_n_plus. lra.
  - intros i I. rewrite (nth_zipw _ _ _ _ 0 0) by lia. auto.
Qed.

(** *** C25 *)
Lemma poisson_bin_nonneg n v mu : 0 <= n -> 0 < mu -> 0 <= ln_bin Poisson n v mu /\ (ln_bin Poisson n v mu = 0 <-> mu = n).
Proof.
  intros Hn Hm. unfold ln_bin, lognobs_of. destruct (Reqb_spec n 0) as [->|N].
  - rewrite ln_1. split; [lra|]. split; lra.
  - assert (0 < n) by lra.
    assert (E : - n * (ln mu - ln n) + mu - n = n * (mu / n - 1 - ln (mu / n))).
    { rewrite ln_div' by auto. field. lra. }
    rewrite E. assert (P : 0 < mu / n) by (apply Rdiv_lt_0_compat; auto).
    pose proof (ln_le_sub1 _ P). split; [nra|]. split.
    + intros Z. destruct (Req_dec (mu / n) 1) as [Q|Q].
      * apply (Rmult_eq_reg_r (/ n)); [|apply Rinv_neq_0_compat; lra]. fold (mu / n). rewrite Q. field. lra.
      * pose proof (ln_lt_sub1 _ P Q). nra.
    + intros ->. replace (n / n) with 1 by (field; lra). rewrite ln_1. lra.
Qed.
