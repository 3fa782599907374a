(** Smoothed regions, Chebyshev basis and the wrappers with fixed regions. *)
From Coq Require Import Reals List Arith ZArith Bool String Lia Lra.
From Verif Require Import RBase PyList PyDict ListUtil Shape Writer_Model Yields_Model Init_Model Param_Model Param_Spec Param_Comp Param_Mix Param_Axis Param_Region Param_Abcd.
Import ListNotations.
Local Open Scope nat_scope.

(** ** regions of one channel that differ in a selected index *)
Lemma dget_det d ch c c' : dget ch (pd_channels d) = Some c -> dget ch (pd_channels d) = Some c' -> c = c'.
Proof. congruence. Qed.
Lemma selected_differ d r r' b l l' : region_ok d r -> in_region d r b l -> in_region d r' b l' -> rg_chan r = rg_chan r' ->
  forall n z z', In (n, z) (rg_sel r) -> In (n, z') (rg_sel r') -> (0 <= z)%Z -> (0 <= z')%Z -> z = z'.
Proof.
  intros (_ & NA) (c & i & Ec & I & S & _ & B) (c' & i' & Ec' & I' & S' & _ & B') E n z z' H H' P P'. rewrite <- E in Ec'. specialize (NA c Ec). rewrite Ec in Ec'. injection Ec' as <-.
  assert (ravel (shape_of c) i = ravel (shape_of c) i') by lia. apply ravel_inj in H0; auto. subst i'.
  destruct (S n z H) as (j & a & A & Na & V). destruct (S' n z' H') as (j' & a' & A' & Na' & V').
  assert (j = j') by (apply (NoDup_nth (map ax_name (cn_axes c)) _ _ n NA); rewrite nth_error_map'; [rewrite A|rewrite A']; cbn [option_map]; congruence). subst j'.
  destruct (Z.ltb_spec z 0); [lia|]. destruct (Z.ltb_spec z' 0); lia.
Qed.
Lemma isomt_ok d ch c iso mt : dget ch (pd_channels d) = Some c -> named_axes c -> region_ok d (isomt_region ch iso mt).
Proof.
  intros E N. split.
  - cbn. constructor; [intros [H|[]]; discriminate|]. constructor; [auto|constructor].
  - cbn [isomt_region rg_chan]. intros c' E'. rewrite E in E'. injection E' as <-. auto.
Qed.
Lemma isomt_differ d ch c i m i' m' b l l' : dget ch (pd_channels d) = Some c -> named_axes c -> (0 <= i)%Z -> (0 <= m)%Z -> (0 <= i')%Z -> (0 <= m')%Z ->
  in_region d (isomt_region ch i m) b l -> in_region d (isomt_region ch i' m') b l' -> i = i' /\ m = m'.
Proof.
  intros E N P1 P2 P3 P4 H H'. pose proof (isomt_ok d ch c i m E N) as O. split.
  - apply (selected_differ d _ _ b l l' O H H' eq_refl "relIso"%string); cbn [isomt_region rg_sel]; simpl; auto.
  - apply (selected_differ d _ _ b l l' O H H' eq_refl "mt"%string); cbn [isomt_region rg_sel]; simpl; auto.
Qed.
Lemma isomt_disjoint d ch c (ps : list (Z * Z)) : dget ch (pd_channels d) = Some c -> named_axes c -> Forall (fun p => 0 <= fst p /\ 0 <= snd p)%Z ps -> NoDup ps ->
  disjoint (map (in_region d) (map (fun p => isomt_region ch (fst p) (snd p)) ps)).
Proof.
  intros E N F ND i j r r' b l l' A B H H'. rewrite map_map in A, B. rewrite nth_error_map' in A, B.
  destruct (nth_error ps i) as [p|] eqn:Pi; [|discriminate]. destruct (nth_error ps j) as [p'|] eqn:Pj; [|discriminate]. cbn [option_map] in A, B. injection A as <-. injection B as <-.
  rewrite Forall_forall in F. destruct (F p (nth_error_In _ _ Pi)) as (? & ?). destruct (F p' (nth_error_In _ _ Pj)) as (? & ?).
  destruct (isomt_differ d ch c (fst p) (snd p) (fst p') (snd p') b l l' E N) as (X & Y); auto. destruct p, p'. cbn [fst snd] in *. subst. eapply NoDup_nth; eauto.
Qed.
Lemma isomt_free d ch i m i' m' : free_shape d (isomt_region ch i m) = free_shape d (isomt_region ch i' m').
Proof. reflexivity. Qed.
Lemma isomt_size_ok d ch n : isomt_size d ch = Ok n -> exists c a, dget ch (pd_channels d) = Some c /\ In a (cn_axes c) /\ ax_name a = "mt"%string /\ n = Z.of_nat (ax_size a).
Proof.
  unfold isomt_size. destruct (dget ch (pd_channels d)) as [c|] eqn:E; [|discriminate]. destruct (find_axis "mt" (cn_axes c)) as [a|] eqn:F; [|discriminate]. destruct (find_axis "relIso" (cn_axes c)); [|discriminate].
  intros H. injection H as <-. apply find_axis_name in F as (? & ?). exists c, a. auto.
Qed.
Lemma isomt_all d ch c (ps : list (Z * Z)) p0 : dget ch (pd_channels d) = Some c -> named_axes c ->
  Forall (fun r => region_ok d r /\ free_shape d r = free_shape d (isomt_region ch (fst p0) (snd p0))) (map (fun p => isomt_region ch (fst p) (snd p)) ps).
Proof. intros E N. apply Forall_forall. intros r I. apply in_map_iff in I as (p & <- & _). split; [eapply isomt_ok; eauto|apply isomt_free]. Qed.
Definition named_channel (d : pdata) (ch : string) : Prop := forall c, dget ch (pd_channels d) = Some c -> named_axes c.
(** the last two bins of mt against the first two of relIso *)
Theorem isomt_spec d process ch corr m x full n : isomt_abcd d process ch corr = Ok m -> isomt_size d ch = Ok n -> layout d -> NoDup (pd_procs d) -> named_channel d ch -> List.length x = nparams m ->
  let reg := fun iso mt => in_region d (isomt_region ch iso mt) in
  let fs := free_shape d (isomt_region ch 0 0) in
  let v := fun k l => (nth (k * prodn fs + ravel fs l) x 0)²%R in
  nparams m = 3 * prodn fs /\
  exists r fD, m_compute m x full = Ok r /\
    scaled_in d process full [(reg 1 (n - 2), v 0%nat); (reg 0 (n - 2), v 1%nat); (reg 1 (n - 1), v 2%nat); (reg 0 (n - 1), fD)]%Z r /\
    forall j l bA bB bC bD, nth_error (pd_procs d) j = Some process -> reg 1%Z (n - 2)%Z bA l -> reg 0%Z (n - 2)%Z bB l -> reg 1%Z (n - 1)%Z bC l -> reg 0%Z (n - 1)%Z bD l ->
      abcd_relation corr (v 0 l) (v 1 l) (v 2 l) (fD l) (pd_norm d bA j) (pd_norm d bB j) (pd_norm d bC j) (pd_norm d bD j).
Proof.
  intros H Hn LO ND NC Lx reg fs v. unfold isomt_abcd in H. rewrite Hn in H. cbn [rbind] in H. destruct (Z.ltb_spec (n - 2) 0); [discriminate|].
  destruct (isomt_size_ok d ch n Hn) as (c & a & Ec & _).
  pose (ps := [(1, n - 2); (0, n - 2); (1, n - 1); (0, n - 1)]%Z).
  apply (abcd_spec d process _ _ _ _ corr m fs x full H LO ND); auto.
  - exact (isomt_all d ch c ps (0, 0)%Z Ec (NC c Ec)).
  - apply (isomt_disjoint d ch c ps Ec (NC c Ec)).
    + unfold ps. repeat constructor; cbn [fst snd]; lia.
    + unfold ps. repeat constructor; cbn; intros HH; repeat (destruct HH as [HH|HH]; [injection HH; lia|]); auto.
Qed.
Theorem isomt_ext_spec d process ch corr m x full n : isomt_ext d process ch corr = Ok m -> isomt_size d ch = Ok n -> layout d -> NoDup (pd_procs d) -> named_channel d ch -> List.length x = nparams m ->
  let reg := fun iso mt => in_region d (isomt_region ch iso mt) in
  let fs := free_shape d (isomt_region ch 0 0) in
  let v := fun k l => (nth (k * prodn fs + ravel fs l) x 0)²%R in
  nparams m = 5 * prodn fs /\
  exists r fD, m_compute m x full = Ok r /\
    scaled_in d process full [(reg 1 (n - 2), v 0%nat); (reg 0 (n - 2), v 1%nat); (reg 1 (n - 1), v 2%nat); (reg 0 (n - 1), fD); (reg 1 (n - 3), v 3%nat); (reg 0 (n - 3), v 4%nat)]%Z r /\
    forall j l bA bB bC bD bAx bBx, nth_error (pd_procs d) j = Some process ->
      reg 1%Z (n - 2)%Z bA l -> reg 0%Z (n - 2)%Z bB l -> reg 1%Z (n - 1)%Z bC l -> reg 0%Z (n - 1)%Z bD l -> reg 1%Z (n - 3)%Z bAx l -> reg 0%Z (n - 3)%Z bBx l ->
      ext_relation corr (v 0 l) (v 1 l) (v 2 l) (fD l) (v 3 l) (v 4 l) (pd_norm d bA j) (pd_norm d bB j) (pd_norm d bC j) (pd_norm d bD j) (pd_norm d bAx j) (pd_norm d bBx j).
Proof.
  intros H Hn LO ND NC Lx reg fs v. unfold isomt_ext in H. rewrite Hn in H. cbn [rbind] in H. destruct (Z.ltb_spec (n - 3) 0); [discriminate|].
  destruct (isomt_size_ok d ch n Hn) as (c & a & Ec & _).
  pose (ps := [(1, n - 2); (0, n - 2); (1, n - 1); (0, n - 1); (1, n - 3); (0, n - 3)]%Z).
  apply (ext_abcd_spec d process _ _ _ _ _ _ corr m fs x full H LO ND); auto.
  - exact (isomt_all d ch c ps (0, 0)%Z Ec (NC c Ec)).
  - apply (isomt_disjoint d ch c ps Ec (NC c Ec)).
    + unfold ps. repeat constructor; cbn [fst snd]; lia.
    + unfold ps. repeat constructor; cbn; intros HH; repeat (destruct HH as [HH|HH]; [injection HH; lia|]); auto.
Qed.

(** ** smoothed regions *)
Lemma filter_combine (f : string -> bool) : forall axes idx, List.length idx = List.length axes ->
  combine (filter (fun a => f (ax_name a)) axes) (map snd (filter (fun ai : axis * nat => f (ax_name (fst ai))) (combine axes idx))) = filter (fun ai : axis * nat => f (ax_name (fst ai))) (combine axes idx).
Proof. induction axes as [|a axes IH]; intros [|i idx] L; cbn [List.length] in L; try lia; auto. cbn [combine filter fst]. destruct (f (ax_name a)); cbn [map snd combine]; rewrite IH; auto. Qed.
Lemma filter_filter {A} (f g : A -> bool) l : filter f (filter g l) = filter (fun a => g a && f a) l.
Proof. induction l; auto. cbn [filter]. destruct (g a); cbn [filter andb]; rewrite ?IHl; auto. Qed.
Lemma in_shape_filter (f : string -> bool) : forall axes idx, in_shape (sizes axes) idx ->
  in_shape (sizes (filter (fun a => f (ax_name a)) axes)) (map snd (filter (fun ai : axis * nat => f (ax_name (fst ai))) (combine axes idx))).
Proof.
  unfold sizes. induction axes as [|a axes IH]; intros idx H; cbn [map] in H; inversion H; subst; [constructor|]. cbn [combine filter fst]. destruct (f (ax_name a)); cbn [map snd]; [constructor; auto|]; apply IH; auto.
Qed.
(** one axis is left when all other free axes are fixed *)
Lemma filter_one (axes : list axis) (f : string -> bool) i sm : NoDup (map ax_name axes) -> nth_error axes i = Some sm -> (forall a, In a axes -> f (ax_name a) = String.eqb (ax_name a) (ax_name sm)) ->
  filter (fun a => f (ax_name a)) axes = [sm] /\ forall idx : list nat, List.length idx = List.length axes ->
  map snd (filter (fun ai : axis * nat => f (ax_name (fst ai))) (combine axes idx)) = [nth i idx 0].
Proof.
  revert i. induction axes as [|a axes IH]; intros i ND E H; [destruct i; discriminate|]. cbn [map] in ND. inversion ND as [|? ? N ND']; subst. cbn [filter]. pose proof (H a (or_introl eq_refl)) as Ha.
  destruct i as [|i]; cbn [nth_error] in E.
  - injection E as ->. rewrite Ha, String.eqb_refl.
    assert (Z : forall b, In b axes -> f (ax_name b) = false).
    { intros b Ib. rewrite H by (right; auto). apply String.eqb_neq. intros Q. apply N. rewrite <- Q. apply in_map; auto. }
    split; [rewrite filter_false by auto; auto|]. intros [|x idx] L; cbn [List.length] in L; [lia|]. cbn [combine filter fst nth]. rewrite Ha, String.eqb_refl. cbn [map snd]. f_equal.
    rewrite filter_false; auto. intros [b y] Ib. apply in_combine_l in Ib. cbn [fst]. auto.
  - assert (Ea : f (ax_name a) = false).
    { rewrite Ha. apply String.eqb_neq. intros Q. apply N. rewrite Q. apply in_map. eapply nth_error_In; eauto. }
    rewrite Ea. destruct (IH i ND' E) as (P & Q); [intros b Ib; apply H; right; auto|]. split; auto. intros [|x idx] L; cbn [List.length] in L; [lia|]. cbn [combine filter fst nth]. rewrite Ea. apply Q. lia.
Qed.
Definition spos (d : pdata) (ax : string) (r : region) (ns : nat) (l : list nat * nat) : nat := ravel (outer_shape d ax r) (fst l) * ns + snd l.
Theorem smooth_region_spec d ax r outer ns bins : smooth_region d ax r = Ok (outer, ns, bins) -> region_ok d r ->
  List.length bins = prodn (outer_shape d ax r) /\ sizes outer = outer_shape d ax r /\ enumerates d (spos d ax r ns) (in_smooth d ax r) (List.concat bins) /\
  (forall b l, in_smooth d ax r b l -> in_shape (outer_shape d ax r) (fst l) /\ snd l < ns) /\
  exists c i a, dget (rg_chan r) (pd_channels d) = Some c /\ nth_error (cn_axes c) i = Some a /\ ax_name a = ax /\ ax_size a = ns.
Proof.
  intros H (NS & NA). unfold smooth_region in H. unfold outer_shape in *. destruct (dget (rg_chan r) (pd_channels d)) as [c|] eqn:Ec; [|discriminate]. specialize (NA c eq_refl).
  set (keys := map fst (rg_sel r)) in *.
  destruct (find_axis ax (filter (fun a => negb (smem (ax_name a) keys)) (cn_axes c))) as [sm|] eqn:Fa; [|discriminate].
  set (out := filter (fun a => negb (String.eqb (ax_name a) ax)) (filter (fun a => negb (smem (ax_name a) keys)) (cn_axes c))) in *.
  destruct (rmap _ (all_idx (sizes out))) as [bs|] eqn:Rb; [|discriminate]. cbn [rbind] in H. injection H as <- <- <-. apply rmap_ok in Rb.
  apply find_axis_name in Fa as (Nm & Is). apply filter_In in Is as (Is & Ks). apply negb_true_iff in Ks. destruct (In_nth_error _ _ Is) as (i & Ei).
  set (fo := fun n => negb (smem n keys) && negb (String.eqb n ax)).
  assert (Eo : out = filter (fun a => fo (ax_name a)) (cn_axes c)) by (unfold out; rewrite filter_filter; auto).
  set (rx := fun combo : list nat => mkRegion (rg_chan r) (rg_sel r ++ map (fun ai : axis * nat => (ax_name (fst ai), Z.of_nat (snd ai))) (combine out combo))).
  assert (KX : forall combo, List.length combo = List.length out -> map fst (rg_sel (rx combo)) = keys ++ map ax_name out).
  { intros combo L. unfold rx. cbn [rg_sel]. rewrite map_app, map_map. cbn [fst]. fold keys. f_equal. rewrite <- (map_map fst ax_name). rewrite map_fst_combine by auto. auto. }
  assert (FX : forall combo, List.length combo = List.length out -> forall a, In a (cn_axes c) -> negb (smem (ax_name a) (map fst (rg_sel (rx combo)))) = String.eqb (ax_name a) (ax_name sm)).
  { intros combo L a Ia. rewrite KX by auto. rewrite Nm. apply eq_true_iff_eq. rewrite negb_true_iff, <- not_true_iff_false, smem_In, String.eqb_eq, in_app_iff. split.
    - intros N. destruct (String.eqb_spec (ax_name a) ax); auto. exfalso. apply N. destruct (smem (ax_name a) keys) eqn:M; [left; apply smem_In; auto|]. right. apply in_map. rewrite Eo. apply filter_In. split; auto. unfold fo. rewrite M. cbn. apply negb_true_iff, String.eqb_neq. auto.
    - intros -> [K|K].
      + apply smem_In in K. rewrite <- Nm in K. congruence.
      + apply in_map_iff in K as (b & Eb & Ib). rewrite Eo in Ib. apply filter_In in Ib as (_ & Fb). unfold fo in Fb. rewrite Eb, String.eqb_refl in Fb. rewrite andb_comm in Fb. discriminate. }
  assert (RX : forall combo, List.length combo = List.length out -> region_ok d (rx combo)).
  { intros combo L. split.
    - rewrite KX by auto. apply NoDup_app'; auto.
      + rewrite Eo. rewrite filter_names. apply NoDup_filter'. auto.
      + intros n K Ko. rewrite Eo, filter_names in Ko. apply filter_In in Ko as (_ & F). unfold fo in F. apply smem_In in K. rewrite K in F. discriminate.
    - cbn [rx rg_chan]. intros c' E'. rewrite Ec in E'. injection E' as <-. auto. }
  assert (SX : forall combo, List.length combo = List.length out -> free_shape d (rx combo) = [ax_size sm]).
  { intros combo L. unfold free_shape. cbn [rx rg_chan]. rewrite Ec. unfold free_axes. destruct (filter_one (cn_axes c) (fun n => negb (smem n (map fst (rg_sel (rx combo))))) i sm NA Ei (FX combo L)) as (P & _).
    fold (rx combo). rewrite P. auto. }
  assert (OX : forall combo idx, List.length combo = List.length out -> List.length idx = List.length (cn_axes c) -> on_free c (rx combo) idx = [nth i idx 0]).
  { intros combo idx L L'. unfold on_free. apply (filter_one (cn_axes c) (fun n => negb (smem n (map fst (rg_sel (rx combo))))) i sm NA Ei (FX combo L)). auto. }
  assert (LX : forall idx, in_shape (shape_of c) idx -> List.length idx = List.length (cn_axes c)).
  { intros idx I. rewrite (in_shape_len _ _ I). unfold shape_of. apply map_length. }
  assert (IO : forall idx, in_shape (shape_of c) idx -> in_shape (sizes out) (on_outer c r ax idx)).
  { intros idx I. rewrite Eo. apply (in_shape_filter fo). auto. }
  assert (AT : forall idx a v, in_shape (shape_of c) idx -> In (a, v) (combine out (on_outer c r ax idx)) -> exists j, nth_error (cn_axes c) j = Some a /\ nth j idx 0 = v).
  { intros idx a v I J. rewrite Eo in J. unfold on_outer in J. fold keys in J. rewrite (filter_combine fo) in J by (apply LX; auto). apply filter_In in J as (J & _). apply In_nth_error in J as (j & J). exists j.
    assert (j < List.length (combine (cn_axes c) idx)) by (apply nth_error_Some; congruence). rewrite combine_length in H.
    destruct (nth_error (cn_axes c) j) as [a'|] eqn:A; [|apply nth_error_None in A; lia]. destruct (nth_error idx j) as [v'|] eqn:V; [|apply nth_error_None in V; lia].
    rewrite (nth_error_combine _ _ _ _ _ A V) in J. injection J as <- <-. split; auto. apply nth_error_nth. auto. }
  assert (UX : forall combo idx, in_shape (shape_of c) idx -> List.length combo = List.length out -> (selected c (rx combo) idx <-> selected c r idx /\ combo = on_outer c r ax idx)).
  { intros combo idx I L. pose proof (in_shape_len _ _ (IO idx I)) as Lo. unfold sizes in Lo. rewrite map_length in Lo. split.
    - intros S. split; [intros n z J; apply S; apply in_or_app; auto|]. apply nth_error_ext. intros k.
      destruct (nth_error combo k) as [v|] eqn:V; [|apply nth_error_None in V; symmetry; apply nth_error_None; lia].
      assert (Lk : k < List.length combo) by (apply nth_error_Some; congruence).
      destruct (nth_error out k) as [a|] eqn:A; [|apply nth_error_None in A; lia]. destruct (nth_error (on_outer c r ax idx) k) as [w|] eqn:W; [|apply nth_error_None in W; lia].
      destruct (AT idx a w I) as (j & Aj & Vj); [apply nth_error_In with (n := k); apply nth_error_combine; auto|].
      destruct (S (ax_name a) (Z.of_nat v)) as (j' & a' & Aj' & Na' & Vj'); [apply in_or_app; right; apply in_map_iff; exists (a, v); split; auto; apply nth_error_In with (n := k); apply nth_error_combine; auto|].
      assert (j = j') by (apply (NoDup_nth (map ax_name (cn_axes c)) _ _ (ax_name a) NA); rewrite nth_error_map'; [rewrite Aj|rewrite Aj']; cbn [option_map]; congruence). subst j'.
      destruct (Z.ltb_spec (Z.of_nat v) 0); [lia|]. f_equal. lia.
    - intros (S & ->) n z J. apply in_app_or in J as [J|J]; [apply S; auto|]. apply in_map_iff in J as ([a v] & E & J). cbn [fst snd] in E. injection E as <- <-.
      destruct (AT idx a v I J) as (j & Aj & Vj). exists j, a. split; auto. split; auto. destruct (Z.ltb_spec (Z.of_nat v) 0); [lia|]. rewrite Vj. auto. }
  assert (BX : forall combo bl, In (combo, bl) (combine (all_idx (sizes out)) bs) -> in_shape (sizes out) combo /\ global_indices d (rx combo) = Ok bl).
  { intros combo bl J. split; [apply in_combine_l in J; apply all_idx_In; auto|]. clear -Rb J. induction Rb as [|? ? ? ? E Rb IH]; [destruct J|]. destruct J as [J|J]; [injection J as -> ->; exact E|auto]. }
  pose proof (Forall2_len _ _ _ Rb) as Lb. rewrite all_idx_len in Lb.
  assert (LL : forall bl, In bl bs -> List.length bl = ax_size sm).
  { intros bl J. apply In_nth_error in J as (k & K). assert (k < List.length bs) by (apply nth_error_Some; congruence). destruct (all_idx_at (sizes out) k) as (combo & Ck & Sh & _); [lia|].
    destruct (BX combo bl) as (_ & G); [apply nth_error_In with (n := k); apply nth_error_combine; auto|]. apply in_shape_len in Sh. unfold sizes in Sh. rewrite map_length in Sh.
    destruct (global_indices_spec d _ _ G (RX combo Sh)) as (Q & _). rewrite Q, (SX combo Sh). unfold prodn. cbn. lia. }
  assert (EQ : forall b l, in_smooth d ax r b l <-> exists idx, in_shape (shape_of c) idx /\ selected c r idx /\ l = (on_outer c r ax idx, nth i idx 0) /\ b = cn_start c + ravel (shape_of c) idx).
  { intros b l. split.
    - intros (c' & idx & i' & a & Ec' & I & S & A & Na & -> & ->). rewrite Ec in Ec'. injection Ec' as <-.
      assert (i' = i) by (apply (NoDup_nth (map ax_name (cn_axes c)) _ _ ax NA); rewrite nth_error_map'; [rewrite A|rewrite Ei]; cbn [option_map]; congruence). subst i'. exists idx. auto.
    - intros (idx & I & S & -> & ->). exists c, idx, i, sm. auto 12. }
  assert (PX : forall combo bl b, In (combo, bl) (combine (all_idx (sizes out)) bs) -> In b bl -> exists idx, in_shape (shape_of c) idx /\ selected c r idx /\ combo = on_outer c r ax idx /\ b = cn_start c + ravel (shape_of c) idx).
  { intros combo bl b J K. destruct (BX combo bl J) as (Sh & G). apply in_shape_len in Sh. unfold sizes in Sh. rewrite map_length in Sh.
    destruct (global_indices_spec d _ _ G (RX combo Sh)) as (_ & _ & Q & _). destruct (Q b K) as (cell & c' & idx & Ec' & I & S & _ & ->). cbn [rx rg_chan] in Ec'. rewrite Ec in Ec'. injection Ec' as <-.
    apply (UX combo idx I Sh) in S as (S & ->). exists idx. auto. }
  assert (SO : sizes out = map ax_size (filter (fun a => negb (smem (ax_name a) keys) && negb (String.eqb (ax_name a) ax)) (cn_axes c))) by (rewrite Eo; auto).
  split; [rewrite <- SO; lia|]. split; [exact SO|].
  split.
  - unfold enumerates. split; [|split; [|split]].
    + intros b l U. apply EQ in U as (idx & I & S & -> & ->). unfold spos, outer_shape. rewrite Ec. fold keys. rewrite <- SO. cbn [fst snd].
      pose proof (all_idx_nth _ _ (IO idx I)) as Ck. set (k := ravel (sizes out) (on_outer c r ax idx)) in *.
      assert (Lk : k < List.length bs) by (rewrite <- Lb; apply ravel_lt; apply IO; auto). destruct (nth_error bs k) as [bl|] eqn:Bk; [|apply nth_error_None in Bk; lia].
      destruct (BX (on_outer c r ax idx) bl) as (Sh & G); [apply nth_error_In with (n := k); apply nth_error_combine; auto|]. apply in_shape_len in Sh. unfold sizes in Sh. rewrite map_length in Sh.
      destruct (global_indices_spec d _ _ G (RX _ Sh)) as (_ & Q & _).
      destruct (Q (cn_start c + ravel (shape_of c) idx) [nth i idx 0]) as (Q1 & Q2).
      { exists c, idx. split; [exact Ec|]. split; auto. split; [apply UX; auto|]. split; auto. rewrite OX; auto. }
      rewrite (SX _ Sh) in Q1, Q2. cbn [ravel] in Q2. unfold prodn in Q2. cbn [fold_right] in Q2. rewrite Nat.mul_1_r, Nat.add_0_r in Q2. inversion Q1 as [|? ? ? ? Ls _]; subst.
      rewrite <- (map_id bs), <- flat_map_concat_map. rewrite (flat_map_nth (fun x => x) (ax_size sm)) with (x := bl); auto.
    + intros b J. apply in_concat in J as (bl & J & K). apply In_nth_error in J as (k & Kk). assert (k < List.length bs) by (apply nth_error_Some; congruence). destruct (all_idx_at (sizes out) k) as (combo & Ck & Sh & _); [lia|].
      destruct (PX combo bl b) as (idx & I & S & E & ->); auto; [apply nth_error_In with (n := k); apply nth_error_combine; auto|]. exists (on_outer c r ax idx, nth i idx 0). apply EQ. exists idx. auto.
    + apply NoDup_concat.
      * intros bl J. apply In_nth_error in J as (k & K). assert (k < List.length bs) by (apply nth_error_Some; congruence). destruct (all_idx_at (sizes out) k) as (combo & Ck & Sh & _); [lia|].
        destruct (BX combo bl) as (_ & G); [apply nth_error_In with (n := k); apply nth_error_combine; auto|]. apply in_shape_len in Sh. unfold sizes in Sh. rewrite map_length in Sh. apply (global_indices_spec d _ _ G (RX combo Sh)).
      * intros p q l l' x A B Il Il'. assert (p < List.length bs) by (apply nth_error_Some; congruence). assert (q < List.length bs) by (apply nth_error_Some; congruence).
        destruct (all_idx_at (sizes out) p) as (cp & Cp & _); [lia|]. destruct (all_idx_at (sizes out) q) as (cq & Cq & _); [lia|].
        destruct (PX cp l x) as (idx & I & _ & Ep & Ex); auto; [apply nth_error_In with (n := p); apply nth_error_combine; auto|].
        destruct (PX cq l' x) as (idx' & I' & _ & Eq & Ex'); auto; [apply nth_error_In with (n := q); apply nth_error_combine; auto|].
        assert (ravel (shape_of c) idx = ravel (shape_of c) idx') by lia. apply ravel_inj in H1; auto. subst idx'. apply (NoDup_nth (all_idx (sizes out)) p q cp (all_idx_NoDup _) Cp). congruence.
    + exists (rg_chan r), c. split; [apply dget_In; auto|]. intros b J. apply in_concat in J as (bl & J & K). apply In_nth_error in J as (k & Kk). assert (k < List.length bs) by (apply nth_error_Some; congruence). destruct (all_idx_at (sizes out) k) as (combo & Ck & Sh & _); [lia|].
      destruct (PX combo bl b) as (idx & I & S & E & ->); auto; [apply nth_error_In with (n := k); apply nth_error_combine; auto|]. apply ravel_lt in I. lia.
  - split; [|exists c, i, sm; auto]. intros b l U. apply EQ in U as (idx & I & S & -> & ->). cbn [fst snd]. rewrite <- SO. split; [apply IO; auto|].
    unfold in_shape in I. pose proof (in_shape_len _ _ I) as Li. 
    destruct (nth_error idx i) as [w|] eqn:W; [|apply nth_error_None in W; apply LX in I; assert (i < List.length (cn_axes c)) by (apply nth_error_Some; congruence); lia].
    rewrite (nth_error_nth _ _ _ W). apply (Forall2_nth _ _ _ i (ax_size sm) w I); auto. unfold shape_of. rewrite nth_error_map', Ei. auto.
Qed.
