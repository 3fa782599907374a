(** The smoothed ABCD models and what all ABCD models give at their defaults. *)
From Coq Require Import Reals List Arith ZArith Bool String Lia Lra.
From Verif Require Import RBase PyList PyDict ListUtil Shape Writer_Model Yields_Model Init_Model Param_Model Param_Spec Param_Comp Param_Mix Param_Axis Param_Region Param_Abcd Param_Smooth.
Import ListNotations.
Local Open Scope nat_scope.

Lemma cheb_pair_S k x : cheb_pair (S (S k)) x = (snd (cheb_pair (S k) x), 2 * x * snd (cheb_pair (S k) x) - fst (cheb_pair (S k) x))%R.
Proof. reflexivity. Qed.
Lemma cheb_pair_fst k x : fst (cheb_pair (S k) x) = snd (cheb_pair k x).
Proof. destruct k; reflexivity. Qed.
Lemma basis_cheb k x : basis k x = chebyshev k x.
Proof.
  unfold basis. assert (H : snd (cheb_pair k x) = chebyshev k x /\ snd (cheb_pair (S k) x) = chebyshev (S k) x).
  { induction k as [|k (A & B)]; [split; reflexivity|]. split; auto. rewrite cheb_pair_S. cbn [snd]. rewrite cheb_pair_fst, A, B. reflexivity. }
  apply H.
Qed.
Theorem chebyshev_cos k t : chebyshev k (cos t) = cos (INR k * t).
Proof.
  assert (H : chebyshev k (cos t) = cos (INR k * t) /\ chebyshev (S k) (cos t) = cos (INR (S k) * t)).
  { induction k as [|k (A & B)].
    - cbn [chebyshev INR]. rewrite Rmult_0_l, cos_0, Rmult_1_l. auto.
    - split; auto. change (chebyshev (S (S k)) (cos t)) with (2 * cos t * chebyshev (S k) (cos t) - chebyshev k (cos t))%R. rewrite A, B, !S_INR.
      replace ((INR k + 1 + 1) * t)%R with ((INR k + 1) * t + t)%R by ring. replace (INR k * t)%R with ((INR k + 1) * t - t)%R by ring. rewrite cos_plus, cos_minus. ring. }
  apply H.
Qed.
Lemma cheb_x_eq a s : (hd 0 (ax_edges a) < last (ax_edges a) 0)%R -> cheb_x a s = centred a s.
Proof.
  intros H. unfold cheb_x, centred. rewrite Rltb_true by auto. field. lra.
Qed.
Lemma smooth_val_eq a order no ns x k o s : (hd 0 (ax_edges a) < last (ax_edges a) 0)%R -> s < ns ->
  smooth_val a order no ns x k (o * ns + s) = exp_poly order ((k * no + o) * (order + 1)) x (centred a s).
Proof.
  intros H Ls. unfold smooth_val, exp_poly. f_equal. f_equal. apply map_ext. intros j.
  rewrite Nat.div_add_l by lia. rewrite Nat.div_small by auto. rewrite (Nat.add_comm (o * ns) s), Nat.mod_add by lia. rewrite Nat.mod_small by auto. rewrite Nat.add_0_r.
  rewrite basis_cheb, cheb_x_eq by auto. f_equal. f_equal. lia.
Qed.
Lemma smooth_axis_eq d ax r a : region_ok d r -> smooth_axis d ax r a -> smooth_axis_of d ax r = a.
Proof.
  intros (_ & NA) (c & Ec & Ia & <- & _). unfold smooth_axis_of. rewrite Ec. rewrite find_axis_In; auto. apply (NA c Ec).
Qed.
Lemma forallb4 (f : list axis * nat * list (list nat) -> bool) l : forallb f l = true -> forall s, In s l -> f s = true.
Proof. intros H. apply forallb_forall. auto. Qed.
Lemma exp_poly_pos order p x u : (0 < exp_poly order p x u)%R.
Proof. apply exp_pos. Qed.
Lemma smooth_enumerates d ax r s os ns : smooth_region d ax r = Ok s -> region_ok d r -> outer_shape d ax r = os -> snd (fst s) = ns ->
  enumerates d (fun l => ravel os (fst l) * ns + snd l) (in_smooth d ax r) (List.concat (snd s)) /\ List.length (snd s) = prodn os /\
  forall b l, in_smooth d ax r b l -> in_shape os (fst l) /\ snd l < ns.
Proof.
  destruct s as [[out n] bins]. cbn [fst snd]. intros H O <- <-. destruct (smooth_region_spec d ax r out n bins H O) as (A & B & C & D & _). split; [exact C|]. split; auto.
Qed.
Theorem smooth_abcd_spec d ax process rA rB rC rD order corr m os a x full :
  smooth_abcd_model d ax process rA rB rC rD order corr = Ok m -> layout d -> NoDup (pd_procs d) ->
  Forall (fun r => region_ok d r /\ outer_shape d ax r = os) [rA; rB; rC; rD] -> disjoint (map (in_smooth d ax) [rA; rB; rC; rD]) ->
  smooth_axis d ax rA a -> List.length x = nparams m ->
  let no := prodn os in
  let v := fun k (l : list nat * nat) => exp_poly order ((k * no + ravel os (fst l)) * (order + 1)) x (centred a (snd l)) in
  nparams m = 3 * no * (order + 1) /\
  exists r fD, m_compute m x full = Ok r /\
    scaled_in d process full [(in_smooth d ax rA, v 0); (in_smooth d ax rB, v 1); (in_smooth d ax rC, v 2); (in_smooth d ax rD, fD)] r /\
    forall j l bA bB bC bD, nth_error (pd_procs d) j = Some process -> in_smooth d ax rA bA l -> in_smooth d ax rB bB l -> in_smooth d ax rC bC l -> in_smooth d ax rD bD l ->
      abcd_relation corr (v 0 l) (v 1 l) (v 2 l) (fD l) (pd_norm d bA j) (pd_norm d bB j) (pd_norm d bC j) (pd_norm d bD j).
Proof.
  intros E LO ND RO DJ SA Lx no v. unfold smooth_abcd_model in E. destruct (smem process (pd_procs d)) eqn:Sp; [|discriminate]. cbn [negb] in E. apply smem_In in Sp.
  destruct (smooth_region d ax rA) as [sA|] eqn:GA; [|discriminate]. destruct (smooth_region d ax rB) as [sB|] eqn:GB; [|discriminate].
  destruct (smooth_region d ax rC) as [sC|] eqn:GC; [|discriminate]. destruct (smooth_region d ax rD) as [sD|] eqn:GD; [|discriminate]. cbn [rbind] in E.
  destruct (forallb (fun s => Nat.eqb (snd (fst s)) (snd (fst sA))) [sB; sC; sD]) eqn:F1; [|discriminate]. cbn [negb] in E.
  destruct (forallb (fun s => Nat.eqb (List.length (snd s)) (List.length (snd sA))) [sB; sC; sD]) eqn:F2; [|discriminate]. cbn [negb] in E. injection E as <-. cbn [m_compute nparams m_npoi m_npou] in Lx |- *. change (0 + ?k) with k in Lx |- *.
  inversion RO as [|? ? (OA & FA) RO1]; subst. inversion RO1 as [|? ? (OB & FB) RO2]; subst. inversion RO2 as [|? ? (OC & FC) RO3]; subst. inversion RO3 as [|? ? (OD & FD) _]; subst.
  set (os := outer_shape d ax rA) in *. set (ns := snd (fst sA)) in *. pose proof (forallb4 _ _ F1) as F1'.
  assert (NB : snd (fst sB) = ns) by (apply Nat.eqb_eq, F1'; simpl; auto). assert (NC : snd (fst sC) = ns) by (apply Nat.eqb_eq, F1'; simpl; auto). assert (ND' : snd (fst sD) = ns) by (apply Nat.eqb_eq, F1'; simpl; auto).
  destruct (smooth_enumerates d ax rA sA os ns GA OA eq_refl eq_refl) as (EA & LA & PA). destruct (smooth_enumerates d ax rB sB os ns GB OB FB NB) as (EB & _ & PB).
  destruct (smooth_enumerates d ax rC sC os ns GC OC FC NC) as (EC & _ & PC). destruct (smooth_enumerates d ax rD sD os ns GD OD FD ND') as (ED & _ & PD).
  rewrite LA in *. fold no in Lx |- *. split; [reflexivity|]. rewrite (sized_ok _ x) by auto. rewrite (smooth_axis_eq d ax rA a OA SA). destruct SA as (_ & _ & _ & _ & Hed).
  set (pos := fun l : list nat * nat => ravel os (fst l) * ns + snd l) in *.
  set (iA := List.concat (snd sA)) in *. set (iB := List.concat (snd sB)) in *. set (iC := List.concat (snd sC)) in *. set (iD := List.concat (snd sD)) in *.
  set (w := smooth_val a order no ns x).
  set (vD := fun i => corrected corr (abcd_mc (mc_at d (proc_idx d process) iA i) (mc_at d (proc_idx d process) iB i) (mc_at d (proc_idx d process) iC i) (mc_at d (proc_idx d process) iD i))
     (abcd_d (w 0 i) (w 1 i) (w 2 i))).
  destruct (rnorm_regions d process pos (map (in_smooth d ax) [rA; rB; rC; rD]) [iA; iB; iC; iD] [w 0; w 1; w 2; vD] full LO ND Sp) as (r & E & S); auto.
  { cbn [map]. constructor; [auto|]. constructor; [auto|]. constructor; [auto|]. constructor; [auto|constructor]. }
  assert (V : forall k l, snd l < ns -> w k (pos l) = v k l) by (intros k l Ls; apply smooth_val_eq; auto).
  exists r, (fun l => vD (pos l)). split; [exact E|]. split.
  - destruct S as (S1 & S2). split; auto. intros j p b Ej Lb. destruct (S2 j p b Ej Lb) as (S3 & S4). split; auto. intros Ep. destruct (S4 Ep) as (S5 & S6). cbn [map combine] in S5, S6. split.
    + intros N. apply S5. intros reg f l I U. cbn [In] in I. repeat (destruct I as [I|I]; [injection I as <- <-; revert U; eapply N; cbn [In]; eauto|]). destruct I.
    + intros reg f l I U. cbn [In] in I. destruct I as [I|[I|[I|[I|[]]]]]; injection I as <- <-.
      * rewrite <- V by (apply (PA b l U)). apply (S6 (in_smooth d ax rA) (fun l => w 0 (pos l)) l); cbn [In]; auto.
      * rewrite <- V by (apply (PB b l U)). apply (S6 (in_smooth d ax rB) (fun l => w 1 (pos l)) l); cbn [In]; auto.
      * rewrite <- V by (apply (PC b l U)). apply (S6 (in_smooth d ax rC) (fun l => w 2 (pos l)) l); cbn [In]; auto.
      * apply (S6 (in_smooth d ax rD) (fun l => vD (pos l)) l); cbn [In]; auto.
  - intros j l bA bB bC bD Ej HA HB HC HD. unfold vD. destruct (PA bA l HA) as (_ & Ls). rewrite !V by auto.
    rewrite (mc_at_of d process j iA _ bA), (mc_at_of d process j iB _ bB), (mc_at_of d process j iC _ bC), (mc_at_of d process j iD _ bD); auto; try (apply EA; auto); try (apply EB; auto); try (apply EC; auto); try (apply ED; auto).
    apply abcd_rel.
Qed.
Theorem smooth_ext_spec d ax process rA rB rC rD rAx rBx order init corr m os a x full :
  smooth_ext_model d ax process rA rB rC rD rAx rBx order init corr = Ok m -> layout d -> NoDup (pd_procs d) ->
  Forall (fun r => region_ok d r /\ outer_shape d ax r = os) [rA; rB; rC; rD; rAx; rBx] -> disjoint (map (in_smooth d ax) [rA; rB; rC; rD; rAx; rBx]) ->
  smooth_axis d ax rA a -> List.length x = nparams m ->
  let no := prodn os in
  let v := fun k (l : list nat * nat) => exp_poly order ((k * no + ravel os (fst l)) * (order + 1)) x (centred a (snd l)) in
  nparams m = 5 * no * (order + 1) /\
  exists r fD, m_compute m x full = Ok r /\
    scaled_in d process full [(in_smooth d ax rA, v 0); (in_smooth d ax rB, v 1); (in_smooth d ax rC, v 2); (in_smooth d ax rD, fD); (in_smooth d ax rAx, v 3); (in_smooth d ax rBx, v 4)] r /\
    forall j l bA bB bC bD bAx bBx, nth_error (pd_procs d) j = Some process -> in_smooth d ax rA bA l -> in_smooth d ax rB bB l -> in_smooth d ax rC bC l -> in_smooth d ax rD bD l -> in_smooth d ax rAx bAx l -> in_smooth d ax rBx bBx l ->
      ext_relation corr (v 0 l) (v 1 l) (v 2 l) (fD l) (v 3 l) (v 4 l) (pd_norm d bA j) (pd_norm d bB j) (pd_norm d bC j) (pd_norm d bD j) (pd_norm d bAx j) (pd_norm d bBx j).
Proof.
  intros E LO ND RO DJ SA Lx no v. unfold smooth_ext_model in E. destruct (smem process (pd_procs d)) eqn:Sp; [|discriminate]. cbn [negb] in E. apply smem_In in Sp.
  destruct (smooth_region d ax rA) as [sA|] eqn:GA; [|discriminate]. destruct (smooth_region d ax rB) as [sB|] eqn:GB; [|discriminate].
  destruct (smooth_region d ax rC) as [sC|] eqn:GC; [|discriminate]. destruct (smooth_region d ax rD) as [sD|] eqn:GD; [|discriminate].
  destruct (smooth_region d ax rAx) as [sAx|] eqn:GAx; [|discriminate]. destruct (smooth_region d ax rBx) as [sBx|] eqn:GBx; [|discriminate]. cbn [rbind] in E.
  destruct (forallb (fun s => Nat.eqb (snd (fst s)) (snd (fst sA))) [sB; sC; sD; sAx; sBx]) eqn:F1; [|discriminate]. cbn [negb] in E.
  destruct (forallb (fun s => Nat.eqb (List.length (snd s)) (List.length (snd sA))) [sB; sC; sD; sAx; sBx]) eqn:F2; [|discriminate]. cbn [negb] in E.
  match type of E with rbind ?q _ = _ => destruct q as [dft|] eqn:Ini; [|discriminate] end. cbn [rbind] in E. injection E as <-. cbn [m_compute nparams m_npoi m_npou] in Lx |- *. change (0 + ?k) with k in Lx |- *.
  inversion RO as [|? ? (OA & FA) RO1]; subst. inversion RO1 as [|? ? (OB & FB) RO2]; subst. inversion RO2 as [|? ? (OC & FC) RO3]; subst. inversion RO3 as [|? ? (OD & FD) RO4]; subst. inversion RO4 as [|? ? (OAx & FAx) RO5]; subst. inversion RO5 as [|? ? (OBx & FBx) _]; subst.
  set (os := outer_shape d ax rA) in *. set (ns := snd (fst sA)) in *. pose proof (forallb4 _ _ F1) as F1'.
  assert (NB : snd (fst sB) = ns) by (apply Nat.eqb_eq, F1'; simpl; auto). assert (NC : snd (fst sC) = ns) by (apply Nat.eqb_eq, F1'; simpl; auto). assert (ND' : snd (fst sD) = ns) by (apply Nat.eqb_eq, F1'; simpl; auto).
  assert (NAx : snd (fst sAx) = ns) by (apply Nat.eqb_eq, F1'; simpl; auto 8). assert (NBx : snd (fst sBx) = ns) by (apply Nat.eqb_eq, F1'; simpl; auto 8).
  destruct (smooth_enumerates d ax rA sA os ns GA OA eq_refl eq_refl) as (EA & LA & PA). destruct (smooth_enumerates d ax rB sB os ns GB OB FB NB) as (EB & _ & PB).
  destruct (smooth_enumerates d ax rC sC os ns GC OC FC NC) as (EC & _ & PC). destruct (smooth_enumerates d ax rD sD os ns GD OD FD ND') as (ED & _ & PD).
  destruct (smooth_enumerates d ax rAx sAx os ns GAx OAx FAx NAx) as (EAx & _ & PAx). destruct (smooth_enumerates d ax rBx sBx os ns GBx OBx FBx NBx) as (EBx & _ & PBx).
  rewrite LA in *. fold no in Lx |- *. split; [reflexivity|]. rewrite (sized_ok _ x) by auto. rewrite (smooth_axis_eq d ax rA a OA SA). destruct SA as (_ & _ & _ & _ & Hed).
  set (pos := fun l : list nat * nat => ravel os (fst l) * ns + snd l) in *.
  set (iA := List.concat (snd sA)) in *. set (iB := List.concat (snd sB)) in *. set (iC := List.concat (snd sC)) in *. set (iD := List.concat (snd sD)) in *. set (iAx := List.concat (snd sAx)) in *. set (iBx := List.concat (snd sBx)) in *.
  set (w := smooth_val a order no ns x).
  set (vD := fun i => corrected corr (ext_mc (mc_at d (proc_idx d process) iA i) (mc_at d (proc_idx d process) iB i) (mc_at d (proc_idx d process) iC i) (mc_at d (proc_idx d process) iD i) (mc_at d (proc_idx d process) iAx i) (mc_at d (proc_idx d process) iBx i))
     (ext_d (w 0 i) (w 1 i) (w 2 i) (w 3 i) (w 4 i))).
  destruct (rnorm_regions d process pos (map (in_smooth d ax) [rA; rB; rC; rD; rAx; rBx]) [iA; iB; iC; iD; iAx; iBx] [w 0; w 1; w 2; vD; w 3; w 4] full LO ND Sp) as (r & E & S); auto.
  { cbn [map]. constructor; [auto|]. constructor; [auto|]. constructor; [auto|]. constructor; [auto|]. constructor; [auto|]. constructor; [auto|constructor]. }
  assert (V : forall k l, snd l < ns -> w k (pos l) = v k l) by (intros k l Ls; apply smooth_val_eq; auto).
  exists r, (fun l => vD (pos l)). split; [exact E|]. split.
  - destruct S as (S1 & S2). split; auto. intros j p b Ej Lb. destruct (S2 j p b Ej Lb) as (S3 & S4). split; auto. intros Ep. destruct (S4 Ep) as (S5 & S6). cbn [map combine] in S5, S6. split.
    + intros N. apply S5. intros reg f l I U. cbn [In] in I. repeat (destruct I as [I|I]; [injection I as <- <-; revert U; eapply N; cbn [In]; eauto 10|]). destruct I.
    + intros reg f l I U. cbn [In] in I. destruct I as [I|[I|[I|[I|[I|[I|[]]]]]]]; injection I as <- <-.
      * rewrite <- V by (apply (PA b l U)). apply (S6 (in_smooth d ax rA) (fun l => w 0 (pos l)) l); cbn [In]; auto.
      * rewrite <- V by (apply (PB b l U)). apply (S6 (in_smooth d ax rB) (fun l => w 1 (pos l)) l); cbn [In]; auto.
      * rewrite <- V by (apply (PC b l U)). apply (S6 (in_smooth d ax rC) (fun l => w 2 (pos l)) l); cbn [In]; auto.
      * apply (S6 (in_smooth d ax rD) (fun l => vD (pos l)) l); cbn [In]; auto.
      * rewrite <- V by (apply (PAx b l U)). apply (S6 (in_smooth d ax rAx) (fun l => w 3 (pos l)) l); cbn [In]; auto 8.
      * rewrite <- V by (apply (PBx b l U)). apply (S6 (in_smooth d ax rBx) (fun l => w 4 (pos l)) l); cbn [In]; auto 8.
  - intros j l bA bB bC bD bAx bBx Ej HA HB HC HD HAx HBx. unfold vD. destruct (PA bA l HA) as (_ & Ls). rewrite !V by auto.
    rewrite (mc_at_of d process j iA _ bA), (mc_at_of d process j iB _ bB), (mc_at_of d process j iC _ bC), (mc_at_of d process j iD _ bD), (mc_at_of d process j iAx _ bAx), (mc_at_of d process j iBx _ bBx); auto; try (apply EAx; auto); try (apply EBx; auto); try (apply EA; auto); try (apply EB; auto); try (apply EC; auto); try (apply ED; auto).
    apply ext_rel.
Qed.

(** *** the wrappers *)
Lemma smooth_in_region d ax r b l : in_smooth d ax r b l -> exists cell, in_region d r b cell.
Proof. intros (c & idx & i & a & Ec & I & S & _ & _ & _ & ->). exists (on_free c r idx), c, idx. auto 8. Qed.
Lemma smooth_disjoint d ax rs : disjoint (map (in_region d) rs) -> disjoint (map (in_smooth d ax) rs).
Proof.
  intros D i j r r' b l l' A B U U'. rewrite nth_error_map' in A, B. destruct (nth_error rs i) as [q|] eqn:Q; [|discriminate]. destruct (nth_error rs j) as [q'|] eqn:Q'; [|discriminate]. cbn [option_map] in A, B. injection A as <-. injection B as <-.
  apply smooth_in_region in U as (cell & U). apply smooth_in_region in U' as (cell' & U'). apply (D i j (in_region d q) (in_region d q') b cell cell'); auto; rewrite nth_error_map'; [rewrite Q|rewrite Q']; auto.
Qed.
Lemma isomt_all_outer d ch c ax (ps : list (Z * Z)) : dget ch (pd_channels d) = Some c -> named_axes c ->
  Forall (fun r => region_ok d r /\ outer_shape d ax r = outer_shape d ax (isomt_region ch 0 0)) (map (fun p => isomt_region ch (fst p) (snd p)) ps).
Proof. intros E N. apply Forall_forall. intros r I. apply in_map_iff in I as (p & <- & _). split; [eapply isomt_ok; eauto|reflexivity]. Qed.
Theorem isomt_smooth_spec d process ch order corr m a x full n : isomt_smooth d process ch order corr = Ok m -> isomt_size d ch = Ok n -> layout d -> NoDup (pd_procs d) -> named_channel d ch ->
  smooth_axis d "pt" (isomt_region ch 0 0) a -> List.length x = nparams m ->
  let reg := fun iso mt => in_smooth d "pt" (isomt_region ch iso mt) in
  let os := outer_shape d "pt" (isomt_region ch 0 0) in
  let v := fun k (l : list nat * nat) => exp_poly order ((k * prodn os + ravel os (fst l)) * (order + 1)) x (centred a (snd l)) in
  nparams m = 3 * prodn os * (order + 1) /\
  exists r fD, m_compute m x full = Ok r /\
    scaled_in d process full [(reg 1 (n - 2), v 0%nat); (reg 0 (n - 2), v 1%nat); (reg 1 (n - 1), v 2%nat); (reg 0 (n - 1), fD)]%Z r /\
    forall j l bA bB bC bD, nth_error (pd_procs d) j = Some process -> reg 1%Z (n - 2)%Z bA l -> reg 0%Z (n - 2)%Z bB l -> reg 1%Z (n - 1)%Z bC l -> reg 0%Z (n - 1)%Z bD l ->
      abcd_relation corr (v 0 l) (v 1 l) (v 2 l) (fD l) (pd_norm d bA j) (pd_norm d bB j) (pd_norm d bC j) (pd_norm d bD j).
Proof.
  intros H Hn LO ND NC SA Lx reg os v. unfold isomt_smooth in H. rewrite Hn in H. cbn [rbind] in H. destruct (Z.ltb_spec (n - 2) 0); [discriminate|].
  destruct (isomt_size_ok d ch n Hn) as (c & a' & Ec & _). pose (ps := [(1, n - 2); (0, n - 2); (1, n - 1); (0, n - 1)]%Z).
  apply (smooth_abcd_spec d "pt" process _ _ _ _ order corr m os a x full H LO ND); auto.
  - exact (isomt_all_outer d ch c "pt" ps Ec (NC c Ec)).
  - apply smooth_disjoint. apply (isomt_disjoint d ch c ps Ec (NC c Ec)).
    + unfold ps. repeat constructor; cbn [fst snd]; lia.
    + unfold ps. repeat constructor; cbn; intros HH; repeat (destruct HH as [HH|HH]; [injection HH; lia|]); auto.
Qed.
Theorem isomt_smooth_ext_spec d process ch order init corr m a x full n : isomt_smooth_ext d process ch order init corr = Ok m -> isomt_size d ch = Ok n -> layout d -> NoDup (pd_procs d) -> named_channel d ch ->
  smooth_axis d "pt" (isomt_region ch 0 0) a -> List.length x = nparams m ->
  let reg := fun iso mt => in_smooth d "pt" (isomt_region ch iso mt) in
  let os := outer_shape d "pt" (isomt_region ch 0 0) in
  let v := fun k (l : list nat * nat) => exp_poly order ((k * prodn os + ravel os (fst l)) * (order + 1)) x (centred a (snd l)) in
  nparams m = 5 * prodn os * (order + 1) /\
  exists r fD, m_compute m x full = Ok r /\
    scaled_in d process full [(reg 1 (n - 2), v 0%nat); (reg 0 (n - 2), v 1%nat); (reg 1 (n - 1), v 2%nat); (reg 0 (n - 1), fD); (reg 1 (n - 3), v 3%nat); (reg 0 (n - 3), v 4%nat)]%Z r /\
    forall j l bA bB bC bD bAx bBx, nth_error (pd_procs d) j = Some process ->
      reg 1%Z (n - 2)%Z bA l -> reg 0%Z (n - 2)%Z bB l -> reg 1%Z (n - 1)%Z bC l -> reg 0%Z (n - 1)%Z bD l -> reg 1%Z (n - 3)%Z bAx l -> reg 0%Z (n - 3)%Z bBx l ->
      ext_relation corr (v 0 l) (v 1 l) (v 2 l) (fD l) (v 3 l) (v 4 l) (pd_norm d bA j) (pd_norm d bB j) (pd_norm d bC j) (pd_norm d bD j) (pd_norm d bAx j) (pd_norm d bBx j).
Proof.
  intros H Hn LO ND NC SA Lx reg os v. unfold isomt_smooth_ext in H. rewrite Hn in H. cbn [rbind] in H. destruct (Z.ltb_spec (n - 3) 0); [discriminate|].
  destruct (isomt_size_ok d ch n Hn) as (c & a' & Ec & _). pose (ps := [(1, n - 2); (0, n - 2); (1, n - 1); (0, n - 1); (1, n - 3); (0, n - 3)]%Z).
  apply (smooth_ext_spec d "pt" process _ _ _ _ _ _ order init corr m os a x full H LO ND); auto.
  - exact (isomt_all_outer d ch c "pt" ps Ec (NC c Ec)).
  - apply smooth_disjoint. apply (isomt_disjoint d ch c ps Ec (NC c Ec)).
    + unfold ps. repeat constructor; cbn [fst snd]; lia.
    + unfold ps. repeat constructor; cbn; intros HH; repeat (destruct HH as [HH|HH]; [injection HH; lia|]); auto.
Qed.
(** *** every place of a region has its bin *)
Lemma region_full d r idx l : global_indices d r = Ok idx -> region_ok d r -> in_shape (free_shape d r) l -> exists b, in_region d r b l.
Proof.
  intros G O I. destruct (global_indices_spec d r idx G O) as (L & A & B & N). pose proof (ravel_lt _ _ I) as Lt. rewrite <- L in Lt.
  destruct (nth_error idx (ravel (free_shape d r) l)) as [b|] eqn:E; [|apply nth_error_None in E; lia]. destruct (B b (nth_error_In _ _ E)) as (l' & U). exists b.
  destruct (A b l' U) as (I' & E'). replace l with l'; auto. apply (ravel_inj (free_shape d r)); auto. apply (NoDup_nth idx _ _ b N); auto.
Qed.
Lemma nth_repeat_lt {A} (v d : A) : forall n k, k < n -> nth k (repeat v n) d = v.
Proof. induction n as [|n IH]; intros [|k] L; try lia; cbn [repeat nth]; auto. apply IH. lia. Qed.
(** at the default parameters, without the correction, nothing is scaled *)
Theorem abcd_default d process rA rB rC rD m fs full :
  abcd_model d process rA rB rC rD false = Ok m -> layout d -> NoDup (pd_procs d) ->
  Forall (fun r => region_ok d r /\ free_shape d r = fs) [rA; rB; rC; rD] -> disjoint (map (in_region d) [rA; rB; rC; rD]) ->
  exists r, m_compute m (m_default m) full = Ok r /\ rn_fits r (nrows d full) = true /\
    forall j p b, nth_error (pd_procs d) j = Some p -> b < nrows d full -> rn_bcast r b j = 1%R.
Proof.
  intros E LO ND RO DJ. pose proof E as E0. unfold abcd_model in E. destruct (smem process (pd_procs d)) eqn:Sp; [|discriminate]. cbn [negb] in E.
  destruct (global_indices d rA) as [iA|] eqn:GA; [|discriminate]. destruct (global_indices d rB) as [iB|] eqn:GB; [|discriminate].
  destruct (global_indices d rC) as [iC|] eqn:GC; [|discriminate]. destruct (global_indices d rD) as [iD|] eqn:GD; [|discriminate]. cbn [rbind] in E.
  destruct (negb (same_len (List.length iA) [iB; iC; iD])); [discriminate|]. 
  assert (Ed : m_default m = repeat 1%R (nparams m)) by (injection E as <-; reflexivity). clear E.
  destruct (abcd_spec d process rA rB rC rD false m fs (m_default m) full E0 LO ND RO DJ) as (Np & r & fD & C & S & R); [rewrite Ed; apply repeat_length|].
  assert (O : forall k l, k < 3 -> in_shape fs l -> ((nth (k * prodn fs + ravel fs l) (m_default m) 0)² = 1)%R).
  { intros k l Lk I. apply ravel_lt in I. rewrite Ed. replace (nth _ (repeat 1%R (nparams m)) 0%R) with 1%R; [unfold Rsqr; ring|]. symmetry. rewrite nth_repeat_lt; auto. rewrite Np. nia. }
  exists r. split; auto. destruct S as (Fi & S). split; auto. intros j p b Ej Lb. destruct (S j p b Ej Lb) as (S1 & S2).
  destruct (string_dec p process) as [->|N]; [|apply S1; auto]. destruct (S2 eq_refl) as (S3 & S4). clear S1 S2.
  inversion RO as [|? ? (OA & FA) RO1]; subst. inversion RO1 as [|? ? (OB & FB) RO2]; subst. inversion RO2 as [|? ? (OC & FC) RO3]; subst. inversion RO3 as [|? ? (OD & FD) _]; subst.
  destruct (in_dec Nat.eq_dec b (iA ++ iB ++ iC ++ iD)) as [I|I].
  - repeat rewrite in_app_iff in I. destruct I as [I|[I|[I|I]]].
    + destruct (global_indices_spec d rA iA GA OA) as (_ & P & Q & _). destruct (Q b I) as (l & U). erewrite S4; [|left; reflexivity|exact U]. apply (O 0 l); [lia|]. apply (P b l U).
    + destruct (global_indices_spec d rB iB GB OB) as (_ & P & Q & _). destruct (Q b I) as (l & U). erewrite S4; [|right; left; reflexivity|exact U]. apply (O 1 l); [lia|]. rewrite <- FB. apply (P b l U).
    + destruct (global_indices_spec d rC iC GC OC) as (_ & P & Q & _). destruct (Q b I) as (l & U). erewrite S4; [|right; right; left; reflexivity|exact U]. apply (O 2 l); [lia|]. rewrite <- FC. apply (P b l U).
    + destruct (global_indices_spec d rD iD GD OD) as (_ & P & Q & _). destruct (Q b I) as (l & U). erewrite S4; [|right; right; right; left; reflexivity|exact U].
      assert (Sh : in_shape (free_shape d rA) l) by (rewrite <- FD; apply (P b l U)).
      destruct (region_full d rA iA l GA OA Sh) as (bA & UA). destruct (region_full d rB iB l GB OB) as (bB & UB); [rewrite FB; auto|]. destruct (region_full d rC iC l GC OC) as (bC & UC); [rewrite FC; auto|].
      pose proof (R j l bA bB bC b Ej UA UB UC U) as Rel. unfold abcd_relation in Rel. rewrite !O in Rel by (auto; lia). specialize (Rel R1_neq_R0). lra.
  - apply S3. intros reg f l J U. apply I. repeat rewrite in_app_iff. cbn [In] in J. destruct J as [J|[J|[J|[J|[]]]]]; injection J as <- <-.
    + left. destruct (global_indices_spec d rA iA GA OA) as (_ & P & _). eapply nth_error_In. apply (P b l U).
    + right; left. destruct (global_indices_spec d rB iB GB OB) as (_ & P & _). eapply nth_error_In. apply (P b l U).
    + right; right; left. destruct (global_indices_spec d rC iC GC OC) as (_ & P & _). eapply nth_error_In. apply (P b l U).
    + right; right; right. destruct (global_indices_spec d rD iD GD OD) as (_ & P & _). eapply nth_error_In. apply (P b l U).
Qed.
