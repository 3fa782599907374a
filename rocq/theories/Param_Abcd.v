(** The ABCD family: which bins are scaled, by what, and the relation between the regions. *)
From Coq Require Import Reals List Arith ZArith Bool String Lia Lra.
From Verif Require Import RBase PyList PyDict ListUtil Shape Writer_Model Yields_Model Init_Model Param_Model Param_Spec Param_Comp Param_Mix Param_Axis Param_Region.
Import ListNotations.
Local Open Scope nat_scope.

Lemma laid_bounds chs : forall s k c, laid_out s chs -> In (k, c) chs -> s <= cn_start c /\ cn_start c + prodn (shape_of c) <= s + total chs.
Proof.
  induction chs as [|[k' c'] chs IH]; intros s k c H I; [destruct I|]. cbn [laid_out] in H. destruct H as (E & H). change (total ((k', c') :: chs)) with (prodn (shape_of c') + total chs). destruct I as [I|I].
  - injection I as -> ->. lia.
  - destruct (IH _ _ _ H I) as (A & B). lia.
Qed.
Lemma laid_out_skip u m : forall s, laid_out s (u ++ m) -> laid_out (s + total u) m.
Proof.
  induction u as [|[k c] u IH]; intros s H; cbn [app laid_out] in *; [unfold total; cbn; rewrite Nat.add_0_r; auto|]. destruct H as (_ & H). apply IH in H.
  replace (s + total ((k, c) :: u)) with (s + prodn (shape_of c) + total u); auto. change (total ((k, c) :: u)) with (prodn (shape_of c) + total u). lia.
Qed.
Lemma layout_bounds d k c : layout d -> In (k, c) (pd_channels d) ->
  cn_start c + prodn (shape_of c) <= pd_nbinsfull d /\ (cn_masked c = false -> cn_start c + prodn (shape_of c) <= pd_nbins d) /\ (cn_masked c = true -> pd_nbins d <= cn_start c).
Proof.
  intros (_ & LO & T & u & m & E & U & M & Tu) I. split; [|split].
  - destruct (laid_bounds _ _ _ _ LO I). lia.
  - intros F. rewrite E in *. apply in_app_or in I as [I|I]; [|rewrite Forall_forall in M; apply M in I; cbn [snd] in I; congruence].
    apply laid_out_app in LO. destruct (laid_bounds _ _ _ _ LO I). lia.
  - intros F. rewrite E in *. apply in_app_or in I as [I|I]; [rewrite Forall_forall in U; apply U in I; cbn [snd] in I; congruence|].
    apply laid_out_skip in LO. destruct (laid_bounds _ _ _ _ LO I). lia.
Qed.
(** all bins in one channel *)
Definition one_channel (d : pdata) (idx : list nat) : Prop :=
  exists k c, In (k, c) (pd_channels d) /\ forall b, In b idx -> cn_start c <= b < cn_start c + prodn (shape_of c).
Lemma NoDup_concat {A} (ls : list (list A)) : (forall l, In l ls -> NoDup l) -> (forall i j l l' x, nth_error ls i = Some l -> nth_error ls j = Some l' -> In x l -> In x l' -> i = j) -> NoDup (List.concat ls).
Proof.
  induction ls as [|l ls IH]; intros N D; [constructor|]. cbn [List.concat]. apply NoDup_app'; [apply N; simpl; auto|apply IH; [intros; apply N; simpl; auto|]|].
  - intros i j a b x A1 B1 A2 B2. assert (S i = S j) by (eapply D; eauto). lia.
  - intros x I J. apply in_concat in J as (l' & L' & J). apply In_nth_error in L' as (k & K). assert (0 = S k) by (apply (D 0 (S k) l l' x); auto). lia.
Qed.
Lemma concat_flat {A} (l : list (list nat * A)) (g : A -> nat -> R) : map fst (flat_map (fun r => combine (fst r) (map (g (snd r)) (seq 0 (List.length (fst r))))) l) = List.concat (map fst l).
Proof. induction l as [|[i v] l IH]; auto. cbn [flat_map map fst snd List.concat]. rewrite map_app, IH, map_fst_combine by (rewrite map_length, seq_length; auto). auto. Qed.
Lemma NoDup_concat_filter {A} (f : list nat * A -> bool) L : NoDup (List.concat (map fst L)) -> NoDup (List.concat (map fst (filter f L))).
Proof.
  induction L as [|[i v] L IH]; intros H; auto. cbn [map fst List.concat filter] in *.
  assert (NoDup i /\ NoDup (List.concat (map fst L)) /\ forall x, In x i -> ~ In x (List.concat (map fst L))) as (A1 & A2 & A3).
  { revert H. generalize (List.concat (map fst L)). clear. intros m. induction i as [|a i IH]; intros H; [repeat split; auto; constructor|]. cbn [app] in H. inversion H; subst. destruct (IH H3) as (P & Q & S).
    split; [constructor; auto; intros I; apply H2, in_or_app; auto|]. split; auto. intros x [->|I]; auto. intros J. apply H2, in_or_app; auto. }
  destruct (f (i, v)); auto. cbn [map fst List.concat]. apply NoDup_app'; auto. intros x I J. apply (A3 x I). apply in_concat in J as (l & Il & J). apply in_concat. exists l. split; auto.
  apply in_map_iff in Il as (e & <- & Ie). apply filter_In in Ie. apply in_map. tauto.
Qed.
Lemma rnorm_spec d pi L full : layout d -> (forall e, In e L -> one_channel d (fst e)) -> NoDup (List.concat (map fst L)) ->
  exists r, abcd_rnorm d pi L full = Ok r /\ rn_fits r (nrows d full) = true /\
    (forall b p, b < nrows d full -> p <> pi -> rn_bcast r b p = 1%R) /\
    (forall b, b < nrows d full -> ~ In b (List.concat (map fst L)) -> rn_bcast r b pi = 1%R) /\
    (forall e i b, b < nrows d full -> In e L -> nth_error (fst e) i = Some b -> rn_bcast r b pi = snd e i).
Proof.
  intros LO OC ND. unfold abcd_rnorm. set (act := filter _ L). set (ups := flat_map _ act).
  assert (EU : map fst ups = List.concat (map fst act)) by (apply (concat_flat act (fun v => v))).
  assert (AC : forall e, In e L -> forall b, In b (fst e) -> b < nrows d full -> In e act).
  { intros e I b J Lb. apply filter_In. split; auto. unfold active. destruct full; auto. cbn [orb]. apply forallb_forall. intros b' J'. apply Nat.ltb_lt.
    destruct (OC e I) as (k & c & Ic & Hc). destruct (layout_bounds d k c LO Ic) as (_ & B1 & B2). cbn [nrows] in Lb. pose proof (Hc b J). pose proof (Hc b' J').
    destruct (cn_masked c); [pose proof (B2 eq_refl); lia|pose proof (B1 eq_refl); lia]. }
  assert (CK : forallb (fun u : nat * R => Nat.ltb (fst u) (if full then pd_nbinsfull d else pd_nbins d)) ups = true).
  { apply forallb_forall. intros [b v] I. apply Nat.ltb_lt. cbn [fst]. apply (in_map fst) in I. rewrite EU in I. cbn [fst] in I. apply in_concat in I as (idx & I & J). apply in_map_iff in I as (e & <- & I). apply filter_In in I as (I & A).
    destruct (OC e I) as (k & c & Ic & Hc). destruct (layout_bounds d k c LO Ic) as (B0 & _ & _). destruct full; [pose proof (Hc b J); lia|]. unfold active in A. cbn [orb] in A. rewrite forallb_forall in A. apply Nat.ltb_lt, A. auto. }
  rewrite CK. exists (RBins (nrows d full) (fun b p => if Nat.eqb p pi then scatter_ones ups b else 1%R)). split; [reflexivity|].
  assert (NU : NoDup (map fst ups)).
  { rewrite EU. apply NoDup_concat_filter. auto. }
  split; [unfold rn_fits; rewrite Nat.eqb_refl; auto|]. split; [|split].
  - intros b p Lb Np. rewrite rn_bins_at by auto. destruct (Nat.eqb_spec p pi); [contradiction|auto].
  - intros b Lb N. rewrite rn_bins_at, Nat.eqb_refl by auto. apply scatter_miss. rewrite EU. intros I. apply N. apply in_concat in I as (l & I & J). apply in_concat. exists l. split; auto.
    apply in_map_iff in I as (e & <- & I). apply filter_In in I. apply in_map. tauto.
  - intros e i b Lb I E. rewrite rn_bins_at, Nat.eqb_refl by auto. apply scatter_hit; auto. apply in_flat_map. exists e. pose proof (nth_error_In _ _ E) as J. split; [eapply AC; eauto|].
    assert (Li : i < List.length (fst e)) by (apply nth_error_Some; congruence).
    apply nth_error_In with (n := i). apply nth_error_combine; auto. rewrite nth_error_map', nth_error_seq' by auto. auto.
Qed.
(** places [L] enumerated by [pos] *)
Definition enumerates {L} (d : pdata) (pos : L -> nat) (reg : nat -> L -> Prop) (idx : list nat) : Prop :=
  (forall b l, reg b l -> nth_error idx (pos l) = Some b) /\ (forall b, In b idx -> exists l, reg b l) /\ NoDup idx /\ one_channel d idx.
Lemma rnorm_regions {L} d process (pos : L -> nat) (rs : list (nat -> L -> Prop)) (idxs : list (list nat)) (vs : list (nat -> R)) full :
  layout d -> NoDup (pd_procs d) -> In process (pd_procs d) -> Forall2 (enumerates d pos) rs idxs -> List.length vs = List.length rs -> disjoint rs ->
  exists r, abcd_rnorm d (proc_idx d process) (combine idxs vs) full = Ok r /\ scaled_in d process full (combine rs (map (fun v l => v (pos l)) vs)) r.
Proof.
  intros LO ND Ip F Lv D. pose proof (Forall2_len _ _ _ F) as Li.
  destruct (rnorm_spec d (proc_idx d process) (combine idxs vs) full LO) as (r & E & Fi & O & M & H).
  - intros [i v] I. cbn [fst]. apply in_combine_l in I. apply In_nth_error in I as (k & K). destruct (nth_error rs k) as [g|] eqn:G; [|apply nth_error_None in G; assert (k < List.length idxs) by (apply nth_error_Some; congruence); lia].
    destruct (Forall2_nth _ _ _ _ _ _ F G K) as (_ & _ & _ & Q). auto.
  - rewrite map_fst_combine by lia. apply NoDup_concat.
    + intros i I. apply In_nth_error in I as (k & K). destruct (nth_error rs k) as [g|] eqn:G; [|apply nth_error_None in G; assert (k < List.length idxs) by (apply nth_error_Some; congruence); lia].
      destruct (Forall2_nth _ _ _ _ _ _ F G K) as (_ & _ & Q & _). auto.
    + intros i j l l' x A B Il Il'.
      destruct (nth_error rs i) as [g|] eqn:G; [|apply nth_error_None in G; assert (i < List.length idxs) by (apply nth_error_Some; congruence); lia].
      destruct (nth_error rs j) as [g'|] eqn:G'; [|apply nth_error_None in G'; assert (j < List.length idxs) by (apply nth_error_Some; congruence); lia].
      destruct (Forall2_nth _ _ _ _ _ _ F G A) as (_ & Q & _). destruct (Forall2_nth _ _ _ _ _ _ F G' B) as (_ & Q' & _). destruct (Q x Il) as (u & U). destruct (Q' x Il') as (u' & U'). apply (D i j g g' x u u'); auto.
  - exists r. split; auto. split; auto. intros j p b Ej Lb. split.
    + intros N. apply O; auto. intros ->. rewrite proc_idx_at in Ej by auto. congruence.
    + intros ->. rewrite <- (proc_idx_spec d process j ND Ej). split.
      * intros N. apply M; auto. rewrite map_fst_combine by lia. intros I. apply in_concat in I as (i & I & J). apply In_nth_error in I as (k & K).
        assert (Lk : k < List.length idxs) by (apply nth_error_Some; congruence).
        destruct (nth_error rs k) as [g|] eqn:G; [|apply nth_error_None in G; lia]. destruct (nth_error vs k) as [v|] eqn:V; [|apply nth_error_None in V; lia].
        destruct (Forall2_nth _ _ _ _ _ _ F G K) as (_ & Q & _). destruct (Q b J) as (l & U). apply (N g (fun l => v (pos l)) l); auto. apply nth_error_In with (n := k). apply nth_error_combine; auto. rewrite nth_error_map', V. auto.
      * intros reg f l I U. apply In_nth_error in I as (k & K).
        assert (Lk : k < List.length (combine rs (map (fun (v : nat -> R) (l : L) => v (pos l)) vs))) by (apply nth_error_Some; congruence). rewrite combine_length, map_length in Lk.
        destruct (nth_error rs k) as [g|] eqn:G; [|apply nth_error_None in G; lia]. destruct (nth_error vs k) as [v|] eqn:V; [|apply nth_error_None in V; lia].
        destruct (nth_error idxs k) as [i|] eqn:Ix; [|apply nth_error_None in Ix; lia].
        assert (K' : nth_error (combine rs (map (fun (v : nat -> R) (l : L) => v (pos l)) vs)) k = Some (g, fun l => v (pos l))) by (apply nth_error_combine; auto; rewrite nth_error_map', V; auto).
        rewrite K in K'. injection K' as -> ->. destruct (Forall2_nth _ _ _ _ _ _ F G Ix) as (Q & _). apply (H (i, v) (pos l) b); auto.
        apply nth_error_In with (n := k). apply nth_error_combine; auto.
Qed.
Lemma global_one_channel d r idx : global_indices d r = Ok idx -> one_channel d idx.
Proof.
  unfold global_indices. destruct (dget (rg_chan r) (pd_channels d)) as [c|] eqn:Ec; [|discriminate]. destruct (resolve_sel (cn_axes c) (rg_sel r)) as [fixed|]; [|discriminate]. cbn [rbind]. intros E. injection E as <-.
  exists (rg_chan r), c. split; [apply dget_In; auto|]. intros b I. apply in_map_iff in I as (i & <- & I). unfold sel_bins in I. apply filter_In in I as (I & _). apply all_idx_In in I. apply ravel_lt in I. change (shape_of c) with (sizes (cn_axes c)). lia.
Qed.
Lemma global_enumerates d r idx fs : global_indices d r = Ok idx -> region_ok d r -> free_shape d r = fs -> enumerates d (ravel fs) (in_region d r) idx.
Proof.
  intros H OK <-. destruct (global_indices_spec d r idx H OK) as (_ & A & B & N). split; [intros b l I; apply A; auto|]. split; auto. split; auto. eapply global_one_channel; eauto.
Qed.
Lemma safe0_id e x : (x <> 0)%R -> safe0 e x = x.
Proof. intros H. unfold safe0. rewrite Reqb_false; auto. Qed.
Lemma abcd_rel corr a b c Na Nb Nc Nd : abcd_relation corr a b c (corrected corr (abcd_mc Na Nb Nc Nd) (abcd_d a b c)) Na Nb Nc Nd.
Proof.
  intros Hb. unfold corrected, abcd_d, abcd_mc. rewrite (safe0_id _ b) by auto. destruct corr.
  - intros H1 H2. rewrite !safe0_id by auto. field. auto.
  - field. auto.
Qed.
Lemma ext_rel corr a b c ax bx Na Nb Nc Nd Nax Nbx : ext_relation corr a b c (corrected corr (ext_mc Na Nb Nc Nd Nax Nbx) (ext_d a b c ax bx)) ax bx Na Nb Nc Nd Nax Nbx.
Proof.
  intros Ha Hb. unfold corrected, ext_d, ext_mc, sq, Rsqr. rewrite (safe0_id _ a), (safe0_id _ bx) by auto. destruct corr.
  - intros H1 H2 H3. rewrite !safe0_id by auto. field. auto.
  - field. auto.
Qed.
Lemma sized_ok n x k : List.length x = n -> sized n x k = k.
Proof. intros <-. unfold sized. rewrite Nat.eqb_refl. auto. Qed.
Lemma mc_at_of d process j idx pos b : NoDup (pd_procs d) -> nth_error (pd_procs d) j = Some process -> nth_error idx pos = Some b -> mc_at d (proc_idx d process) idx pos = pd_norm d b j.
Proof. intros ND E H. unfold mc_at. rewrite (proc_idx_spec d process j ND E). erewrite nth_error_nth by eauto. auto. Qed.
Theorem abcd_spec d process rA rB rC rD corr m fs x full :
  abcd_model d process rA rB rC rD corr = Ok m -> layout d -> NoDup (pd_procs d) ->
  Forall (fun r => region_ok d r /\ free_shape d r = fs) [rA; rB; rC; rD] -> disjoint (map (in_region d) [rA; rB; rC; rD]) ->
  List.length x = nparams m ->
  let n := prodn fs in
  let v := fun k l => (nth (k * n + ravel fs l) x 0)²%R in
  nparams m = 3 * n /\
  exists r fD, m_compute m x full = Ok r /\
    scaled_in d process full [(in_region d rA, v 0); (in_region d rB, v 1); (in_region d rC, v 2); (in_region d rD, fD)] r /\
    forall j l bA bB bC bD, nth_error (pd_procs d) j = Some process -> in_region d rA bA l -> in_region d rB bB l -> in_region d rC bC l -> in_region d rD bD l ->
      abcd_relation corr (v 0 l) (v 1 l) (v 2 l) (fD l) (pd_norm d bA j) (pd_norm d bB j) (pd_norm d bC j) (pd_norm d bD j).
Proof.
  intros E LO ND RO DJ Lx n v. unfold abcd_model in E. destruct (smem process (pd_procs d)) eqn:Sp; [|discriminate]. cbn [negb] in E. apply smem_In in Sp.
  destruct (global_indices d rA) as [iA|] eqn:GA; [|discriminate]. destruct (global_indices d rB) as [iB|] eqn:GB; [|discriminate].
  destruct (global_indices d rC) as [iC|] eqn:GC; [|discriminate]. destruct (global_indices d rD) as [iD|] eqn:GD; [|discriminate]. cbn [rbind] in E.
  destruct (negb (same_len (List.length iA) [iB; iC; iD])); [discriminate|]. injection E as <-. cbn [m_compute nparams m_npoi m_npou Nat.add] in Lx |- *.
  inversion RO as [|? ? (OA & FA) RO1]; subst. inversion RO1 as [|? ? (OB & FB) RO2]; subst. inversion RO2 as [|? ? (OC & FC) RO3]; subst. inversion RO3 as [|? ? (OD & FD) _]; subst.
  assert (Ln : List.length iA = n) by (apply (global_indices_spec d rA iA GA OA)). rewrite Ln in *. split; [auto|]. rewrite (sized_ok _ x) by auto.
  set (vD := fun i => corrected corr (abcd_mc (mc_at d (proc_idx d process) iA i) (mc_at d (proc_idx d process) iB i) (mc_at d (proc_idx d process) iC i) (mc_at d (proc_idx d process) iD i))
     (abcd_d (sq (nth (0 * n + i) x 0%R)) (sq (nth (1 * n + i) x 0%R)) (sq (nth (2 * n + i) x 0%R)))).
  assert (EA : enumerates d (ravel (free_shape d rA)) (in_region d rA) iA) by (apply global_enumerates; auto).
  assert (EB : enumerates d (ravel (free_shape d rA)) (in_region d rB) iB) by (apply global_enumerates; auto).
  assert (EC : enumerates d (ravel (free_shape d rA)) (in_region d rC) iC) by (apply global_enumerates; auto).
  assert (ED : enumerates d (ravel (free_shape d rA)) (in_region d rD) iD) by (apply global_enumerates; auto).
  destruct (rnorm_regions d process (ravel (free_shape d rA)) (map (in_region d) [rA; rB; rC; rD]) [iA; iB; iC; iD]
     [fun i => sq (nth (0 * n + i) x 0%R); fun i => sq (nth (1 * n + i) x 0%R); fun i => sq (nth (2 * n + i) x 0%R); vD] full LO ND Sp) as (r & E & S); auto.
  { cbn [map]. constructor; [auto|]. constructor; [auto|]. constructor; [auto|]. constructor; [auto|constructor]. }
  exists r, (fun l => vD (ravel (free_shape d rA) l)). split; [exact E|]. split; [exact S|].
  intros j l bA bB bC bD Ej HA HB HC HD. unfold vD.
  rewrite (mc_at_of d process j iA _ bA), (mc_at_of d process j iB _ bB), (mc_at_of d process j iC _ bC), (mc_at_of d process j iD _ bD); auto; try (apply EA; auto); try (apply EB; auto); try (apply EC; auto); try (apply ED; auto).
  apply abcd_rel.
Qed.
Theorem ext_abcd_spec d process rA rB rC rD rAx rBx corr m fs x full :
  ext_abcd_model d process rA rB rC rD rAx rBx corr = Ok m -> layout d -> NoDup (pd_procs d) ->
  Forall (fun r => region_ok d r /\ free_shape d r = fs) [rA; rB; rC; rD; rAx; rBx] -> disjoint (map (in_region d) [rA; rB; rC; rD; rAx; rBx]) ->
  List.length x = nparams m ->
  let n := prodn fs in
  let v := fun k l => (nth (k * n + ravel fs l) x 0)²%R in
  nparams m = 5 * n /\
  exists r fD, m_compute m x full = Ok r /\
    scaled_in d process full [(in_region d rA, v 0); (in_region d rB, v 1); (in_region d rC, v 2); (in_region d rD, fD); (in_region d rAx, v 3); (in_region d rBx, v 4)] r /\
    forall j l bA bB bC bD bAx bBx, nth_error (pd_procs d) j = Some process ->
      in_region d rA bA l -> in_region d rB bB l -> in_region d rC bC l -> in_region d rD bD l -> in_region d rAx bAx l -> in_region d rBx bBx l ->
      ext_relation corr (v 0 l) (v 1 l) (v 2 l) (fD l) (v 3 l) (v 4 l) (pd_norm d bA j) (pd_norm d bB j) (pd_norm d bC j) (pd_norm d bD j) (pd_norm d bAx j) (pd_norm d bBx j).
Proof.
  intros E LO ND RO DJ Lx n v. unfold ext_abcd_model in E. destruct (smem process (pd_procs d)) eqn:Sp; [|discriminate]. cbn [negb] in E. apply smem_In in Sp.
  destruct (global_indices d rA) as [iA|] eqn:GA; [|discriminate]. destruct (global_indices d rB) as [iB|] eqn:GB; [|discriminate].
  destruct (global_indices d rC) as [iC|] eqn:GC; [|discriminate]. destruct (global_indices d rD) as [iD|] eqn:GD; [|discriminate].
  destruct (global_indices d rAx) as [iAx|] eqn:GAx; [|discriminate]. destruct (global_indices d rBx) as [iBx|] eqn:GBx; [|discriminate]. cbn [rbind] in E.
  destruct (negb (same_len (List.length iA) [iB; iC; iD; iAx; iBx])); [discriminate|]. injection E as <-. cbn [m_compute nparams m_npoi m_npou Nat.add] in Lx |- *.
  inversion RO as [|? ? (OA & FA) RO1]; subst. inversion RO1 as [|? ? (OB & FB) RO2]; subst. inversion RO2 as [|? ? (OC & FC) RO3]; subst. inversion RO3 as [|? ? (OD & FD) RO4]; subst.
  inversion RO4 as [|? ? (OAx & FAx) RO5]; subst. inversion RO5 as [|? ? (OBx & FBx) _]; subst.
  assert (Ln : List.length iA = n) by (apply (global_indices_spec d rA iA GA OA)). rewrite Ln in *. split; [auto|]. rewrite (sized_ok _ x) by auto.
  set (vD := fun i => corrected corr (ext_mc (mc_at d (proc_idx d process) iA i) (mc_at d (proc_idx d process) iB i) (mc_at d (proc_idx d process) iC i) (mc_at d (proc_idx d process) iD i)
       (mc_at d (proc_idx d process) iAx i) (mc_at d (proc_idx d process) iBx i))
     (ext_d (sq (nth (0 * n + i) x 0%R)) (sq (nth (1 * n + i) x 0%R)) (sq (nth (2 * n + i) x 0%R)) (sq (nth (3 * n + i) x 0%R)) (sq (nth (4 * n + i) x 0%R)))).
  assert (EA : enumerates d (ravel (free_shape d rA)) (in_region d rA) iA) by (apply global_enumerates; auto).
  assert (EB : enumerates d (ravel (free_shape d rA)) (in_region d rB) iB) by (apply global_enumerates; auto).
  assert (EC : enumerates d (ravel (free_shape d rA)) (in_region d rC) iC) by (apply global_enumerates; auto).
  assert (ED : enumerates d (ravel (free_shape d rA)) (in_region d rD) iD) by (apply global_enumerates; auto).
  assert (EAx : enumerates d (ravel (free_shape d rA)) (in_region d rAx) iAx) by (apply global_enumerates; auto).
  assert (EBx : enumerates d (ravel (free_shape d rA)) (in_region d rBx) iBx) by (apply global_enumerates; auto).
  destruct (rnorm_regions d process (ravel (free_shape d rA)) (map (in_region d) [rA; rB; rC; rD; rAx; rBx]) [iA; iB; iC; iD; iAx; iBx]
     [fun i => sq (nth (0 * n + i) x 0%R); fun i => sq (nth (1 * n + i) x 0%R); fun i => sq (nth (2 * n + i) x 0%R); vD; fun i => sq (nth (3 * n + i) x 0%R); fun i => sq (nth (4 * n + i) x 0%R)] full LO ND Sp) as (r & E & S); auto.
  { cbn [map]. constructor; [auto|]. constructor; [auto|]. constructor; [auto|]. constructor; [auto|]. constructor; [auto|]. constructor; [auto|constructor]. }
  exists r, (fun l => vD (ravel (free_shape d rA) l)). split; [exact E|]. split; [exact S|].
  intros j l bA bB bC bD bAx bBx Ej HA HB HC HD HAx HBx. unfold vD.
  rewrite (mc_at_of d process j iA _ bA), (mc_at_of d process j iB _ bB), (mc_at_of d process j iC _ bC), (mc_at_of d process j iD _ bD), (mc_at_of d process j iAx _ bAx), (mc_at_of d process j iBx _ bBx);
    auto; try (apply EA; auto); try (apply EB; auto); try (apply EC; auto); try (apply ED; auto); try (apply EAx; auto); try (apply EBx; auto).
  apply ext_rel.
Qed.
