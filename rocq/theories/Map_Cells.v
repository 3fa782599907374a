(** The result of Term.select, cell by cell. *)
From Coq Require Import Reals List Arith ZArith Bool String Lia Lra Permutation.
From Verif Require Import RBase PyList PyDict ListUtil Shape Map_Model Map_Spec Map_Collect Map_Perm Map_Rules Map_Term Map_Merge Map_Select Param_Names.
Import ListNotations.
Local Open Scope nat_scope.

Definition sizes_of (c : cinfo) : list nat := map ha_size (ci_axes c).
(** a channel without flow bins, with as many bins as its axes say *)
Definition proper (c : cinfo) : Prop :=
  ci_flow c = false /\ NoDup (map ha_name (ci_axes c)) /\ (forall a, In a (ci_axes c) -> edges_ok a) /\ ci_stop c = ci_start c + prodn (sizes_of c).
Lemma ravel_app : forall s i s' i', in_shape s i -> ravel (s ++ s') (i ++ i') = ravel s i * prodn s' + ravel s' i'.
Proof.
  induction s as [|n s IH]; intros i s' i' H; inversion H as [|? v ? q A B]; subst; auto. cbn [app ravel]. rewrite (IH q s' i' B), prodn_app. lia.
Qed.
Lemma all_idx_nth' shape k idx : in_shape shape idx -> ravel shape idx = k -> nth k (all_idx shape) [] = idx.
Proof. intros H <-. apply nth_error_nth, all_idx_nth. auto. Qed.
Lemma first_stage_flat obs a b n shape : t_shape obs = [n] -> b <= n -> b = a + prodn shape ->
  exists v, reshape_t (slice0 a b obs) shape = Ok v /\ t_shape v = shape /\ forall i, in_shape shape i -> t_at v i = t_at obs [a + ravel shape i].
Proof.
  intros S B E. assert (S1 : t_shape (slice0 a b obs) = [prodn shape]) by (unfold slice0; rewrite S; cbn [t_shape]; f_equal; lia).
  unfold reshape_t. rewrite S1. assert (P : prodn [prodn shape] = prodn shape) by (rewrite prodn_cons; cbn; lia). rewrite P, Nat.eqb_refl. eexists. split; [reflexivity|]. split; [reflexivity|]. intros i I. cbn [t_at].
  assert (N : nth (ravel shape i) (all_idx [prodn shape]) [] = [ravel shape i]). { apply all_idx_nth'; [constructor; [apply ravel_lt; auto|constructor]|]. cbn. lia. }
  rewrite N. unfold slice0. rewrite S. auto.
Qed.
Lemma first_stage_procs obs a b n m shape : t_shape obs = [n; m] -> b <= n -> b = a + prodn shape ->
  t_shape (slice0 a b obs) = [prodn shape; m] /\ forall k p, k < prodn shape -> t_at (slice0 a b obs) [k; p] = t_at obs [a + k; p].
Proof. intros S B E. unfold slice0. rewrite S. cbn [t_shape t_at]. split; [repeat f_equal; lia|auto]. Qed.
Lemma reshape_procs v m shape : t_shape v = [prodn shape; m] ->
  exists w, reshape_t v (shape ++ [m]) = Ok w /\ t_shape w = shape ++ [m] /\ forall i p, in_shape shape i -> p < m -> t_at w (i ++ [p]) = t_at v [ravel shape i; p].
Proof.
  intros S. unfold reshape_t. rewrite S. assert (P : prodn [prodn shape; m] = prodn (shape ++ [m])) by (rewrite prodn_app, !prodn_cons; auto). rewrite P, Nat.eqb_refl. eexists. split; [reflexivity|]. split; [reflexivity|]. intros i p I Hp. cbn [t_at]. f_equal.
  apply all_idx_nth'; [constructor; [apply ravel_lt; auto|constructor; auto; constructor]|]. rewrite ravel_app by auto. cbn. lia.
Qed.
(** the processes a term takes *)
Definition taken (procs sp : list string) : list nat := match sp with [] => seq 0 (List.length procs) | _ => filter (fun p => smem (nth p procs ""%string) sp) (seq 0 (List.length procs)) end.
Lemma proc_positions_from sel : forall procs o, map fst (filter (fun p => smem (snd p) sel) (combine (seq o (List.length procs)) procs)) = filter (fun p => smem (nth (p - o) procs ""%string) sel) (seq o (List.length procs)).
Proof.
  induction procs as [|a procs IH]; intros o; auto. cbn [List.length seq combine filter snd]. rewrite Nat.sub_diag. change (nth 0 (a :: procs) ""%string) with a.
  assert (E : filter (fun p => smem (nth (p - o) (a :: procs) ""%string) sel) (seq (S o) (List.length procs)) = filter (fun p => smem (nth (p - S o) procs ""%string) sel) (seq (S o) (List.length procs))).
  { apply filter_ext_in. intros p I. apply in_seq in I. replace (p - o) with (S (p - S o)) by lia. auto. }
  rewrite E, <- IH. destruct (smem a sel); auto.
Qed.
Lemma proc_positions_eq procs sp : proc_positions procs sp = filter (fun p => smem (nth p procs ""%string) sp) (seq 0 (List.length procs)).
Proof. unfold proc_positions. rewrite proc_positions_from. apply filter_ext. intros p. rewrite Nat.sub_0_r. auto. Qed.
Lemma taken_gather procs sp n (v : tensor) : t_shape v = [n; List.length procs] -> forallb (fun p => smem p procs) sp = true ->
  let g := match proc_positions procs sp with [] => v | idxs => gather_last idxs v end in
  t_shape g = [n; List.length (taken procs sp)] /\ forall k j, k < n -> j < List.length (taken procs sp) -> t_at g [k; j] = t_at v [k; nth j (taken procs sp) 0].
Proof.
  intros S F. rewrite proc_positions_eq. unfold taken. destruct sp as [|s sp].
  - assert (E : filter (fun p => smem (nth p procs ""%string) []) (seq 0 (List.length procs)) = []) by (induction (seq 0 (List.length procs)); cbn; auto). rewrite E, seq_length. split; auto. intros k j K J. rewrite seq_nth by auto. auto.
  - set (l := filter _ _). destruct l as [|x l'] eqn:El.
    + exfalso. cbn [forallb] in F. apply andb_true_iff in F as (F & _). apply smem_In in F. apply (In_nth _ _ ""%string) in F as (p & Lp & E). assert (I : In p l) by (unfold l; apply filter_In; split; [apply in_seq; lia|]; apply smem_In; rewrite E; cbn; auto). rewrite El in I. destruct I.
    + rewrite <- El. unfold gather_last. rewrite S. cbn [t_shape t_at removelast app]. split; auto.
Qed.
Lemma sum_last v shape m : t_shape v = shape ++ [m] -> t_shape (sum_axis (List.length shape) v) = shape /\ forall i, in_shape shape i -> t_at (sum_axis (List.length shape) v) i = sumR (map (fun p => t_at v (i ++ [p])) (seq 0 m)).
Proof.
  intros S. cbn [sum_axis t_shape t_at]. rewrite S. unfold remove_at. rewrite firstn_app, Nat.sub_diag, firstn_all, skipn_app, skipn_all2 by lia. replace (Datatypes.S (List.length shape) - List.length shape) with 1 by lia. cbn [firstn skipn app]. rewrite !app_nil_r. split; auto.
  intros i I. pose proof (in_shape_len _ _ I) as L. rewrite app_nth2 by lia. rewrite Nat.sub_diag. cbn [nth]. apply sumR_map_ext. intros p _. unfold insert_at. rewrite <- L, firstn_all, skipn_all. auto.
Qed.
(** ** from the values of a channel to the result *)
Lemma goes_tail sel cuts sums tl : forall axes idx, List.length idx = List.length axes -> goes sel cuts sums axes (idx ++ tl) = option_map (fun r => r ++ tl) (goes sel cuts sums axes idx).
Proof.
  induction axes as [|a axes IH]; intros [|i q] L; try discriminate; [cbn; destruct tl; auto|]. cbn [app goes]. rewrite IH by (cbn in L; lia). destruct (moved _ _ _ i); auto. destruct (goes sel cuts sums axes q); auto. cbn [option_map]. destruct (_ || _); auto.
Qed.
Lemma plain_bounded sel axes : plain sel axes -> forall a, In a axes -> bounded sel a.
Proof. intros P a I s E. apply (P a s); auto. Qed.
Lemma combine_sizes sel axes : map (fun p => match dget (ha_name (fst p)) sel with Some s => to_asel (snd p) s | None => APos (seq 0 (snd p)) end) (combine axes (map ha_size axes)) = map (asel_of sel) axes.
Proof. induction axes as [|a axes IH]; cbn; auto. rewrite IH. auto. Qed.
Definition finish (tm : term) (v : tensor) : result tensor := v2 <- select_t (tm_sel tm) v ;; v3 <- seg_steps (tm_seg tm) v2 ;; Ok (reduce_sum (tm_sum tm) v3).
Lemma sized_out sel cuts sums axes : (forall a, In a axes -> bounded sel a) ->
  map (sized cuts) (filter (fun a => negb (smem (ha_name a) sums)) (sel_axes sel axes)) = out_sizes sel cuts sums axes.
Proof.
  unfold sel_axes, out_sizes. induction axes as [|a axes IH]; intros B; auto. cbn [flat_map]. rewrite filter_app, map_app, IH by (intros; apply B; cbn; auto). f_equal. specialize (B a (or_introl eq_refl)). unfold bounded in B. destruct (dget (ha_name a) sel) as [[lo hi st|i]|] eqn:E; cbn [is_at orb filter]; auto.
  - destruct (B _ eq_refl) as (B1 & B2). destruct (slice_plain a lo hi st B1 B2) as (S1 & _). change (ha_name (slice_axis a lo hi st)) with (ha_name a). destruct (smem (ha_name a) sums); auto. cbn [negb map]. unfold sized. change (ha_name (slice_axis a lo hi st)) with (ha_name a). rewrite S1. auto.
  - destruct (smem (ha_name a) sums); auto. cbn [negb map]. unfold sized. cbn [lower upper]. rewrite Nat.sub_0_r. auto.
Qed.
Lemma filter_map_sizes (f : string -> bool) (A B : list haxis) (g : haxis -> nat) : map ha_name A = map ha_name B -> map ha_size A = map g B ->
  map ha_size (filter (fun a => f (ha_name a)) A) = map g (filter (fun a => f (ha_name a)) B).
Proof. revert B. induction A as [|a A IH]; intros [|b B] N S; try discriminate; auto. cbn [map] in N, S. injection N as N N'. injection S as S S'. cbn [filter]. rewrite N. destruct (f (ha_name b)); cbn [map]; [rewrite S|]; rewrite (IH B); auto. Qed.
Theorem finish_cells procs c sp sel rebin sums cuts tm tail v : proper c -> plain sel (ci_axes c) -> NoDup (map fst rebin) -> cuts_for sel rebin (ci_axes c) cuts ->
  term_init procs c sp sel rebin sums = Ok tm -> t_shape v = sizes_of c ++ tail ->
  map ha_size (tm_axes tm) = out_sizes sel cuts sums (ci_axes c) /\
  exists t, finish tm v = Ok t /\ t_shape t = map ha_size (tm_axes tm) ++ tail /\ collects v t (goes sel cuts sums (ci_axes c)).
Proof.
  intros (Fl & ND & Ed & _) Pl Nr (Ec & Hc) E Sv. pose proof (plain_bounded _ _ Pl) as Bd. unfold term_init in E. destruct (negb _); [discriminate|]. destruct (negb _); [discriminate|].
  assert (Cs : chan_shape c = sizes_of c) by (unfold chan_shape; rewrite Fl; auto). rewrite Cs in E. unfold sizes_of in E. rewrite combine_sizes in E. fold (sizes_of c) in E.
  destruct (rebin_loop rebin (sel_axes sel (ci_axes c))) as [rb|] eqn:Rb; [|discriminate]. cbn [rbind] in E. apply ok_inj in E. subst tm. unfold finish. cbn [tm_sel tm_seg tm_sum tm_axes].
  destruct (select_collects (map (asel_of sel) (ci_axes c)) v) as (v2 & V2 & S2 & C2).
  { rewrite Sv, map_length. unfold sizes_of. rewrite firstn_app, map_length, Nat.sub_diag, firstn_all2 by (rewrite map_length; lia). cbn [firstn]. rewrite app_nil_r.
    assert (Q : forall l, (forall a, In a l -> bounded sel a) -> Forall2 asel_fits (map (asel_of sel) l) (map ha_size l)) by (induction l as [|a l IH]; intros B; cbn [map]; constructor; [apply asel_of_fits, B; cbn; auto|apply IH; intros; apply B; cbn; auto]). apply Q. auto. }
  { unfold rank. rewrite Sv, app_length, map_length. unfold sizes_of. rewrite map_length. lia. }
  rewrite V2. cbn [rbind]. rewrite Sv in S2. unfold sizes_of in S2. rewrite sel_shape_eq in S2 by auto.
  destruct (rebin_steps rebin cuts (sel_axes sel (ci_axes c)) tail v2 rb) as (N3 & Z3 & v3 & V3 & S3 & C3); auto.
  { apply sel_axes_NoDup. auto. }
  { intros a I. apply (sel_axes_edges sel (ci_axes c)); auto. }
  { intros a new k I I1 I2. destruct (sel_axes_edges sel (ci_axes c) a Bd Ed I) as (_ & b & Ib & Nb & Eb). rewrite Eb. rewrite Nb in I1, I2. apply Hc; auto. }
  rewrite V3. cbn [rbind]. pose proof (reduce_rules (fun a => smem (ha_name a) sums) (fst rb) 0 [] tail v3 eq_refl S3) as (S4 & C4). cbn [app] in S4.
  split.
  { rewrite (filter_map_sizes (fun n => negb (smem n sums)) (fst rb) (sel_axes sel (ci_axes c)) (sized cuts) N3 Z3). apply sized_out. auto. }
  eexists. split; [reflexivity|]. split; [exact S4|].
  eapply collects_ext; [eapply collects_trans; [exact C2|]; eapply collects_trans; [exact C3|exact C4]|].
  intros i Hi. apply in_shape_len in Hi. rewrite Sv, app_length in Hi. unfold sizes_of in Hi. rewrite map_length in Hi. rewrite <- goes_compose by lia. unfold then_. rewrite asel_rules by auto. destruct (place (map (sel_rule sel) (ci_axes c)) i) as [w|]; auto. destruct (place (merges _ _) w) as [z|]; auto. cbn [repeat app].
  assert (Q : map (summed (fun a => smem (ha_name a) sums)) (fst rb) = map (fun n => if smem n sums then Gone (fun _ => true) else id_rule) (map ha_name (sel_axes sel (ci_axes c)))) by (rewrite <- N3, map_map; auto). rewrite Q. auto.
Qed.
Lemma term_fields procs c sp sel rebin sums tm : term_init procs c sp sel rebin sums = Ok tm -> tm_start tm = ci_start c /\ tm_stop tm = ci_stop c /\ tm_shape tm = chan_shape c /\ tm_procs tm = proc_positions procs sp /\ forallb (fun p => smem p procs) sp = true.
Proof.
  unfold term_init. destruct (forallb (fun p => smem p procs) sp) eqn:F; [|discriminate]. cbn [negb]. destruct (negb _); [discriminate|]. destruct (rebin_loop _ _); [|discriminate]. cbn [rbind]. intros E. apply ok_inj in E. subst tm. cbn. auto.
Qed.
Lemma select_finish tm inclusive obs v : (if Nat.eqb (rank (slice0 (tm_start tm) (tm_stop tm) obs)) 1 then reshape_t (slice0 (tm_start tm) (tm_stop tm) obs) (tm_shape tm)
         else let g := match tm_procs tm with [] => slice0 (tm_start tm) (tm_stop tm) obs | idxs => gather_last idxs (slice0 (tm_start tm) (tm_stop tm) obs) end in
              g' <- reshape_t g (tm_shape tm ++ [nth 1 (t_shape g) 0]) ;;
              Ok (if inclusive : bool then sum_axis (List.length (tm_shape tm)) g' else g')) = Ok v -> term_select tm false inclusive obs = finish tm v.
Proof. intros E. unfold term_select, finish. cbv zeta in *. rewrite E. cbn [rbind]. auto. Qed.
Lemma collects_values v t pl f tail : collects v t pl -> (forall i, in_shape (t_shape v) i -> t_at v i = f i) -> forall j, in_shape (t_shape t) j -> t_shape v = tail -> t_at t j = collected f tail pl j.
Proof. intros (A & B) E j J <-. rewrite B by auto. unfold collected. apply sumR_map_ext. intros i I. apply filter_In in I as (I & _). apply all_idx_In in I. auto. Qed.

Section Term.
Variables (procs : list string) (c : cinfo) (sp : list string) (sel : list (string * selection)) (rebin : list (string * list R)) (sums : list string) (cuts : list (string * list nat)) (tm : term).
Hypothesis (Hc : proper c) (Hp : plain sel (ci_axes c)) (Hr : NoDup (map fst rebin)) (Hu : cuts_for sel rebin (ci_axes c) cuts) (Hi : term_init procs c sp sel rebin sums = Ok tm).
Let sizes := sizes_of c.
Let pl := goes sel cuts sums (ci_axes c).
Lemma chan_sizes : chan_shape c = sizes.
Proof. destruct Hc as (F & _). unfold chan_shape, sizes, sizes_of. rewrite F. auto. Qed.
Theorem flat_cells obs n : t_shape obs = [n] -> ci_stop c <= n ->
  exists t, term_select tm false true obs = Ok t /\ t_shape t = out_sizes sel cuts sums (ci_axes c) /\
    (forall i j, in_shape sizes i -> pl i = Some j -> in_shape (t_shape t) j) /\
    forall j, in_shape (t_shape t) j -> t_at t j = collected (fun i => t_at obs [ci_start c + ravel sizes i]) sizes pl j.
Proof.
  intros So Sn. pose proof Hc as (Fl & ND & Ed & St). destruct (term_fields _ _ _ _ _ _ _ Hi) as (F1 & F2 & F3 & F4 & F5).
  destruct (first_stage_flat obs (ci_start c) (ci_stop c) n sizes So Sn St) as (v & V & Sv & Av).
  assert (Rk : rank (slice0 (tm_start tm) (tm_stop tm) obs) = 1) by (unfold slice0, rank; rewrite So; auto).
  rewrite (select_finish tm true obs v) by (rewrite Rk, F1, F2, F3, chan_sizes; auto).
  destruct (finish_cells procs c sp sel rebin sums cuts tm [] v Hc Hp Hr Hu Hi) as (Z & t & T & S & C); [rewrite app_nil_r; auto|]. rewrite app_nil_r, Z in S.
  exists t. split; auto. split; auto. split; [rewrite <- Sv; apply C|]. intros j J. eapply collects_values; eauto. rewrite Sv. auto.
Qed.
Variables (obs : tensor) (n : nat).
Hypothesis (So : t_shape obs = [n; List.length procs]) (Sn : ci_stop c <= n).
Theorem procs_cells :
  exists t, term_select tm false true obs = Ok t /\ t_shape t = out_sizes sel cuts sums (ci_axes c) /\
    (forall i j, in_shape sizes i -> pl i = Some j -> in_shape (t_shape t) j) /\
    forall j, in_shape (t_shape t) j -> t_at t j = collected (fun i => sumR (map (fun p => t_at obs [ci_start c + ravel sizes i; p]) (taken procs sp))) sizes pl j.
Proof.
  pose proof Hc as (Fl & ND & Ed & St). destruct (term_fields _ _ _ _ _ _ _ Hi) as (F1 & F2 & F3 & F4 & F5).
  destruct (first_stage_procs obs (ci_start c) (ci_stop c) n _ sizes So Sn St) as (S1 & A1).
  destruct (taken_gather procs sp _ _ S1 F5) as (S2 & A2). set (g := match proc_positions procs sp with [] => _ | _ => _ end) in *.
  destruct (reshape_procs g _ sizes S2) as (w & W & Sw & Aw). destruct (sum_last w sizes _ Sw) as (Ss & As).
  assert (Rk : rank (slice0 (tm_start tm) (tm_stop tm) obs) = 2) by (unfold slice0, rank; rewrite So; auto).
  rewrite (select_finish tm true obs (sum_axis (List.length sizes) w)).
  2:{ rewrite Rk, F1, F2, F3, F4, chan_sizes. cbn [Nat.eqb]. fold g. rewrite S2. cbn [nth]. rewrite W. auto. }
  destruct (finish_cells procs c sp sel rebin sums cuts tm [] (sum_axis (List.length sizes) w) Hc Hp Hr Hu Hi) as (Z & t & T & S & C); [rewrite app_nil_r; auto|]. rewrite app_nil_r, Z in S.
  exists t. split; auto. split; auto. split; [rewrite <- Ss; apply C|]. intros j J. eapply collects_values; eauto. rewrite Ss. intros i I. rewrite As by auto. rewrite <- (map_nth_seq 0 (taken procs sp)) at 2. rewrite map_map. apply sumR_map_ext. intros p Ip. apply in_seq in Ip.
  rewrite Aw by (auto; lia). rewrite A2 by (try lia; apply ravel_lt; auto). apply A1. apply ravel_lt; auto.
Qed.
Theorem each_cells :
  exists t, term_select tm false false obs = Ok t /\ t_shape t = out_sizes sel cuts sums (ci_axes c) ++ [List.length (taken procs sp)] /\
    (forall i j p, in_shape sizes i -> p < List.length (taken procs sp) -> pl i = Some j -> in_shape (t_shape t) (j ++ [p])) /\
    forall j k, in_shape (out_sizes sel cuts sums (ci_axes c)) j -> k < List.length (taken procs sp) ->
      t_at t (j ++ [k]) = collected (fun i => t_at obs [ci_start c + ravel sizes i; nth k (taken procs sp) 0]) sizes pl j.
Proof.
  pose proof Hc as (Fl & ND & Ed & St). destruct (term_fields _ _ _ _ _ _ _ Hi) as (F1 & F2 & F3 & F4 & F5).
  destruct (first_stage_procs obs (ci_start c) (ci_stop c) n _ sizes So Sn St) as (S1 & A1).
  destruct (taken_gather procs sp _ _ S1 F5) as (S2 & A2). set (g := match proc_positions procs sp with [] => _ | _ => _ end) in *.
  destruct (reshape_procs g _ sizes S2) as (w & W & Sw & Aw). set (m := List.length (taken procs sp)) in *.
  assert (Rk : rank (slice0 (tm_start tm) (tm_stop tm) obs) = 2) by (unfold slice0, rank; rewrite So; auto).
  rewrite (select_finish tm false obs w).
  2:{ rewrite Rk, F1, F2, F3, F4, chan_sizes. cbn [Nat.eqb]. fold g. rewrite S2. cbn [nth]. rewrite W. auto. }
  destruct (finish_cells procs c sp sel rebin sums cuts tm [m] w Hc Hp Hr Hu Hi Sw) as (Z & t & T & S & C). rewrite Z in S.
  assert (Ls : List.length sizes = List.length (ci_axes c)) by (unfold sizes, sizes_of; rewrite map_length; auto).
  assert (G : forall i p, in_shape sizes i -> goes sel cuts sums (ci_axes c) (i ++ [p]) = option_map (fun r => r ++ [p]) (pl i)) by (intros i p I; apply goes_tail; rewrite (in_shape_len _ _ I); auto).
  exists t. split; auto. split; auto. split.
  - intros i j p I P E. apply (proj1 C (i ++ [p])); [rewrite Sw; apply Forall2_app; auto; constructor; auto; constructor|]. rewrite G, E by auto. auto.
  - intros j k J K. rewrite (proj2 C) by (rewrite S; apply Forall2_app; auto; constructor; auto; constructor). unfold collected. rewrite Sw.
    set (L := map (fun i => i ++ [k]) (filter (hits pl j) (all_idx sizes))).
    transitivity (sumR (map (t_at w) L)).
    + apply sumR_perm, Permutation_map, NoDup_Permutation; [apply NoDup_filter', all_idx_NoDup|apply FinFun.Injective_map_NoDup; [intros x y E; apply app_inj_tail in E; tauto|apply NoDup_filter', all_idx_NoDup]|].
      intros i. unfold L. rewrite filter_In, all_idx_In, hits_true, in_map_iff. split.
      * intros (I & E). apply Forall2_app_inv_l in I as (x & y & X & Y & ->). inversion Y as [|? p ? e P Y']; subst. inversion Y'; subst. rewrite G in E by auto. destruct (pl x) as [r|] eqn:R; [|discriminate]. cbn in E. injection E as E. apply app_inj_tail in E as (-> & ->). exists x. split; auto. apply filter_In. rewrite all_idx_In, hits_true. auto.
      * intros (x & <- & I). apply filter_In in I as (I & H). apply all_idx_In in I. apply hits_true in H. split; [apply Forall2_app; auto; constructor; auto; constructor|]. rewrite G, H by auto. auto.
    + unfold L. rewrite map_map. apply sumR_map_ext. intros i I. apply filter_In in I as (I & _). apply all_idx_In in I. rewrite Aw by (auto; lia). rewrite A2 by (try lia; apply ravel_lt; auto). apply A1. apply ravel_lt; auto.
Qed.
End Term.
