(** Selections, ratios, angular coefficients, composites. *)
From Coq Require Import Reals List Arith ZArith Bool String Lia Lra Permutation.
From Verif Require Import RBase PyList PyDict ListUtil Shape Map_Model Map_Spec Map_Collect Map_Perm Map_Rules Map_Term Map_Merge Map_Select Map_Cells Map_Project Map_Proof Param_Names.
Import ListNotations.
Local Open Scope nat_scope.

(** a request for a part of a channel that the theorems cover *)
Record request := mkReq { rq_chan : cinfo; rq_procs : list string; rq_sel : list (string * selection); rq_rebin : list (string * list R); rq_sums : list string; rq_cuts : list (string * list nat) }.
Definition fair (r : request) : Prop :=
  proper (rq_chan r) /\ plain (rq_sel r) (ci_axes (rq_chan r)) /\ NoDup (map fst (rq_rebin r)) /\ cuts_for (rq_sel r) (rq_rebin r) (ci_axes (rq_chan r)) (rq_cuts r).
Definition init_of (procs : list string) (r : request) : result term := term_init procs (rq_chan r) (rq_procs r) (rq_sel r) (rq_rebin r) (rq_sums r).
Definition out_of (r : request) : list nat := out_sizes (rq_sel r) (rq_cuts r) (rq_sums r) (ci_axes (rq_chan r)).
(** yield of some processes collected in a cell of the result *)
Definition bin_yield (c : cinfo) (ps : list nat) (yields : tensor) (i : list nat) : R := sumR (map (fun p => t_at yields [ci_start c + ravel (sizes_of c) i; p]) ps).
Definition wanted (r : request) (ps : list nat) (yields : tensor) (j : list nat) : R :=
  collected (bin_yield (rq_chan r) ps yields) (sizes_of (rq_chan r)) (goes (rq_sel r) (rq_cuts r) (rq_sums r) (ci_axes (rq_chan r))) j.
Section One.
Variables (procs : list string) (r : request) (tm : term) (yields : tensor) (n : nat).
Hypothesis (Hf : fair r) (Hi : init_of procs r = Ok tm) (Sy : t_shape yields = [n; List.length procs]) (Sn : ci_stop (rq_chan r) <= n).
Lemma axes_sizes : map ha_size (tm_axes tm) = out_of r.
Proof.
  destruct Hf as (A & B & C & D). destruct (finish_cells _ _ _ _ _ _ _ _ [] (mkT (sizes_of (rq_chan r)) (fun _ => 0%R)) A B C D Hi) as (Z & _); auto. cbn [t_shape]. rewrite app_nil_r. auto.
Qed.
Lemma lands i j : in_shape (sizes_of (rq_chan r)) i -> goes (rq_sel r) (rq_cuts r) (rq_sums r) (ci_axes (rq_chan r)) i = Some j -> in_shape (out_of r) j.
Proof.
  destruct Hf as (A & B & C & D). destruct (procs_cells _ _ _ _ _ _ _ _ A B C D Hi yields n Sy Sn) as (t & _ & S & L & _). intros I E. unfold out_of. rewrite <- S. apply (L i j); auto.
Qed.
Theorem by_process : exists t, term_select tm false true yields = Ok t /\ t_shape t = out_of r /\ forall j, in_shape (out_of r) j -> t_at t j = wanted r (taken procs (rq_procs r)) yields j.
Proof.
  destruct Hf as (A & B & C & D). destruct (procs_cells _ _ _ _ _ _ _ _ A B C D Hi yields n Sy Sn) as (t & T & S & _ & V). exists t. split; auto. split; auto. intros j J. apply V. rewrite S. auto.
Qed.
Theorem inclusive_only : exists t, term_select tm false true (sum_axis 1 yields) = Ok t /\ t_shape t = out_of r /\ forall j, in_shape (out_of r) j -> t_at t j = wanted r (seq 0 (List.length procs)) yields j.
Proof.
  destruct Hf as (A & B & C & D). assert (S1 : t_shape (sum_axis 1 yields) = [n]) by (cbn [sum_axis t_shape]; rewrite Sy; auto).
  destruct (flat_cells _ _ _ _ _ _ _ _ A B C D Hi (sum_axis 1 yields) n S1 Sn) as (t & T & S & _ & V). exists t. split; auto. split; auto. intros j J. rewrite V by (rewrite S; auto). unfold wanted, collected. apply sumR_map_ext. intros i _. cbn [sum_axis t_at]. rewrite Sy. auto.
Qed.
Lemma flat_of t f : t_shape t = out_of r -> (forall j, in_shape (out_of r) j -> t_at t j = f j) -> flat t = map f (all_idx (out_of r)).
Proof. intros S V. unfold flat. rewrite S. apply map_ext_in. intros j J. apply all_idx_In in J. auto. Qed.
Theorem wanted_total ps : sumR (map (wanted r ps yields) (all_idx (out_of r))) =
  sumR (map (fun i => match goes (rq_sel r) (rq_cuts r) (rq_sums r) (ci_axes (rq_chan r)) i with Some _ => bin_yield (rq_chan r) ps yields i | None => 0%R end) (all_idx (sizes_of (rq_chan r)))).
Proof. unfold wanted. apply collected_total. apply lands. Qed.
(** normalised *)
Theorem normalized obs f : (exists t, term_select tm false true obs = Ok t /\ t_shape t = out_of r /\ forall j, in_shape (out_of r) j -> t_at t j = f j) ->
  exists t, term_select tm true true obs = Ok t /\ t_shape t = out_of r /\ forall j, in_shape (out_of r) j -> t_at t j = (f j / sumR (map f (all_idx (out_of r))))%R.
Proof.
  intros (t & T & S & V). unfold term_select in *. cbv zeta in *. destruct (if rank _ =? 1 then _ else _) as [v1|]; [|discriminate]. cbn [rbind] in *. destruct (select_t _ v1) as [v2|]; [|discriminate]. cbn [rbind] in *. destruct (seg_steps _ v2) as [v3|]; [|discriminate]. cbn [rbind] in *. apply ok_inj in T. subst t.
  eexists. split; [reflexivity|]. cbn [map_t t_shape t_at]. split; auto. intros j J. rewrite V by auto. f_equal. f_equal. unfold total. rewrite (flat_of _ f S V). auto.
Qed.
End One.
(** ** Select *)
Theorem select_value procs r m yields n : fair r -> select_mapping procs (rq_chan r) (rq_procs r) (rq_sel r) (rq_rebin r) (rq_sums r) = Ok m -> t_shape yields = [n; List.length procs] -> ci_stop (rq_chan r) <= n ->
  map ha_size (mp_axes m) = out_of r /\ evaluate m yields = Ok (map (wanted r (seq 0 (List.length procs)) yields) (all_idx (out_of r))).
Proof.
  intros Hf M Sy Sn. unfold select_mapping in M. destruct (term_init _ _ _ _ _ _) as [tm|] eqn:T; [|discriminate]. cbn [rbind] in M. apply ok_inj in M. subst m. cbn [channel_mapping mp_axes mp_flat]. split; [apply (axes_sizes procs r tm); auto|].
  unfold evaluate. cbn [channel_mapping mp_needs_procs mp_flat]. destruct (inclusive_only procs r tm yields n Hf T Sy Sn) as (t & -> & S & V). cbn [rbind]. unfold out_flat. cbn [rbind]. f_equal. apply flat_of; auto.
Qed.
(** ** ratios *)
Definition kind_value (k : ratio_kind) (x y sx sy : R) : R :=
  match k with KRatio => x / y | KNormratio => (x / sx) / (y / sy) | KAsymmetry => (x - y) / (x + y) | KDifference => x / sx - y / sy end%R.
Theorem ratio_value k procs a b m yields n : fair a -> fair b ->
  ratio_mapping k procs (rq_chan a) (rq_chan b) (rq_procs a) (rq_procs b) (rq_sel a) (rq_sel b) (rq_rebin a) (rq_rebin b) (rq_sums a) (rq_sums b) = Ok m ->
  t_shape yields = [n; List.length procs] -> ci_stop (rq_chan a) <= n -> ci_stop (rq_chan b) <= n ->
  let x := wanted a (taken procs (rq_procs a)) yields in let y := wanted b (taken procs (rq_procs b)) yields in
  out_of a = out_of b /\
  evaluate m yields = Ok (map (fun j => kind_value k (x j) (y j) (sumR (map x (all_idx (out_of a)))) (sumR (map y (all_idx (out_of a))))) (all_idx (out_of a))).
Proof.
  intros Fa Fb M Sy Na Nb x y. unfold ratio_mapping in M. destruct (term_init procs (rq_chan a) _ _ _ _) as [ta|] eqn:Ta; [|discriminate]. cbn [rbind] in M. destruct (term_init procs (rq_chan b) _ _ _ _) as [tb|] eqn:Tb; [|discriminate]. cbn [rbind] in M.
  destruct (list_eq_dec Nat.eq_dec (map ha_size (tm_axes ta)) (map ha_size (tm_axes tb))) as [E|]; [|discriminate]. cbn [negb] in M. apply ok_inj in M. subst m.
  rewrite (axes_sizes procs a ta) in E by auto. rewrite (axes_sizes procs b tb) in E by auto. split; auto.
  unfold evaluate. cbn [mp_needs_procs mp_flat]. set (needs := _ || _). set (obs := if needs then yields else sum_axis 1 yields).
  assert (Ga : exists t, term_select ta false true obs = Ok t /\ t_shape t = out_of a /\ forall j, in_shape (out_of a) j -> t_at t j = x j).
  { subst obs. destruct needs eqn:Ne; [apply (by_process procs a ta yields n); auto|]. apply orb_false_iff in Ne as (Ne & _). destruct (rq_procs a) eqn:Pa; [|discriminate]. unfold x. apply (inclusive_only procs a ta yields n); auto. unfold init_of. rewrite Pa. auto. }
  assert (Gb : exists t, term_select tb false true obs = Ok t /\ t_shape t = out_of b /\ forall j, in_shape (out_of b) j -> t_at t j = y j).
  { subst obs. destruct needs eqn:Ne; [apply (by_process procs b tb yields n); auto|]. apply orb_false_iff in Ne as (_ & Ne). destruct (rq_procs b) eqn:Pb; [|discriminate]. unfold y. apply (inclusive_only procs b tb yields n); auto. unfold init_of. rewrite Pb. auto. }
  assert (Z : forall t t' f g h, t_shape t = out_of a -> (forall j, in_shape (out_of a) j -> t_at t j = f j) -> t_shape t' = out_of b -> (forall j, in_shape (out_of b) j -> t_at t' j = g j) -> out_flat (zip_t h t t') = Ok (map (fun j => h (f j) (g j)) (all_idx (out_of a)))).
  { intros t t' f g h S1 V1 S2 V2. unfold zip_t. destruct (list_eq_dec Nat.eq_dec (t_shape t) (t_shape t')) as [Q|Q]; [|exfalso; apply Q; congruence]. unfold out_flat. cbn [rbind]. f_equal. unfold flat. cbn [t_shape t_at]. rewrite S1. apply map_ext_in. intros j J. apply all_idx_In in J. rewrite V1, V2; auto. rewrite <- E. auto. }
  unfold ratio_compute. destruct k; cbv zeta.
  - destruct Ga as (t & -> & S1 & V1). destruct Gb as (t' & -> & S2 & V2). cbn [rbind]. rewrite (Z t t' x y) by auto. auto.
  - destruct (normalized a ta obs x Ga) as (t & -> & S1 & V1). destruct (normalized b tb obs y Gb) as (t' & -> & S2 & V2). cbn [rbind]. rewrite (Z t t' _ _ _ S1 V1 S2 V2). rewrite <- E. auto.
  - destruct Ga as (t & -> & S1 & V1). destruct Gb as (t' & -> & S2 & V2). cbn [rbind]. rewrite (Z t t' x y) by auto. auto.
  - destruct (normalized a ta obs x Ga) as (t & -> & S1 & V1). destruct (normalized b tb obs y Gb) as (t' & -> & S2 & V2). cbn [rbind]. rewrite (Z t t' _ _ _ S1 V1 S2 V2). rewrite <- E. auto.
Qed.
(** ** composites *)
Fixpoint each_alone (ms : list mapping) (yields : tensor) : result (list R) :=
  match ms with [] => Ok [] | m :: r => x <- evaluate m yields ;; rest <- each_alone r yields ;; Ok (x ++ rest) end.
Definition no_procs (m : mapping) : Prop := mp_needs_procs m = false.
Lemma existsb_none ms : Forall no_procs ms -> existsb mp_needs_procs ms = false.
Proof. induction 1 as [|m ms H F IH]; cbn; auto. rewrite H, IH. auto. Qed.
Theorem composite_uniform ms yields : Forall no_procs ms \/ Forall (fun m => mp_needs_procs m = true) ms -> evaluate (composite_mapping ms) yields = each_alone ms yields.
Proof.
  intros [F|F]; unfold evaluate; cbn [composite_mapping mp_needs_procs mp_flat].
  - rewrite existsb_none by auto. induction F as [|m ms H F IH]; cbn [composite_loop each_alone]; auto. cbn [andb rbind]. unfold evaluate at 1. rewrite H. destruct (mp_flat m (sum_axis 1 yields)); auto. cbn [rbind]. rewrite IH. auto.
  - destruct ms as [|m0 ms0]; [reflexivity|]. assert (Ne : existsb mp_needs_procs (m0 :: ms0) = true) by (inversion F as [|? ? H _]; subst; cbn; rewrite H; auto). rewrite Ne. clear Ne. induction F as [|m ms H F IH]; cbn [composite_loop each_alone]; auto. unfold evaluate at 1. rewrite H. cbn [andb negb rbind]. destruct (mp_flat m yields); auto. cbn [rbind]. rewrite IH. auto.
Qed.
Theorem composite_last ms m yields : Forall (fun m => mp_needs_procs m = true) ms -> rank yields = 2 -> evaluate (composite_mapping (ms ++ [m])) yields = each_alone (ms ++ [m]) yields.
Proof.
  intros F Rk. destruct (mp_needs_procs m) eqn:E; [apply composite_uniform; right; apply Forall_app; auto|]. destruct ms as [|m0 ms0]; [apply composite_uniform; left; constructor; auto|].
  unfold evaluate. cbn [composite_mapping mp_needs_procs mp_flat]. assert (Ne : existsb mp_needs_procs ((m0 :: ms0) ++ [m]) = true) by (inversion F as [|? ? H _]; subst; cbn; rewrite H; auto). rewrite Ne. clear Ne.
  induction F as [|q ms H F IH]; cbn [app composite_loop each_alone].
  - rewrite E, Rk. cbn [andb negb Nat.ltb Nat.leb rbind]. unfold evaluate. rewrite E. auto.
  - unfold evaluate at 1. rewrite H. cbn [andb negb rbind]. destruct (mp_flat q yields); auto. cbn [rbind]. rewrite IH. auto.
Qed.
(** two parts without processes beside one with: an exception, always *)
Lemma loop_flat_fails : forall ms obs x, rank obs <= 1 -> Exists no_procs ms -> composite_loop true ms obs <> Ok x.
Proof.
  induction ms as [|m ms IH]; intros obs x Rk Ex; [inversion Ex|]. cbn [composite_loop]. destruct (mp_needs_procs m) eqn:E; cbn [andb negb].
  - cbn [rbind]. destruct (mp_flat m obs) as [y|]; [|discriminate]. cbn [rbind]. inversion Ex as [? ? H|? ? H]; subst; [unfold no_procs in H; congruence|]. destruct (composite_loop true ms obs) as [z|] eqn:Z; [|discriminate]. exfalso. eapply IH; eauto.
  - destruct (Nat.ltb_spec 1 (rank obs)); [lia|]. discriminate.
Qed.
Theorem composite_two_fail a p b q c yields x : no_procs p -> no_procs q -> existsb mp_needs_procs (a ++ p :: b ++ q :: c) = true -> rank yields = 2 -> evaluate (composite_mapping (a ++ p :: b ++ q :: c)) yields <> Ok x.
Proof.
  intros Hp Hq Ne Rk. unfold evaluate. cbn [composite_mapping mp_needs_procs mp_flat]. rewrite Ne. clear Ne. revert x yields Rk. 
  assert (G : forall a obs x, rank obs <= 2 -> composite_loop true (a ++ p :: b ++ q :: c) obs <> Ok x); [|intros; apply G; lia].
  clear a. induction a as [|m a IH]; intros obs x Rk; cbn [app composite_loop].
  - rewrite Hp. cbn [andb negb]. destruct (1 <? rank obs) eqn:L; [|discriminate]. cbn [rbind]. destruct (mp_flat p _) as [y|]; [|discriminate]. cbn [rbind]. destruct (composite_loop true (b ++ q :: c) (sum_axis 1 obs)) as [z|] eqn:Z; [|discriminate]. exfalso. eapply loop_flat_fails; [| |exact Z]; [|apply Exists_exists; exists q; split; auto; apply in_app_iff; cbn; auto].
    apply Nat.ltb_lt in L. unfold rank in *. cbn [sum_axis t_shape]. rewrite remove_len; lia.
  - destruct (mp_needs_procs m); cbn [andb negb].
    + cbn [rbind]. destruct (mp_flat m obs) as [y|]; [|discriminate]. cbn [rbind]. destruct (composite_loop true (a ++ p :: b ++ q :: c) obs) as [z|] eqn:Z; [|discriminate]. exfalso. eapply IH; eauto.
    + destruct (1 <? rank obs) eqn:L; [|discriminate]. cbn [rbind]. destruct (mp_flat m _) as [y|]; [|discriminate]. cbn [rbind]. destruct (composite_loop true (a ++ p :: b ++ q :: c) (sum_axis 1 obs)) as [z|] eqn:Z; [|discriminate]. exfalso. eapply IH; [|exact Z]. apply Nat.ltb_lt in L. unfold rank in *. cbn [sum_axis t_shape]. rewrite remove_len; lia.
Qed.
