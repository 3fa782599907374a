(** Parameter models: C42, C43, C44, C45, C46, C67, C68. *)
From Coq Require Import Reals List Arith ZArith Bool String Lia Lra.
From Verif Require Import RBase PyList PyDict ListUtil Shape Writer_Model Yields_Model Init_Model Param_Model Param_Spec Param_Comp Param_Mix Param_Axis Param_Sat Param_Region Param_Abcd Param_Smooth Param_SmoothModel Param_Names Param_Setup.
Import ListNotations.
Local Open Scope nat_scope.

(** ** C42 *)
Theorem C42_parameter_table c ls : built c ls -> Forall sized_model ls ->
  sized_model c /\ table c = joined_rows (map table ls) /\ (forall m, In m ls -> (0 < m_npoi m)%nat -> m_allowneg m = m_allowneg c).
Proof. exact (composite_table c ls). Qed.
Theorem C42_scale_is_product c ls x : built c ls -> Forall sized_model ls -> List.length x = nparams c ->
  exists xs, Forall2 (fun m v => List.length v = nparams m) ls xs /\
    combine (table c) x = joined (map (fun p => combine (table (fst p)) (snd p)) (combine ls xs)) /\
    forall full,
    (forall r, m_compute c x full = Ok r -> exists rs, Forall2 (fun mv r => m_compute (fst mv) (snd mv) full = Ok r) (combine ls xs) rs) /\
    (forall n rs, Forall2 (fun mv r => m_compute (fst mv) (snd mv) full = Ok r) (combine ls xs) rs -> Forall (fun r => rn_fits r n = true) rs ->
       exists r, m_compute c x full = Ok r /\ product_of n rs r).
Proof. exact (composite_product c ls x). Qed.
(** the same with a value for each name *)
Theorem C42_product_by_name c ls (env : string -> R) full n rs : built c ls -> Forall sized_model ls ->
  Forall2 (fun m r => m_compute m (map env (m_params m)) full = Ok r) ls rs -> Forall (fun r => rn_fits r n = true) rs ->
  exists r, m_compute c (map env (m_params c)) full = Ok r /\ product_of n rs r.
Proof.
  intros B S F1 F2. destruct (proj1 (built_env env) c ls B S full) as (_ & H). apply (H n rs); auto. clear - F1. induction F1; cbn [map combine]; constructor; auto.
Qed.
Theorem C42_groups ms an c q : composite ms an = Ok c -> (match dget q (m_groups c) with Some l => l | None => [] end) = group_members q ms.
Proof. exact (composite_groups ms an c q). Qed.
Theorem C42_linear n full ms an c : composite ms an = Ok c -> m_linear c = true ->
  (forall m, In m ms -> m_linear m = true -> affine_model n m full) ->
  (forall m, In m ms -> forall v r, m_compute m v full = Ok r -> rn_fits r n = true) ->
  affine_model n c full /\ (m_allowneg c = true \/ nparams c = 0%nat).
Proof. exact (composite_linear n full ms an c). Qed.
Theorem C42_accepts ms an : ms <> [] ->
  (forall m m', In m ms -> In m' ms -> (0 < m_npoi m)%nat -> (0 < m_npoi m')%nat -> m_allowneg m = m_allowneg m') ->
  (forall a m, an = Some a -> In m ms -> (0 < m_npoi m)%nat -> m_allowneg m = a) -> exists c, composite ms an = Ok c.
Proof. exact (composite_accepts ms an). Qed.

(** a channel with two axes, a masked one with one *)
Definition axx := mkAxis "x" 2 [1/2; 3/2]%R [0; 1; 2]%R.
Definition axy := mkAxis "y" 3 [1; 3; 5]%R [0; 2; 4; 6]%R.
Definition axz := mkAxis "z" 2 [1/2; 3/2]%R [0; 1; 2]%R.
Definition dx : pdata := mkPd ["a"; "b"; "c"; "d"]%string ["a"]%string
  [("ch"%string, mkChan [axx; axy] false 0); ("mk"%string, mkChan [axz] true 6)] 6 8 (fun b j => INR (b + 1)).
Definition get (r : result model) : model := match r with Ok m => m | Raise _ => ones_model end.
Definition at_xy (i j : Z) : region := mkRegion "ch" [("x"%string, i); ("y"%string, j)].
Definition ab := get (abcd_model dx "d" (at_xy 0 0) (at_xy 0 1) (at_xy 1 0) (at_xy 1 1) false).
Definition mu := get (mu_model dx None false).
Ltac run := lazy -[IZR Rplus Rmult Rminus Rdiv Rinv Ropp Reqb abcd_d abcd_mc ext_d ext_mc sq Rsqr eps10 exp ln sqrt INR].
Example C42_example : exists c r, composite [ab; mu] None = Ok c /\
  m_params c = ["a"; "d_ch_x0_y0"; "d_ch_x0_y1"; "d_ch_x1_y0"]%string /\ m_npoi c = 1 /\ m_npou c = 3 /\
  m_compute c [5; 2; 1; 3]%R true = Ok r /\ rn_bcast r 4 3 = 36%R /\ rn_bcast r 4 0 = 5%R /\ rn_bcast r 0 3 = 4%R /\ rn_bcast r 2 3 = 1%R.
Proof.
  eexists. eexists. split; [reflexivity|]. split; [reflexivity|]. split; [reflexivity|]. split; [reflexivity|]. split; [reflexivity|].
  run. unfold abcd_d, sq, safe0. rewrite Reqb_false by lra. repeat split; field.
Qed.

(** ** C68 *)
Theorem C68_signal_strengths d e an m env full others : mu_model d e an = Ok m -> NoDup (pd_procs d) -> pd_procs d = pd_signals d ++ others ->
  m_params m = pd_signals d /\
  exists r, m_compute m (map env (m_params m)) full = Ok r /\ (forall n, rn_fits r n = true) /\
    forall b j p, nth_error (pd_procs d) j = Some p -> rn_bcast r b j = if smem p (pd_signals d) then env p else 1%R.
Proof. intros H N E. split; [apply (mu_sized d e an m H)|exact (mu_spec d e an m env full others H N E)]. Qed.
Example C68_example : exists r, m_compute mu [7]%R false = Ok r /\ rn_bcast r 3 0 = 7%R /\ rn_bcast r 3 1 = 1%R.
Proof. eexists. split; [reflexivity|]. cbn. auto. Qed.
(** the strengths go to the first processes: signals must come first in the process list *)
Theorem C68_signals_not_first_refuted : exists d m r, mu_model d None false = Ok m /\ NoDup (pd_procs d) /\ incl (pd_signals d) (pd_procs d) /\
  m_params m = ["s"]%string /\ nth_error (pd_procs d) 0 = Some "b"%string /\ m_compute m [7]%R false = Ok r /\ rn_bcast r 0 0 = 7%R /\ rn_bcast r 0 1 = 1%R.
Proof.
  exists (mkPd ["b"; "s"]%string ["s"]%string [] 0 0 (fun _ _ => 0%R)). eexists. eexists. split; [reflexivity|]. split; [repeat constructor; cbn; intuition discriminate|].
  split; [intros x [<-|[]]; cbn; auto|]. split; [reflexivity|]. split; [reflexivity|]. split; [reflexivity|]. cbn. auto.
Qed.

(** ** C43 *)
(** missing: lists of processes that are not in the order of the process axis (see the refutation) *)
Theorem C43_mixture_partial d ps cs e an m x full : mixture_model d ps cs e an = Ok m -> NoDup (pd_procs d) ->
  subseq ps (pd_procs d) -> subseq cs (pd_procs d) -> (forall s, In s ps -> ~ In s cs) -> List.length x = nparams m ->
  m_params m = map (fun pc => (fst pc ++ "_" ++ snd pc ++ "_mixing")%string) (combine ps cs) /\ nparams m = List.length ps /\
  exists r, m_compute m x full = Ok r /\ (forall n, rn_fits r n = true) /\ mixes d ps cs x r.
Proof. exact (mixture_spec d ps cs e an m x full). Qed.
(** what happens for any order: the pairs are formed after sorting both lists by the process axis *)
Theorem C43_mixture_sorted d ps cs e an m x full : mixture_model d ps cs e an = Ok m -> NoDup (pd_procs d) -> NoDup ps -> NoDup cs -> (forall s, In s ps -> ~ In s cs) ->
  List.length x = nparams m ->
  exists r, m_compute m x full = Ok r /\ (forall n, rn_fits r n = true) /\
    mixes d (filter (fun s => smem s ps) (pd_procs d)) (filter (fun s => smem s cs) (pd_procs d)) x r.
Proof.
  intros H ND N1 N2 D L. unfold mixture_model in H. destruct (Nat.eqb_spec (List.length ps) (List.length cs)) as [E|E]; [|discriminate]. cbn [negb] in H.
  destruct (forallb (fun p => smem p (pd_procs d)) ps) eqn:F1; [|discriminate]. destruct (forallb (fun p => smem p (pd_procs d)) cs) eqn:F2; [|discriminate]. cbn [negb] in H.
  destruct (set_param_default _ _ e an) as [dft|]; [|discriminate]. cbn [rbind] in H. apply ok_inj in H. subst m. cbn [m_compute simple_model]. unfold nparams in L. cbn in L.
  rewrite forallb_forall in F1, F2. apply mixture_axis_order; auto; try (intros s I; apply smem_In; auto); lia.
Qed.
Example C43_example : exists m r, mixture_model dx ["a"; "c"]%string ["b"; "d"]%string None false = Ok m /\ m_params m = ["a_b_mixing"; "c_d_mixing"]%string /\
  m_compute m [1/4; 2/3]%R true = Ok r /\ rn_bcast r 0 0 = (1/4)%R /\ rn_bcast r 0 1 = (3/4)%R /\ rn_bcast r 5 2 = (2/3)%R /\ rn_bcast r 5 3 = (1/3)%R.
Proof. eexists. eexists. split; [reflexivity|]. split; [reflexivity|]. split; [reflexivity|]. run. repeat split; field. Qed.
(** the parameter called c_b_mixing scales a and b *)
Theorem C43_named_pair_refuted : exists m r, mixture_model dx ["c"; "a"]%string ["b"; "d"]%string None false = Ok m /\ m_params m = ["c_b_mixing"; "a_d_mixing"]%string /\
  m_compute m [1/4; 1]%R true = Ok r /\ rn_bcast r 0 0 = (1/4)%R /\ rn_bcast r 0 1 = (3/4)%R /\ rn_bcast r 0 2 = 1%R /\ rn_bcast r 0 3 = 0%R.
Proof. eexists. eexists. split; [reflexivity|]. split; [reflexivity|]. split; [reflexivity|]. run. repeat split; field. Qed.
(** a process mixed with itself *)
Theorem C43_same_process_refuted : exists m r, mixture_model dx ["a"]%string ["a"]%string None false = Ok m /\
  m_compute m [1/4]%R true = Ok r /\ rn_bcast r 0 0 = (3/4)%R.
Proof. eexists. eexists. split; [reflexivity|]. split; [reflexivity|]. run. field. Qed.

(** ** C44 *)
(** missing in these three and in the saturated one: axes requested in another order than that of the channel (refuted below) *)
Theorem C44_axis_norm_partial d channel spec names e m c env full : axis_norm d channel spec names e = Ok m -> layout d -> NoDup (pd_procs d) ->
  dget channel (pd_channels d) = Some c -> named_axes c -> subseq names (map ax_name (cn_axes c)) ->
  let procs := match spec with None => pd_procs d | Some l => l end in NoDup procs ->
  exists r, m_compute m (map env (m_params m)) full = Ok r /\
    scales d full r (fun k _ idx p => if String.eqb k channel && smem p procs
                                      then (env (named "norm" p names (cn_axes c) idx) * env (named "norm" p names (cn_axes c) idx))%R else 1%R).
Proof. exact (axis_norm_spec d channel spec names e m c env full). Qed.
Theorem C44_axis_exp_partial d channel spec sn cells slopes m c env full : axis_exp d channel spec sn cells slopes = Ok m -> layout d -> NoDup (pd_procs d) ->
  dget channel (pd_channels d) = Some c -> named_axes c -> subseq cells (map ax_name (cn_axes c)) ->
  let sl := match slopes with None => cells | Some l => l end in subseq sl (map ax_name (cn_axes c)) ->
  List.length (ax_centers (axis_named c sn)) = ax_size (axis_named c sn) ->
  let procs := match spec with None => pd_procs d | Some l => l end in NoDup procs ->
  exists r, m_compute m (map env (m_params m)) full = Ok r /\
    scales d full r (fun k _ idx p => if String.eqb k channel && smem p procs
      then exp (env (named "lnAmpl" p cells (cn_axes c) idx) + env (named "slope" p sl (cn_axes c) idx) * unit_pos (axis_named c sn) (coord (cn_axes c) idx sn))%R else 1%R).
Proof. exact (axis_exp_spec d channel spec sn cells slopes m c env full). Qed.
Theorem C44_axis_bernstein_partial d channel spec sn cells e m c env full : axis_bernstein d channel spec sn cells e = Ok m -> layout d -> NoDup (pd_procs d) ->
  dget channel (pd_channels d) = Some c -> named_axes c -> subseq cells (map ax_name (cn_axes c)) ->
  List.length (ax_centers (axis_named c sn)) = ax_size (axis_named c sn) ->
  let procs := match spec with None => pd_procs d | Some l => l end in NoDup procs ->
  exists r, m_compute m (map env (m_params m)) full = Ok r /\
    scales d full r (fun k _ idx p => if String.eqb k channel && smem p procs
      then let u := unit_pos (axis_named c sn) (coord (cn_axes c) idx sn) in
           (ln (1 + exp (env (named "c0" p cells (cn_axes c) idx))) * (1 - u) + ln (1 + exp (env (named "c1" p cells (cn_axes c) idx))) * u)%R else 1%R).
Proof. exact (axis_bernstein_spec d channel spec sn cells e m c env full). Qed.
Theorem C44_saturated_partial d mp an m env full : saturated_model d mp an = Ok m -> layout d -> subseq (map fst mp) (map fst (pd_channels d)) -> mapping_ok d mp ->
  exists r, m_compute m (map env (m_params m)) full = Ok r /\ scales d full r (fun k c idx _ => sat_value env mp k c idx).
Proof. exact (saturated_spec d mp an m env full). Qed.
Lemma dx_layout : layout dx.
Proof.
  split; [repeat constructor; cbn; intuition discriminate|]. split; [cbn; auto|]. split; [reflexivity|].
  exists [("ch"%string, mkChan [axx; axy] false 0)], [("mk"%string, mkChan [axz] true 6)]. repeat split; repeat constructor.
Qed.
Example C44_example : exists m r, axis_norm dx "ch" (Some ["b"%string]) ["y"%string] None = Ok m /\ m_params m = ["norm_b_y0"; "norm_b_y1"; "norm_b_y2"]%string /\
  m_compute m [2; 3; 5]%R true = Ok r /\ map (fun b => rn_bcast r b 1) [0; 1; 2; 3; 4; 5; 6; 7] = [4; 9; 25; 4; 9; 25; 1; 1]%R /\ rn_bcast r 2 0 = 1%R.
Proof.
  eexists. eexists. split; [reflexivity|]. split; [reflexivity|]. split; [reflexivity|]. run. split; [|ring]. repeat (apply f_equal2; [ring|]). reflexivity.
Qed.
Example C44_example_sat : exists m r, saturated_model dx [("ch"%string, [axx]); ("mk"%string, [axz])] false = Ok m /\
  m_params m = ["saturated_ch_x0"; "saturated_ch_x1"; "saturated_mk_z0"; "saturated_mk_z1"]%string /\
  m_compute m [2; 3; 5; 7]%R true = Ok r /\ map (fun b => rn_bcast r b 1) [0; 1; 2; 3; 4; 5; 6; 7] = [2; 2; 2; 3; 3; 3; 5; 7]%R.
Proof.
  eexists. eexists. split; [reflexivity|]. split; [reflexivity|]. split; [reflexivity|]. run. repeat (apply f_equal2; [ring|]). reflexivity.
Qed.
(** axes requested in the order y, x: the parameter for y1, x0 (third) scales the bin x0, y2 and not the bin x0, y1 *)
Theorem C44_axis_order_refuted : exists m r, axis_norm dx "ch" (Some ["b"%string]) ["y"; "x"]%string None = Ok m /\ nth_error (m_params m) 2 = Some "norm_b_y1_x0"%string /\
  m_compute m [1; 1; 2; 1; 1; 1]%R true = Ok r /\ rn_bcast r (0 * 3 + 1) 1 = 1%R /\ rn_bcast r (0 * 3 + 2) 1 = 4%R.
Proof. eexists. eexists. split; [reflexivity|]. split; [reflexivity|]. split; [reflexivity|]. run. split; ring. Qed.
Theorem C44_saturated_axis_order_refuted : exists m r, saturated_model dx [("ch"%string, [axy; axx])] false = Ok m /\ nth_error (m_params m) 2 = Some "saturated_ch_y1_x0"%string /\
  m_compute m [1; 1; 2; 1; 1; 1]%R true = Ok r /\ rn_bcast r (0 * 3 + 1) 1 = 1%R /\ rn_bcast r (0 * 3 + 2) 1 = 2%R.
Proof. eexists. eexists. split; [reflexivity|]. split; [reflexivity|]. split; [reflexivity|]. run. split; ring. Qed.
(** a mapping that lists the channels in another order: the parameter of the second channel scales the first *)
Theorem C44_saturated_channel_order_refuted : exists d m r, layout d /\ saturated_model d [("q"%string, [axz]); ("p"%string, [axx])] false = Ok m /\
  m_params m = ["saturated_q_z0"; "saturated_q_z1"; "saturated_p_x0"; "saturated_p_x1"]%string /\ map fst (pd_channels d) = ["p"; "q"]%string /\
  m_compute m [2; 1; 1; 1]%R true = Ok r /\ rn_bcast r 0 0 = 2%R /\ rn_bcast r 2 0 = 1%R.
Proof.
  exists (mkPd ["s"%string] [] [("p"%string, mkChan [axx] false 0); ("q"%string, mkChan [axz] false 2)] 4 4 (fun _ _ => 1%R)). eexists. eexists.
  split; [|split; [reflexivity|]; split; [reflexivity|]; split; [reflexivity|]; split; [reflexivity|]; run; split; ring].
  split; [repeat constructor; cbn; intuition discriminate|]. split; [cbn; auto|]. split; [reflexivity|]. eexists. exists []. split; [rewrite app_nil_r; reflexivity|]. repeat split; repeat constructor.
Qed.
(** a channel of the mapping without axes cannot be evaluated at all *)
Theorem C44_saturated_no_axes_refuted : exists m, saturated_model dx [("ch"%string, [])] false = Ok m /\ nparams m = 1 /\ forall x, m_compute m x true = Raise TypeError.
Proof. eexists. split; [reflexivity|]. split; [reflexivity|]. intros x. reflexivity. Qed.

(** ** C45 *)
(** missing in the ABCD theorems: a scale factor or template of zero where it is divided by *)
Theorem C45_abcd_partial d process rA rB rC rD corr m fs x full :
  abcd_model d process rA rB rC rD corr = Ok m -> layout d -> NoDup (pd_procs d) ->
  Forall (fun r => region_ok d r /\ free_shape d r = fs) [rA; rB; rC; rD] -> disjoint (map (in_region d) [rA; rB; rC; rD]) ->
  List.length x = nparams m ->
  let n := prodn fs in
  let v := fun k l => (nth (k * n + ravel fs l) x 0)²%R in
  nparams m = 3 * n /\
  exists r fD, m_compute m x full = Ok r /\
    scaled_in d process full [(in_region d rA, v 0); (in_region d rB, v 1); (in_region d rC, v 2); (in_region d rD, fD)] r /\
    forall j l bA bB bC bD, nth_error (pd_procs d) j = Some process -> in_region d rA bA l -> in_region d rB bB l -> in_region d rC bC l -> in_region d rD bD l ->
      abcd_relation corr (v 0 l) (v 1 l) (v 2 l) (fD l) (pd_norm d bA j) (pd_norm d bB j) (pd_norm d bC j) (pd_norm d bD j).
Proof. exact (abcd_spec d process rA rB rC rD corr m fs x full). Qed.
Theorem C45_extended_partial d process rA rB rC rD rAx rBx corr m fs x full :
  ext_abcd_model d process rA rB rC rD rAx rBx corr = Ok m -> layout d -> NoDup (pd_procs d) ->
  Forall (fun r => region_ok d r /\ free_shape d r = fs) [rA; rB; rC; rD; rAx; rBx] -> disjoint (map (in_region d) [rA; rB; rC; rD; rAx; rBx]) ->
  List.length x = nparams m ->
  let n := prodn fs in
  let v := fun k l => (nth (k * n + ravel fs l) x 0)²%R in
  nparams m = 5 * n /\
  exists r fD, m_compute m x full = Ok r /\
    scaled_in d process full [(in_region d rA, v 0); (in_region d rB, v 1); (in_region d rC, v 2); (in_region d rD, fD); (in_region d rAx, v 3); (in_region d rBx, v 4)] r /\
    forall j l bA bB bC bD bAx bBx, nth_error (pd_procs d) j = Some process ->
      in_region d rA bA l -> in_region d rB bB l -> in_region d rC bC l -> in_region d rD bD l -> in_region d rAx bAx l -> in_region d rBx bBx l ->
      ext_relation corr (v 0 l) (v 1 l) (v 2 l) (fD l) (v 3 l) (v 4 l) (pd_norm d bA j) (pd_norm d bB j) (pd_norm d bC j) (pd_norm d bD j) (pd_norm d bAx j) (pd_norm d bBx j).
Proof. exact (ext_abcd_spec d process rA rB rC rD rAx rBx corr m fs x full). Qed.
Theorem C45_smooth_partial d ax process rA rB rC rD order corr m os a x full :
  smooth_abcd_model d ax process rA rB rC rD order corr = Ok m -> layout d -> NoDup (pd_procs d) ->
  Forall (fun r => region_ok d r /\ outer_shape d ax r = os) [rA; rB; rC; rD] -> disjoint (map (in_smooth d ax) [rA; rB; rC; rD]) ->
  smooth_axis d ax rA a -> List.length x = nparams m ->
  let no := prodn os in
  let v := fun k (l : list nat * nat) => exp_poly order ((k * no + ravel os (fst l)) * (order + 1)) x (centred a (snd l)) in
  nparams m = 3 * no * (order + 1) /\
  exists r fD, m_compute m x full = Ok r /\
    scaled_in d process full [(in_smooth d ax rA, v 0); (in_smooth d ax rB, v 1); (in_smooth d ax rC, v 2); (in_smooth d ax rD, fD)] r /\
    forall j l bA bB bC bD, nth_error (pd_procs d) j = Some process -> in_smooth d ax rA bA l -> in_smooth d ax rB bB l -> in_smooth d ax rC bC l -> in_smooth d ax rD bD l ->
      abcd_relation corr (v 0 l) (v 1 l) (v 2 l) (fD l) (pd_norm d bA j) (pd_norm d bB j) (pd_norm d bC j) (pd_norm d bD j).
Proof. exact (smooth_abcd_spec d ax process rA rB rC rD order corr m os a x full). Qed.
Theorem C45_smooth_extended_partial d ax process rA rB rC rD rAx rBx order init corr m os a x full :
  smooth_ext_model d ax process rA rB rC rD rAx rBx order init corr = Ok m -> layout d -> NoDup (pd_procs d) ->
  Forall (fun r => region_ok d r /\ outer_shape d ax r = os) [rA; rB; rC; rD; rAx; rBx] -> disjoint (map (in_smooth d ax) [rA; rB; rC; rD; rAx; rBx]) ->
  smooth_axis d ax rA a -> List.length x = nparams m ->
  let no := prodn os in
  let v := fun k (l : list nat * nat) => exp_poly order ((k * no + ravel os (fst l)) * (order + 1)) x (centred a (snd l)) in
  nparams m = 5 * no * (order + 1) /\
  exists r fD, m_compute m x full = Ok r /\
    scaled_in d process full [(in_smooth d ax rA, v 0); (in_smooth d ax rB, v 1); (in_smooth d ax rC, v 2); (in_smooth d ax rD, fD); (in_smooth d ax rAx, v 3); (in_smooth d ax rBx, v 4)] r /\
    forall j l bA bB bC bD bAx bBx, nth_error (pd_procs d) j = Some process -> in_smooth d ax rA bA l -> in_smooth d ax rB bB l -> in_smooth d ax rC bC l -> in_smooth d ax rD bD l -> in_smooth d ax rAx bAx l -> in_smooth d ax rBx bBx l ->
      ext_relation corr (v 0 l) (v 1 l) (v 2 l) (fD l) (v 3 l) (v 4 l) (pd_norm d bA j) (pd_norm d bB j) (pd_norm d bC j) (pd_norm d bD j) (pd_norm d bAx j) (pd_norm d bBx j).
Proof. exact (smooth_ext_spec d ax process rA rB rC rD rAx rBx order init corr m os a x full). Qed.
(** the polynomials the smoothed models use: cos(k t) at cos t *)
Theorem C45_chebyshev k t : chebyshev k (cos t) = cos (INR k * t).
Proof. exact (chebyshev_cos k t). Qed.
(** the wrappers that take the regions from the last bins of "mt" and the first two of "relIso" *)
Theorem C45_isomt_partial d process ch corr m x full n : isomt_abcd d process ch corr = Ok m -> isomt_size d ch = Ok n -> layout d -> NoDup (pd_procs d) -> named_channel d ch -> List.length x = nparams m ->
  let reg := fun iso mt => in_region d (isomt_region ch iso mt) in
  let fs := free_shape d (isomt_region ch 0 0) in
  let v := fun k l => (nth (k * prodn fs + ravel fs l) x 0)²%R in
  nparams m = 3 * prodn fs /\
  exists r fD, m_compute m x full = Ok r /\
    scaled_in d process full [(reg 1 (n - 2), v 0%nat); (reg 0 (n - 2), v 1%nat); (reg 1 (n - 1), v 2%nat); (reg 0 (n - 1), fD)]%Z r /\
    forall j l bA bB bC bD, nth_error (pd_procs d) j = Some process -> reg 1%Z (n - 2)%Z bA l -> reg 0%Z (n - 2)%Z bB l -> reg 1%Z (n - 1)%Z bC l -> reg 0%Z (n - 1)%Z bD l ->
      abcd_relation corr (v 0 l) (v 1 l) (v 2 l) (fD l) (pd_norm d bA j) (pd_norm d bB j) (pd_norm d bC j) (pd_norm d bD j).
Proof. exact (isomt_spec d process ch corr m x full n). Qed.
Theorem C45_isomt_extended_partial d process ch corr m x full n : isomt_ext d process ch corr = Ok m -> isomt_size d ch = Ok n -> layout d -> NoDup (pd_procs d) -> named_channel d ch -> List.length x = nparams m ->
  let reg := fun iso mt => in_region d (isomt_region ch iso mt) in
  let fs := free_shape d (isomt_region ch 0 0) in
  let v := fun k l => (nth (k * prodn fs + ravel fs l) x 0)²%R in
  nparams m = 5 * prodn fs /\
  exists r fD, m_compute m x full = Ok r /\
    scaled_in d process full [(reg 1 (n - 2), v 0%nat); (reg 0 (n - 2), v 1%nat); (reg 1 (n - 1), v 2%nat); (reg 0 (n - 1), fD); (reg 1 (n - 3), v 3%nat); (reg 0 (n - 3), v 4%nat)]%Z r /\
    forall j l bA bB bC bD bAx bBx, nth_error (pd_procs d) j = Some process ->
      reg 1%Z (n - 2)%Z bA l -> reg 0%Z (n - 2)%Z bB l -> reg 1%Z (n - 1)%Z bC l -> reg 0%Z (n - 1)%Z bD l -> reg 1%Z (n - 3)%Z bAx l -> reg 0%Z (n - 3)%Z bBx l ->
      ext_relation corr (v 0 l) (v 1 l) (v 2 l) (fD l) (v 3 l) (v 4 l) (pd_norm d bA j) (pd_norm d bB j) (pd_norm d bC j) (pd_norm d bD j) (pd_norm d bAx j) (pd_norm d bBx j).
Proof. exact (isomt_ext_spec d process ch corr m x full n). Qed.
Theorem C45_isomt_smooth_partial d process ch order corr m a x full n : isomt_smooth d process ch order corr = Ok m -> isomt_size d ch = Ok n -> layout d -> NoDup (pd_procs d) -> named_channel d ch ->
  smooth_axis d "pt" (isomt_region ch 0 0) a -> List.length x = nparams m ->
  let reg := fun iso mt => in_smooth d "pt" (isomt_region ch iso mt) in
  let os := outer_shape d "pt" (isomt_region ch 0 0) in
  let v := fun k (l : list nat * nat) => exp_poly order ((k * prodn os + ravel os (fst l)) * (order + 1)) x (centred a (snd l)) in
  nparams m = 3 * prodn os * (order + 1) /\
  exists r fD, m_compute m x full = Ok r /\
    scaled_in d process full [(reg 1 (n - 2), v 0%nat); (reg 0 (n - 2), v 1%nat); (reg 1 (n - 1), v 2%nat); (reg 0 (n - 1), fD)]%Z r /\
    forall j l bA bB bC bD, nth_error (pd_procs d) j = Some process -> reg 1%Z (n - 2)%Z bA l -> reg 0%Z (n - 2)%Z bB l -> reg 1%Z (n - 1)%Z bC l -> reg 0%Z (n - 1)%Z bD l ->
      abcd_relation corr (v 0 l) (v 1 l) (v 2 l) (fD l) (pd_norm d bA j) (pd_norm d bB j) (pd_norm d bC j) (pd_norm d bD j).
Proof. exact (isomt_smooth_spec d process ch order corr m a x full n). Qed.
Theorem C45_isomt_smooth_extended_partial d process ch order init corr m a x full n : isomt_smooth_ext d process ch order init corr = Ok m -> isomt_size d ch = Ok n -> layout d -> NoDup (pd_procs d) -> named_channel d ch ->
  smooth_axis d "pt" (isomt_region ch 0 0) a -> List.length x = nparams m ->
  let reg := fun iso mt => in_smooth d "pt" (isomt_region ch iso mt) in
  let os := outer_shape d "pt" (isomt_region ch 0 0) in
  let v := fun k (l : list nat * nat) => exp_poly order ((k * prodn os + ravel os (fst l)) * (order + 1)) x (centred a (snd l)) in
  nparams m = 5 * prodn os * (order + 1) /\
  exists r fD, m_compute m x full = Ok r /\
    scaled_in d process full [(reg 1 (n - 2), v 0%nat); (reg 0 (n - 2), v 1%nat); (reg 1 (n - 1), v 2%nat); (reg 0 (n - 1), fD); (reg 1 (n - 3), v 3%nat); (reg 0 (n - 3), v 4%nat)]%Z r /\
    forall j l bA bB bC bD bAx bBx, nth_error (pd_procs d) j = Some process ->
      reg 1%Z (n - 2)%Z bA l -> reg 0%Z (n - 2)%Z bB l -> reg 1%Z (n - 1)%Z bC l -> reg 0%Z (n - 1)%Z bD l -> reg 1%Z (n - 3)%Z bAx l -> reg 0%Z (n - 3)%Z bBx l ->
      ext_relation corr (v 0 l) (v 1 l) (v 2 l) (fD l) (v 3 l) (v 4 l) (pd_norm d bA j) (pd_norm d bB j) (pd_norm d bC j) (pd_norm d bD j) (pd_norm d bAx j) (pd_norm d bBx j).
Proof. exact (isomt_smooth_ext_spec d process ch order init corr m a x full n). Qed.
Theorem C45_default d process rA rB rC rD m fs full :
  abcd_model d process rA rB rC rD false = Ok m -> layout d -> NoDup (pd_procs d) ->
  Forall (fun r => region_ok d r /\ free_shape d r = fs) [rA; rB; rC; rD] -> disjoint (map (in_region d) [rA; rB; rC; rD]) ->
  exists r, m_compute m (m_default m) full = Ok r /\ rn_fits r (nrows d full) = true /\
    forall j p b, nth_error (pd_procs d) j = Some p -> b < nrows d full -> rn_bcast r b j = 1%R.
Proof. exact (abcd_default d process rA rB rC rD m fs full). Qed.
(** the name of the parameter of a bin says its channel and indices *)
Theorem C45_region_names process d r idx c i : global_indices d r = Ok idx -> region_ok d r -> nonneg r -> dget (rg_chan r) (pd_channels d) = Some c -> in_shape (shape_of c) i -> selected c r i ->
  nth_error (region_names process d r) (ravel (free_shape d r) (on_free c r i)) = Some (process ++ "_" ++ rg_chan r ++ "_" ++ label (map ax_name (cn_axes c)) i)%string.
Proof. exact (region_names_at process d r idx c i). Qed.

Definition abc := get (abcd_model dx "d" (at_xy 0 0) (at_xy 0 1) (at_xy 1 0) (at_xy 1 1) true).
(** templates 1, 2, 4 and 5 in A, B, C and D: the yield of D is (4*1)(9*4)/(1*2) = 72 *)
Example C45_example : exists r, m_compute abc [2; 1; 3]%R false = Ok r /\ (rn_bcast r 4 3 * pd_norm dx 4 3 = 72)%R /\ rn_bcast r 0 3 = 4%R /\ rn_bcast r 5 3 = 1%R /\ rn_bcast r 4 2 = 1%R.
Proof.
  eexists. split; [reflexivity|]. run. unfold abcd_d, abcd_mc, safe0, sq. cbn [INR]. repeat rewrite Reqb_false by lra. repeat split; field.
Qed.
(** one row of "x" per region, smoothed along y: at zero coefficients nothing is scaled *)
Definition axm := mkAxis "m" 4 [] [].
Definition axp := mkAxis "pt" 2 [1; 3]%R [0; 4]%R.
Definition axi := mkAxis "relIso" 2 [] [].
Definition di : pdata := mkPd ["q"]%string [] [("ch"%string, mkChan [mkAxis "mt" 3 [] []; axp; axi] false 0)] 12 12 (fun b j => INR (b + 1)).
Example C45_example_smooth : exists m r, isomt_smooth di "q" "ch" 1 false = Ok m /\ 
  m_params m = ["q_ch_A_outer0_poly0"; "q_ch_A_outer0_poly1"; "q_ch_B_outer0_poly0"; "q_ch_B_outer0_poly1"; "q_ch_C_outer0_poly0"; "q_ch_C_outer0_poly1"]%string /\
  m_compute m [0; 2; 0; 0; 0; 0]%R false = Ok r /\ rn_bcast r 5 0 = exp (-1) /\ rn_bcast r 7 0 = exp 1 /\ rn_bcast r 8 0 = (exp (-1) * exp 0 / exp 0)%R /\ rn_bcast r 10 0 = (exp 1 * exp 0 / exp 0)%R /\ rn_bcast r 0 0 = 1%R.
Proof.
  eexists. eexists. split; [reflexivity|]. split; [reflexivity|]. split; [reflexivity|].
  lazy -[IZR Rplus Rmult Rminus Rdiv Rinv Ropp Reqb Rltb abcd_d exp].
  rewrite Rltb_true by lra. unfold abcd_d, safe0. pose proof (exp_pos (0 * 1 + (0 * (2 * (1 - 0) / (4 - 0) - 1) + 0))). pose proof (exp_pos (0 * 1 + (0 * (2 * (3 - 0) / (4 - 0) - 1) + 0))).
  rewrite !Reqb_false by lra. repeat split; repeat (f_equal; try field).
Qed.
(** with no yields in B the relation fails *)
Theorem C45_zero_denominator_refuted : exists r, m_compute ab [1; 0; 1]%R false = Ok r /\ rn_bcast r 0 3 = 1%R /\ rn_bcast r 1 3 = 0%R /\ rn_bcast r 3 3 = 1%R /\
  (rn_bcast r 4 3 * rn_bcast r 1 3 <> rn_bcast r 0 3 * rn_bcast r 3 3)%R.
Proof.
  eexists. split; [reflexivity|]. run. unfold abcd_d, safe0, sq, eps10. rewrite Reqb_true by lra. repeat split; try ring. lra.
Qed.
(** with the correction the prediction of D at the defaults is A C / B, not the template of D *)
Theorem C45_default_corrected_refuted : exists r, m_compute abc (m_default abc) false = Ok r /\ (rn_bcast r 4 3 * pd_norm dx 4 3 = 2)%R /\ pd_norm dx 4 3 = 5%R.
Proof.
  eexists. split; [reflexivity|]. run. unfold abcd_d, abcd_mc, safe0, sq. cbn [INR]. repeat rewrite Reqb_false by lra. split; field.
Qed.
(** without templates in B the corrected relation fails: B predicts 0, A and C do not *)
Theorem C45_empty_template_refuted : exists d m r, abcd_model d "d" (at_xy 0 0) (at_xy 0 1) (at_xy 1 0) (at_xy 1 1) true = Ok m /\ layout d /\
  m_compute m [1; 1; 1]%R false = Ok r /\
  (rn_bcast r 4 0 * pd_norm d 4 0 * (rn_bcast r 1 0 * pd_norm d 1 0) <> rn_bcast r 0 0 * pd_norm d 0 0 * (rn_bcast r 3 0 * pd_norm d 3 0))%R.
Proof.
  exists (mkPd ["d"]%string [] [("ch"%string, mkChan [axx; axy] false 0)] 6 6 (fun b j => if Nat.eqb b 1 then 0%R else 1%R)). eexists. eexists.
  split; [reflexivity|]. split.
  - split; [repeat constructor; cbn; intuition discriminate|]. split; [cbn; auto|]. split; [reflexivity|]. eexists. exists []. split; [rewrite app_nil_r; reflexivity|]. repeat split; repeat constructor.
  - split; [reflexivity|]. run. unfold abcd_d, abcd_mc, safe0, sq. rewrite (Reqb_true 0 0) by lra. repeat rewrite Reqb_false by lra. lra.
Qed.
(** regions whose free axes come in another order are accepted: the scale factor for x0, y1 of A acts on y0, x1 of D *)
Theorem C45_axis_order_refuted : exists d m r, layout d /\ abcd_model d "q" (mkRegion "p" [("m"%string, 0%Z)]) (mkRegion "p" [("m"%string, 1%Z)]) (mkRegion "p" [("m"%string, 2%Z)]) (mkRegion "o" []) false = Ok m /\
  nth_error (m_params m) 1 = Some "q_p_m0_x0_y1"%string /\
  dget "o"%string (pd_channels d) = Some (mkChan [axy; axx] false 24) /\
  m_compute m (upd_nth 1 2%R (repeat 1%R 18)) false = Ok r /\
  rn_bcast r (24 + ravel [3; 2] [1; 0]) 0 = 1%R /\ rn_bcast r (24 + ravel [3; 2] [0; 1]) 0 = 4%R.
Proof.
  exists (mkPd ["q"]%string [] [("p"%string, mkChan [axm; axx; axy] false 0); ("o"%string, mkChan [axy; axx] false 24)] 30 30 (fun b j => 1%R)). eexists. eexists.
  split.
  - split; [repeat constructor; cbn; intuition discriminate|]. split; [cbn; auto|]. split; [reflexivity|]. eexists. exists []. split; [rewrite app_nil_r; reflexivity|]. repeat split; repeat constructor.
  - split; [reflexivity|]. split; [reflexivity|]. split; [reflexivity|]. split; [reflexivity|]. run. unfold abcd_d, safe0, sq. repeat rewrite Reqb_false by lra. split; field.
Qed.

(** ** C46 *)
(** as many names, defaults and prior entries as parameters *)
Theorem C46_mu d e an m : mu_model d e an = Ok m -> sized_model m /\ (NoDup (pd_signals d) -> NoDup (m_params m)).
Proof. intros H. destruct (mu_sized d e an m H) as (S & E). split; auto. rewrite E. auto. Qed.
Theorem C46_mixture_partial d ps cs e an m : mixture_model d ps cs e an = Ok m -> sized_model m.
Proof. exact (mixture_sized d ps cs e an m). Qed.
Theorem C46_axis_norm d ch spec names e m : axis_norm d ch spec names e = Ok m ->
  sized_model m /\ (NoDup (match spec with None => pd_procs d | Some l => l end) -> NoDup (m_params m)).
Proof. intros H. destruct (axis_norm_names d ch spec names e m H) as (S & axes & _ & E). split; auto. intros N. rewrite E. apply norm_NoDup. auto. Qed.
Theorem C46_axis_exp d ch spec sn cells slopes m : axis_exp d ch spec sn cells slopes = Ok m ->
  sized_model m /\ (NoDup (match spec with None => pd_procs d | Some l => l end) -> NoDup (m_params m)).
Proof. intros H. destruct (axis_exp_names d ch spec sn cells slopes m H) as (S & ca & sl & E). split; auto. intros N. rewrite E. apply two_NoDup; auto. discriminate. Qed.
Theorem C46_axis_bernstein d ch spec sn cells e m : axis_bernstein d ch spec sn cells e = Ok m ->
  sized_model m /\ (NoDup (match spec with None => pd_procs d | Some l => l end) -> NoDup (m_params m)).
Proof. intros H. destruct (axis_bernstein_names d ch spec sn cells e m H) as (S & ca & E). split; auto. intros N. rewrite E. apply two_NoDup; auto. discriminate. Qed.
(** missing: channels of which one is called like another one followed by an underscore (refuted below) *)
Theorem C46_saturated_partial d mp an m : saturated_model d mp an = Ok m -> sized_model m /\ (apart (map fst mp) -> NoDup (m_params m)).
Proof.
  intros H. destruct (saturated_sized d mp an m H) as (S & E). split; auto. intros A. rewrite E. clear - A. unfold sat_names. rewrite flat_map_concat_map. apply NoDup_concat.
  - intros l I. apply in_map_iff in I as ((k, axes) & <- & I). cbn [fst snd]. exact (poly_names_NoDup "saturated" k axes).
  - intros i j l l' s Hi Hj I J. rewrite nth_error_map' in Hi, Hj. destruct (nth_error mp i) as [[k a]|] eqn:Ti; [|discriminate]. destruct (nth_error mp j) as [[k' a']|] eqn:Tj; [|discriminate]. cbn [option_map fst snd] in Hi, Hj.
    apply ok_inj' in Hi. apply ok_inj' in Hj. subst l l'. apply in_map_iff in I as (x & <- & _). apply in_map_iff in J as (y & E & _). apply (app_inj_l "saturated_") in E. symmetry in E.
    eapply (A i j k k'); [rewrite nth_error_map', Ti; auto|rewrite nth_error_map', Tj; auto|exact E].
Qed.
(** missing: negative indices; for distinct names, regions in several channels or with common bins (all refuted below) *)
Theorem C46_abcd_partial d process rA rB rC rD corr m : abcd_model d process rA rB rC rD corr = Ok m ->
  (Forall nonneg [rA; rB; rC] -> sized_model m) /\
  (forall ch, Forall (fun r => rg_chan r = ch) [rA; rB; rC] -> disjoint (map (in_region d) [rA; rB; rC]) -> NoDup (m_params m)).
Proof. intros H. split; [exact (abcd_sized d process rA rB rC rD corr m H)|]. intros ch. exact (abcd_names_distinct d process rA rB rC rD corr m ch H). Qed.
Theorem C46_ext_abcd_partial d process rA rB rC rD rAx rBx corr m : ext_abcd_model d process rA rB rC rD rAx rBx corr = Ok m ->
  (Forall nonneg [rA; rB; rC; rAx; rBx] -> sized_model m) /\
  (forall ch, Forall (fun r => rg_chan r = ch) [rA; rB; rC; rAx; rBx] -> disjoint (map (in_region d) [rA; rB; rC; rAx; rBx]) -> NoDup (m_params m)).
Proof. intros H. split; [exact (ext_abcd_sized d process rA rB rC rD rAx rBx corr m H)|]. intros ch. exact (ext_abcd_names_distinct d process rA rB rC rD rAx rBx corr m ch H). Qed.
(** missing: regions in several channels *)
Theorem C46_smooth_partial d ax process rA rB rC rD order corr m : smooth_abcd_model d ax process rA rB rC rD order corr = Ok m ->
  sized_model m /\ (forall ch, Forall (fun r => rg_chan r = ch) [rA; rB; rC] -> NoDup (m_params m)).
Proof. intros H. split; [exact (smooth_abcd_sized d ax process rA rB rC rD order corr m H)|]. intros ch. exact (smooth_names_distinct d ax process rA rB rC rD order corr m ch H). Qed.
Theorem C46_smooth_ext_partial d ax process rA rB rC rD rAx rBx order init corr m : smooth_ext_model d ax process rA rB rC rD rAx rBx order init corr = Ok m ->
  sized_model m /\ (forall ch, Forall (fun r => rg_chan r = ch) [rA; rB; rC; rAx; rBx] -> NoDup (m_params m)).
Proof. intros H. split; [exact (smooth_ext_sized d ax process rA rB rC rD rAx rBx order init corr m H)|]. intros ch. exact (smooth_ext_names_distinct d ax process rA rB rC rD rAx rBx order init corr m ch H). Qed.
(** the name of each coefficient of a smoothed model *)
Theorem C46_smooth_names_at process order (rs : list (string * (region * list axis))) no k t combo j : (forall u, In u rs -> prodn (sizes (snd (snd u))) = no) -> nth_error rs k = Some t ->
  in_shape (sizes (snd (snd t))) combo -> j <= order ->
  nth_error (smooth_names process order rs) ((k * no + ravel (sizes (snd (snd t))) combo) * (order + 1) + j) =
  Some (process ++ "_" ++ rg_chan (fst (snd t)) ++ "_" ++ fst t ++ "_" ++ (match snd (snd t) with [] => "outer0" | o => label (map ax_name o) combo end) ++ "_poly" ++ nat_str j)%string.
Proof.
  intros H1 H2 H3 H4. rewrite (smooth_names_at process order rs no k t combo j H1 H2 H3 H4). unfold smooth_name. destruct (snd (snd t)) eqn:E; [reflexivity|]. rewrite label_eq. reflexivity.
Qed.
Theorem C46_composite_partial c ls : built c ls -> Forall sized_model ls -> sized_model c.
Proof. intros B S. apply (composite_table c ls B S). Qed.
Example C46_example : m_params ab = ["d_ch_x0_y0"; "d_ch_x0_y1"; "d_ch_x1_y0"]%string /\ nparams ab = 3.
Proof. split; reflexivity. Qed.
(** an index counted from the end: three parameters, no names for two of them *)
Theorem C46_negative_index_refuted : exists m, abcd_model dx "d" (at_xy 0 (-1)) (at_xy 0 1) (at_xy 1 (-1)) (at_xy 1 1) false = Ok m /\ nparams m = 3 /\ m_params m = ["d_ch_x0_y1"]%string.
Proof. eexists. split; [reflexivity|]. split; reflexivity. Qed.
(** a process listed twice *)
Theorem C46_repeated_process_refuted : exists m, axis_norm dx "ch" (Some ["b"; "b"]%string) ["x"%string] None = Ok m /\ m_params m = ["norm_b_x0"; "norm_b_x1"; "norm_b_x0"; "norm_b_x1"]%string.
Proof. eexists. split; [reflexivity|]. reflexivity. Qed.
(** the names do not contain the channel: two models on different channels cannot be told apart *)
Theorem C46_two_channels_refuted : exists d m m' c, axis_norm d "p" None ["x"%string] None = Ok m /\ axis_norm d "q" None ["x"%string] None = Ok m' /\ composite [m; m'] None = Ok c /\
  m_params c = ["norm_s_x0"; "norm_s_x1"; "norm_s_x0"; "norm_s_x1"]%string.
Proof.
  exists (mkPd ["s"%string] [] [("p"%string, mkChan [axx] false 0); ("q"%string, mkChan [axx] false 2)] 4 4 (fun _ _ => 1%R)). eexists. eexists. eexists. split; [reflexivity|]. split; [reflexivity|]. split; reflexivity.
Qed.
Theorem C46_overlapping_regions_refuted : exists m, abcd_model dx "d" (at_xy 0 0) (at_xy 0 0) (at_xy 1 0) (at_xy 1 1) false = Ok m /\ m_params m = ["d_ch_x0_y0"; "d_ch_x0_y0"; "d_ch_x1_y0"]%string.
Proof. eexists. split; [reflexivity|]. reflexivity. Qed.
Theorem C46_saturated_channels_refuted : exists d m, layout d /\ mapping_ok d [("c"%string, [mkAxis "a" 1 [] []; axz]); ("c_a0"%string, [axz])] /\
  saturated_model d [("c"%string, [mkAxis "a" 1 [] []; axz]); ("c_a0"%string, [axz])] false = Ok m /\
  m_params m = ["saturated_c_a0_z0"; "saturated_c_a0_z1"; "saturated_c_a0_z0"; "saturated_c_a0_z1"]%string.
Proof.
  exists (mkPd ["s"%string] [] [("c"%string, mkChan [mkAxis "a" 1 [] []; axz] false 0); ("c_a0"%string, mkChan [axz] false 2)] 4 4 (fun _ _ => 1%R)). eexists.
  split; [|split; [|split; [reflexivity|reflexivity]]].
  - split; [repeat constructor; cbn; intuition discriminate|]. split; [cbn; auto|]. split; [reflexivity|]. eexists. exists []. split; [rewrite app_nil_r; reflexivity|]. repeat split; repeat constructor.
  - intros k sel [E|[E|[]]]; injection E as <- <-; (split; [discriminate|]); eexists; (split; [cbn [pd_channels In]; eauto|]); (split; [cbn [cn_axes]; repeat constructor|unfold named_axes; cbn; repeat constructor; cbn; intuition discriminate]).
Qed.
Theorem C46_mixture_refuted : exists d m, NoDup (pd_procs d) /\ mixture_model d ["a"; "a_b"]%string ["b_c"; "c"]%string None false = Ok m /\ m_params m = ["a_b_c_mixing"; "a_b_c_mixing"]%string.
Proof.
  exists (mkPd ["a"; "a_b"; "b_c"; "c"]%string [] [] 0 0 (fun _ _ => 1%R)). eexists. split; [repeat constructor; cbn; intuition discriminate|]. split; reflexivity.
Qed.

(** ** C67 *)
Theorem C67_saturated_setup d m mp : sized_model m -> m_npoi m = 0 \/ m_allowneg m = false \/ sat_bins mp = 0 ->
  exists s c, saturated_setup d m mp = Ok (s, c) /\ saturated_model d mp false = Ok s /\ composite [m; s] None = Ok c /\ nparams s = sat_bins mp /\
    let pois := firstn (m_npoi m) (m_params m) in let pous := skipn (m_npoi m) (m_params m) in
    m_params c = pois ++ m_params s ++ pous /\
    forall (env fresh : string -> R) systs,
      saturated_centres m c (map env (m_params m ++ systs)) (map fresh (m_params c ++ systs)) =
      map env pois ++ map fresh (m_params s) ++ map env pous ++ map env systs.
Proof. exact (setup_spec d m mp). Qed.
(** parameters of interest that may be negative: the test raises *)
Theorem C67_negative_pois_raise d m mp : 0 < m_npoi m -> m_allowneg m = true -> 0 < sat_bins mp -> saturated_setup d m mp = Raise ValueError.
Proof. exact (setup_refused d m mp). Qed.
Definition parts := get (composite [ab; mu] None).
Example C67_example : exists s c, saturated_setup dx parts [("mk"%string, [axz])] = Ok (s, c) /\
  m_params c = ["a"; "saturated_mk_z0"; "saturated_mk_z1"; "d_ch_x0_y0"; "d_ch_x0_y1"; "d_ch_x1_y0"]%string /\
  saturated_centres parts c [10; 11; 12; 13; 20]%R [1; 2; 3; 4; 5; 6; 7]%R = [10; 2; 3; 11; 12; 13; 20]%R.
Proof. eexists. eexists. split; [reflexivity|]. split; reflexivity. Qed.
(** e.g. any model of bin normalisations *)
Theorem C67_test_unavailable_refuted : exists m, axis_norm dx "ch" None ["x"%string] None = Ok m /\ saturated_setup dx m [("ch"%string, [axx])] = Raise ValueError.
Proof. eexists. split; [reflexivity|]. apply setup_refused; cbn; auto; lia. Qed.
Print Assumptions C42_parameter_table.
Print Assumptions C42_scale_is_product.
Print Assumptions C42_product_by_name.
Print Assumptions C42_groups.
Print Assumptions C42_linear.
Print Assumptions C42_accepts.
Print Assumptions C68_signal_strengths.
Print Assumptions C68_signals_not_first_refuted.
Print Assumptions C43_mixture_partial.
Print Assumptions C43_mixture_sorted.
Print Assumptions C43_named_pair_refuted.
Print Assumptions C43_same_process_refuted.
Print Assumptions C44_axis_norm_partial.
Print Assumptions C44_axis_exp_partial.
Print Assumptions C44_axis_bernstein_partial.
Print Assumptions C44_saturated_partial.
Print Assumptions C44_axis_order_refuted.
Print Assumptions C44_saturated_axis_order_refuted.
Print Assumptions C44_saturated_channel_order_refuted.
Print Assumptions C44_saturated_no_axes_refuted.
Print Assumptions C45_abcd_partial.
Print Assumptions C45_extended_partial.
Print Assumptions C45_smooth_partial.
Print Assumptions C45_smooth_extended_partial.
Print Assumptions C45_chebyshev.
Print Assumptions C45_isomt_partial.
Print Assumptions C45_isomt_extended_partial.
Print Assumptions C45_isomt_smooth_partial.
Print Assumptions C45_isomt_smooth_extended_partial.
Print Assumptions C45_default.
Print Assumptions C45_region_names.
Print Assumptions C45_zero_denominator_refuted.
Print Assumptions C45_default_corrected_refuted.
Print Assumptions C45_empty_template_refuted.
Print Assumptions C45_axis_order_refuted.
Print Assumptions C46_mu.
Print Assumptions C46_mixture_partial.
Print Assumptions C46_axis_norm.
Print Assumptions C46_axis_exp.
Print Assumptions C46_axis_bernstein.
Print Assumptions C46_saturated_partial.
Print Assumptions C46_abcd_partial.
Print Assumptions C46_ext_abcd_partial.
Print Assumptions C46_smooth_partial.
Print Assumptions C46_smooth_ext_partial.
Print Assumptions C46_smooth_names_at.
Print Assumptions C46_composite_partial.
Print Assumptions C46_negative_index_refuted.
Print Assumptions C46_repeated_process_refuted.
Print Assumptions C46_two_channels_refuted.
Print Assumptions C46_overlapping_regions_refuted.
Print Assumptions C46_saturated_channels_refuted.
Print Assumptions C46_mixture_refuted.
Print Assumptions C67_saturated_setup.
Print Assumptions C67_negative_pois_raise.
Print Assumptions C67_test_unavailable_refuted.
