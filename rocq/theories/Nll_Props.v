(** Properties of the likelihood (C20, C21, C23, C24, C25, C60, C61). *)
From Coq Require Import List Arith Bool String Reals Lra Lia Permutation.
From Verif Require Import PyList ListUtil RBase Num PyDict BBStat_Model Writer_Model Writer_Spec Writer_Layout Writer_Meta Writer_Inv
  Writer_Tensor Writer_Hist Writer_Denote Writer_Master Writer_Effects Writer_Accept
  Yields_Model Yields_Spec Yields_Proof Yields_Equiv Yields_Props
  Freeze_Model Freeze_Spec Freeze_Proof Ext_Model Nll_Model Init_Model Nll_Spec Nll_Proof Init_Proof Nll_Mask.
Import ListNotations.
Local Open Scope string_scope.
Local Open Scope list_scope.
Local Open Scope R_scope.

(** ** C20: [xt] is the copy of the parameters that is differentiated, [xc] the constant one *)
Theorem C20_loss_ignores_frozen : forall P e i v xc xt,
  nth_error (ef_mask e) i = Some true -> ~ ext_uses P i ->
  nll_ad P e xc (upd_nth i v xt) = nll_ad P e xc xt.
Proof.
  intros P e i v xc xt F U. apply nll_tracked, frozen_tracked; auto.
  - apply nth_error_Some. congruence.
  - apply nth_error_nth with (d := false) in F. auto.
Qed.
Print Assumptions C20_loss_ignores_frozen.
(** gradient entry zero; the other entries do not depend on the frozen coordinate *)
Theorem C20_gradient_and_hessian : forall P e i xc x,
  nth_error (ef_mask e) i = Some true -> ~ ext_uses P i ->
  let L := fun xt => val (nll_ad P e xc xt) in
  derivable_pt_lim (fun t => L (move x i t)) 0 0 /\
  forall j v g, j <> i -> derivable_pt_lim (fun t => L (move x j t)) 0 g ->
    derivable_pt_lim (fun t => L (move (upd_nth i v x) j t)) 0 g.
Proof.
  intros P e i xc x F U L. assert (B : (i < List.length (ef_mask e))%nat) by (apply nth_error_Some; congruence).
  apply nth_error_nth with (d := false) in F. split.
  - apply frozen_grad0; auto.
  - intros j v g N. apply frozen_row; auto.
Qed.
Print Assumptions C20_gradient_and_hessian.
(** no sequence of steps along gradients, Hessian-vector products and their combinations moves it *)
Theorem C20_fit_cannot_move : forall P e i x y,
  nth_error (ef_mask e) i = Some true -> ~ ext_uses P i -> (i < List.length x)%nat ->
  fit_path P e x y -> nth i y 0 = nth i x 0.
Proof.
  intros P e i x y F U B H. apply (fit_frozen P e i x y); auto.
  - apply nth_error_Some. congruence.
  - apply nth_error_nth with (d := false) in F. auto.
Qed.
Print Assumptions C20_fit_cannot_move.

(** one bin, one process (10 events), one POI, one nuisance shifting the yield by 0.1; data 12 *)
Definition ex_orc : oracle := mkOrc (fun _ => []) (fun _ => []).
Definition exP (allowneg : bool) (ext : list ext_tf) : problem :=
  mkPb (mkIn (TDense (fun _ _ => 10) (fun _ _ _ => 1 / 10)) true Normal 1 1 1 1) (TDense (fun _ _ => 10) (fun _ _ _ => 1 / 10))
    (mkPm 1 0 allowneg (fun _ l => RBroadcast (fun _ => nth 0 l 0))) (Sep Chisq) [12] [1] None ex_orc [0; 1] [1; 0] [] 1 ext.
Example C20_example : forall t,
  nll_ad (exP true []) (mkEff [false; true] None) [1; 3] [1; t] =
  nll_ad (exP true []) (mkEff [false; true] None) [1; 3] [1; 3] /\
  (t <> 3 -> t > 3 ->
   nll_ad (exP true []) (mkEff [false; false] None) [1; 3] [1; t] <>
   nll_ad (exP true []) (mkEff [false; false] None) [1; 3] [1; 3]).
Proof.
  intros t. split.
  - apply (C20_loss_ignores_frozen (exP true []) (mkEff [false; true] None) 1 t [1; 3] [1; 3]); auto.
    intros (u & [] & _).
  - intros N G H. unfold nll_ad in H. cbn in H. injection H as H. unfold ext_nll, lc_term, dot, dense_logsnorm, sum_n in H.
    cbn in H. nra.
Qed.
(** an external term reads the raw parameters: freezing does not stop it *)
Definition exQ : problem :=
  mkPb (mkIn (TDense (fun _ _ => 10) (fun _ _ _ => 0)) true Normal 1 1 1 1) (TDense (fun _ _ => 10) (fun _ _ _ => 0))
    (mkPm 0 0 true (fun _ l => RBroadcast (fun _ => 1))) (Sep Chisq) [10] [1] None ex_orc [1] [0] [] 1 [mkTf [0%nat] (Some [1]) None].
Theorem C20_external_refuted : exists P e i x y, nth_error (ef_mask e) i = Some true /\ (i < List.length x)%nat /\
  fit_path P e x y /\ nth i y 0 <> nth i x 0.
Proof.
  exists exQ, (mkEff [true] None), 0%nat, [0], (addv [0] 1 (fun _ => 1)).
  split; auto. split; [simpl; lia|]. split.
  - apply fp_step; [constructor|]. apply se_grad. intros j J. simpl in J. replace j with 0%nat by lia.
    intros eps He. exists (mkposreal 1 Rlt_0_1). intros h Hh _.
    assert (V : forall t, val (nll_ad exQ (mkEff [true] None) [0] (move [0] 0 t)) = t).
    { intros t. unfold nll_ad. cbn. unfold ext_nll, lc_term, term_value, dot, dense_logsnorm, sum_n, zipw. cbn. field. }
    rewrite !V. replace ((0 + h - 0) / h - 1) with 0 by (field; auto). rewrite Rabs_R0. auto.
  - unfold addv. simpl. lra.
Qed.
Print Assumptions C20_external_refuted.

(** ** C21 *)
Theorem C21_reparametrisation : forall P m m' op ot x x',
  List.length x = npar P -> List.length m = npar P -> List.length m' = npar P ->
  List.length op = pm_npoi (pb_model P) -> List.length ot = in_nsyst (pb_data P) ->
  (forall v, In v op -> 0 <= v) -> pb_ext P = [] -> shifted P op ot x x' ->
  nll P (mkEff m (Some (op, ot))) x = nll P (mkEff m' None) x'.
Proof. exact blind_shift. Qed.
Print Assumptions C21_reparametrisation.
(** after set_blinding_offsets(False), and without do_blinding, the likelihood is the plain one *)
Theorem C21_off_is_plain : forall P m do_blinding values x,
  List.length x = npar P -> List.length m = npar P ->
  List.length (fst values) = pm_npoi (pb_model P) -> List.length (snd values) = in_nsyst (pb_data P) ->
  nll P (mkEff m (set_offsets do_blinding false values)) x = nll P (mkEff m None) x.
Proof.
  intros P m db [op ot] x Lx Lm Lo Lt. unfold set_offsets. destruct db; auto. cbn [negb fst snd] in *.
  unfold nll, nll_ad. unfold npar in *. set (pm := pb_model P) in *.
  assert (E1 : get_poi pm (mkEff m (Some (map (fun _ => 1) op, map (fun _ => 0) ot))) x x = get_poi pm (mkEff m None) x x).
  { rewrite get_poi_value, get_poi_blind by lia. apply (nth_ext _ _ 0 0).
    - rewrite zipw_length, !map_length, slice_length. lia.
    - intros j J. rewrite zipw_length, !map_length, slice_length in J.
      rewrite (nth_zipw _ _ _ _ 0 0) by (rewrite ?map_length, ?slice_length; lia). rewrite (nth_map' _ op _ 0 0) by lia. lra. }
  assert (E2 : get_nui pm (mkEff m (Some (map (fun _ => 1) op, map (fun _ => 0) ot))) x x = get_nui pm (mkEff m None) x x).
  { rewrite !get_nui_value by lia. auto. }
  assert (E3 : get_theta pm (in_nsyst (pb_data P)) (mkEff m (Some (map (fun _ => 1) op, map (fun _ => 0) ot))) x x = get_theta pm (in_nsyst (pb_data P)) (mkEff m None) x x).
  { rewrite get_theta_value, get_theta_blind by lia. apply (nth_ext _ _ 0 0).
    - rewrite zipw_length, !map_length, slice_length. lia.
    - intros j J. rewrite zipw_length, !map_length, slice_length in J.
      rewrite (nth_zipw _ _ _ _ 0 0) by (rewrite ?map_length, ?slice_length; lia). rewrite nth_zeros. lra. }
  unfold get_x. rewrite E1, E2, E3. auto.
Qed.
Print Assumptions C21_off_is_plain.
(** which parameters are shifted and by what *)
Theorem C21_offsets : forall rx rnd isint pois systs nois unblind groups vp vt,
  blinding_values rx rnd isint pois systs nois unblind groups = Ok (vp, vt) ->
  (forall i, In i nois -> (i < List.length systs)%nat) ->
  List.length vp = List.length pois /\ List.length vt = List.length systs /\
  (forall i p, nth_error pois i = Some p ->
     (selects rx unblind p /\ nth i vp 0 = 1) \/
     (~ selects rx unblind p /\ nth i vp 0 = exp (offset_value rx rnd isint groups p))) /\
  (forall i s, nth_error systs i = Some s ->
     (In i nois /\ ~ selects rx unblind s /\ nth i vt 0 = offset_value rx rnd isint groups s) \/
     ((~ In i nois \/ selects rx unblind s) /\ nth i vt 0 = 0)).
Proof.
  intros. destruct (blinding_values_spec _ _ _ _ _ _ _ _ _ _ H H0) as (_ & _ & A & B & C & D & _). auto.
Qed.
Print Assumptions C21_offsets.
Theorem C21_group_shares_offset : forall rx rnd isint groups p q e,
  first_group rx groups p = Some e -> first_group rx groups q = Some e ->
  offset_value rx rnd isint groups p = offset_value rx rnd isint groups q.
Proof. intros. unfold offset_value. rewrite H, H0. auto. Qed.
Print Assumptions C21_group_shares_offset.
Theorem C21_ambiguous_is_error : forall rx rnd isint pois systs nois unblind groups p,
  valid rx unblind -> valid rx groups -> In p (pois ++ map (fun i => nth i systs "") nois) ->
  selects rx unblind p -> first_group rx groups p <> None ->
  blinding_values rx rnd isint pois systs nois unblind groups = Raise RuntimeError.
Proof. intros rx rnd isint. exact (blinding_ambiguous rx rnd isint). Qed.
Print Assumptions C21_ambiguous_is_error.
Theorem C21_accepted : forall rx rnd isint pois systs nois unblind groups,
  valid rx unblind -> valid rx groups ->
  (forall p, In p (pois ++ map (fun i => nth i systs "") nois) -> selects rx unblind p -> first_group rx groups p = None) ->
  exists v, blinding_values rx rnd isint pois systs nois unblind groups = Ok v.
Proof. intros rx rnd isint. exact (blinding_accepted rx rnd isint). Qed.
Print Assumptions C21_accepted.
(** a regex engine that knows exact names and the expression "g.*" *)
Definition rx_g : regex := fun e => Some (fun s => if String.eqb e "g.*" then prefix "g" s else String.eqb e s).
Example C21_example : exists vp vt,
  blinding_values rx_g (fun s => INR (String.length s)) false ["mu"; "ga"] ["u"; "gn"; "w"] [1; 2]%nat ["w"] ["g.*"] = Ok (vp, vt) /\
  vp = [exp 2; exp 3] /\ vt = [0; 3; 0].
Proof.
  eexists _, _. split; [reflexivity|]. cbn -[INR]. unfold seeded, seed_for. cbn -[INR].
  assert (INR 2 = 2) by (simpl; lra). assert (INR 3 = 3) by (simpl; lra). rewrite H, H0. auto.
Qed.
Example C21_example_shift : nll (exP false []) (mkEff [false; false] (Some ([4], [3]))) [1; 2] =
                            nll (exP false []) (mkEff [false; false] None) [2; 5].
Proof.
  apply (C21_reparametrisation (exP false [])); auto.
  - intros v [<-|[]]. lra.
  - split; auto. cbn. replace 4 with (2 * 2) by lra. split; [|split].
    + intros [|i] I; [|lia]. rewrite sqrt_square by lra. lra. + intros; lia.
    + intros [|i] I; [lra|lia].
Qed.
(** with an external term the shift is not applied to it *)
Theorem C21_external_refuted : exists P m op ot x x', List.length x = npar P /\ List.length m = npar P /\
  List.length op = pm_npoi (pb_model P) /\ List.length ot = in_nsyst (pb_data P) /\
  (forall v, In v op -> 0 <= v) /\ shifted P op ot x x' /\
  nll P (mkEff m (Some (op, ot))) x <> nll P (mkEff m None) x'.
Proof.
  exists exQ, [false], [], [1], [0], [1]. do 4 (split; [reflexivity|]). split; [intros v []|]. split.
  - split; auto. cbn. split; [intros; lia|]. split; [intros; lia|]. intros [|i] I; [lra|lia].
  - unfold nll, nll_ad. cbn. unfold ext_nll, lc_term, term_value, dot, dense_logsnorm, sum_n, zipw. cbn. intros H. injection H as H. lra.
Qed.
Print Assumptions C21_external_refuted.

(** ** C23 *)
Theorem C23_roundtrip : forall pm params sig xd (th : list R) m,
  NoDup params -> NoDup (map fst (sig_list sig)) -> (pm_npoi pm <= List.length params)%nat ->
  set_param_default params (pm_npoi pm) sig (pm_allowneg pm) = Ok xd -> List.length m = List.length (xd ++ th) ->
  (pm_allowneg pm = false -> forall p v, In (p, v) (sig_list sig) -> 0 <= v) ->
  List.length xd = List.length params /\
  (forall i p, (i < pm_npoi pm)%nat -> nth_error params i = Some p ->
     nth i (get_poi pm (mkEff m None) (xd ++ th) (xd ++ th)) 0 = lookup p (sig_list sig) 1) /\
  (forall i p, (pm_npoi pm <= i)%nat -> nth_error params i = Some p -> nth i xd 0 = lookup p (sig_list sig) 1).
Proof. exact default_roundtrip. Qed.
Print Assumptions C23_roundtrip.
Theorem C23_nonnegative : forall pm e xc xt, pm_allowneg pm = false ->
  match ef_blind e with Some (op, _) => forall v, In v op -> 0 <= v | None => True end ->
  forall v, In v (get_poi pm e xc xt) -> 0 <= v.
Proof.
  intros pm e xc xt A B v H. unfold get_poi in H.
  assert (W : forall m c t u, In u (where_sg m (map (enc pm) c) (map (enc pm) t)) -> 0 <= u).
  { intros m c t u Hu. unfold where_sg, zipw in Hu. apply in_map_iff in Hu. destruct Hu as ([b [x y]] & <- & Hu).
    apply in_combine_r in Hu. pose proof (in_combine_l _ _ _ _ Hu) as Hx. pose proof (in_combine_r _ _ _ _ Hu) as Hy.
    apply in_map_iff in Hx. apply in_map_iff in Hy. destruct Hx as (x' & <- & _). destruct Hy as (y' & <- & _).
    unfold enc. rewrite A. simpl. destruct b; nra. }
  destruct (ef_blind e) as [[op ot]|]; [|eapply W; eauto].
  unfold zipw in H at 1. apply in_map_iff in H. destruct H as ([p o] & <- & Hp). simpl.
  pose proof (in_combine_l _ _ _ _ Hp) as H1. pose proof (in_combine_r _ _ _ _ Hp) as H2.
  apply Rmult_le_pos; [eapply W; eauto|apply B; auto].
Qed.
Print Assumptions C23_nonnegative.
Theorem C23_unknown_signal : forall params npoi sig allowneg s v,
  In (s, v) sig -> ~ In s params -> set_param_default params npoi (Some sig) allowneg = Raise ValueError.
Proof.
  intros. unfold set_param_default. rewrite (scatter_unknown params s v); auto.
Qed.
Print Assumptions C23_unknown_signal.
Example C23_example : set_param_default ["z"; "w"; "k"] 2 (Some [("w", 9); ("k", 3)]) false = Ok [sqrt 1; sqrt 9; 3] /\
  nth 1 (get_poi (mkPm 2 1 false (fun _ _ => RBroadcast (fun _ => 1))) (mkEff [false; false; true; false] None)
           [sqrt 1; sqrt 9; 3; 5] [sqrt 1; sqrt 9; 3; 5]) 0 = 9 /\
  set_param_default ["z"] 1 (Some [("y", 2)]) true = Raise ValueError.
Proof. split; [reflexivity|]. split; [|reflexivity]. cbn. unfold enc. cbn. apply sqrt_sqrt. lra. Qed.

(** ** C24 *)
Theorem C24_penalty : forall pm xdef pr systs minima cws cw x0,
  init_constraints pm xdef pr systs minima cws = Ok (cw, x0) ->
  let np := (pm_npoi pm + pm_npou pm)%nat in
  List.length xdef = np -> List.length cws = List.length systs ->
  forall xp theta, List.length xp = np -> List.length theta = List.length systs ->
  lc_term cw (xp ++ theta) x0 =
    match pr_sigmas pr with
    | None => 0
    | Some sg => sum_n np (fun i => prior_pen (nth i sg None) (nth i (match pr_means pr with Some m => m | None => xdef end) 0) (nth i xp 0))
    end
    + sum_n (List.length systs) (fun j => nth j cws 0 * (1 / 2 * sq (nth j theta 0 - declared_min minima (nth j systs "") 0))).
Proof. exact constraint_penalty. Qed.
Print Assumptions C24_penalty.
Theorem C24_full_minus_reduced : forall cw, exists K, forall x x0, List.length x = List.length cw -> List.length x0 = List.length cw ->
  lc_full cw x x0 - lc_term cw x x0 = K.
Proof. exact lc_full_constant. Qed.
Print Assumptions C24_full_minus_reduced.
Theorem C24_sqrt_poi_prior_rejected : forall pm xdef pr sg i v systs minima cws r,
  pr_sigmas pr = Some sg -> nth_error sg i = Some (Some v) -> 0 < v -> (i < pm_npoi pm)%nat -> pm_allowneg pm = false ->
  init_constraints pm xdef pr systs minima cws <> Ok r.
Proof.
  intros pm xdef pr sg i v systs minima cws r S N V I A H. unfold init_constraints in H.
  destruct (constraint_minima _ _ _); [|discriminate]. cbn [rbind] in H. unfold param_constraints in H. rewrite S in H.
  destruct (Nat.eqb _ _); [|discriminate]. cbn [negb] in H.
  destruct (match pr_means pr with None => _ | Some _ => _ end) as [mm|]; [|discriminate]. cbn [rbind] in H.
  rewrite A in H. assert (E : existsb (fun b => b) (firstn (pm_npoi pm) (map prior_on sg)) = true).
  { apply existsb_exists. exists true. split; auto. apply (nth_error_In _ i).
    assert (X : nth_error (map prior_on sg) i = Some true).
    { rewrite nth_error_map, N. simpl. rewrite Rltb_true; auto. }
    revert I X. generalize (map prior_on sg) as l, (pm_npoi pm) as n. clear. induction i; intros [|x l] [|n] I X; simpl in *; try discriminate; try lia; auto.
    apply IHi; auto. lia. }
  rewrite E in H. discriminate.
Qed.
Print Assumptions C24_sqrt_poi_prior_rejected.
Theorem C24_accepted : forall pm xdef pr systs minima cws,
  NoDup systs -> (forall p v, In (p, v) minima -> In p systs) ->
  (forall sg, pr_sigmas pr = Some sg -> List.length sg = (pm_npoi pm + pm_npou pm)%nat) ->
  (forall mm, pr_means pr = Some mm -> List.length mm = (pm_npoi pm + pm_npou pm)%nat) ->
  (pm_allowneg pm = true \/ forall sg i, pr_sigmas pr = Some sg -> (i < pm_npoi pm)%nat -> prior_on (nth i sg None) = false) ->
  exists r, init_constraints pm xdef pr systs minima cws = Ok r.
Proof.
  intros pm xdef pr systs minima cws ND MI LS LM A. unfold init_constraints.
  assert (M : forall l th, (forall p v, In (p, v) l -> In p systs) -> exists th', constraint_minima systs l th = Ok th').
  { clear - ND. induction l as [|[p v] r IH]; simpl; intros th H; eauto.
    assert (W : exists i, where_name systs p = [i]).
    { assert (Hp : In p systs) by (apply (H p v); auto). apply In_nth_error in Hp. destruct Hp as [i Hi]. exists i.
      assert (S : forall j, In j (where_name systs p) <-> j = i).
      { intros j. unfold where_name. rewrite where_true_spec, nth_error_map. split.
        - destruct (nth_error systs j) as [s|] eqn:J; simpl; [|discriminate]. intros X. injection X as X. apply String.eqb_eq in X. subst.
          apply (NoDup_nth_error systs); auto; [apply nth_error_Some; congruence|congruence].
        - intros ->. rewrite Hi. simpl. rewrite String.eqb_refl. auto. }
      assert (N : NoDup (where_name systs p)).
      { unfold where_name, where_true.
        assert (G : forall a (m : list bool), NoDup (map fst (filter (fun p : nat * bool => snd p) (combine (seq a (List.length m)) m))) /\
                    forall j, In j (map fst (filter (fun p : nat * bool => snd p) (combine (seq a (List.length m)) m))) -> (a <= j)%nat).
        { intros a m. revert a. induction m as [|b m IHm]; intros a; simpl; [split; [constructor|intros j []]|].
          destruct (IHm (Datatypes.S a)) as [G1 G2]. destruct b; simpl.
          - split; [constructor; auto; intros X; specialize (G2 _ X); lia|]. intros j [<-|X]; auto. specialize (G2 _ X). lia.
          - split; auto. intros j X. specialize (G2 _ X). lia. }
        apply G. }
      destruct (where_name systs p) as [|a [|b l]].
      - exfalso. apply (proj2 (S i)). auto.
      - f_equal. apply (proj1 (S a)). left; auto.
      - exfalso. inversion N as [|? ? N1 _]; subst. apply N1. assert (a = i) by (apply (proj1 (S a)); left; auto). assert (b = i) by (apply (proj1 (S b)); right; left; auto). subst. simpl; auto. }
    destruct W as [i ->]. apply IH. intros q w X. apply (H q w). auto. }
  destruct (M minima (map (fun _ => 0) systs) MI) as [th' ->]. cbn [rbind].
  unfold param_constraints. destruct (pr_sigmas pr) as [sg|]; [|eexists; reflexivity].
  rewrite (LS sg eq_refl), Nat.eqb_refl. cbn [negb].
  assert (E : (existsb (fun b => b) (firstn (pm_npoi pm) (map prior_on sg)) && negb (pm_allowneg pm))%bool = false).
  { destruct A as [->|A]; [apply andb_false_r|]. apply andb_false_iff. left.
    destruct (existsb _ _) eqn:X; auto. apply existsb_exists in X. destruct X as (b & X & ->).
    apply In_nth with (d := false) in X. destruct X as (i & I & X). rewrite firstn_length, map_length in I.
    rewrite nth_firstn' in X by lia. rewrite (nth_map' _ _ _ _ None) in X by lia. rewrite (A sg i) in X; auto. lia. }
  destruct (pr_means pr) as [mm|].
  - rewrite (LM mm eq_refl), Nat.eqb_refl. cbn [rbind]. rewrite E. eexists; reflexivity.
  - cbn [rbind]. rewrite E. eexists; reflexivity.
Qed.
Print Assumptions C24_accepted.
Definition ex_pm24 : pmodel := mkPm 1 2 true (fun _ _ => RBroadcast (fun _ => 1)).
Example C24_example : exists cw x0,
  init_constraints ex_pm24 [1; 1; 1] (mkPrior (Some [Some 2; None; Some (-1)]) (Some [5; 6; 7])) ["a"; "b"] [("b", 3)] [1; 0] = Ok (cw, x0) /\
  forall p q r a b, lc_term cw [p; q; r; a; b] x0 = 1 / 2 * sq ((p - 5) / 2) + 1 / 2 * (a * a).
Proof.
  destruct (C24_accepted ex_pm24 [1; 1; 1] (mkPrior (Some [Some 2; None; Some (-1)]) (Some [5; 6; 7])) ["a"; "b"] [("b", 3)] [1; 0]) as [[cw x0] H].
  - repeat constructor; simpl; intuition discriminate.
  - intros p v [E|[]]. injection E as <- <-. simpl; auto.
  - intros sg E. injection E as <-. auto.
  - intros sg E. injection E as <-. auto.
  - auto.
  - exists cw, x0. split; auto. intros p q r a b. change [p; q; r; a; b] with ([p; q; r] ++ [a; b]).
    rewrite (C24_penalty _ _ _ _ _ _ _ _ H eq_refl eq_refl [p; q; r] [a; b] eq_refl eq_refl).
    cbn [pr_sigmas pr_means]. unfold sum_n. cbn [map seq pm_npoi pm_npou ex_pm24 List.length Nat.add sumR fold_right nth].
    unfold prior_pen. rewrite (Rltb_true 0 2) by lra. rewrite (Rltb_false 0 (-1)) by lra. simpl. unfold sq. field.
Qed.

(** ** C25 *)
Theorem C25_deviance : forall nobs var nexp, List.length nobs = List.length nexp ->
  (forall n, In n nobs -> 0 <= n) -> (forall mu, In mu nexp -> 0 < mu) ->
  0 <= ln_term (Sep Poisson) nobs var nexp /\ (ln_term (Sep Poisson) nobs var nexp = 0 <-> nexp = nobs).
Proof.
  intros nobs var nexp L Hn Hm. unfold ln_term.
  assert (B : forall b, (b < List.length nexp)%nat ->
    0 <= ln_bin Poisson (nth b nobs 0) (nth b var 0) (nth b nexp 0) /\
    (ln_bin Poisson (nth b nobs 0) (nth b var 0) (nth b nexp 0) = 0 <-> nth b nexp 0 = nth b nobs 0)).
  { intros b Hb. apply poisson_bin_nonneg; [apply Hn, nth_In; lia|apply Hm, nth_In; lia]. }
  assert (NN : forall x, In x (map (fun b => ln_bin Poisson (nth b nobs 0) (nth b var 0) (nth b nexp 0)) (seq 0 (List.length nexp))) -> 0 <= x).
  { intros x Hx. apply in_map_iff in Hx. destruct Hx as (b & <- & Hb). apply in_seq in Hb. apply B. lia. }
  split; [apply sumR_nonneg; auto|]. split.
  - intros Z. apply (nth_ext _ _ 0 0); auto. intros b Hb. apply B; auto.
    apply (sumR_nonneg_0 _ NN Z). apply in_map_iff. exists b. split; auto. apply in_seq. lia.
  - intros E. apply sum_n_0. intros b Hb. apply B; auto. congruence.
Qed.
Print Assumptions C25_deviance.
(** only logarithms of positive numbers are taken, an empty bin contributes its expectation *)
Theorem C25_empty_bin : forall var mu, ln_bin Poisson 0 var mu = mu /\ lognobs_of 0 = ln 1.
Proof.
  intros. unfold ln_bin, lognobs_of. rewrite (Reqb_true 0 0) by auto. rewrite ln_1. split; lra.
Qed.
Print Assumptions C25_empty_bin.
Theorem C25_full_minus_reduced : forall lgam nobs var, exists K, forall nexp, List.length nexp = List.length nobs ->
  ln_full lgam nobs nexp - ln_term (Sep Poisson) nobs var nexp = K.
Proof.
  intros lgam nobs var.
  exists (sum_n (List.length nobs) (fun b => lgam (nth b nobs 0 + 1) - nth b nobs 0 * lognobs_of (nth b nobs 0) + nth b nobs 0)).
  intros nexp L. unfold ln_full, ln_term. rewrite <- sumR_map_minus. rewrite L. apply sumR_map_ext. intros b _.
  unfold ln_bin. destruct (Reqb _ 0); lra.
Qed.
Print Assumptions C25_full_minus_reduced.
Example C25_example : ln_term (Sep Poisson) [0; 2] [] [3; 2] = 3 /\ ln_term (Sep Poisson) [1] [] [2] = 1 - ln 2.
Proof.
  unfold ln_term, ln_bin, lognobs_of. cbn [map seq List.length nth sumR fold_right].
  rewrite (Reqb_true 0 0) by auto. rewrite (Reqb_false 2 0), (Reqb_false 1 0) by lra. rewrite ln_1. split; lra.
Qed.

(** ** C60 *)
Theorem C60_masked_likelihood :
  forall cfg ops1 ops2 w1 w2 np rinit t1 t2 pm lk nobs var bb orc pcw px0 x0f tau m1 m2 px (th : string -> R) v1 v2,
  written cfg ops1 w1 -> written cfg ops2 w2 -> clean ops1 -> clean ops2 ->
  Forall2 (same_outside (fun c => exists info, In (c, info) (chan_decls [] ops1) /\ ch_masked info = true)) ops1 ops2 ->
  scale_logk (indata_of w1) np rinit = Ok t1 -> scale_logk (indata_of w2) np rinit = Ok t2 ->
  List.length px = (pm_npoi pm + pm_npou pm)%nat -> List.length pcw = List.length px -> List.length px0 = List.length px ->
  let P1 := file_problem w1 t1 pm lk nobs var bb orc pcw px0 x0f tau in
  let P2 := file_problem w2 t2 pm lk nobs var bb orc pcw px0 x0f tau in
  let x1 := px ++ map th (w_systs w1) in let x2 := px ++ map th (w_systs w2) in
  List.length m1 = List.length x1 -> List.length m2 = List.length x2 ->
  nll P1 (mkEff m1 None) x1 = Ok v1 -> nll P2 (mkEff m2 None) x2 = Ok v2 -> v1 = v2.
Proof. exact masked_likelihood. Qed.
Print Assumptions C60_masked_likelihood.
Lemma nll_ok P m x f : (forall full p, pm_compute (pb_model P) full p = RBroadcast f) -> exists v, nll P (mkEff m None) x = Ok v.
Proof.
  intros H. unfold nll, nll_ad, yields_beta. rewrite H.
  destruct (yields_ok (pb_data P) (pb_t P) f (get_theta (pb_model P) (in_nsyst (pb_data P)) (mkEff m None) x x)
    (negb (Nat.eqb (List.length (pb_regs P)) 0))) as [[n nc] Y].
  rewrite Y. cbn [rbind]. destruct (pb_bb P); cbn [rbind]; eauto.
Qed.
(** two files that differ in the masked channel, Barlow-Beeston lite with gamma constraint *)
Example C60_likelihood_example : exists w1 w2 v, let cfg := mkCfg true LogNormal false in
  written cfg exR w1 /\ written cfg (exM 11) w2 /\ exR <> exM 11 /\
  let P w := file_problem w (w_tensors w) (mkPm 0 0 true (fun _ _ => RBroadcast (fun _ => 1))) (Sep Poisson) [5; 6] []
               (Some (Lite, Gamma, 0, fun _ => [1])) ex_orc [] [] (fun _ => 0) 1 in
  nll (P w1) (mkEff [false; false] None) (map (fun _ => 1) (w_systs w1)) = Ok v /\
  nll (P w2) (mkEff [false; false] None) (map (fun _ => 1) (w_systs w2)) = Ok v.
Proof.
  set (cfg := mkCfg true LogNormal false).
  destruct (exR_written cfg) as (w1 & W1 & A1 & A2 & A3 & A4 & A5).
  destruct (exM_written cfg 11) as (C2 & w2 & W2 & B1 & B2 & B4); [lra|].
  assert (S : forall w ops, written cfg ops w -> scale_logk (indata_of w) 1 (RBroadcast (fun _ => 1)) = Ok (w_tensors w)).
  { intros w ops W. unfold scale_logk. assert (T : in_type (indata_of w) = LogNormal).
    { simpl. destruct W as (st & _ & W). apply write_fields in W. intuition. }
    rewrite T. auto. }
  set (pm := mkPm 0 0 true (fun _ _ => RBroadcast (fun _ => 1))).
  set (P := fun w => file_problem w (w_tensors w) pm (Sep Poisson) [5; 6] [] (Some (Lite, Gamma, 0, fun _ => [1])) ex_orc [] [] (fun _ => 0) 1).
  destruct (nll_ok (P w1) [false; false] (map (fun _ => 1) (w_systs w1)) (fun _ => 1)) as [v1 N1]; [auto|].
  destruct (nll_ok (P w2) [false; false] (map (fun _ => 1) (w_systs w2)) (fun _ => 1)) as [v2 N2]; [auto|].
  assert (E : v1 = v2).
  { apply (C60_masked_likelihood cfg exR (exM 11) w1 w2 1 (RBroadcast (fun _ => 1)) (w_tensors w1) (w_tensors w2) pm (Sep Poisson) [5; 6] []
      (Some (Lite, Gamma, 0, fun _ => [1])) ex_orc [] [] (fun _ => 0) 1 [false; false] [false; false] [] (fun _ => 1)); auto.
    - apply exR_clean.
    - assert (M : exists info, In ("gen", info) (chan_decls [] exR) /\ ch_masked info = true).
      { exists (mkCh [(1, 1)]%nat true false). simpl. auto. }
      repeat (constructor; [first [left; reflexivity | right; exists "gen"; split; [exact M|]; repeat split]|]). constructor.
    - apply (S w1 _ W1).
    - apply (S w2 _ W2).
    - rewrite app_length, map_length, A2. auto.
    - rewrite app_length, map_length, B2. auto. }
  subst v2. exists w1, w2, v1. cbv zeta. split; auto. split; auto. split; auto.
  intros E. apply (f_equal (fun l => nth 5 l (AddData "" [] []))) in E. simpl in E. injection E. intros; lra.
Qed.

(** ** C61: with regularisers the likelihood terms still see the fit bins only, and the penalties are added on top *)
Theorem C61_penalty_only : forall cfg ops w np rinit t pm lk nobs var bb orc pcw px0 x0f tau regs m x v v0,
  written cfg ops w -> clean ops -> scale_logk (indata_of w) np rinit = Ok t ->
  (forall p b ip, (b < w_nbins w)%nat -> rn_bcast (pm_compute pm true p) b ip = rn_bcast (pm_compute pm false p) b ip) ->
  (forall l, List.length (orc_cov orc l) = List.length l) ->
  let P := file_problem w t pm lk nobs var bb orc pcw px0 x0f tau in
  List.length x = npar P -> List.length m = npar P -> regs <> [] ->
  nll (with_regs P regs) (mkEff m None) x = Ok v -> nll P (mkEff m None) x = Ok v0 ->
  exists nfull nfit lb, List.length nfull = w_nbinsfull w /\ firstn (w_nbins w) nfull = nfit /\
    yields_beta P false (get_poi pm (mkEff m None) x x ++ get_nui pm (mkEff m None) x x)
       (get_theta pm (List.length (w_systs w)) (mkEff m None) x x) = Ok (nfit, lb) /\
    v = v0 + sumR (map (fun reg => reg (get_x pm (List.length (w_systs w)) (mkEff m None) x x) nfull * exp (2 * tau)) regs).
Proof. exact penalty_only. Qed.
Print Assumptions C61_penalty_only.
(** a file with a masked channel, fitted with and without a penalty on the masked bins *)
Example C61_example : exists w v v0, let cfg := mkCfg true LogNormal false in
  written cfg exR w /\ (w_nbins w < w_nbinsfull w)%nat /\
  let P := file_problem w (w_tensors w) (mkPm 0 0 true (fun _ _ => RBroadcast (fun _ => 1))) (Sep Poisson) [5; 6] []
               (Some (Lite, Gamma, 0, fun _ => [1])) ex_orc [] [] (fun _ => 0) 1 in
  nll (with_regs P [fun _ n => last n 0]) (mkEff [false; false] None) (map (fun _ => 1) (w_systs w)) = Ok v /\
  nll P (mkEff [false; false] None) (map (fun _ => 1) (w_systs w)) = Ok v0.
Proof.
  set (cfg := mkCfg true LogNormal false).
  destruct (exR_written cfg) as (w1 & W1 & A1 & A2 & A3 & A4 & A5).
  set (P := file_problem w1 (w_tensors w1) (mkPm 0 0 true (fun _ _ => RBroadcast (fun _ => 1))) (Sep Poisson) [5; 6] []
               (Some (Lite, Gamma, 0, fun _ => [1])) ex_orc [] [] (fun _ => 0) 1).
  destruct (nll_ok (with_regs P [fun _ n => last n 0]) [false; false] (map (fun _ => 1) (w_systs w1)) (fun _ => 1)) as [v V]; [reflexivity|].
  destruct (nll_ok P [false; false] (map (fun _ => 1) (w_systs w1)) (fun _ => 1)) as [v0 V0]; [reflexivity|].
  exists w1, v, v0. split; [exact W1|]. split; [lia|]. exact (conj V V0).
Qed.
