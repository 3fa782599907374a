(** Signal strengths, names of the smoothed models, and the set-up of the saturated fit. *)
From Coq Require Import Reals List Arith ZArith Bool String Ascii Lia Lra.
From Verif Require Import RBase PyList PyDict ListUtil Shape Writer_Model Yields_Model Init_Model Param_Model Param_Spec Param_Comp Param_Mix Param_Axis Param_Sat Param_Region Param_Abcd Param_Smooth Param_SmoothModel Param_Names.
Import ListNotations.
Local Open Scope nat_scope.

(** ** signal strengths *)
Theorem mu_spec d e an m env full others : mu_model d e an = Ok m -> NoDup (pd_procs d) -> pd_procs d = pd_signals d ++ others ->
  exists r, m_compute m (map env (m_params m)) full = Ok r /\ (forall n, rn_fits r n = true) /\
    forall b j p, nth_error (pd_procs d) j = Some p -> rn_bcast r b j = if smem p (pd_signals d) then env p else 1%R.
Proof.
  intros H ND E. destruct (mu_sized d e an m H) as (_ & Ep). rewrite Ep. unfold mu_model in H. destruct (set_param_default _ _ e an) as [dft|]; [|discriminate]. cbn [rbind] in H. injection H as <-.
  unfold simple_model. cbn [m_compute]. unfold mu_compute. rewrite map_length. unfold nproc. rewrite E, app_length.
  destruct (Nat.ltb_spec (List.length (pd_signals d) + List.length others) (List.length (pd_signals d))); [lia|].
  eexists. split; [reflexivity|]. split; [reflexivity|]. intros b j p Hj. cbn [rn_bcast]. rewrite E in ND.
  destruct (lt_dec j (List.length (pd_signals d))) as [L|L].
  - rewrite nth_error_app1 in Hj by auto. replace (smem p (pd_signals d)) with true by (symmetry; apply smem_In; eapply nth_error_In; eauto).
    rewrite app_nth1 by (rewrite map_length; auto). apply nth_error_nth. rewrite nth_error_map', Hj. auto.
  - assert (Hj' := Hj). rewrite nth_error_app2 in Hj by lia. assert (I := nth_error_In _ _ Hj).
    replace (smem p (pd_signals d)) with false.
    + rewrite app_nth2 by (rewrite map_length; lia). rewrite map_length. assert (j - List.length (pd_signals d) < List.length others) by (apply nth_error_Some; congruence). apply nth_repeat_lt. lia.
    + symmetry. apply not_true_iff_false. intros S. apply smem_In in S. apply In_nth_error in S as (k & K). assert (k < List.length (pd_signals d)) by (apply nth_error_Some; congruence).
      rewrite <- (nth_error_app1 _ others) in K by auto. assert (k = j) by (eapply NoDup_nth; eauto). lia.
Qed.

(** ** smoothed models *)
Lemma ok_inj' {A} (a b : A) : Some a = Some b -> a = b.
Proof. congruence. Qed.
Definition smooth_name (process ch x : string) (o : list axis) (combo : list nat) (k : nat) : string :=
  (process ++ "_" ++ ch ++ "_" ++ x ++ "_" ++ (match o with [] => "outer0" | _ => bin_label o combo end) ++ "_poly" ++ nat_str k)%string.
Lemma smooth_name_inj process ch x o combo combo' k k' : List.length combo = List.length o -> List.length combo' = List.length o ->
  smooth_name process ch x o combo k = smooth_name process ch x o combo' k' -> combo = combo' /\ k = k'.
Proof.
  unfold smooth_name. intros L L' H. do 6 apply app_inj_l in H. apply (f_equal chars) in H. rewrite !chars_app in H. apply trailing in H; [|reflexivity|apply nat_str_digits|apply nat_str_digits].
  destruct H as (H & D). apply nat_str_inj' in D. split; auto. destruct o as [|a o]; [apply length_zero_iff_nil in L, L'; congruence|].
  assert (E : chars "_" ++ chars (bin_label (a :: o) combo) = chars "_" ++ chars (bin_label (a :: o) combo')) by congruence. cbn [chars list_ascii_of_string app] in E.
  destruct combo; [discriminate|]. destruct combo'; [discriminate|]. rewrite !lab_eq in E by discriminate. apply (lab_inj (a :: o) [] []) in E; tauto.
Qed.
(** texts none of which begins another one once an underscore is added *)
Definition apart (xs : list string) : Prop := forall i j x y s t, nth_error xs i = Some x -> nth_error xs j = Some y -> (x ++ "_" ++ s)%string = (y ++ "_" ++ t)%string -> i = j.
Lemma smooth_names_NoDup process order ch (rs : list (string * (region * list axis))) : Forall (fun t => rg_chan (fst (snd t)) = ch) rs -> apart (map fst rs) -> NoDup (smooth_names process order rs).
Proof.
  intros C A. unfold smooth_names. rewrite flat_map_concat_map. rewrite Forall_forall in C.
  assert (F : forall t s, In t rs -> In s (flat_map (fun combo => map (fun k => (process ++ "_" ++ rg_chan (fst (snd t)) ++ "_" ++ fst t ++ "_" ++
                     (match snd (snd t) with [] => "outer0" | _ => bin_label (snd (snd t)) combo end) ++ "_poly" ++ nat_str k)%string) (seq 0 (order + 1))) (all_idx (sizes (snd (snd t))))) ->
     exists combo k, In combo (all_idx (sizes (snd (snd t)))) /\ s = smooth_name process ch (fst t) (snd (snd t)) combo k).
  { intros t s It I. apply in_flat_map in I as (combo & Ic & I). apply in_map_iff in I as (k & <- & _). exists combo, k. split; auto. rewrite (C t It). auto. }
  apply NoDup_concat.
  - intros l I. apply in_map_iff in I as (t & <- & I). rewrite (C t I).
    apply NoDup_flat_map; [apply all_idx_NoDup| |].
    + intros combo Ic. apply NoDup_map_inj; [apply seq_NoDup|]. intros x y _ _ E. apply (smooth_name_inj process ch (fst t) (snd (snd t)) combo combo x y) in E; [tauto| |]; apply cell_len; auto.
    + intros c c' s Ic Ic' J J'. apply in_map_iff in J as (k & <- & _). apply in_map_iff in J' as (k' & E & _). symmetry. apply (smooth_name_inj process ch (fst t) (snd (snd t)) c' c k' k) in E; [tauto| |]; apply cell_len; auto.
  - intros i j l l' s Hi Hj I J. rewrite nth_error_map' in Hi, Hj. destruct (nth_error rs i) as [t|] eqn:Ti; [|discriminate]. destruct (nth_error rs j) as [t'|] eqn:Tj; [|discriminate]. cbn [option_map] in Hi, Hj.
    apply ok_inj' in Hi. apply ok_inj' in Hj. subst l l'. apply F in I as (c & k & _ & ->); [|eapply nth_error_In; eauto]. apply F in J as (c' & k' & _ & E); [|eapply nth_error_In; eauto].
    unfold smooth_name in E. do 4 apply app_inj_l in E. eapply (A i j (fst t) (fst t')); [rewrite nth_error_map', Ti; auto|rewrite nth_error_map', Tj; auto|exact E].
Qed.
Lemma apart_abc : apart ["A"; "B"; "C"]%string.
Proof. intros [|[|[|i]]] [|[|[|j]]] x y s t Hi Hj E; cbn in Hi, Hj; try (destruct i; discriminate); try (destruct j; discriminate); auto; injection Hi as <-; injection Hj as <-; discriminate. Qed.
Lemma apart_ext : apart ["A"; "B"; "C"; "Ax"; "Bx"]%string.
Proof.
  intros [|[|[|[|[|i]]]]] [|[|[|[|[|j]]]]] x y s t Hi Hj E; cbn in Hi, Hj; try (destruct i; discriminate); try (destruct j; discriminate); auto; injection Hi as <-; injection Hj as <-; discriminate.
Qed.
Theorem smooth_names_distinct d ax process rA rB rC rD order corr m ch : smooth_abcd_model d ax process rA rB rC rD order corr = Ok m -> Forall (fun r => rg_chan r = ch) [rA; rB; rC] -> NoDup (m_params m).
Proof.
  unfold smooth_abcd_model. destruct (negb (smem process (pd_procs d))); [discriminate|].
  destruct (smooth_region d ax rA) as [sA|]; [|discriminate]. destruct (smooth_region d ax rB) as [sB|]; [|discriminate]. destruct (smooth_region d ax rC) as [sC|]; [|discriminate]. destruct (smooth_region d ax rD) as [sD|]; [|discriminate]. cbn [rbind].
  destruct (negb (forallb _ _)); [discriminate|]. destruct (negb (forallb _ _)); [discriminate|]. intros E C. apply ok_inj in E. subst m. cbn [m_params]. apply (smooth_names_NoDup process order ch); [|apply apart_abc].
  inversion C as [|? ? CA C1]; subst. inversion C1 as [|? ? CB C2]; subst. inversion C2 as [|? ? CC _]; subst. repeat constructor; cbn [fst snd]; auto.
Qed.
Theorem smooth_ext_names_distinct d ax process rA rB rC rD rAx rBx order init corr m ch : smooth_ext_model d ax process rA rB rC rD rAx rBx order init corr = Ok m -> Forall (fun r => rg_chan r = ch) [rA; rB; rC; rAx; rBx] -> NoDup (m_params m).
Proof.
  unfold smooth_ext_model. destruct (negb (smem process (pd_procs d))); [discriminate|].
  destruct (smooth_region d ax rA) as [sA|]; [|discriminate]. destruct (smooth_region d ax rB) as [sB|]; [|discriminate]. destruct (smooth_region d ax rC) as [sC|]; [|discriminate]. destruct (smooth_region d ax rD) as [sD|]; [|discriminate].
  destruct (smooth_region d ax rAx) as [sAx|]; [|discriminate]. destruct (smooth_region d ax rBx) as [sBx|]; [|discriminate]. cbn [rbind].
  destruct (negb (forallb _ _)); [discriminate|]. destruct (negb (forallb _ _)); [discriminate|]. match goal with |- rbind ?q _ = _ -> _ => destruct q as [dft|]; [|discriminate] end. cbn [rbind].
  intros E C. apply ok_inj in E. subst m. cbn [m_params]. apply (smooth_names_NoDup process order ch); [|apply apart_ext].
  inversion C as [|? ? CA C1]; subst. inversion C1 as [|? ? CB C2]; subst. inversion C2 as [|? ? CC C3]; subst. inversion C3 as [|? ? CAx C4]; subst. inversion C4 as [|? ? CBx _]; subst. repeat constructor; cbn [fst snd]; auto.
Qed.
(** what each coefficient is called *)
Theorem smooth_names_at process order (rs : list (string * (region * list axis))) no k t combo j : (forall u, In u rs -> prodn (sizes (snd (snd u))) = no) -> nth_error rs k = Some t ->
  in_shape (sizes (snd (snd t))) combo -> j <= order ->
  nth_error (smooth_names process order rs) ((k * no + ravel (sizes (snd (snd t))) combo) * (order + 1) + j) = Some (smooth_name process (rg_chan (fst (snd t))) (fst t) (snd (snd t)) combo j).
Proof.
  intros H Hk Sh Lj. unfold smooth_names.
  replace ((k * no + ravel (sizes (snd (snd t))) combo) * (order + 1) + j) with (k * (no * (order + 1)) + (ravel (sizes (snd (snd t))) combo * (order + 1) + j)) by lia.
  pose proof (ravel_lt _ _ Sh) as Lr. rewrite (H t (nth_error_In _ _ Hk)) in Lr.
  rewrite (flat_map_nth _ (no * (order + 1))) with (x := t); auto.
  - rewrite (flat_map_nth _ (order + 1)) with (x := combo); [|intros; rewrite map_length, seq_length; auto|apply all_idx_nth; auto|lia]. rewrite nth_error_map', nth_error_seq' by lia. auto.
  - intros u I. rewrite (flat_map_len _ (order + 1)); [rewrite all_idx_len, (H u I); auto|]. intros. rewrite map_length, seq_length. auto.
  - nia.
Qed.

(** ** the saturated fit *)
Definition sat_bins (mp : list (string * list axis)) : nat := sumn (map (fun ka => prodn (sizes (snd ka))) mp).
Lemma saturated_always d mp an : exists s, saturated_model d mp an = Ok s /\ m_npoi s = sat_bins mp /\ m_npou s = 0 /\ m_allowneg s = an.
Proof. unfold saturated_model, set_param_default. cbn [rbind]. eexists. split; [reflexivity|]. auto. Qed.
Theorem setup_refused d m mp : 0 < m_npoi m -> m_allowneg m = true -> 0 < sat_bins mp -> saturated_setup d m mp = Raise ValueError.
Proof.
  intros P A S. unfold saturated_setup. destruct (saturated_always d mp false) as (s & -> & Ns & _ & As). cbn [rbind]. unfold composite. cbn [List.length Nat.eqb filter].
  rewrite Ns. destruct (Nat.ltb_spec 0 (m_npoi m)); [|lia]. destruct (Nat.ltb_spec 0 (sat_bins mp)); [|lia]. cbn [map existsb]. rewrite A, As. reflexivity.
Qed.
Lemma firstn_len_app {A} (a b : list A) n : List.length a = n -> firstn n (a ++ b) = a.
Proof. intros <-. rewrite firstn_app, Nat.sub_diag, firstn_all. cbn. apply app_nil_r. Qed.
Lemma skipn_len_app {A} (a b : list A) n : List.length a = n -> skipn n (a ++ b) = b.
Proof. intros <-. rewrite skipn_app, Nat.sub_diag, skipn_all. auto. Qed.
Theorem setup_spec d m mp : sized_model m -> m_npoi m = 0 \/ m_allowneg m = false \/ sat_bins mp = 0 ->
  exists s c, saturated_setup d m mp = Ok (s, c) /\ saturated_model d mp false = Ok s /\ composite [m; s] None = Ok c /\ nparams s = sat_bins mp /\
    let pois := firstn (m_npoi m) (m_params m) in let pous := skipn (m_npoi m) (m_params m) in
    m_params c = pois ++ m_params s ++ pous /\
    forall (env fresh : string -> R) systs,
      saturated_centres m c (map env (m_params m ++ systs)) (map fresh (m_params c ++ systs)) =
      map env pois ++ map fresh (m_params s) ++ map env pous ++ map env systs.
Proof.
  intros W Cs. unfold saturated_setup. destruct (saturated_always d mp false) as (s & Es & Ns & Nu & As). rewrite Es. cbn [rbind].
  destruct (composite_accepts [m; s] None) as (c & Ec); [discriminate| |discriminate|].
  { intros a b Ia Ib Pa Pb. cbn [In] in Ia, Ib. destruct Ia as [<-|[<-|[]]], Ib as [<-|[<-|[]]]; auto; destruct Cs as [Cs|[Cs|Cs]]; try lia; congruence. }
  rewrite Ec. cbn [rbind]. exists s, c. split; auto. split; auto. split; auto. split; [unfold nparams; lia|].
  destruct (saturated_sized d mp false s Es) as (Ws & _). destruct W as (Lm & _). destruct Ws as (Ls & _). unfold nparams in Lm, Ls.
  pose proof (composite_ok _ _ _ Ec) as (_ & P & Q & Np & _). rewrite permuted_blocks in Np. unfold blocks in Np. cbn [flat_map] in Np. rewrite !app_nil_r in Np. cbn [map sumn fold_right] in P, Q.
  rewrite (firstn_all2 (m_params s)) in Np by lia. rewrite (skipn_all2 (m_params s)) in Np by lia. rewrite app_nil_r, <- app_assoc in Np.
  set (pois := firstn (m_npoi m) (m_params m)) in *. set (pous := skipn (m_npoi m) (m_params m)) in *. assert (Lp : List.length pois = m_npoi m) by (unfold pois; rewrite firstn_length; lia). assert (Lq : List.length pous = m_npou m) by (unfold pous; rewrite skipn_length; lia).
  assert (Em : m_params m = pois ++ pous) by (symmetry; apply firstn_skipn). split; [exact Np|]. intros env fresh systs.
  rewrite Np, Em. rewrite !map_app. unfold saturated_centres, splice.
  assert (X1 : skipn (nparams m) ((map env pois ++ map env pous) ++ map env systs) = map env systs) by (apply skipn_len_app; rewrite app_length, !map_length; unfold nparams; lia).
  assert (X2 : firstn (m_npoi m) ((map env pois ++ map env pous) ++ map env systs) = map env pois) by (rewrite <- app_assoc; apply firstn_len_app; rewrite map_length; auto).
  assert (X3 : pyslice (m_npoi m) (nparams m) ((map env pois ++ map env pous) ++ map env systs) = map env pous).
  { rewrite <- app_assoc. replace (nparams m) with (m_npoi m + List.length (map env pous)) by (rewrite map_length; unfold nparams; lia). rewrite <- Lp, <- (map_length env pois). apply pyslice_mid. auto. }
  assert (X4 : firstn (nparams c) ((map fresh pois ++ map fresh (m_params s) ++ map fresh pous) ++ map fresh systs) = map fresh pois ++ map fresh (m_params s) ++ map fresh pous).
  { apply firstn_len_app. rewrite !app_length, !map_length. unfold nparams. rewrite P, Q. unfold sumn. cbn. lia. }
  rewrite X1, X2, X3, X4. cbn [firstn app Nat.add]. rewrite !map_length, Lp, Lq.
  rewrite <- (app_assoc (map fresh pois)). rewrite (skipn_len_app (map fresh pois)) by (rewrite map_length; auto).
  assert (Pc : m_npoi c = m_npoi m + List.length (m_params s)) by (rewrite P; unfold sumn; cbn; lia).
  replace (map env pois ++ (map fresh (m_params s) ++ map fresh pous) ++ map env systs) with ((map env pois ++ map fresh (m_params s)) ++ map fresh pous ++ map env systs) by (rewrite <- !app_assoc; auto).
  rewrite (firstn_len_app (map env pois ++ map fresh (m_params s))) by (rewrite app_length, !map_length; lia).
  replace ((map env pois ++ map fresh (m_params s)) ++ map fresh pous ++ map env systs) with (((map env pois ++ map fresh (m_params s)) ++ map fresh pous) ++ map env systs) by (rewrite <- !app_assoc; auto).
  rewrite (skipn_len_app ((map env pois ++ map fresh (m_params s)) ++ map fresh pous)) by (rewrite !app_length, !map_length; lia).
  rewrite <- !app_assoc. auto.
Qed.
