(** The likelihood of a problem the fitter treats as linear is quadratic. *)
From Coq Require Import List Arith Bool String Reals Lra Lia.
From Verif Require Import PyList RBase BBStat_Model Writer_Model Yields_Model Ext_Model Nll_Model Nll_Proof Mat_Model Mat_Proof Linear_Spec Linear_Proof Linear_Quad.
Import ListNotations.
Local Open Scope R_scope.

Definition vecl (n : nat) (x : nat -> R) : list R := map x (seq 0 n).
Definition nfit (P : problem) : nat := (pm_npoi (pb_model P) + pm_npou (pb_model P) + in_nsyst (pb_data P))%nat.
(** param_model.is_linear: the rates are affine in the parameters, which enter without being squared *)
Definition model_affine (pm : pmodel) : Prop :=
  pm_allowneg pm = true /\
  forall full b p, exists c d, forall ps, List.length ps = (pm_npoi pm + pm_npou pm)%nat ->
    rn_bcast (pm_compute pm full ps) b p = c + dot d ps.
Definition model_fits (P : problem) : Prop :=
  forall full ps nb, nb = in_nbins (pb_data P) \/ nb = in_nbinsfull (pb_data P) -> rn_fits (pm_compute (pb_model P) full ps) nb = true.
(** the profiled beta of the covariance fit solve a linear system whose matrix does not depend on the parameters *)
Definition norm_rows (P : problem) (bb : bbcfg) (N : nat -> nat -> R) (k : nat) : list binrow := map (row_of P bb N) (seq 0 k).
Definition cov_affine (P : problem) (bb : bbcfg) (k : nat) : Prop :=
  exists w c M, forall N, orc_cov (pb_orc P) (norm_rows P bb N k) =
    map (fun i => map (fun q => c i q + sumR (map (fun j => sumR (map (fun p => M i q j p * N j p) (seq 0 (in_nproc (pb_data P))))) (seq 0 k))) (seq 0 (w i))) (seq 0 k).
(** fitter.py:2080: with regularisers the yields of all bins, masked ones included, are computed *)
Definition with_masked (P : problem) : bool := negb (Nat.eqb (List.length (pb_regs P)) 0).
Definition sliced (P : problem) : bool := negb (with_masked P) && negb (Nat.eqb (in_nbinsfull (pb_data P) - in_nbins (pb_data P)) 0).
Definition bins_used (P : problem) : nat := if sliced P then in_nbins (pb_data P) else in_nbinsfull (pb_data P).
(** a function of parameters and yields that is affine in both, and a penalty made of squares of such functions *)
Definition affine2 (X Y : nat) (f : list R -> list R -> R) : Prop :=
  exists c u v, forall x y, List.length x = X -> List.length y = Y ->
    f x y = c + sumR (map (fun i => u i * nth i x 0) (seq 0 X)) + sumR (map (fun j => v j * nth j y 0) (seq 0 Y)).
Definition penalty_quadratic (X Y : nat) (reg : list R -> list R -> R) : Prop :=
  exists fs, (forall f, In f fs -> affine2 X Y f) /\
    forall x y, List.length x = X -> List.length y = Y -> reg x y = sumR (map (fun f : list R -> list R -> R => f x y * f x y) fs).
Definition regs_quadratic (P : problem) : Prop := forall reg, In reg (pb_regs P) -> penalty_quadratic (nfit P) (bins_used P) reg.
(** fitter.py:446-452 *)
Definition declared_linear (P : problem) (k : nat) : Prop :=
  pb_lik P <> Sep Poisson /\ model_affine (pb_model P) /\ in_sym (pb_data P) = true /\ in_type (pb_data P) = Normal /\
  match pb_bb P with
  | None => True
  | Some bb => bb_type bb = NormalAdd /\ match pb_lik P with Cov _ => cov_affine P bb k | Sep _ => True end
  end.
(** region in which the lite-mode treatment can spread the additive term over the processes *)
Definition active_bins (P : problem) (e : eff) (xc xt : list R) : Prop :=
  match pb_bb P with
  | Some bb => bb_mode bb = Lite ->
      forall nexp nc, yields (pb_data P) (pb_t P) (pm_compute (pb_model P) (with_masked P) (get_poi (pb_model P) e xc xt ++ get_nui (pb_model P) e xc xt))
                        (get_theta (pb_model P) (in_nsyst (pb_data P)) e xc xt) (with_masked P) = Ok (nexp, nc) ->
      forall b, (b < List.length nexp)%nat ->
        sumR (map snd (bb_ent bb b)) = 0 \/
        0 < sumR (map (fun en => if Reqb (snd (fst en)) 0 then 0 else snd en) (combine (bb_ent bb b) (map (nc b) (seq 0 (in_nproc (pb_data P))))))
  | None => True
  end.

Lemma combine_nth' {A B} (a : list A) : forall (b : list B) i da db, (i < List.length a)%nat -> (i < List.length b)%nat ->
  nth i (combine a b) (da, db) = (nth i a da, nth i b db).
Proof. induction a as [|x a IH]; intros [|y b] [|i] da db Ha Hb; cbn in *; try lia; auto. apply IH; lia. Qed.
Lemma firstn_seq k : forall a m, firstn k (seq a m) = seq a (Nat.min k m).
Proof. induction k as [|k IH]; intros a [|m]; cbn; auto. rewrite IH. auto. Qed.
Lemma skipn_seq k : forall a m, skipn k (seq a m) = seq (a + k) (m - k).
Proof. induction k as [|k IH]; intros a [|m]; cbn; auto; rewrite ?Nat.add_0_r; auto. rewrite IH. f_equal. lia. Qed.
Lemma zipw_maps {A B C I} (f : A -> B -> C) (g : I -> A) (h : I -> B) l : zipw f (map g l) (map h l) = map (fun i => f (g i) (h i)) l.
Proof. unfold zipw. induction l as [|i l IH]; auto. cbn. f_equal. exact IH. Qed.
Lemma nth_mapseq {A} (f : nat -> A) k i d : (i < k)%nat -> nth i (map f (seq 0 k)) d = f i.
Proof. intros H. rewrite (nth_map' _ _ _ _ O) by (rewrite seq_length; auto). rewrite seq_nth by auto. auto. Qed.
Section Rows.
  Variables (P : problem) (bb : bbcfg).
  Let np := in_nproc (pb_data P).
  Let lp b := Nat.min (List.length (bb_ent bb b)) np.
  Let le b := Nat.min (lp b) (List.length (bb_b0 bb b)).
  Lemma ps_seq N b : row_ps (row_of P bb N b) = map (fun i => (zero_var (nth i (bb_ent bb b) (0, 0)), N b i)) (seq 0 (lp b)).
  Proof.
    unfold row_ps, row_of. cbn [r_ent r_norm]. rewrite (zipw_seq _ (0, 0) 0), map_length, seq_length. apply map_ext_in.
    intros i Hi. apply in_seq in Hi. unfold lp, np in Hi. rewrite nth_mapseq by lia. reflexivity.
  Qed.
  Definition esq (N : nat -> nat -> R) b i := mkF (full_info (bb_min bb) (nth i (bb_ent bb b) (0, 0))) (nth i (bb_b0 bb b) 0) (N b i).
  Lemma es_seq N b : row_es bb (row_of P bb N b) = map (esq N b) (seq 0 (le b)).
  Proof.
    unfold row_es, row_of. cbn [r_ent r_norm r_b0]. rewrite (zipw_seq _ ((0, 0), 0) 0), combine_length, map_length, seq_length. apply map_ext_in.
    intros i Hi. apply in_seq in Hi. unfold le, lp, np in Hi. rewrite combine_nth'; [|lia|rewrite map_length, seq_length; lia]. rewrite nth_mapseq by lia. reflexivity.
  Qed.
  Variables (n : nat) (D : (nat -> R) -> Prop) (NC : nat -> nat -> (nat -> R) -> R).
  Hypothesis (NA : forall b p, aff n D (NC b p)).
  Hypothesis (TY : bb_type bb = NormalAdd).
  Let NV x : nat -> nat -> R := fun b p => NC b p x.
  Let row x b := row_of P bb (NV x) b.
  Lemma aff_psum b (g : bool -> R) : aff n D (fun x => sumR (map (fun p : lite_proc => g (fst p) * snd p) (row_ps (row x b)))).
  Proof.
    apply aff_ext with (g := fun x => sumR (map (fun i => g (zero_var (nth i (bb_ent bb b) (0, 0))) * NC b i x) (seq 0 (lp b)))).
    - intros x _. unfold row. rewrite ps_seq, map_map. reflexivity.
    - apply aff_sum. intros i _. apply aff_scal, NA.
  Qed.
  Lemma aff_nexp b : aff n D (fun x => nexp_of (row_ps (row x b))).
  Proof. refine (aff_ext _ _ _ _ _ (aff_psum b (fun _ => 1))). intros x _. unfold nexp_of. f_equal. apply map_ext. intros; ring. Qed.
  Lemma affl_profile_chi2 b : exists w, affl n D w (fun x => profile_row bb (pb_orc P) Chisq (row x b)).
  Proof.
    unfold profile_row. rewrite TY. destruct (bb_mode bb).
    - exists 1%nat. split; [reflexivity|]. intros i Hi. replace i with O by lia. cbn [nth profile_lite r_nobs r_var r_b0 r_ent row row_of].
      unfold Rdiv. apply aff_scalr. apply aff_plus; [|apply aff_const]. apply aff_scal. apply aff_minus; [apply aff_const|]. exact (aff_nexp b).
    - exists (le b). cbn [profile_full].
      assert (S1 : aff n D (fun x => sumR (map fe_n (row_es bb (row x b))))).
      { apply aff_ext with (g := fun x => sumR (map (fun i => NC b i x) (seq 0 (le b)))); [|apply aff_sum; intros; apply NA].
        intros x _. unfold row. rewrite es_seq, map_map. reflexivity. }
      set (vs := sumR (map (fun i => bi_varbeta (full_info (bb_min bb) (nth i (bb_ent bb b) (0, 0)))) (seq 0 (le b)))).
      set (sb := sumR (map (fun i => sqrt (bi_varbeta (full_info (bb_min bb) (nth i (bb_ent bb b) (0, 0)))) * nth i (bb_b0 bb b) 0) (seq 0 (le b)))).
      apply affl_ext with (G := fun x => map (fun i => nth i (bb_b0 bb b) 0 - sqrt (bi_varbeta (full_info (bb_min bb) (nth i (bb_ent bb b) (0, 0)))) *
          ((sumR (map fe_n (row_es bb (row x b))) + (sb + vs / r_var (row x b) * (r_nobs (row x b) - sumR (map fe_n (row_es bb (row x b))))) / (1 + vs / r_var (row x b)) - r_nobs (row x b)) / r_var (row x b))) (seq 0 (le b))).
      + intros x _. unfold row. rewrite es_seq, !map_map. unfold vs, sb. reflexivity.
      + apply affl_seq. intros i _. cbn [r_var r_nobs row row_of]. apply aff_minus; [apply aff_const|]. apply aff_scal. unfold Rdiv. apply aff_scalr.
        apply aff_minus; [|apply aff_const]. apply aff_plus; auto. apply aff_scalr. apply aff_plus; [apply aff_const|]. apply aff_scal. apply aff_minus; auto. apply aff_const.
  Qed.
  Lemma aff_apply b w B : affl n D w B ->
    (bb_mode bb = Lite -> forall x, D x -> sumR (map snd (bb_ent bb b)) = 0 \/ 0 < n_active (row_ps (row x b))) ->
    aff n D (fun x => apply_row bb (row x b) (B x)).
  Proof.
    intros AB ACT. unfold apply_row. rewrite TY. destruct (bb_mode bb).
    - cbn [apply_lite]. cbn [r_ent row row_of].
      set (v := bi_varbeta (lite_info (bb_ent bb b) (bb_min bb))).
      apply aff_ext with (g := fun x => nexp_of (row_ps (row x b)) + sqrt v * nth 0 (B x) 0).
      + intros x Dx. fold (row x b).
        assert (E : forall ps c k, sumR (map (fun p : lite_proc => snd p + c * (if fst p then 0 else snd p) / k) ps) = nexp_of ps + c * n_active ps / k).
        { intros ps c k. unfold nexp_of, n_active. induction ps as [|p ps IH]; [cbn; unfold Rdiv; ring|]. cbn [map sumR fold_right] in *. unfold sumR in *. rewrite IH. unfold Rdiv. ring. }
        rewrite E. destruct (ACT eq_refl x Dx) as [Z|Q].
        * assert (V : v = 0) by exact Z. rewrite V, sqrt_0. unfold Rdiv. ring.
        * unfold safe_pos. rewrite (Rltb_true 0 (n_active (row_ps (row x b))) Q). field. lra.
      + apply aff_plus; [apply aff_nexp|]. apply aff_scal. apply (affl_nth _ _ _ _ _ AB).
    - apply aff_ext with (g := fun x => sumR (map (fun i => NC b i x + sqrt (bi_varbeta (full_info (bb_min bb) (nth i (bb_ent bb b) (0, 0)))) * nth i (B x) 0) (seq 0 (Nat.min (le b) w)))).
      + intros x Dx. unfold apply_full.
        transitivity (sumR (zipw (fun en b0 => fe_n en + fsbeta en * b0) (row_es bb (row x b)) (B x))).
        { unfold zipw. f_equal. apply map_ext. intros [en b0]. reflexivity. }
        unfold row. rewrite es_seq. rewrite (zipw_seq _ (esq (NV x) b 0) 0), map_length, seq_length, (proj1 AB) by auto. f_equal. apply map_ext_in.
        intros i Hi. apply in_seq in Hi. rewrite nth_mapseq by lia. reflexivity.
      + apply aff_sum. intros i _. apply aff_plus; [apply NA|]. apply aff_scal, (affl_nth _ _ _ _ _ AB).
  Qed.
  Lemma qf_lbeta b w B : affl n D w B -> qf n D (fun x => lbeta_row bb (row x b) (B x)).
  Proof.
    intros AB. unfold lbeta_row. rewrite TY. destruct (bb_mode bb).
    - cbn [lbeta_bin r_b0 row row_of]. apply qf_scal, qf_sq. apply aff_minus; [|apply aff_const]. apply (affl_nth _ _ _ _ _ AB).
    - cbn [r_b0 r_ent row row_of].
      apply qf_ext with (g := fun x => sumR (map (fun i => 1 / 2 * ((nth i (B x) 0 - snd (nth i (combine (bb_ent bb b) (bb_b0 bb b)) ((0, 0), 0))) * (nth i (B x) 0 - snd (nth i (combine (bb_ent bb b) (bb_b0 bb b)) ((0, 0), 0)))))
           (seq 0 (Nat.min (List.length (combine (bb_ent bb b) (bb_b0 bb b))) w)))).
      + intros x Dx. rewrite (zipw_seq _ ((0, 0), 0) 0), (proj1 AB) by auto. reflexivity.
      + apply qf_sum. intros i _. apply qf_scal, qf_sq. apply aff_minus; [|apply aff_const]. apply (affl_nth _ _ _ _ _ AB).
  Qed.
End Rows.

Section Quad.
  Variables (P : problem) (e : eff).
  (** [diag]: value of the likelihood; otherwise the frozen parameters are constants at [x0] *)
  Variables (diag : bool) (x0 : list R).
  Definition ev (x : nat -> R) : list R * list R := (if diag then vecl (nfit P) x else x0, vecl (nfit P) x).
  Let D (x : nat -> R) : Prop := active_bins P e (fst (ev x)) (snd (ev x)).
  Let n := nfit P.
  Let pm := pb_model P.
  Let dat := pb_data P.
  Hypothesis (ML : List.length (ef_mask e) = n) (XL : List.length x0 = n).
  Hypothesis (BL : match ef_blind e with Some (op, ot) => List.length op = pm_npoi pm /\ List.length ot = in_nsyst dat | None => True end).
  Let FU : bool := with_masked P.
  Let nb : nat := bins_used P.
  Hypothesis (LIN : declared_linear P (Nat.min (in_nbins dat) nb)).
  Hypothesis (FIT : model_fits P).
  Hypothesis (REG : regs_quadratic P).

  Lemma ev_c : affl n D n (fun x => fst (ev x)).
  Proof.
    unfold ev, vecl. destruct diag; cbn [fst].
    - apply affl_seq. intros i Hi. apply aff_coord. auto.
    - rewrite <- XL at 2. apply affl_const.
  Qed.
  Lemma ev_t : affl n D n (fun x => snd (ev x)).
  Proof. unfold ev, vecl. cbn [snd]. apply affl_seq. intros i Hi. apply aff_coord. auto. Qed.
  Lemma mask_slice a k : (a + k <= n)%nat -> List.length (slice a k (ef_mask e)) = k.
  Proof. intros H. unfold slice. rewrite firstn_length, skipn_length, ML. lia. Qed.
  Lemma nfit_eq : n = (pm_npoi pm + pm_npou pm + in_nsyst dat)%nat. Proof. reflexivity. Qed.
  Lemma map_enc l : map (enc pm) l = l.
  Proof. destruct LIN as (_ & (AN & _) & _). unfold enc. rewrite <- (map_id l) at 2. apply map_ext. intros. fold pm in AN. rewrite AN. auto. Qed.
  Lemma ev_poi : affl n D (pm_npoi pm) (fun x => get_poi pm e (fst (ev x)) (snd (ev x))).
  Proof.
    unfold get_poi.
    assert (B : affl n D (pm_npoi pm) (fun x => where_sg (slice 0 (pm_npoi pm) (ef_mask e)) (map (enc pm) (slice 0 (pm_npoi pm) (fst (ev x)))) (map (enc pm) (slice 0 (pm_npoi pm) (snd (ev x)))))).
    { apply affl_where; [| |apply mask_slice; rewrite nfit_eq; lia].
      - apply affl_ext with (G := fun x => slice 0 (pm_npoi pm) (fst (ev x))); [intros; apply map_enc|].
        apply (affl_slice n D n); [rewrite nfit_eq; lia|apply ev_c].
      - apply affl_ext with (G := fun x => slice 0 (pm_npoi pm) (snd (ev x))); [intros; apply map_enc|].
        apply (affl_slice n D n); [rewrite nfit_eq; lia|apply ev_t]. }
    destruct (ef_blind e) as [[op ot]|]; auto. destruct BL as (B1 & B2).
    apply (affl_zipw n D (pm_npoi pm) _ _ op Rmult); [|exact B|lia]. intros b g A. apply aff_scalr. auto.
  Qed.
  Lemma ev_nui : affl n D (pm_npou pm) (fun x => get_nui pm e (fst (ev x)) (snd (ev x))).
  Proof.
    unfold get_nui. apply affl_where; [| |apply mask_slice; rewrite nfit_eq; lia];
      apply (affl_slice n D n); try (rewrite nfit_eq; lia); [apply ev_c|apply ev_t].
  Qed.
  Lemma ev_theta : affl n D (in_nsyst dat) (fun x => get_theta pm (in_nsyst dat) e (fst (ev x)) (snd (ev x))).
  Proof.
    unfold get_theta.
    assert (B : affl n D (in_nsyst dat) (fun x => where_sg (slice (pm_npoi pm + pm_npou pm) (in_nsyst dat) (ef_mask e))
                (slice (pm_npoi pm + pm_npou pm) (in_nsyst dat) (fst (ev x))) (slice (pm_npoi pm + pm_npou pm) (in_nsyst dat) (snd (ev x))))).
    { apply affl_where; [| |apply mask_slice; rewrite nfit_eq; lia]; apply (affl_slice n D n); try (rewrite nfit_eq; lia); [apply ev_c|apply ev_t]. }
    destruct (ef_blind e) as [[op ot]|]; auto. destruct BL as (B1 & B2).
    apply (affl_zipw n D (in_nsyst dat) _ _ ot Rplus); [|exact B|lia]. intros b g A. apply aff_plus; auto. apply aff_const.
  Qed.
  Let PS (x : nat -> R) : list R := get_poi pm e (fst (ev x)) (snd (ev x)) ++ get_nui pm e (fst (ev x)) (snd (ev x)).
  Let TH (x : nat -> R) : list R := get_theta pm (in_nsyst dat) e (fst (ev x)) (snd (ev x)).
  Lemma ev_ps : affl n D (pm_npoi pm + pm_npou pm) PS.
  Proof. apply affl_app; [apply ev_poi|apply ev_nui]. Qed.
  Lemma ev_rn b p : aff n D (fun x => rn_bcast (pm_compute pm FU (PS x)) b p).
  Proof.
    destruct LIN as (_ & (_ & MA) & _). destruct (MA FU b p) as (c & d & E).
    apply aff_ext with (g := fun x => c + dot d (PS x)); [intros x Dx; apply E; apply (proj1 ev_ps); auto|].
    apply aff_plus; [apply aff_const|]. apply (aff_dot _ _ _ _ _ ev_ps).
  Qed.
  (** the yields *)
  Lemma filter_map_key {A} (l : list A) (k : A -> nat * nat) (v : A -> R) f :
    filter (fun en => f (fst en)) (map (fun a => (k a, v a)) l) = map (fun a => (k a, v a)) (filter (fun a => f (k a)) l).
  Proof. induction l as [|a l IH]; auto. cbn. destruct (f (k a)); cbn; rewrite IH; auto. Qed.
  Lemma ev_yields : exists NC : nat -> nat -> (nat -> R) -> R, exists NE : nat -> (nat -> R) -> R,
    (forall b p, aff n D (NC b p)) /\ (forall b, aff n D (NE b)) /\
    forall x, D x -> exists nc, yields dat (pb_t P) (pm_compute pm FU (PS x)) (TH x) FU = Ok (map (fun b => NE b x) (seq 0 nb), nc) /\
      forall b p, nc b p = NC b p x.
  Proof.
    destruct LIN as (_ & _ & SY & NO & _). fold dat in SY, NO.
    unfold yields. rewrite SY, NO. cbn [mthetaalpha]. fold FU. change (negb FU && negb (Nat.eqb (in_nbinsfull dat - in_nbins dat) 0)) with (sliced P).
    assert (TA : forall i, aff n D (fun x => nth i (TH x) 0)) by (intros i; apply (affl_nth _ _ _ _ _ ev_theta)).
    destruct (pb_t P) as [norm k|sp].
    - exists (fun b p x => norm b p * rn_bcast (pm_compute pm FU (PS x)) b p + dense_logsnorm k (TH x) b p),
             (fun b x => sum_n (in_nproc dat) (fun p => norm b p * rn_bcast (pm_compute pm FU (PS x)) b p + dense_logsnorm k (TH x) b p)).
      assert (A1 : forall b p, aff n D (fun x => norm b p * rn_bcast (pm_compute pm FU (PS x)) b p + dense_logsnorm k (TH x) b p)).
      { intros b p. apply aff_plus; [apply aff_scal, ev_rn|].
        apply aff_ext with (g := fun x => sumR (map (fun col => k b p col * nth col (TH x) 0) (seq 0 (in_nsyst dat)))).
        - intros x Dx. unfold dense_logsnorm, sum_n. rewrite (proj1 ev_theta x Dx : List.length (TH x) = in_nsyst dat). auto.
        - apply aff_sum. intros col _. apply aff_scal, TA. }
      split; [exact A1|]. split; [intros b; apply aff_sum; intros p _; apply A1|].
      intros x Dx. rewrite FIT by (unfold nb, bins_used; destruct (sliced P); auto). eexists. split; [reflexivity|]. reflexivity.
    - set (slice := sliced P) in *.
      set (idx := filter (fun je => if slice then Nat.ltb (fst (fst (snd je))) (in_nbins dat) else true) (combine (seq 0 (List.length (sp_norm sp))) (sp_norm sp))).
      set (val := fun (je : nat * (nat * nat * R)) x => snd (snd je) * rn_bcast (pm_compute pm FU (PS x)) (fst (fst (snd je))) (snd (fst (snd je))) + sparse_logsnorm sp (TH x) (fst je)).
      assert (VA : forall je, aff n D (val je)).
      { intros je. apply aff_plus; [apply aff_scal, ev_rn|]. unfold sparse_logsnorm. apply aff_sum. intros c _. apply aff_scal, TA. }
      exists (fun b p x => sumR (map (fun je => val je x) (filter (fun je => Nat.eqb (fst (fst (snd je))) b && Nat.eqb (snd (fst (snd je))) p) idx))),
             (fun b x => sumR (map (fun je => val je x) (filter (fun je => Nat.eqb (fst (fst (snd je))) b) idx))).
      split; [intros b p; apply aff_sum; intros; apply VA|]. split; [intros b; apply aff_sum; intros; apply VA|].
      intros x Dx. rewrite FIT by auto. cbn [negb].
      set (es := sparse_entries _ _ _ _).
      assert (ES : es = map (fun je => (fst (snd je), val je x)) (combine (seq 0 (List.length (sp_norm sp))) (sp_norm sp))).
      { unfold es, sparse_entries. apply map_ext. intros [j [[b p] y]]. reflexivity. }
      set (fe := if slice then filter (fun en => Nat.ltb (fst (fst en)) (in_nbins dat)) es else es).
      assert (FE : fe = map (fun je => (fst (snd je), val je x)) idx).
      { unfold fe, idx. destruct slice.
        - rewrite ES. apply (filter_map_key _ _ _ (fun k => Nat.ltb (fst k) (in_nbins dat))).
        - rewrite ES. f_equal. symmetry. clear. generalize (combine (seq 0 (List.length (sp_norm sp))) (sp_norm sp)). induction l as [|q l IH]; [reflexivity|]. cbn [filter]. rewrite IH. reflexivity. }
      eexists. split.
      + f_equal. apply f_equal2; [|reflexivity]. apply map_ext. intros b. rewrite FE.
        rewrite (filter_map_key _ _ _ (fun k => Nat.eqb (fst k) b)), map_map. reflexivity.
      + intros b p. cbn beta. rewrite FE. rewrite (filter_map_key _ _ _ (fun k => Nat.eqb (fst k) b && Nat.eqb (snd k) p)), map_map. reflexivity.
  Qed.

  Lemma ev_getx : affl n D (pm_npoi pm + (pm_npou pm + in_nsyst dat)) (fun x => get_x pm (in_nsyst dat) e (fst (ev x)) (snd (ev x))).
  Proof. unfold get_x. apply affl_app; [apply ev_poi|]. apply affl_app; [apply ev_nui|apply ev_theta]. Qed.
  Lemma aff_affine2 X Y G F f : affl n D X G -> affl n D Y F -> affine2 X Y f -> aff n D (fun x => f (G x) (F x)).
  Proof.
    intros AG AF (c & u & v & E).
    apply aff_ext with (g := fun x => c + sumR (map (fun i => u i * nth i (G x) 0) (seq 0 X)) + sumR (map (fun j => v j * nth j (F x) 0) (seq 0 Y))).
    - intros x Dx. apply E; [apply (proj1 AG x Dx)|apply (proj1 AF x Dx)].
    - apply aff_plus; [apply aff_plus; [apply aff_const|]|]; apply aff_sum; intros i _; apply aff_scal; eapply affl_nth; eassumption.
  Qed.
  Lemma qf_penalty G F reg t : affl n D (pm_npoi pm + (pm_npou pm + in_nsyst dat)) G -> affl n D nb F -> penalty_quadratic (nfit P) (bins_used P) reg ->
    qf n D (fun x => reg (G x) (F x) * t).
  Proof.
    intros AG AF (fs & FS & E).
    assert (NX : (pm_npoi pm + (pm_npou pm + in_nsyst dat))%nat = nfit P) by (unfold nfit; fold pm dat; lia). rewrite NX in AG.
    apply qf_ext with (g := fun x => t * sumR (map (fun f : list R -> list R -> R => f (G x) (F x) * f (G x) (F x)) fs)).
    - intros x Dx. rewrite E; [ring|apply (proj1 AG x Dx)|apply (proj1 AF x Dx)].
    - apply qf_scal. apply qf_sum. intros f I. apply qf_sq. apply (aff_affine2 _ _ _ _ _ AG AF (FS f I)).
  Qed.
  Theorem linear_quadratic : exists c b H, sym n H /\
    forall x, D x -> nll_ad P e (fst (ev x)) (snd (ev x)) = Ok (qfun n c b H x).
  Proof.
    destruct ev_yields as (NC & NE & NCA & NEA & YE).
    assert (YB : exists F L, affl n D nb F /\ qf n D L /\ forall x, D x -> yields_beta P FU (PS x) (TH x) = Ok (F x, L x)).
    { unfold yields_beta. destruct (pb_bb P) as [bb|] eqn:BB.
      2:{ exists (fun x => map (fun b => NE b x) (seq 0 nb)), (fun _ => 0). split; [apply affl_seq; auto|]. split; [apply qf_const|].
          intros x Dx. destruct (YE x Dx) as (nc & E & _). fold dat pm. rewrite E. reflexivity. }
      assert (LIN' := LIN). destruct LIN' as (LK & _ & _ & _ & BBH). rewrite BB in BBH. destruct BBH as (TY & CV).
      set (NV := fun x b p => NC b p x).
      set (k := Nat.min (in_nbins dat) nb).
      assert (BETA : exists B : nat -> (nat -> R) -> list R, (forall b, exists w, affl n D w (B b)) /\
                forall x, (match pb_lik P with Sep l => map (profile_row bb (pb_orc P) l) (norm_rows P bb (NV x) k) | Cov _ => orc_cov (pb_orc P) (norm_rows P bb (NV x) k) end)
                          = map (fun b => B b x) (seq 0 k)).
      { destruct (pb_lik P) as [l|W] eqn:EL.
        - destruct l; [congruence|]. exists (fun b x => profile_row bb (pb_orc P) Chisq (row_of P bb (NV x) b)). split.
          + intros b. apply affl_profile_chi2; auto.
          + intros x. unfold norm_rows. rewrite map_map. reflexivity.
        - destruct CV as (w & c & M & CV). exists (fun i x => map (fun q => c i q + sumR (map (fun j => sumR (map (fun p => M i q j p * NC j p x) (seq 0 (in_nproc (pb_data P))))) (seq 0 k))) (seq 0 (w i))).
          split; [|intros x; apply CV]. intros i. exists (w i). apply affl_seq. intros q _. apply aff_plus; [apply aff_const|].
          apply aff_sum. intros j _. apply aff_sum. intros p _. apply aff_scal, NCA. }
      destruct BETA as (B & BA & BE).
      set (BB' := fun b x => if Nat.ltb b k then B b x else bb_b0 bb b).
      assert (BBA : forall b, exists w, affl n D w (BB' b)).
      { intros b. unfold BB'. destruct (Nat.ltb b k); auto. exists (List.length (bb_b0 bb b)). apply affl_const. }
      exists (fun x => map (fun b => apply_row bb (row_of P bb (NV x) b) (BB' b x)) (seq 0 nb)),
             (fun x => sumR (map (fun b => lbeta_row bb (row_of P bb (NV x) b) (BB' b x)) (seq 0 nb))
                       + sumR (map (fun b => lbeta_row bb (row_of P bb (NV x) b) (bb_b0 bb b)) (seq nb (in_nbinsfull dat - nb)))).
      split; [|split].
      - apply affl_seq. intros b Hb. destruct (BBA b) as (w & A). apply (aff_apply P bb n D NC NCA TY b w (BB' b) A).
        intros ML' x Dx. assert (Dx' := Dx). unfold D, active_bins in Dx'. rewrite BB in Dx'. specialize (Dx' ML').
        destruct (YE x Dx) as (nc & E & EC). specialize (Dx' _ _ E b). rewrite map_length, seq_length in Dx'. destruct (Dx' Hb) as [Z|Q]; auto.
        right. refine (Rlt_le_trans _ _ _ Q (Req_le _ _ _)). unfold n_active, row_ps, row_of, zipw. cbn [r_ent r_norm]. rewrite map_map.
        rewrite (map_ext (nc b) (fun p => NC b p x)) by auto. reflexivity.
      - apply qf_plus; apply qf_sum; intros b _.
        + destruct (BBA b) as (w & A). apply (qf_lbeta P bb n D NC TY b w); auto.
        + apply (qf_lbeta P bb n D NC TY b (List.length (bb_b0 bb b)) (fun _ => bb_b0 bb b)). apply affl_const.
      - intros x Dx. destruct (YE x Dx) as (nc & E & EC). fold dat pm. rewrite E. cbn [rbind].
        rewrite map_length, seq_length.
        assert (RE : forall l, map (row_of P bb nc) l = map (row_of P bb (NV x)) l).
        { intros l. apply map_ext. intros b. unfold row_of. f_equal. apply map_ext. intros p. apply EC. }
        rewrite !RE. clear RE.
        assert (BE2 : profile_rows bb (pb_orc P) (pb_lik P) (in_nbins dat) (map (row_of P bb (NV x)) (seq 0 nb)) = map (fun b => BB' b x) (seq 0 nb)).
        { unfold profile_rows. rewrite firstn_map, skipn_map, firstn_seq, skipn_seq. fold k. fold (norm_rows P bb (NV x) k). rewrite BE.
          rewrite map_map. assert (SE : seq 0 nb = seq 0 k ++ seq (0 + in_nbins dat) (nb - in_nbins dat)).
          { unfold k. destruct (Nat.le_ge_cases (in_nbins dat) nb) as [H|H].
            - rewrite Nat.min_l by auto. rewrite <- seq_app. f_equal. lia.
            - rewrite Nat.min_r by auto. replace (nb - in_nbins dat)%nat with O by lia. rewrite app_nil_r. auto. }
          rewrite SE, map_app. f_equal; apply map_ext_in; intros b Hb; apply in_seq in Hb; unfold BB'.
          - replace (Nat.ltb b k) with true; auto. symmetry. apply Nat.ltb_lt. lia.
          - replace (Nat.ltb b k) with false; auto. symmetry. apply Nat.ltb_ge. unfold k. lia. }
        rewrite BE2. rewrite !zipw_maps, map_map. reflexivity. }
    destruct YB as (F & L & FA & LQ & YB).
    assert (FN : affl n D (Nat.min (in_nbins dat) nb) (fun x => firstn (in_nbins dat) (F x))) by (apply affl_firstn; auto).
    assert (Q : qf n D (fun x => ln_term (pb_lik P) (pb_nobs P) (pb_var P) (firstn (in_nbins dat) (F x))
                + lc_term (pb_cw P) (get_x pm (in_nsyst dat) e (fst (ev x)) (snd (ev x))) (pb_x0 P) + L x
                + sumR (map (fun reg => reg (get_x pm (in_nsyst dat) e (fst (ev x)) (snd (ev x))) (F x) * exp (2 * pb_tau P)) (pb_regs P)) + ext_nll (pb_ext P) (snd (ev x)))).
    { apply qf_plus; [apply qf_plus; [apply qf_plus; [apply qf_plus|]|]|]; auto.
      - destruct LIN as (LK & _). destruct (pb_lik P) as [[|]|W]; [congruence| |].
        + apply (qf_ln_chi2 _ _ _ _ _ _ FN).
        + apply (qf_ln_cov _ _ _ _ _ _ _ FN).
      - apply (qf_lc _ _ _ _ _ _ ev_getx).
      - apply qf_sum. intros reg IR. apply (qf_penalty _ _ _ _ ev_getx FA (REG reg IR)).
      - unfold ext_nll. apply qf_sum. intros t _. apply (qf_ext_term _ _ _ _ _ ev_t). }
    destruct Q as (c & b & H & SH & QE). exists c, b, H. split; auto. intros x Dx.
    unfold nll_ad. fold pm dat. fold (PS x) (TH x). change (negb (Nat.eqb (List.length (pb_regs P)) 0)) with FU.
    rewrite YB by auto. cbn [rbind]. f_equal. rewrite <- QE by auto. reflexivity.
  Qed.
End Quad.
