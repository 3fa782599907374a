From Coq Require Import Reals List Arith Bool Lra Lia FunctionalExtensionality.
From Verif Require Import PyList RBase Mat_Model Mat_Proof BBGamma_Proof Linear_Proof LCurve_Model LCurve_Spec.
Import ListNotations.
Open Scope R_scope.

Lemma dl_sm n (f : nat -> R -> R) (d : nat -> R) x : (forall i, (i < n)%nat -> derivable_pt_lim (f i) x (d i)) ->
  derivable_pt_lim (fun h => sm n (fun i => f i h)) x (sm n d).
Proof.
  revert f d. induction n as [|n IH]; intros f d H; cbn [sm].
  - apply derivable_pt_lim_const.
  - apply (derivable_pt_lim_plus (f O) (fun h => sm n (fun i => f (S i) h))); [apply H; lia|]. apply (IH (fun i => f (S i)) (fun i => d (S i))).
    intros i Hi. apply H. lia.
Qed.
(** the curvature does not depend on the choice of the derivatives *)
Lemma curvature_unique X Y t k k' : is_curvature X Y t k -> is_curvature X Y t k' -> k = k'.
Proof.
  intros (X1 & Y1 & X2 & Y2 & A & B & C & D & _ & ->) (X1' & Y1' & X2' & Y2' & A' & B' & C' & D' & _ & ->).
  assert (EX : forall s, X1 s = X1' s) by (intros s; apply (uniqueness_limite X s); auto).
  assert (EY : forall s, Y1 s = Y1' s) by (intros s; apply (uniqueness_limite Y s); auto).
  assert (X2 = X2').
  { apply (uniqueness_limite X1 t); auto. intros e He. destruct (C' e He) as [d Hd]. exists d. intros h H0 H1. rewrite !EX. auto. }
  assert (Y2 = Y2').
  { apply (uniqueness_limite Y1 t); auto. intros e He. destruct (D' e He) as [d Hd]. exists d. intros h H0 H1. rewrite !EY. auto. }
  subst. rewrite EX, EY. reflexivity.
Qed.

Section Path.
  Variables (n : nat) (F P : fn) (path path1 : R -> nat -> R) (path2 : nat -> R) (t : R).
  Hypothesis SF : smooth n (fval F) (fgrad F) (fhess F).
  Hypothesis SP : smooth n (fval P) (fgrad P) (fhess P).
  Hypothesis M : minima (fval F) (fval P) path.
  Hypothesis D1 : forall s i, (i < n)%nat -> derivable_pt_lim (fun s => path s i) s (path1 s i).

  (** Fermat *)
  Lemma stationary s i : (i < n)%nat -> fgrad F (path s) i + exp (2 * s) * fgrad P (path s) i = 0.
  Proof.
    intros Hi. set (line := fun h j => path s j + delta i j * h).
    assert (DL : forall j, (j < n)%nat -> derivable_pt_lim (fun h => line h j) 0 (delta i j)).
    { intros j _. unfold line. apply (dl_val _ _ (0 + delta i j * 1)); [ring|].
      apply (derivable_pt_lim_plus (fun _ => path s j) (fun h => delta i j * h)); [apply derivable_pt_lim_const|].
      apply (derivable_pt_lim_scal id). apply derivable_pt_lim_id. }
    assert (L0 : line 0 = path s) by (apply functional_extensionality; intros j; unfold line; ring).
    assert (DF := proj1 SF line 0 (delta i) DL). assert (DP := proj1 SP line 0 (delta i) DL). rewrite L0 in DF, DP.
    assert (DT : derivable_pt_lim (fun h => fval F (line h) + exp (2 * s) * fval P (line h)) 0
             (sm n (fun j => fgrad F (path s) j * delta i j) + exp (2 * s) * sm n (fun j => fgrad P (path s) j * delta i j))).
    { apply (derivable_pt_lim_plus (fun h => fval F (line h)) (fun h => exp (2 * s) * fval P (line h))); auto.
      apply (derivable_pt_lim_scal (fun h => fval P (line h))). auto. }
    assert (G : forall f : nat -> R, sm n (fun j => f j * delta i j) = f i).
    { intros f. rewrite <- (sm_delta n i f Hi). apply sm_ext. intros; ring. }
    rewrite !G in DT.
    set (pr := exist _ _ DT : derivable_pt (fun h => fval F (line h) + exp (2 * s) * fval P (line h)) 0).
    assert (E := deriv_minimum _ (-1) 1 0 pr ltac:(lra) ltac:(lra) ltac:(intros h _ _; cbn beta; rewrite L0; apply M)).
    rewrite <- E. symmetry. apply derive_pt_eq. auto.
  Qed.

  (** implicit differentiation *)
  Lemma implicit i : (i < n)%nat ->
    mv n (fun i j => fhess F (path t) i j + exp (2 * t) * fhess P (path t) i j) (path1 t) i = - (2 * exp (2 * t) * fgrad P (path t) i).
  Proof.
    intros Hi.
    assert (DF := proj1 (proj2 SF) i Hi path t (path1 t) (fun j Hj => D1 t j Hj)).
    assert (DP := proj1 (proj2 SP) i Hi path t (path1 t) (fun j Hj => D1 t j Hj)). cbn beta in DF, DP.
    assert (DE : derivable_pt_lim (fun s => exp (2 * s)) t (2 * exp (2 * t))).
    { apply (dl_val _ _ (exp (2 * t) * (2 * 1))); [ring|]. apply (derivable_pt_lim_comp (fun s => 2 * s) exp); [|apply derivable_pt_lim_exp].
      apply (derivable_pt_lim_scal id). apply derivable_pt_lim_id. }
    assert (DT := derivable_pt_lim_plus _ _ _ _ _ DF (derivable_pt_lim_mult _ _ _ _ _ DE DP)).
    assert (DZ : derivable_pt_lim (fun _ : R => 0) t (sm n (fun j => fhess F (path t) i j * path1 t j)
               + (2 * exp (2 * t) * fgrad P (path t) i + exp (2 * t) * sm n (fun j => fhess P (path t) i j * path1 t j)))).
    { intros e He. destruct (DT e He) as [d Hd]. exists d. intros h H0 H1. specialize (Hd h H0 H1). unfold plus_fct, mult_fct in Hd.
      rewrite !(stationary _ i Hi) in Hd. auto. }
    assert (Z := uniqueness_limite _ _ _ _ DZ (derivable_pt_lim_const 0 t)).
    unfold mv. rewrite (sm_ext n _ (fun j => fhess F (path t) i j * path1 t j + exp (2 * t) * (fhess P (path t) i j * path1 t j))) by (intros; ring).
    rewrite sm_plus, sm_scal. lra.
  Qed.

  Lemma d_log f s : smooth n (fval f) (fgrad f) (fhess f) -> 0 < fval f (path s) ->
    derivable_pt_lim (fun s => ln (fval f (path s))) s (first n (flog f) (path s) (path1 s)).
  Proof.
    intros S H. assert (D := proj1 S path s (path1 s) (fun j Hj => D1 s j Hj)).
    apply (dl_val _ _ (/ fval f (path s) * sm n (fun i => fgrad f (path s) i * path1 s i))).
    - unfold first, vdot, flog. cbn [fgrad]. rewrite <- sm_scal. apply sm_ext. intros. field. lra.
    - apply (derivable_pt_lim_comp (fun s => fval f (path s)) ln); auto. apply derivable_pt_lim_ln. auto.
  Qed.
  Hypothesis D2 : forall i, (i < n)%nat -> derivable_pt_lim (fun s => path1 s i) t (path2 i).
  Lemma d_first f : smooth n (fval f) (fgrad f) (fhess f) -> 0 < fval f (path t) ->
    derivable_pt_lim (fun s => first n (flog f) (path s) (path1 s)) t (second n (flog f) (path t) (path1 t) path2).
  Proof.
    intros S H. assert (D := proj1 S path t (path1 t) (fun j Hj => D1 t j Hj)). set (v := fval f (path t)) in *.
    assert (DG : forall i, (i < n)%nat -> derivable_pt_lim (fun s => fgrad f (path s) i) t (mv n (fhess f (path t)) (path1 t) i)).
    { intros i Hi. apply (proj1 (proj2 S) i Hi path t (path1 t) (fun j Hj => D1 t j Hj)). }
    unfold first, second, vdot, flog. cbn [fgrad fhess].
    set (q := sm n (fun i => fgrad f (path t) i * path1 t i)) in *.
    apply (dl_val _ _ (sm n (fun i => (mv n (fhess f (path t)) (path1 t) i * v - q * fgrad f (path t) i) / Rsqr v * path1 t i + fgrad f (path t) i / v * path2 i))).
    - rewrite sm_plus. f_equal. apply sm_ext. intros i Hi. unfold mv at 2.
      rewrite (sm_ext n (fun j => (fhess f (path t) i j / fval f (path t) - fgrad f (path t) i * fgrad f (path t) j / (fval f (path t) * fval f (path t))) * path1 t j)
                (fun j => / v * (fhess f (path t) i j * path1 t j) - fgrad f (path t) i / (v * v) * (fgrad f (path t) j * path1 t j)))
        by (intros j Hj; fold v; field; lra).
      rewrite sm_minus, !sm_scal. fold q. fold (mv n (fhess f (path t)) (path1 t) i). unfold Rsqr. field. lra.
    - apply (dl_sm n (fun i s => fgrad f (path s) i / fval f (path s) * path1 s i)). intros i Hi.
      apply (derivable_pt_lim_mult (fun s => fgrad f (path s) i / fval f (path s)) (fun s => path1 s i)); [|apply D2; auto].
      apply (derivable_pt_lim_div (fun s => fgrad f (path s) i) (fun s => fval f (path s))); auto. fold v. lra.
  Qed.
End Path.

Lemma smooth_plus n f g : smooth n (fval f) (fgrad f) (fhess f) -> smooth n (fval g) (fgrad g) (fhess g) -> smooth n (fval (fplus f g)) (fgrad (fplus f g)) (fhess (fplus f g)).
Proof.
  intros (A & B & C) (A' & B' & C'). split; [|split].
  - intros p t v D. cbn. rewrite (sm_ext n _ (fun i => fgrad f (p t) i * v i + fgrad g (p t) i * v i)) by (intros; ring). rewrite sm_plus.
    apply (derivable_pt_lim_plus (fun s => fval f (p s)) (fun s => fval g (p s))); [apply A|apply A']; auto.
  - intros i Hi p t v D. cbn. rewrite (sm_ext n _ (fun j => fhess f (p t) i j * v j + fhess g (p t) i j * v j)) by (intros; ring). rewrite sm_plus.
    apply (derivable_pt_lim_plus (fun s => fgrad f (p s) i) (fun s => fgrad g (p s) i)); [apply (B i Hi)|apply (B' i Hi)]; auto.
  - intros x i j Hi Hj. cbn. rewrite C, C'; auto.
Qed.
Lemma smooth_zero n : smooth n (fval fzero) (fgrad fzero) (fhess fzero).
Proof.
  split; [|split]; cbn; [| |auto].
  - intros p t v _. rewrite sm_0 by (intros; ring). apply derivable_pt_lim_const.
  - intros i _ p t v _. cbn. rewrite sm_0 by (intros; ring). apply derivable_pt_lim_const.
Qed.
Lemma smooth_add_n n l : (forall f, In f l -> smooth n (fval f) (fgrad f) (fhess f)) -> smooth n (fval (add_n l)) (fgrad (add_n l)) (fhess (add_n l)).
Proof.
  induction l as [|f l IH]; intros H; [apply smooth_zero|]. apply (smooth_plus n f (add_n l)); [apply H; left; auto|]. apply IH. intros g I. apply H. right; auto.
Qed.

Lemma match_ne {A B} (l : list A) (a b : B) : l <> [] -> match l with [] => a | _ :: _ => b end = b.
Proof. destruct l; congruence. Qed.
Section Main.
  Variables (n : nat) (s : setup) (path path1 : R -> nat -> R) (path2 : nat -> R) (t : R).
  Hypothesis SF : smooth n (fval (loss s)) (fgrad (loss s)) (fhess (loss s)).
  Hypothesis SR : forall f, In f (s_regs s) -> smooth n (fval f) (fgrad f) (fhess f).
  Hypothesis M : minima (fval (loss s)) (fval (penalty s)) path.
  Hypothesis D1 : forall u i, (i < n)%nat -> derivable_pt_lim (fun u => path u i) u (path1 u i).
  Hypothesis D2 : forall i, (i < n)%nat -> derivable_pt_lim (fun u => path1 u i) t (path2 i).
  Hypothesis PF : forall u, 0 < fval (loss s) (path u).
  Hypothesis PP : forall u, 0 < fval (penalty s) (path u).
  Hypothesis PD : posdef n (hessian s (path t) t).
  Hypothesis NZ : nonzero n (fgrad (penalty s) (path t)).
  Let F := loss s.
  Let P := penalty s.
  Let e := exp (2 * t).
  Let SP : smooth n (fval P) (fgrad P) (fhess P). Proof. apply smooth_add_n. exact SR. Qed.
  Lemma hsym : sym n (hessian s (path t) t).
  Proof. intros i j Hi Hj. unfold hessian. rewrite (proj2 (proj2 SF)), (proj2 (proj2 SP)) by auto. auto. Qed.
  Lemma epos : 0 < e. Proof. apply exp_pos. Qed.
  Section WithL.
    Variable L : nat -> nat -> R.
    Hypothesis CH : chol n (hessian s (path t) t) = Some L.
    Lemma solve_L b i : (i < n)%nat -> mv n (hessian s (path t) t) (chol_solve n L b) i = b i.
    Proof. intros Hi. destruct (chol_spec n _ L hsym CH) as (A & B & C). apply (chol_solve_spec n _ L A B (posdiag_nz _ _ C)). auto. Qed.
    Lemma dxdtau_path i : (i < n)%nat -> dxdtau n L s (path t) t i = path1 t i.
    Proof.
      intros Hi. assert (Z : forall j, (j < n)%nat -> mv n (hessian s (path t) t) (fun j => dxdtau n L s (path t) t j - path1 t j) j = 0).
      { intros j Hj. rewrite mv_minus. unfold dxdtau at 1.
        replace (mv n (hessian s (path t) t) (fun i => - chol_solve n L (mixed s (path t) t) i) j) with (- mixed s (path t) t j).
        - assert (I := implicit n F P path path1 t SF SP M D1 j Hj). unfold hessian. unfold P, F in *. rewrite I. unfold mixed. ring.
        - rewrite <- (solve_L (mixed s (path t) t) j Hj). unfold mv. rewrite <- (Rmult_1_l (sm n (fun j0 => hessian s (path t) t j j0 * chol_solve n L (mixed s (path t) t) j0))).
          rewrite Ropp_mult_distr_l, <- sm_scal. apply sm_ext. intros; ring. }
      assert (X := posdef_inj n _ _ PD Z i Hi). cbn beta in X. lra.
    Qed.
    Lemma dxdtau2_unique d : (forall i, (i < n)%nat -> mv n (hessian s (path t) t) d i = - (4 * e * fgrad P (path t) i + 2 * e * mv n (fhess P (path t)) (path1 t) i)) ->
      forall i, (i < n)%nat -> dxdtau2 n L s (path t) t i = d i.
    Proof.
      intros H i Hi. assert (Z : forall j, (j < n)%nat -> mv n (hessian s (path t) t) (fun j => dxdtau2 n L s (path t) t j - d j) j = 0).
      { intros j Hj. rewrite mv_minus, H by auto. unfold dxdtau2.
        set (b := fun k => 4 * exp (2 * t) * fgrad (penalty s) (path t) k + 2 * exp (2 * t) * mv n (fhess (penalty s) (path t)) (dxdtau n L s (path t) t) k).
        replace (mv n (hessian s (path t) t) (fun i => - chol_solve n L b i) j) with (- b j).
        - unfold b, e, P. rewrite (mv_ext n _ (fhess (penalty s) (path t)) (dxdtau n L s (path t) t) (path1 t)); auto; [ring|intros; apply dxdtau_path; auto].
        - rewrite <- (solve_L b j Hj). unfold mv at 1. rewrite <- (Rmult_1_l (sm n _)). rewrite Ropp_mult_distr_l, <- sm_scal. apply sm_ext. intros; ring. }
      assert (X := posdef_inj n _ _ PD Z i Hi). cbn beta in X. lra.
    Qed.
    Let g := path1 t.
    Let q := vdot n (fgrad P (path t)) g.
    (** the penalty falls *)
    Lemma q_neg : q < 0.
    Proof.
      assert (G : nonzero n g).
      { destruct (nonzero_dec n g) as [|Z]; auto. exfalso. destruct NZ as (i & Hi & N). apply N.
        assert (I := implicit n F P path path1 t SF SP M D1 i Hi). unfold mv in I. rewrite sm_0 in I by (intros j Hj; fold g; rewrite (Z j Hj); ring).
        fold P. pose proof epos. fold e in I. nra. }
      assert (Q := PD g G). unfold quad in Q.
      rewrite (sm_ext n _ (fun i => - (2 * e) * (fgrad P (path t) i * g i))) in Q.
      - rewrite sm_scal in Q. fold (vdot n (fgrad P (path t)) g) in Q. fold q in Q. pose proof epos. nra.
      - intros i Hi. unfold hessian. assert (I := implicit n F P path path1 t SF SP M D1 i Hi). unfold g. unfold P, F in *. rewrite I. unfold e. ring.
    Qed.
    Lemma parallel v : vdot n (fgrad F (path t)) v = - e * vdot n (fgrad P (path t)) v.
    Proof.
      unfold vdot. rewrite <- sm_scal. apply sm_ext. intros i Hi. assert (I := stationary n F P path SF SP M t i Hi). unfold e. nra.
    Qed.
    Lemma log_dot f v : 0 < fval f (path t) -> vdot n (fgrad (flog f) (path t)) v = vdot n (fgrad f (path t)) v / fval f (path t).
    Proof. intros H. unfold vdot, flog. cbn [fgrad]. unfold Rdiv at 2. rewrite <- sm_scalr. apply sm_ext. intros; field. lra. Qed.
    Lemma second_ext f x a b a2 : (forall i, (i < n)%nat -> a i = b i) -> second n f x a a2 = second n f x b a2.
    Proof. intros E. unfold second. f_equal. apply sm_ext. intros i Hi. rewrite E by auto. f_equal. apply mv_ext; auto. Qed.
    Lemma first_ext f x a b : (forall i, (i < n)%nat -> a i = b i) -> first n f x a = first n f x b.
    Proof. intros E. unfold first, vdot. apply sm_ext. intros i Hi. rewrite E; auto. Qed.
    Lemma first_F : first n (flog F) (path t) g = - e * q / fval F (path t).
    Proof. unfold first. rewrite log_dot by apply PF. rewrite parallel. reflexivity. Qed.
    Lemma first_P : first n (flog P) (path t) g = q / fval P (path t).
    Proof. unfold first. rewrite log_dot by apply PP. reflexivity. Qed.
    Lemma numerator a2 b2 :
      second n (flog P) (path t) g a2 * first n (flog F) (path t) g - second n (flog F) (path t) g a2 * first n (flog P) (path t) g
      = second n (flog P) (path t) g b2 * first n (flog F) (path t) g - second n (flog F) (path t) g b2 * first n (flog P) (path t) g.
    Proof.
      unfold second. rewrite !(log_dot F), !(log_dot P), !parallel by (apply PF || apply PP). rewrite first_F, first_P.
      assert (A := PF t). assert (B := PP t). fold F in A. fold P in B. field. lra.
    Qed.
    Lemma denominator : 0 < first n (flog F) (path t) g * first n (flog F) (path t) g + first n (flog P) (path t) g * first n (flog P) (path t) g.
    Proof.
      assert (A := PP t). fold P in A. assert (Q := q_neg). rewrite first_P.
      assert (0 < - (q / fval P (path t))). { unfold Rdiv. rewrite Ropp_mult_distr_l. apply Rmult_lt_0_compat; [lra|]. apply Rinv_0_lt_compat; auto. }
      assert (0 <= first n (flog F) (path t) g * first n (flog F) (path t) g) by apply Rle_0_sqr. nra.
    Qed.
  End WithL.
  Lemma evaluate d d2 : s_fixed s = Some d -> s_regs s <> [] -> 0 < fval d (path t) ->
    (forall i, (i < n)%nat -> mv n (hessian s (path t) t) d2 i = - (4 * exp (2 * t) * fgrad (penalty s) (path t) i + 2 * exp (2 * t) * mv n (fhess (penalty s) (path t)) (path1 t) i)) ->
    compute_curvature n s (path t) t = Ok (curv (first n (flog d) (path t) (path1 t)) (first n (flog (penalty s)) (path t) (path1 t))
      (second n (flog d) (path t) (path1 t) d2) (second n (flog (penalty s)) (path t) (path1 t) d2)).
  Proof.
    intros FIX REG DP E2. destruct (proj1 (chol_posdef n _ hsym) PD) as [L CH]. unfold compute_curvature. rewrite CH, FIX. rewrite match_ne by auto.
    destruct (Rleb_spec (fval d (path t)) 0) as [A|_]; [lra|].
    destruct (Rleb_spec (fval (penalty s) (path t)) 0) as [A|_]; [specialize (PP t); lra|]. cbv zeta.
    assert (E := dxdtau_path L CH). assert (E' := dxdtau2_unique L CH d2 E2).
    rewrite !(first_ext _ _ _ (path1 t) E), !(second_ext _ _ _ (path1 t) _ E). unfold second, vdot.
    rewrite !(sm_ext n (fun i => fgrad _ (path t) i * dxdtau2 n L s (path t) t i) (fun i => fgrad _ (path t) i * d2 i)) by (intros i Hi; rewrite E'; auto). reflexivity.
  Qed.
  Theorem curvature_right : s_fixed s = Some (loss s) -> s_regs s <> [] -> exists k, compute_curvature n s (path t) t = Ok (Some k) /\
    is_curvature (fun u => ln (fval (loss s) (path u))) (fun u => ln (fval (penalty s) (path u))) t k.
  Proof.
    intros FIX REG. destruct (proj1 (chol_posdef n _ hsym) PD) as [L CH]. unfold compute_curvature. rewrite CH, FIX.
    rewrite match_ne by auto.
    destruct (Rleb_spec (fval (loss s) (path t)) 0) as [A|_]; [specialize (PF t); lra|].
    destruct (Rleb_spec (fval (penalty s) (path t)) 0) as [A|_]; [specialize (PP t); lra|]. cbv zeta.
    assert (E := dxdtau_path L CH).
    rewrite !(first_ext _ _ _ (path1 t) E), !(second_ext _ _ _ (path1 t) _ E). unfold curv. cbv zeta.
    assert (D := denominator). fold F. fold P.
    destruct (Reqb_spec (first n (flog F) (path t) (path1 t) * first n (flog F) (path t) (path1 t) + first n (flog P) (path t) (path1 t) * first n (flog P) (path t) (path1 t)) 0) as [Z|_]; [lra|].
    eexists. split; [reflexivity|].
    exists (fun u => first n (flog F) (path u) (path1 u)), (fun u => first n (flog P) (path u) (path1 u)),
      (second n (flog F) (path t) (path1 t) path2), (second n (flog P) (path t) (path1 t) path2).
    split; [intros u; apply d_log; auto; apply PF|]. split; [intros u; apply d_log; auto; apply PP|].
    split; [apply d_first; auto; apply PF|]. split; [apply d_first; auto; apply PP|]. split; [exact D|].
    rewrite (numerator _ path2). f_equal. ring.
  Qed.
  Theorem tradeoff : exists X1 Y1, derivable_pt_lim (fun u => ln (fval (loss s) (path u))) t X1 /\ derivable_pt_lim (fun u => ln (fval (penalty s) (path u))) t Y1 /\
    0 < X1 /\ Y1 < 0 /\ fval (loss s) (path t) * X1 + exp (2 * t) * (fval (penalty s) (path t) * Y1) = 0.
  Proof.
    exists (first n (flog F) (path t) (path1 t)), (first n (flog P) (path t) (path1 t)).
    split; [apply d_log; auto; apply PF|]. split; [apply d_log; auto; apply PP|]. rewrite first_F, first_P.
    assert (Q := q_neg). assert (A := PF t). assert (B := PP t). fold F in A |- *. fold P in B |- *. assert (E := epos).
    assert (IA := Rinv_0_lt_compat _ A). assert (IB := Rinv_0_lt_compat _ B). fold e. split; [|split].
    - unfold Rdiv. apply Rmult_lt_0_compat; auto. nra.
    - unfold Rdiv. nra.
    - field. lra.
  Qed.
End Main.

(** ** the derivative of dxdtau with respect to tau at fixed parameters *)
Theorem dxdtau_tau n s x t L (G : R -> nat -> R) (d : nat -> R) : sym n (hessian s x t) -> chol n (hessian s x t) = Some L ->
  (forall u i, (i < n)%nat -> mv n (hessian s x u) (G u) i = - mixed s x u i) -> (forall i, (i < n)%nat -> derivable_pt_lim (fun u => G u i) t (d i)) ->
  forall i, (i < n)%nat -> dxdtau n L s x t i = G t i /\ dxdtau2 n L s x t i = d i.
Proof.
  intros SY CH EQ DG i Hi. destruct (chol_spec n _ L SY CH) as (A & B & C).
  assert (PD : posdef n (hessian s x t)) by (apply chol_posdef; eauto).
  assert (SL : forall b j, (j < n)%nat -> mv n (hessian s x t) (fun i => - chol_solve n L b i) j = - b j).
  { intros b j Hj. rewrite <- (chol_solve_spec n _ L A B (posdiag_nz _ _ C) b j Hj). unfold mv.
    rewrite <- (Rmult_1_l (sm n (fun j0 => hessian s x t j j0 * chol_solve n L b j0))). rewrite Ropp_mult_distr_l, <- sm_scal. apply sm_ext. intros; ring. }
  assert (E1 : forall j, (j < n)%nat -> dxdtau n L s x t j = G t j).
  { intros j Hj. assert (Z : forall k, (k < n)%nat -> mv n (hessian s x t) (fun j => dxdtau n L s x t j - G t j) k = 0).
    { intros k Hk. rewrite mv_minus, EQ by auto. unfold dxdtau. rewrite SL by auto. ring. }
    assert (X := posdef_inj n _ _ PD Z j Hj). cbn beta in X. lra. }
  split; [auto|].
  assert (DE : derivable_pt_lim (fun s => exp (2 * s)) t (2 * exp (2 * t))).
  { apply (dl_val _ _ (exp (2 * t) * (2 * 1))); [ring|]. apply (derivable_pt_lim_comp (fun s => 2 * s) exp); [|apply derivable_pt_lim_exp].
    apply (derivable_pt_lim_scal id). apply derivable_pt_lim_id. }
  set (P := penalty s) in *. set (e := exp (2 * t)) in *.
  assert (EQ' : forall j, (j < n)%nat -> mv n (hessian s x t) d j = - (4 * e * fgrad P x j + 2 * e * mv n (fhess P x) (G t) j)).
  { intros j Hj.
    assert (DL : derivable_pt_lim (fun u => mv n (hessian s x u) (G u) j) t (sm n (fun k => 2 * e * fhess P x j k * G t k + hessian s x t j k * d k))).
    { unfold mv. apply (dl_sm n (fun k u => hessian s x u j k * G u k)). intros k Hk.
      apply (derivable_pt_lim_mult (fun u => hessian s x u j k) (fun u => G u k)); [|auto].
      unfold hessian. fold P. apply (dl_val _ _ (0 + (2 * e * fhess P x j k + exp (2 * t) * 0))); [ring|].
      apply (derivable_pt_lim_plus (fun _ => fhess (loss s) x j k) (fun u => exp (2 * u) * fhess P x j k)); [apply derivable_pt_lim_const|].
      apply (derivable_pt_lim_mult (fun u => exp (2 * u)) (fun _ => fhess P x j k)); [auto|apply derivable_pt_lim_const]. }
    assert (DR : derivable_pt_lim (fun u => mv n (hessian s x u) (G u) j) t (- (2 * (2 * e) * fgrad P x j))).
    { assert (DR0 : derivable_pt_lim (fun u => - (2 * exp (2 * u) * fgrad P x j)) t (- (2 * (2 * e) * fgrad P x j))).
      { apply (derivable_pt_lim_opp (fun u => 2 * exp (2 * u) * fgrad P x j)). apply (dl_val _ _ (2 * (2 * e) * fgrad P x j + 2 * exp (2 * t) * 0)); [ring|].
        apply (derivable_pt_lim_mult (fun u => 2 * exp (2 * u)) (fun _ => fgrad P x j)); [|apply derivable_pt_lim_const]. apply (derivable_pt_lim_scal (fun u => exp (2 * u))). auto. }
      intros e0 He. destruct (DR0 e0 He) as [dl Hd]. exists dl. intros h H0 H1. rewrite !EQ by auto. unfold mixed. fold P. auto. }
    assert (U := uniqueness_limite _ _ _ _ DL DR). rewrite sm_plus in U. fold (mv n (hessian s x t) d j) in U.
    rewrite (sm_ext n (fun k => 2 * e * fhess P x j k * G t k) (fun k => (2 * e) * (fhess P x j k * G t k))) in U by (intros; ring). rewrite sm_scal in U. fold (mv n (fhess P x) (G t) j) in U. lra. }
  assert (Z : forall k, (k < n)%nat -> mv n (hessian s x t) (fun j => dxdtau2 n L s x t j - d j) k = 0).
  { intros k Hk. rewrite mv_minus, EQ' by auto. unfold dxdtau2. rewrite SL by auto. fold P. fold e.
    rewrite (mv_ext n (fhess P x) (fhess P x) (dxdtau n L s x t) (G t)); auto. ring. }
  assert (X := posdef_inj n _ _ PD Z i Hi). cbn beta in X. lra.
Qed.

(** ** scan *)
Lemma scan_spec n minimize s taus x vs y : scan_tau n minimize s taus x = Ok (vs, y) ->
  exists xs, List.length xs = List.length taus /\ List.length vs = List.length taus /\
    forall i, (i < List.length taus)%nat -> nth i xs x = minimize (nth i taus 0) (match i with O => x | S j => nth j xs x end) /\
      compute_curvature n s (nth i xs x) (nth i taus 0) = Ok (nth i vs None).
Proof.
  revert x vs y. induction taus as [|t r IH]; intros x vs y E.
  - injection E as <- <-. exists []. split; auto. split; auto. intros i Hi. cbn in Hi. lia.
  - cbn [scan_tau] in E. cbv zeta in E. destruct (compute_curvature n s (minimize t x) t) as [v|] eqn:C; [|discriminate]. cbn [rbind] in E.
    destruct (scan_tau n minimize s r (minimize t x)) as [[vs' y']|] eqn:S; [|discriminate]. injection E as <- <-. cbn [fst snd].
    destruct (IH _ _ _ S) as (xs & L1 & L2 & H). exists (minimize t x :: xs). cbn [List.length]. split; [lia|]. split; [lia|].
    intros [|i] Hi; [auto|]. cbn [nth]. specialize (H i ltac:(lia)).
    rewrite (nth_indep xs x (minimize t x)) by lia. destruct H as [H1 H2]. split; [|auto]. rewrite H1. destruct i as [|i]; [auto|].
    f_equal. cbn [nth]. apply nth_indep. lia.
Qed.

(** ** optimisation *)
Section Opt.
  Variables (minimize : R -> (nat -> R) -> nat -> R) (vgh : R -> (nat -> R) -> R * R * R).
  Definition consistent (o : found) : Prop :=
    vgh (o_seen o) (o_x o) = (o_val o, o_grad o, o_hess o) /\ o_tau o = o_seen o - o_grad o / safe_hess (o_hess o) /\
    o_edm o = 1 / 2 * o_grad o * (o_grad o / safe_hess (o_hess o)) /\ exists x, o_x o = minimize (o_seen o) x.
  Lemma newton_ok tau x : consistent (newton minimize vgh tau x).
  Proof.
    unfold newton. cbv zeta. destruct (vgh tau (minimize tau x)) as [[v g] h] eqn:E. unfold consistent. cbn. split; [exact E|]. split; [auto|]. split; [auto|]. eauto.
  Qed.
  Lemma loop_ok k : forall o, consistent o -> consistent (opt_loop minimize vgh k o).
  Proof. induction k as [|k IH]; intros o C; cbn [opt_loop]; auto. destruct (more (o_edm o)); auto. apply IH. apply newton_ok. Qed.
  Lemma optimise_ok tau x : consistent (optimise minimize vgh tau x).
  Proof. apply loop_ok, newton_ok. Qed.
  Lemma more_false edm : more edm = false -> 0 <= edm <= / 10000000000000000.
  Proof. unfold more. destruct (Rltb_spec edm 0), (Rltb_spec (/ 10000000000000000) edm); intros H; try discriminate. lra. Qed.
  Lemma safe_pos h : 0 < sign h * safe_hess h /\ sign h * safe_hess h = Rmax (Rabs h) (/ 100000000) /\ (sign h = 1 \/ sign h = -1) /\ (sign h = -1 -> h < 0).
  Proof.
    unfold safe_hess. assert (0 < Rmax (Rabs h) (/ 100000000)) by (apply Rlt_le_trans with (/ 100000000); [lra|apply Rmax_r]).
    unfold sign. destruct (Rltb_spec h 0); repeat split; auto; lra.
  Qed.
  (** a regular end is a point where the gradient is small; it is not a maximum of -curvature unless the gradient vanishes *)
  Lemma end_ok o : consistent o -> more (o_edm o) = false ->
    o_grad o * o_grad o <= 2 * (/ 10000000000000000) * Rmax (Rabs (o_hess o)) (/ 100000000) /\ (o_grad o = 0 \/ 0 <= o_hess o).
  Proof.
    intros (_ & _ & E & _) H. apply more_false in H. rewrite E in H. clear E.
    destruct (safe_pos (o_hess o)) as (P & Q & S & N). set (sh := safe_hess (o_hess o)) in *. set (g := o_grad o) in *. clearbody sh g.
    destruct S as [S|S]; rewrite S in *.
    - rewrite Rmult_1_l in P, Q. rewrite <- Q. split.
      + assert (X : g * g = 2 * (1 / 2 * g * (g / sh)) * sh) by (field; lra). rewrite X. apply Rmult_le_compat_r; lra.
      + right. destruct (Rle_lt_dec 0 (o_hess o)); auto. exfalso. unfold sign in S. destruct (Rltb_spec (o_hess o) 0); lra.
    - assert (G : g = 0).
      { destruct (Req_dec g 0) as [|G]; auto. exfalso. assert (GG : 0 < g * g) by (apply Rsqr_pos_lt; auto).
        assert (X : 1 / 2 * g * (g / sh) = - (1 / 2 * (g * g) * / (- sh))) by (field; lra). rewrite X in H.
        assert (0 < / (- sh)) by (apply Rinv_0_lt_compat; lra). assert (0 < 1 / 2 * (g * g) * / - sh) by (apply Rmult_lt_0_compat; lra). lra. }
      rewrite G. split; [|auto]. rewrite <- Q. rewrite Rmult_0_l. apply Rmult_le_pos; lra.
  Qed.
  Theorem optimise_end tau x : more (o_edm (optimise minimize vgh tau x)) = false ->
    o_grad (optimise minimize vgh tau x) * o_grad (optimise minimize vgh tau x)
      <= 2 * (/ 10000000000000000) * Rmax (Rabs (o_hess (optimise minimize vgh tau x))) (/ 100000000) /\
    (o_grad (optimise minimize vgh tau x) = 0 \/ 0 <= o_hess (optimise minimize vgh tau x)).
  Proof. apply end_ok, optimise_ok. Qed.
  Lemma loop_step k o : opt_loop minimize vgh (S k) o = if more (o_edm o) then opt_loop minimize vgh k (newton minimize vgh (o_tau o) (o_x o)) else o.
  Proof. reflexivity. Qed.
  Lemma loop_stop k o : more (o_edm o) = false -> opt_loop minimize vgh k o = o.
  Proof. intros H. destruct k as [|k]; cbn [opt_loop]; [|rewrite H]; auto. Qed.
  (** without a gradient the strength never moves *)
  Theorem optimise_rest tau x : (forall v g h y, vgh tau y = (v, g, h) -> g = 0) -> o_tau (optimise minimize vgh tau x) = tau.
  Proof.
    intros Z. unfold optimise. assert (C := newton_ok tau x). assert (S : o_seen (newton minimize vgh tau x) = tau).
    { unfold newton. cbv zeta. destruct (vgh tau (minimize tau x)) as [[v g] h]. auto. }
    destruct C as (A & B & E & _). rewrite S in A. assert (G := Z _ _ _ _ A). rewrite G in B, E.
    assert (M : more (o_edm (newton minimize vgh tau x)) = false).
    { rewrite E. unfold more. replace (1 / 2 * 0 * (0 / safe_hess (o_hess (newton minimize vgh tau x)))) with 0 by lra.
      destruct (Rltb_spec 0 0); [lra|]. destruct (Rltb_spec (/ 10000000000000000) 0); [lra|]. auto. }
    rewrite loop_stop by exact M. rewrite B, S. lra.
  Qed.
End Opt.

(** ** one parameter: at fixed x the curvature is the same for all strengths *)
Lemma Rpower_32_sq d : 0 < d -> Rpower d (3 / 2) * Rpower d (3 / 2) = d * d * d.
Proof.
  intros H. rewrite <- Rpower_plus. replace (3 / 2 + 3 / 2) with (INR 3) by (cbn; lra). rewrite Rpower_pow by auto. cbn. ring.
Qed.
Lemma Rpower_32_scale a d : 0 < a -> 0 < d -> Rpower (a * a * d) (3 / 2) = a * a * a * Rpower d (3 / 2).
Proof.
  intros A D. rewrite <- Rpower_mult_distr by nra. f_equal.
  rewrite <- Rpower_mult_distr by auto. rewrite <- Rpower_plus. replace (3 / 2 + 3 / 2) with (INR 3) by (cbn; lra). rewrite Rpower_pow by auto. cbn. ring.
Qed.

Lemma curv_scale u v a b g r w w' : 0 < r -> curv (u * (r * g)) (v * (r * g)) (a * (r * g) * (r * g) + u * w') (b * (r * g) * (r * g) + v * w')
  = curv (u * g) (v * g) (a * g * g + u * w) (b * g * g + v * w).
Proof.
  intros H. unfold curv. cbv zeta. set (d := u * g * (u * g) + v * g * (v * g)).
  replace (u * (r * g) * (u * (r * g)) + v * (r * g) * (v * (r * g))) with (r * r * d) by (unfold d; ring).
  assert (0 <= d) by (unfold d; assert (A := Rle_0_sqr (u * g)); assert (B := Rle_0_sqr (v * g)); unfold Rsqr in *; lra).
  destruct (Reqb_spec d 0) as [Z|Z].
  - rewrite Z, Rmult_0_r. destruct (Reqb_spec 0 0); [auto|congruence].
  - assert (D : 0 < d) by lra. assert (0 < r * r * d) by (apply Rmult_lt_0_compat; nra). destruct (Reqb_spec (r * r * d) 0); [lra|]. f_equal.
    rewrite Rpower_32_scale by auto. assert (0 < Rpower d (3 / 2)) by apply exp_pos. field. split; lra.
Qed.
Theorem one_parameter s x t1 t2 : 0 < hessian s x t1 O O -> 0 < hessian s x t2 O O -> compute_curvature 1 s x t1 = compute_curvature 1 s x t2.
Proof.
  intros H1 H2. unfold compute_curvature.
  assert (C : forall t, 0 < hessian s x t O O -> exists L, chol 1 (hessian s x t) = Some L /\ forall b, chol_solve 1 L b O = b O / hessian s x t O O).
  { intros t H. assert (SY : sym 1 (hessian s x t)) by (intros i j Hi Hj; replace i with O by lia; replace j with O by lia; auto).
    assert (PD : posdef 1 (hessian s x t)).
    { intros z (i & Hi & N). replace i with O in N by lia. unfold quad, mv. cbn [sm]. assert (0 < z O * z O) by (apply Rsqr_pos_lt; auto). nra. }
    destruct (proj1 (chol_posdef 1 _ SY) PD) as [L CH]. exists L. split; auto. intros b. destruct (chol_spec 1 _ L SY CH) as (A & B & C).
    assert (E := chol_solve_spec 1 _ L A B (posdiag_nz _ _ C) b O ltac:(lia)). unfold mv in E. cbn [sm] in E. rewrite <- E. field. lra. }
  destruct (C t1 H1) as (L1 & C1 & S1). destruct (C t2 H2) as (L2 & C2 & S2). rewrite C1, C2. destruct (s_regs s); [auto|]. destruct (s_fixed s) as [d|]; auto.
  destruct (Rleb (fval d x) 0); auto. destruct (Rleb (fval (penalty s) x) 0); auto. cbv zeta. f_equal.
  unfold first, second, vdot, mv. cbn [sm].
  set (u := fgrad (flog d) x O). set (v := fgrad (flog (penalty s)) x O). set (a := fhess (flog d) x O O). set (b := fhess (flog (penalty s)) x O O).
  set (w1 := dxdtau2 1 L1 s x t1 O). set (w2 := dxdtau2 1 L2 s x t2 O).
  assert (G : forall t L, (forall b, chol_solve 1 L b O = b O / hessian s x t O O) -> dxdtau 1 L s x t O = - (2 * exp (2 * t) * fgrad (penalty s) x O / hessian s x t O O)).
  { intros t L S. unfold dxdtau. rewrite S. unfold mixed. reflexivity. }
  assert (E : exists r, 0 < r /\ dxdtau 1 L1 s x t1 O = r * dxdtau 1 L2 s x t2 O).
  { exists (exp (2 * t1) / exp (2 * t2) * (hessian s x t2 O O / hessian s x t1 O O)). split.
    - assert (X1 := exp_pos (2 * t1)). assert (X2 := exp_pos (2 * t2)). apply Rmult_lt_0_compat; apply Rdiv_lt_0_compat; auto.
    - rewrite (G _ _ S1), (G _ _ S2). assert (X2 := exp_pos (2 * t2)). field. lra. }
  destruct E as (r & Hr & E). rewrite E. set (g := dxdtau 1 L2 s x t2 O).
  transitivity (curv (u * (r * g)) (v * (r * g)) (a * (r * g) * (r * g) + u * w1) (b * (r * g) * (r * g) + v * w1)); [f_equal; ring|].
  rewrite (curv_scale u v a b g r w2 w1 Hr). f_equal; ring.
Qed.

(** ** quadratic functions of one parameter *)
Definition quadr (k : nat) (c a b : R) : fn :=
  mkFn (fun x => c / 2 * ((x k - a) * (x k - a)) + b) (fun x i => delta k i * (c * (x k - a))) (fun x i j => delta k i * (delta k j * c)).
Lemma quadr_smooth n k c a b : (k < n)%nat -> smooth n (fval (quadr k c a b)) (fgrad (quadr k c a b)) (fhess (quadr k c a b)).
Proof.
  intros Hk.
  assert (DK : forall (p : R -> nat -> R) t v, (forall i, (i < n)%nat -> derivable_pt_lim (fun s => p s i) t (v i)) -> derivable_pt_lim (fun s => p s k - a) t (v k)).
  { intros p t v D. apply (dl_val _ _ (v k - 0)); [ring|]. apply (derivable_pt_lim_minus (fun s => p s k) (fun _ => a)); [auto|apply derivable_pt_lim_const]. }
  split; [|split]; cbn.
  - intros p t v D. rewrite (sm_ext n _ (fun i => delta k i * (c * (p t k - a) * v i))) by (intros; ring). rewrite (sm_delta n k) by auto.
    apply (dl_val _ _ (c / 2 * (v k * (p t k - a) + (p t k - a) * v k) + 0)); [field|].
    apply (derivable_pt_lim_plus (fun s => c / 2 * ((p s k - a) * (p s k - a))) (fun _ => b)); [|apply derivable_pt_lim_const].
    apply (derivable_pt_lim_scal (fun s => (p s k - a) * (p s k - a))). apply (derivable_pt_lim_mult (fun s => p s k - a) (fun s => p s k - a)); apply DK; auto.
  - intros i Hi p t v D. rewrite (sm_ext n _ (fun j => delta k j * (delta k i * c * v j))) by (intros; ring). rewrite (sm_delta n k) by auto.
    rewrite (Rmult_assoc (delta k i)). apply (derivable_pt_lim_scal (fun s => c * (p s k - a))). apply (derivable_pt_lim_scal (fun s => p s k - a)). apply DK; auto.
  - intros x i j _ _. ring.
Qed.
(** minimum of a quadratic function plus exp(2 tau) x^2/2, and its derivatives with respect to tau *)
Definition qmin (c a t : R) : R := c * a / (c + exp (2 * t)).
Definition qmin1 (c a t : R) : R := - (2 * exp (2 * t) * c * a) / ((c + exp (2 * t)) * (c + exp (2 * t))).
Definition qmin2 (c a t : R) : R := 4 * exp (2 * t) * c * a * (exp (2 * t) - c) / ((c + exp (2 * t)) * (c + exp (2 * t)) * (c + exp (2 * t))).
Lemma d_exp2 t : derivable_pt_lim (fun s => exp (2 * s)) t (2 * exp (2 * t)).
Proof.
  apply (dl_val _ _ (exp (2 * t) * (2 * 1))); [ring|]. apply (derivable_pt_lim_comp (fun s => 2 * s) exp); [|apply derivable_pt_lim_exp].
  apply (derivable_pt_lim_scal id). apply derivable_pt_lim_id.
Qed.
Lemma d_cexp c t : derivable_pt_lim (fun s => c + exp (2 * s)) t (2 * exp (2 * t)).
Proof. apply (dl_val _ _ (0 + 2 * exp (2 * t))); [ring|]. apply (derivable_pt_lim_plus (fun _ => c) (fun s => exp (2 * s))); [apply derivable_pt_lim_const|apply d_exp2]. Qed.
Lemma d_qmin c a t : 0 < c -> derivable_pt_lim (qmin c a) t (qmin1 c a t).
Proof.
  intros H. assert (E := exp_pos (2 * t)). unfold qmin, qmin1.
  apply (dl_val _ _ ((0 * (c + exp (2 * t)) - 2 * exp (2 * t) * (c * a)) / Rsqr (c + exp (2 * t)))); [unfold Rsqr; field; lra|].
  apply (derivable_pt_lim_div (fun _ => c * a) (fun s => c + exp (2 * s))); [apply derivable_pt_lim_const|apply d_cexp|lra].
Qed.
Lemma d_qmin1 c a t : 0 < c -> derivable_pt_lim (qmin1 c a) t (qmin2 c a t).
Proof.
  intros H. assert (E := exp_pos (2 * t)). unfold qmin1, qmin2.
  set (N := fun s => - (2 * exp (2 * s) * c * a)). set (D := fun s => (c + exp (2 * s)) * (c + exp (2 * s))).
  assert (DN : derivable_pt_lim N t (- (4 * exp (2 * t) * c * a))).
  { apply (dl_val _ _ (- (2 * c * a) * (2 * exp (2 * t)))); [ring|].
    assert (X := derivable_pt_lim_scal (fun s => exp (2 * s)) (- (2 * c * a)) t _ (d_exp2 t)).
    intros e He. destruct (X e He) as [d Hd]. exists d. intros h H0 H1. specialize (Hd h H0 H1). unfold mult_real_fct in Hd. unfold N.
    replace (- (2 * exp (2 * (t + h)) * c * a) - - (2 * exp (2 * t) * c * a)) with (- (2 * c * a) * exp (2 * (t + h)) - - (2 * c * a) * exp (2 * t)) by ring. exact Hd. }
  assert (DD : derivable_pt_lim D t (2 * exp (2 * t) * (c + exp (2 * t)) + (c + exp (2 * t)) * (2 * exp (2 * t)))).
  { apply (derivable_pt_lim_mult (fun s => c + exp (2 * s)) (fun s => c + exp (2 * s))); apply d_cexp. }
  assert (0 < D t) by (unfold D; nra).
  refine (dl_val _ _ _ _ _ (derivable_pt_lim_div N D t _ _ DN DD _)); [|lra].
  unfold N, D, Rsqr. field. lra.
Qed.
