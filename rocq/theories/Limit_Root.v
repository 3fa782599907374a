(** The Gaussian limit for every observation and every pair of errors: existence, uniqueness and the sign of the
    equation on both sides; distribution functions that qualify. *)
From Coq Require Import Reals List Arith Bool Lra Psatz Ranalysis5.
From Verif Require Import RBase Limit_Model Limit_Spec Limit_Proof.
Local Open Scope R_scope.

Lemma qmu_mono xobs e x y : 0 < e -> 0 <= x -> x <= y -> qmu_sqrt xobs e x <= qmu_sqrt xobs e y.
Proof.
  intros E X L. unfold qmu_sqrt. destruct (Rltb_spec xobs 0) as [N|N].
  - apply sqrt_le_1_alt. apply Rplus_le_compat_r. assert (0 < / e) by (apply Rinv_0_lt_compat; auto). unfold Rdiv.
    assert (0 <= (x - xobs) * / e) by (apply Rmult_le_pos; lra). assert ((x - xobs) * / e <= (y - xobs) * / e) by (apply Rmult_le_compat_r; lra).
    apply Rmult_le_compat; auto.
  - unfold Rdiv. apply Rmult_le_compat_r; [left; apply Rinv_0_lt_compat; auto|lra].
Qed.
Lemma radicand_pos xobs e x : 0 < e -> xobs < 0 -> 0 <= x -> 0 <= (x - xobs) / e * ((x - xobs) / e) - xobs / e * (xobs / e).
Proof.
  intros E N X. replace (_ - _) with (x * (x - 2 * xobs) * / e * / e) by (field; lra). assert (0 < / e) by (apply Rinv_0_lt_compat; auto).
  repeat apply Rmult_le_pos; lra.
Qed.
Lemma qmu_cont xobs e x : 0 < e -> 0 <= x -> continuity_pt (qmu_sqrt xobs e) x.
Proof.
  intros E X. unfold qmu_sqrt. destruct (Rltb_spec xobs 0) as [N|N].
  - apply (continuity_pt_comp (fun x => (x - xobs) / e * ((x - xobs) / e) - xobs / e * (xobs / e)) sqrt).
    + reg.
    + apply continuity_pt_sqrt. apply radicand_pos; auto.
  - reg.
Qed.
Lemma qmu_0 xobs e : 0 < e -> xobs < 0 -> qmu_sqrt xobs e 0 = 0.
Proof.
  intros E N. unfold qmu_sqrt. rewrite Rltb_true by auto. replace (_ - _) with 0 by (field; lra). apply sqrt_0.
Qed.
(** the statistic exceeds every bound *)
Lemma qmu_unbounded xobs e M : 0 < e -> exists x, 0 < x /\ forall y, x <= y -> M <= qmu_sqrt xobs e y.
Proof.
  intros E. exists (e * Rabs M + Rabs xobs + e). pose proof (Rabs_pos M) as AM. pose proof (Rabs_pos xobs) as AX.
  assert (EM : 0 <= e * Rabs M) by (apply Rmult_le_pos; lra). split; [lra|]. intros y Y. pose proof (Rle_abs M). pose proof (Rle_abs xobs). pose proof (Rle_abs (- xobs)). rewrite Rabs_Ropp in *.
  assert (P : 0 < / e) by (apply Rinv_0_lt_compat; auto).
  unfold qmu_sqrt. destruct (Rltb_spec xobs 0) as [N|N].
  - apply Rle_trans with (Rabs M); auto. rewrite <- (sqrt_square (Rabs M)) by auto. apply sqrt_le_1_alt.
    replace (_ - _) with (y / e * ((y - 2 * xobs) / e)) by (field; lra).
    assert (B : Rabs M <= y / e). { apply (Rmult_le_reg_r e); auto. replace (y / e * e) with y by (field; lra). lra. }
    assert (B' : Rabs M <= (y - 2 * xobs) / e). { apply (Rmult_le_reg_r e); auto. replace ((y - 2 * xobs) / e * e) with (y - 2 * xobs) by (field; lra). lra. }
    apply Rmult_le_compat; auto.
  - apply (Rmult_le_reg_r e); auto. replace ((y - xobs) / e * e) with (y - xobs) by (field; lra). assert (M * e <= Rabs M * e) by (apply Rmult_le_compat_r; lra). lra.
Qed.

Section Root.
Variable cdf : R -> R.
Hypothesis D : distribution cdf.
Lemma dpos x : 0 < cdf x. Proof. apply D. Qed.
Lemma dinc x y : x < y -> cdf x < cdf y. Proof. apply D. Qed.
Lemma dlogc x y h : x <= y -> 0 <= h -> cdf x * cdf (y + h) <= cdf (x + h) * cdf y.
Proof. intros. apply D; auto. Qed.
(** once the equation is not positive it is negative everywhere above *)
Lemma eq_step xobs e1 e2 cl x y : 0 < e1 -> 0 < e2 -> 0 < cl -> 0 <= x -> x < y ->
  gaussian_eq cdf xobs e1 e2 cl x <= 0 -> gaussian_eq cdf xobs e1 e2 cl y < 0.
Proof.
  intros E1 E2 C X L. unfold gaussian_eq. cbv zeta. pose proof (qmu_mono xobs e1 x y E1 X (Rlt_le _ _ L)) as Q.
  set (p := qmu_sqrt xobs e1 x) in *. set (q := qmu_sqrt xobs e1 y) in *. intros H.
  assert (P : 0 < / e2) by (apply Rinv_0_lt_compat; auto).
  assert (A : 0 <= x / e2) by (apply Rmult_le_pos; lra). assert (B : x / e2 < y / e2) by (apply Rmult_lt_compat_r; auto).
  assert (K : cdf (- q) * cdf (x / e2 - p) <= cdf (x / e2 - q) * cdf (- p)).
  { pose proof (dlogc (- q) (- p) (x / e2)) as K. replace (- p + x / e2) with (x / e2 - p) in K by lra. replace (- q + x / e2) with (x / e2 - q) in K by lra. apply K; lra. }
  assert (I : cdf (x / e2 - q) < cdf (y / e2 - q)) by (apply dinc; lra).
  assert (K2 : cdf (x / e2 - q) * cdf (- p) < cdf (y / e2 - q) * cdf (- p)) by (apply Rmult_lt_compat_r; [apply dpos|auto]).
  assert (K3 : cdf (y / e2 - q) * cdf (- p) <= cdf (y / e2 - q) * (cl * cdf (x / e2 - p))) by (apply Rmult_le_compat_l; [left; apply dpos|lra]).
  pose proof (dpos (x / e2 - p)) as Z. assert (cdf (- q) < cl * cdf (y / e2 - q)); [|lra].
  apply (Rmult_lt_reg_r (cdf (x / e2 - p))); auto. lra.
Qed.
Lemma eq_0_pos xobs e1 e2 cl : 0 < e1 -> cl < 1 -> 0 < gaussian_eq cdf xobs e1 e2 cl 0.
Proof.
  intros E1 C. unfold gaussian_eq. cbv zeta. set (q := qmu_sqrt xobs e1 0). replace (0 / e2 - q) with (- q) by (unfold Rdiv; lra).
  pose proof (dpos (- q)). assert (cl * cdf (- q) < 1 * cdf (- q)) by (apply Rmult_lt_compat_r; auto). lra.
Qed.
Lemma eq_far xobs e1 e2 cl : 0 < e1 -> 0 < e2 -> 0 < cl -> exists x, 0 < x /\ gaussian_eq cdf xobs e1 e2 cl x < 0.
Proof.
  intros E1 E2 C. pose proof (dpos 0) as P0. destruct (proj2 (proj2 (proj2 (proj2 D))) (cl * cdf 0)) as (m & Hm); [apply Rmult_lt_0_compat; auto|].
  set (M := - m). assert (HM : forall t, M <= t -> cdf (- t) < cl * cdf 0) by (intros t T; apply Hm; unfold M in T; lra).
  destruct (qmu_unbounded xobs e1 M E1) as (x0 & X0 & Q). set (x := Rmax x0 (e2 * Rabs M)).
  assert (x0 <= x) by apply Rmax_l. assert (X2 : e2 * Rabs M <= x) by apply Rmax_r. exists x. split; [lra|].
  assert (A : M <= x / e2). { pose proof (Rle_abs M). apply Rle_trans with (Rabs M); auto. apply (Rmult_le_reg_r e2); auto. replace (x / e2 * e2) with x by (field; lra). lra. }
  specialize (Q x H). unfold gaussian_eq. cbv zeta. set (q := qmu_sqrt xobs e1 x) in *. set (a := x / e2) in *.
  assert (cdf (- q) < cl * cdf (a - q)); [|lra]. destruct (Rle_or_lt a q) as [L|L].
  - pose proof (dlogc (- q) (- a) a) as K. replace (- a + a) with 0 in K by lra. replace (- q + a) with (a - q) in K by lra.
    assert (a0 : 0 <= a) by (unfold a; apply Rmult_le_pos; [lra|left; apply Rinv_0_lt_compat; auto]).
    specialize (K ltac:(lra) a0). apply (Rmult_lt_reg_r (cdf 0)); auto. eapply Rle_lt_trans; [exact K|].
    apply Rlt_le_trans with (cdf (a - q) * (cl * cdf 0)); [apply Rmult_lt_compat_l; [apply dpos|apply HM; auto]|lra].
  - pose proof (HM q Q). assert (cdf 0 < cdf (a - q)) by (apply dinc; lra). assert (cl * cdf 0 < cl * cdf (a - q)) by (apply Rmult_lt_compat_l; auto). lra.
Qed.
Lemma eq_cont xobs e1 e2 cl x : 0 < e1 -> 0 <= x -> continuity_pt (gaussian_eq cdf xobs e1 e2 cl) x.
Proof.
  intros E1 X. unfold gaussian_eq. cbv zeta. assert (CQ := qmu_cont xobs e1 x E1 X). assert (CC : forall t, continuity_pt cdf t) by apply D.
  apply (continuity_pt_minus (fun x => cdf (- qmu_sqrt xobs e1 x)) (fun x => cl * cdf (x / e2 - qmu_sqrt xobs e1 x))).
  - apply (continuity_pt_comp (fun x => - qmu_sqrt xobs e1 x) cdf); auto. apply (continuity_pt_opp (qmu_sqrt xobs e1)); auto.
  - apply (continuity_pt_scal (fun x => cdf (x / e2 - qmu_sqrt xobs e1 x))). apply (continuity_pt_comp (fun x => x / e2 - qmu_sqrt xobs e1 x) cdf); auto.
    apply (continuity_pt_minus (fun x => x / e2)); auto. reg.
Qed.
Theorem limit_exists xobs e1 e2 cl : 0 < e1 -> 0 < e2 -> 0 < cl < 1 -> exists x, 0 < x /\ gaussian_eq cdf xobs e1 e2 cl x = 0.
Proof.
  intros E1 E2 C. destruct (eq_far xobs e1 e2 cl E1 E2 ltac:(lra)) as (b & B & N). set (g := fun x => - gaussian_eq cdf xobs e1 e2 cl x).
  destruct (IVT_interv g 0 b) as (z & (Z1 & Z2) & Z).
  - intros a A. apply (continuity_pt_opp (gaussian_eq cdf xobs e1 e2 cl)). apply eq_cont; lra.
  - auto.
  - unfold g. pose proof (eq_0_pos xobs e1 e2 cl E1 ltac:(lra)). lra.
  - unfold g. lra.
  - exists z. unfold g in Z. split; [|lra]. destruct Z1 as [Z1|<-]; auto. pose proof (eq_0_pos xobs e1 e2 cl E1 ltac:(lra)). lra.
Qed.
Theorem limit_sides xobs e1 e2 cl x y : 0 < e1 -> 0 < e2 -> 0 < cl < 1 -> 0 <= x -> gaussian_eq cdf xobs e1 e2 cl x = 0 -> 0 <= y ->
  (y < x -> 0 < gaussian_eq cdf xobs e1 e2 cl y) /\ (x < y -> gaussian_eq cdf xobs e1 e2 cl y < 0).
Proof.
  intros E1 E2 C X Z Y. split; intros L.
  - destruct (Rle_or_lt (gaussian_eq cdf xobs e1 e2 cl y) 0) as [H|H]; auto. apply (eq_step _ _ _ _ y x) in H; auto; lra.
  - apply (eq_step _ _ _ _ x y); auto; lra.
Qed.
(** for a negative observation the modified statistic is smaller than the distance in units of the error, and the limit is larger *)
Lemma modified_smaller xobs e x : 0 < e -> xobs < 0 -> 0 <= x -> qmu_sqrt xobs e x < (x - xobs) / e.
Proof.
  intros E N X. assert (P : 0 < / e) by (apply Rinv_0_lt_compat; auto). unfold qmu_sqrt. rewrite Rltb_true by auto.
  assert (S : 0 < (x - xobs) / e) by (apply Rmult_lt_0_compat; lra). rewrite <- (sqrt_square ((x - xobs) / e)) at 3 by lra.
  apply sqrt_lt_1_alt. split; [apply radicand_pos; auto|]. assert (0 < xobs / e * (xobs / e)); [|lra].
  replace (xobs / e * (xobs / e)) with ((- xobs / e) * (- xobs / e)) by (field; lra). assert (0 < - xobs / e) by (apply Rmult_lt_0_compat; lra). apply Rmult_lt_0_compat; auto.
Qed.
End Root.

Lemma stat_qmu xobs e x q : 0 < e -> 0 <= x -> stat xobs e x q -> qmu_sqrt xobs e x = q.
Proof.
  intros E X [[N ->]|(N & Q & H)]; unfold qmu_sqrt; [rewrite Rltb_false by lra; auto|]. rewrite Rltb_true by auto.
  replace (_ - _) with (q * q) by (rewrite H; field; lra). apply sqrt_square; auto.
Qed.
Lemma eq_cls cdf e2 q cl x : (forall t, 0 < cdf t) -> cdf (- q) - cl * cdf (x / e2 - q) = (cls cdf q (x / e2) - cl) * cdf (x / e2 - q).
Proof. intros P. unfold cls. field. pose proof (P (x / e2 - q)). lra. Qed.
(** for a negative observation the limit is larger than the band of the same downward fluctuation *)
Section Bands.
Variables cdf ppf : R -> R.
Hypothesis D : distribution cdf.
Hypothesis SC : strictly_log_concave cdf.
Hypothesis inv : forall p, 0 < p < 1 -> cdf (ppf p) = p.
Theorem negative_band err cl_s cl_b x : 0 < err -> 0 < cl_s < 1 -> 0 < cl_b < 1 -> ppf cl_b < 0 -> 0 <= x ->
  gaussian_eq cdf (err * ppf cl_b) err err cl_s x = 0 -> expected_limit ppf 0 err cl_s cl_b < x.
Proof.
  intros E C B P X H. assert (CI := proj1 (proj2 D)).
  assert (D1 : 0 < cl_s * cl_b) by (apply Rmult_lt_0_compat; lra). assert (D2 : cl_s * cl_b < 1 * cl_b) by (apply Rmult_lt_compat_r; lra).
  assert (PL : ppf (cl_s * cl_b) < ppf cl_b).
  { destruct (Rlt_or_le (ppf (cl_s * cl_b)) (ppf cl_b)) as [L|L]; auto. assert (cdf (ppf cl_b) <= cdf (ppf (cl_s * cl_b))) by (destruct L as [L| ->]; [left; apply CI; auto|lra]). rewrite !inv in * by lra. lra. }
  assert (V : expected_limit ppf 0 err cl_s cl_b = err * (ppf cl_b - ppf (cl_s * cl_b))).
  { unfold expected_limit. cbv zeta. rewrite sqrt_square by lra. lra. }
  rewrite V. set (N := ppf cl_b) in *. set (K := ppf (cl_s * cl_b)) in *. set (z := err * (N - K)).
  assert (Z : 0 < z) by (apply Rmult_lt_0_compat; lra).
  destruct (Rlt_or_le z x) as [L|L]; auto. exfalso.
  assert (G : 0 < gaussian_eq cdf (err * N) err err cl_s z).
  { assert (NO : err * N < 0) by (rewrite <- (Rmult_0_r err); apply Rmult_lt_compat_l; auto).
    pose proof (modified_smaller (err * N) err z E NO (Rlt_le _ _ Z)) as Q. unfold gaussian_eq. cbv zeta. set (q := qmu_sqrt (err * N) err z) in *.
    replace ((z - err * N) / err) with (- K) in Q by (unfold z; field; lra).
    assert (A : z / err = N - K) by (unfold z; field; lra). rewrite A.
    pose proof (SC K (- q) (N - K)) as S. replace (- q + (N - K)) with (N - K - q) in S by lra. replace (K + (N - K)) with N in S by lra. assert (VK : cdf K = cl_s * cl_b) by (unfold K; apply inv; lra). assert (VN : cdf N = cl_b) by (unfold N; apply inv; lra). rewrite VK, VN in S.
    specialize (S ltac:(lra) ltac:(lra)). assert (cl_s * cdf (N - K - q) < cdf (- q)); [|lra]. apply (Rmult_lt_reg_r cl_b); [lra|]. lra. }
  destruct L as [L| ->]; [|lra]. destruct (limit_sides cdf D (err * N) err err cl_s x z E E C X H (Rlt_le _ _ Z)) as [_ S]. specialize (S L). lra.
Qed.
End Bands.

(** ** the normal distribution function qualifies: any function with the normal density as derivative that vanishes towards
    minus infinity *)
Section Normal.
Variable F : R -> R.
Variable c : R.
Hypothesis C : 0 < c.
Definition ndens (x : R) : R := c * exp (- (x * x) / 2).
Hypothesis DF : forall x, derivable_pt_lim F x (ndens x).
Hypothesis F0 : forall eps, 0 < eps -> exists m, forall x, x <= m -> Rabs (F x) < eps.
Lemma ndens_pos x : 0 < ndens x. Proof. apply Rmult_lt_0_compat; [auto|apply exp_pos]. Qed.
Lemma dl_inc (f f' : R -> R) a b : a < b -> (forall x, a <= x <= b -> derivable_pt_lim f x (f' x)) -> (forall x, a < x < b -> 0 < f' x) -> f a < f b.
Proof.
  intros L H P. assert (pr : forall x, a < x < b -> derivable_pt f x) by (intros x X; exists (f' x); apply H; lra).
  destruct (MVT_cor2 f f' a b L H) as (z & E & Z). assert (0 < f' z * (b - a)) by (apply Rmult_lt_0_compat; [apply P; auto|lra]). lra.
Qed.
Lemma F_inc x y : x < y -> F x < F y.
Proof. intros L. apply (dl_inc F ndens); auto. intros; apply ndens_pos. Qed.
Lemma F_pos x : 0 < F x.
Proof.
  destruct (Rlt_or_le 0 (F x)) as [H|H]; auto. exfalso. assert (A : F (x - 1) < F x) by (apply F_inc; lra).
  destruct (F0 (F x - F (x - 1))) as (m & M); [lra|]. set (t := Rmin m (x - 2)). assert (t <= m) by apply Rmin_l. assert (t <= x - 2) by apply Rmin_r.
  specialize (M t H0). assert (F t < F (x - 1)) by (apply F_inc; lra). rewrite Rabs_left1 in M by lra. lra.
Qed.
Lemma ndens_d x : derivable_pt_lim ndens x (- x * ndens x).
Proof.
  unfold ndens. replace (- x * (c * exp (- (x * x) / 2))) with (c * (exp (- (x * x) / 2) * (- x))) by lra.
  apply (derivable_pt_lim_scal (fun x => exp (- (x * x) / 2))).
  apply (derivable_pt_lim_comp (fun x => - (x * x) / 2) exp).
  - replace (- x) with (- (1 * x + x * 1) * / 2 + - (x * x) * 0) by lra. apply (derivable_pt_lim_mult (fun x => - (x * x)) (fun _ => / 2)).
    + apply (derivable_pt_lim_opp (fun x => x * x)). apply (derivable_pt_lim_mult id id); apply derivable_pt_lim_id.
    + apply derivable_pt_lim_const.
  - apply derivable_pt_lim_exp.
Qed.

(** Mills: the density exceeds -x times the distribution function *)
Definition mills (x : R) : R := ndens x * - / x - F x.
Lemma mills_d x : x < 0 -> derivable_pt_lim mills x (ndens x / (x * x)).
Proof.
  intros X. unfold mills. replace (ndens x / (x * x)) with ((- x * ndens x * - / x + ndens x * (/ (x * x))) - ndens x) by (field; lra).
  apply (derivable_pt_lim_minus (fun x => ndens x * - / x) F); [|apply DF]. apply (derivable_pt_lim_mult ndens (fun x => - / x)); [apply ndens_d|].
  replace (/ (x * x)) with (- ((0 * x - 1 * 1) / Rsqr x)) by (unfold Rsqr; field; lra). apply (derivable_pt_lim_opp (fun x => / x)).
  apply (dlim_ext (fun x => 1 / x)); [intros; unfold Rdiv; lra|]. apply (derivable_pt_lim_div (fct_cte 1) id); [apply derivable_pt_lim_const|apply derivable_pt_lim_id|unfold id; lra].
Qed.
Lemma mills_inc x y : x < y -> y < 0 -> mills x < mills y.
Proof.
  intros L Y. apply (dl_inc mills (fun x => ndens x / (x * x))); auto; intros t T; [apply mills_d; lra|].
  apply Rdiv_lt_0_compat; [apply ndens_pos|]. replace (t * t) with (- t * - t) by lra. apply Rmult_lt_0_compat; lra.
Qed.
Lemma mills_pos x : x < 0 -> 0 < mills x.
Proof.
  intros X. apply Rle_lt_trans with (mills (x - 1)); [|apply mills_inc; lra]. destruct (Rle_or_lt 0 (mills (x - 1))) as [H|H]; auto. exfalso.
  destruct (F0 (- mills (x - 1))) as (m & M); [lra|]. set (t := Rmin m (x - 2)). assert (T1 : t <= m) by apply Rmin_l. assert (T2 : t <= x - 2) by apply Rmin_r.
  specialize (M t T1). assert (I : mills t < mills (x - 1)) by (apply mills_inc; lra). unfold mills in I at 1. pose proof (Rle_abs (F t)).
  assert (0 < ndens t * - / t); [|lra]. apply Rmult_lt_0_compat; [apply ndens_pos|]. assert (/ t < 0) by (apply Rinv_lt_0_compat; lra). lra.
Qed.
Lemma dens_bound x : 0 < ndens x + x * F x.
Proof.
  destruct (Rlt_or_le x 0) as [X|X].
  - pose proof (mills_pos x X) as M. unfold mills in M. assert (0 < - x * (ndens x * - / x - F x)) by (apply Rmult_lt_0_compat; lra).
    replace (- x * (ndens x * - / x - F x)) with (ndens x + x * F x) in H by (field; lra). auto.
  - pose proof (ndens_pos x). pose proof (F_pos x). assert (0 <= x * F x) by (apply Rmult_le_pos; lra). lra.
Qed.
Definition hazard (x : R) : R := ndens x / F x.
Lemma hazard_dec x y : x < y -> hazard y < hazard x.
Proof.
  intros L. apply Ropp_lt_cancel. apply (dl_inc (fun x => - hazard x) (fun x => ndens x * (ndens x + x * F x) / Rsqr (F x))); auto; intros t T.
  - pose proof (F_pos t). replace (ndens t * (ndens t + t * F t) / Rsqr (F t)) with (- ((- t * ndens t * F t - ndens t * ndens t) / Rsqr (F t))) by (unfold Rsqr; field; lra).
    apply (derivable_pt_lim_opp hazard). apply (derivable_pt_lim_div ndens F); [apply ndens_d|apply DF|lra].
  - pose proof (F_pos t). apply Rdiv_lt_0_compat; [apply Rmult_lt_0_compat; [apply ndens_pos|apply dens_bound]|unfold Rsqr; apply Rmult_lt_0_compat; auto].
Qed.
Theorem normal_strict : strictly_log_concave F.
Proof.
  intros x y h L Hh. pose proof (F_pos x) as PX. pose proof (F_pos y) as PY.
  assert (R : - (F (x + h) / F x) < - (F (y + h) / F y)).
  { apply (dl_inc (fun x => - (F (x + h) / F x)) (fun x => - ((ndens (x + h) * F x - ndens x * F (x + h)) / Rsqr (F x)))); auto; intros t T; pose proof (F_pos t).
    - apply (derivable_pt_lim_opp (fun x => F (x + h) / F x)). apply (derivable_pt_lim_div (fun x => F (x + h)) F); [|apply DF|lra].
      replace (ndens (t + h)) with (ndens (t + h) * 1) by lra. apply (derivable_pt_lim_comp (fun x => x + h) F); [|apply DF].
      replace 1 with (1 + 0) by lra. apply (derivable_pt_lim_plus id (fun _ => h)); [apply derivable_pt_lim_id|apply derivable_pt_lim_const].
    - pose proof (F_pos (t + h)). assert (K : hazard (t + h) < hazard t) by (apply hazard_dec; lra). unfold hazard in K.
      apply (Rmult_lt_compat_r (F t * F (t + h))) in K; [|apply Rmult_lt_0_compat; auto].
      replace (ndens (t + h) / F (t + h) * (F t * F (t + h))) with (ndens (t + h) * F t) in K by (field; lra). replace (ndens t / F t * (F t * F (t + h))) with (ndens t * F (t + h)) in K by (field; lra).
      replace (- ((ndens (t + h) * F t - ndens t * F (t + h)) / Rsqr (F t))) with ((ndens t * F (t + h) - ndens (t + h) * F t) / Rsqr (F t)) by (unfold Rsqr; field; lra).
      apply Rdiv_lt_0_compat; [lra|unfold Rsqr; apply Rmult_lt_0_compat; auto]. }
  apply Ropp_lt_cancel in R. apply (Rmult_lt_compat_r (F x * F y)) in R; [|apply Rmult_lt_0_compat; auto].
  replace (F (y + h) / F y * (F x * F y)) with (F x * F (y + h)) in R by (field; lra). replace (F (x + h) / F x * (F x * F y)) with (F (x + h) * F y) in R by (field; lra). auto.
Qed.
Theorem normal_distribution : distribution F.
Proof.
  split; [exact F_pos|]. split; [exact F_inc|]. split; [|split].
  - intros x. apply derivable_continuous_pt. exists (ndens x). apply DF.
  - intros x y h [L| ->] [Hh|<-]; try (rewrite !Rplus_0_r; lra); try lra. left. apply normal_strict; auto.
  - intros eps E. destruct (F0 eps E) as (m & M). exists m. intros x X. pose proof (Rle_abs (F x)). specialize (M x X). lra.
Qed.
End Normal.
