From Coq Require Import Reals List Bool Lra Lia Psatz.
From Verif Require Import RBase BBStat_Model BBStat_Spec.
Import ListNotations.
Open Scope R_scope.

(** ** roots *)
Lemma root_eq a b c : 0 < a -> 0 <= b*b - 4*a*c ->
  let x := solve_quad_eq a b c in a*x*x + b*x + c = 0 /\ 0 <= 2*a*x + b.
Proof.
  intros Ha Hd x. set (s := sqrt (b*b-4*a*c)).
  assert (Hs: s*s = b*b-4*a*c) by (apply sqrt_sqrt; auto).
  assert (Hs0: 0 <= s) by apply sqrt_pos.
  assert (Hx: 2*a*x = -b + s). { unfold x, solve_quad_eq. fold s. field. lra. }
  split; [|lra].
  assert (4*a*(a*x*x+b*x+c) = 0).
  { replace (4*a*(a*x*x+b*x+c)) with ((2*a*x)*(2*a*x) + 2*b*(2*a*x) + 4*a*c) by ring.
    rewrite Hx. nra. }
  nra.
Qed.

(** the larger root dominates every point where the polynomial is <= 0 *)
Lemma root_max a b c x y : 0 < a -> a*x*x+b*x+c = 0 -> 0 <= 2*a*x+b ->
  a*y*y+b*y+c <= 0 -> y <= x.
Proof.
  intros Ha Hx Hs Hy. destruct (Rle_dec y x); auto. exfalso.
  assert (y - x > 0) by lra.
  assert (a*y*y+b*y+c = (y-x)*(a*(y-x) + (2*a*x+b))) by nra.
  assert (0 < a*(y-x)) by nra.
  assert (0 < (y-x)*(a*(y-x) + (2*a*x+b))) by (apply Rmult_lt_0_compat; lra).
  lra.
Qed.

Lemma disc_nonneg_of_point a b c y : 0 < a -> a*y*y+b*y+c <= 0 -> 0 <= b*b-4*a*c.
Proof.
  intros Ha Hy. pose proof (Rle_0_sqr (2*a*y+b)) as Hq. unfold Rsqr in Hq.
  assert (0 <= 4*a*(- (a*y*y+b*y+c))) by (apply Rmult_le_pos; lra).
  replace (b*b-4*a*c) with ((2*a*y+b)*(2*a*y+b) + 4*a*(- (a*y*y+b*y+c))) by ring. lra.
Qed.

Lemma root_ge a b c y : 0 < a -> a*y*y+b*y+c <= 0 ->
  let x := solve_quad_eq a b c in a*x*x+b*x+c = 0 /\ y <= x.
Proof.
  intros Ha Hy x. pose proof (disc_nonneg_of_point _ _ _ _ Ha Hy) as Hd.
  destruct (root_eq a b c Ha Hd) as [H1 H2]. fold x in H1, H2. split; auto.
  eapply root_max; eauto.
Qed.

(** ** deviance convexity *)
Lemma poisson_dev_tangent nobs y ys :
  0 <= nobs -> poisson_dom nobs y -> 0 < ys ->
  poisson_dev nobs y - poisson_dev nobs ys >= (1 - nobs/ys) * (y - ys).
Proof.
  intros Hn [Hy Hy'] Hs. unfold poisson_dev. destruct (Req_EM_T nobs 0) as [->|Hne].
  - unfold Rdiv. nra.
  - specialize (Hy' Hne). rewrite !ln_div' by lra.
    pose proof (ln_tangent y ys Hy' Hs).
    assert (nobs * (ln y - ln ys) <= nobs * ((y-ys)/ys)) by (apply Rmult_le_compat_l; auto).
    assert (nobs * ((y-ys)/ys) = nobs/ys*(y-ys)) by (field; lra). lra.
Qed.

Lemma poisson_dev_zero y ys :
  poisson_dev 0 y - poisson_dev 0 ys = y - ys.
Proof. unfold poisson_dev. destruct (Req_EM_T 0 0); lra. Qed.

Lemma gauss_tangent k b0 b bs : 0 <= k ->
  gauss_constraint k b0 b - gauss_constraint k b0 bs >= k*(bs-b0)*(b-bs).
Proof. intros Hk. unfold gauss_constraint. pose proof (pow2_ge_0 (b-bs)).
  assert (k*(b-b0)^2/2 - k*(bs-b0)^2/2 - k*(bs-b0)*(b-bs) = k*(b-bs)^2/2) by field. nra. Qed.

Lemma gamma_tangent k b0 b bs : 0 <= k -> 0 <= b0 -> gamma_dom b0 b -> 0 < bs ->
  gamma_constraint k b0 b - gamma_constraint k b0 bs >= (k - k*b0/bs)*(b-bs).
Proof.
  intros Hk H0 [Hb Hb'] Hs. unfold gamma_constraint.
  destruct (Req_EM_T b0 0) as [->|Hne].
  - unfold Rdiv. nra.
  - specialize (Hb' Hne). rewrite !ln_div' by lra.
    pose proof (ln_tangent b bs Hb' Hs).
    assert (k*b0*(ln b - ln bs) <= k*b0*((b-bs)/bs)).
    { apply Rmult_le_compat_l; auto. nra. }
    assert (k*b0*((b-bs)/bs) = k*b0/bs*(b-bs)) by (field; lra). lra.
Qed.

Lemma chisq_tangent var nobs y ys : 0 < var ->
  chisq_dev var nobs y - chisq_dev var nobs ys >= (ys-nobs)/var*(y-ys).
Proof.
  intros Hv. unfold chisq_dev.
  assert ((y-nobs)^2/(2*var) - (ys-nobs)^2/(2*var) - (ys-nobs)/var*(y-ys) = (y-ys)^2/(2*var))
    by (field; lra).
  assert (0 <= (y-ys)^2/(2*var)). { apply Rdiv_nonneg; [apply pow2_ge_0|lra]. } lra.
Qed.

(** ** one-dimensional problems: expectation n*beta + z *)
(** Poisson with gaussian constraint *)
Definition q_nm k n z nobs b0 :=
  solve_quad_eq (k*n) (n*n - k*b0*n + k*z) (n*(z-nobs) - k*b0*z).

Lemma poisson_gauss_min k n z nobs b0 : 0 < k -> 0 < n -> 0 <= nobs ->
  minimises (fun b => poisson_dom nobs (n*b+z))
            (fun b => poisson_dev nobs (n*b+z) + gauss_constraint k b0 b)
            (q_nm k n z nobs b0).
Proof.
  intros Hk Hn Ho. unfold q_nm.
  assert (Ha: 0 < k*n) by (apply Rmult_lt_0_compat; auto).
  set (y0 := - z/n).
  assert (Hy0: n*y0 + z = 0) by (unfold y0; field; lra).
  assert (Hle: k*n*y0*y0 + (n*n - k*b0*n + k*z)*y0 + (n*(z-nobs)-k*b0*z) <= 0).
  { replace (k*n*y0*y0 + (n*n - k*b0*n + k*z)*y0 + (n*(z-nobs)-k*b0*z))
      with ((n*y0+z)*(n + k*(y0-b0)) - nobs*n) by ring. rewrite Hy0. nra. }
  destruct (root_ge _ _ _ _ Ha Hle) as [Hr Hge].
  set (x := solve_quad_eq _ _ _) in *.
  assert (Hr2: (n*x+z)*(n + k*(x-b0)) = nobs*n) by (rewrite <- (Rplus_0_l (nobs*n)); rewrite <- Hr; ring).
  assert (Hys: 0 <= n*x+z) by nra.
  assert (Hys': nobs <> 0 -> 0 < n*x+z).
  { intros Hne. destruct (Req_dec (n*x+z) 0) as [E|]; [|lra]. rewrite E in Hr2. nra. }
  split. { split; auto. }
  intros b Hd.
  destruct (Req_dec (n*x+z) 0) as [E|E].
  - (* only possible for nobs = 0: boundary *)
    assert (nobs = 0) by (destruct (Req_dec nobs 0); auto; specialize (Hys' H); lra). subst nobs.
    pose proof (poisson_dev_zero (n*b+z) (n*x+z)).
    pose proof (gauss_tangent k b0 b x ltac:(lra)).
    destruct Hd as [Hd _]. assert (x <= b) by nra.
    (* the other factor: value of polynomial to the right is >= 0 *)
    assert (Hm: 0 <= n + k*(x-b0)).
    { destruct (Rle_dec 0 (n + k*(x-b0))); auto. exfalso.
      (* then the root b0 - n/k is larger *)
      set (w := b0 - n/k). assert (Hw: n + k*(w-b0) = 0) by (unfold w; field; lra).
      assert (k*n*w*w + (n*n - k*b0*n + k*z)*w + (n*(z-0)-k*b0*z) <= 0).
      { replace (k*n*w*w + (n*n - k*b0*n + k*z)*w + (n*(z-0)-k*b0*z))
          with ((n*w+z)*(n + k*(w-b0))) by ring. rewrite Hw. lra. }
      destruct (root_ge _ _ _ _ Ha H2) as [_ Hw2]. fold x in Hw2. nra. }
    nra.
  - assert (Hpos: 0 < n*x+z) by lra.
    pose proof (poisson_dev_tangent nobs (n*b+z) (n*x+z) Ho Hd Hpos).
    pose proof (gauss_tangent k b0 b x ltac:(lra)).
    assert (Hst: n*(1 - nobs/(n*x+z)) + k*(x-b0) = 0).
    { apply Rmult_eq_reg_r with (n*x+z); [|lra]. rewrite Rmult_0_l.
      replace ((n*(1-nobs/(n*x+z)) + k*(x-b0))*(n*x+z))
        with ((n*x+z)*(n+k*(x-b0)) - nobs*n) by (field; lra). lra. }
    assert ((1 - nobs/(n*x+z))*((n*b+z)-(n*x+z)) + k*(x-b0)*(b-x) = 0).
    { replace ((1 - nobs/(n*x+z))*((n*b+z)-(n*x+z)) + k*(x-b0)*(b-x))
        with ((n*(1 - nobs/(n*x+z)) + k*(x-b0))*(b-x)) by ring. rewrite Hst. ring. }
    lra.
Qed.

(** Poisson with gamma constraint *)
Definition q_ga k n z nobs b0 :=
  solve_quad_eq (n*(n+k)) (n*(z - nobs - b0*k) + k*z) (- b0*k*z).

Lemma poisson_gamma_min k n z nobs b0 : 0 < k -> 0 < n -> 0 <= z -> 0 <= nobs -> 0 <= b0 ->
  minimises (fun b => gamma_dom b0 b /\ poisson_dom nobs (n*b+z))
            (fun b => poisson_dev nobs (n*b+z) + gamma_constraint k b0 b)
            (q_ga k n z nobs b0).
Proof.
  intros Hk Hn Hz Ho Hb0. unfold q_ga.
  assert (Ha: 0 < n*(n+k)) by nra.
  assert (Hle: n*(n+k)*0*0 + (n*(z - nobs - b0*k) + k*z)*0 + (- b0*k*z) <= 0).
  { assert (0 <= b0*k) by nra. assert (0 <= b0*k*z) by nra. lra. }
  destruct (root_ge _ _ _ _ Ha Hle) as [Hr Hge].
  set (x := solve_quad_eq _ _ _) in *.
  assert (Hr2: x*(n*x+z)*(n+k) = nobs*n*x + k*b0*(n*x+z)).
  { apply Rminus_diag_uniq. rewrite <- Hr. ring. }
  assert (Hmax: forall w, 0 <= w -> w*(n*w+z)*(n+k) <= nobs*n*w + k*b0*(n*w+z) -> w <= x).
  { intros w _ Hw.
    assert (n*(n+k)*w*w + (n*(z - nobs - b0*k) + k*z)*w + (- b0*k*z) <= 0) by nra.
    destruct (root_ge _ _ _ _ Ha H) as [_ H']. exact H'. }
  assert (Hxb: b0 <> 0 -> 0 < x).
  { intros Hne. destruct (Req_dec x 0) as [E|]; [|lra].
    assert (Hz0: z = 0). { rewrite E in Hr2. assert (k*b0*z=0) by lra. assert (0<k*b0) by nra. nra. }
    assert (Hw: (b0*k)/(n+k) <= x).
    { apply Hmax. { apply Rdiv_nonneg; nra. }
      set (w := b0*k/(n+k)). assert (Hww: w*(n+k) = b0*k) by (unfold w; field; lra).
      assert (0 <= w) by (unfold w; apply Rdiv_nonneg; nra).
      replace (w*(n*w+z)*(n+k)) with ((w*(n+k))*(n*w+z)) by ring. rewrite Hww.
      assert (0 <= nobs*n*w) by (apply Rmult_le_pos; auto; nra). nra. }
    assert (0 < b0*k/(n+k)) by (apply Rdiv_lt_0_compat; nra). lra. }
  assert (Hyo: nobs <> 0 -> 0 < n*x+z).
  { intros Hne. destruct (Req_dec (n*x+z) 0) as [E|]; [|nra].
    assert (x = 0) by nra. assert (z = 0) by nra.
    assert (Hw: nobs/(n+k) <= x).
    { apply Hmax. { apply Rdiv_nonneg; nra. }
      set (w := nobs/(n+k)). assert (Hww: w*(n+k) = nobs) by (unfold w; field; lra).
      assert (0 <= w) by (unfold w; apply Rdiv_nonneg; nra).
      replace (w*(n*w+z)*(n+k)) with ((w*(n+k))*(n*w+z)) by ring. rewrite Hww, H0.
      assert (0 <= k*b0*(n*w+0)). { apply Rmult_le_pos; nra. } nra. }
    assert (0 < nobs/(n+k)) by (apply Rdiv_lt_0_compat; nra). lra. }
  split. { split; split; auto. nra. }
  intros b [Hdg Hdp].
  destruct (Req_dec x 0) as [E|E].
  - (* boundary: beta0 = 0 *)
    assert (b0 = 0) by (destruct (Req_dec b0 0); auto; specialize (Hxb H); lra). subst b0.
    assert (Eg: gamma_constraint k 0 b - gamma_constraint k 0 x = k*(b-x)).
    { unfold gamma_constraint. destruct (Req_EM_T 0 0); lra. }
    rewrite E in *. destruct Hdg as [Hdg _].
    destruct (Req_dec nobs 0) as [En|En].
    + subst nobs. pose proof (poisson_dev_zero (n*b+z) (n*0+z)). nra.
    + specialize (Hyo En). assert (Hz': 0 < z) by lra.
      pose proof (poisson_dev_tangent nobs (n*b+z) (n*0+z) Ho Hdp Hyo).
      (* derivative at 0 is nonnegative *)
      assert (Hd0: nobs*n <= (n+k)*z).
      { destruct (Rle_dec (nobs*n) ((n+k)*z)); auto. exfalso.
        set (w := (nobs*n - (n+k)*z)/(n*(n+k))).
        assert (Hw0: 0 < w) by (unfold w; apply Rdiv_lt_0_compat; nra).
        assert (Hw1: w*(n*(n+k)) = nobs*n - (n+k)*z) by (unfold w; field; split; lra).
        assert (w <= 0). { apply Hmax; [lra|]. nra. } lra. }
      assert ((1 - nobs/(n*0+z))*(n*b+z-(n*0+z)) + k*(b-0) >= 0).
      { replace ((1 - nobs/(n*0+z))*(n*b+z-(n*0+z)) + k*(b-0))
          with (((n+k)*z - nobs*n)/z*b) by (field; lra).
        assert (0 <= ((n+k)*z - nobs*n)/z) by (apply Rdiv_nonneg; lra). nra. }
      lra.
  - assert (Hx: 0 < x) by lra. assert (Hy: 0 < n*x+z) by nra.
    pose proof (poisson_dev_tangent nobs (n*b+z) (n*x+z) Ho Hdp Hy).
    pose proof (gamma_tangent k b0 b x ltac:(lra) Hb0 Hdg Hx).
    assert (Hst: n*(1 - nobs/(n*x+z)) + (k - k*b0/x) = 0).
    { apply Rmult_eq_reg_r with (x*(n*x+z)); [|nra]. rewrite Rmult_0_l.
      replace ((n*(1-nobs/(n*x+z)) + (k-k*b0/x))*(x*(n*x+z)))
        with (x*(n*x+z)*(n+k) - (nobs*n*x + k*b0*(n*x+z))) by (field; lra). lra. }
    assert ((1 - nobs/(n*x+z))*(n*b+z-(n*x+z)) + (k-k*b0/x)*(b-x) = 0).
    { replace ((1 - nobs/(n*x+z))*(n*b+z-(n*x+z)) + (k-k*b0/x)*(b-x))
        with ((n*(1 - nobs/(n*x+z)) + (k - k*b0/x))*(b-x)) by ring. rewrite Hst. ring. }
    lra.
Qed.

(** chi-square with gaussian constraint *)
Lemma chisq_gauss_min k n z nobs var b0 x : 0 < k -> 0 < var ->
  x * (k + n*n/var) = (nobs - z)*n/var + k*b0 ->
  minimises (fun _ => True)
            (fun b => chisq_dev var nobs (n*b+z) + gauss_constraint k b0 b) x.
Proof.
  intros Hk Hv Hx. split; auto. intros b _.
  pose proof (chisq_tangent var nobs (n*b+z) (n*x+z) Hv).
  pose proof (gauss_tangent k b0 b x ltac:(lra)).
  assert ((n*x+z-nobs)/var*(n*b+z-(n*x+z)) + k*(x-b0)*(b-x) = 0).
  { replace ((n*x+z-nobs)/var*(n*b+z-(n*x+z)) + k*(x-b0)*(b-x))
      with ((x*(k+n*n/var) - ((nobs-z)*n/var + k*b0))*(b-x)) by (field; lra).
    rewrite Hx. ring. }
  lra.
Qed.

(** chi-square with gamma constraint *)
Definition q_cg k n z nobs var b0 :=
  solve_quad_eq (n*n) (k*var + (z-nobs)*n) (- k*var*b0).

Lemma chisq_gamma_min k n z nobs var b0 : 0 < k -> 0 < n -> 0 < var -> 0 <= b0 ->
  minimises (gamma_dom b0)
            (fun b => chisq_dev var nobs (n*b+z) + gamma_constraint k b0 b)
            (q_cg k n z nobs var b0).
Proof.
  intros Hk Hn Hv Hb0. unfold q_cg.
  assert (Ha: 0 < n*n) by nra. assert (Hkv: 0 < k*var) by nra.
  assert (Hle: n*n*0*0 + (k*var+(z-nobs)*n)*0 + (-k*var*b0) <= 0) by nra.
  destruct (root_ge _ _ _ _ Ha Hle) as [Hr Hge].
  set (x := solve_quad_eq _ _ _) in *.
  assert (Hr2: x*(n*(n*x+z-nobs) + k*var) = k*var*b0).
  { apply Rminus_diag_uniq. rewrite <- Hr. ring. }
  assert (Hxb: b0 <> 0 -> 0 < x).
  { intros Hne. destruct (Req_dec x 0) as [E|]; [|lra]. rewrite E in Hr2. nra. }
  split. { split; auto. }
  intros b Hd.
  pose proof (chisq_tangent var nobs (n*b+z) (n*x+z) Hv).
  destruct (Req_dec x 0) as [E|E].
  - assert (b0 = 0) by (destruct (Req_dec b0 0); auto; specialize (Hxb H0); lra). subst b0.
    assert (Eg: gamma_constraint k 0 b - gamma_constraint k 0 x = k*(b-x)).
    { unfold gamma_constraint. destruct (Req_EM_T 0 0); lra. }
    destruct Hd as [Hd _].
    assert (Hd0: 0 <= n*(z-nobs) + k*var).
    { destruct (Rle_dec 0 (n*(z-nobs) + k*var)); auto. exfalso.
      set (w := - (n*(z-nobs)+k*var)/(n*n)).
      assert (0 < w) by (unfold w; apply Rdiv_lt_0_compat; nra).
      assert (w*(n*n) = - (n*(z-nobs)+k*var)) by (unfold w; field; lra).
      assert (n*n*w*w + (k*var+(z-nobs)*n)*w + (-k*var*0) <= 0) by nra.
      destruct (root_ge _ _ _ _ Ha H2) as [_ H3]. fold x in H3. lra. }
    rewrite E in *.
    assert ((n*0+z-nobs)/var*(n*b+z-(n*0+z)) + k*(b-0) >= 0).
    { replace ((n*0+z-nobs)/var*(n*b+z-(n*0+z)) + k*(b-0))
        with ((n*(z-nobs)+k*var)/var*b) by (field; lra).
      assert (0 <= (n*(z-nobs)+k*var)/var) by (apply Rdiv_nonneg; lra). nra. }
    lra.
  - assert (Hx: 0 < x) by lra.
    pose proof (gamma_tangent k b0 b x ltac:(lra) Hb0 Hd Hx).
    assert ((n*x+z-nobs)/var*(n*b+z-(n*x+z)) + (k-k*b0/x)*(b-x) = 0).
    { replace ((n*x+z-nobs)/var*(n*b+z-(n*x+z)) + (k-k*b0/x)*(b-x))
        with ((x*(n*(n*x+z-nobs)+k*var) - k*var*b0)/(x*var)*(b-x)) by (field; lra).
      rewrite Hr2. unfold Rdiv. ring. }
    lra.
Qed.

(** ** connection to the code: lite mode *)
Definition raw (p : proc) : R * R := (p_sumw p, p_sumw2 p).
Definition lp (p : proc) : lite_proc := (zero_var (raw p), p_yield p).

Lemma zero_var_spec p : zero_var (raw p) = if Req_EM_T (p_sumw2 p) 0 then true else false.
Proof. unfold zero_var, raw, Reqb; simpl. destruct (Req_EM_T (p_sumw2 p) 0); auto. Qed.

Lemma n_active_spec ps : n_active (map lp ps) = yield_mc ps.
Proof.
  unfold n_active, yield_mc. induction ps; simpl; auto. rewrite IHps.
  unfold lp; simpl. rewrite zero_var_spec. destruct (Req_EM_T (p_sumw2 a) 0); auto.
Qed.
Lemma n_zero_var_spec ps : n_zero_var (map lp ps) = yield_exact ps.
Proof.
  unfold n_zero_var, yield_exact. induction ps; simpl; auto. rewrite IHps.
  unfold lp; simpl. rewrite zero_var_spec. destruct (Req_EM_T (p_sumw2 a) 0); auto.
Qed.
Lemma nexp_spec ps : nexp_of (map lp ps) = yield_exact ps + yield_mc ps.
Proof.
  unfold nexp_of, yield_mc, yield_exact. induction ps; simpl; [lra|].
  rewrite IHps. destruct (Req_EM_T (p_sumw2 a) 0); lra.
Qed.
Lemma varbeta_spec ps m : bi_varbeta (lite_info (map raw ps) m) = mc_variance ps.
Proof.
  unfold lite_info, mkinfo, mc_variance; simpl. induction ps; simpl; auto.
  rewrite IHps. destruct (Req_EM_T (p_sumw2 a) 0); lra.
Qed.
Lemma sumw_spec ps m : bi_sumw (lite_info (map raw ps) m) = mc_sumw ps.
Proof.
  unfold lite_info, mkinfo, mc_sumw; simpl. induction ps; simpl; auto.
  rewrite IHps. unfold raw, Reqb; simpl. destruct (Req_EM_T (p_sumw2 a) 0); lra.
Qed.

Lemma betamask_spec v s m :
  betamask_of v s m = false <-> (v <> 0 /\ s <> 0 /\ (0 < m -> m <= s*s/v)).
Proof.
  unfold betamask_of. destruct (Reqb_spec v 0), (Reqb_spec s 0); simpl;
    destruct (Rltb_spec 0 m); simpl; split; intros H; try discriminate; try tauto; try lra.
  - destruct (Rltb_spec (s*s/v) m); [discriminate|]. repeat split; auto. lra.
  - destruct H as (_&_&H). specialize (H r). destruct (Rltb_spec (s*s/v) m); auto. lra.
Qed.

Lemma mask_spec ps m : bi_mask (lite_info (map raw ps) m) = false <-> usable m ps.
Proof.
  assert (E: bi_mask (lite_info (map raw ps) m)
     = betamask_of (bi_varbeta (lite_info (map raw ps) m)) (bi_sumw (lite_info (map raw ps) m)) m)
    by reflexivity.
  rewrite E, varbeta_spec, sumw_spec, betamask_spec. unfold usable, n_effective.
  replace (mc_sumw ps ^ 2) with (mc_sumw ps * mc_sumw ps) by ring. tauto.
Qed.

Lemma kstat_spec ps m : usable m ps ->
  bi_kstat (lite_info (map raw ps) m) = n_effective ps.
Proof.
  intros Hu. apply mask_spec in Hu.
  assert (E: bi_kstat (lite_info (map raw ps) m)
     = if bi_mask (lite_info (map raw ps) m) then 1
       else bi_sumw (lite_info (map raw ps) m) * bi_sumw (lite_info (map raw ps) m)
            / bi_varbeta (lite_info (map raw ps) m)) by reflexivity.
  rewrite E, Hu, varbeta_spec, sumw_spec. unfold n_effective. f_equal. ring.
Qed.

Lemma safe_pos_id x : 0 < x -> safe_pos x = x.
Proof. intros. unfold safe_pos. rewrite Rltb_true; auto. Qed.

Lemma n_effective_pos m ps : usable m ps -> 0 <= mc_variance ps -> 0 < n_effective ps.
Proof.
  intros (H1&H2&_) Hv. unfold n_effective. apply Rdiv_lt_0_compat; [|lra].
  replace (mc_sumw ps ^ 2) with (Rsqr (mc_sumw ps)) by (unfold Rsqr; ring).
  apply Rsqr_pos_lt; auto.
Qed.

Lemma mc_variance_nonneg ps : (forall p, In p ps -> 0 <= p_sumw2 p) -> 0 <= mc_variance ps.
Proof.
  unfold mc_variance. induction ps; simpl; intros H; [lra|].
  pose proof (H a (or_introl eq_refl)).
  assert (0 <= sum_mcstat true p_sumw2 ps) by auto. destruct (Req_EM_T (p_sumw2 a) 0); lra.
Qed.

Lemma minimises_ext {A} (D D' : A -> Prop) (f f' : A -> R) x :
  (forall y, D y <-> D' y) -> (forall y, f y = f' y) -> minimises D f x -> minimises D' f' x.
Proof.
  intros HD Hf [H1 H2]. split. { apply HD; auto. }
  intros y Hy. rewrite <- !Hf. apply H2. apply HD; auto.
Qed.

Theorem lite_profile_minimises l t ps minstat nobs var beta0 :
  (forall p, In p ps -> 0 <= p_sumw2 p) ->
  usable minstat ps -> 0 < yield_mc ps -> good_inputs l t ps nobs var beta0 ->
  minimises (admissible l t ps nobs beta0) (objective l t ps nobs var beta0)
    (profile_lite l t (lite_info (map raw ps) minstat) (map lp ps) nobs var beta0).
Proof.
  intros Hnn Hu Hn (G1 & G2 & G3).
  pose proof (mc_variance_nonneg ps Hnn) as Hv.
  pose proof (n_effective_pos _ _ Hu Hv) as Hk.
  assert (Hv' : 0 < mc_variance ps) by (destruct Hu as (H&_); lra).
  assert (Hs : 0 < sqrt (mc_variance ps)) by (apply sqrt_lt_R0; auto).
  assert (Hss : sqrt (mc_variance ps) * sqrt (mc_variance ps) = mc_variance ps) by (apply sqrt_sqrt; lra).
  unfold profile_lite. rewrite n_active_spec, n_zero_var_spec, nexp_spec, varbeta_spec.
  rewrite (safe_pos_id _ Hn), (kstat_spec _ _ Hu).
  rewrite (proj2 (mask_spec ps minstat) Hu).
  set (n := yield_mc ps) in *. set (z := yield_exact ps) in *. set (k := n_effective ps) in *.
  set (s := sqrt (mc_variance ps)) in *.
  unfold admissible, objective, expectation. fold n z s k.
  destruct l, t; simpl in G1, G2, G3; unfold dev, dev_dom, constraint, constraint_dom.
  - eapply minimises_ext; [| |apply (poisson_gamma_min k n z nobs beta0); auto];
      intros y; simpl; replace (n*y+z) with (z+n*y) by ring; tauto.
  - eapply minimises_ext; [| |apply (poisson_gauss_min k n z nobs beta0); auto];
      intros y; simpl; replace (n*y+z) with (z+n*y) by ring; tauto.
  - rewrite Reqb_false by lra.
    pose proof (poisson_gauss_min 1 s (z+n) nobs beta0 Rlt_0_1 Hs G1) as H.
    unfold q_nm in H.
    replace (1*s) with s in H by ring.
    replace (s*s - 1*beta0*s + 1*(z+n)) with (mc_variance ps + (z+n) - s*beta0) in H
      by (rewrite <- Hss; ring).
    replace (s*(z+n-nobs) - 1*beta0*(z+n)) with (s*(z+n-nobs) - (z+n)*beta0) in H by ring.
    eapply minimises_ext; [| |exact H]; intros y; simpl; replace (s*y+(z+n)) with (z+n+s*y) by ring; tauto.
  - pose proof (chisq_gamma_min k n z nobs var beta0 Hk Hn G1 G2) as H. unfold q_cg in H.
    eapply minimises_ext; [| |exact H]; intros y; simpl; replace (n*y+z) with (z+n*y) by ring; tauto.
  - set (x := ((nobs - z)*n/var + k*beta0)/(k + n*n/var)).
    assert (0 < n*n/var) by (apply Rdiv_lt_0_compat; nra).
    assert (Hx: x*(k+n*n/var) = (nobs-z)*n/var + k*beta0).
    { unfold x. unfold Rdiv at 1. rewrite Rmult_assoc, Rinv_l by lra. ring. }
    pose proof (chisq_gauss_min k n z nobs var beta0 x Hk G1 Hx) as H0.
    eapply minimises_ext; [| |exact H0]; intros y; simpl; replace (n*y+z) with (z+n*y) by ring; tauto.
  - set (x := (s*(nobs-(z+n)) + var*beta0)/(var + mc_variance ps)).
    assert (Hx: x*(1+s*s/var) = (nobs-(z+n))*s/var + 1*beta0).
    { unfold x. rewrite Hss. field. split; lra. }
    pose proof (chisq_gauss_min 1 s (z+n) nobs var beta0 x Rlt_0_1 G1 Hx) as H.
    eapply minimises_ext; [| |exact H]; intros y; simpl; replace (s*y+(z+n)) with (z+n+s*y) by ring; tauto.
Qed.

Lemma apply_lite_mult_sum bi ps b : bi_mask bi = false ->
  sumR (map (fun p : lite_proc => snd p * (if fst p || bi_mask bi then 1 else b)) (map lp ps))
  = yield_exact ps + yield_mc ps * b.
Proof.
  intros Hm. rewrite Hm. unfold yield_exact, yield_mc. induction ps; simpl; [ring|].
  rewrite IHps. rewrite zero_var_spec. destruct (Req_EM_T (p_sumw2 a) 0); simpl; ring.
Qed.

Lemma apply_lite_masked_sum bi ps b : bi_mask bi = true ->
  sumR (map (fun p : lite_proc => snd p * (if fst p || bi_mask bi then 1 else b)) (map lp ps))
  = yield_exact ps + yield_mc ps.
Proof.
  intros Hm. rewrite Hm. unfold yield_exact, yield_mc. induction ps; simpl; [ring|].
  rewrite IHps. rewrite orb_true_r. destruct (Req_EM_T (p_sumw2 a) 0); ring.
Qed.

Lemma apply_lite_add_sum ps c : 0 < yield_mc ps ->
  sumR (map (fun p : lite_proc => snd p + c * (if fst p then 0 else snd p) / safe_pos (n_active (map lp ps))) (map lp ps))
  = yield_exact ps + yield_mc ps + c.
Proof.
  intros Hn. rewrite n_active_spec, safe_pos_id by auto.
  rewrite (sumR_map_ext _ (fun p : lite_proc => snd p + (c / yield_mc ps) * (if fst p then 0 else snd p))).
  2:{ intros x _. field. lra. }
  rewrite sumR_map_plus, sumR_map_scal.
  change (sumR (map snd (map lp ps))) with (nexp_of (map lp ps)).
  change (sumR (map (fun p : lite_proc => if fst p then 0 else snd p) (map lp ps))) with (n_active (map lp ps)).
  rewrite nexp_spec, n_active_spec. field. lra.
Qed.

Lemma ln_bin_dev l nobs var y : (l = Chisq -> 0 < var) -> 0 <= nobs \/ l = Chisq ->
  dev_dom l nobs y -> ln_bin l nobs var y = dev l var nobs y.
Proof.
  intros Hvar Hn Hd. destruct l; simpl in *.
  - destruct Hn as [Hn|]; [|discriminate]. destruct Hd as [Hd Hd'].
    unfold poisson_dev, lognobs_of, Reqb. destruct (Req_EM_T nobs 0) as [->|Hne].
    + lra.
    + specialize (Hd' Hne). rewrite ln_div' by lra. ring.
  - unfold chisq_dev. specialize (Hvar eq_refl). field. lra.
Qed.

Lemma lbeta_constraint t bi b0 b : bi_mask bi = false -> (t = Gamma -> 0 <= b0) ->
  constraint_dom t b0 b -> lbeta_bin t bi b0 b = constraint t (bi_kstat bi) b0 b.
Proof.
  intros Hm H0 Hd. destruct t; simpl in *.
  - unfold gamma_constraint, logbeta0_of, Reqb. destruct Hd as [Hd Hd'].
    destruct (Req_EM_T b0 0) as [->|Hne]; [ring|].
    specialize (Hd' Hne). specialize (H0 eq_refl). rewrite ln_div' by lra. ring.
  - rewrite Hm. unfold gauss_constraint. field.
  - unfold gauss_constraint. field.
Qed.

Theorem lite_loss_is_objective l t ps minstat nobs var beta0 beta :
  usable minstat ps -> 0 < yield_mc ps -> good_inputs l t ps nobs var beta0 ->
  admissible l t ps nobs beta0 beta ->
  loss_lite l t (lite_info (map raw ps) minstat) (map lp ps) nobs var beta0 beta
  = objective l t ps nobs var beta0 beta.
Proof.
  intros Hu Hn (G1 & G2 & G3) [Ha1 Ha2].
  unfold loss_lite, objective.
  pose proof (proj2 (mask_spec ps minstat) Hu) as Hm.
  rewrite lbeta_constraint; auto.
  2:{ intros ->; auto. }
  rewrite kstat_spec by auto. f_equal.
  assert (E: sumR (apply_lite t (lite_info (map raw ps) minstat) (map lp ps) beta) = expectation t ps beta).
  { unfold apply_lite, expectation. destruct t.
    - apply apply_lite_mult_sum; auto.
    - apply apply_lite_mult_sum; auto.
    - rewrite varbeta_spec. apply apply_lite_add_sum; auto. }
  rewrite E. apply ln_bin_dev; auto.
  - intros ->; auto.
  - destruct l; auto.
Qed.

Theorem lite_masked_default l t ps minstat nobs var beta0 :
  t <> NormalAdd -> ~ usable minstat ps ->
  let bi := lite_info (map raw ps) minstat in
  profile_lite l t bi (map lp ps) nobs var beta0 = beta0 /\
  (forall beta, sumR (apply_lite t bi (map lp ps) beta) = yield_exact ps + yield_mc ps) /\
  lbeta_bin t bi beta0 beta0 = 0.
Proof.
  intros Ht Hu bi.
  assert (Hm: bi_mask bi = true).
  { destruct (bi_mask bi) eqn:E; auto. exfalso. apply Hu. apply (mask_spec ps minstat). auto. }
  split; [|split].
  - unfold profile_lite. destruct l, t; try rewrite Hm; auto; congruence.
  - intros b. unfold apply_lite. destruct t; try (apply apply_lite_masked_sum; auto); congruence.
  - unfold lbeta_bin. destruct t; [| rewrite Hm; auto | congruence].
    unfold logbeta0_of. ring.
Qed.

Theorem lite_additive_default l ps minstat nobs var beta0 :
  0 < var -> mc_variance ps = 0 ->
  profile_lite l NormalAdd (lite_info (map raw ps) minstat) (map lp ps) nobs var beta0 = beta0.
Proof.
  intros Hv H0. unfold profile_lite. rewrite varbeta_spec, H0. rewrite sqrt_0. destruct l.
  - rewrite Reqb_true by auto. auto.
  - field. lra.
Qed.
