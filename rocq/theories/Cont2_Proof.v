From Coq Require Import Reals List Arith Bool String Lra Lia.
From Verif Require Import RBase ListUtil PyList Mat_Model Mat_Proof Contour_Model Contour_Spec Contour_Proof Cont2_Model Cont2_Spec.
Import ListNotations.
Open Scope R_scope.

(** ** answers *)
Lemma set_at_length v : forall l i, List.length (set_at i v l) = List.length l.
Proof. induction l as [|x l IH]; intros [|i]; cbn [set_at List.length]; auto. Qed.
Lemma set_at_nth v : forall l i k, (k < List.length l)%nat -> nth k (set_at i v l) 0 = if Nat.eqb k i then v else nth k l 0.
Proof. induction l as [|x l IH]; intros [|i] [|k] H; cbn [set_at List.length nth Nat.eqb] in *; try lia; auto. apply IH. lia. Qed.
Lemma zeros_nth l k : nth k (zeros_like l) 0 = 0.
Proof. unfold zeros_like. revert k. induction l as [|x l IH]; intros [|k]; cbn [map nth]; auto. Qed.
Lemma two_at (x : list R) a b va vb : a <> b -> List.length (set_at b vb (set_at a va (zeros_like x))) = List.length x /\
  forall i, (i < List.length x)%nat -> nth i (set_at b vb (set_at a va (zeros_like x))) 0 = if Nat.eqb i a then va else if Nat.eqb i b then vb else 0.
Proof.
  intros N. assert (Z : List.length (zeros_like x) = List.length x) by (unfold zeros_like; rewrite map_length; auto).
  split; [rewrite !set_at_length; auto|]. intros i Hi. rewrite !set_at_nth, zeros_nth by (rewrite ?set_at_length; lia).
  destruct (Nat.eqb_spec i b), (Nat.eqb_spec i a); auto; lia.
Qed.
Lemma serve2_ok L nll cl c a b t qu st : a <> b -> answer2 L (nll + / 2 * (cl * cl)) c a b t qu (fst (serve2 L nll cl c a b t qu st)).
Proof.
  intros N. destruct qu as [x|x|x|x|x|x|x v]; cbn [serve2 fst answer2].
  - ring.
  - reflexivity.
  - reflexivity.
  - apply two_at; auto.
  - unfold objective2, dist2, dxy, coord. ring.
  - destruct (two_at x a b (-2 * dxy c x a) (-2 * dxy c x b) N) as (H1 & H2). split; auto. intros i Hi. unfold objective2_jac. rewrite H2 by auto. unfold dxy. destruct (Nat.eqb i a), (Nat.eqb i b); ring.
  - destruct (two_at v a b (-2 * nth a v 0) (-2 * nth b v 0) N) as (H1 & H2). split; auto. intros i Hi. unfold objective2_hessp. rewrite H2 by auto. destruct (Nat.eqb i a), (Nat.eqb i b); ring.
Qed.
Lemma minimize2_ok L nll cl c a b t : a <> b -> forall s st ok x st', minimize2 (serve2 L nll cl c a b t) s st = (ok, x, st') ->
  truthful2 (answer2 L (nll + / 2 * (cl * cl)) c a b t) s ok x.
Proof.
  intros N. induction s as [ok0 x0|qu k IH]; intros st ok x st' E; cbn [minimize2] in E.
  - injection E as <- <- _. constructor.
  - assert (A := serve2_ok L nll cl c a b t qu st N). destruct (serve2 L nll cl c a b t qu st) as (r, st1). econstructor; [exact A|]. eapply IH; eauto.
Qed.
Lemma scan_angles_ok L nll cl c a b opt : a <> b -> forall ts, exists es, scan_angles L nll cl c a b opt ts c = (es, c) /\
  Forall2 (fun t e => entry2 L (nll + / 2 * (cl * cl)) c a b t (opt c) e) ts es.
Proof.
  intros N. induction ts as [|t r (es & E & F)]; cbn [scan_angles]; [exists []; split; auto|].
  destruct (minimize2 _ (opt c) c) as [[ok rx] st] eqn:M. rewrite E. eexists. split; [reflexivity|]. constructor; auto. exists ok, rx. split; auto. eapply minimize2_ok; eauto.
Qed.
Lemma find_param_In p parms : In p parms -> exists i, find_param p parms = Some i /\ nth_error parms i = Some p.
Proof. intros H. assert (S := find_param_spec p parms). destruct (find_param p parms) as [i|]; [exists i; split; auto; apply S|contradiction]. Qed.
Lemma scan_ok L parms p q nll cl n opt x : In p parms -> In q parms -> p <> q ->
  exists a b es, contour_scan2D L parms (p, q) nll cl n opt x = Ok (es, x) /\ nth_error parms a = Some p /\ nth_error parms b = Some q /\ List.length es = n /\
    forall i, (i < n)%nat -> entry2 L (nll + / 2 * cl ^ 2) x a b (2 * PI * (INR i / INR n)) (opt x) (nth i es None).
Proof.
  intros Hp Hq N. destruct (find_param_In p parms Hp) as (a & Ea & Na), (find_param_In q parms Hq) as (b & Eb & Nb). unfold contour_scan2D. cbn [fst snd]. rewrite Ea, Eb.
  assert (AB : a <> b) by congruence. destruct (scan_angles_ok L nll cl x a b opt AB (angles n)) as (es & E & F). rewrite E.
  assert (LE : List.length es = n) by (rewrite <- (ListUtil.Forall2_len _ _ _ F); unfold angles; rewrite map_length, seq_length; auto).
  exists a, b, es. repeat split; auto. intros i Hi. replace (cl ^ 2) with (cl * cl) by ring.
  assert (G : forall (ts : list R) (es : list (option (R * R))), Forall2 (fun t e => entry2 L (nll + / 2 * (cl * cl)) x a b t (opt x) e) ts es -> forall i, (i < List.length ts)%nat ->
    entry2 L (nll + / 2 * (cl * cl)) x a b (nth i ts 0) (opt x) (nth i es None)).
  { induction 1 as [|t e ts' es' H1 H2 IH]; intros [|k] Hk; cbn [List.length nth] in *; try lia; auto. apply IH. lia. }
  replace (2 * PI * (INR i / INR n)) with (nth i (angles n) 0); [apply G; auto; unfold angles; rewrite map_length, seq_length; auto|].
  unfold angles. rewrite nth_map_seq by auto. unfold Rdiv. ring.
Qed.
Lemma scan_unknown L parms p q nll cl n opt x : ~ In p parms \/ ~ In q parms -> contour_scan2D L parms (p, q) nll cl n opt x = Raise IndexError.
Proof.
  intros H. unfold contour_scan2D. cbn [fst snd]. assert (S1 := find_param_spec p parms). assert (S2 := find_param_spec q parms).
  destruct (find_param p parms) as [i|]; auto. destruct (find_param q parms) as [k|]; auto. destruct S1 as (S1 & _), S2 as (S2 & _).
  apply nth_error_In in S1. apply nth_error_In in S2. tauto.
Qed.
Lemma at_two_det (x g g' : list R) (va vb : R) a b :
  List.length g = List.length x /\ (forall i, (i < List.length x)%nat -> nth i g 0 = if Nat.eqb i a then va else if Nat.eqb i b then vb else 0) ->
  List.length g' = List.length x /\ (forall i, (i < List.length x)%nat -> nth i g' 0 = if Nat.eqb i a then va else if Nat.eqb i b then vb else 0) -> g = g'.
Proof. intros (L1 & H1) (L2 & H2). apply (nth_ext _ _ 0 0); [congruence|]. intros i Hi. rewrite H1, H2 by congruence. auto. Qed.
Lemma answer2_det L level c a b t qu r r' : answer2 L level c a b t qu r -> answer2 L level c a b t qu r' -> r = r'.
Proof.
  destruct qu, r, r'; cbn [answer2]; intros A B; try contradiction; try congruence.
  all: f_equal; eapply at_two_det; eauto.
Qed.
Lemma entry2_det L level c a b t s e e' : entry2 L level c a b t s e -> entry2 L level c a b t s e' -> e = e'.
Proof.
  intros (ok & x & T & ->) (ok' & x' & T' & ->).
  assert (D : ok = ok' /\ x = x').
  { revert ok' x' T'. induction T as [ok x|qu k r ok x A T IH]; intros ok' x' T'; inversion T' as [|? ? r' ? ? A' T'']; subst; auto.
    assert (r = r') by (eapply answer2_det; eauto). subst. apply IH. auto. }
  destruct D as (-> & ->). auto.
Qed.

(** ** derivatives *)
Lemma moved_length x v s : List.length (moved x v s) = List.length x.
Proof. unfold moved. rewrite map_length, seq_length. auto. Qed.
Lemma moved_nth x v s i : (i < List.length x)%nat -> nth i (moved x v s) 0 = nth i x 0 + s * nth i v 0.
Proof. intros H. unfold moved. rewrite nth_map_seq by auto. auto. Qed.
Lemma dot_two (x v g : list R) va vb a b : a <> b -> (a < List.length x)%nat -> (b < List.length x)%nat ->
  (forall i, (i < List.length x)%nat -> nth i g 0 = if Nat.eqb i a then va else if Nat.eqb i b then vb else 0) ->
  dotl (List.length x) g v = va * nth a v 0 + vb * nth b v 0.
Proof.
  intros N Ha Hb H. unfold dotl. rewrite (sm_ext _ _ (fun i => (va * nth i v 0) * delta i a + (vb * nth i v 0) * delta i b)).
  - rewrite sm_plus, !sm_delta' by auto. reflexivity.
  - intros i Hi. rewrite H by auto. unfold delta. destruct (Nat.eqb_spec i a), (Nat.eqb_spec i b); try lia; ring.
Qed.
Lemma quad_deriv k0 k1 k2 : derivable_pt_lim (fun s => k0 + k1 * s + k2 * (s * s)) 0 k1.
Proof.
  assert (D := derivable_pt_lim_plus (fun s => k0 + k1 * s) (fun s => k2 * (s * s)) 0 (0 + k1 * 1) (k2 * (1 * 0 + 0 * 1))).
  replace (0 + k1 * 1 + k2 * (1 * 0 + 0 * 1)) with k1 in D by ring. apply D.
  - apply (derivable_pt_lim_plus (fun _ => k0) (fun s => k1 * s)); [apply derivable_pt_lim_const|apply (derivable_pt_lim_scal id), derivable_pt_lim_id].
  - apply (derivable_pt_lim_scal (fun s => s * s)). apply (derivable_pt_lim_mult id id); apply derivable_pt_lim_id.
Qed.
Lemma deriv_ext f g l : (forall s, f s = g s) -> derivable_pt_lim f 0 l -> derivable_pt_lim g 0 l.
Proof. intros E D eps He. destruct (D eps He) as (d & H). exists d. intros h H1 H2. rewrite <- !E. auto. Qed.
Section Deriv.
  Variables (c : list R) (a b : nat) (t : R) (x v : list R).
  Hypothesis (N : a <> b) (Ha : (a < List.length x)%nat) (Hb : (b < List.length x)%nat).
  Lemma obj_gradient : derivable_pt_lim (fun s => objective2 c a b (moved x v s)) 0 (dotl (List.length x) (objective2_jac c a b x) v).
  Proof.
    rewrite (dot_two x v _ (-2 * dxy c x a) (-2 * dxy c x b) a b) by (auto; apply two_at; auto).
    eapply deriv_ext; [|apply (quad_deriv (objective2 c a b x) _ (- (nth a v 0 * nth a v 0 + nth b v 0 * nth b v 0)))].
    intros s. unfold objective2, dxy. rewrite !moved_nth by auto. ring.
  Qed.
  Lemma obj_hessian i : (i < List.length x)%nat -> List.length v = List.length x ->
    derivable_pt_lim (fun s => nth i (objective2_jac c a b (moved x v s)) 0) 0 (nth i (objective2_hessp a b v) 0).
  Proof.
    intros Hi Lv. destruct (two_at v a b (-2 * nth a v 0) (-2 * nth b v 0) N) as (_ & V). unfold objective2_hessp. rewrite V by lia.
    eapply deriv_ext; [|apply (quad_deriv (nth i (objective2_jac c a b x) 0) _ 0)]. intros s.
    destruct (two_at (moved x v s) a b (-2 * dxy c (moved x v s) a) (-2 * dxy c (moved x v s) b) N) as (_ & M). unfold objective2_jac at 2. rewrite M by (rewrite moved_length; auto).
    destruct (two_at x a b (-2 * dxy c x a) (-2 * dxy c x b) N) as (_ & X). unfold objective2_jac. rewrite X by auto. unfold dxy. rewrite !moved_nth by auto.
    destruct (Nat.eqb i a), (Nat.eqb i b); ring.
  Qed.
  Lemma ang_gradient : derivable_pt_lim (fun s => angle_con c a b t (moved x v s)) 0 (dotl (List.length x) (angle_jac a b t x) v).
  Proof.
    rewrite (dot_two x v _ (sin t) (- cos t) a b) by (auto; apply two_at; auto).
    eapply deriv_ext; [|apply (quad_deriv (angle_con c a b t x) _ 0)]. intros s. unfold angle_con, dxy. rewrite !moved_nth by auto. ring.
  Qed.
End Deriv.

(** ** the problem *)
Lemma cs1 t : cos t * cos t + sin t * sin t = 1.
Proof. assert (S := sin2_cos2 t). unfold Rsqr in S. lra. Qed.
Lemma line_iff c a b t x : angle_con c a b t x = 0 <-> on_line a b (coord c) t (coord x).
Proof.
  assert (S := cs1 t). unfold angle_con, dxy, on_line, coord. split.
  - intros E. exists ((nth a x 0 - nth a c 0) * cos t + (nth b x 0 - nth b c 0) * sin t). set (p := nth a x 0 - nth a c 0) in *. set (s := nth b x 0 - nth b c 0) in *. split.
    + assert (p = (p * cos t + s * sin t) * cos t); [|unfold p in *; lra].
      replace ((p * cos t + s * sin t) * cos t) with (p * (cos t * cos t + sin t * sin t) - sin t * (p * sin t - s * cos t)) by ring. rewrite S, E. ring.
    + assert (s = (p * cos t + s * sin t) * sin t); [|unfold s in *; lra].
      replace ((p * cos t + s * sin t) * sin t) with (s * (cos t * cos t + sin t * sin t) + cos t * (p * sin t - s * cos t)) by ring. rewrite S, E. ring.
  - intros (r & -> & ->). ring.
Qed.
Lemma line_opposite a b c t x : on_line a b c (t + PI) x <-> on_line a b c t x.
Proof. unfold on_line. rewrite neg_cos, neg_sin. split; intros (r & -> & ->); exists (- r); split; ring. Qed.
Lemma dist_line a b c t x r : x a = c a + r * cos t -> x b = c b + r * sin t -> dist2 a b c x = r * r.
Proof. intros A B. assert (S := cs1 t). unfold dist2. rewrite A, B. replace ((c a + r * cos t - c a) ^ 2 + (c b + r * sin t - c b) ^ 2) with (r * r * (cos t * cos t + sin t * sin t)) by ring. rewrite S. ring. Qed.
Lemma farthest2_profile (F : (nat -> R) -> Prop) (L : (nat -> R) -> R) level a b c t x : a <> b ->
  (forall y z, (forall i, y i = z i) -> L y = L z) -> (forall y s, F y -> F (shift a b t y s)) -> (forall y, F y -> continuity_pt (fun s => L (shift a b t y s)) 0) ->
  farthest2 F L level a b c t x -> L x = level /\ profile2_at F L a b (x a) (x b) level.
Proof.
  intros N EL SF CF (Fx & (r & Xa & Xb) & Lx & M).
  assert (K : forall y, F y -> y a = x a -> y b = x b -> level <= L y).
  { intros y Fy Ya Yb. apply Rnot_lt_le. intros LT. assert (E0 : L (shift a b t y 0) = L y).
    { apply EL. intros i. unfold shift. destruct (Nat.eqb_spec i a) as [->|]; [ring|]. destruct (Nat.eqb_spec i b) as [->|]; [ring|auto]. }
    destruct (CF y Fy (level - L y)) as (d & Hd & D); [lra|]. set (e := if Rle_dec 0 r then d / 2 else - (d / 2)).
    assert (He : e <> 0 /\ Rabs e < d) by (unfold e; destruct (Rle_dec 0 r); split; try lra; [rewrite Rabs_pos_eq|rewrite Rabs_Ropp, Rabs_pos_eq]; lra).
    assert (LE : L (shift a b t y e) <= level).
    { assert (Q := D e). cbn in Q. unfold R_dist in Q. rewrite E0 in Q. assert (Q' : Rabs (L (shift a b t y e) - L y) < level - L y).
      { apply Q. split; [split; [exact I|intros X; apply (proj1 He); auto]|]. replace (e - 0) with e by ring. apply He. }
      apply Rabs_def2 in Q'. lra. }
    assert (SA : shift a b t y e a = c a + (r + e) * cos t) by (unfold shift; rewrite Nat.eqb_refl, Ya, Xa; ring).
    assert (SB : shift a b t y e b = c b + (r + e) * sin t) by (unfold shift; rewrite (proj2 (Nat.eqb_neq b a)), Nat.eqb_refl, Yb, Xb by auto; ring).
    assert (Q := M _ (SF y e Fy) (ex_intro _ (r + e) (conj SA SB)) LE). rewrite (dist_line a b c t _ _ SA SB), (dist_line a b c t _ _ Xa Xb) in Q.
    assert (0 < e * e) by (destruct (Rtotal_order e 0) as [X|[X|X]]; [assert (Z := Rmult_lt_0_compat (- e) (- e)); lra|lra|apply Rmult_lt_0_compat; auto]).
    assert (0 <= r * e). { unfold e. destruct (Rle_dec 0 r); [apply Rmult_le_pos; lra|]. assert (Z := Rmult_le_pos (- r) (d / 2)). lra. }
    lra. }
  assert (LL : L x = level) by (assert (Z := K x Fx eq_refl eq_refl); lra).
  split; auto. split; [exists x; auto|]. intros y Fy Ya Yb. apply K; auto.
Qed.

(** ** Gaussian likelihood *)
Section Gauss.
  Variables (n : nat) (H C : nat -> nat -> R) (frozen : nat -> bool) (a b : nat).
  Hypothesis (FM : floating_min n H frozen) (FC : floating_cov n H frozen C) (Ha : (a < n)%nat) (Hb : (b < n)%nat) (Fa : frozen a = false) (Fb : frozen b = false) (N : a <> b).
  Lemma two_split z u v : floating_move n frozen z ->
    form n H (fun k => z k - u * C k a - v * C k b) = form n H z - 2 * u * z a - 2 * v * z b + u * u * C a a + 2 * u * v * C b a + v * v * C b b.
  Proof.
    intros Z. assert (M := col_move n H C frozen a FC Ha). assert (Z' : floating_move n frozen (fun k => z k - u * C k a)).
    { intros i Hi F. rewrite (Z i Hi F), (M i Hi F). ring. }
    rewrite (col_split n H C frozen b FM FC Hb Fb (fun k => z k - u * C k a) v Z'). rewrite (col_split n H C frozen a FM FC Ha Fa z u Z). ring.
  Qed.
  Lemma two_sym : C a b = C b a.
  Proof.
    assert (M := col_move n H C frozen b FC Hb). rewrite <- (col_dot n H C frozen b FC Hb Fb (fun k => C k a) (col_move n H C frozen a FC Ha)).
    rewrite <- (col_dot n H C frozen a FC Ha Fa (fun k => C k b) M). unfold mv. cbv beta.
    rewrite (sm_ext n (fun i => C i b * sm n (fun j => H i j * C j a)) (fun i => sm n (fun j => C i b * (H i j * C j a)))) by (intros; rewrite sm_scal; auto).
    rewrite sm_swap. apply sm_ext. intros i Hi. rewrite <- sm_scal. apply sm_ext. intros j Hj. rewrite (proj1 FM i j) by auto. ring.
  Qed.
  Lemma form_nonneg z : floating_move n frozen z -> 0 <= form n H z.
  Proof.
    intros Z. destruct (nonzero_dec n z) as [P|Q]; [apply Rlt_le, FM; auto|]. rewrite form_zero by auto. lra.
  Qed.
  Lemma ray_zero k w : (forall s, 0 <= k - 2 * s * w) -> w = 0.
  Proof.
    intros P. destruct (Req_dec w 0) as [|NW]; auto. exfalso. assert (Q := P ((k + 1) / (2 * w))).
    replace (2 * ((k + 1) / (2 * w)) * w) with (k + 1) in Q by (field; auto). lra.
  Qed.
  Lemma two_det : 0 < C a a * C b b - C b a * C b a.
  Proof.
    assert (P := col_pos n H C frozen a FM FC Ha Fa). pose (u := - C b a). pose (v := C a a). pose (z0 := fun _ : nat => 0).
    assert (Z0 : floating_move n frozen z0) by (intros i _ _; reflexivity).
    assert (E := two_split z0 u v Z0). assert (E' : form n H (fun k => z0 k - u * C k a - v * C k b) = C a a * (C a a * C b b - C b a * C b a)).
    { rewrite E. rewrite (form_zero n H z0) by (intros; reflexivity). unfold z0, u, v. ring. }
    assert (MV : forall s, floating_move n frozen (fun k => z0 k - s * u * C k a - s * v * C k b)).
    { intros s i Hi F. rewrite (col_move n H C frozen a FC Ha i Hi F), (col_move n H C frozen b FC Hb i Hi F). unfold z0. ring. }
    destruct (Req_dec (C a a * C b b - C b a * C b a) 0) as [Z|NZ].
    - exfalso. set (e := fun i => if Nat.eqb i b then 1 else 0). assert (Me : floating_move n frozen e).
      { intros i Hi F. unfold e. destruct (Nat.eqb_spec i b) as [->|]; auto. congruence. }
      assert (V0 : v = 0); [|unfold v in V0; lra]. apply (ray_zero (form n H e)). intros s. assert (T := two_split e (s * u) (s * v) Me).
      assert (e a = 0) by (unfold e; rewrite (proj2 (Nat.eqb_neq a b)); auto). assert (e b = 1) by (unfold e; rewrite Nat.eqb_refl; auto).
      assert (Q : 0 <= form n H (fun k => e k - s * u * C k a - s * v * C k b)).
      { apply form_nonneg. intros i Hi F. assert (X := MV s i Hi F). unfold z0 in X. rewrite (Me i Hi F). lra. }
      rewrite T, H0, H1 in Q. replace (s * u * (s * u) * C a a + 2 * (s * u) * (s * v) * C b a + s * v * (s * v) * C b b) with (s * s * C a a * (C a a * C b b - C b a * C b a)) in * by (unfold u, v; ring).
      assert (X : s * u * (s * u) * C a a + 2 * (s * u) * (s * v) * C b a + s * v * (s * v) * C b b = s * s * C a a * (C a a * C b b - C b a * C b a)) by (unfold u, v; ring).
      rewrite Z in X. lra.
    - assert (Q : 0 <= C a a * (C a a * C b b - C b a * C b a)). { rewrite <- E'. apply form_nonneg. intros i Hi F. assert (X := MV 1 i Hi F). lra. }
      apply Rnot_le_lt. intros LE. destruct LE as [LE|LE]; [|contradiction]. assert (0 < C a a * - (C a a * C b b - C b a * C b a)) by (apply Rmult_lt_0_compat; lra). lra.
  Qed.
  Let D := C a a * C b b - C a b ^ 2.
  Lemma D_pos : 0 < D.
  Proof. unfold D. assert (P := two_det). rewrite two_sym. replace (C b a ^ 2) with (C b a * C b a) by ring. auto. Qed.
  Let W (t : R) := inverse_width C a b t.
  (** the combination of the two columns with given moves of the two parameters *)
  Let U t := (C b b * cos t - C a b * sin t) / D.
  Let V t := (C a a * sin t - C a b * cos t) / D.
  Lemma UV t : U t * C a a + V t * C a b = cos t /\ U t * C b a + V t * C b b = sin t /\ U t * cos t + V t * sin t = W t.
  Proof. assert (P := D_pos). rewrite <- two_sym. unfold U, V, W, inverse_width. fold D. unfold D in *. repeat split; field; lra. Qed.
  Lemma UV_width t : U t * U t * C a a + 2 * U t * V t * C b a + V t * V t * C b b = W t.
  Proof.
    destruct (UV t) as (A & B & E). rewrite <- E, <- A at 1. rewrite <- B at 1. rewrite two_sym. ring.
  Qed.
  Lemma W_pos t : 0 < W t.
  Proof.
    assert (P := D_pos). assert (A := col_pos n H C frozen a FM FC Ha Fa). unfold W, inverse_width. fold D. apply Rdiv_lt_0_compat; auto.
    apply (Rmult_lt_reg_l (C a a)); auto. rewrite Rmult_0_r.
    replace (C a a * (C b b * cos t ^ 2 - 2 * C a b * cos t * sin t + C a a * sin t ^ 2)) with (D * (cos t * cos t) + (C a a * sin t - C a b * cos t) * (C a a * sin t - C a b * cos t)) by (unfold D; ring).
    assert (Q := Rle_0_sqr (C a a * sin t - C a b * cos t)). unfold Rsqr in Q. assert (Q2 := Rle_0_sqr (cos t)). unfold Rsqr in Q2.
    destruct (Req_dec (cos t) 0) as [Z|NZ].
    - rewrite Z in *. assert (S := cs1 t). rewrite Z in S. replace ((C a a * sin t - C a b * 0) * (C a a * sin t - C a b * 0)) with (C a a * C a a * (sin t * sin t)) by ring.
      replace (sin t * sin t) with 1 by lra. assert (0 < C a a * C a a) by (apply Rmult_lt_0_compat; auto). lra.
    - assert (0 < cos t * cos t) by (assert (X := Rsqr_pos_lt _ NZ); exact X). assert (0 < D * (cos t * cos t)) by (apply Rmult_lt_0_compat; auto). lra.
  Qed.
  (** on the line at distance r the form is at least r^2 W, and there is a point where it is that *)
  Lemma form_line z t r : floating_move n frozen z -> z a = r * cos t -> z b = r * sin t -> r * r * W t <= form n H z.
  Proof.
    intros Z A B. assert (T := two_split z (r * U t) (r * V t) Z).
    assert (Q : 0 <= form n H (fun k => z k - r * U t * C k a - r * V t * C k b)).
    { apply form_nonneg. intros i Hi F. rewrite (Z i Hi F), (col_move n H C frozen a FC Ha i Hi F), (col_move n H C frozen b FC Hb i Hi F). ring. }
    rewrite T, A, B in Q. destruct (UV t) as (_ & _ & E). assert (E2 := UV_width t).
    replace (2 * (r * U t) * (r * cos t)) with (2 * (r * r) * (U t * cos t)) in Q by ring. replace (2 * (r * V t) * (r * sin t)) with (2 * (r * r) * (V t * sin t)) in Q by ring.
    replace (r * U t * (r * U t) * C a a) with (r * r * (U t * U t * C a a)) in Q by ring. replace (2 * (r * U t) * (r * V t) * C b a) with (r * r * (2 * U t * V t * C b a)) in Q by ring.
    replace (r * V t * (r * V t) * C b b) with (r * r * (V t * V t * C b b)) in Q by ring.
    assert (r * r * W t = r * r * (U t * cos t) + r * r * (V t * sin t)) by (rewrite <- E; ring).
    assert (r * r * W t = r * r * (U t * U t * C a a) + r * r * (2 * U t * V t * C b a) + r * r * (V t * V t * C b b)) by (rewrite <- E2; ring). lra.
  Qed.
  Lemma line_point t r : exists z, floating_move n frozen z /\ z a = r * cos t /\ z b = r * sin t /\ form n H z = r * r * W t.
  Proof.
    exists (fun k => 0 - - (r * U t) * C k a - - (r * V t) * C k b). assert (M : floating_move n frozen (fun k => 0 - - (r * U t) * C k a - - (r * V t) * C k b)).
    { intros i Hi F. rewrite (col_move n H C frozen a FC Ha i Hi F), (col_move n H C frozen b FC Hb i Hi F). ring. }
    destruct (UV t) as (A & B & _). split; auto. split; [rewrite <- A; ring|]. split; [rewrite <- B; ring|].
    rewrite (two_split (fun _ => 0) (- (r * U t)) (- (r * V t))) by (intros i _ _; reflexivity). rewrite form_zero by auto. rewrite <- (UV_width t). ring.
  Qed.
End Gauss.
Lemma gaussian2 L H C frozen q a b t xval : gaussian L H xval -> floating_min (List.length xval) H frozen -> floating_cov (List.length xval) H frozen C ->
  (a < List.length xval)%nat -> (b < List.length xval)%nat -> a <> b -> frozen a = false -> frozen b = false -> 0 <= q ->
  let far := farthest2 (fun x => floating_move (List.length xval) frozen (fun i => x i - nth i xval 0)) (fun x => cl_loss L (listed (List.length xval) x)) (cl_loss L xval + / 2 * q) a b (coord xval) t in
  let r := sqrt (q / inverse_width C a b t) in
  0 < inverse_width C a b t /\
  (forall x, far x -> exists s, (s = 1 \/ s = -1) /\ x a = nth a xval 0 + s * r * cos t /\ x b = nth b xval 0 + s * r * sin t) /\
  forall s, s = 1 \/ s = -1 -> exists x, far x /\ x a = nth a xval 0 + s * r * cos t /\ x b = nth b xval 0 + s * r * sin t.
Proof.
  intros G FM FC Ha Hb N Fa Fb Hq far r. set (n := List.length xval) in *. assert (WP := W_pos n H C frozen a b FM FC Ha Hb Fa Fb N t). cbv beta in WP.
  set (w := inverse_width C a b t) in *. split; auto.
  assert (LL : forall x : nat -> R, cl_loss L (listed n x) = cl_loss L xval + / 2 * form n H (fun i => x i - nth i xval 0)).
  { intros x. rewrite G by (unfold listed; rewrite map_length, seq_length; auto). fold n. f_equal. f_equal. apply form_ext. intros i Hi. unfold listed. rewrite nth_map_seq by auto. auto. }
  assert (QW : 0 <= q / w) by (apply Rmult_le_pos; auto; apply Rlt_le, Rinv_0_lt_compat; auto). assert (R2 : r * r = q / w) by (apply sqrt_sqrt; auto). assert (Rp : 0 <= r) by apply sqrt_pos.
  assert (B : forall y, floating_move n frozen (fun i => y i - nth i xval 0) -> cl_loss L (listed n y) <= cl_loss L xval + / 2 * q -> forall rho, y a = nth a xval 0 + rho * cos t -> y b = nth b xval 0 + rho * sin t -> rho * rho <= r * r).
  { intros y My Ly rho Ya Yb. rewrite LL in Ly. assert (E := form_line n H C frozen a b FM FC Ha Hb Fa Fb N _ t rho My ltac:(cbv beta; lra) ltac:(cbv beta; lra)). cbv beta in E. fold w in E.
    rewrite R2. apply (Rmult_le_reg_r w); auto. replace (q / w * w) with q by (field; lra). lra. }
  assert (X : forall s, s = 1 \/ s = -1 -> exists x, far x /\ x a = nth a xval 0 + s * r * cos t /\ x b = nth b xval 0 + s * r * sin t).
  { intros s Hs. destruct (line_point n H C frozen a b FM FC Ha Hb Fa Fb N t (s * r)) as (z & Mz & Za & Zb & Fz). cbv beta in Fz. fold w in Fz. exists (fun k => nth k xval 0 + z k).
    assert (S2 : s * r * (s * r) = r * r) by (destruct Hs as [->| ->]; ring).
    split; [|split; lra]. split; [|split; [|split]].
    - intros i Hi F. assert (Q := Mz i Hi F). lra.
    - exists (s * r). unfold coord. split; lra.
    - rewrite LL. rewrite (form_ext n H _ z) by (intros; ring). rewrite Fz, S2, R2. replace (q / w * w) with q by (field; lra). lra.
    - intros y My (rho & Ya & Yb) Ly. rewrite (dist_line a b (coord xval) t y rho Ya Yb).
      rewrite (dist_line a b (coord xval) t _ (s * r)) by (unfold coord; lra). rewrite S2. eapply B; eauto. }
  split; auto. intros x (Mx & (rho & Xa & Xb) & Lx & Max). destruct (X 1 (or_introl eq_refl)) as (x1 & (M1 & _ & L1 & _) & A1 & B1).
  assert (D := Max x1 M1 (ex_intro _ (1 * r) (conj A1 B1)) L1). rewrite (dist_line a b (coord xval) t x1 (1 * r) A1 B1), (dist_line a b (coord xval) t x rho Xa Xb) in D.
  assert (D2 := B x Mx Lx rho Xa Xb). assert (E : (rho - r) * (rho + r) = 0) by lra. apply Rmult_integral in E. unfold coord in *. destruct E as [E|E].
  - exists 1. split; auto. replace rho with r in * by lra. split; lra.
  - exists (-1). split; auto. replace rho with (- r) in * by lra. split; lra.
Qed.

(** ** histogram *)
Lemma edge_val n i : (n <> 0)%nat -> angle_edge n i = (2 * INR i - 1) * (PI / INR n).
Proof. intros N. assert (INR n <> 0) by (apply not_0_INR; auto). unfold angle_edge, regular_edge. field. auto. Qed.
