(** The interpolation weight is odd, bounded, monotone and twice continuously differentiable. *)
From Coq Require Import List Arith Bool Reals Lra Lia.
From Verif Require Import RBase Yields_Spec.
Local Open Scope R_scope.

Definition poly (x : R) : R := (15 * (2 * x) - 10 * (2 * x)^3 + 3 * (2 * x)^5) / 8.
Definition poly1 (x : R) : R := 15/4 * (1 - 4 * x^2)^2.
Definition poly2 (x : R) : R := -60 * x * (1 - 4 * x^2).
(** f between -1/2 and 1/2, constants outside *)
Definition clamp (lo hi : R) (f : R -> R) (x : R) : R :=
  if Rleb (1/2) x then hi else if Rleb x (-1/2) then lo else f x.

Lemma switch_clamp x : switch x = clamp (-1) 1 poly x.
Proof. reflexivity. Qed.

Lemma poly_d x : derivable_pt_lim poly x (poly1 x).
Proof.
  assert (E : poly1 x = (15 * 2 - 10 * (3 * (2 * x)^2 * 2) + 3 * (5 * (2 * x)^4 * 2)) / 8) by (unfold poly1; field).
  rewrite E. clear E.
  assert (D2 : derivable_pt_lim (fun y => 2 * y) x 2).
  { pose proof (derivable_pt_lim_scal id 2 x 1 (derivable_pt_lim_id x)) as X. rewrite Rmult_1_r in X. exact X. }
  assert (DP : forall n, derivable_pt_lim (fun y => (2 * y)^n) x (INR n * (2*x)^(pred n) * 2)).
  { intros n. apply (derivable_pt_lim_comp (fun y => 2 * y) (fun y => y^n) x 2 (INR n * (2*x)^(pred n))); auto.
    apply derivable_pt_lim_pow. }
  unfold poly.
  assert (A : derivable_pt_lim (fun y => 15 * (2*y) - 10 * (2*y)^3 + 3 * (2*y)^5) x
     (15 * 2 - 10 * (3 * (2*x)^2 * 2) + 3 * (5 * (2*x)^4 * 2))).
  { apply (derivable_pt_lim_plus (fun y => 15 * (2*y) - 10 * (2*y)^3) (fun y => 3 * (2*y)^5)).
    - apply (derivable_pt_lim_minus (fun y => 15 * (2*y)) (fun y => 10 * (2*y)^3)).
      + apply (derivable_pt_lim_scal (fun y => 2 * y)). auto.
      + apply (derivable_pt_lim_scal (fun y => (2*y)^3)). specialize (DP 3%nat). simpl INR in DP. simpl pred in DP.
        replace (3 * (2*x)^2 * 2) with ((1 + 1 + 1) * (2*x)^2 * 2) by ring. auto.
    - apply (derivable_pt_lim_scal (fun y => (2*y)^5)). specialize (DP 5%nat). simpl INR in DP. simpl pred in DP.
      replace (5 * (2*x)^4 * 2) with ((1 + 1 + 1 + 1 + 1) * (2*x)^4 * 2) by ring. auto. }
  unfold Rdiv. rewrite Rmult_comm.
  apply (derivable_pt_lim_ext (fun y => / 8 * (15 * (2*y) - 10 * (2*y)^3 + 3 * (2*y)^5))).
  { intros y. ring. }
  apply (derivable_pt_lim_scal (fun y => 15 * (2*y) - 10 * (2*y)^3 + 3 * (2*y)^5)). auto.
Qed.
Lemma poly1_d x : derivable_pt_lim poly1 x (poly2 x).
Proof.
  apply (derivable_pt_lim_ext (fun y => 15/4 * (1 - 8 * y^2 + 16 * y^4))).
  { intros y. unfold poly1. ring. }
  replace (poly2 x) with (15/4 * (0 - 8 * (2 * x) + 16 * (4 * x^3))) by (unfold poly2; field).
  apply (derivable_pt_lim_scal (fun y => 1 - 8 * y^2 + 16 * y^4)).
  apply (derivable_pt_lim_plus (fun y => 1 - 8 * y^2) (fun y => 16 * y^4)).
  - apply (derivable_pt_lim_minus (fun _ => 1) (fun y => 8 * y^2)).
    + apply derivable_pt_lim_const.
    + apply (derivable_pt_lim_scal (fun y => y^2)). pose proof (derivable_pt_lim_pow x 2) as D. simpl INR in D. simpl pred in D.
      replace (2 * x) with ((1 + 1) * x^1) by ring. auto.
  - apply (derivable_pt_lim_scal (fun y => y^4)). pose proof (derivable_pt_lim_pow x 4) as D. simpl INR in D. simpl pred in D.
    replace (4 * x^3) with ((1 + 1 + 1 + 1) * x^3) by ring. auto.
Qed.

(** locality and gluing *)
Lemma d_local f g x l r : 0 < r -> (forall y, Rabs (y - x) < r -> f y = g y) ->
  derivable_pt_lim g x l -> derivable_pt_lim f x l.
Proof.
  intros Hr E D eps He. destruct (D eps He) as [d Hd].
  assert (Hm : 0 < Rmin d r) by (apply Rmin_pos; auto; apply cond_pos).
  exists (mkposreal _ Hm). intros h h0 Hh. simpl in Hh.
  pose proof (Rmin_l d r). pose proof (Rmin_r d r).
  rewrite !E. - apply Hd; auto. lra. - rewrite Rminus_diag_eq by auto. rewrite Rabs_R0. auto.
  - replace (x + h - x) with h by ring. lra.
Qed.
Lemma d_glue f g1 g2 x l r : 0 < r ->
  (forall y, Rabs (y - x) < r -> y <= x -> f y = g1 y) ->
  (forall y, Rabs (y - x) < r -> x <= y -> f y = g2 y) ->
  derivable_pt_lim g1 x l -> derivable_pt_lim g2 x l -> derivable_pt_lim f x l.
Proof.
  intros Hr E1 E2 D1 D2 eps He. destruct (D1 eps He) as [d1 H1]. destruct (D2 eps He) as [d2 H2].
  assert (Hm : 0 < Rmin (Rmin d1 d2) r) by (repeat apply Rmin_pos; auto; apply cond_pos).
  exists (mkposreal _ Hm). intros h h0 Hh. simpl in Hh.
  pose proof (Rmin_l (Rmin d1 d2) r). pose proof (Rmin_r (Rmin d1 d2) r). pose proof (Rmin_l d1 d2). pose proof (Rmin_r d1 d2).
  assert (X0 : Rabs (x - x) < r) by (rewrite Rminus_diag_eq by auto; rewrite Rabs_R0; auto).
  assert (Xh : Rabs (x + h - x) < r) by (replace (x + h - x) with h by ring; lra).
  destruct (Rle_lt_dec h 0).
  - rewrite (E1 (x + h)), (E1 x) by (auto; lra). apply H1; auto. lra.
  - rewrite (E2 (x + h)), (E2 x) by (auto; lra). apply H2; auto. lra.
Qed.
Lemma clamp_d lo hi g g' x : (forall y, derivable_pt_lim g y (g' y)) ->
  g (1/2) = hi -> g (-1/2) = lo -> g' (1/2) = 0 -> g' (-1/2) = 0 ->
  derivable_pt_lim (clamp lo hi g) x (clamp 0 0 g' x).
Proof.
  intros D H1 H2 H3 H4.
  destruct (Rtotal_order x (1/2)) as [L|[->|G]].
  - destruct (Rtotal_order x (-1/2)) as [L'|[->|G']].
    + unfold clamp at 2. destruct (Rleb_spec (1/2) x); [lra|]. destruct (Rleb_spec x (-1/2)); [|lra].
      apply (d_local _ (fun _ => lo) x 0 (-1/2 - x)); [lra| |apply derivable_pt_lim_const].
      intros y Hy. apply Rabs_def2 in Hy. unfold clamp. destruct (Rleb_spec (1/2) y); [lra|]. destruct (Rleb_spec y (-1/2)); lra.
    + unfold clamp at 2. destruct (Rleb_spec (1/2) (-1/2)); [lra|]. destruct (Rleb_spec (-1/2) (-1/2)); [|lra].
      apply (d_glue _ (fun _ => lo) g (-1/2) 0 (1/2)); [lra| | |apply derivable_pt_lim_const|rewrite <- H4; apply D].
      * intros y Hy L'. apply Rabs_def2 in Hy. unfold clamp. destruct (Rleb_spec (1/2) y); [lra|]. destruct (Rleb_spec y (-1/2)); lra.
      * intros y Hy L'. apply Rabs_def2 in Hy. unfold clamp. destruct (Rleb_spec (1/2) y); [lra|]. destruct (Rleb_spec y (-1/2)); auto.
        replace y with (-1/2) by lra. auto.
    + unfold clamp at 2. destruct (Rleb_spec (1/2) x); [lra|]. destruct (Rleb_spec x (-1/2)); [lra|].
      apply (d_local _ g x _ (Rmin (1/2 - x) (x - -1/2))); [apply Rmin_pos; lra| |apply D].
      intros y Hy. pose proof (Rmin_l (1/2 - x) (x - -1/2)). pose proof (Rmin_r (1/2 - x) (x - -1/2)).
      assert (Hy' : Rabs (y - x) < 1/2 - x) by lra. assert (Hy2 : Rabs (y - x) < x - -1/2) by lra.
      apply Rabs_def2 in Hy', Hy2.
      unfold clamp. destruct (Rleb_spec (1/2) y); [lra|]. destruct (Rleb_spec y (-1/2)); lra.
  - unfold clamp at 2. destruct (Rleb_spec (1/2) (1/2)); [|lra].
    apply (d_glue _ g (fun _ => hi) (1/2) 0 (1/2)); [lra| | |rewrite <- H3; apply D|apply derivable_pt_lim_const].
    + intros y Hy L'. apply Rabs_def2 in Hy. unfold clamp. destruct (Rleb_spec (1/2) y).
      * replace y with (1/2) by lra. auto. * destruct (Rleb_spec y (-1/2)); lra.
    + intros y Hy L'. apply Rabs_def2 in Hy. unfold clamp. destruct (Rleb_spec (1/2) y); [auto|]. destruct (Rleb_spec y (-1/2)); lra.
  - unfold clamp at 2. destruct (Rleb_spec (1/2) x); [|lra].
    apply (d_local _ (fun _ => hi) x 0 (x - 1/2)); [lra| |apply derivable_pt_lim_const].
    intros y Hy. apply Rabs_def2 in Hy. unfold clamp. destruct (Rleb_spec (1/2) y); lra.
Qed.
Lemma switch_d x : derivable_pt_lim switch x (clamp 0 0 poly1 x).
Proof.
  apply (derivable_pt_lim_ext (clamp (-1) 1 poly)). { reflexivity. }
  apply clamp_d; [apply poly_d| | | |]; unfold poly, poly1; field.
Qed.
Lemma switch_d2 x : derivable_pt_lim (clamp 0 0 poly1) x (clamp 0 0 poly2 x).
Proof. apply clamp_d; [apply poly1_d| | | |]; unfold poly1, poly2; field. Qed.
Lemma poly2_cont x : continuity_pt poly2 x.
Proof.
  unfold poly2. reg.
Qed.
Lemma clamp0_cont g : (forall x, continuity_pt g x) -> g (1/2) = 0 -> g (-1/2) = 0 -> forall x, continuity_pt (clamp 0 0 g) x.
Proof.
  intros C H1 H2 x.
  (* clamp 0 0 g = g o proj where proj is the projection to [-1/2, 1/2] *)
  set (pr := fun y => Rmax (-1/2) (Rmin (1/2) y)).
  assert (E : forall y, clamp 0 0 g y = g (pr y)).
  { intros y. unfold clamp, pr. destruct (Rleb_spec (1/2) y).
    - rewrite Rmin_left by lra. rewrite Rmax_right by lra. auto.
    - rewrite Rmin_right by lra. destruct (Rleb_spec y (-1/2)).
      + rewrite Rmax_left by lra. auto.
      + rewrite Rmax_right by lra. auto. }
  intros eps He. destruct (C (pr x) eps He) as (d & Hd & H). exists d. split; auto.
  intros y [_ Hy]. simpl in *. unfold R_dist in *. rewrite !E. destruct (Req_dec (pr y) (pr x)) as [Q|Q].
  - rewrite Q. rewrite Rminus_diag_eq by auto. rewrite Rabs_R0. auto.
  - apply H. split. { split; [exact I|auto]. }
    apply Rle_lt_trans with (Rabs (y - x)); auto. unfold pr, Rmax, Rmin.
    destruct (Rle_dec (1/2) y), (Rle_dec (1/2) x);
    repeat match goal with |- context [Rle_dec ?a ?b] => destruct (Rle_dec a b) end;
      unfold Rabs; repeat match goal with |- context [Rcase_abs ?a] => destruct (Rcase_abs a) end; lra.
Qed.

Lemma switch_odd x : switch (- x) = - switch x.
Proof.
  unfold switch. destruct (Rleb_spec (1/2) x), (Rleb_spec (1/2) (-x)), (Rleb_spec x (-1/2)), (Rleb_spec (-x) (-1/2)); lra.
Qed.
Lemma clamp1_nonneg x : 0 <= clamp 0 0 poly1 x.
Proof.
  unfold clamp. destruct (Rleb (1/2) x); [lra|]. destruct (Rleb x (-1/2)); [lra|]. unfold poly1.
  apply Rmult_le_pos; [lra|]. apply pow2_ge_0.
Qed.
Lemma switch_mono x y : x <= y -> switch x <= switch y.
Proof.
  intros [L| ->]; [|lra].
  destruct (MVT_cor2 switch (clamp 0 0 poly1) x y L) as (c & E & _). { intros; apply switch_d. }
  pose proof (clamp1_nonneg c). assert (0 <= clamp 0 0 poly1 c * (y - x)) by (apply Rmult_le_pos; lra). lra.
Qed.
Lemma switch_hi x : 1/2 <= x -> switch x = 1.
Proof. intros. unfold switch. destruct (Rleb_spec (1/2) x); lra. Qed.
Lemma switch_lo x : x <= -1/2 -> switch x = -1.
Proof. intros. unfold switch. destruct (Rleb_spec (1/2) x); [lra|]. destruct (Rleb_spec x (-1/2)); lra. Qed.
Lemma switch_bounds x : -1 <= switch x <= 1.
Proof.
  split.
  - destruct (Rle_lt_dec x (-1/2)). { rewrite switch_lo; lra. } rewrite <- (switch_lo (-1/2)) by lra. apply switch_mono. lra.
  - destruct (Rle_lt_dec (1/2) x). { rewrite switch_hi; lra. } rewrite <- (switch_hi (1/2)) by lra. apply switch_mono. lra.
Qed.
