From Coq Require Import Reals List Arith Bool String Lra Lia.
From Verif Require Import RBase ListUtil PyList Mat_Model Mat_Proof Contour_Model Contour_Spec Contour_Proof Cont2_Model Cont2_Spec Cont2_Proof.
Import ListNotations.
Open Scope R_scope.
Open Scope string_scope.
Open Scope R_scope.

(** ** C109: contours in two parameters *)
(** whatever the minimiser asks, its answers are those of the stated problem at angle 2 pi i / n; an angle where it fails is NaN; the
    parameters are put back *)
Theorem C109_scan : forall L parms p q nll cl n opt x, In p parms -> In q parms -> p <> q ->
  exists a b es, contour_scan2D L parms (p, q) nll cl n opt x = Ok (es, x) /\ nth_error parms a = Some p /\ nth_error parms b = Some q /\ List.length es = n /\
    forall i, (i < n)%nat -> entry2 L (nll + / 2 * cl ^ 2) x a b (2 * PI * (INR i / INR n)) (opt x) (nth i es None).
Proof. exact scan_ok. Qed.
Theorem C109_determined : forall L level c a b t s e e', entry2 L level c a b t s e -> entry2 L level c a b t s e' -> e = e'.
Proof. exact entry2_det. Qed.
Theorem C109_unknown : forall L parms p q nll cl n opt x, ~ In p parms \/ ~ In q parms -> contour_scan2D L parms (p, q) nll cl n opt x = Raise IndexError.
Proof. exact scan_unknown. Qed.
(** the derivatives given to the minimiser are derivatives of the functions given to it *)
Theorem C109_derivatives : forall c a b t x v, a <> b -> (a < List.length x)%nat -> (b < List.length x)%nat ->
  derivable_pt_lim (fun s => objective2 c a b (moved x v s)) 0 (dotl (List.length x) (objective2_jac c a b x) v) /\
  derivable_pt_lim (fun s => angle_con c a b t (moved x v s)) 0 (dotl (List.length x) (angle_jac a b t x) v) /\
  forall i, (i < List.length x)%nat -> List.length v = List.length x ->
    derivable_pt_lim (fun s => nth i (objective2_jac c a b (moved x v s)) 0) 0 (nth i (objective2_hessp a b v) 0).
Proof. intros c a b t x v N Ha Hb. split; [apply obj_gradient; auto|]. split; [apply ang_gradient; auto|]. intros i Hi Lv. apply obj_hessian; auto. Qed.
(** the constraint on the angle holds exactly on the line through the best fit *)
Theorem C109_line : forall c a b t x, angle_con c a b t x = 0 <-> on_line a b (coord c) t (coord x).
Proof. exact line_iff. Qed.
(** a solution of the stated problem is on the contour: the profile likelihood of the two parameters there is the level *)
Theorem C109_profile : forall (F : (nat -> R) -> Prop) (L : (nat -> R) -> R) level a b c t x, a <> b ->
  (forall y z, (forall i, y i = z i) -> L y = L z) -> (forall y s, F y -> F (shift a b t y s)) -> (forall y, F y -> continuity_pt (fun s => L (shift a b t y s)) 0) ->
  farthest2 F L level a b c t x -> L x = level /\ profile2_at F L a b (x a) (x b) level.
Proof. exact farthest2_profile. Qed.
(** for a Gaussian likelihood the solutions are the two points where the line meets the ellipse of the covariance *)
Theorem C109_gaussian : forall L H C frozen q a b t xval, gaussian L H xval -> floating_min (List.length xval) H frozen -> floating_cov (List.length xval) H frozen C ->
  (a < List.length xval)%nat -> (b < List.length xval)%nat -> a <> b -> frozen a = false -> frozen b = false -> 0 <= q ->
  let far := farthest2 (fun x => floating_move (List.length xval) frozen (fun i => x i - nth i xval 0)) (fun x => cl_loss L (listed (List.length xval) x)) (cl_loss L xval + / 2 * q) a b (coord xval) t in
  let r := sqrt (q / inverse_width C a b t) in
  0 < inverse_width C a b t /\
  (forall x, far x -> exists s, (s = 1 \/ s = -1) /\ x a = nth a xval 0 + s * r * cos t /\ x b = nth b xval 0 + s * r * sin t) /\
  forall s, s = 1 \/ s = -1 -> exists x, far x /\ x a = nth a xval 0 + s * r * cos t /\ x b = nth b xval 0 + s * r * sin t.
Proof. exact gaussian2. Qed.
(** the bins of the angle axis are centred on the scanned angles and cover one turn *)
Theorem C109_axis : forall n i, (n <> 0)%nat -> (i < n)%nat ->
  (angle_edge n i + angle_edge n (S i)) / 2 = 2 * PI * (INR i / INR n) /\ angle_edge n i < 2 * PI * (INR i / INR n) < angle_edge n (S i) /\ angle_edge n n - angle_edge n 0 = 2 * PI.
Proof.
  intros n i N Hi. rewrite !edge_val, S_INR by auto. assert (P : 0 < INR n) by (apply lt_0_INR; lia). assert (Q := PI_RGT_0). cbn [INR].
  assert (0 < PI / INR n) by (apply Rdiv_lt_0_compat; auto). replace (2 * PI * (INR i / INR n)) with (2 * INR i * (PI / INR n)) by (field; lra).
  set (h := PI / INR n) in *. split; [field|]. split; [lra|]. replace ((2 * INR n - 1) * h - (2 * 0 - 1) * h) with (2 * (INR n * h)) by ring. unfold h. field. lra.
Qed.
(** the option of the fit is refused, with or without pairs *)
Theorem C109_refused : forall r, contour2D_step r = Ok tt <-> r = None.
Proof. intros [r|]; cbn; split; congruence. Qed.

(** two parameters with unit widths at (5, 7), a minimiser that looks whether (6, 7) is allowed *)
Definition ex_L : clik := {| cl_loss := fun x => 3 + (nth 0 x 0 - 5) ^ 2 / 2 + (nth 1 x 0 - 7) ^ 2 / 2; cl_grad := fun x => [nth 0 x 0 - 5; nth 1 x 0 - 7]; cl_hess := fun _ => [[1; 0]; [0; 1]]; cl_hessp := fun _ p => p |}.
Definition ex_opt (x : list R) : strat2 :=
  Ask2 (KFun [6; 7]) (fun r => Ask2 (KAng [6; 7]) (fun r' => match r, r' with PNum v, PNum v' => Stop2 (Rleb v 0 && Reqb v' 0) [6; 7] | _, _ => Stop2 false [] end)).
Example C109_scan_ex : contour_scan2D ex_L ["a"; "b"]%string ("a", "b")%string 3 1 4 ex_opt [5; 7] = Ok ([Some (6, 7); None; Some (6, 7); None], [5; 7]).
Proof.
  assert (X : forall t st, minimize2 (serve2 ex_L 3 1 [5; 7] 0 1 t) (ex_opt [5; 7]) st = (Reqb (sin t) 0, [6; 7], [6; 7])).
  { intros t st. cbn [ex_opt minimize2 serve2 ex_L cl_loss nth]. match goal with |- context [Rleb ?u 0] => assert (RV : Rleb u 0 = true) by (destruct (Rleb_spec u 0); auto; lra) end. rewrite RV.
    cbn [andb minimize2]. unfold angle_con, dxy. cbn [nth]. do 3 f_equal. lra. }
  unfold contour_scan2D. cbn [find_param fst snd String.eqb Ascii.eqb Bool.eqb option_map]. unfold angles. cbn [seq map scan_angles]. rewrite !X.
  assert (E0 : sin (INR 0 * ((2 * PI - 0) / INR 4) + 0) = 0) by (cbn [INR]; replace (0 * ((2 * PI - 0) / (1 + 1 + 1 + 1)) + 0) with 0 by ring; apply sin_0).
  assert (E1 : sin (INR 1 * ((2 * PI - 0) / INR 4) + 0) = 1) by (cbn [INR]; replace (1 * ((2 * PI - 0) / (1 + 1 + 1 + 1)) + 0) with (PI / 2) by field; apply sin_PI2).
  assert (E2 : sin (INR 2 * ((2 * PI - 0) / INR 4) + 0) = 0) by (cbn [INR]; replace ((1 + 1) * ((2 * PI - 0) / (1 + 1 + 1 + 1)) + 0) with PI by field; apply sin_PI).
  assert (E3 : sin (INR 3 * ((2 * PI - 0) / INR 4) + 0) = -1).
  { cbn [INR]. replace ((1 + 1 + 1) * ((2 * PI - 0) / (1 + 1 + 1 + 1)) + 0) with (PI / 2 + PI) by field. rewrite neg_sin, sin_PI2. ring. }
  rewrite E0, E1, E2, E3. rewrite Reqb_true by auto. rewrite !Reqb_false by lra. reflexivity.
Qed.
(** parameters with variances 1 and 2 and covariance 1: at angle 0 the ellipse of q = 2 is met at distance 1, less than sqrt 2 *)
Definition ex_H (i j : nat) : R := match i, j with O, O => 2 | S O, S O => 1 | O, S O | S O, O => -1 | _, _ => 0 end.
Definition ex_C (i j : nat) : R := match i, j with O, O => 1 | S O, S O => 2 | O, S O | S O, O => 1 | _, _ => 0 end.
Example C109_gaussian_ex : floating_min 2 ex_H (fun _ => false) /\ floating_cov 2 ex_H (fun _ => false) ex_C /\ inverse_width ex_C 0 1 0 = 2 /\ inverse_width ex_C 0 1 (PI / 2) = 1.
Proof.
  split; [split|split; [|split]].
  - intros [|[|i]] [|[|j]] Hi Hj; cbn; auto; lia.
  - intros z _ (i & Hi & Ni). unfold form. cbn [sm ex_H]. assert (S1 := Rle_0_sqr (z O)). assert (S2 := Rle_0_sqr (z O - z 1%nat)). unfold Rsqr in *.
    destruct (Req_dec (z O) 0) as [Z|Z].
    + rewrite Z in *. destruct i as [|[|i]]; [congruence| |lia]. assert (P := Rsqr_pos_lt _ Ni). unfold Rsqr in P. lra.
    + assert (P := Rsqr_pos_lt _ Z). unfold Rsqr in P. lra.
  - intros [|[|i]] [|[|j]] Hi Hj; cbn; try lia; lra.
  - unfold inverse_width. cbn [ex_C]. rewrite cos_0, sin_0. field.
  - unfold inverse_width. cbn [ex_C]. rewrite cos_PI2, sin_PI2. field.
Qed.
Example C109_profile_ex : let L := fun x => x O * x O + x 1%nat * x 1%nat + (x 2%nat - x O) * (x 2%nat - x O) in
  farthest2 (fun _ => True) L 4 0 1 (fun _ => 0) 0 (fun i => match i with 1%nat => 0 | _ => 2 end) /\ profile2_at (fun _ => True) L 0 1 2 0 4.
Proof.
  cbv zeta. match goal with |- ?A /\ _ => assert (F : A) end.
  { split; auto. split; [exists 2; rewrite cos_0, sin_0; split; ring|]. split; [lra|]. intros y _ (r & A & B) E. rewrite cos_0 in A. rewrite sin_0 in B. unfold dist2.
    assert (S := Rle_0_sqr (y 2%nat - y O)). unfold Rsqr in S. replace (y 1%nat) with 0 in * by lra. lra. }
  split; auto. apply (C109_profile (fun _ => True) _ 4 0 1 (fun _ => 0) 0 (fun i => match i with 1%nat => 0 | _ => 2 end)); auto.
  - intros y z E. rewrite !E. auto.
  - intros y _. unfold shift. cbn [Nat.eqb]. reg.
Qed.

(** the scan starts where its objective is largest, not smallest, and where the gradient of the objective is zero *)
Theorem C109_start_is_worst : forall c a b x, objective2 c a b x <= objective2 c a b c /\ forall k, nth k (objective2_jac c a b c) 0 = 0.
Proof.
  intros c a b x. split.
  - unfold objective2, dxy. assert (S1 := Rle_0_sqr (nth a x 0 - nth a c 0)). assert (S2 := Rle_0_sqr (nth b x 0 - nth b c 0)). unfold Rsqr in *.
    replace (- ((nth a c 0 - nth a c 0) * (nth a c 0 - nth a c 0) + (nth b c 0 - nth b c 0) * (nth b c 0 - nth b c 0))) with 0 by ring. lra.
  - intros k. destruct (Nat.lt_ge_cases k (List.length c)) as [Hk|Hk].
    + unfold objective2_jac. assert (Z : List.length (zeros_like c) = List.length c) by (unfold zeros_like; rewrite map_length; auto).
      rewrite !set_at_nth, zeros_nth by (rewrite ?set_at_length; lia). unfold dxy. destruct (Nat.eqb k b), (Nat.eqb k a); ring.
    + apply nth_overflow. unfold objective2_jac. rewrite !set_at_length. unfold zeros_like. rewrite map_length. auto.
Qed.
(** so a minimiser that ends at the first allowed point without gradient, as gradient methods do, reports the best fit itself as the
    contour, at every angle *)
Definition stationary_opt (x : list R) : strat2 :=
  Ask2 (KFun x) (fun r => Ask2 (KAng x) (fun r' => Ask2 (KObjJac x) (fun g => match r, r', g with
    | PNum v, PNum v', PVec g => Stop2 (Rleb v 0 && Reqb v' 0 && forallb (fun d => Reqb d 0) g) x | _, _, _ => Stop2 false [] end))).
Theorem C109_start_refuted : forall L a b cl c t, a <> b ->
  entry2 L (cl_loss L c + / 2 * cl ^ 2) c a b t (stationary_opt c) (Some (nth a c 0, nth b c 0)).
Proof.
  intros L a b cl c t N. exists true, c. split; auto. assert (SQ := Rle_0_sqr cl). unfold Rsqr in SQ.
  assert (M := minimize2_ok L (cl_loss L c) cl c a b t N (stationary_opt c) c). cbn [stationary_opt minimize2 serve2] in M.
  assert (R1 : Rleb (cl_loss L c - cl_loss L c - / 2 * (cl * cl)) 0 = true) by (destruct (Rleb_spec (cl_loss L c - cl_loss L c - / 2 * (cl * cl)) 0); auto; lra).
  assert (R2 : Reqb (angle_con c a b t c) 0 = true) by (apply Reqb_true; unfold angle_con, dxy; ring).
  assert (R3 : forallb (fun d => Reqb d 0) (objective2_jac c a b c) = true).
  { apply forallb_forall. intros d Hd. apply Reqb_true. destruct (In_nth _ _ 0 Hd) as (k & _ & <-). apply (proj2 (C109_start_is_worst c a b c)). }
  rewrite R1, R2, R3 in M. cbn [andb minimize2] in M. replace (cl ^ 2) with (cl * cl) by ring. eapply M. reflexivity.
Qed.
(** the constraint does not tell an angle from the opposite one: both problems have the same solutions, and the entry for angle pi can
    be a solution that lies at angle 0 *)
Theorem C109_opposite : forall F L level a b c t x, farthest2 F L level a b c (t + PI) x <-> farthest2 F L level a b c t x.
Proof.
  intros F L level a b c t x. unfold farthest2. rewrite line_opposite. split; intros (H1 & H2 & H3 & H4); repeat split; auto; intros y Fy Oy Ly; apply H4; auto; apply line_opposite; auto.
Qed.
Theorem C109_opposite_refuted : exists L opt x es, contour_scan2D L ["a"; "b"]%string ("a", "b")%string (cl_loss L x) 1 4 opt x = Ok (es, x) /\
  nth 2 es None = Some (6, 7) /\
  farthest2 (fun _ => True) (fun y => cl_loss L (listed 2 y)) (cl_loss L x + / 2 * 1) 0 1 (coord x) (2 * PI * (INR 2 / INR 4)) (coord [6; 7]) /\
  ~ on_ray 0 1 (coord x) (2 * PI * (INR 2 / INR 4)) (coord [6; 7]).
Proof.
  exists ex_L, ex_opt, [5; 7], [Some (6, 7); None; Some (6, 7); None]. split.
  - replace (cl_loss ex_L [5; 7]) with 3 by (cbn; field). apply C109_scan_ex.
  - split; auto. replace (2 * PI * (INR 2 / INR 4)) with PI by (cbn [INR]; field). split.
    + split; auto. split; [exists (-1); rewrite cos_PI, sin_PI; unfold coord; cbn [nth]; split; ring|]. split; [cbn; lra|]. intros y _ (r & A & B) E. rewrite cos_PI in A. rewrite sin_PI in B.
      unfold coord in A, B. cbn [nth] in A, B. cbn in E. unfold dist2, coord. cbn [nth]. assert (Y1 : y 1%nat = 7) by lra. assert (Y0 : y O = 5 - r) by lra. rewrite Y1, Y0 in *. lra.
    + intros (r & Hr & A & _). rewrite cos_PI in A. unfold coord in A. cbn [nth] in A. lra.
Qed.
(** with the same parameter twice the gradient is not that of the objective *)
Theorem C109_same_parameter_refuted : exists c a x v, (a < List.length x)%nat /\ ~ derivable_pt_lim (fun s => objective2 c a a (moved x v s)) 0 (dotl (List.length x) (objective2_jac c a a x) v).
Proof.
  exists [0], O, [1], [1]. split; [cbn; lia|]. intros D. assert (D' : derivable_pt_lim (fun s => objective2 [0] 0 0 (moved [1] [1] s)) 0 (-4)).
  { eapply deriv_ext; [|apply (quad_deriv (-2) (-4) (-2))]. intros s. unfold objective2, dxy, moved. cbn. ring. }
  assert (E := uniqueness_limite _ _ _ _ D D'). unfold dotl, objective2_jac, dxy in E. cbn in E. lra.
Qed.
(** different pairs can have the same label in the output *)
Theorem C109_label_refuted : exists p q, p <> q /\ pair_label p = pair_label q.
Proof. exists ("a-b", "c")%string, ("a", "b-c")%string. split; [congruence|reflexivity]. Qed.

Print Assumptions C109_scan.
Print Assumptions C109_derivatives.
Print Assumptions C109_profile.
Print Assumptions C109_gaussian.
Print Assumptions C109_start_refuted.
