(** Proofs about plots of likelihood scans. *)
From Coq Require Import Reals List Arith Bool String Ascii Lia Lra Permutation.
From Verif Require Import RBase PyList PyDict Scan_Model Mat_Model Mat_Proof Contour_Spec Contour_Proof Splot_Model Splot_Spec.
Import ListNotations.
Local Open Scope R_scope.

(** ** sorting *)
Lemma insert_perm p l : Permutation (insert p l) (p :: l).
Proof.
  induction l as [|q l IH]; [reflexivity|]. cbn [insert]. destruct (Rle_dec (fst p) (fst q)); [reflexivity|].
  rewrite IH. apply perm_swap.
Qed.
Lemma by_x_perm l : Permutation (by_x l) l.
Proof. induction l as [|p l IH]; [reflexivity|]. cbn. rewrite insert_perm. apply perm_skip. exact IH. Qed.
Lemma insert_ordered p l : ordered l -> ordered (insert p l).
Proof.
  induction l as [|q l IH]; [cbn; tauto|]. intros (A & B). cbn [insert]. destruct (Rle_dec (fst p) (fst q)) as [L|L].
  - split; [|split; assumption]. intros r [<-|I]; [exact L|]. specialize (A r I). lra.
  - split; [|apply IH; exact B]. intros r I. apply (Permutation_in r (insert_perm p l)) in I. destruct I as [<-|I]; [lra|apply A; exact I].
Qed.
Lemma by_x_ordered l : ordered (by_x l).
Proof. induction l as [|p l IH]; [exact I|]. apply insert_ordered. exact IH. Qed.
Lemma in_finite l x y : In (x, y) (finite l) <-> exists v, In (x, Val v) l /\ y = v * 2.
Proof.
  unfold finite. rewrite in_flat_map. split.
  - intros ((x' & e) & I & J). destruct e as [|v]; cbn in J; [destruct J|]. destruct J as [J|[]]. injection J as <- <-. eauto.
  - intros (v & I & ->). exists (x, Val v). split; [exact I|left; reflexivity].
Qed.
Lemma min_list x l : (forall y, In y (x :: l) -> fold_right Rmin x l <= y) /\ In (fold_right Rmin x l) (x :: l).
Proof.
  induction l as [|z l (A & B)]; cbn.
  - split; [intros y [<-|[]]; lra|auto].
  - split.
    + intros y [<-|[<-|I]].
      * eapply Rle_trans; [apply Rmin_r|]. apply A. left. reflexivity.
      * apply Rmin_l.
      * eapply Rle_trans; [apply Rmin_r|]. apply A. right. exact I.
    + unfold Rmin. destruct (Rle_dec z _); [auto|]. destruct B as [B|B]; auto.
Qed.
Lemma max_list x l : (forall y, In y (x :: l) -> y <= fold_right Rmax x l) /\ In (fold_right Rmax x l) (x :: l).
Proof.
  induction l as [|z l (A & B)]; cbn.
  - split; [intros y [<-|[]]; lra|auto].
  - split.
    + intros y [<-|[<-|I]].
      * eapply Rle_trans; [|apply Rmax_r]. apply A. left. reflexivity.
      * apply Rmax_l.
      * eapply Rle_trans; [|apply Rmax_r]. apply A. right. exact I.
    + unfold Rmax. destruct (Rle_dec z _); [|auto]. destruct B as [B|B]; auto.
Qed.

(** ** Gaussian profiles *)
Section Profile.
  Variables (n : nat) (H C : nat -> nat -> R) (frozen : nat -> bool).
  Hypothesis (FM : floating_min n H frozen) (FC : floating_cov n H frozen C).
  Lemma form_nonneg z : floating_move n frozen z -> 0 <= form n H z.
  Proof.
    intros Z. destruct (nonzero_dec n z) as [N|N].
    - left. apply (proj2 FM); assumption.
    - rewrite form_zero by exact N. lra.
  Qed.
  Lemma form_opp z : form n H (fun k => 0 - z k) = form n H z.
  Proof. unfold form. apply sm_ext. intros i _. apply sm_ext. intros j _. ring. Qed.
  Lemma move_0 : floating_move n frozen (fun _ => 0).
  Proof. intros i _ _. reflexivity. Qed.
  Lemma move_col z j t : (j < n)%nat -> floating_move n frozen z -> floating_move n frozen (fun k => z k - t * C k j).
  Proof. intros J Z i Hi F. rewrite (Z i Hi F), (col_move n H C frozen j FC J i Hi F). ring. Qed.
  Lemma profile1_ok i d : (i < n)%nat -> frozen i = false -> profile1 n H frozen i d (d * d / C i i).
  Proof.
    intros I F. assert (P := col_pos n H C frozen i FM FC I F). split.
    - exists (fun k => 0 - (- d / C i i) * C k i). split; [apply (move_col (fun _ => 0)); [exact I|apply move_0]|]. split; [field; lra|].
      rewrite (col_split n H C frozen i FM FC I F (fun _ => 0)) by apply move_0. rewrite form_zero by reflexivity. field. lra.
    - intros z Z E. assert (S := col_split n H C frozen i FM FC I F z (d / C i i) Z). rewrite E in S.
      assert (N := form_nonneg _ (move_col z i (d / C i i) I Z)). rewrite S in N.
      replace (form n H z - 2 * (d / C i i) * d + d / C i i * (d / C i i) * C i i) with (form n H z - d * d / C i i) in N by (field; lra). lra.
  Qed.
  Lemma cov_sym i j : (i < n)%nat -> (j < n)%nat -> frozen i = false -> frozen j = false -> C i j = C j i.
  Proof.
    intros I J F G.
    assert (A := col_dot n H C frozen j FC J G (fun k => C k i) (col_move n H C frozen i FC I)).
    assert (B := col_dot n H C frozen i FC I F (fun k => C k j) (col_move n H C frozen j FC J)). cbn beta in A, B. rewrite <- A, <- B. unfold mv.
    rewrite (sm_ext n (fun a => C a i * sm n (fun b => H a b * C b j)) (fun a => sm n (fun b => C a i * H a b * C b j))) by (intros; rewrite <- sm_scal; apply sm_ext; intros; ring).
    rewrite (sm_ext n (fun a => C a j * sm n (fun b => H a b * C b i)) (fun a => sm n (fun b => C a j * H a b * C b i))) by (intros; rewrite <- sm_scal; apply sm_ext; intros; ring).
    rewrite sm_swap. apply sm_ext. intros a Ha. apply sm_ext. intros b Hb. rewrite (proj1 FM a b Ha Hb). ring.
  Qed.
  Variables (i j : nat).
  Hypothesis (I : (i < n)%nat) (J : (j < n)%nat) (F : frozen i = false) (G : frozen j = false) (N : i <> j).
  Let a := C i i. Let b := C i j. Let c := C j j.
  Lemma split2 z u v : floating_move n frozen z ->
    form n H (fun k => z k - u * C k i - v * C k j) = form n H z - 2 * (u * z i + v * z j) + (u * u * a + 2 * u * v * b + v * v * c).
  Proof.
    intros Z. rewrite (col_split n H C frozen j FM FC J G (fun k => z k - u * C k i) v (move_col z i u I Z)).
    rewrite (col_split n H C frozen i FM FC I F z u Z). unfold a, b, c. rewrite (cov_sym i j I J F G). ring.
  Qed.
  Lemma cov2_ok : cov2 a b c.
  Proof.
    assert (PA := col_pos n H C frozen i FM FC I F). assert (PC := col_pos n H C frozen j FM FC J G). split; [exact PA|]. split; [exact PC|].
    fold c in PC. fold a in PA.
    assert (S := split2 (fun _ => 0) 1 (- b / c) move_0). rewrite (form_zero n H (fun _ => 0)) in S by reflexivity. cbn beta in S.
    assert (M : floating_move n frozen (fun k => 0 - 1 * C k i - - b / c * C k j)) by (apply (move_col (fun k => 0 - 1 * C k i)); [exact J|apply (move_col (fun _ => 0)); [exact I|apply move_0]]).
    assert (P : 0 < form n H (fun k => 0 - 1 * C k i - - b / c * C k j)).
    { destruct (nonzero_dec n (fun k => 0 - 1 * C k i - - b / c * C k j)) as [Z|Z]; [apply (proj2 FM); assumption|]. exfalso.
      assert (D := FC i i I I). assert (D' := FC i j I J). rewrite F, Nat.eqb_refl in D. rewrite F, G in D'. cbn [orb] in D, D'. destruct (Nat.eqb_spec i j) as [Q|_]; [contradiction|].
      assert (E : sm n (fun l => H i l * (0 - 1 * C l i - - b / c * C l j)) = -1).
      { rewrite (sm_ext n _ (fun l => (-1) * (H i l * C l i) - - b / c * (H i l * C l j))) by (intros; ring). rewrite sm_minus, !sm_scal, D, D'. ring. }
      rewrite sm_0 in E; [lra|]. intros l L. rewrite (Z l L). ring. }
    rewrite S in P. replace (0 - 2 * (1 * 0 + - b / c * 0) + (1 * 1 * a + 2 * 1 * (- b / c) * b + - b / c * (- b / c) * c)) with ((a * c - b * b) / c) in P by (field; lra).
    replace (a * c - b * b) with ((a * c - b * b) / c * c) by (field; lra). apply Rmult_lt_0_compat; assumption.
  Qed.
  Lemma profile2_ok d e : profile2 n H frozen i j d e (maha a b c d e).
  Proof.
    destruct cov2_ok as (PA & PC & PD). set (D := a * c - b * b) in *.
    set (u := (c * d - b * e) / D). set (v := (a * e - b * d) / D).
    assert (E1 : u * a + v * b = d) by (unfold u, v; field_simplify; [|lra]; unfold D; field; unfold D in PD; lra).
    assert (E2 : u * b + v * c = e) by (unfold u, v; field_simplify; [|lra]; unfold D; field; unfold D in PD; lra).
    assert (Q : u * d + v * e = maha a b c d e) by (unfold maha, u, v; fold D; field; lra).
    assert (Q2 : u * u * a + 2 * u * v * b + v * v * c = maha a b c d e).
    { rewrite <- Q, <- E1 at 1. rewrite <- E2. ring. }
    split.
    - exists (fun k => 0 - (- u) * C k i - (- v) * C k j). split; [apply (move_col (fun k => 0 - - u * C k i)); [exact J|apply (move_col (fun _ => 0)); [exact I|apply move_0]]|].
      split; [rewrite <- E1; unfold a, b; ring|]. split; [rewrite <- E2; unfold b, c; rewrite (cov_sym i j I J F G); ring|].
      rewrite (split2 (fun _ => 0)) by apply move_0. rewrite (form_zero n H (fun _ => 0)) by reflexivity. rewrite <- Q2. ring.
    - intros z Z Zi Zj. assert (S := split2 z u v Z). rewrite Zi, Zj, Q, Q2 in S.
      assert (P := form_nonneg _ (move_col (fun k => z k - u * C k i) j v J (move_col z i u I Z))). cbn beta in P. rewrite S in P. lra.
  Qed.
End Profile.
Lemma profile1_unique n H frozen i d v w : profile1 n H frozen i d v -> profile1 n H frozen i d w -> v = w.
Proof. intros ((z & A & B & <-) & L) ((z' & A' & B' & <-) & L'). apply Rle_antisym; auto. Qed.
Lemma profile2_unique n H frozen i j d e v w : profile2 n H frozen i j d e v -> profile2 n H frozen i j d e w -> v = w.
Proof. intros ((z & A & B & B2 & <-) & L) ((z' & A' & B' & B2' & <-) & L'). apply Rle_antisym; auto. Qed.

(** ** angles *)
Lemma div_sq x y : x <> 0 -> 1 + (y / x)² = (x * x + y * y) / (x * x).
Proof. intros N. unfold Rsqr. field. exact N. Qed.
Lemma atan2_ok y x : 0 < x * x + y * y -> cos (atan2 y x) = x / sqrt (x * x + y * y) /\ sin (atan2 y x) = y / sqrt (x * x + y * y).
Proof.
  intros P. assert (S := sqrt_lt_R0 _ P). unfold atan2. destruct (Rlt_dec 0 x) as [A|A]; [|destruct (Rlt_dec x 0) as [B|B]].
  - rewrite cos_atan, sin_atan, div_sq by lra. rewrite sqrt_div_alt by (apply Rmult_lt_0_compat; lra). rewrite (sqrt_square x) by lra. split; field; lra.
  - assert (E : sqrt (1 + (y / x)²) = sqrt (x * x + y * y) / - x).
    { rewrite div_sq by lra. replace (x * x) with ((- x) * (- x)) at 2 by ring. rewrite sqrt_div_alt by (apply Rmult_lt_0_compat; lra). rewrite (sqrt_square (- x)) by lra. reflexivity. }
    assert (H : cos (atan (y / x)) = - x / sqrt (x * x + y * y) /\ sin (atan (y / x)) = - y / sqrt (x * x + y * y)).
    { rewrite cos_atan, sin_atan, E. split; field; lra. }
    destruct H as (H1 & H2). destruct (Rle_dec 0 y).
    + rewrite neg_cos, neg_sin, H1, H2. split; field; lra.
    + unfold Rminus. rewrite cos_plus, sin_plus, H1, H2, cos_neg, sin_neg, cos_PI, sin_PI. split; field; lra.
  - assert (x = 0) by lra. subst x. replace (0 * 0 + y * y) with (y * y) in * by ring. destruct (Rlt_dec 0 y) as [Y|Y].
    + rewrite cos_PI2, sin_PI2, sqrt_square by lra. split; field; lra.
    + destruct (Rlt_dec y 0) as [Z|Z]; [|assert (y = 0) by lra; subst; lra].
      rewrite cos_neg, sin_neg, cos_PI2, sin_PI2. replace (y * y) with ((- y) * (- y)) by ring. rewrite sqrt_square by lra. split; field; lra.
Qed.
Lemma circle x y : x * x + y * y = 1 -> exists t, cos t = x /\ sin t = y.
Proof. intros E. exists (atan2 y x). destruct (atan2_ok y x) as (A & B); [lra|]. rewrite A, B, E, sqrt_1. split; field. Qed.

(** ** the ellipse *)
Section Ellipse.
  Variables (a b c : R).
  Hypothesis (P : cov2 a b c).
  Let s := sqrt ((a - c) * (a - c) / 4 + b * b).
  Let l1 := (a + c) / 2 + s.
  Let l2 := (a + c) / 2 - s.
  Let theta := atan2 (l1 - a) b.
  Lemma root_nonneg : 0 <= (a - c) * (a - c) / 4 + b * b.
  Proof. assert (0 <= (a - c) * (a - c)) by apply Rle_0_sqr. assert (0 <= b * b) by apply Rle_0_sqr. lra. Qed.
  Lemma s_sq : s * s = (a - c) * (a - c) / 4 + b * b.
  Proof. apply sqrt_sqrt. exact root_nonneg. Qed.
  Lemma s_nonneg : 0 <= s.
  Proof. apply sqrt_pos. Qed.
  Lemma eig_prod : l1 * l2 = a * c - b * b.
  Proof. unfold l1, l2. replace (((a + c) / 2 + s) * ((a + c) / 2 - s)) with ((a + c) * (a + c) / 4 - s * s) by field. rewrite s_sq. field. Qed.
  Lemma eig_pos : 0 < l1 /\ 0 < l2.
  Proof.
    destruct P as (A & C & D). assert (S := s_nonneg). assert (L : 0 < l1) by (unfold l1; lra). split; [exact L|].
    assert (E := eig_prod). destruct (Rlt_dec 0 l2) as [Q|Q]; [exact Q|]. exfalso. assert (l1 * l2 <= l1 * 0) by (apply Rmult_le_compat_l; lra). lra.
  Qed.
  Lemma eig_poly : l1 * l1 = (a + c) * l1 - (a * c - b * b).
  Proof. rewrite <- eig_prod. replace (a + c) with (l1 + l2) by (unfold l1, l2; lra). ring. Qed.
  Lemma angle : (cos theta * cos theta + sin theta * sin theta = 1) /\ a * cos theta + b * sin theta = l1 * cos theta /\ b * cos theta + c * sin theta = l1 * sin theta.
  Proof.
    assert (E := eig_poly). destruct (Req_dec (b * b + (l1 - a) * (l1 - a)) 0) as [Z|Z].
    - assert (B2 : 0 <= b * b) by apply Rle_0_sqr. assert (A2 : 0 <= (l1 - a) * (l1 - a)) by apply Rle_0_sqr.
      assert (B0 : b = 0) by (apply Rsqr_0_uniq; unfold Rsqr; lra). assert (A0 : l1 - a = 0) by (apply Rsqr_0_uniq; unfold Rsqr; lra).
      assert (T : theta = 0).
      { unfold theta. rewrite A0, B0. unfold atan2. destruct (Rlt_dec 0 0); [lra|]. reflexivity. }
      rewrite T, cos_0, sin_0, B0. replace l1 with a by lra. split; [ring|]. split; ring.
    - assert (B2 : 0 <= b * b) by apply Rle_0_sqr. assert (A2 : 0 <= (l1 - a) * (l1 - a)) by apply Rle_0_sqr.
      destruct (atan2_ok (l1 - a) b) as (X & Y); [lra|]. fold theta in X, Y. set (r := sqrt (b * b + (l1 - a) * (l1 - a))) in *.
      assert (Rp : 0 < r) by (apply sqrt_lt_R0; lra). assert (R2 : r * r = b * b + (l1 - a) * (l1 - a)) by (apply sqrt_sqrt; lra). rewrite X, Y. split; [|split].
      + replace (b / r * (b / r) + (l1 - a) / r * ((l1 - a) / r)) with ((b * b + (l1 - a) * (l1 - a)) / (r * r)) by (field; lra). rewrite R2. field. lra.
      + field. lra.
      + apply (Rmult_eq_reg_r r); [|lra]. replace ((b * (b / r) + c * ((l1 - a) / r)) * r) with (b * b + c * (l1 - a)) by (field; lra).
        replace (l1 * ((l1 - a) / r) * r) with (l1 * l1 - l1 * a) by (field; lra). rewrite E. ring.
  Qed.
  Lemma diag : a = l1 * (cos theta * cos theta) + l2 * (sin theta * sin theta) /\ b = (l1 - l2) * (cos theta * sin theta) /\ c = l1 * (sin theta * sin theta) + l2 * (cos theta * cos theta).
  Proof.
    destruct angle as (U & V & W). assert (T : l2 = a + c - l1) by (unfold l1, l2; lra). set (x := cos theta) in *. set (y := sin theta) in *.
    assert (Ea : a = a * (x * x + y * y)) by (rewrite U; ring). assert (Ec : c = c * (x * x + y * y)) by (rewrite U; ring). assert (Eb : b = b * (x * x + y * y)) by (rewrite U; ring).
    (* c x^2 + a y^2 - 2 b x y = l2 *)
    assert (L1 : l1 = a * x * x + 2 * b * x * y + c * y * y) by (replace l1 with (l1 * (x * x + y * y)) by (rewrite U; ring); replace (l1 * (x * x + y * y)) with (x * (l1 * x) + y * (l1 * y)) by ring; rewrite <- V, <- W; ring).
    assert (L2 : l2 = c * x * x - 2 * b * x * y + a * y * y) by (rewrite T, L1, Ea, Ec at 1; ring).
    assert (X0 : (c - a) * (x * y) + b * (x * x - y * y) = 0) by (replace ((c - a) * (x * y) + b * (x * x - y * y)) with (x * (b * x + c * y) - y * (a * x + b * y)) by ring; rewrite V, W; ring).
    assert (U2 : (x * x + y * y) * (x * x + y * y) = 1) by (rewrite U; ring).
    repeat split.
    - rewrite L1, L2. replace a with (a * ((x * x + y * y) * (x * x + y * y))) at 1 by (rewrite U2; ring).
      apply Rminus_diag_uniq. replace (_ - _) with (- 2 * x * y * ((c - a) * (x * y) + b * (x * x - y * y))) by ring. rewrite X0. ring.
    - rewrite L1, L2. replace b with (b * ((x * x + y * y) * (x * x + y * y))) at 1 by (rewrite U2; ring).
      apply Rminus_diag_uniq. replace (_ - _) with ((x * x - y * y) * ((c - a) * (x * y) + b * (x * x - y * y))) by ring. rewrite X0. ring.
    - rewrite L1, L2. replace c with (c * ((x * x + y * y) * (x * x + y * y))) at 1 by (rewrite U2; ring).
      apply Rminus_diag_uniq. replace (_ - _) with (2 * x * y * ((c - a) * (x * y) + b * (x * x - y * y))) by ring. rewrite X0. ring.
  Qed.
  (** in the frame of the eigenvectors *)
  Lemma maha_rot p q : maha a b c (p * cos theta - q * sin theta) (p * sin theta + q * cos theta) = p * p / l1 + q * q / l2.
  Proof.
    destruct eig_pos as (Q1 & Q2). unfold maha. rewrite <- eig_prod. destruct diag as (A & B & C). destruct angle as (U & _).
    set (x := cos theta) in *. set (y := sin theta) in *. set (k1 := l1) in *. set (k2 := l2) in *. clearbody x y k1 k2.
    replace (c * (p * x - q * y) * (p * x - q * y) - 2 * b * (p * x - q * y) * (p * y + q * x) + a * (p * y + q * x) * (p * y + q * x)) with ((p * p * k2 + q * q * k1) * ((x * x + y * y) * (x * x + y * y))) by (rewrite A, B, C; ring).
    rewrite U. field. lra.
  Qed.
  Lemma ellipse_on mu0 mu1 cl t : 0 <= cl -> maha a b c (fst (ellipse a b c mu0 mu1 cl t) - mu0) (snd (ellipse a b c mu0 mu1 cl t) - mu1) = cl.
  Proof.
    intros L. destruct eig_pos as (Q1 & Q2). unfold ellipse. cbv zeta. cbn [fst snd]. fold s. fold l1. fold l2. fold theta.
    replace (mu0 + sqrt (cl * l1) * cos theta * cos t - sqrt (cl * l2) * sin theta * sin t - mu0) with ((sqrt (cl * l1) * cos t) * cos theta - (sqrt (cl * l2) * sin t) * sin theta) by ring.
    replace (mu1 + sqrt (cl * l1) * sin theta * cos t + sqrt (cl * l2) * cos theta * sin t - mu1) with ((sqrt (cl * l1) * cos t) * sin theta + (sqrt (cl * l2) * sin t) * cos theta) by ring.
    rewrite maha_rot. assert (S1 := sqrt_sqrt (cl * l1) (Rmult_le_pos _ _ L (Rlt_le _ _ Q1))). assert (S2 := sqrt_sqrt (cl * l2) (Rmult_le_pos _ _ L (Rlt_le _ _ Q2))).
    replace (sqrt (cl * l1) * cos t * (sqrt (cl * l1) * cos t)) with (cl * l1 * (cos t * cos t)) by (transitivity (sqrt (cl * l1) * sqrt (cl * l1) * (cos t * cos t)); [rewrite S1; reflexivity|ring]).
    replace (sqrt (cl * l2) * sin t * (sqrt (cl * l2) * sin t)) with (cl * l2 * (sin t * sin t)) by (transitivity (sqrt (cl * l2) * sqrt (cl * l2) * (sin t * sin t)); [rewrite S2; reflexivity|ring]).
    assert (T := sin2_cos2 t). unfold Rsqr in T. replace (cl * l1 * (cos t * cos t) / l1 + cl * l2 * (sin t * sin t) / l2) with (cl * (sin t * sin t + cos t * cos t)) by (field; lra). rewrite T. ring.
  Qed.
  Lemma ellipse_all mu0 mu1 cl x y : 0 < cl -> maha a b c (x - mu0) (y - mu1) = cl -> exists t, ellipse a b c mu0 mu1 cl t = (x, y).
  Proof.
    intros L E. destruct eig_pos as (Q1 & Q2). destruct angle as (U & _).
    set (p := (x - mu0) * cos theta + (y - mu1) * sin theta). set (q := (y - mu1) * cos theta - (x - mu0) * sin theta).
    assert (X : x - mu0 = p * cos theta - q * sin theta) by (unfold p, q; replace (x - mu0) with ((x - mu0) * (cos theta * cos theta + sin theta * sin theta)) at 1 by (rewrite U; ring); ring).
    assert (Y : y - mu1 = p * sin theta + q * cos theta) by (unfold p, q; replace (y - mu1) with ((y - mu1) * (cos theta * cos theta + sin theta * sin theta)) at 1 by (rewrite U; ring); ring).
    rewrite X, Y, maha_rot in E. clearbody p q.
    assert (P1 : 0 < cl * l1) by (apply Rmult_lt_0_compat; lra). assert (P2 : 0 < cl * l2) by (apply Rmult_lt_0_compat; lra).
    assert (S1 := sqrt_lt_R0 _ P1). assert (S2 := sqrt_lt_R0 _ P2). assert (W1 := sqrt_sqrt _ (Rlt_le _ _ P1)). assert (W2 := sqrt_sqrt _ (Rlt_le _ _ P2)).
    destruct (circle (p / sqrt (cl * l1)) (q / sqrt (cl * l2))) as (t & Ct & St).
    { replace (p / sqrt (cl * l1) * (p / sqrt (cl * l1)) + q / sqrt (cl * l2) * (q / sqrt (cl * l2))) with (p * p / (sqrt (cl * l1) * sqrt (cl * l1)) + q * q / (sqrt (cl * l2) * sqrt (cl * l2))) by (field; lra).
      rewrite W1, W2. replace (p * p / (cl * l1) + q * q / (cl * l2)) with ((p * p / l1 + q * q / l2) / cl) by (field; lra). rewrite E. field. lra. }
    exists t. unfold ellipse. cbv zeta. fold s. fold l1. fold l2. fold theta. rewrite Ct, St. f_equal.
    - transitivity (mu0 + (p * cos theta - q * sin theta)); [field; lra|rewrite <- X; ring].
    - transitivity (mu1 + (p * sin theta + q * cos theta)); [field; lra|rewrite <- Y; ring].
  Qed.
End Ellipse.
Lemma maha_bound a b c d e : cov2 a b c -> d * d / a <= maha a b c d e.
Proof.
  intros (A & C & D). unfold maha. replace ((c * d * d - 2 * b * d * e + a * e * e) / (a * c - b * b)) with (d * d / a + (a * e - b * d) * (a * e - b * d) / (a * (a * c - b * b))) by (field; split; lra).
  assert (0 <= (a * e - b * d) * (a * e - b * d) / (a * (a * c - b * b))); [|lra]. apply Rmult_le_pos; [apply Rle_0_sqr|]. left. apply Rinv_0_lt_compat. apply Rmult_lt_0_compat; lra.
Qed.
Lemma cov2_scaled s0 s1 a b c : s0 <> 0 -> s1 <> 0 -> cov2 a b c -> cov2 (s0 * s0 * a) (s0 * s1 * b) (s1 * s1 * c).
Proof.
  intros N0 N1 (A & C & D). assert (0 < s0 * s0) by (apply (Rlt_0_sqr s0); exact N0). assert (0 < s1 * s1) by (apply (Rlt_0_sqr s1); exact N1).
  split; [apply Rmult_lt_0_compat; lra|]. split; [apply Rmult_lt_0_compat; lra|].
  replace (s0 * s0 * a * (s1 * s1 * c) - s0 * s1 * b * (s0 * s1 * b)) with (s0 * s0 * (s1 * s1) * (a * c - b * b)) by ring. apply Rmult_lt_0_compat; [apply Rmult_lt_0_compat; assumption|exact D].
Qed.
Lemma maha_scaled s0 s1 a b c d e : s0 <> 0 -> s1 <> 0 -> cov2 a b c -> maha (s0 * s0 * a) (s0 * s1 * b) (s1 * s1 * c) (s0 * d) (s1 * e) = maha a b c d e.
Proof.
  intros N0 N1 P. assert (Q := cov2_scaled s0 s1 a b c N0 N1 P). destruct P as (A & C & D). destruct Q as (_ & _ & E). unfold maha.
  replace (s0 * s0 * a * (s1 * s1 * c) - s0 * s1 * b * (s0 * s1 * b)) with ((s0 * s0) * (s1 * s1) * (a * c - b * b)) by ring.
  replace (s1 * s1 * c * (s0 * d) * (s0 * d) - 2 * (s0 * s1 * b) * (s0 * d) * (s1 * e) + s0 * s0 * a * (s1 * e) * (s1 * e)) with ((s0 * s0) * (s1 * s1) * (c * d * d - 2 * b * d * e + a * e * e)) by ring.
  assert (Z : s0 * s0 * (s1 * s1) <> 0) by (repeat apply Rmult_integral_contrapositive_currified; assumption).
  set (k := s0 * s0 * (s1 * s1)) in *. clearbody k. set (w := a * c - b * b) in *. clearbody w. field. split; [lra|exact Z].
Qed.
