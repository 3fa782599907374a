(** C102: what the plots of likelihood scans show. *)
From Coq Require Import Reals List Arith Bool String Ascii Lia Lra Permutation.
From Verif Require Session_Proof.
From Verif Require Import RBase PyList PyDict Param_Names Scan_Model Mat_Model Mat_Proof Contour_Spec Contour_Proof Splot_Model Splot_Spec Splot_Proof.
Import ListNotations.
Local Open Scope R_scope.

(** ** one parameter *)
(** the curve: all scan points with a value and only those, in order of the parameter, with -2 delta log L *)
Theorem C102_curve xs dn : List.length xs = List.length dn ->
  ordered (curve xs dn) /\ (forall x y, In (x, y) (curve xs dn) <-> exists k v, nth_error xs k = Some x /\ nth_error dn k = Some (Val v) /\ y = 2 * v) /\
  Permutation (curve xs dn) (finite (combine xs dn)).
Proof.
  intros L. split; [apply by_x_ordered|]. split; [|apply by_x_perm]. intros x y.
  assert (A : In (x, y) (curve xs dn) <-> In (x, y) (finite (combine xs dn))).
  { split; apply Permutation_in; [apply by_x_perm|apply Permutation_sym, by_x_perm]. }
  rewrite A, in_finite. clear A. split.
  - intros (v & I & ->). apply In_nth_error in I. destruct I as (k & K). exists k, v.
    revert dn L k K. induction xs as [|a xs IH]; intros [|e dn] L k K; try discriminate L; [destruct k; discriminate K|]. destruct k as [|k]; cbn in K |- *.
    + injection K as -> ->. repeat split. ring.
    + apply (IH dn); [injection L as L; exact L|exact K].
  - intros (k & v & X & E & ->). exists v. split; [|ring]. revert dn L k X E. induction xs as [|a xs IH]; intros [|e dn] L k X E; try (destruct k; discriminate).
    destruct k as [|k]; cbn in X, E |- *; [injection X as ->; injection E as ->; left; reflexivity|right; apply (IH dn) with (k := k); [injection L as L; exact L|assumption|assumption]].
Qed.
(** the axes show all of it *)
Theorem C102_limits l lo hi : limits None l = Ok (lo, hi) -> (forall x, In x l -> lo <= x <= hi) /\ In lo l /\ In hi l.
Proof.
  destruct l as [|x l]; [discriminate|]. intros E. injection E as <- <-. destruct (min_list x l) as (A & B), (max_list x l) as (C & D). split; [|split; assumption].
  intros y I. split; auto.
Qed.
Theorem C102_no_points : limits None [] = Raise ValueError /\ forall xs n, curve xs (repeat Unset n) = [].
Proof.
  split; [reflexivity|]. intros xs n. unfold curve. replace (finite (combine xs (repeat Unset n))) with (@nil (R * R)); [reflexivity|].
  revert n. induction xs as [|x xs IH]; intros [|n]; try reflexivity. cbn. rewrite <- IH. reflexivity.
Qed.
(** the parabola *)
Theorem C102_parabola value variance v y : 0 < variance -> In (v, y) (parabola value variance) ->
  y = (v - value) * (v - value) / variance /\ value - 3 * sqrt variance <= v <= value + 3 * sqrt variance /\ 0 <= y <= 9.
Proof.
  intros P I. unfold parabola in I. apply in_map_iff in I. destruct I as (o & E & I). cbv zeta in E. injection E as <- <-.
  unfold linspace in I. apply in_map_iff in I. destruct I as (k & <- & K). apply in_seq in K. assert (S := sqrt_lt_R0 _ P). assert (S2 := sqrt_sqrt _ (Rlt_le _ _ P)).
  replace (100 - 1)%nat with 99%nat by reflexivity. assert (K0 : 0 <= INR k <= 99).
  { split; [apply pos_INR|]. replace 99 with (INR 99) by (cbn; lra). apply le_INR. lia. }
  replace (INR 99) with 99 by (cbn; lra). set (s := sqrt variance) in *.
  set (o := -3 * s + INR k * ((3 * s - -3 * s) / 99)). assert (O : o = s * (-3 + 6 * (INR k / 99))) by (unfold o; field).
  assert (U : -3 <= -3 + 6 * (INR k / 99) <= 3) by lra. set (u := -3 + 6 * (INR k / 99)) in *. clearbody u.
  assert (U2 : 0 <= u * u <= 9).
  { split; [apply Rle_0_sqr|]. assert (0 <= (3 - u) * (3 + u)) by (apply Rmult_le_pos; lra). lra. }
  replace (value + o - value) with (s * u) by (rewrite O; ring). rewrite O. split; [field; lra|]. split.
  - assert (s * -3 <= s * u <= s * 3); [|lra]. split; apply Rmult_le_compat_l; lra.
  - replace (1 / variance * (s * u * (s * u))) with (u * u); [exact U2|]. rewrite <- S2. field. lra.
Qed.
(** it is the profile likelihood of a Gaussian likelihood: a scan that minimises over the other parameters lies on it, and so do the ends of contour scans *)
Theorem C102_hessian n H C frozen i value : floating_min n H frozen -> floating_cov n H frozen C -> (i < n)%nat -> frozen i = false ->
  (forall v y, In (v, y) (parabola value (C i i)) -> profile1 n H frozen i (v - value) y) /\
  (forall x w, profile1 n H frozen i (x - value) (2 * w) -> forall xs dn, In (x, Val w) (combine xs dn) -> In (x, (x - value) * (x - value) / C i i) (curve xs dn)) /\
  (forall cl down up x y, (forall d, down = Some d \/ up = Some d -> profile1 n H frozen i d (cl * cl)) -> In (x, y) (contour_points value cl down up) -> y = (x - value) * (x - value) / C i i).
Proof.
  intros FM FC I F. assert (P := col_pos n H C frozen i FM FC I F). split; [|split].
  - intros v y V. apply C102_parabola in V; [|exact P]. destruct V as (-> & _). apply profile1_ok with (C := C); assumption.
  - intros x w Q xs dn J. assert (E := profile1_unique _ _ _ _ _ _ _ Q (profile1_ok n H C frozen FM FC i (x - value) I F)).
    apply (Permutation_in _ (Permutation_sym (by_x_perm _))). apply in_finite. exists w. split; [exact J|]. lra.
  - intros cl down up x y Q J. unfold contour_points in J. apply in_flat_map in J. destruct J as (e & E & J). destruct e as [d|]; [|destruct J]. destruct J as [J|[]]. injection J as <- <-.
    assert (Qd : profile1 n H frozen i d (cl * cl)) by (apply Q; destruct E as [E|[E|[]]]; auto).
    replace (d + value - value) with d by ring. exact (profile1_unique _ _ _ _ _ _ _ Qd (profile1_ok n H C frozen FM FC i d I F)).
Qed.

(** ** two parameters *)
(** the ellipse is the contour of the profile likelihood of a Gaussian likelihood: exactly the points with -2 delta log L = cl *)
Theorem C102_ellipse n H C frozen i j mu0 mu1 cl x y : floating_min n H frozen -> floating_cov n H frozen C -> (i < n)%nat -> (j < n)%nat -> frozen i = false -> frozen j = false -> i <> j -> 0 < cl ->
  (exists t, ellipse (C i i) (C j i) (C j j) mu0 mu1 cl t = (x, y)) <-> profile2 n H frozen i j (x - mu0) (y - mu1) cl.
Proof.
  intros FM FC I J F G N L. rewrite (cov_sym n H C frozen FM FC j i J I G F). assert (P := cov2_ok n H C frozen FM FC i j I J F G N). assert (Q := profile2_ok n H C frozen FM FC i j I J F G N (x - mu0) (y - mu1)). split.
  - intros (t & E). assert (O := ellipse_on _ _ _ P mu0 mu1 cl t (Rlt_le _ _ L)). rewrite E in O. cbn [fst snd] in O. rewrite O in Q. exact Q.
  - intros W. apply (ellipse_all _ _ _ P); [exact L|]. exact (profile2_unique _ _ _ _ _ _ _ _ _ Q W).
Qed.
(** it extends to sqrt(cl) standard deviations *)
Theorem C102_extent a b c mu0 mu1 cl : cov2 a b c -> 0 < cl ->
  (forall t, Rabs (fst (ellipse a b c mu0 mu1 cl t) - mu0) <= sqrt (cl * a)) /\ exists t, fst (ellipse a b c mu0 mu1 cl t) = mu0 + sqrt (cl * a).
Proof.
  intros P L. pose proof P as (A & C & D). assert (W : 0 < cl * a) by (apply Rmult_lt_0_compat; lra). assert (S2 := sqrt_sqrt _ (Rlt_le _ _ W)). split.
  - intros t. assert (O := ellipse_on a b c P mu0 mu1 cl t (Rlt_le _ _ L)). set (d := fst (ellipse a b c mu0 mu1 cl t) - mu0) in *.
    assert (B := maha_bound a b c d (snd (ellipse a b c mu0 mu1 cl t) - mu1) P). rewrite O in B. rewrite <- sqrt_Rsqr_abs. apply sqrt_le_1_alt. unfold Rsqr.
    replace (d * d) with (d * d / a * a) by (field; lra). apply Rmult_le_compat_r; lra.
  - destruct (ellipse_all a b c P mu0 mu1 cl (mu0 + sqrt (cl * a)) (mu1 + b * sqrt (cl * a) / a) L) as (t & E).
    + replace (mu0 + sqrt (cl * a) - mu0) with (sqrt (cl * a)) by ring. replace (mu1 + b * sqrt (cl * a) / a - mu1) with (b * sqrt (cl * a) / a) by ring. set (s := sqrt (cl * a)) in *. clearbody s.
      unfold maha. replace (c * s * s - 2 * b * s * (b * s / a) + a * (b * s / a) * (b * s / a)) with ((s * s) / a * (a * c - b * b)) by (field; lra). rewrite S2. field. split; lra.
    + exists t. rewrite E. reflexivity.
Qed.
(** with scales it is the scaled ellipse *)
Theorem C102_scaled s0 s1 v0 v1 a b c cl x y : s0 <> 0 -> s1 <> 0 -> cov2 a b c -> 0 < cl ->
  (exists t, scaled_ellipse s0 s1 v0 v1 a b c cl t = (s0 * x, s1 * y)) <-> exists t, ellipse a b c v0 v1 cl t = (x, y).
Proof.
  intros N0 N1 P L. assert (Q := cov2_scaled s0 s1 a b c N0 N1 P). assert (E := maha_scaled s0 s1 a b c (x - v0) (y - v1) N0 N1 P).
  replace (s0 * (x - v0)) with (s0 * x - s0 * v0) in E by ring. replace (s1 * (y - v1)) with (s1 * y - s1 * v1) in E by ring. unfold scaled_ellipse. split.
  - intros (t & T). assert (O := ellipse_on _ _ _ Q (s0 * v0) (s1 * v1) cl t (Rlt_le _ _ L)). rewrite T in O. cbn [fst snd] in O. apply (ellipse_all _ _ _ P); [exact L|]. rewrite <- E. exact O.
  - intros (t & T). assert (O := ellipse_on _ _ _ P v0 v1 cl t (Rlt_le _ _ L)). rewrite T in O. cbn [fst snd] in O. apply (ellipse_all _ _ _ Q); [exact L|]. rewrite E. exact O.
Qed.
(** the levels: the probability of chi2 with two degrees of freedom, 1 - exp(-x/2), is as given *)
Theorem C102_levels p x : 0 <= p < 1 -> x = chi2_ppf2 p <-> 1 - exp (- x / 2) = p.
Proof.
  intros P. unfold chi2_ppf2. split.
  - intros ->. replace (- (-2 * ln (1 - p)) / 2) with (ln (1 - p)) by field. rewrite exp_ln by lra. ring.
  - intros <-. replace (1 - (1 - exp (- x / 2))) with (exp (- x / 2)) by ring. rewrite ln_exp. field.
Qed.
(** one pair of scales for each pair of parameters *)
Theorem C102_scales n given l : scales_of n given = Ok l -> List.length l = n /\ forall k, (k < n)%nat -> nth k l (0, 0) = nth k given (1, 1).
Proof.
  unfold scales_of. destruct (Nat.ltb_spec n (List.length given)) as [A|A]; [discriminate|]. intros E. injection E as <-. rewrite app_length, repeat_length. split; [lia|].
  intros k K. destruct (Nat.lt_ge_cases k (List.length given)) as [B|B].
  - rewrite app_nth1 by exact B. apply nth_indep. exact B.
  - rewrite app_nth2 by exact B. rewrite (nth_overflow given) by exact B. rewrite (nth_indep _ (0, 0) (1, 1)) by (rewrite repeat_length; lia). apply nth_repeat.
Qed.
(** the map: right for a Gaussian likelihood scanned in units of the uncertainties *)
Theorem C102_map_gaussian a b c (ds : nat -> R) g : cov2 a b c -> (forall i j, 2 * g i j = maha a b c (ds i * sqrt a) (ds j * sqrt c)) -> forall i j, drawn g i j = 2 * g i j.
Proof.
  intros (A & C & D) E i j. unfold drawn. rewrite !E. unfold maha. assert (SA := sqrt_sqrt _ (Rlt_le _ _ A)). assert (SC := sqrt_sqrt _ (Rlt_le _ _ C)). f_equal.
  set (u := sqrt a) in *. set (w := sqrt c) in *.
  transitivity (c * (u * u) * (ds j * ds j) - 2 * b * (u * w) * (ds i * ds j) + a * (w * w) * (ds i * ds i)); [ring|]. rewrite SA, SC.
  transitivity (c * (u * u) * (ds i * ds i) - 2 * b * (u * w) * (ds i * ds j) + a * (w * w) * (ds j * ds j)); [rewrite SA, SC|]; ring.
Qed.

(** ** names *)
Theorem C102_read {A} (scans : list (string * A)) all given : NoDup (map fst scans) -> (forall p, In p (params_of given all) -> In p all /\ In p (map fst scans)) ->
  exists l, read_scans (store1 scans) all (params_of given all) = Ok l /\ map fst l = params_of given all /\ forall p h, In (p, h) l -> In (p, h) scans.
Proof.
  intros N Q. generalize (params_of given all) Q. clear Q. intros ps Q.
  assert (G : forall p, In p (map fst scans) -> exists h, dget (key1 p) (store1 scans) = Some h /\ In (p, h) scans).
  { clear Q. unfold store1.
    assert (K : forall (s : list (string * A)) d p, NoDup (map fst s) -> (In p (map fst s) -> exists h, dget (key1 p) (fold_left (fun d s => dset (key1 (fst s)) (snd s) d) s d) = Some h /\ In (p, h) s) /\
                (~ In p (map fst s) -> dget (key1 p) (fold_left (fun d s => dset (key1 (fst s)) (snd s) d) s d) = dget (key1 p) d)).
    { induction s as [|(q & h) s IH]; intros d p ND; [split; [intros []|reflexivity]|]. cbn [map fst] in ND. inversion ND as [|? ? Nq ND']; subst. cbn [fold_left fst snd]. split.
      - intros [E|I].
        + cbn in E. subst q. exists h. split; [|left; reflexivity]. rewrite (proj2 (IH _ p ND') Nq). apply dget_dset_same.
        + destruct (proj1 (IH (dset (key1 q) h d) p ND') I) as (h' & X & Y). exists h'. split; [exact X|right; exact Y].
      - intros NI. cbn in NI. rewrite (proj2 (IH _ p ND')) by tauto. apply dget_dset_other. unfold key1. intros E. apply Session_Proof.app_inj_l in E. apply NI. left. exact E. }
    intros p I. exact (proj1 (K scans [] p N) I). }
  induction ps as [|p ps IH]; [exists []; repeat split; intros ? ? []|].
  destruct (Q p) as (I & J); [left; reflexivity|]. destruct (G p J) as (h & D & M). destruct IH as (l & R & F & O); [intros q Iq; apply Q; right; exact Iq|].
  exists ((p, h) :: l). cbn [read_scans]. replace (existsb (String.eqb p) all) with true by (symmetry; apply existsb_exists; exists p; split; [exact I|apply String.eqb_refl]).
  rewrite D, R. cbn [rbind map fst]. rewrite F. repeat split. intros q k [E|E]; [injection E as <- <-; exact M|apply O; exact E].
Qed.
(** two-dimensional scans: the names determine the parameters if the first ones have no underscore *)
Definition no_char (c : ascii) (s : string) : Prop := ~ In c (list_ascii_of_string s).
Theorem C102_key2 p q p' q' : no_char "_" p -> no_char "_" p' -> key2 p q = key2 p' q' -> p = p' /\ q = q'.
Proof.
  intros A B E. unfold key2 in E. apply Session_Proof.app_inj_l in E. revert p' B E. induction p as [|c p IH]; intros [|c' p'] B E.
  - cbn in E. injection E as E. auto.
  - cbn in E. injection E as E _. exfalso. apply B. left. symmetry. exact E.
  - cbn in E. injection E as E _. exfalso. apply A. left. exact E.
  - cbn in E. injection E as E1 E. destruct (IH (fun I => A (or_intror I)) p' (fun I => B (or_intror I)) E) as (-> & ->). subst. auto.
Qed.
Theorem C102_file2 p q postfix : no_char "." p -> no_char "." q -> file2 p q None = key2 p q /\ (postfix <> ""%string -> file2 p q (Some postfix) = (key2 p q ++ "_" ++ postfix)%string).
Proof.
  intros A B. assert (S : stem (key2 p q) = key2 p q).
  { unfold stem. assert (K : forall l, ~ In "."%char l -> after_dot l = None).
    { induction l as [|c l IH]; intros NI; [reflexivity|]. cbn [after_dot]. destruct (Ascii.eqb_spec c "."%char) as [->|_]; [exfalso; apply NI; left; reflexivity|]. apply IH. intros I. apply NI. right. exact I. }
    rewrite K; [reflexivity|]. rewrite <- in_rev. unfold key2. fold (chars ("nll_scan2D_" ++ p ++ "_" ++ q)). rewrite !chars_app. intros I. apply in_app_or in I. destruct I as [I|I].
    - cbn in I. intuition discriminate.
    - apply in_app_or in I. destruct I as [I|I]; [exact (A I)|]. apply in_app_or in I. destruct I as [I|I]; [|exact (B I)]. cbn in I. intuition discriminate. }
  unfold file2. rewrite S. clear S. split; [induction (key2 p q) as [|c s IH]; [reflexivity|cbn; rewrite IH; reflexivity]|].
  intros N. apply String.eqb_neq in N. rewrite N. reflexivity.
Qed.

(** ** Examples *)
Example C102_ex_curve : curve [1; -1; 0; 2] [Val 0.5; Val 0.4; Val 0; Unset] = [(-1, 0.4 * 2); (0, 0 * 2); (1, 0.5 * 2)].
Proof. unfold curve. cbn. unfold by_x. cbn. repeat (cbn; destruct (Rle_dec _ _); try lra). reflexivity. Qed.
Example C102_ex_limits : limits None [1; -1; 2] = Ok (-1, 2) /\ limits (Some (0, 7)) [1; -1; 2] = Ok (0, 7).
Proof. cbn. unfold Rmin, Rmax. split; [|reflexivity]. repeat (destruct (Rle_dec _ _); try lra); reflexivity. Qed.
Example C102_ex_parabola : exists v y, nth_error (parabola 5 4) 99 = Some (v, y) /\ v = 11 /\ y = 9.
Proof.
  eexists. eexists. split; [cbn [parabola map linspace seq nth_error]; reflexivity|]. replace (sqrt 4) with 2 by (replace 4 with (2 * 2) by ring; symmetry; apply sqrt_square; lra).
  cbn. split; field.
Qed.
Example C102_ex_contour : contour_points 5 2 (Some (-3)) (Some 4) = [(4 + 5, 2 * 2); (-3 + 5, 2 * 2)] /\ contour_points 5 2 None (Some 4) = [(4 + 5, 2 * 2)].
Proof. split; reflexivity. Qed.
Example C102_ex_ellipse : cov2 4 1 1 /\ maha 4 1 1 2 0.5 = 1 /\ (exists t, ellipse 4 1 1 10 20 1 t = (12, 20.5)) /\ ~ exists t, ellipse 4 1 1 10 20 1 t = (12, 20).
Proof.
  assert (P : cov2 4 1 1) by (unfold cov2; repeat split; lra). split; [exact P|]. split; [unfold maha; lra|]. split.
  - apply (ellipse_all 4 1 1 P); [lra|]. unfold maha. lra.
  - intros (t & E). assert (O := ellipse_on 4 1 1 P 10 20 1 t ltac:(lra)). rewrite E in O. cbn in O. unfold maha in O. lra.
Qed.
Example C102_ex_scales : scales_of 2 [(3, 4)] = Ok [(3, 4); (1, 1)] /\ scales_of 0 [(3, 4)] = Raise GenericException.
Proof. split; reflexivity. Qed.
Example C102_ex_unknown : read_scans (store1 [("pt"%string, 1%nat); ("eta"%string, 2%nat)]) ["eta"; "phi"]%string ["pt"; "eta"]%string = Raise KeyError.
Proof. reflexivity. Qed.
Example C102_ex_read : read_scans (store1 [("pt"%string, 1%nat); ("eta"%string, 2%nat)]) ["eta"; "pt"; "phi"]%string ["eta"; "pt"]%string = Ok [("eta"%string, 2%nat); ("pt"%string, 1%nat)] /\
  file1 "pt" (Some "v2"%string) = "nll_scan_pt_v2"%string /\ file2 "pt" "eta" (Some "v2"%string) = "nll_scan2D_pt_eta_v2"%string /\ file1 "pt" (Some ""%string) = "nll_scan_pt"%string.
Proof. repeat split. Qed.

(** ** Where the expectation fails *)
(** the map has rows along the first parameter, where pcolormesh and contour expect the second one: with --scanRangeUsePrefit, or any likelihood that is not symmetric, the plot is mirrored *)
Theorem C102_map_refuted : exists a b c (ds : nat -> R) g, cov2 a b c /\ (forall i j, 2 * g i j = maha a b c (ds i) (ds j)) /\ 2 * g 2%nat 1%nat = 1 /\ drawn g 2 1 = 0.25.
Proof.
  exists 1, 0, 4, (fun i => INR i - 1), (fun i j => maha 1 0 4 (INR i - 1) (INR j - 1) / 2). split; [unfold cov2; repeat split; lra|]. split; [intros; field|]. unfold drawn, maha. cbn. split; lra.
Qed.
(** different pairs of parameters with the same name: only the last scan is kept, and it is plotted for both *)
Theorem C102_key2_refuted : exists p q p' q', p <> p' /\ forall (A : Type) (s s' : A), dget (key2 p q) (store2 [(p, q, s); (p', q', s')]) = Some s'.
Proof. exists "pdf"%string, "1_pt"%string, "pdf_1"%string, "pt"%string. split; [discriminate|]. intros A s s'. reflexivity. Qed.
(** names with a dot lose what follows: plots overwrite each other *)
Theorem C102_file2_refuted : exists p q q', q <> q' /\ key2 p q <> key2 p q' /\ file2 p q None = file2 p q' None.
Proof. exists "mass_80.4"%string, "pt"%string, "eta"%string. repeat split; discriminate. Qed.
(** without --params all parameters are plotted, although the fit may have scanned only some *)
Theorem C102_default_refuted : exists (scans : list (string * nat)) all, scans <> [] /\ (forall p, In p (map fst scans) -> In p all) /\ read_scans (store1 scans) all (params_of [] all) = Raise KeyError.
Proof. exists [("pt"%string, 1%nat)], ["pt"; "eta"]%string. split; [discriminate|]. split; [intros p [<-|[]]; left; reflexivity|reflexivity]. Qed.

Print Assumptions C102_curve.
Print Assumptions C102_limits.
Print Assumptions C102_no_points.
Print Assumptions C102_parabola.
Print Assumptions C102_hessian.
Print Assumptions C102_ellipse.
Print Assumptions C102_extent.
Print Assumptions C102_scaled.
Print Assumptions C102_levels.
Print Assumptions C102_scales.
Print Assumptions C102_map_gaussian.
Print Assumptions C102_read.
Print Assumptions C102_key2.
Print Assumptions C102_file2.
Print Assumptions C102_map_refuted.
Print Assumptions C102_key2_refuted.
Print Assumptions C102_file2_refuted.
Print Assumptions C102_default_refuted.
