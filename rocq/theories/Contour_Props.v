From Coq Require Import Reals List Arith Bool String Lra Lia.
From Verif Require Import RBase PyList Mat_Model Mat_Proof Impacts_Model Impacts_Solve Contour_Model Contour_Spec Contour_Proof.
Import ListNotations.
Open Scope R_scope.
Open Scope string_scope.
Open Scope R_scope.

(** ** C91: contour scans *)
(** whatever the minimiser asks, in whatever order and at whatever points, its answers are those of the likelihood, with and without
    the caches; the parameters are put back on success and on failure; a side that fails is NaN *)
Theorem C91_scan : forall L cov parms frozen param nll q signs fn hm opt x, In param parms -> hm = HExact \/ hm = HHvp \/ hm = HBfgs \/ hm = HSr1 ->
  exists iv pv idx, contour_scan L cov parms frozen param nll q signs fn hm opt x = Ok (iv, pv, x) /\ nth_error parms idx = Some param /\
    List.length iv = List.length signs /\ List.length pv = List.length signs /\
    forall i sign, nth_error signs i = Some sign ->
      side_of (scan_answer L nll q hm [] fn idx x) fn idx x (fun s => opt (warm_start cov frozen q idx s x)) sign (nth i iv None) (nth i pv None).
Proof. exact contour_scan_ok. Qed.
(** the same with the Hessian replaced by the inverse of the covariance *)
Theorem C91_frozen_mode : forall L cov parms frozen param nll q signs fn opt x, In param parms -> regular (List.length x) cov ->
  exists iv pv idx ph, contour_scan L cov parms frozen param nll q signs fn HFrozen opt x = Ok (iv, pv, x) /\ nth_error parms idx = Some param /\
    (forall i j, (i < List.length x)%nat -> (j < List.length x)%nat -> sm (List.length x) (fun l => cov i l * nth j (nth l ph []) 0) = if Nat.eqb i j then 1 else 0) /\
    List.length iv = List.length signs /\ List.length pv = List.length signs /\
    forall i sign, nth_error signs i = Some sign ->
      side_of (scan_answer L nll q HFrozen ph fn idx x) fn idx x (fun s => opt (warm_start cov frozen q idx s x)) sign (nth i iv None) (nth i pv None).
Proof. exact contour_scan_frozen. Qed.
(** these statements determine the result *)
Theorem C91_determined : forall L nll q hm prec fn idx xval start sign iv pv iv' pv',
  side_of (scan_answer L nll q hm prec fn idx xval) fn idx xval start sign iv pv -> side_of (scan_answer L nll q hm prec fn idx xval) fn idx xval start sign iv' pv' ->
  iv = iv' /\ pv = pv'.
Proof. intros. eapply side_det; eauto. Qed.
Theorem C91_unknown : forall L cov parms frozen param nll q signs fn hm opt x, ~ In param parms -> hm <> HFrozen ->
  exists e, contour_scan L cov parms frozen param nll q signs fn hm opt x = Raise e.
Proof.
  intros L cov parms frozen param nll q signs fn hm opt x N HM. unfold contour_scan. assert (F := find_param_spec param parms).
  destruct (find_param param parms) as [i|]; [exfalso; apply N; eapply nth_error_In; apply F|].
  destruct hm; try contradiction; cbn [rbind]; eauto.
Qed.
(** for a Gaussian likelihood the minimiser starts at the solution: on the contour, and the only point of it farthest along the parameter *)
Theorem C91_warm_start : forall L H C frozen q j sign xval, gaussian L H xval -> floating_min (List.length xval) H frozen -> floating_cov (List.length xval) H frozen C ->
  (j < List.length xval)%nat -> frozen j = false -> 0 <= q -> sign = 1 \/ sign = -1 ->
  exists x1, warm_start C frozen q j sign xval = map Some x1 /\ List.length x1 = List.length xval /\
    nth j x1 0 = nth j xval 0 + sign * (sqrt q * sqrt (C j j)) /\
    farthest (fun x => floating_move (List.length xval) frozen (fun i => x i - nth i xval 0)) (fun x => cl_loss L (listed (List.length xval) x)) (cl_loss L xval + / 2 * q) j sign (fun i => nth i x1 0) /\
    forall y, farthest (fun x => floating_move (List.length xval) frozen (fun i => x i - nth i xval 0)) (fun x => cl_loss L (listed (List.length xval) x)) (cl_loss L xval + / 2 * q) j sign y ->
      listed (List.length xval) y = x1.
Proof. exact warm_start_spec. Qed.
(** frozen parameters start where they are, whatever the covariance *)
Theorem C91_frozen_start : forall C frozen q j sign xval k, (k < List.length xval)%nat -> frozen k = true ->
  nth k (warm_start C frozen q j sign xval) None = Some (nth k xval 0).
Proof. exact warm_start_frozen. Qed.
(** for any continuous likelihood that grows beyond the level, the farthest point of the contour is an end of the interval of the
    profile likelihood: the smallest value over the other parameters is the level *)
Theorem C91_profile : forall (F : (nat -> R) -> Prop) (L : (nat -> R) -> R) level idx sign x, sign = 1 \/ sign = -1 ->
  (forall y z, (forall i, y i = z i) -> L y = L z) -> (forall y t, F y -> F (along idx y t)) ->
  (forall y, F y -> continuity (fun t => L (along idx y t))) ->
  (forall y, F y -> exists t, sign * y idx <= sign * t /\ level <= L (along idx y t)) ->
  farthest F L level idx sign x -> profile_at F L idx (x idx) level.
Proof. exact farthest_profile. Qed.
(** the stored table: entry (parameter, level) holds the displacements of all parameters at both ends, for q the square of the level *)
Theorem C91_table : forall L cov parms frozen requested levels opt x, (forall p, In p requested -> In p parms) ->
  exists t, contours L cov parms frozen requested levels opt x = Ok (t, x) /\
    Forall2 (fun p row => Forall2 (contour_entry L cov parms frozen opt x p) levels row) (match requested with [] => parms | _ => requested end) t.
Proof. exact contours_ok. Qed.

(** one parameter with mean 5 and width 3; a minimiser that looks at the constraint twice and is satisfied with its start *)
Definition ex_L : clik := {| cl_loss := fun x => 7 + (nth 0 x 0 - 5) * (nth 0 x 0 - 5) / 18; cl_grad := fun x => [(nth 0 x 0 - 5) / 9]; cl_hess := fun _ => [[1 / 9]]; cl_hessp := fun _ p => [nth 0 p 0 / 9] |}.
Definition ex_opt (init : list (option R)) : strat :=
  match init with
  | [Some a] => Ask (QFun [a]) (fun r => Ask (QHess [a] [2]) (fun _ => Ask (QFun [a]) (fun r' => match r, r' with RNum v, RNum v' => Done (Reqb v 0 && Reqb v' 0) [a] | _, _ => Done false [] end)))
  | _ => Done false []
  end.
Lemma ex_warm s : warm_start (fun _ _ => 9) (fun _ => false) (2 * 2) 0 s [5] = [Some (5 + s * 6)].
Proof.
  unfold warm_start. cbn [List.length seq map nth]. unfold gauss_dx, tsqrt. rewrite !Rltb_false by lra. unfold odiv. replace 9 with (3 * 3) by ring. rewrite !sqrt_square by lra.
  rewrite Reqb_false by lra. repeat f_equal. field.
Qed.
Lemma ex_run s ok rx : s * s = 1 -> truthful (scan_answer ex_L (cl_loss ex_L [5]) (2 * 2) HExact [] None 0 [5] s) (ex_opt (warm_start (fun _ _ => 9) (fun _ => false) (2 * 2) 0 s [5])) ok rx ->
  ok = true /\ rx = [5 + s * 6].
Proof.
  intros Hs. rewrite ex_warm. cbn [ex_opt]. intros T. inversion T as [|? ? r ? ? A T1]; subst. destruct r as [v| | | |]; try contradiction A. cbn in A.
  inversion T1 as [|? ? r1 ? ? _ T2]; subst. inversion T2 as [|? ? r2 ? ? A2 T3]; subst. destruct r2 as [v2| | | |]; try contradiction A2. cbn in A2.
  assert (Z : v2 = 0). { rewrite A2. replace (5 + s * 6 - 5) with (s * 6) by ring. replace (s * 6 * (s * 6)) with (s * s * 36) by ring. rewrite Hs. field. }
  rewrite Z in T3. rewrite !Reqb_true in T3 by (lra || (rewrite <- A2; auto)). cbn [andb] in T3. inversion T3; subst; auto.
Qed.
Example C91_table_ex : contours ex_L (fun _ _ => 9) ["mu"%string] (fun _ => false) [] [2] ex_opt [5] = Ok ([[[Some [-6]; Some [6]]]], [5]).
Proof.
  destruct (C91_table ex_L (fun _ _ => 9) ["mu"%string] (fun _ => false) [] [2] ex_opt [5]) as (t & -> & F); [intros p []|].
  inversion F as [|? row ? t' F1 F2]; subst. inversion F2; subst. inversion F1 as [|? e ? row' E F3]; subst. inversion F3; subst.
  destruct E as (idx & down & up & id & iu & -> & Hi & (ok & rx & T & A) & (ok' & rx' & T' & A')). assert (idx = O) by (destruct idx as [|[|]]; [auto|discriminate|discriminate]). subst idx.
  apply ex_run in T; [|lra]. apply ex_run in T'; [|lra]. destruct T as (-> & ->), T' as (-> & ->).
  destruct A as (_ & d & -> & L1 & D1), A' as (_ & d' & -> & L2 & D2). cbn in L1, L2.
  destruct d as [|a [|? ?]]; try discriminate. destruct d' as [|a' [|? ?]]; try discriminate. specialize (D1 O ltac:(cbn; lia)). specialize (D2 O ltac:(cbn; lia)). cbn in D1, D2. subst. repeat f_equal; lra.
Qed.
Example C91_warm_start_ex : gaussian ex_L (fun _ _ => 1 / 9) [5] /\ floating_min 1 (fun _ _ => 1 / 9) (fun _ => false) /\ floating_cov 1 (fun _ _ => 1 / 9) (fun _ => false) (fun _ _ => 9).
Proof.
  split; [|split; [split|]].
  - intros x Hx. unfold form. cbn [List.length sm nth ex_L cl_loss]. field.
  - auto.
  - intros z _ (i & Hi & N). assert (i = O) by lia. subst. unfold form. cbn [sm]. assert (P := Rsqr_pos_lt _ N). unfold Rsqr in P. lra.
  - intros i j Hi Hj. assert (i = O) by lia. assert (j = O) by lia. subst. cbn [orb sm Nat.eqb]. lra.
Qed.
(** the profile likelihood of x^2 + (x - y)^2 / 2 is x^2: at level 4 the contour ends at x = 2, y = 2 *)
Example C91_profile_ex : let L := fun x => x O * x O + (x O - x 1%nat) * (x O - x 1%nat) / 2 in
  farthest (fun _ => True) L 4 0 1 (fun _ => 2) /\ profile_at (fun _ => True) L 0 2 4.
Proof.
  cbv zeta. match goal with |- ?A /\ _ => assert (F : A) end.
  { split; auto. split; [lra|]. intros y _ E. assert (S := Rle_0_sqr (y O - y 1%nat)). unfold Rsqr in S. apply Rnot_lt_le. intros N. assert (2 < y O) by lra.
    assert (2 * 2 < y O * y O) by (apply Rmult_le_0_lt_compat; lra). lra. }
  split; auto. apply (C91_profile (fun _ => True) _ 4 0 1 (fun _ => 2)); auto.
  - intros y z E. rewrite !E. auto.
  - intros y _. unfold along. cbn [Nat.eqb]. reg.
  - intros y _. exists (Rmax 2 (y O)). unfold along. cbn [Nat.eqb]. assert (X := Rmax_l 2 (y O)). assert (Y := Rmax_r 2 (y O)). set (t := Rmax 2 (y O)) in *. split; [lra|].
    assert (S := Rle_0_sqr (t - y 1%nat)). unfold Rsqr in S. assert (2 * 2 <= t * t) by (apply Rmult_le_compat; lra). lra.
Qed.

(** mode "frozen" ends in an error as soon as a parameter is frozen, as its row of the covariance is zero *)
Theorem C91_frozen_mode_refuted : forall L cov parms frozen param nll q signs fn opt x k, (k < List.length x)%nat -> (forall j, (j < List.length x)%nat -> cov k j = 0) ->
  contour_scan L cov parms frozen param nll q signs fn HFrozen opt x = Raise GenericException.
Proof. exact contour_scan_frozen_raises. Qed.
(** the scan of a frozen parameter (all parameters are scanned unless some are named) divides by its uncertainty of zero: the
    floating parameters start at NaN *)
Theorem C91_frozen_parameter_refuted : forall C frozen q j sign xval k, (k < List.length xval)%nat -> C j j = 0 -> frozen k = false ->
  nth k (warm_start C frozen q j sign xval) (Some 0) = None.
Proof.
  intros C frozen q j sign xval k Hk Z F. unfold warm_start. rewrite nth_map_seq by auto. unfold gauss_dx. rewrite F, Z. unfold tsqrt at 1. rewrite Rltb_false by lra.
  rewrite sqrt_0. destruct (tsqrt q); auto. unfold odiv. rewrite Reqb_true by auto. auto.
Qed.
(** the interval of an observable is its value at the end, not the distance: for the observable that is the parameter itself the two
    intervals differ by its fitted value *)
Theorem C91_observable_refuted : exists L cov opt x o, (forall y, co_val o y = nth 0 y 0) /\
  exists iv pv iv' pv', contour_scan L cov ["mu"%string] (fun _ => false) "mu" (cl_loss L x) 1 [1] None HHvp opt x = Ok (iv, pv, x) /\
    contour_scan L cov ["mu"%string] (fun _ => false) "mu" (cl_loss L x) 1 [1] (Some o) HHvp opt x = Ok (iv', pv', x) /\ pv = pv' /\ iv = [Some 3] /\ iv' = [Some 8].
Proof.
  exists ex_L, (fun _ _ => 9), (fun _ => Done true [8]), [5], {| co_val := fun x => nth 0 x 0; co_grad := fun _ => [1]; co_hessp := fun _ _ => [0] |}. split; auto.
  do 4 eexists. split; [reflexivity|]. split; [reflexivity|]. split; [reflexivity|]. split; [|reflexivity]. cbn [nth]. repeat f_equal. lra.
Qed.

Print Assumptions C91_scan.
Print Assumptions C91_warm_start.
Print Assumptions C91_profile.
Print Assumptions C91_table.
