(** C117: applying the nuisances of a bin to its yields. *)
From Coq Require Import List Reals Bool Lia Lra.
From Verif Require Import PyList RBase BBStat_Model Pernorm_Model Pernorm_Spec Pernorm_Proof.
Import ListNotations.
Local Open Scope R_scope.

(** three processes, the second without uncertainty *)
Definition zv : conf := mkConf true false (Some [false; true; false]) (false, 2, 3) [].
Example C117_ex_split : with_beta Gamma zv false [1; 5; 4] = Ok (20, Some [3; 5; 12]).
Proof. cbn. unfold sumR. cbn. repeat f_equal; ring. Qed.
Example C117_ex_merged : with_beta NormalAdd (mkConf true false None (false, 2, 3) []) false [1; 5; 4] = Ok (16, None).
Proof. cbn. unfold sumR. cbn. repeat f_equal; ring. Qed.
Example C117_ex_full : with_beta NormalMult (mkConf true true None (false, 0, 0) [(false, 0, 2); (true, 0, 7)]) false [1; 5] = Ok (7, Some [2; 5]).
Proof. cbn. unfold sumR. cbn. repeat f_equal; ring. Qed.
(** The yields of the processes are computed wherever they are used, *)
Theorem C117_available t c compute_norm rows : exists n o, with_beta t c compute_norm rows = Ok (n, o).
Proof.
  unfold with_beta, host, apply, needs. destruct (c_on c), (c_full c), (c_zero c), (c_one c) as ((m & s) & b), compute_norm; cbn [negb orb get rbind]; eauto.
Qed.
(** and not computed only where they are not: otherwise the code would stop. *)
Theorem C117_needed t c nexp : needs c = true <-> apply t c false nexp None = Raise TypeError.
Proof.
  unfold apply, needs. destruct (c_on c), (c_full c), (c_zero c), (c_one c) as ((m & s) & b); cbn [negb get rbind]; split; try discriminate; auto.
Qed.
(** Without nuisances nothing changes. *)
Theorem C117_off t c compute_norm rows : c_on c = false -> with_beta t c compute_norm rows = Ok (sumR rows, if compute_norm then Some rows else None).
Proof. intros O. unfold with_beta, host, apply, needs. rewrite O. cbn [negb]. rewrite orb_false_r. reflexivity. Qed.
(** Full mode: the yield of every process is scaled, or shifted, by its own nuisance. *)
Theorem C117_full t c compute_norm rows : c_on c = true -> c_full c = true -> exists n r, with_beta t c compute_norm rows = Ok (n, Some r) /\ n = sumR r /\
  forall i m s b y, nth_error (c_each c) i = Some (m, s, b) -> nth_error rows i = Some y ->
    nth_error r i = Some (match t with NormalAdd => y + s * b | _ => if m then y else b * y end).
Proof.
  intros O F. unfold with_beta, host, apply, needs. rewrite O, F, orb_true_r. cbn [negb get rbind]. do 2 eexists. split; [reflexivity|]. split; auto.
  unfold each. generalize (c_each c). intros ns. revert rows. induction ns as [|x ns IH]; intros rows i m s b y E R; [destruct i; discriminate|].
  destruct rows as [|r rows]; [destruct i; discriminate|]. destruct i as [|i]; [injection E as ->; injection R as ->; reflexivity|]. exact (IH rows i m s b y E R).
Qed.
(** The total does not depend on whether the yields of the processes are asked for; if they are, they are returned. *)
Theorem C117_total t c rows n o n' o' : with_beta t c false rows = Ok (n, o) -> with_beta t c true rows = Ok (n', o') -> n = n' /\ exists r, o' = Some r.
Proof.
  unfold with_beta, host, apply, needs. destruct (c_on c), (c_full c), (c_zero c), (c_one c) as ((m & s) & b); cbn [negb orb get rbind]; intros E F; injection E as <- <-; injection F as <- <-; eauto.
Qed.
(** They add up to the total; for additive nuisances without process information the total before must not be zero. *)
Theorem C117_sum t c rows n r : (t = NormalAdd -> c_on c = true -> c_full c = false -> c_zero c = None -> sumR rows <> 0) ->
  with_beta t c true rows = Ok (n, Some r) -> n = sumR r.
Proof.
  intros NZ. unfold with_beta, host, apply, needs. destruct (c_on c), (c_full c), (c_zero c), (c_one c) as ((m & s) & b); cbn [negb orb get rbind]; intros E; injection E as <- <-; auto.
  assert (M : forall k, sumR (map (fun r => k * r) rows) = k * sumR rows).
  { intros k. clear NZ. induction rows as [|x rows IH]; [cbn; ring|]. cbn [map]. rewrite !sR_cons, IH. ring. }
  destruct t.
  - destruct m; [rewrite map_id; auto|rewrite M; ring].
  - destruct m; [rewrite map_id; auto|rewrite M; ring].
  - specialize (NZ eq_refl eq_refl eq_refl eq_refl). rewrite (map_ext _ (fun r => r + (s * b / sumR rows) * r)) by (intros; unfold Rdiv; ring). rewrite sR_scale. field. auto.
Qed.
(** Lite mode: the nuisance changes the yield of processes with uncertainty only. *)
Theorem C117_lite t c zs m s b compute_norm rows n r : c_on c = true -> c_full c = false -> c_zero c = Some zs -> c_one c = (m, s, b) -> List.length zs = List.length rows ->
  with_beta t c compute_norm rows = Ok (n, Some r) ->
  (forall i, nth_error zs i = Some true -> nth i r 0 = nth i rows 0) /\
  match t with
  | NormalAdd => 0 < yield_if false zs rows -> n = sumR rows + s * b
  | _ => n = (if m then 1 else b) * yield_if false zs rows + yield_if true zs rows
  end.
Proof.
  intros O F Z N L. unfold with_beta, host, apply, needs. rewrite O, F, Z, N. rewrite orb_true_r. cbn [negb get rbind]. intros E. remember (split t zs (m, s, b) rows) as q eqn:Q. injection E as <- <-. rewrite Q.
  split; [intros i; apply split_zero|]. rewrite split_total by auto. destruct t; auto. intros P. destruct (Rltb_spec 0 (yield_if false zs rows)); [ring|lra].
Qed.
(** The branches are those used for the profiles: the predictions whose likelihood the profiled nuisances minimise (C26, C27) are the ones computed here. *)
Theorem C117_profiled_lite t bi zs beta rows : List.length zs = List.length rows ->
  split t zs (bi_mask bi, sqrt (bi_varbeta bi), beta) rows = apply_lite t bi (combine zs rows) beta.
Proof.
  intros L. unfold split, apply_lite. cbv zeta.
  assert (NA : sumR (map (fun zr : bool * R => if fst zr then 0 else snd zr) (combine zs rows)) = n_active (combine zs rows)) by reflexivity.
  rewrite NA. unfold safe_pos. destruct t; auto. generalize (n_active (combine zs rows)). intros a. clear NA. revert rows L.
  induction zs as [|z zs IH]; intros [|r rows] L; try discriminate; auto. cbn [combine map fst snd]. f_equal. apply IH. cbn in L; lia.
Qed.
Theorem C117_profiled_full t es betas :
  each t (map (fun eb : fentry * R => (bi_mask (fe_info (fst eb)), fsbeta (fst eb), snd eb)) (combine es betas)) (map fe_n es) = apply_full t es betas.
Proof.
  unfold each, apply_full. revert betas. induction es as [|e es IH]; intros [|b betas]; auto. cbn [combine map fst snd]. f_equal. apply IH.
Qed.
(** If every process has an uncertainty the result is that of the code for merged variances, for additive nuisances where the yield is positive. *)
Theorem C117_merged t c m s b compute_norm rows : c_on c = true -> c_full c = false -> c_one c = (m, s, b) -> (t = NormalAdd -> 0 < sumR rows) ->
  forall n o n' o', c_zero c = Some (map (fun _ => false) rows) -> with_beta t c compute_norm rows = Ok (n, o) ->
  with_beta t (mkConf true false None (m, s, b) []) compute_norm rows = Ok (n', o') -> n = n'.
Proof.
  intros O F N P n o n' o' Z. unfold with_beta, host, apply, needs. rewrite O, F, Z, N. rewrite orb_true_r. cbn [negb get rbind c_on c_full c_zero c_one].
  intros E E'. remember (split t (map (fun _ => false) rows) (m, s, b) rows) as q eqn:Q. injection E as <- _. assert (X : n' = match t with NormalAdd => sumR rows + s * b | _ => if m then sumR rows else sumR rows * b end).
  { destruct compute_norm; cbn [orb get rbind] in E'; injection E' as <- _; auto. }
  rewrite X, Q, split_total by apply map_length. destruct (yield_none rows) as (-> & ->).
  destruct t; [destruct m; ring|destruct m; ring|]. specialize (P eq_refl). destruct (Rltb_spec 0 (sumR rows)); [ring|lra].
Qed.
(** Without that condition they differ: in a bin without yield the additive nuisance has no effect if variances are stored per process. *)
Theorem C117_empty_refuted : exists c rows n o n' o', c_one c = (false, 2, 1) /\ c_zero c = Some (map (fun _ => false) rows) /\
  with_beta NormalAdd c false rows = Ok (n, o) /\ with_beta NormalAdd (mkConf true false None (false, 2, 1) []) false rows = Ok (n', o') /\ n = 0 /\ n' = 2.
Proof.
  exists (mkConf true false (Some [false; false]) (false, 2, 1) []), [1; -1], (sumR (split NormalAdd [false; false] (false, 2, 1) [1; -1])),
    (Some (split NormalAdd [false; false] (false, 2, 1) [1; -1])). do 2 eexists. split; [reflexivity|]. split; [reflexivity|]. split; [reflexivity|]. split; [reflexivity|].
  split.
  - rewrite split_total by reflexivity. cbn [yield_if Bool.eqb]. destruct (Rltb_spec 0 (1 + (-1 + 0))); [lra|]. unfold sumR; cbn [fold_right]. ring.
  - unfold sumR; cbn [fold_right]. ring.
Qed.

Print Assumptions C117_available.
Print Assumptions C117_needed.
Print Assumptions C117_off.
Print Assumptions C117_full.
Print Assumptions C117_total.
Print Assumptions C117_sum.
Print Assumptions C117_lite.
Print Assumptions C117_profiled_lite.
Print Assumptions C117_profiled_full.
Print Assumptions C117_merged.
Print Assumptions C117_empty_refuted.
