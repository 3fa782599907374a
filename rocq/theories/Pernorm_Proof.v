(** Proofs about the application of nuisances to the yields of a bin. *)
From Coq Require Import List Reals Bool Lia Lra.
From Verif Require Import PyList RBase BBStat_Model Pernorm_Model Pernorm_Spec.
Import ListNotations.
Local Open Scope R_scope.

Lemma sR_cons x r : sumR (x :: r) = x + sumR r.
Proof. reflexivity. Qed.
Lemma sR_scale k : forall rows, sumR (map (fun r => r + k * r) rows) = sumR rows + k * sumR rows.
Proof. induction rows as [|r rows IH]; [cbn; ring|]. cbn [map]. rewrite !sR_cons, IH. ring. Qed.
Lemma active_sum : forall zs rows, sumR (map (fun zr : bool * R => if fst zr then 0 else snd zr) (combine zs rows)) = yield_if false zs rows.
Proof. induction zs as [|z zs IH]; intros [|r rows]; auto. cbn [combine map yield_if fst snd]. rewrite sR_cons, IH. destruct z; cbn; ring. Qed.
Lemma all_sum : forall zs rows, List.length zs = List.length rows -> sumR rows = yield_if false zs rows + yield_if true zs rows.
Proof. induction zs as [|z zs IH]; intros [|r rows] L; try discriminate; [cbn; ring|]. cbn [yield_if]. rewrite sR_cons, (IH rows) by (cbn in L; lia). destruct z; cbn; ring. Qed.
Lemma split_mult m b : forall zs rows, sumR (map (fun zr : bool * R => snd zr * (if fst zr || m then 1 else b)) (combine zs rows)) =
  (if m then 1 else b) * yield_if false zs rows + yield_if true zs rows.
Proof.
  induction zs as [|z zs IH]; intros [|r rows]; try (cbn; ring). cbn [combine map yield_if fst snd]. rewrite sR_cons, IH. destruct z, m; cbn [orb Bool.eqb]; ring.
Qed.
Lemma split_add k f : forall zs rows, List.length zs = List.length rows ->
  sumR (map (fun ra : R * R => fst ra + k * snd ra / f) (combine rows (map (fun zr : bool * R => if fst zr then 0 else snd zr) (combine zs rows)))) =
  sumR rows + k / f * yield_if false zs rows.
Proof.
  induction zs as [|z zs IH]; intros [|r rows] L; try discriminate; [cbn; ring|]. cbn [combine map yield_if fst snd]. rewrite !sR_cons, IH by (cbn in L; lia).
  destruct z; cbn [Bool.eqb]; unfold Rdiv; ring.
Qed.
(** totals in lite mode with processes without variance *)
Theorem split_total t zs m s b rows : List.length zs = List.length rows ->
  sumR (split t zs (m, s, b) rows) =
  match t with
  | NormalAdd => sumR rows + s * b * (if Rltb 0 (yield_if false zs rows) then 1 else yield_if false zs rows)
  | _ => (if m then 1 else b) * yield_if false zs rows + yield_if true zs rows
  end.
Proof.
  intros L. unfold split. destruct t; try apply split_mult. rewrite split_add, active_sum by auto. destruct (Rltb_spec 0 (yield_if false zs rows)) as [H|H]; field; lra.
Qed.
Lemma yield_none rows : yield_if false (map (fun _ => false) rows) rows = sumR rows /\ yield_if true (map (fun _ => false) rows) rows = 0.
Proof.
  induction rows as [|r rows (H & K)]; [split; reflexivity|]. cbn [map yield_if Bool.eqb]. rewrite H, K, sR_cons. split; ring.
Qed.
Lemma split_zero t : forall zs m s b rows i, nth_error zs i = Some true -> nth i (split t zs (m, s, b) rows) 0 = nth i rows 0.
Proof.
  intros zs m s b rows i. unfold split. cbv zeta. set (f := if Rltb 0 _ then _ else _). clearbody f. revert rows i. induction zs as [|z zs IH]; intros rows i E; [destruct i; discriminate|].
  destruct rows as [|r rows]; [destruct t, i; reflexivity|]. destruct i as [|i].
  - injection E as ->. destruct t; cbn [combine map nth fst snd orb]; unfold Rdiv; ring.
  - specialize (IH rows i E). destruct t; exact IH.
Qed.
