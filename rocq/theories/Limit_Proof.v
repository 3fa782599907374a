From Coq Require Import Reals List Arith ZArith Bool String Lia Lra.
From Verif Require Import RBase PyList PyDict ListUtil Map_Model Map_Collect Map_Rules Map_Merge Freeze_Model Session_Model Limit_Model Limit_Spec.
Import ListNotations.
Local Open Scope nat_scope.

(** ** packing *)
Theorem unpack_pack idx x1 x2 : List.length x1 = List.length x2 -> idx < List.length x1 -> nth_error x1 idx = nth_error x2 idx -> unpack idx (pack idx x1 x2) = Ok (x1, x2).
Proof.
  intros L I E. unfold unpack, pack. rewrite app_length, remove_len by lia.
  assert (NX : (List.length x1 + (List.length x2 - 1) + 1) / 2 = List.length x1) by (rewrite <- L; replace (List.length x1 + (List.length x1 - 1) + 1) with (List.length x1 * 2) by lia; apply Nat.div_mul; lia).
  rewrite NX, firstn_app, firstn_all, Nat.sub_diag, firstn_O, app_nil_r, skipn_app, skipn_all, Nat.sub_diag. cbn [skipn app].
  destruct (nth_error x1 idx) as [c|] eqn:Ec; [|apply nth_error_None in Ec; lia]. rewrite remove_len by lia. destruct (Nat.leb_spec idx (List.length x2 - 1)); [|lia].
  rewrite set_insert by lia. rewrite set_at_same; auto.
Qed.
Theorem pack_unpack idx v x1 x2 : Nat.Odd (List.length v) -> unpack idx v = Ok (x1, x2) -> pack idx x1 x2 = v /\ List.length x1 = List.length x2 /\ nth_error x1 idx = nth_error x2 idx.
Proof.
  intros (m & O) H. unfold unpack in H. assert (NX : (List.length v + 1) / 2 = m + 1) by (rewrite O; replace (2 * m + 1 + 1) with ((m + 1) * 2) by lia; apply Nat.div_mul; lia). rewrite NX in H.
  destruct (nth_error (firstn (m + 1) v) idx) as [c|] eqn:E; [|discriminate]. destruct (Nat.leb_spec idx (List.length (skipn (m + 1) v))) as [B|B]; [|discriminate]. injection H as <- <-.
  unfold pack. rewrite remove_insert by auto. rewrite firstn_skipn. split; auto. split.
  - rewrite firstn_length, O. unfold insert_at. rewrite app_length. cbn [List.length]. rewrite firstn_length, !skipn_length, O. rewrite skipn_length, O in B. lia.
  - rewrite E. unfold insert_at. rewrite nth_error_app2; rewrite firstn_length_le by auto; [|lia]. rewrite Nat.sub_diag. auto.
Qed.
Theorem unpack_ok idx v : Nat.Odd (List.length v) -> idx < (List.length v + 1) / 2 -> exists x, unpack idx v = Ok x.
Proof.
  intros (m & O) I. assert (NX : (List.length v + 1) / 2 = m + 1) by (rewrite O; replace (2 * m + 1 + 1) with ((m + 1) * 2) by lia; apply Nat.div_mul; lia). unfold unpack. rewrite NX in *.
  destruct (nth_error (firstn (m + 1) v) idx) as [c|] eqn:E; [|apply nth_error_None in E; rewrite firstn_length in E; lia]. destruct (Nat.leb_spec idx (List.length (skipn (m + 1) v))) as [B|B]; [eauto|]. rewrite skipn_length in B. lia.
Qed.

(** ** the constraint and its gradient *)
Section Gradient.
Local Open Scope R_scope.
Variables cdf pdf : R -> R.
Hypothesis dcdf : forall x, derivable_pt_lim cdf x (pdf x).
Lemma dlim_ext f g x l : (forall t, f t = g t) -> derivable_pt_lim f x l -> derivable_pt_lim g x l.
Proof. intros E H eps P. destruct (H eps P) as (d & D). exists d. intros h A B. rewrite <- !E. auto. Qed.
Lemma dqval L L0 t g : derivable_pt_lim L t g -> 0 < L t - L0 -> derivable_pt_lim (fun s => qval (L s) L0) t (g / qval (L t) L0).
Proof.
  intros H P. unfold qval. assert (Q : 0 < sqrt (2 * (L t - L0))) by (apply sqrt_lt_R0; lra).
  apply (dlim_ext (comp sqrt (fun s => 2 * (L s - L0)))); [intros; reflexivity|].
  replace (g / sqrt (2 * (L t - L0))) with (/ (2 * sqrt (2 * (L t - L0))) * (2 * g)) by (field; lra).
  apply derivable_pt_lim_comp; [|apply derivable_pt_lim_sqrt; lra].
  replace (2 * g) with (2 * (g - 0)) by lra. apply (dlim_ext (mult_real_fct 2 (minus_fct L (fct_cte L0)))); [intros; reflexivity|]. apply derivable_pt_lim_scal. apply derivable_pt_lim_minus; auto. apply derivable_pt_lim_const.
Qed.
(** derivative of the constraint along any direction *)
Lemma dconstraint cl (q a : R -> R) t q' a' : derivable_pt_lim q t q' -> derivable_pt_lim a t a' ->
  derivable_pt_lim (fun s => cl * cdf (a s - q s) + cdf (q s) - 1) t ((pdf (q t) - cl * pdf (a t - q t)) * q' + cl * pdf (a t - q t) * a').
Proof.
  intros Hq Ha. replace ((pdf (q t) - cl * pdf (a t - q t)) * q' + cl * pdf (a t - q t) * a') with ((cl * (pdf (a t - q t) * (a' - q')) + pdf (q t) * q') - 0) by lra.
  apply (dlim_ext (minus_fct (plus_fct (mult_real_fct cl (comp cdf (minus_fct a q))) (comp cdf q)) (fct_cte 1))); [intros; reflexivity|].
  apply derivable_pt_lim_minus; [|apply derivable_pt_lim_const]. apply derivable_pt_lim_plus.
  - apply derivable_pt_lim_scal. apply derivable_pt_lim_comp; [apply derivable_pt_lim_minus; auto|apply dcdf].
  - apply derivable_pt_lim_comp; auto.
Qed.
Lemma set_set {A} k (u v : A) l : (k < List.length l)%nat -> set_at k u (set_at k v l) = set_at k u l.
Proof. intros K. rewrite <- (set_insert v) by auto. rewrite <- set_insert, remove_insert; [apply set_insert; auto|rewrite remove_len; lia|]. unfold insert_at. rewrite app_length. cbn [List.length]. rewrite firstn_length, skipn_length, remove_len by auto. lia. Qed.
Lemma nth_remove {A} k (l : list A) j (d : A) : nth j (remove_at k l) d = if Nat.ltb j k then nth j l d else nth (S j) l d.
Proof.
  revert l j. unfold remove_at. induction k as [|k IH]; intros [|x l] [|j]; auto; try (destruct j; auto; fail).
  - cbn [firstn skipn app nth]. destruct (Nat.ltb (S j) (S k)); auto.
  - cbn [firstn skipn app]. change (skipn (S (S k)) (x :: l)) with (skipn (S k) l). cbn [nth]. rewrite IH. auto.
Qed.
Lemma unpack_set idx x1 x2 j t : List.length x1 = List.length x2 -> (idx < List.length x1)%nat -> nth_error x1 idx = nth_error x2 idx -> (j < List.length x1 + (List.length x1 - 1))%nat ->
  unpack idx (set_at j t (pack idx x1 x2)) = Ok (if Nat.ltb j (List.length x1) then (set_at j t x1, if Nat.eqb j idx then set_at j t x2 else x2)
    else let k := (j - List.length x1)%nat in (x1, set_at (if Nat.ltb k idx then k else S k) t x2)).
Proof.
  intros L I E J. set (n := List.length x1) in *. assert (E' : nth idx x1 0 = nth idx x2 0) by ((destruct (nth_error x1 idx) as [c|] eqn:Ec; [|apply nth_error_None in Ec; unfold n in *; lia]; rewrite (nth_error_nth x1 idx 0 Ec); symmetry; apply nth_error_nth; congruence)).
  destruct (Nat.ltb_spec j n) as [Jn|Jn].
  - assert (P : set_at j t (pack idx x1 x2) = pack idx (set_at j t x1) (if Nat.eqb j idx then set_at j t x2 else x2)).
    { unfold pack. rewrite set_at_app by (unfold n in *; lia). f_equal. destruct (Nat.eqb_spec j idx) as [->|]; auto. rewrite <- set_insert by (rewrite <- L; lia). rewrite remove_insert; auto. rewrite remove_len by (rewrite <- L; lia). lia. }
    rewrite P. apply unpack_pack.
    + rewrite set_at_len by auto. destruct (Nat.eqb_spec j idx) as [->|]; auto. rewrite set_at_len; auto. lia.
    + rewrite set_at_len; auto.
    + assert (N1 : forall l : list R, (idx < List.length l)%nat -> nth_error l idx = Some (nth idx l 0)) by (intros; apply nth_error_nth'; auto).
      rewrite N1 by (rewrite set_at_len; auto). destruct (Nat.eqb_spec j idx) as [->|Nj].
      * rewrite N1 by (rewrite set_at_len; lia). rewrite !set_at_nth, Nat.eqb_refl by lia. auto.
      * rewrite N1 by lia. rewrite set_at_nth by auto. destruct (Nat.eqb_spec idx j); [congruence|]. rewrite E'. auto.
  - set (k := (j - n)%nat). cbv zeta. set (q := if Nat.ltb k idx then k else S k). assert (Q : (q < List.length x2)%nat) by (unfold q, k; destruct (Nat.ltb_spec (j - n) idx); lia). assert (Qi : q <> idx) by (unfold q; destruct (Nat.ltb_spec k idx); lia).
    assert (P : set_at j t (pack idx x1 x2) = pack idx x1 (set_at q t x2)).
    { unfold pack. assert (SR : set_at j t (x1 ++ remove_at idx x2) = x1 ++ set_at k t (remove_at idx x2)).
      { unfold set_at, k. fold n in Jn. rewrite firstn_app, skipn_app. fold n. rewrite firstn_all2 by (fold n; lia). rewrite (skipn_all2 x1) by (fold n; lia). rewrite <- app_assoc. replace (S j - n)%nat with (S (j - n))%nat by lia. auto. }
      rewrite SR. f_equal. apply (nth_ext _ _ 0 0).
      - rewrite set_at_len by (rewrite remove_len by lia; unfold k; lia). rewrite !remove_len by (rewrite ?set_at_len; lia). rewrite set_at_len by auto. auto.
      - intros p _. rewrite set_at_nth by (rewrite remove_len by lia; unfold k; lia). rewrite !nth_remove. rewrite !set_at_nth by auto. unfold q. destruct (Nat.eqb_spec p k) as [->|Np].
        + destruct (Nat.ltb_spec k idx); rewrite Nat.eqb_refl; auto.
        + destruct (Nat.ltb_spec p idx), (Nat.ltb_spec k idx); match goal with |- context [Nat.eqb ?a ?b] => destruct (Nat.eqb_spec a b) end; auto; lia. }
    rewrite P. apply unpack_pack; auto; [rewrite set_at_len; auto|]. assert (N1 : forall l : list R, (idx < List.length l)%nat -> nth_error l idx = Some (nth idx l 0)) by (intros; apply nth_error_nth'; auto). rewrite !N1 by (rewrite ?set_at_len; lia). rewrite set_at_nth by auto. destruct (Nat.eqb_spec idx q); [congruence|]. rewrite E'. auto.
Qed.
(** the gradient of the constraint *)
Definition true_grad (cl L1v L1min L2v L2min : R) (idx : nat) (g1 g2 : list R) : list R :=
  let qmu := qval L1v L1min in let qA := qval L2v L2min in
  let d1 := map (fun g => (pdf qmu - cl * pdf (qA - qmu)) * (g / qmu)) g1 in
  let d2 := map (fun g => cl * pdf (qA - qmu) * (g / qA)) g2 in
  set_at idx (nth idx d1 0 + nth idx d2 0) d1 ++ remove_at idx d2.
Lemma true_grad_correct cl L1 m1 L2 m2 idx x1 x2 g1 g2 : List.length x1 = List.length x2 -> (idx < List.length x1)%nat -> nth_error x1 idx = nth_error x2 idx ->
  is_gradient L1 x1 g1 -> is_gradient L2 x2 g2 -> 0 < L1 x1 - m1 -> 0 < L2 x2 - m2 ->
  is_gradient (constraint_at cdf cl L1 m1 L2 m2 idx) (pack idx x1 x2) (true_grad cl (L1 x1) m1 (L2 x2) m2 idx g1 g2).
Proof.
  intros L I E (G1 & D1) (G2 & D2) P1 P2. unfold true_grad. cbv zeta. set (qm := qval (L1 x1) m1). set (qa := qval (L2 x2) m2).
  set (d1 := map _ g1). set (d2 := map _ g2). assert (Ld1 : List.length d1 = List.length x1) by (unfold d1; rewrite map_length; auto). assert (Ld2 : List.length d2 = List.length x2) by (unfold d2; rewrite map_length; auto).
  assert (N1 : forall j, (j < List.length x1)%nat -> nth j d1 0 = (pdf qm - cl * pdf (qa - qm)) * (nth j g1 0 / qm)).
  { intros j J. unfold d1. erewrite nth_indep by (rewrite map_length, G1; auto). rewrite (map_nth (fun g => (pdf qm - cl * pdf (qa - qm)) * (g / qm)) g1 0). auto. }
  assert (N2 : forall j, (j < List.length x2)%nat -> nth j d2 0 = cl * pdf (qa - qm) * (nth j g2 0 / qa)).
  { intros j J. unfold d2. erewrite nth_indep by (rewrite map_length, G2; auto). rewrite (map_nth (fun g => cl * pdf (qa - qm) * (g / qa)) g2 0). auto. }
  split; [unfold pack; rewrite !app_length, set_at_len, !remove_len by lia; lia|].
  intros j J. unfold pack in J. rewrite app_length, remove_len in J by lia. unfold partial.
  assert (NV : nth j (pack idx x1 x2) 0 = if Nat.ltb j (List.length x1) then nth j x1 0 else nth (if Nat.ltb (j - List.length x1) idx then (j - List.length x1)%nat else S (j - List.length x1)) x2 0).
  { unfold pack. destruct (Nat.ltb_spec j (List.length x1)); [apply app_nth1; auto|]. rewrite app_nth2 by lia. rewrite nth_remove. destruct (Nat.ltb (j - List.length x1) idx); auto. }
  assert (SAME : forall (f : list R -> R) (x : list R) k, (k < List.length x)%nat -> f (set_at k (nth k x 0) x) = f x) by (intros f x k K; rewrite set_at_same; auto; apply nth_error_nth'; auto).
  destruct (Nat.ltb_spec j (List.length x1)) as [Jn|Jn].
  - rewrite app_nth1 by (rewrite set_at_len; lia). rewrite set_at_nth by lia. rewrite NV. destruct (Nat.eqb_spec j idx) as [->|Nj].
    + rewrite N1, N2 by lia.
      assert (E' : nth idx x1 0 = nth idx x2 0) by (destruct (nth_error x1 idx) as [c|] eqn:Ec; [|apply nth_error_None in Ec; lia]; rewrite (nth_error_nth x1 idx 0 Ec); symmetry; apply nth_error_nth; congruence).
      apply (dlim_ext (fun t => cl * cdf (qval (L2 (set_at idx t x2)) m2 - qval (L1 (set_at idx t x1)) m1) + cdf (qval (L1 (set_at idx t x1)) m1) - 1)).
      { intros t. unfold constraint_at. rewrite unpack_set by (auto; lia). destruct (Nat.ltb_spec idx (List.length x1)); [|lia]. rewrite Nat.eqb_refl. reflexivity. }
      pose proof (dconstraint cl (fun t => qval (L1 (set_at idx t x1)) m1) (fun t => qval (L2 (set_at idx t x2)) m2) (nth idx x1 0) (nth idx g1 0 / qm) (nth idx g2 0 / qa)) as D. cbv beta in D.
      rewrite (SAME L1) in D by auto. fold qm in D.
      replace (L2 (set_at idx (nth idx x1 0) x2)) with (L2 x2) in D by (rewrite E'; symmetry; apply (SAME L2); lia). fold qa in D. apply D.
      * pose proof (dqval (fun t => L1 (set_at idx t x1)) m1 (nth idx x1 0) (nth idx g1 0)) as Q. cbv beta in Q. rewrite (SAME L1) in Q by auto. fold qm in Q. apply Q; [apply D1; auto|lra].
      * pose proof (dqval (fun t => L2 (set_at idx t x2)) m2 (nth idx x2 0) (nth idx g2 0)) as Q. cbv beta in Q. rewrite (SAME L2) in Q by lia. fold qa in Q. rewrite E'. apply Q; [apply D2; lia|lra].
    + rewrite N1 by lia. 
      apply (dlim_ext (fun t => cl * cdf (fct_cte qa t - qval (L1 (set_at j t x1)) m1) + cdf (qval (L1 (set_at j t x1)) m1) - 1)).
      { intros t. unfold constraint_at. rewrite unpack_set by (auto; lia). destruct (Nat.ltb_spec j (List.length x1)); [|lia]. destruct (Nat.eqb_spec j idx); [congruence|]. reflexivity. }
      pose proof (dconstraint cl (fun t => qval (L1 (set_at j t x1)) m1) (fct_cte qa) (nth j x1 0) (nth j g1 0 / qm) 0) as D. cbv beta in D. rewrite (SAME L1) in D by auto. fold qm in D. unfold fct_cte at 1 2 in D. rewrite Rmult_0_r, Rplus_0_r in D. 
      apply D; [|apply derivable_pt_lim_const].
      pose proof (dqval (fun t => L1 (set_at j t x1)) m1 (nth j x1 0) (nth j g1 0)) as Q. cbv beta in Q. rewrite (SAME L1) in Q by auto. fold qm in Q. apply Q; [apply D1; auto|lra].
  - rewrite app_nth2 by (rewrite set_at_len; lia). rewrite set_at_len, nth_remove by lia. rewrite Ld1, NV. set (k := (j - List.length x1)%nat) in *. set (q := if Nat.ltb k idx then k else S k).
    assert (Q : (q < List.length x2)%nat) by (unfold q, k; destruct (Nat.ltb_spec (j - List.length x1) idx); lia).
    replace (if Nat.ltb k idx then nth k d2 0 else nth (S k) d2 0) with (nth q d2 0) by (unfold q; destruct (Nat.ltb k idx); auto). rewrite N2 by auto.
    apply (dlim_ext (fun t => cl * cdf (qval (L2 (set_at q t x2)) m2 - fct_cte qm t) + cdf (fct_cte qm t) - 1)).
    { intros t. unfold constraint_at. rewrite unpack_set by (auto; lia). destruct (Nat.ltb_spec j (List.length x1)); [lia|]. cbv zeta. reflexivity. }
    pose proof (dconstraint cl (fct_cte qm) (fun t => qval (L2 (set_at q t x2)) m2) (nth q x2 0) 0 (nth q g2 0 / qa)) as D. cbv beta in D. rewrite (SAME L2) in D by auto. fold qa in D. unfold fct_cte at 2 3 4 in D. rewrite Rmult_0_r, Rplus_0_l in D.
    apply D; [apply derivable_pt_lim_const|].
    pose proof (dqval (fun t => L2 (set_at q t x2)) m2 (nth q x2 0) (nth q g2 0)) as W. cbv beta in W. rewrite (SAME L2) in W by auto. fold qa in W. apply W; [apply D2; auto|lra].
Qed.

(** with vanishing minima the gradient given to the optimiser is the gradient of the constraint *)
Lemma coded_is_true cl a b idx g1 g2 : constraint_grad pdf cl a 0 b 0 idx g1 g2 = true_grad cl a 0 b 0 idx g1 g2.
Proof. unfold constraint_grad, true_grad, qval. rewrite !Rminus_0_r. reflexivity. Qed.
Lemma grad_correct cl L1 L2 idx x1 x2 g1 g2 : List.length x1 = List.length x2 -> (idx < List.length x1)%nat -> nth_error x1 idx = nth_error x2 idx ->
  is_gradient L1 x1 g1 -> is_gradient L2 x2 g2 -> 0 < L1 x1 -> 0 < L2 x2 ->
  is_gradient (constraint_at cdf cl L1 0 L2 0 idx) (pack idx x1 x2) (constraint_grad pdf cl (L1 x1) 0 (L2 x2) 0 idx g1 g2).
Proof. intros. rewrite coded_is_true. apply true_grad_correct; auto; lra. Qed.
Lemma gradient_unique f v g g' : is_gradient f v g -> is_gradient f v g' -> g = g'.
Proof. intros (A & B) (C & D). apply (nth_ext _ _ 0 0); [congruence|]. intros n N. eapply uniqueness_limite; [apply B|apply D]; congruence. Qed.
(** a minimum of the second likelihood other than zero makes every other component of the second fit wrong *)
Lemma grad_wrong cl L1 m1 L2 m2 idx x1 x2 g1 g2 j : List.length x1 = List.length x2 -> (idx < List.length x1)%nat -> nth_error x1 idx = nth_error x2 idx ->
  is_gradient L1 x1 g1 -> is_gradient L2 x2 g2 -> 0 < L1 x1 - m1 -> 0 < L2 x2 - m2 -> 0 < L2 x2 ->
  (forall x, 0 < pdf x) -> 0 < cl -> m2 <> 0 -> (j < List.length x2)%nat -> j <> idx -> nth j g2 0 <> 0 ->
  ~ is_gradient (constraint_at cdf cl L1 m1 L2 m2 idx) (pack idx x1 x2) (constraint_grad pdf cl (L1 x1) m1 (L2 x2) m2 idx g1 g2).
Proof.
  intros L I E G1 G2 P1 P2 P3 PP C M J Nj Gj W. pose proof (true_grad_correct cl L1 m1 L2 m2 idx x1 x2 g1 g2 L I E G1 G2 P1 P2) as T. pose proof (gradient_unique _ _ _ _ W T) as Q. clear T W.
  destruct G1 as (G1 & _), G2 as (G2 & _). unfold constraint_grad, true_grad in Q. cbv zeta in Q. apply (f_equal (fun l => nth (List.length x1 + (if Nat.ltb j idx then j else (j - 1)%nat)) l 0)) in Q.
  rewrite !app_nth2 in Q by (rewrite set_at_len, map_length; rewrite ?map_length; lia).
  rewrite !set_at_len, !map_length, G1 in Q by (rewrite map_length; lia). replace (List.length x1 + (if Nat.ltb j idx then j else (j - 1)%nat) - List.length x1)%nat with (if Nat.ltb j idx then j else (j - 1)%nat) in Q by lia.
  rewrite !nth_remove in Q. set (k := if Nat.ltb j idx then j else (j - 1)%nat) in Q.
  assert (K : forall f, (if Nat.ltb k idx then nth k (map f g2) 0 else nth (S k) (map f g2) 0) = f (nth j g2 0)).
  { intros f. assert (R0 : forall n, (n < List.length g2)%nat -> nth n (map f g2) 0 = f (nth n g2 0)) by (intros n N; rewrite (nth_indep _ 0 (f 0)) by (rewrite map_length; auto); apply map_nth).
    unfold k. destruct (Nat.ltb_spec j idx); [destruct (Nat.ltb_spec j idx); [|lia]; apply R0; lia|]. destruct (Nat.ltb_spec (j - 1) idx); [lia|]. replace (S (j - 1)) with j by lia. apply R0; lia. }
  rewrite (K (fun g => cl * pdf (qval (L2 x2) m2 - qval (L1 x1) m1) * (g / sqrt (2 * L2 x2)))) in Q. rewrite (K (fun g => cl * pdf (qval (L2 x2) m2 - qval (L1 x1) m1) * (g / qval (L2 x2) m2))) in Q. cbv beta in Q.
  pose proof (PP (qval (L2 x2) m2 - qval (L1 x1) m1)) as PQ. set (p := pdf _) in *. assert (S1 : 0 < sqrt (2 * L2 x2)) by (apply sqrt_lt_R0; lra). assert (S2 : 0 < qval (L2 x2) m2) by (apply sqrt_lt_R0; lra).
  assert (CP : cl * p <> 0) by (apply Rgt_not_eq; apply Rmult_lt_0_compat; auto). apply Rmult_eq_reg_l in Q; auto. unfold Rdiv in Q. apply Rmult_eq_reg_l in Q; auto. apply (f_equal Rinv) in Q. rewrite !Rinv_inv in Q. unfold qval in Q. apply sqrt_inj in Q; try lra.
Qed.
End Gradient.

(** ** Gaussian limits *)
Section Gauss.
Local Open Scope R_scope.
Variables cdf ppf : R -> R.
Hypothesis inc : forall x y, x < y -> cdf x < cdf y.
Hypothesis inv : forall p, 0 < p < 1 -> cdf (ppf p) = p.
Lemma cdf_inj x y : cdf x = cdf y -> x = y.
Proof. intros E. destruct (Rtotal_order x y) as [H|[H|H]]; auto; apply inc in H; lra. Qed.
Lemma ppf_le p q : 0 < p -> p <= q -> q < 1 -> ppf p <= ppf q.
Proof. intros A B C. destruct (Rle_or_lt (ppf p) (ppf q)); auto. apply inc in H. rewrite !inv in H by lra. lra. Qed.
(** with equal errors the equation has one solution *)
Lemma gaussian_root xobs err cl_s x : 0 <= xobs -> 0 < err -> 0 < cl_s < 1 -> 0 < cdf (xobs / err) < 1 ->
  gaussian_eq cdf xobs err err cl_s x = 0 <-> x = xobs - err * ppf (cl_s * cdf (xobs / err)).
Proof.
  intros X E C P. unfold gaussian_eq, qmu_sqrt. rewrite (Rltb_false xobs 0) by lra. cbv zeta.
  replace (x / err - (x - xobs) / err) with (xobs / err) by (field; lra). set (q := cl_s * cdf (xobs / err)) in *.
  assert (Q : 0 < q < 1) by (unfold q; split; [apply Rmult_lt_0_compat; lra|]; apply (Rlt_le_trans _ (1 * cdf (xobs / err))); [apply Rmult_lt_compat_r; lra|lra]).
  split.
  - intros H. assert (H' : cdf (- ((x - xobs) / err)) = cdf (ppf q)) by (rewrite inv by auto; lra). apply cdf_inj in H'. rewrite <- H'. field. lra.
  - intros ->. replace (- ((xobs - err * ppf q - xobs) / err)) with (ppf q) by (field; lra). rewrite inv by auto. lra.
Qed.
(** an expected limit is the limit observed on data at that quantile *)
Lemma expected_is_observed err cl_s cl_b x : 0 < err -> 0 < cl_s < 1 -> 0 < cl_b < 1 -> 0 <= ppf cl_b ->
  gaussian_eq cdf (err * ppf cl_b) err err cl_s x = 0 <-> x = expected_limit ppf 0 err cl_s cl_b.
Proof.
  intros E C B P. assert (V : err * ppf cl_b / err = ppf cl_b) by (field; lra).
  rewrite gaussian_root; auto; [|apply Rmult_le_pos; lra|rewrite V, inv; auto]. rewrite V, inv by auto.
  unfold expected_limit. cbv zeta. replace (sqrt _) with (ppf cl_b - ppf (cl_s * cl_b)); [split; intros; lra|].
  assert (D : 0 < cl_s * cl_b) by (apply Rmult_lt_0_compat; lra). assert (D' : cl_s * cl_b <= cl_b) by (rewrite <- (Rmult_1_l cl_b) at 2; apply Rmult_le_compat_r; lra).
  symmetry. apply sqrt_square. pose proof (ppf_le (cl_s * cl_b) cl_b D D'). lra.
Qed.
(** expected limits shrink with the level *)
Lemma expected_level xbest err cl_s cl_s' cl_b : 0 <= err -> 0 < cl_s -> cl_s <= cl_s' -> cl_s' < 1 -> 0 < cl_b < 1 ->
  expected_limit ppf xbest err cl_s' cl_b <= expected_limit ppf xbest err cl_s cl_b.
Proof.
  intros E C L C' B. unfold expected_limit. cbv zeta. apply Rplus_le_compat_l. apply Rmult_le_compat_l; auto.
  assert (F : forall c, 0 < c < 1 -> sqrt ((ppf cl_b - ppf (c * cl_b)) * (ppf cl_b - ppf (c * cl_b))) = ppf cl_b - ppf (c * cl_b)).
  { intros c Hc. apply sqrt_square. assert (0 < c * cl_b) by (apply Rmult_lt_0_compat; lra). assert (c * cl_b <= cl_b) by (rewrite <- (Rmult_1_l cl_b) at 2; apply Rmult_le_compat_r; lra). pose proof (ppf_le (c * cl_b) cl_b). lra. }
  rewrite !F by lra. assert (0 < cl_s * cl_b) by (apply Rmult_lt_0_compat; lra). assert (cl_s * cl_b <= cl_s' * cl_b) by (apply Rmult_le_compat_r; lra). assert (cl_s' * cl_b < 1) by (apply (Rlt_le_trans _ (1 * cl_b)); [apply Rmult_lt_compat_r; lra|lra]). pose proof (ppf_le (cl_s * cl_b) (cl_s' * cl_b)). lra.
Qed.
End Gauss.

(** ** value of the parameter *)
Lemma index_of_app key l1 l2 : index_of key (l1 ++ l2) = match index_of key l1 with Some i => Some i | None => match index_of key l2 with Some j => Some (List.length l1 + j) | None => None end end.
Proof.
  induction l1 as [|a l1 IH]; cbn [index_of app List.length]; [destruct (index_of key l2); auto|]. destruct (String.eqb _ _); auto. rewrite IH. destruct (index_of key l1); auto. destruct (index_of key l2); auto.
Qed.
Lemma index_of_None key l : index_of key l = None -> ~ In key l.
Proof. intros H I. destruct (index_of_In _ _ I). congruence. Qed.
Lemma index_of_lt key l i : index_of key l = Some i -> i < List.length l.
Proof. intros H. apply index_of_Some in H. apply nth_error_Some. congruence. Qed.
Lemma value_right npoi params systs poi nui theta key i : npoi <= List.length params -> List.length poi = npoi -> List.length nui = List.length params - npoi -> List.length theta = List.length systs ->
  index_of key (params ++ systs) = Some i -> i < npoi \/ List.length params <= i ->
  exists v, nth_error (poi ++ nui ++ theta) i = Some v /\ limit_value npoi params systs poi theta key = Ok v.
Proof.
  intros N P U T H C. unfold limit_value. rewrite H. pose proof (index_of_lt _ _ _ H) as B. rewrite app_length in B.
  rewrite <- (firstn_skipn npoi params) in H at 1. rewrite <- app_assoc, index_of_app in H.
  destruct (index_of key (firstn npoi params)) as [k|] eqn:E.
  - injection H as ->. pose proof (index_of_lt _ _ _ E) as K. rewrite firstn_length in K. assert (M : smem key (firstn npoi params) = true) by (apply smem_In; apply index_of_Some in E; eapply nth_error_In; eauto). rewrite M.
    destruct (nth_error poi i) as [v|] eqn:V; [|apply nth_error_None in V; lia]. exists v. split; auto. rewrite nth_error_app1; auto. lia.
  - apply index_of_None in E. assert (M : smem key (firstn npoi params) = false) by (destruct (smem key (firstn npoi params)) eqn:M; auto; apply smem_In in M; contradiction). rewrite M.
    destruct (index_of key (skipn npoi params ++ systs)) as [k|]; [|discriminate]. injection H as H. rewrite firstn_length_le in H by auto. assert (C' : List.length params <= i) by (destruct C; lia). clear C.
    unfold theta_at. destruct (Z.leb_spec (- Z.of_nat (List.length theta)) (Z.of_nat i - Z.of_nat (List.length params))); [|lia]. destruct (Z.ltb_spec (Z.of_nat i - Z.of_nat (List.length params)) (Z.of_nat (List.length theta))); [|lia]. cbn [andb].
    destruct (Z.ltb_spec (Z.of_nat i - Z.of_nat (List.length params)) 0); [lia|]. replace (Z.to_nat (Z.of_nat i - Z.of_nat (List.length params))) with (i - List.length params) by lia.
    exists (nth (i - List.length params) theta 0%R). split; auto. rewrite !nth_error_app2 by lia. rewrite P, U. replace (i - npoi - (List.length params - npoi)) with (i - List.length params) by lia. apply nth_error_nth'. lia.
Qed.
Lemma value_missing npoi params systs poi theta key : ~ In key (params ++ systs) -> limit_value npoi params systs poi theta key = Raise RuntimeError.
Proof. intros H. unfold limit_value. destruct (index_of key (params ++ systs)) eqn:E; auto. apply index_of_Some in E. apply nth_error_In in E. contradiction. Qed.
(** error of a squared parameter *)
Lemma err_right v err : limit_err true false (v * v) err = (Rabs (2 * v) * err)%R.
Proof. unfold limit_err. cbn [andb negb]. change (v * v)%R with (Rsqr v). rewrite sqrt_Rsqr_abs, Rabs_mult, (Rabs_right 2) by lra. lra. Qed.

(** ** data sets and offsets of the two fitters *)
Lemma set_nobs_ok env v w s t : set_nobs env v w s = Ok t -> f_nobs t = v /\ f_x t = f_x s /\ f_off t = f_off s /\ f_x0 t = f_x0 s /\ f_fz t = f_fz s /\ f_beta t = f_beta s.
Proof. unfold set_nobs. destruct (v_chi2 env); [destruct (existsb _ v); [discriminate|]|]; intros H; injection H as <-; repeat split. Qed.
Lemma states_data env dr o keys f values variances x1 x2 c s a d : (0 <= f)%Z -> limit_states env dr o keys f values variances x1 x2 c s = Ok (a, d) ->
  f_nobs d = values /\ f_x d = x2 /\ f_x a = x1 /\ exists p, prefit_state env dr o f values variances s = Ok p /\ f_nobs a = expected_yield env false (set_x p x1) /\ f_off a = f_off p /\ f_off d = f_off p /\ f_x0 d = f_x0 p.
Proof.
  intros F H. unfold limit_states in H. destruct (prefit_state env dr o f values variances s) as [p|] eqn:E; [|discriminate]. cbn [rbind] in H. destruct (Z.leb_spec 0 f); [|lia].
  destruct (freeze_params _ _ _ _) as [z1|]; [|discriminate]. cbn [rbind] in H. destruct (set_nobs env _ None (set_x (set_fz p z1) x1)) as [q|] eqn:Q; [|discriminate]. cbn [rbind] in H. destruct (defreeze_params _ _ _ _) as [z2|]; [|discriminate]. cbn [rbind] in H.
  destruct (set_nobs env values None _) as [r|] eqn:V; [|discriminate]. cbn [rbind] in H. injection H as <- <-.
  apply set_nobs_ok in Q. destruct Q as (Q1 & Q2 & Q3 & Q4 & _). apply set_nobs_ok in V. destruct V as (V1 & V2 & V3 & V4 & _).
  split; [exact V1|]. split; [reflexivity|]. split; [destruct c; exact Q2|]. exists p. split; [auto|]. split; [destruct c; exact Q1|]. split; [destruct c; exact Q3|]. split.
  - change (f_off (set_x r x2)) with (f_off r). rewrite V3. destruct c; exact Q3.
  - change (f_x0 (set_x r x2)) with (f_x0 r). rewrite V4. destruct c; exact Q4.
Qed.
Lemma states_asimov env dr o keys values variances x1 x2 c s a d : limit_states env dr o keys (-1) values variances x1 x2 c s = Ok (a, d) ->
  a = d /\ exists p, prefit_state env dr o (-1) values variances s = Ok p /\ f_nobs d = f_nobs p /\ f_x d = f_x p.
Proof.
  intros H. unfold limit_states in H. destruct (prefit_state _ _ _ _ _ _ _) as [p|]; [|discriminate]. cbn [rbind Z.leb Z.compare] in H. injection H as <- <-. split; auto. exists p. destruct c; auto.
Qed.
Lemma prefit_off env dr o f values variances s p : prefit_state env dr o f values variances s = Ok p -> v_doblind env = true -> f_off p = neutral env.
Proof.
  intros H B.
  assert (D : f_off (defaultassign env s) = neutral env) by (unfold defaultassign, set_blinding; rewrite B; destruct (v_bb env), (v_hascov env); reflexivity).
  unfold prefit_state in H. destruct (f =? -1)%Z; [apply set_nobs_ok in H; destruct H as (_ & _ & -> & _); auto|]. destruct (f =? 0)%Z; [apply set_nobs_ok in H; destruct H as (_ & _ & -> & _); auto|].
  destruct (1 <=? f)%Z; [|injection H as <-; auto]. revert H D. generalize (defaultassign env s). clear s. intros s H D. unfold toyassign in H.
  set (t := match to_syst o with SrFreq => _ | SrBayes => _ | SrNone => _ end) in H.
  assert (T : f_off t = neutral env) by (unfold t; destruct (to_syst o); auto; [unfold frequentistassign, randomize_freq|unfold bayesassign, randomize_bayes]; destruct (v_bb env); cbn [negb]; auto; destruct (v_bbt env); auto).
  clearbody t. clear D. destruct (match to_data o with DrPoisson => _ | DrNormal => _ | DrNone => _ end) as [u|] eqn:U; [|discriminate]. cbn [rbind] in H.
  assert (Q : f_off u = neutral env).
  { destruct (to_data o).
    - destruct (v_covfit env); [discriminate|]. apply set_nobs_ok in U. destruct U as (_ & _ & -> & _). auto.
    - destruct (v_covfit env); apply set_nobs_ok in U; destruct U as (_ & _ & -> & _); auto.
    - apply set_nobs_ok in U. destruct U as (_ & _ & -> & _). auto. }
  injection H as <-. destruct (to_params o); unfold randomize_postfit; destruct (v_bb env); cbn [negb]; auto; destruct (f_cov u) as [m|] eqn:M; cbn; rewrite ?M; auto; destruct (is_diag m); auto.
Qed.
