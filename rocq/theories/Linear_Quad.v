(** When the fitter declares a problem linear, the modelled likelihood is a quadratic function of the
    parameters. *)
From Coq Require Import List Arith Bool String Reals Lra Lia.
From Verif Require Import PyList RBase BBStat_Model Writer_Model Yields_Model Ext_Model Nll_Model Nll_Proof Mat_Model Mat_Proof Linear_Spec Linear_Proof.
Import ListNotations.
Local Open Scope R_scope.

Section Closure.
  Variables (n : nat) (D : (nat -> R) -> Prop).
  Definition aff (f : (nat -> R) -> R) : Prop := exists c b, forall x, D x -> f x = c + vdot n b x.
  Definition qf (f : (nat -> R) -> R) : Prop := exists c b H, sym n H /\ forall x, D x -> f x = qfun n c b H x.
  Lemma aff_ext f g : (forall x, D x -> f x = g x) -> aff g -> aff f.
  Proof. intros E (c & b & H). exists c, b. intros x Dx. rewrite E by auto. auto. Qed.
  Lemma aff_const c : aff (fun _ => c).
  Proof. exists c, (fun _ => 0). intros x _. unfold vdot. rewrite sm_0; [lra|]. intros; lra. Qed.
  Lemma aff_coord i : (i < n)%nat -> aff (fun x => x i).
  Proof. intros Hi. exists 0, (delta i). intros x _. unfold vdot. rewrite sm_delta by auto. lra. Qed.
  Lemma aff_plus f g : aff f -> aff g -> aff (fun x => f x + g x).
  Proof.
    intros (c & b & E) (c' & b' & E'). exists (c + c'), (fun i => b i + b' i). intros x Dx. rewrite E, E' by auto.
    rewrite (vdot_sym n (fun i => b i + b' i)), vdot_plus_r, !(vdot_sym n x). lra.
  Qed.
  Lemma aff_scal a f : aff f -> aff (fun x => a * f x).
  Proof.
    intros (c & b & E). exists (a * c), (fun i => a * b i). intros x Dx. rewrite E by auto.
    rewrite (vdot_sym n (fun i => a * b i)), vdot_scal_r, (vdot_sym n x). lra.
  Qed.
  Lemma aff_scalr a f : aff f -> aff (fun x => f x * a).
  Proof. intros A. apply aff_ext with (g := fun x => a * f x); [intros; ring|apply aff_scal; auto]. Qed.
  Lemma aff_minus f g : aff f -> aff g -> aff (fun x => f x - g x).
  Proof. intros A B. apply aff_ext with (g := fun x => f x + -1 * g x); [intros; ring|]. apply aff_plus; auto. apply aff_scal; auto. Qed.
  Lemma aff_sum {A} (l : list A) (g : A -> (nat -> R) -> R) : (forall a, In a l -> aff (g a)) -> aff (fun x => sumR (map (fun a => g a x) l)).
  Proof.
    induction l as [|a l IH]; intros H; [apply (aff_const 0)|]. cbn [map sumR fold_right]. apply aff_plus; [apply H; left; auto|].
    apply IH. intros; apply H; right; auto.
  Qed.
  Lemma qf_ext f g : (forall x, D x -> f x = g x) -> qf g -> qf f.
  Proof. intros E (c & b & H & S & Q). exists c, b, H. split; auto. intros x Dx. rewrite E by auto. auto. Qed.
  Lemma qf_aff f : aff f -> qf f.
  Proof.
    intros (c & b & E). exists c, b, (fun _ _ => 0). split; [intros i j _ _; auto|]. intros x Dx. rewrite E by auto. unfold qfun.
    unfold quad, mv. rewrite (sm_0 n (fun i => x i * _)); [lra|]. intros i _. rewrite sm_0; [lra|]. intros; lra.
  Qed.
  Lemma qf_const c : qf (fun _ => c). Proof. apply qf_aff, aff_const. Qed.
  Lemma quad_lin c A c' B x : quad n (fun i j => c * A i j + c' * B i j) x = c * quad n A x + c' * quad n B x.
  Proof.
    unfold quad, mv. rewrite <- !sm_scal, <- sm_plus. apply sm_ext. intros i _.
    assert (E : sm n (fun j => (c * A i j + c' * B i j) * x j) = c * sm n (fun j => A i j * x j) + c' * sm n (fun j => B i j * x j)).
    { rewrite <- !sm_scal, <- sm_plus. apply sm_ext. intros; ring. }
    rewrite E. ring.
  Qed.
  Lemma qf_plus f g : qf f -> qf g -> qf (fun x => f x + g x).
  Proof.
    intros (c & b & H & S & E) (c' & b' & H' & S' & E'). exists (c + c'), (fun i => b i + b' i), (fun i j => 1 * H i j + 1 * H' i j). split.
    - intros i j Hi Hj. rewrite (S i j), (S' i j) by auto. auto.
    - intros x Dx. rewrite E, E' by auto. unfold qfun. rewrite quad_lin, (vdot_sym n (fun i => b i + b' i)), vdot_plus_r, !(vdot_sym n x). lra.
  Qed.
  Lemma qf_scal a f : qf f -> qf (fun x => a * f x).
  Proof.
    intros (c & b & H & S & E). exists (a * c), (fun i => a * b i), (fun i j => a * H i j + 0 * H i j). split.
    - intros i j Hi Hj. rewrite (S i j) by auto. auto.
    - intros x Dx. rewrite E by auto. unfold qfun. rewrite quad_lin, (vdot_sym n (fun i => a * b i)), vdot_scal_r, (vdot_sym n x). lra.
  Qed.
  Lemma qf_sum {A} (l : list A) (g : A -> (nat -> R) -> R) : (forall a, In a l -> qf (g a)) -> qf (fun x => sumR (map (fun a => g a x) l)).
  Proof.
    induction l as [|a l IH]; intros H; [apply (qf_const 0)|]. cbn [map sumR fold_right]. apply qf_plus; [apply H; left; auto|].
    apply IH. intros; apply H; right; auto.
  Qed.
  Lemma qf_mult f g : aff f -> aff g -> qf (fun x => f x * g x).
  Proof.
    intros (c & b & E) (c' & b' & E'). exists (c * c'), (fun i => c * b' i + c' * b i), (fun i j => b i * b' j + b' i * b j). split.
    - intros i j _ _. ring.
    - intros x Dx. rewrite E, E' by auto. unfold qfun.
      assert (Q : quad n (fun i j => b i * b' j + b' i * b j) x = 2 * (vdot n b x * vdot n b' x)).
      { unfold quad. transitivity (sm n (fun i => x i * (b i * vdot n b' x + b' i * vdot n b x))).
        - apply sm_ext. intros i _. f_equal. unfold mv, vdot. rewrite <- !sm_scal, <- sm_plus. apply sm_ext. intros; ring.
        - transitivity (sm n (fun i => vdot n b' x * (b i * x i)) + sm n (fun i => vdot n b x * (b' i * x i))).
          + rewrite <- sm_plus. apply sm_ext. intros; ring.
          + rewrite !sm_scal. unfold vdot. ring. }
      rewrite Q. assert (V : vdot n (fun i => c * b' i + c' * b i) x = c * vdot n b' x + c' * vdot n b x).
      { unfold vdot. rewrite <- !sm_scal, <- sm_plus. apply sm_ext. intros; ring. }
      rewrite V. lra.
  Qed.
  Lemma qf_sq f : aff f -> qf (fun x => f x * f x). Proof. intros; apply qf_mult; auto. Qed.

  (** lists of affine functions *)
  Definition affl (m : nat) (F : (nat -> R) -> list R) : Prop :=
    (forall x, D x -> List.length (F x) = m) /\ forall i, (i < m)%nat -> aff (fun x => nth i (F x) 0).
  Lemma affl_nth m F i : affl m F -> aff (fun x => nth i (F x) 0).
  Proof.
    intros (L & A). destruct (Nat.lt_ge_cases i m) as [H|H]; auto. apply aff_ext with (g := fun _ => 0); [|apply aff_const].
    intros x Dx. apply nth_overflow. rewrite L; auto.
  Qed.
  Lemma affl_ext m F G : (forall x, D x -> F x = G x) -> affl m G -> affl m F.
  Proof. intros E (L & A). split; [intros x Dx; rewrite E; auto|]. intros i Hi. apply aff_ext with (g := fun x => nth i (G x) 0); auto. intros; rewrite E; auto. Qed.
  Lemma affl_const l : affl (List.length l) (fun _ => l).
  Proof. split; auto. intros. apply aff_const. Qed.
  Lemma affl_seq m (g : nat -> (nat -> R) -> R) : (forall i, (i < m)%nat -> aff (g i)) -> affl m (fun x => map (fun i => g i x) (seq 0 m)).
  Proof.
    intros H. split; [intros; rewrite map_length, seq_length; auto|]. intros i Hi. apply aff_ext with (g := g i); auto.
    intros x _. rewrite (nth_map' _ _ _ _ O) by (rewrite seq_length; auto). rewrite seq_nth by auto. auto.
  Qed.
  Lemma affl_map {A} (l : list A) (g : A -> (nat -> R) -> R) : (forall a, In a l -> aff (g a)) -> affl (List.length l) (fun x => map (fun a => g a x) l).
  Proof.
    intros H. split; [intros; apply map_length|]. intros i Hi. destruct l as [|a0 l0] eqn:El; [cbn in Hi; lia|]. rewrite <- El in *.
    apply aff_ext with (g := g (nth i l a0)); [|apply H; apply nth_In; auto]. intros x _. apply (nth_map' (fun a => g a x)); auto.
  Qed.
  Lemma affl_slice m a k F : (a + k <= m)%nat -> affl m F -> affl k (fun x => slice a k (F x)).
  Proof.
    intros Hk (L & A). split.
    - intros x Dx. unfold slice. rewrite firstn_length, skipn_length, L by auto. lia.
    - intros i Hi. apply aff_ext with (g := fun x => nth (a + i) (F x) 0); [|apply A; lia]. intros. apply nth_slice; auto.
  Qed.
  Lemma affl_firstn m k F : affl m F -> affl (Nat.min k m) (fun x => firstn k (F x)).
  Proof.
    intros (L & A). split; [intros; rewrite firstn_length, L; auto|]. intros i Hi.
    apply aff_ext with (g := fun x => nth i (F x) 0); [|apply A; lia]. intros. apply nth_firstn'. lia.
  Qed.
  Lemma affl_app m k F G : affl m F -> affl k G -> affl (m + k) (fun x => F x ++ G x).
  Proof.
    intros (L & A) (L' & A'). split; [intros; rewrite app_length, L, L'; auto|]. intros i Hi. destruct (Nat.lt_ge_cases i m) as [H|H].
    - apply aff_ext with (g := fun x => nth i (F x) 0); auto. intros x Dx. apply app_nth1. rewrite L; auto.
    - apply aff_ext with (g := fun x => nth (i - m) (G x) 0); [|apply A'; lia]. intros x Dx. rewrite app_nth2, L; auto. rewrite L; auto.
  Qed.
  Lemma affl_zipw m k F (l : list R) (f : R -> R -> R) : (forall b g, aff g -> aff (fun x => f (g x) b)) -> affl m F -> k = Nat.min m (List.length l) ->
    affl k (fun x => zipw f (F x) l).
  Proof.
    intros H (L & A) ->. split; [intros; rewrite zipw_length, L; auto|]. intros i Hi.
    apply aff_ext with (g := fun x => f (nth i (F x) 0) (nth i l 0)); [|apply H; apply A; lia].
    intros x Dx. apply nth_zipw; [rewrite L by auto; lia|lia].
  Qed.
  Lemma affl_zipw2 m F G (f : R -> R -> R) : (forall g h, aff g -> aff h -> aff (fun x => f (g x) (h x))) -> affl m F -> affl m G -> affl m (fun x => zipw f (F x) (G x)).
  Proof.
    intros H (L & A) (L' & A'). split; [intros; rewrite zipw_length, L, L'; auto; lia|]. intros i Hi.
    apply aff_ext with (g := fun x => f (nth i (F x) 0) (nth i (G x) 0)); [|apply H; auto].
    intros x Dx. apply nth_zipw; [rewrite L|rewrite L']; auto.
  Qed.
  Lemma affl_where m mask C F : affl m C -> affl m F -> List.length mask = m -> affl m (fun x => where_sg mask (C x) (F x)).
  Proof.
    intros (LC & AC) (LF & AF) LM. split; [intros x Dx; rewrite where_sg_length by (rewrite LC, LF; auto); rewrite LC by auto; lia|]. intros i Hi.
    apply aff_ext with (g := fun x => if nth i mask false then nth i (C x) 0 else nth i (F x) 0); [|destruct (nth i mask false); auto].
    intros x Dx. unfold where_sg. rewrite (nth_zipw _ _ _ _ false (0, 0)); [|lia|rewrite combine_length, LC, LF by auto; lia].
    rewrite combine_nth by (rewrite LC, LF; auto). reflexivity.
  Qed.
  (** sums of zipped lists *)
  Lemma zipw_seq {A B C} (f : A -> B -> C) da db : forall a b,
    zipw f a b = map (fun i => f (nth i a da) (nth i b db)) (seq 0 (Nat.min (List.length a) (List.length b))).
  Proof.
    intros a b. destruct a as [|a0 a']; [reflexivity|]. destruct b as [|b0 b']; [reflexivity|]. remember (a0 :: a') as a. remember (b0 :: b') as b.
    apply nth_ext with (d := f a0 b0) (d' := f a0 b0).
    - rewrite zipw_length, map_length, seq_length. lia.
    - intros i Hi. rewrite zipw_length in Hi. rewrite (nth_zipw f a b i da db) by lia.
      rewrite (nth_map' _ _ _ _ O) by (rewrite seq_length; lia). rewrite seq_nth by lia. auto.
  Qed.
  Lemma affl_zipw_l m k F (l : list R) (f : R -> R -> R) : (forall b g, aff g -> aff (fun x => f b (g x))) -> affl m F -> k = Nat.min (List.length l) m ->
    affl k (fun x => zipw f l (F x)).
  Proof.
    intros H (L & A) ->. split; [intros; rewrite zipw_length, L; auto|]. intros i Hi.
    apply aff_ext with (g := fun x => f (nth i l 0) (nth i (F x) 0)); [|apply H; apply A; lia].
    intros x Dx. apply nth_zipw; [lia|rewrite L by auto; lia].
  Qed.
  Lemma aff_dot m l F : affl m F -> aff (fun x => dot l (F x)).
  Proof.
    intros (L & A). revert m F L A. induction l as [|a l IH]; intros m F L A; [apply (aff_const 0)|]. destruct m as [|m].
    - apply aff_ext with (g := fun _ => 0); [|apply aff_const]. intros x Dx. specialize (L x Dx). destruct (F x); [|discriminate]. reflexivity.
    - apply aff_ext with (g := fun x => a * nth 0 (F x) 0 + dot l (tl (F x))).
      + intros x Dx. specialize (L x Dx). destruct (F x); [discriminate|]. reflexivity.
      + apply aff_plus; [apply aff_scal, A; lia|]. apply (IH m).
        * intros x Dx. specialize (L x Dx). destruct (F x); [discriminate|]. cbn in *. lia.
        * intros i Hi. apply aff_ext with (g := fun x => nth (S i) (F x) 0); [|apply A; lia]. intros x Dx. destruct (F x); [destruct i|]; auto.
  Qed.
  Lemma qf_dot m k F G : affl m F -> affl k G -> qf (fun x => dot (F x) (G x)).
  Proof.
    intros (L & A) (L' & A'). apply qf_ext with (g := fun x => sumR (map (fun i => nth i (F x) 0 * nth i (G x) 0) (seq 0 (Nat.min m k)))).
    - intros x Dx. unfold dot. change (map (fun p => fst p * snd p) (combine (F x) (G x))) with (zipw Rmult (F x) (G x)).
      rewrite (zipw_seq Rmult 0 0), L, L' by auto. reflexivity.
    - apply qf_sum. intros i Hi. apply in_seq in Hi. apply qf_mult; [apply A|apply A']; lia.
  Qed.
  (** external terms *)
  Lemma qf_ext_term t m X : affl m X -> qf (fun x => term_value t (X x)).
  Proof.
    intros AX. unfold term_value.
    assert (XS : affl (List.length (tf_idx t)) (fun x => map (fun i => nth i (X x) 0) (tf_idx t))).
    { apply (affl_map (tf_idx t) (fun i x => nth i (X x) 0)). intros i _. apply (affl_nth _ _ _ AX). }
    apply qf_plus.
    - destruct (tf_grad t) as [g|]; [|apply qf_const]. apply qf_aff. apply (aff_dot _ _ _ XS).
    - destruct (tf_hess t) as [h|]; [|apply qf_const]. apply qf_scal. destruct h as [v|e]; cbn [hess_mv].
      + apply (qf_dot _ (List.length v) _ _ XS). apply (affl_map v (fun row x => dot row (map (fun i => nth i (X x) 0) (tf_idx t)))).
        intros row _. apply (aff_dot _ _ _ XS).
      + apply (qf_dot _ (List.length (tf_idx t)) _ _ XS).
        apply affl_ext with (G := fun x => map (fun i => sumR (map (fun c => snd c * nth (snd (fst c)) (map (fun i => nth i (X x) 0) (tf_idx t)) 0)
                                      (filter (fun c => Nat.eqb (fst (fst c)) i) e))) (seq 0 (List.length (tf_idx t)))).
        { intros x _. rewrite map_length. reflexivity. }
        apply affl_seq. intros i _. apply aff_sum. intros c _. apply aff_scal. apply (affl_nth _ _ _ XS).
  Qed.
  Lemma qf_lc cw x0 m X : affl m X -> qf (fun x => lc_term cw (X x) x0).
  Proof.
    intros AX. unfold lc_term.
    assert (Z : affl (Nat.min m (List.length x0)) (fun x => zipw Rminus (X x) x0)).
    { apply (affl_zipw m _ X x0 Rminus); auto. intros b g A. apply aff_minus; auto. apply aff_const. }
    apply qf_ext with (g := fun x => sumR (map (fun i => nth i cw 0 * (1 / 2) * (nth i (zipw Rminus (X x) x0) 0 * nth i (zipw Rminus (X x) x0) 0))
                             (seq 0 (Nat.min (List.length cw) (Nat.min m (List.length x0)))))).
    - intros x Dx. rewrite (zipw_seq _ 0 0 cw), (proj1 Z) by auto. reflexivity.
    - apply qf_sum. intros i _. apply qf_scal. apply qf_sq. apply (affl_nth _ _ _ Z).
  Qed.
  Lemma qf_ln_chi2 nobs var m X : affl m X -> qf (fun x => ln_term (Sep Chisq) nobs var (X x)).
  Proof.
    intros AX. unfold ln_term, ln_bin.
    apply qf_ext with (g := fun x => sumR (map (fun b => (1/2) * / nth b var 0 * ((nth b (X x) 0 - nth b nobs 0) * (nth b (X x) 0 - nth b nobs 0))) (seq 0 m))).
    - intros x Dx. rewrite (proj1 AX) by auto. apply sumR_map_ext. intros b _. unfold Rdiv. ring.
    - apply qf_sum. intros b _. apply qf_scal, qf_sq. apply aff_minus; [apply (affl_nth _ _ _ AX)|apply aff_const].
  Qed.
  Lemma qf_ln_cov W nobs var m X : affl m X -> qf (fun x => ln_term (Cov W) nobs var (X x)).
  Proof.
    intros AX. unfold ln_term.
    assert (Z : affl (Nat.min (List.length nobs) m) (fun x => zipw Rminus nobs (X x))).
    { apply (affl_zipw_l m _ X nobs Rminus); auto. intros b g A. apply aff_minus; auto. apply aff_const. }
    apply qf_scal. apply (qf_dot _ (List.length W) _ _ Z). apply (affl_map W (fun row x => dot row (zipw Rminus nobs (X x)))).
    intros row _. apply (aff_dot _ _ _ Z).
  Qed.
End Closure.
