(** Sparse arrays without repeated coordinates have the content of their dense form; scripts with the same contents predict the
    same. *)
From Coq Require Import Reals List Arith Bool String Permutation Sorted Lia Lra.
From Verif Require Import RBase PyList PyDict Order Num ListUtil Shape Names_Model Writer_Model Writer_Spec Writer_Hist Writer_Meta Writer_Inv Writer_Denote Writer_Effects
  Multi_Model Multi_Geom Yields_Model Yields_Spec Yields_Proof Yields_Equiv Coo_Model Coo_Spec.
Import ListNotations.
Local Open Scope R_scope.
Local Open Scope list_scope.

Lemma fold_nadd l : fold_right (@nadd R _) n0 l = sumR l.
Proof. reflexivity. Qed.
Lemma filter_ravel (h : raw R) idx : inside h -> in_shape (r_shape h) idx ->
  filter (fun e => Nat.eqb (ravel (r_shape h) (fst e)) (ravel (r_shape h) idx)) (r_ents h) =
  filter (fun e => if list_eq_dec Nat.eq_dec (fst e) idx then true else false) (r_ents h).
Proof.
  unfold inside. intros I S. induction (r_ents h) as [|e l IH]; auto. inversion I; subst. cbn [filter].
  destruct (Nat.eqb_spec (ravel (r_shape h) (fst e)) (ravel (r_shape h) idx)) as [E|E]; destruct (list_eq_dec Nat.eq_dec (fst e) idx) as [K|K].
  - f_equal; auto.
  - exfalso. apply K. apply (ravel_inj (r_shape h)); auto.
  - exfalso. apply E. rewrite K. auto.
  - auto.
Qed.
Lemma dense_content (h : raw R) idx : inside h -> in_shape (r_shape h) idx -> nth (ravel (r_shape h) idx) (raw_dense h) 0 = content h idx.
Proof.
  intros I S. unfold raw_dense, raw_size. pose proof (ravel_lt _ _ S) as L. rewrite (nth_indep _ 0 (fold_right nadd n0 (map snd (filter (fun e => Nat.eqb (ravel (r_shape h) (fst e)) 0) (r_ents h))))) by (rewrite map_length, seq_length; auto).
  rewrite (map_nth (fun k => fold_right nadd n0 (map snd (filter (fun e => Nat.eqb (ravel (r_shape h) (fst e)) k) (r_ents h)))) (seq 0 (prodn (r_shape h))) 0%nat).
  rewrite seq_nth by auto. cbn [plus]. rewrite fold_nadd, filter_ravel; auto.
Qed.
Lemma raw_dense_len (h : raw R) : List.length (raw_dense h) = raw_size h.
Proof. unfold raw_dense. rewrite map_length, seq_length. auto. Qed.
Lemma raw_dense_at (h : raw R) k : (k < raw_size h)%nat -> nth k (raw_dense h) 0 = sumR (map snd (filter (fun e => Nat.eqb (ravel (r_shape h) (fst e)) k) (r_ents h))).
Proof.
  intros L. unfold raw_dense. rewrite (nth_indep _ 0 (fold_right nadd n0 (map snd (filter (fun e => Nat.eqb (ravel (r_shape h) (fst e)) 0) (r_ents h))))) by (rewrite map_length, seq_length; auto).
  rewrite (map_nth (fun k => fold_right nadd n0 (map snd (filter (fun e => Nat.eqb (ravel (r_shape h) (fst e)) k) (r_ents h)))) (seq 0 (raw_size h)) 0%nat).
  rewrite seq_nth by auto. cbn [plus]. apply fold_nadd.
Qed.
Lemma flat_NoDup (h : raw R) : inside h -> canonical h -> NoDup (map fst (map (fun e => (ravel (r_shape h) (fst e), snd e)) (r_ents h))).
Proof.
  unfold inside, canonical. rewrite map_map. cbn [fst]. intros I N. induction (r_ents h) as [|e l IH]; cbn [map] in *; [constructor|].
  inversion I; subst. inversion N; subst. constructor; auto. intros K. apply in_map_iff in K. destruct K as (x & E & K). apply H3.
  apply in_map_iff. exists x. split; auto. apply (ravel_inj (r_shape h)); auto. rewrite Forall_forall in H2. apply H2. auto.
Qed.
Lemma at_or0_sum i (l : list (nat * R)) : NoDup (map fst l) -> at_or0 i l = sumR (map snd (filter (fun e => Nat.eqb (fst e) i) l)).
Proof.
  unfold at_or0. induction l as [|[j v] l IH]; cbn [map fst]; intros N; auto. inversion N; subst. cbn [assoc filter fst]. rewrite (Nat.eqb_sym i j). destruct (Nat.eqb_spec j i) as [->|E].
  - cbn [map snd sumR fold_right]. assert (Z : filter (fun e => Nat.eqb (fst e) i) l = []).
    { clear -H1. induction l as [|[k w] l IH]; auto. cbn [filter fst map In] in *. destruct (Nat.eqb_spec k i) as [->|K]; [exfalso; apply H1; left; auto|]. apply IH. intros Q. apply H1. right. auto. }
    rewrite Z. cbn. lra.
  - apply IH. auto.
Qed.
Lemma filter_map {A B} (f : A -> B) (p : B -> bool) l : filter p (map f l) = map f (filter (fun x => p (f x)) l).
Proof. induction l as [|a l IH]; auto. cbn [map filter]. destruct (p (f a)); cbn [map]; rewrite IH; auto. Qed.

Theorem csr_content (h : raw R) : inside h -> canonical h -> (List.length (r_shape h) = 1 \/ List.length (r_shape h) = 2)%nat ->
  exists e, flat_csr h = Ok e /\ wf_ents e (raw_size h) /\ forall i, at_or0 i e = nth i (raw_dense h) 0.
Proof.
  intros I N D. set (l := map (fun e => (ravel (r_shape h) (fst e), snd e)) (r_ents h)).
  assert (F : flat_indices h = Ok l). { unfold flat_indices, l. destruct (r_shape h) as [|a [|b [|c r]]]; cbn [List.length] in D; auto; destruct D; lia. }
  exists (sort_flat l). assert (ND : NoDup (map fst l)) by (apply flat_NoDup; auto).
  assert (RG : Forall (fun i => i < raw_size h)%nat (map fst l)).
  { unfold l. rewrite map_map. cbn [fst]. apply Forall_map. unfold inside in I. eapply Forall_impl; [|exact I]. cbn. intros x. apply ravel_lt. }
  split; [unfold flat_csr; rewrite F; auto|]. split.
  - split; [apply sort_flat_sorted; auto|]. rewrite Forall_forall in *. intros x X. apply RG. eapply Permutation_in; [apply Permutation_map, sort_flat_perm|exact X].
  - intros i. rewrite (at_or0_perm i _ l (sort_flat_perm l)).
    2:{ eapply Permutation_NoDup; [apply Permutation_map, Permutation_sym, sort_flat_perm|auto]. }
    destruct (lt_dec i (raw_size h)) as [L|L].
    + rewrite raw_dense_at by auto. rewrite at_or0_sum by auto. unfold l. rewrite filter_map, map_map. cbn [fst snd]. auto.
    + rewrite nth_overflow by (rewrite raw_dense_len; lia). change 0 with (@n0 R _). apply at_or0_out. intros K. rewrite Forall_forall in RG. specialize (RG i K). lia.
Qed.

(** ** scripts with the same contents *)
Definition orel {E} (R : E -> E -> Prop) (a b : option E) : Prop :=
  match a, b with Some x, Some y => R x y | None, None => True | _, _ => False end.
Lemma last_of_rel {E} (R0 : E -> E -> Prop) (f : op R -> option E) l1 l2 : Forall2 (fun a b => orel R0 (f a) (f b)) l1 l2 -> orel R0 (last_of f l1) (last_of f l2).
Proof.
  unfold last_of. intros F. assert (G : forall a b, orel R0 a b -> orel R0 (fold_left (fun acc o => match f o with Some e => Some e | None => acc end) l1 a)
    (fold_left (fun acc o => match f o with Some e => Some e | None => acc end) l2 b)).
  { induction F as [|x y l1 l2 H F IH]; intros a b A; auto. cbn [fold_left]. apply IH. destruct (f x), (f y); cbn in H |- *; auto; contradiction. }
  apply G. exact I.
Qed.
Inductive same_eff : effect R -> effect R -> Prop :=
| se_refl e : same_eff e e
| se_one kf ad h1 h2 : same_hist h1 h2 -> same_eff (EOne kf ad h1) (EOne kf ad h2)
| se_two cb kf ad u1 d1 u2 d2 : same_hist u1 u2 -> same_hist d1 d2 -> same_eff (ETwo cb kf ad u1 d1) (ETwo cb kf ad u2 d2).
Lemma same_hist_refl h : same_hist h h. Proof. split; auto. Qed.
Lemma orel_refl {E} (R0 : E -> E -> Prop) a : (forall x, R0 x x) -> orel R0 a a.
Proof. destruct a; cbn; auto. Qed.
Lemma same_proc c p o1 o2 : same_op o1 o2 -> orel (fun a b => same_hist (fst a) (fst b)) (op_proc c p o1) (op_proc c p o2).
Proof.
  intros [o|h1 h2 n c' s v1 v2 H|s1 s2 n p' c' kf mi m ad kw H]; [apply orel_refl; intros; apply same_hist_refl| |exact I].
  cbn [op_proc]. destruct (_ && _); cbn; auto.
Qed.
Lemma same_avg c p s o1 o2 : same_op o1 o2 -> orel same_eff (op_avg c p s o1) (op_avg c p s o2).
Proof.
  intros [o|h1 h2 n c' s' v1 v2 H|s1 s2 n p' c' kf mi m ad kw H]; [apply orel_refl; constructor|exact I|].
  cbn [op_avg]. destruct (_ && _); [|exact I]. destruct s1 as [a|a b], s2 as [a'|a' b']; cbn [same_input] in H; try contradiction.
  - destruct (String.eqb s n); cbn; auto. constructor; auto.
  - destruct H. destruct m; repeat (destruct (String.eqb s _); cbn; auto); constructor; auto.
Qed.
Lemma same_half c p s o1 o2 : same_op o1 o2 -> orel same_eff (op_half c p s o1) (op_half c p s o2).
Proof.
  intros [o|h1 h2 n c' s' v1 v2 H|s1 s2 n p' c' kf mi m ad kw H]; [apply orel_refl; constructor|exact I|].
  cbn [op_half]. destruct s1 as [a|a b], s2 as [a'|a' b']; cbn [same_input] in H; try contradiction; [exact I|].
  destruct H. destruct m; try exact I. destruct (_ && _); cbn; auto. constructor; auto.
Qed.
Lemma same_eval t nom e1 e2 i : same_eff e1 e2 -> eval_effect t nom e1 i = eval_effect t nom e2 i.
Proof.
  intros [e|kf ad h1 h2 (_ & H)|cb kf ad u1 d1 u2 d2 (_ & H1) (_ & H2)]; auto; cbn [eval_effect]; unfold tmpl_eff.
  - rewrite H. auto.
  - rewrite H1, H2. auto.
Qed.
Lemma Forall2_imp {A B} (P Q : A -> B -> Prop) l1 l2 : (forall a b, P a b -> Q a b) -> Forall2 P l1 l2 -> Forall2 Q l1 l2.
Proof. intros H F. induction F; constructor; auto. Qed.
Lemma same_spec cfg1 cfg2 ops1 ops2 c p i : c_type cfg1 = c_type cfg2 -> c_allowneg cfg1 = c_allowneg cfg2 -> Forall2 same_op ops1 ops2 ->
  spec_norm (c_allowneg cfg1) ops1 c p i = spec_norm (c_allowneg cfg2) ops2 c p i /\
  (forall s, spec_avg cfg1 ops1 c p s i = spec_avg cfg2 ops2 c p s i) /\ (forall s, spec_half cfg1 ops1 c p s i = spec_half cfg2 ops2 c p s i).
Proof.
  intros ET EA F. assert (SN : forall j, spec_norm (c_allowneg cfg1) ops1 c p j = spec_norm (c_allowneg cfg2) ops2 c p j).
  { intros j. unfold spec_norm. pose proof (last_of_rel _ _ _ _ (Forall2_imp _ _ _ _ (same_proc c p) F)) as L.
    destruct (last_of (op_proc c p) ops1) as [[h1 v1]|], (last_of (op_proc c p) ops2) as [[h2 v2]|]; cbn in L; try contradiction; auto.
    destruct L as (_ & L). rewrite EA, L. auto. }
  assert (ST : forall e1 e2, orel same_eff e1 e2 -> stored (c_type cfg1) (spec_norm (c_allowneg cfg1) ops1 c p) e1 i = stored (c_type cfg2) (spec_norm (c_allowneg cfg2) ops2 c p) e2 i).
  { intros [e1|] [e2|] O; cbn in O; try contradiction; auto. unfold stored. rewrite SN, ET. destruct (neq0 _); auto. rewrite (same_eval _ _ _ _ i O).
    destruct e2; cbn [eval_effect]; unfold tmpl_eff, norm_eff; rewrite SN; auto. }
  split; auto. split; intros s; apply ST; apply last_of_rel; (eapply Forall2_imp; [|exact F]); intros a b; [apply same_avg|apply same_half].
Qed.
Lemma same_decls ops1 ops2 : Forall2 same_op ops1 ops2 ->
  chan_decls [] ops1 = chan_decls [] ops2 /\ proc_decls ops1 = proc_decls ops2 /\ all_systs ops1 = all_systs ops2.
Proof.
  intros F. split; [|split].
  - generalize (@nil string) as seen. induction F as [|o1 o2 l1 l2 H F IH]; intros seen; auto. destruct H; [destruct o; cbn [chan_decls]; rewrite ?IH; auto| |]; cbn [chan_decls]; auto.
  - induction F as [|o1 o2 l1 l2 H F IH]; auto. unfold proc_decls in *. cbn [flat_map]. rewrite IH. destruct H; auto.
  - induction F as [|o1 o2 l1 l2 H F IH]; auto. unfold all_systs in *. cbn [flat_map]. rewrite IH. f_equal. destruct H; auto. cbn [syst_decls].
    destruct s1, s2; cbn [same_input] in H; try contradiction; auto.
Qed.
Theorem same_contents cfg1 cfg2 ops1 ops2 w1 w2 np rinit t1 t2 r th (full : bool) n1 nc1 n2 nc2 :
  c_type cfg1 = c_type cfg2 -> c_allowneg cfg1 = c_allowneg cfg2 ->
  written cfg1 ops1 w1 -> written cfg2 ops2 w2 -> clean ops1 -> clean ops2 -> Forall2 same_op ops1 ops2 ->
  scale_logk (indata_of w1) np rinit = Ok t1 -> scale_logk (indata_of w2) np rinit = Ok t2 ->
  yields (indata_of w1) t1 r (map th (w_systs w1)) full = Ok (n1, nc1) ->
  yields (indata_of w2) t2 r (map th (w_systs w2)) full = Ok (n2, nc2) ->
  n1 = n2 /\ forall b ip, (b < List.length n1)%nat -> (ip < List.length (w_procs w1))%nat -> nc1 b ip = nc2 b ip.
Proof.
  intros ET EA W1 W2 C1 C2 F S1 S2 Y1 Y2. destruct (same_decls _ _ F) as (EC & EP & ES).
  assert (SA : same_axes w1 w2).
  { apply (files_same_axes cfg1 cfg2 ops1 ops2); auto; [intros; rewrite EP; tauto|]. intros s. unfold declared. rewrite ES. tauto. }
  destruct (yields_prediction _ _ _ _ _ _ _ _ _ _ _ W1 C1 (map_length _ _) S1 Y1) as (L1 & P1 & Q1).
  destruct (yields_prediction _ _ _ _ _ _ _ _ _ _ _ W2 C2 (map_length _ _) S2 Y2) as (L2 & P2 & Q2).
  assert (LE : List.length n1 = List.length n2).
  { rewrite L1, L2, (sa_full _ _ SA), (sa_nb _ _ SA). auto. }
  assert (NC : forall b ip, (b < List.length n1)%nat -> (ip < List.length (w_procs w1))%nat -> nc1 b ip = nc2 b ip).
  { intros b ip Hb Hip. assert (Bf : (b < w_nbinsfull w1)%nat).
    { rewrite L1 in Hb. pose proof (written_bins cfg1 ops1 w1 W1 C1). destruct full; lia. }
    destruct (every_bin cfg1 ops1 w1 b ip W1 C1 Bf Hip) as (c & p & i & P).
    assert (P' : at_point w2 c p i b ip).
    { destruct P as (s & e & A1 & A2 & A3 & A4). exists s, e.
      rewrite <- (sa_chan _ _ SA), <- (sa_procs _ _ SA). auto. }
    rewrite (P1 c p i b ip P), (P2 c p i b ip P') by (rewrite ?L1, ?L2 in *; lia).
    rewrite !prediction_named. unfold named_prediction.
    destruct (same_spec cfg1 cfg2 ops1 ops2 c p i ET EA F) as (N & A & H).
    rewrite N, ET.
    assert (V : sumR (map (fun s => th s * spec_avg cfg1 ops1 c p s i + th s * switch (th s) * spec_half cfg1 ops1 c p s i) (w_systs w1)) =
                sumR (map (fun s => th s * spec_avg cfg2 ops2 c p s i + th s * switch (th s) * spec_half cfg2 ops2 c p s i) (w_systs w2))).
    { rewrite (sumR_perm _ (map (fun s => th s * spec_avg cfg1 ops1 c p s i + th s * switch (th s) * spec_half cfg1 ops1 c p s i) (w_systs w2)))
        by (apply Permutation_map, SA).
      apply sumR_map_ext. intros s _. rewrite A, H. auto. }
    rewrite V. auto. }
  split; auto. apply (nth_ext n1 n2 0 0); auto. intros b Hb. rewrite Q1 by (rewrite L1 in Hb; auto). rewrite Q2 by (rewrite LE, L2 in Hb; auto).
  rewrite (sa_procs _ _ SA). rewrite <- (sa_procs _ _ SA). apply sum_n_ext. auto.
Qed.
