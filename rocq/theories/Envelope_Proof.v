(** Proofs about envelopes, quadrature differences and refits. *)
From Coq Require Import Reals List Arith Bool String Lra Lia.
From Verif Require Import RBase PyList ListUtil PyDict Freeze_Model Freeze_Spec Freeze_Proof Envelope_Model Envelope_Spec.
Import ListNotations.
Open Scope R_scope.

(** ** envelopes *)
Definition nn (x : fl) : Prop := match x with Fin r => 0 <= r | PInf => True | _ => False end.
Definition lo_term (v : fl * fl) : fl := fsq (fmin (Fin 0) (fmin (fst v) (snd v))).
Definition up_term (v : fl * fl) : fl := fsq (fmax (Fin 0) (fmax (fst v) (snd v))).
Lemma fsq_nn x : x <> NaN -> nn (fsq x).
Proof. destruct x; simpl; intros H; auto. apply Rle_0_sqr. Qed.
Lemma fmin_nan a b : fmin a b = NaN <-> a = NaN \/ b = NaN.
Proof. destruct a, b; simpl; split; intros H; auto; try discriminate; try (destruct H; discriminate). Qed.
Lemma fmax_nan a b : fmax a b = NaN <-> a = NaN \/ b = NaN.
Proof. destruct a, b; simpl; split; intros H; auto; try discriminate; try (destruct H; discriminate). Qed.
Lemma lo_nn v : ~ (fst v = NaN \/ snd v = NaN) -> nn (lo_term v).
Proof. intros H. apply fsq_nn. rewrite !fmin_nan. intros [X|X]; [discriminate|auto]. Qed.
Lemma up_nn v : ~ (fst v = NaN \/ snd v = NaN) -> nn (up_term v).
Proof. intros H. apply fsq_nn. rewrite !fmax_nan. intros [X|X]; [discriminate|auto]. Qed.
Lemma fsum_nn l : Forall nn l -> nn (fsum l).
Proof.
  induction 1 as [|x r H _ IH]; cbn [fsum fold_right]; [simpl; lra|]. fold (fsum r) in *. destruct x, (fsum r); simpl in *; auto; try contradiction. lra.
Qed.
Lemma fsum_nan l : In NaN l -> fsum l = NaN.
Proof.
  induction l as [|x r IH]; intros H; [contradiction|]. cbn [fsum fold_right]. fold (fsum r). destruct H as [->|H]; [reflexivity|].
  rewrite (IH H). destruct x; reflexivity.
Qed.
Lemma fsum_inf l : Forall nn l -> In PInf l -> fsum l = PInf.
Proof.
  induction 1 as [|x r H F IH]; intros I; [contradiction|]. cbn [fsum fold_right]. fold (fsum r). assert (N := fsum_nn _ F).
  destruct I as [->|I]; [destruct (fsum r); simpl in *; auto; contradiction|]. rewrite (IH I). destruct x; simpl in *; auto; contradiction.
Qed.
Lemma fsum_fin (l : list R) : fsum (map Fin l) = Fin (fold_right Rplus 0 l).
Proof. induction l as [|x r IH]; cbn [map fsum fold_right]; auto. fold (fsum (map Fin r)). rewrite IH. reflexivity. Qed.
Lemma fsum_mono a b : subseq a b -> Forall nn b -> fle (fsum a) (fsum b).
Proof.
  induction 1 as [l|x a b H IH|x a b H IH]; intros F.
  - assert (N := fsum_nn _ F). cbn [fsum fold_right]. fold (fsum l) in *. destruct (fsum l); simpl in *; auto.
  - inversion F; subst. specialize (IH H3). assert (N := fsum_nn _ H3).
    assert (NA : nn (fsum a)). { apply fsum_nn. apply Forall_forall. intros y Hy. rewrite Forall_forall in H3. apply H3. eapply subseq_In; eauto. }
    cbn [fsum fold_right]. fold (fsum a) (fsum b). destruct x, (fsum a), (fsum b); simpl in *; auto; try contradiction. lra.
  - inversion F; subst. specialize (IH H3). assert (N := fsum_nn _ H3). cbn [fsum fold_right]. fold (fsum b).
    destruct x, (fsum a), (fsum b); simpl in *; auto; try contradiction. lra.
Qed.
Lemma fsqrt_nn x : nn x -> nn (fsqrt x).
Proof. destruct x; simpl; auto. intros H. rewrite Rltb_false by lra. simpl. apply sqrt_pos. Qed.
Lemma fsqrt_mono a b : nn a -> nn b -> fle a b -> fle (fsqrt a) (fsqrt b).
Proof.
  destruct a, b; simpl; auto; try contradiction.
  - intros A B L. rewrite !Rltb_false by lra. simpl. apply sqrt_le_1; lra.
  - intros A _ _. rewrite Rltb_false by lra. simpl. auto.
Qed.
Lemma fneg_mono a b : fle a b -> fle (fneg b) (fneg a).
Proof. destruct a, b; simpl; auto. lra. Qed.
Lemma no_nan_terms f vs : (forall v, ~ (fst v = NaN \/ snd v = NaN) -> nn (f v)) -> ~ has_nan vs -> Forall nn (map f vs).
Proof. intros F N. apply Forall_forall. intros x Hx. apply in_map_iff in Hx. destruct Hx as (v & <- & I). apply F. intros H. apply N. exists v. auto. Qed.
Lemma nan_dec (v : fl * fl) : {fst v = NaN \/ snd v = NaN} + {~ (fst v = NaN \/ snd v = NaN)}.
Proof.
  destruct v as [a b]; cbn [fst snd].
  assert (D : forall x : fl, {x = NaN} + {x <> NaN}) by (intros []; [right|right|right|left]; congruence).
  destruct (D a); [left; auto|]. destruct (D b); [left; auto|right; intros [H|H]; auto].
Qed.
Lemma lowest_ok r : lowest r (let e := (if Rltb (snd r) (fst r) then snd r else fst r) in if Rltb e 0 then e else 0).
Proof.
  unfold lowest. destruct (Rltb_spec (snd r) (fst r)); cbn zeta;
  match goal with |- context [Rltb ?a 0] => destruct (Rltb_spec a 0) end; (split; [lra|split; [lra|split; [lra|auto]]]).
Qed.
Lemma highest_ok r : highest r (let e := (if Rltb (fst r) (snd r) then snd r else fst r) in if Rltb 0 e then e else 0).
Proof.
  unfold highest. destruct (Rltb_spec (fst r) (snd r)); cbn zeta;
  match goal with |- context [Rltb 0 ?a] => destruct (Rltb_spec 0 a) end; (split; [lra|split; [lra|split; [lra|auto]]]).
Qed.
Lemma sumsq_nonneg l : 0 <= sumsq l.
Proof. unfold sumsq. induction l as [|x r IH]; cbn [map fold_right]; [lra|]. assert (0 <= x * x) by apply Rle_0_sqr. lra. Qed.
Lemma Forall2_self {A B} (P : A -> B -> Prop) (f : A -> B) l : (forall x, P x (f x)) -> Forall2 P l (map f l).
Proof. intros H. induction l; constructor; auto. Qed.
Theorem envelope_ok vs : envelope_spec vs (envelope vs).
Proof.
  unfold envelope_spec, envelope, env_lower, env_upper. fold lo_term up_term. change (fun v => fsq (fmin (Fin 0) (fmin (fst v) (snd v)))) with lo_term.
  change (fun v => fsq (fmax (Fin 0) (fmax (fst v) (snd v)))) with up_term. split; [|split].
  - intros (v & I & H). rewrite !fsum_nan; [reflexivity| |]; apply in_map_iff; exists v; split; auto.
    + unfold up_term. replace (fmax (Fin 0) (fmax (fst v) (snd v))) with NaN; auto. symmetry. apply fmax_nan. right. apply fmax_nan. auto.
    + unfold lo_term. replace (fmin (Fin 0) (fmin (fst v) (snd v))) with NaN; auto. symmetry. apply fmin_nan. right. apply fmin_nan. auto.
  - intros N. assert (L := no_nan_terms lo_term vs lo_nn N). assert (U := no_nan_terms up_term vs up_nn N). cbn [fst snd].
    assert (SL := fsqrt_nn _ (fsum_nn _ L)). assert (SU := fsqrt_nn _ (fsum_nn _ U)). split; [|split; [|split]].
    + destruct (fsqrt (fsum (map lo_term vs))); simpl in *; auto. lra.
    + destruct (fsqrt (fsum (map up_term vs))); simpl in *; auto.
    + intros (v & I & H). rewrite fsum_inf; auto. apply in_map_iff. exists v. split; auto. unfold lo_term.
      assert (NV : ~ (fst v = NaN \/ snd v = NaN)) by (intros X; apply N; exists v; auto). destruct v as [a b]; cbn [fst snd] in *.
      destruct H as [->| ->]; [destruct b|destruct a]; simpl; auto; exfalso; auto.
    + intros (v & I & H). rewrite fsum_inf; auto. apply in_map_iff. exists v. split; auto. unfold up_term.
      assert (NV : ~ (fst v = NaN \/ snd v = NaN)) by (intros X; apply N; exists v; auto). destruct v as [a b]; cbn [fst snd] in *.
      destruct H as [->| ->]; [destruct b|destruct a]; simpl; auto; exfalso; auto.
  - intros rs ->. rewrite !map_map.
    set (fl_ := fun r : R * R => let e := (if Rltb (snd r) (fst r) then snd r else fst r) in if Rltb e 0 then e else 0).
    set (fu_ := fun r : R * R => let e := (if Rltb (fst r) (snd r) then snd r else fst r) in if Rltb 0 e then e else 0).
    assert (EL : map (fun x => lo_term (fin2 x)) rs = map Fin (map (fun x => x * x) (map fl_ rs))) by (rewrite !map_map; reflexivity).
    assert (EU : map (fun x => up_term (fin2 x)) rs = map Fin (map (fun x => x * x) (map fu_ rs))) by (rewrite !map_map; reflexivity).
    rewrite EL, EU, !fsum_fin. change (fold_right Rplus 0 (map (fun x => x * x) ?l)) with (sumsq l). cbn [fsqrt].
    fold (sumsq (map fl_ rs)). fold (sumsq (map fu_ rs)).
    assert (P1 := sumsq_nonneg (map fl_ rs)). assert (P2 := sumsq_nonneg (map fu_ rs)). rewrite !Rltb_false by lra. cbn [fneg].
    exists (- sqrt (sumsq (map fl_ rs))), (sqrt (sumsq (map fu_ rs))), (map fl_ rs), (map fu_ rs).
    assert (Q1 := sqrt_pos (sumsq (map fl_ rs))). assert (Q2 := sqrt_pos (sumsq (map fu_ rs))).
    split; [reflexivity|]. split; [lra|]. split; [apply Forall2_self; intros; apply lowest_ok|]. split; [apply Forall2_self; intros; apply highest_ok|].
    rewrite Rmult_opp_opp. rewrite !sqrt_sqrt by auto. auto.
Qed.
Lemma subseq_map {A B} (f : A -> B) a b : subseq a b -> subseq (map f a) (map f b).
Proof. induction 1; constructor; auto. Qed.
Theorem envelope_removal ws vs : subseq ws vs -> ~ has_nan vs ->
  fle (env_lower vs) (env_lower ws) /\ fle (env_upper ws) (env_upper vs).
Proof.
  intros S N. assert (L := no_nan_terms lo_term vs lo_nn N). assert (U := no_nan_terms up_term vs up_nn N).
  assert (N' : ~ has_nan ws) by (intros (v & I & H); apply N; exists v; split; auto; eapply subseq_In; eauto).
  assert (L' := no_nan_terms lo_term ws lo_nn N'). assert (U' := no_nan_terms up_term ws up_nn N'). unfold env_lower, env_upper.
  split; [apply fneg_mono|]; apply fsqrt_mono; try (apply fsum_nn; assumption); apply fsum_mono; auto; apply subseq_map; auto.
Qed.
Lemma nth_map_default {A B} (f : A -> B) l k d d' : (k < List.length l)%nat -> nth k (map f l) d' = f (nth k l d).
Proof. revert k. induction l as [|x r IH]; intros k H; simpl in *; [lia|]. destruct k; auto. apply IH. lia. Qed.
Theorem envelopes_column n rows k : (k < n)%nat -> column k (envelopes n rows) = envelope (map (column k) rows).
Proof.
  intros H. unfold envelopes, column at 1. cbn [fst snd]. rewrite !map_map.
  rewrite !(nth_map_default _ (seq 0 n) k 0%nat) by (rewrite seq_length; auto). rewrite seq_nth by auto. reflexivity.
Qed.
Theorem quad_side_ok neg tot frozen : difference_spec neg tot frozen (quad_side neg tot frozen).
Proof.
  unfold difference_spec, quad_side. destruct tot as [t| | |], frozen as [f| | |]; auto.
  eexists. split; [reflexivity|]. set (d := t * t - f * f). assert (P := sqrt_pos (if Rltb 0 d then d else 0)).
  assert (Q : sqrt (if Rltb 0 d then d else 0) * sqrt (if Rltb 0 d then d else 0) = if Rltb 0 d then d else 0).
  { apply sqrt_sqrt. destruct (Rltb_spec 0 d); lra. }
  split; [destruct neg; lra|]. split.
  - intros H. replace ((if neg then _ else _) * _) with (if Rltb 0 d then d else 0) by (destruct neg; lra). destruct (Rltb_spec 0 d); unfold d in *; lra.
  - intros H. replace (if Rltb 0 d then d else 0) with 0 by (destruct (Rltb_spec 0 d); unfold d in *; lra). rewrite sqrt_0. destruct neg; lra.
Qed.

(** ** refits *)
Lemma lset_length {A} (l : list A) i v : List.length (lset l i v) = List.length l.
Proof.
  unfold lset. rewrite app_length, firstn_length. destruct (skipn i l) as [|a r] eqn:E.
  - assert (X := skipn_length i l). rewrite E in X. simpl in *. lia.
  - assert (X := skipn_length i l). rewrite E in X. simpl in *. lia.
Qed.
Lemma lset_nil {A} i (v : A) : lset [] i v = [].
Proof. unfold lset. rewrite firstn_nil, skipn_nil. reflexivity. Qed.
Lemma lset_S {A} a (l : list A) i v : lset (a :: l) (S i) v = a :: lset l i v.
Proof. reflexivity. Qed.
Lemma lset_lset {A} (l : list A) i a b : lset (lset l i a) i b = lset l i b.
Proof.
  revert i. induction l as [|x r IH]; intros i; [rewrite !lset_nil; auto|]. destruct i; [reflexivity|]. rewrite !lset_S. f_equal. auto.
Qed.
Lemma lset_same {A} (l : list A) i d : lset l i (nth i l d) = l.
Proof. revert i. induction l as [|x r IH]; intros i; [apply lset_nil|]. destruct i; [reflexivity|]. rewrite lset_S. simpl. f_equal. auto. Qed.
Lemma lset_only {A} (l : list A) i v : only_at l (lset l i v) i v.
Proof.
  unfold only_at. split; [apply lset_length|]. revert i. induction l as [|x r IH]; intros i.
  - rewrite lset_nil. split; [simpl; lia|auto].
  - destruct i as [|i]; [split; [reflexivity|intros [|k] H; [contradiction|reflexivity]]|]. rewrite lset_S. destruct (IH i) as [A1 A2].
    split; [simpl; intros; apply A1; lia|]. intros [|k] H; simpl; auto.
Qed.
Lemma combine_sub (a b : list fl) : difference a b (map (fun p => fsub (fst p) (snd p)) (combine a b)).
Proof.
  split; [rewrite map_length, combine_length; auto|]. revert b. induction a as [|x r IH]; intros b k u v Ha Hb; [destruct k; discriminate|].
  destruct b as [|y s]; [destruct k; discriminate|]. destruct k; simpl in *; [congruence|]. eapply IH; eauto.
Qed.
Lemma np_err_sigma cw u i : prefit_sigma (nth i cw 0) u (np_err cw u i).
Proof.
  unfold prefit_sigma, np_err. cbn zeta. destruct (Reqb_spec (nth i cw 0) 0) as [E|E]; split; intros H; auto; try lra.
  assert (P := sqrt_lt_R0 _ H). assert (Q := sqrt_sqrt _ (Rlt_le _ _ H)). split; [apply Rinv_0_lt_compat; auto|].
  revert P Q. generalize (sqrt (nth i cw 0)). intros s P <-. field. lra.
Qed.
Theorem nonprofiled_spec fit cw u frozen_idx frozen_params groups x0 x st out :
  nonprofiled fit cw u frozen_idx frozen_params groups (x0, x) = Ok (st, out) ->
  st = (x0, x) /\ exists rows, out = (frozen_params, rows, np_groups (List.length x) frozen_idx groups rows ++ [("Total"%string, envelopes (List.length x) rows)]) /\
    Forall2 (nonprofiled_row fit x0 x cw u) frozen_idx rows.
Proof.
  unfold nonprofiled. cbn [fst snd].
  assert (L : forall idx a, np_loop fit x0 x cw u idx (x0, x) = Ok a -> fst a = (x0, x) /\ Forall2 (nonprofiled_row fit x0 x cw u) idx (snd a)).
  { induction idx as [|i r IH]; intros a H; cbn [np_loop] in H; [injection H as <-; cbn [fst snd]; auto|].
    unfold np_one, np_sign in H. cbn [fst snd] in H.
    destruct (fit (lset x0 i (1 * np_err cw u i + nth i x0 0)) (lset x i (Fin (1 * np_err cw u i + nth i x0 0)))) as [p|] eqn:P; cbn [rbind fst snd] in H; [|discriminate].
    rewrite !lset_lset in H.
    destruct (fit (lset x0 i (-1 * np_err cw u i + nth i x0 0)) (lset x i (Fin (-1 * np_err cw u i + nth i x0 0)))) as [m|] eqn:M; cbn [rbind fst snd] in H; [|discriminate].
    rewrite lset_lset, lset_same in H.
    destruct (np_loop fit x0 x cw u r (x0, x)) as [b|] eqn:B; cbn [rbind fst snd] in H; [|discriminate]. injection H as <-. cbn [fst snd].
    destruct (IH b eq_refl) as (I1 & I2). split; auto. constructor; auto.
    exists (np_err cw u i), p, m. split; [apply np_err_sigma|]. cbn [fst snd]. split; [|split; [|split; apply combine_sub]].
    - exists (lset x0 i (1 * np_err cw u i + nth i x0 0)), (lset x i (Fin (1 * np_err cw u i + nth i x0 0))).
      replace (nth i x0 0 + np_err cw u i) with (1 * np_err cw u i + nth i x0 0) by ring. split; [apply lset_only|]. split; [apply lset_only|auto].
    - exists (lset x0 i (-1 * np_err cw u i + nth i x0 0)), (lset x i (Fin (-1 * np_err cw u i + nth i x0 0))).
      replace (nth i x0 0 - np_err cw u i) with (-1 * np_err cw u i + nth i x0 0) by ring. split; [apply lset_only|]. split; [apply lset_only|auto]. }
  destruct (np_loop fit x0 x cw u frozen_idx (x0, x)) as [a|] eqn:A; cbn [rbind]; [|discriminate]. intros H. injection H as <- <-.
  destruct (L _ _ A) as (L1 & L2). split; auto. exists (snd a). split; auto.
Qed.
(** the call succeeds if the fits do *)
Theorem nonprofiled_total fit cw u frozen_idx frozen_params groups x0 x :
  (forall i v, In i frozen_idx -> exists y, fit (lset x0 i v) (lset x i (Fin v)) = Ok y) ->
  exists r, nonprofiled fit cw u frozen_idx frozen_params groups (x0, x) = Ok r.
Proof.
  intros F. unfold nonprofiled. cbn [fst snd].
  assert (L : forall idx, (forall i, In i idx -> In i frozen_idx) -> exists b, np_loop fit x0 x cw u idx (x0, x) = Ok ((x0, x), b)).
  { induction idx as [|i r IH]; intros I; cbn [np_loop]; [eauto|]. unfold np_one, np_sign. cbn [fst snd].
    destruct (F i (1 * np_err cw u i + nth i x0 0)) as (p & ->); [apply I; simpl; auto|]. cbn [rbind fst snd]. rewrite !lset_lset.
    destruct (F i (-1 * np_err cw u i + nth i x0 0)) as (m & ->); [apply I; simpl; auto|]. cbn [rbind fst snd]. rewrite lset_lset, lset_same.
    destruct IH as (b & ->); [intros; apply I; simpl; auto|]. cbn [rbind fst snd]. eauto. }
  destruct (L frozen_idx) as (b & ->); auto. cbn [rbind]. eauto.
Qed.
(** ** groups *)
Lemma envelopes_ok n rows : envelope_of n rows (envelopes n rows).
Proof.
  split; [|split].
  - unfold envelopes. cbn [fst]. rewrite !map_length, seq_length. auto.
  - unfold envelopes. cbn [snd]. rewrite !map_length, seq_length. auto.
  - intros k H. rewrite envelopes_column by auto. apply envelope_ok.
Qed.
Lemma rows_of_filter {A} (f : nat -> bool) (P : nat -> Prop) frozen (rows : list A) :
  (forall i, f i = true <-> P i) -> List.length frozen = List.length rows ->
  rows_of P frozen rows (map snd (filter (fun p => f (fst p)) (combine frozen rows))).
Proof.
  intros FP. revert rows. induction frozen as [|i r IH]; intros rows L.
  - exists []. split; [simpl; intros; lia|]. split; [|constructor]. intros k. split; [intros []|]. intros (i & E & _). destruct k; discriminate.
  - destruct rows as [|a rows]; [discriminate|]. injection L as L. destruct (IH rows L) as (ks & SS & M & F).
    assert (F' : Forall2 (fun k r0 => nth_error (a :: rows) k = Some r0) (map Datatypes.S ks) (map snd (filter (fun p => f (fst p)) (combine r rows)))).
    { clear - F. induction F; simpl; constructor; auto. }
    assert (S' : forall x y, (x < y < List.length (map Datatypes.S ks))%nat -> (nth x (map Datatypes.S ks) 0 < nth y (map Datatypes.S ks) 0)%nat).
    { intros x y H. rewrite map_length in H. rewrite !(nth_map_default _ ks _ 0%nat) by lia. specialize (SS x y H). lia. }
    assert (M' : forall k, In k (map Datatypes.S ks) <-> exists k', k = Datatypes.S k' /\ In k' ks).
    { intros k. rewrite in_map_iff. split; intros (k' & X & Y); exists k'; auto. }
    cbn [combine filter fst]. destruct (f i) eqn:E.
    + exists (O :: map Datatypes.S ks). split; [|split].
      * intros x y H. simpl in H. destruct y as [|y]; [lia|]. destruct x as [|x]; cbn [nth].
        { rewrite (nth_map_default _ ks _ 0%nat) by (rewrite map_length in H; lia). lia. }
        { apply S'. rewrite map_length in *. lia. }
      * intros k. cbn [In]. rewrite M'. split.
        { intros [<-|(k' & -> & I)]; [exists i; split; auto; apply FP; auto|]. apply M in I. auto. }
        { intros (j & X & Y). destruct k as [|k]; [auto|]. right. exists k. split; auto. apply M. exists j. auto. }
      * cbn [map snd]. constructor; auto.
    + exists (map Datatypes.S ks). split; auto. split; auto. intros k. rewrite M'. split.
      * intros (k' & -> & I). apply M in I. auto.
      * intros (j & X & Y). destruct k as [|k]; [injection X as ->; apply FP in Y; congruence|]. exists k. split; auto. apply M. exists j. auto.
Qed.
Lemma existsb_eqb i l : existsb (Nat.eqb i) l = true <-> In i l.
Proof. rewrite existsb_exists. split; [intros (x & H & E); apply Nat.eqb_eq in E; subst; auto|intros H; exists i; split; auto; apply Nat.eqb_refl]. Qed.
Lemma np_groups_shifted nparams n frozen groups rows : List.length frozen = List.length rows ->
  groups_spec nparams n frozen groups rows (np_groups n frozen (map (fun g => (fst g, map (fun j => nparams + j)%nat (snd g))) groups) rows).
Proof.
  intros L. set (sel := fun g : string * list nat => np_rows frozen (map (fun j => nparams + j)%nat (snd g)) rows).
  exists (map (fun g => match sel g with [] => None | l => Some (fst g, envelopes n l) end) groups). split.
  - unfold np_groups. rewrite !flat_map_concat_map, !map_map. f_equal. apply map_ext. intros g. cbn [fst snd]. fold (sel g). destruct (sel g); reflexivity.
  - apply Forall2_self. intros g. exists (sel g). split.
    + apply (rows_of_filter (fun i => existsb (Nat.eqb i) (map (fun j => nparams + j)%nat (snd g)))); auto.
      intros i. rewrite existsb_eqb, in_map_iff. split; intros (j & X & Y); exists j; auto.
    + destruct (sel g) as [|a l] eqn:E; auto. split; auto. split; [discriminate|]. apply envelopes_ok.
Qed.
Theorem np_groups_first n frozen groups rows : List.length frozen = List.length rows ->
  groups_spec 0 n frozen groups rows (np_groups n frozen groups rows).
Proof.
  intros L. assert (X := np_groups_shifted 0 n frozen groups rows L). replace (map _ groups) with groups in X; auto.
  rewrite <- (map_id groups) at 1. apply map_ext. intros [g l]. cbn [fst snd]. f_equal. rewrite <- (map_id l) at 1. apply map_ext. auto.
Qed.
Lemma rows_of_unique {A} (P : nat -> Prop) frozen (rows : list A) s1 s2 : rows_of P frozen rows s1 -> rows_of P frozen rows s2 ->
  List.length s1 = List.length s2.
Proof.
  intros (k1 & S1 & M1 & F1) (k2 & S2 & M2 & F2).
  assert (ND : forall ks : list nat, (forall a b, (a < b < List.length ks)%nat -> (nth a ks 0 < nth b ks 0)%nat) -> NoDup ks).
  { intros ks S. apply (NoDup_nth ks 0%nat). intros i j Hi Hj E. destruct (Nat.lt_trichotomy i j) as [X|[X|X]]; auto.
    - specialize (S i j (conj X Hj)). lia.
    - specialize (S j i (conj X Hi)). lia. }
  assert (L1 : List.length k1 = List.length s1) by (eapply Forall2_len; eauto). assert (L2 : List.length k2 = List.length s2) by (eapply Forall2_len; eauto).
  assert ((List.length k1 <= List.length k2)%nat). { apply NoDup_incl_length; auto. intros k HH. apply M2, M1. auto. }
  assert ((List.length k2 <= List.length k1)%nat). { apply NoDup_incl_length; auto. intros k HH. apply M1, M2. auto. }
  lia.
Qed.
(** ** sources *)
Lemma ga_width_sigma cw i : source_sigma (nth i cw 0) (ga_width cw i).
Proof.
  unfold source_sigma, ga_width. cbn zeta. destruct (Reqb_spec (nth i cw 0) 0) as [E|E]; split; intros H; auto; try lra.
  assert (P := Rinv_0_lt_compat _ H). split; [apply sqrt_lt_R0; auto|]. rewrite sqrt_sqrt by lra. field. lra.
Qed.
Lemma ga_sign_side fit x0 x dx i s y : fit (shift_at x0 i s) (ga_start dx x i s) = Ok y -> source_side fit x0 x i s (ga_sign fit x0 x dx i s).
Proof.
  intros H. exists y. unfold ga_sign. rewrite H. split; [|apply combine_sub]. exists (shift_at x0 i s), (ga_start dx x i s). split; auto. apply lset_only.
Qed.
Lemma ga_row_ok fit x0 x cw sigma dx i : (forall s, exists y, fit (shift_at x0 i s) (ga_start dx x i s) = Ok y) ->
  source_row fit x0 x cw sigma i (ga_row fit x0 x cw sigma dx i).
Proof.
  intros F. exists (ga_width cw i). split; [apply ga_width_sigma|]. unfold ga_row. cbn [fst snd].
  replace (- (sigma * ga_width cw i)) with (-1 * sigma * ga_width cw i) by ring. replace (sigma * ga_width cw i) with (1 * sigma * ga_width cw i) by ring.
  destruct (F (-1 * sigma * ga_width cw i)) as (y1 & E1). destruct (F (1 * sigma * ga_width cw i)) as (y2 & E2).
  split; eapply ga_sign_side; eauto.
Qed.
Lemma last_pos_some i l : forall k p, last_pos i k l = Some p -> (k <= p)%nat /\ nth_error l (p - k) = Some i.
Proof.
  induction l as [|j r IH]; intros k p H; cbn [last_pos] in H; [discriminate|]. destruct (last_pos i (S k) r) eqn:E.
  - injection H as ->. destruct (IH _ _ E) as (A & B). split; [lia|]. replace (p - k)%nat with (S (p - S k)) by lia. auto.
  - destruct (Nat.eqb_spec j i); [|discriminate]. injection H as <-. split; [lia|]. rewrite Nat.sub_diag. subst; auto.
Qed.
Lemma last_pos_none i l : forall k, last_pos i k l = None <-> ~ In i l.
Proof.
  induction l as [|j r IH]; intros k; cbn [last_pos]; [simpl; tauto|]. destruct (last_pos i (S k) r) eqn:E.
  - split; [discriminate|]. intros H. exfalso. apply H. right. destruct (last_pos_some _ _ _ _ E) as (_ & X). eapply nth_error_In; eauto.
  - apply IH in E. destruct (Nat.eqb_spec j i); simpl; split; intros H; auto; try discriminate; try tauto.
Qed.
Lemma Forall2_nth_in {A B} (P : A -> B -> Prop) (f : A -> B) l : (forall x, In x l -> P x (f x)) -> Forall2 P l (map f l).
Proof. intros H. induction l; cbn [map]; constructor; [apply H; simpl; auto|apply IHl; intros; apply H; simpl; auto]. Qed.
Theorem global_asym_spec fit cw sigma dx sel names groups x0 x st labels rows grouped :
  global_asym fit cw sigma dx sel names groups x0 x = (st, (labels, rows, grouped)) ->
  (forall i s, In i sel -> exists y, fit (shift_at x0 i s) (ga_start dx x i s) = Ok y) ->
  st = (x0, x) /\ labels = names /\ Forall2 (source_row fit x0 x cw sigma) sel rows /\
  exists gs, source_groups (List.length x) sel groups (source_row fit x0 x cw sigma) gs /\
    grouped = gs ++ match sel with [] => [] | _ => [("Total"%string, envelopes (List.length x) rows)] end.
Proof.
  unfold global_asym. intros H F. injection H as <- <- <- <-. split; auto. split; auto.
  assert (ROW : forall i, In i sel -> source_row fit x0 x cw sigma i (ga_row fit x0 x cw sigma dx i)) by (intros; apply ga_row_ok; auto).
  split.
  { clear F. induction sel as [|i r IH]; cbn [map]; constructor; [apply ROW; simpl; auto|apply IH; intros; apply ROW; simpl; auto]. }
  eexists. split; [|reflexivity].
  set (rows := map (ga_row fit x0 x cw sigma dx) sel).
  exists (map (fun g : string * list nat => match in_scanned sel (snd g) with [] => None | l => Some (fst g, envelopes (List.length x) (map (fun k => nth k rows ([], [])) l)) end) groups).
  split.
  { rewrite !flat_map_concat_map, map_map. f_equal. apply map_ext. intros g. destruct (in_scanned sel (snd g)); reflexivity. }
  apply Forall2_self. intros [name g]. cbn [fst snd].
  set (ms := filter (fun i => existsb (Nat.eqb i) sel) g).
  assert (E : map (fun k => nth k rows ([], [])) (in_scanned sel g) = map (ga_row fit x0 x cw sigma dx) ms).
  { unfold in_scanned, ms. induction g as [|i r IH]; auto. cbn [flat_map filter]. rewrite map_app, IH. destruct (last_pos i 0 sel) as [p|] eqn:P.
    - destruct (last_pos_some _ _ _ _ P) as (_ & N). rewrite Nat.sub_0_r in N.
      replace (existsb (Nat.eqb i) sel) with true by (symmetry; apply existsb_eqb; eapply nth_error_In; eauto). cbn [map app]. f_equal.
      unfold rows. assert (L : (p < List.length sel)%nat) by (apply nth_error_Some; congruence).
      rewrite (nth_map_default _ sel p 0%nat) by auto. f_equal. apply nth_error_nth. auto.
    - apply last_pos_none in P. replace (existsb (Nat.eqb i) sel) with false; auto. symmetry. apply not_true_iff_false. rewrite existsb_eqb. auto. }
  exists ms, (map (ga_row fit x0 x cw sigma dx) ms).
  assert (MS : forall i, In i ms <-> In i g /\ In i sel) by (intros i; unfold ms; rewrite filter_In, existsb_eqb; tauto).
  split; auto. split; [intros; apply NoDup_filter; auto|]. split.
  { apply Forall2_nth_in. intros i I. apply ROW. apply MS; auto. }
  destruct (in_scanned sel g) as [|a l] eqn:Q.
  - destruct ms; [auto|discriminate].
  - rewrite E. split; auto. split; [destruct ms; [discriminate|discriminate]|]. apply envelopes_ok.
Qed.
(** ** scans with frozen groups *)
Section FreezeGroupProof.
  Variable rx : regex.
  Variable parms : list string.
  Variable scan : string -> list string -> fl * fl.
  Lemma literal_selects tf p : (forall m, In m tf -> literal rx parms m) -> In p parms -> (selects rx tf p <-> In p tf).
  Proof.
    intros L P. split.
    - intros (e & I & [->|(f & E & F)]); auto. destruct (L e I) as (g & G & H). assert (f = g) by congruence. subst. rewrite (H p P F). auto.
    - intros I. exists p. auto.
  Qed.
  Lemma scan_spec L targets members : (forall m, In m members -> literal rx parms m) ->
    exists L', scan_with_frozen rx parms scan L targets members (update_frozen parms L) =
      Ok (update_frozen parms L, map (fun t => if smem t members || smem t L then (NaN, NaN) else scan t L') targets) /\
    forall p, In p L' <-> In p L \/ (In p members /\ In p parms).
  Proof.
    intros LIT. unfold scan_with_frozen. set (tf := filter (fun m => negb (smem m L)) members).
    assert (TF : forall m, In m tf <-> In m members /\ ~ In m L).
    { intros m. unfold tf. rewrite filter_In, negb_true_iff, <- not_true_iff_false, smem_In. tauto. }
    assert (LT : forall m, In m tf -> literal rx parms m) by (intros m H; apply LIT; apply TF; auto).
    assert (V : valid rx tf) by (intros m H; destruct (LT m H) as (f & E & _); congruence).
    destruct (match_params_spec rx tf parms) as (M1 & M2). destruct (M1 V) as (mm & MM). destruct (M2 mm MM) as (_ & _ & _ & MS).
    assert (MI : forall p, In p mm <-> In p parms /\ In p tf).
    { intros p. rewrite MS. split; intros (A & B); split; auto; apply (literal_selects tf p LT A); auto. }
    destruct tf as [|m0 r] eqn:ET.
    - exists L. cbn [rbind]. split; [reflexivity|]. intros p. split; auto. intros [H|(H & _)]; auto.
      destruct (in_dec string_dec p L); auto. exfalso. assert (X : In p []) by (apply TF; auto). contradiction.
    - rewrite <- ET in *. exists (L ++ mm). unfold freeze_params. rewrite MM. cbn [rbind]. unfold defreeze_params. rewrite MM. cbn [rbind]. cbn [fz_list update_frozen].
      split.
      + f_equal. f_equal. f_equal. rewrite filter_app.
        assert (F1 : filter (fun x => negb (smem x mm)) L = L).
        { assert (D : forall x, In x L -> ~ In x mm) by (intros x H N; apply MI in N; destruct N as (_ & N); apply TF in N; tauto). clear - D.
          induction L as [|a r IH]; auto. cbn [filter]. destruct (smem a mm) eqn:E; [apply smem_In in E; exfalso; apply (D a); simpl; auto|].
          cbn [negb]. f_equal. apply IH. intros; apply D; simpl; auto. }
        assert (F2 : forall l, (forall x, In x l -> In x mm) -> filter (fun x => negb (smem x mm)) l = []).
        { induction l as [|a l IH]; intros I; auto. cbn [filter]. assert (E : smem a mm = true) by (apply smem_In; apply I; simpl; auto). rewrite E. cbn [negb]. apply IH. intros; apply I; simpl; auto. }
        rewrite F1, F2 by auto. rewrite app_nil_r. reflexivity.
      + intros p. rewrite in_app_iff, MI, TF. destruct (in_dec string_dec p L); tauto.
  Qed.
  Lemma group_loop_spec L targets groups : (forall g m, In g groups -> In m (snd g) -> literal rx parms m) ->
    exists cols, group_loop rx parms scan L targets (map (fun t => scan t L) targets) groups (update_frozen parms L) = Ok (update_frozen parms L, cols) /\
      Forall2 (fun g c => fst c = fst g /\ freeze_group_column scan parms L targets (snd g) (snd c)) groups cols.
  Proof.
    induction groups as [|[g mem] r IH]; intros LIT; cbn [group_loop]; [eauto|].
    destruct (scan_spec L targets mem) as (L' & E & HL). { intros m H. apply (LIT (g, mem)); simpl; auto. } rewrite E. cbn [rbind fst snd].
    destruct IH as (cols & EC & FC). { intros g' m H1 H2. apply (LIT g'); simpl; auto. } rewrite EC. cbn [rbind fst snd].
    eexists. split; [reflexivity|]. constructor; auto. cbn [fst snd]. split; auto. exists L'. split; auto.
    clear. induction targets as [|t ts IH]; cbn [map combine]; constructor; auto. cbn [fst snd].
    destruct (smem t mem || smem t L); [destruct (scan t L) as [[] []]; reflexivity|].
    unfold quad_subtract. cbn [fst snd]. split; apply quad_side_ok.
  Qed.
  Theorem grouped_asym_spec L targets groups constrained :
    (forall g m, In g groups -> In m (snd g) -> literal rx parms m) -> (forall m, In m constrained -> literal rx parms m) ->
    exists cols stat, grouped_asym rx parms scan targets groups constrained (update_frozen parms L) =
      Ok (update_frozen parms L, cols ++ [("stat"%string, stat); ("Total"%string, map (fun t => scan t L) targets)]) /\
      Forall2 (fun g c => fst c = fst g /\ freeze_group_column scan parms L targets (snd g) (snd c)) groups cols /\
      frozen_column scan parms L targets constrained stat.
  Proof.
    intros LG LC. unfold grouped_asym. cbn [fz_list update_frozen].
    destruct (group_loop_spec L targets groups LG) as (cols & E & F). unfold update_frozen in E at 1 |- *. cbn [fz_list]. rewrite E. cbn [rbind fst snd].
    destruct (scan_spec L targets constrained LC) as (L' & E' & HL). rewrite E'. cbn [rbind fst snd].
    eexists _, _. split; [reflexivity|]. split; auto. exists L'. auto.
  Qed.
End FreezeGroupProof.
(** ** labels of the frozen parameters *)
Lemma where_names (mask : string -> bool) (parms : list string) d : forall k pre, List.length pre = k ->
  map (fun i => nth i (pre ++ parms) d) (map fst (filter (fun p => snd p) (combine (seq k (List.length parms)) (map mask parms)))) = filter mask parms.
Proof.
  induction parms as [|p r IH]; intros k pre L; auto. cbn [List.length seq map combine filter snd].
  assert (E : forall l, map (fun i => nth i (pre ++ p :: r) d) l = map (fun i => nth i ((pre ++ [p]) ++ r) d) l) by (intros; rewrite <- app_assoc; reflexivity).
  destruct (mask p).
  - cbn [map fst]. rewrite E, IH by (rewrite app_length; simpl; lia). f_equal. rewrite app_nth2 by lia. rewrite L, Nat.sub_diag. reflexivity.
  - rewrite E. apply IH. rewrite app_length; simpl; lia.
Qed.
Lemma subseq_filter (l parms : list string) : NoDup parms -> subseq l parms -> filter (fun p => smem p l) parms = l.
Proof.
  intros ND S. induction S as [l|x a b S IH|x a b S IH].
  - induction l; auto. inversion ND; subst. cbn [filter smem existsb]. auto.
  - inversion ND; subst. cbn [filter]. assert (E : smem x (x :: a) = true) by (apply smem_In; simpl; auto). rewrite E. f_equal.
    transitivity (filter (fun p => smem p a) b); [|apply IH; auto]. apply filter_ext_in. intros y Hy. unfold smem. cbn [existsb]. destruct (String.eqb_spec y x); auto. subst. contradiction.
  - inversion ND; subst. cbn [filter]. assert (E : smem x a = false). { apply not_true_iff_false. rewrite smem_In. intros H. apply H1. eapply subseq_In; eauto. }
    rewrite E. auto.
Qed.
Theorem frozen_labels (parms l : list string) d : NoDup parms -> subseq l parms ->
  map (fun i => nth i parms d) (fz_idx (update_frozen parms l)) = fz_list (update_frozen parms l).
Proof.
  intros ND S. unfold update_frozen. cbn [fz_idx fz_list]. unfold where_true. rewrite map_length.
  exact (eq_trans (where_names (fun p => smem p l) parms d 0 [] eq_refl) (subseq_filter l parms ND S)).
Qed.
Theorem frozen_labels_call rx (parms exprs : list string) st d : NoDup parms -> freeze_params rx parms (finit parms) exprs = Ok st ->
  map (fun i => nth i parms d) (fz_idx st) = fz_list st.
Proof.
  intros ND H. unfold freeze_params in H. destruct (match_params rx exprs parms) as [m|] eqn:M; cbn [rbind] in H; [|discriminate]. injection H as <-.
  destruct (match_params_spec rx exprs parms) as (_ & M2). destruct (M2 m M) as (_ & _ & S & _). apply frozen_labels; auto.
Qed.
