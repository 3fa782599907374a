(** Proofs about the clipping of templates. *)
From Coq Require Import List Arith Bool String Lia Reals Lra.
From Verif Require Import PyList PyDict Num RBase Names_Model Writer_Model Card_Model Merge_Model Clip_Model Clip_Spec.
Import ListNotations.
Local Open Scope nat_scope.
Local Open Scope list_scope.

(** *** the arguments *)
Section Args.
  Context {V : Type}.
  Variable parse : string -> option V.
  Lemma pairs_ind (P : list string -> Prop) : P [] -> (forall a, P [a]) -> (forall a b l, P l -> P (a :: b :: l)) -> forall l, P l.
  Proof.
    intros H0 H1 H2 l. enough (P l /\ forall a, P (a :: l)) by tauto. induction l as [|x l [I J]]; split; auto.
  Qed.
  Lemma pairs_spec : forall args (d d' : dict V), clip_pairs parse args d = Ok d' -> Nat.Even (List.length args) ->
    forall n, (forall t, given parse args n t -> dget n d' = Some t) /\ (not_given args n -> dget n d' = dget n d) /\
      (not_given args n \/ exists t, given parse args n t).
  Proof.
    induction args as [|a|a b l IH] using pairs_ind; intros d d' E EV n.
    - cbn in E. injection E as <-. repeat split; auto.
      + intros t (i & x & H & _). destruct (2 * i); discriminate H.
      + left. intros i. destruct (2 * i); discriminate.
    - destruct EV as (k & K). cbn in K. lia.
    - cbn [clip_pairs] in E. destruct (parse b) as [t|] eqn:PB; [|discriminate].
      assert (EV' : Nat.Even (List.length l)) by (destruct EV as (k & K); cbn in K; exists (k - 1); lia).
      destruct (IH _ _ E EV' n) as (G & N & D).
      assert (SH : forall i, nth_error (a :: b :: l) (2 * S i) = nth_error l (2 * i)) by (intros i; replace (2 * S i) with (S (S (2 * i))) by lia; auto).
      assert (SH' : forall i, nth_error (a :: b :: l) (2 * S i + 1) = nth_error l (2 * i + 1)) by (intros i; replace (2 * S i + 1) with (S (S (2 * i + 1))) by lia; auto).
      assert (LIFT : forall u, given parse l n u -> given parse (a :: b :: l) n u).
      { intros u (i & x & H1 & H2 & H3 & H4). exists (S i), x. rewrite SH, SH'. repeat split; auto. intros [|j] J; [lia|]. rewrite SH. apply H4. lia. }
      repeat split.
      + intros u (i & x & H1 & H2 & H3 & H4). destruct i as [|i].
        * cbn in H1, H2. injection H1 as ->. injection H2 as ->. rewrite PB in H3. injection H3 as ->.
          rewrite N; [apply dget_dset_same|]. intros j J. apply (H4 (S j)); [lia|]. rewrite SH. auto.
        * apply G. rewrite SH in H1. rewrite SH' in H2. exists i, x. repeat split; auto. intros j J. rewrite <- SH. apply H4. lia.
      + intros NG. rewrite N. 2:{ intros i. rewrite <- SH. apply NG. } apply dget_dset_other. intros ->. apply (NG 0). auto.
      + destruct D as [NG|(u & D)]; [|right; eauto]. destruct (string_dec a n) as [->|NE].
        * right. exists t, 0, b. repeat split; auto. intros [|j] J; [lia|]. rewrite SH. apply NG.
        * left. intros [|i]; [cbn; congruence|]. rewrite SH. apply NG.
  Qed.
  Lemma pairs_total : forall args (d : dict V), (exists d', clip_pairs parse args d = Ok d') <-> (forall i n x, nth_error args (2 * i) = Some n -> nth_error args (2 * i + 1) = Some x -> parse x <> None).
  Proof.
    induction args as [|a|a b l IH] using pairs_ind; intros d.
    - split; [|intros _; exists d; reflexivity]. intros _ i n x H. destruct (2 * i); discriminate H.
    - split; [|intros _; exists d; reflexivity]. intros _ [|i] n x H K; [discriminate K|]. replace (2 * S i) with (S (S (2 * i))) in H by lia. destruct (2 * i); discriminate H.
    - cbn [clip_pairs]. assert (SH : forall i, nth_error (a :: b :: l) (2 * S i) = nth_error l (2 * i)) by (intros i; replace (2 * S i) with (S (S (2 * i))) by lia; auto).
      assert (SH' : forall i, nth_error (a :: b :: l) (2 * S i + 1) = nth_error l (2 * i + 1)) by (intros i; replace (2 * S i + 1) with (S (S (2 * i + 1))) by lia; auto).
      destruct (parse b) as [t|] eqn:PB.
      + rewrite IH. split; intros H.
        * intros [|i] n x; [cbn; intros _ K; injection K as <-; congruence|]. rewrite SH, SH'. apply H.
        * intros i n x. rewrite <- SH, <- SH'. apply H.
      + split; [intros (d' & X); discriminate|]. intros H. exfalso. apply (H 0 a b); auto.
  Qed.
  Lemma even_mod n : Nat.eqb (n mod 2) 0 = true <-> Nat.Even n.
  Proof. rewrite Nat.eqb_eq, <- Nat.even_spec. rewrite <- Nat.bit0_mod, Nat.bit0_odd, <- Nat.negb_even. destruct (Nat.even n); cbn; split; congruence. Qed.
  Theorem dict_spec args (d : dict V) : clip_dict parse args = Ok d ->
    forall n, (forall t, dget n d = Some t <-> given parse args n t) /\ (dget n d = None <-> not_given args n).
  Proof.
    unfold clip_dict. destruct (Nat.eqb _ 0) eqn:EV; [|discriminate]. apply even_mod in EV. intros E n.
    destruct (pairs_spec _ _ _ E EV n) as (G & N & D). split; [intros t; split; auto|split; auto].
    - intros H. destruct D as [D|(u & D)]; [rewrite (N D) in H; discriminate|]. rewrite (G u D) in H. injection H as ->. auto.
    - intros H. destruct D as [D|(u & D)]; auto. rewrite (G u D) in H. discriminate.
  Qed.
  Theorem dict_total args : (exists d, clip_dict parse args = Ok d) <->
    Nat.Even (List.length args) /\ (forall i n x, nth_error args (2 * i) = Some n -> nth_error args (2 * i + 1) = Some x -> parse x <> None).
  Proof.
    unfold clip_dict. destruct (Nat.eqb _ 0) eqn:EV.
    - apply even_mod in EV. rewrite pairs_total. tauto.
    - split; [intros (d & X); discriminate|]. intros (H & _). apply even_mod in H. congruence.
  Qed.
  Theorem dict_error args e : clip_dict parse args = Raise e -> e = ValueError.
  Proof.
    unfold clip_dict. destruct (Nat.eqb _ 0); [|congruence]. generalize (@nil (string * V)).
    induction args as [|a|a b l IH] using pairs_ind; intros d; cbn [clip_pairs]; try discriminate. destruct (parse b); [apply IH|congruence].
  Qed.
End Args.

(** *** the calls *)
Section Calls.
  Context {V : Type} {NV : Num V}.
  Variable rn : renames.
  Variable parse : string -> option V.
  Definition effect (t : option V) : V -> V := match t with None => fun v => v | Some t => nclip t end.
  Definition on_trace (f : V -> V) (tr : trace (V := V)) : trace (V := V) := (map (on_op f) (fst tr), snd tr).
  Lemma clipped_map t vs : clipped t vs = map (effect t) vs.
  Proof. destruct t; cbn; auto. rewrite map_id. auto. Qed.
  Lemma on_andthen f a b : on_trace f (andthen a b) = andthen (on_trace f a) (on_trace f b).
  Proof. unfold on_trace, andthen. cbn [fst snd]. destruct (snd a) eqn:E; cbn [fst snd]; rewrite ?map_app; auto. rewrite E. auto. Qed.
  Lemma on_each {A} f (g : A -> trace (V := V)) l : on_trace f (each g l) = each (fun x => on_trace f (g x)) l.
  Proof. induction l as [|x l IH]; cbn [each fold_right]; auto. rewrite on_andthen. f_equal. apply IH. Qed.
  Lemma each_ext {A} (f g : A -> trace (V := V)) l : (forall x, In x l -> f x = g x) -> each f l = each g l.
  Proof. induction l as [|x l IH]; intros H; cbn [each fold_right]; auto. rewrite H by (left; auto). f_equal. apply IH. intros; apply H; right; auto. Qed.
  Lemma channel_effect t w norm logk x : clip_channel_calls rn t w norm logk x = on_trace (effect t) (channel_calls rn w norm logk x).
  Proof.
    destruct x as (c & info & s & n). unfold clip_channel_calls, channel_calls. destruct (w_procs w); auto. rewrite on_andthen. f_equal.
    - unfold on_trace, emit. cbn [fst snd map on_op]. do 2 f_equal. rewrite map_map. apply map_ext. intros ip.
      unfold clip_proc_call, proc_call. cbn [on_op on_hist]. rewrite !clipped_map. auto.
    - destruct (ch_masked info); auto. unfold on_trace, emit. cbn [fst snd map on_op]. do 2 f_equal.
      generalize (enumerate (w_systs w)). intros l0. induction l0 as [|ks l0 IH]; auto. cbn [flat_map]. rewrite map_app, <- IH. f_equal. destruct ks as (k & name). unfold clip_syst_calls, syst_calls. rewrite map_map.
      apply map_ext. intros ip. cbn [on_op on_hist map]. rewrite !clipped_map. auto.
  Qed.
  Theorem input_effect d n w : clip_input_calls rn d (n, w) = on_trace (effect (dget n d)) (input_calls rn w).
  Proof.
    unfold clip_input_calls, input_calls. cbn [fst snd]. destruct (w_tensors w); auto. rewrite on_each. apply each_ext. intros x _. apply channel_effect.
  Qed.
  Lemma on_hist_id (h : histo V) : on_hist (fun v => v) h = h.
  Proof. destruct h; cbn; rewrite ?map_id; auto. Qed.
  Lemma on_op_id (o : op V) : on_op (fun v => v) o = o.
  Proof. destruct o; cbn [on_op]; rewrite ?on_hist_id; auto. destruct h; rewrite ?on_hist_id; auto. Qed.
  Lemma on_trace_id tr : on_trace (fun v => v) tr = tr.
  Proof. destruct tr as (l & e). unfold on_trace. cbn [fst snd]. f_equal. rewrite <- (map_id l) at 2. apply map_ext, on_op_id. Qed.
  Theorem merge_off ty args ins d : clip_dict parse args = Ok d -> (forall x, In x ins -> not_given args (fst x)) ->
    clip_merge rn parse ty args ins = merge rn ty (map snd ins).
  Proof.
    intros E N. unfold clip_merge, merge, merge_calls. rewrite E. cbn [rbind].
    replace (each (clip_input_calls rn d) ins) with (each (input_calls rn) (map snd ins)); auto.
    clear - E N. induction ins as [|(n & w) l IH]; auto. cbn [map each fold_right snd]. rewrite input_effect.
    assert (X : dget n d = None) by (apply (dict_spec parse args d E n); apply (N (n, w)); left; auto).
    rewrite X. cbn [effect]. rewrite on_trace_id. f_equal. apply IH. intros x I. apply N. right. auto.
  Qed.
End Calls.

(** *** real numbers *)
Local Open Scope R_scope.
Lemma nclip_R (t v : R) : nclip t v = Rmax v t.
Proof. unfold nclip. cbn [nlt Num_R]. destruct (Rltb_spec v t); [rewrite Rmax_right|rewrite Rmax_left]; lra. Qed.
Lemma ln_max t v : 0 < t -> 0 < v -> ln (Rmax v t) = Rmax (ln v) (ln t).
Proof.
  intros T P. destruct (Rle_or_lt v t) as [H|H].
  - rewrite !Rmax_right; auto. destruct H as [H| ->]; [left; apply ln_increasing; auto|right; auto].
  - rewrite !Rmax_left; auto; [left; apply ln_increasing; auto|lra].
Qed.
Lemma ln_ratio a b : 0 < a -> 0 < b -> ln (a / b) = ln a - ln b.
Proof. intros A B. unfold Rdiv. rewrite ln_mult by (auto; apply Rinv_0_lt_compat; auto). rewrite ln_Rinv by auto. ring. Qed.
Theorem variation_shrinks t n u : 0 < t -> 0 < n -> 0 < u ->
  let a := ln (nclip t u / nclip t n) in let b := ln (u / n) in
  Rabs a <= Rabs b /\ 0 <= a * b /\ (t <= n -> t <= u -> a = b) /\ (n <= t -> u <= t -> a = 0).
Proof.
  intros T N U. cbv zeta. rewrite !nclip_R.
  assert (M1 : 0 < Rmax u t) by (apply Rlt_le_trans with t; auto; apply Rmax_r). assert (M2 : 0 < Rmax n t) by (apply Rlt_le_trans with t; auto; apply Rmax_r).
  assert (LE : forall x, 0 < x -> t <= x -> ln t <= ln x) by (intros x X [H| <-]; [left; apply ln_increasing; auto|right; auto]).
  assert (LE' : forall x, 0 < x -> x <= t -> ln x <= ln t) by (intros x X [H| <-]; [left; apply ln_increasing; auto|right; auto]).
  rewrite !ln_ratio, !ln_max by auto. repeat split.
  - unfold Rmax. destruct (Rle_dec (ln u) (ln t)), (Rle_dec (ln n) (ln t)); unfold Rabs; repeat destruct (Rcase_abs _); lra.
  - unfold Rmax. destruct (Rle_dec (ln u) (ln t)), (Rle_dec (ln n) (ln t)).
    + replace ((ln t - ln t) * (ln u - ln n)) with 0 by ring. lra.
    + replace ((ln t - ln n) * (ln u - ln n)) with ((ln n - ln t) * (ln n - ln u)) by ring. apply Rmult_le_pos; lra.
    + apply Rmult_le_pos; lra.
    + apply Rle_0_sqr.
  - intros H1 H2. rewrite !Rmax_left; auto.
  - intros H1 H2. rewrite !Rmax_right by auto. lra.
Qed.
Theorem total_grows t vs : 0 <= t -> (forall v, In v vs -> 0 <= v) -> sum_of vs <= sum_of (map (nclip t) vs) <= sum_of vs + INR (List.length vs) * t.
Proof.
  intros T P. induction vs as [|v vs IH]; [cbn; lra|].
  assert (X := IH (fun w I => P w (or_intror I))). assert (Y := P v (or_introl eq_refl)).
  change (sum_of (map (nclip t) (v :: vs))) with (nclip t v + sum_of (map (nclip t) vs)). change (sum_of (v :: vs)) with (v + sum_of vs).
  cbn [List.length]. rewrite S_INR, nclip_R. assert (Z := Rmax_l v t). assert (Z' : Rmax v t <= v + t) by (apply Rmax_lub; lra). lra.
Qed.
