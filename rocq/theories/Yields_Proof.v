(** The prediction computed from dense or sparse tensors is the documented formula. *)
From Coq Require Import List Arith Bool String Reals Lra Lia Sorted.
From Verif Require Import PyList RBase Num PyDict Writer_Model Writer_Spec Writer_Layout Writer_Meta Writer_Inv Writer_Tensor
  Writer_Hist Writer_Denote Writer_Master Writer_Effects Yields_Model Yields_Spec.
Import ListNotations.
Local Open Scope R_scope.

(** *** finite sums *)
Lemma sum_n_ext n f g : (forall i, (i < n)%nat -> f i = g i) -> sum_n n f = sum_n n g.
Proof. intros H. unfold sum_n. apply sumR_map_ext. intros x Hx. apply in_seq in Hx. apply H. lia. Qed.
Lemma sum_n_0 n f : (forall i, (i < n)%nat -> f i = 0) -> sum_n n f = 0.
Proof.
  intros H. rewrite (sum_n_ext n f (fun _ => 0)) by auto. unfold sum_n. apply sumR_map_0.
Qed.
Lemma sum_n_plus n f g : sum_n n (fun i => f i + g i) = sum_n n f + sum_n n g.
Proof. unfold sum_n. apply sumR_map_plus. Qed.
Lemma sum_n_scal n c f : sum_n n (fun i => c * f i) = c * sum_n n f.
Proof. unfold sum_n. apply sumR_map_scal. Qed.
Lemma seq_shift_map {A} (f : nat -> A) n : forall a, map f (seq a n) = map (fun i => f (a + i)%nat) (seq 0 n).
Proof.
  induction n as [|n IH]; intros a; simpl; auto. rewrite Nat.add_0_r. f_equal.
  rewrite <- (seq_shift n 0), map_map, IH. apply map_ext. intros i. f_equal. lia.
Qed.
Lemma sum_n_app n m f : sum_n (n + m) f = sum_n n f + sum_n m (fun i => f (n + i)%nat).
Proof.
  unfold sum_n. rewrite seq_app, map_app, sumR_app. f_equal. simpl. rewrite seq_shift_map. auto.
Qed.
Lemma sum_n_single n k f : (k < n)%nat -> (forall i, (i < n)%nat -> i <> k -> f i = 0) -> sum_n n f = f k.
Proof.
  intros K H. replace n with (k + (1 + (n - k - 1)))%nat by lia. rewrite !sum_n_app.
  rewrite (sum_n_0 k) by (intros; apply H; lia).
  rewrite (sum_n_0 (n - k - 1)) by (intros; apply H; lia).
  unfold sum_n. simpl. rewrite Nat.add_0_r. ring.
Qed.

(** *** sparse rows *)
Notation ent := (nat * nat * R)%type.
Definition at2 (a c : nat) (e : ent) : bool := Nat.eqb (fst (fst e)) a && Nat.eqb (snd (fst e)) c.
Global Arguments at2 : simpl never.
Lemma group_row (l : list ent) a n w : (forall e, In e l -> (snd (fst e) < n)%nat) ->
  sumR (map (fun e => snd e * w (snd (fst e))) (filter (fun e => Nat.eqb (fst (fst e)) a) l)) =
  sum_n n (fun c => sumR (map snd (filter (at2 a c) l)) * w c).
Proof.
  induction l as [|[[x y] v] l IH]; intros H.
  - simpl. symmetry. apply sum_n_0. intros. simpl. ring.
  - assert (Hy : (y < n)%nat) by apply (H (x, y, v) (or_introl eq_refl)).
    assert (IHl := IH (fun e he => H e (or_intror he))).
    assert (AT : forall c, at2 a c (x, y, v) = (Nat.eqb x a && Nat.eqb y c)%bool) by reflexivity.
    simpl. destruct (Nat.eqb_spec x a) as [->|N].
    + simpl. rewrite IHl.
      rewrite (sum_n_ext n (fun c => sumR (map snd (if at2 a c (a, y, v) then (a, y, v) :: filter (at2 a c) l else filter (at2 a c) l)) * w c)
        (fun c => (if Nat.eqb y c then v * w c else 0) + sumR (map snd (filter (at2 a c) l)) * w c)).
      2:{ intros c _. rewrite AT, ?Nat.eqb_refl. simpl. destruct (Nat.eqb y c); simpl; ring. }
      rewrite sum_n_plus. f_equal. rewrite (sum_n_single n y); auto.
      * rewrite Nat.eqb_refl. auto.
      * intros i _ Hi. destruct (Nat.eqb_spec y i); auto. congruence.
    + rewrite IHl. apply sum_n_ext. intros c _. rewrite AT. simpl. auto.
Qed.
Lemma sum_at (l : list ent) a c : NoDup (map fst l) -> sumR (map snd (filter (at2 a c) l)) = or0 (look3 a c l).
Proof.
  induction l as [|[[x y] v] l IH]; intros N; simpl; auto. inversion N as [|? ? N1 N2]; subst.
  assert (AT : at2 a c (x, y, v) = (Nat.eqb a x && Nat.eqb c y)%bool).
  { unfold at2. simpl. rewrite (Nat.eqb_sym x), (Nat.eqb_sym y). auto. }
  rewrite AT. destruct (Nat.eqb_spec a x); destruct (Nat.eqb_spec c y); simpl; auto. subst.
  rewrite IH by auto. assert (look3 x y l = None) as -> by (apply look3_None; auto). simpl. ring.
Qed.

(** well-formed tensors: dense, or canonical sparse ones *)
Definition canon (t : tensors R) (nbinsfull nproc ncol : nat) : Prop :=
  match t with
  | TDense _ _ => True
  | TSparse sp => NoDup (map fst (sp_norm sp)) /\ NoDup (map fst (sp_logk sp)) /\
      (forall b p v, In (b, p, v) (sp_norm sp) -> (b < nbinsfull)%nat /\ (p < nproc)%nat) /\
      (forall j k v, In (j, k, v) (sp_logk sp) -> (j < List.length (sp_norm sp))%nat /\ (k < ncol)%nat)
  end.

(** prediction for one (bin, process) *)
Definition cell (ty : systype) (t : tensors R) (r : rnorm) (m : list R) (b p : nat) : R :=
  let v := sum_n (List.length m) (fun col => view_logk t b p col * nth col m 0) in
  match ty with
  | LogNormal => rn_bcast r b p * view_norm t b p * exp v
  | Normal => rn_bcast r b p * view_norm t b p + v
  end.

Lemma sparse_logsnorm_view sp nbf np m b p j : canon (TSparse sp) nbf np (List.length m) ->
  pos3 b p (sp_norm sp) = Some j ->
  sparse_logsnorm sp m j = sum_n (List.length m) (fun col => view_logk (TSparse sp) b p col * nth col m 0).
Proof.
  intros (N1 & N2 & B1 & B2) P. unfold sparse_logsnorm.
  rewrite (group_row (sp_logk sp) j (List.length m) (fun c => nth c m 0)).
  - apply sum_n_ext. intros c _. rewrite sum_at by auto. simpl. rewrite P. auto.
  - intros [[x y] v] H. apply (B2 x y v H).
Qed.

Lemma filter_filter {A} (f g : A -> bool) l : filter f (filter g l) = filter (fun x => g x && f x)%bool l.
Proof. induction l as [|x l IH]; simpl; auto. destruct (g x); simpl; rewrite ?IH; auto. Qed.

Lemma look3_entries ty (sp : sparse_tensors R) r m b p : NoDup (map fst (sp_norm sp)) ->
  look3 b p (sparse_entries ty sp r m) =
  match pos3 b p (sp_norm sp) with
  | Some j => Some (match ty with
      | LogNormal => exp (sparse_logsnorm sp m j) * or0 (look3 b p (sp_norm sp)) * rn_bcast r b p
      | Normal => or0 (look3 b p (sp_norm sp)) * rn_bcast r b p + sparse_logsnorm sp m j end)
  | None => None
  end.
Proof.
  intros _. unfold sparse_entries.
  assert (G : forall (l : list ent) k,
    look3 b p (map (fun je : nat * ent => let '(j, (b0, p0, x)) := je in
      (b0, p0, match ty with
        | LogNormal => exp (sparse_logsnorm sp m j) * x * rn_bcast r b0 p0
        | Normal => x * rn_bcast r b0 p0 + sparse_logsnorm sp m j end)) (combine (seq k (List.length l)) l)) =
    match pos3 b p l with
    | Some j => Some (match ty with
        | LogNormal => exp (sparse_logsnorm sp m (k + j)) * or0 (look3 b p l) * rn_bcast r b p
        | Normal => or0 (look3 b p l) * rn_bcast r b p + sparse_logsnorm sp m (k + j) end)
    | None => None
    end).
  { induction l as [|[[x y] v] l IH]; intros k; simpl; auto.
    destruct (Nat.eqb_spec b x); destruct (Nat.eqb_spec p y); simpl.
    - subst. rewrite Nat.add_0_r. auto.
    - rewrite IH. destruct (pos3 b p l); simpl; auto. rewrite Nat.add_succ_r. auto.
    - rewrite IH. destruct (pos3 b p l); simpl; auto. rewrite Nat.add_succ_r. auto.
    - rewrite IH. destruct (pos3 b p l); simpl; auto. rewrite Nat.add_succ_r. auto. }
  apply (G (sp_norm sp) 0%nat).
Qed.
Lemma fst_entries ty (sp : sparse_tensors R) r m : map fst (sparse_entries ty sp r m) = map fst (sp_norm sp).
Proof.
  unfold sparse_entries. generalize 0%nat as k. induction (sp_norm sp) as [|[[x y] v] l IH]; intros k; simpl; auto.
  f_equal. apply IH.
Qed.
Lemma entries_cell ty sp r m nbf np b p : canon (TSparse sp) nbf np (List.length m) ->
  or0 (look3 b p (sparse_entries ty sp r m)) = cell ty (TSparse sp) r m b p.
Proof.
  intros C. pose proof C as (N1 & _). rewrite look3_entries by auto. unfold cell.
  destruct (pos3 b p (sp_norm sp)) as [j|] eqn:P.
  - rewrite (sparse_logsnorm_view sp nbf np m b p j C P). cbn [or0]. cbn [view_norm]. destruct ty; ring.
  - pose proof (pos3_spec b p (sp_norm sp)) as Q. rewrite P in Q. apply look3_None in Q.
    assert (Z : view_norm (TSparse sp) b p = 0) by (cbn [view_norm]; rewrite Q; auto).
    assert (ZK : sum_n (List.length m) (fun col => view_logk (TSparse sp) b p col * nth col m 0) = 0).
    { apply sum_n_0. intros. cbn [view_logk]. rewrite P. cbn. ring. }
    rewrite Z, ZK. cbn. destruct ty; ring.
Qed.

(** the computed yields, in dense and sparse mode *)
Theorem yields_cell d t r theta (full : bool) :
  canon t (in_nbinsfull d) (in_nproc d) (List.length (mthetaalpha (in_sym d) theta)) ->
  (in_nbins d <= in_nbinsfull d)%nat ->
  let nb := if full then in_nbinsfull d else in_nbins d in
  let m := mthetaalpha (in_sym d) theta in
  match yields d t r theta full with
  | Ok (nexp, nc) =>
      nexp = map (fun b => sum_n (in_nproc d) (cell (in_type d) t r m b)) (seq 0 nb) /\
      forall b p, (b < nb)%nat -> nc b p = cell (in_type d) t r m b p
  | Raise _ => rn_fits r (match t with TSparse _ => in_nbinsfull d | TDense _ _ => nb end) = false
  end.
Proof.
  intros C LE nb m. unfold yields. fold m.
  set (slice := (negb full && negb (Nat.eqb (in_nbinsfull d - in_nbins d) 0))%bool).
  assert (NB : (if slice then in_nbins d else in_nbinsfull d) = nb).
  { unfold slice, nb. destruct full; simpl; auto. destruct (Nat.eqb_spec (in_nbinsfull d - in_nbins d) 0); simpl; auto. lia. }
  destruct t as [norm k|sp].
  - rewrite NB. destruct (rn_fits r nb); simpl; auto.
    assert (CE : forall b p, match in_type d with
        | LogNormal => rn_bcast r b p * (exp (dense_logsnorm k m b p) * norm b p)
        | Normal => norm b p * rn_bcast r b p + dense_logsnorm k m b p
        end = cell (in_type d) (TDense norm k) r m b p).
    { intros b p. unfold cell, dense_logsnorm. cbn [view_logk view_norm]. destruct (in_type d); ring. }
    split; auto. apply map_ext. intros b. apply sum_n_ext. intros p _. apply CE.
  - destruct (rn_fits r (in_nbinsfull d)); simpl; auto. rewrite NB.
    set (es := sparse_entries (in_type d) sp r m).
    assert (ND : NoDup (map fst es)) by (unfold es; rewrite fst_entries; apply C).
    assert (BP : forall e, In e es -> (snd (fst e) < in_nproc d)%nat).
    { intros e He. assert (H : In (fst e) (map fst es)) by (apply in_map; auto).
      unfold es in H. rewrite fst_entries in H. apply in_map_iff in H. destruct H as ([[x y] v] & H1 & H2).
      rewrite <- H1. simpl. apply C in H2. tauto. }
    assert (SL : forall (g : ent -> bool) b, (b < nb)%nat -> (forall e, g e = true -> fst (fst e) = b) ->
      filter g (if slice then filter (fun e => Nat.ltb (fst (fst e)) (in_nbins d)) es else es) = filter g es).
    { intros g b Hb G. destruct slice eqn:S; auto. rewrite filter_filter. apply filter_ext. intros e.
      destruct (g e) eqn:Ge; [|apply andb_false_r]. rewrite (G e Ge).
      replace (Nat.ltb b (in_nbins d)) with true; auto. symmetry. apply Nat.ltb_lt. rewrite <- NB in Hb. auto. }
    split.
    + apply map_ext_in. intros b Hb. apply in_seq in Hb.
      rewrite (SL _ b) by (try lia; intros e He; apply Nat.eqb_eq in He; auto).
      pose proof (group_row es b (in_nproc d) (fun _ => 1) BP) as G.
      assert (S1 : forall l : list ent, sumR (map (fun e => snd e * 1) l) = sumR (map snd l)).
      { intros l. apply sumR_map_ext. intros x _. apply Rmult_1_r. }
      rewrite S1 in G.
      rewrite G. apply sum_n_ext. intros p _. rewrite sum_at by auto. unfold es.
      rewrite (entries_cell _ _ _ _ _ _ _ _ C). apply Rmult_1_r.
    + intros b p Hb. rewrite (SL _ b).
      * change (sumR (map snd (filter (at2 b p) es)) = cell (in_type d) (TSparse sp) r m b p).
        rewrite sum_at by auto. unfold es. apply (entries_cell _ _ _ _ _ _ _ _ C).
      * auto.
      * intros e He. apply andb_true_iff in He. destruct He as [He _]. apply Nat.eqb_eq in He. auto.
Qed.

(** scaled variations *)
Lemma scale_view d np rinit t : scale_logk d np rinit = Ok t ->
  canon (in_tens d) (in_nbinsfull d) (in_nproc d) (match in_tens d with TSparse sp => sp_ncol sp | _ => 0%nat end) ->
  (forall b p, view_norm t b p = view_norm (in_tens d) b p) /\
  (forall b p k, view_logk t b p k = view_logk (in_tens d) b p k *
     (match in_type d with LogNormal => 1 | Normal => if Nat.eqb np 0 then 1 else rn_bcast rinit b p end)).
Proof.
  unfold scale_logk. intros H C. destruct (in_type d).
  { injection H as <-. split; auto. intros. ring. }
  destruct (Nat.eqb np 0). { injection H as <-. split; auto. intros. ring. }
  destruct (rn_fits _ _); [|discriminate]. simpl in H. injection H as <-.
  destruct (in_tens d) as [n k|sp]; [split; auto|]. split; auto.
  intros b p k. cbn [view_logk sp_norm sp_logk].
  destruct (pos3 b p (sp_norm sp)) as [j|] eqn:P; [|cbn; ring].
  pose proof (pos3_spec b p (sp_norm sp)) as Q. rewrite P in Q. destruct Q as [x Q].
  assert (N : nth j (sp_norm sp) (0%nat, 0%nat, 0) = (b, p, x)) by (apply nth_error_nth; auto).
  induction (sp_logk sp) as [|[[a c] v] l IH]; simpl; [ring|].
  destruct (nth a (sp_norm sp) (0%nat, 0%nat, 0)) as [[b0 p0] x0] eqn:NA. simpl.
  destruct (Nat.eqb_spec j a); destruct (Nat.eqb_spec k c); simpl; auto. subst a.
  rewrite N in NA. injection NA as <- <- <-. auto.
Qed.
Lemma scale_canon d np rinit t nc : scale_logk d np rinit = Ok t ->
  canon (in_tens d) (in_nbinsfull d) (in_nproc d) nc -> canon t (in_nbinsfull d) (in_nproc d) nc.
Proof.
  unfold scale_logk. intros H C. destruct (in_type d); [congruence|]. destruct (Nat.eqb np 0); [congruence|].
  destruct (rn_fits _ _); [|discriminate]. simpl in H. injection H as <-.
  destruct (in_tens d) as [n k|sp]; simpl; auto. destruct C as (C1 & C2 & C3 & C4). split; auto.
  assert (F : map fst (map (fun e : ent => let '(j, col, v) := e in
       let '(b, p, _) := nth j (sp_norm sp) (0%nat, 0%nat, 0) in (j, col, v * rn_bcast rinit b p)) (sp_logk sp)) = map fst (sp_logk sp)).
  { rewrite map_map. apply map_ext. intros [[a c] v]. destruct (nth a (sp_norm sp) _) as [[? ?] ?]. auto. }
  rewrite F. split; auto. split; auto.
  intros j k v Hi. assert (Hf : In (j, k) (map fst (sp_logk sp))).
  { rewrite <- F. apply in_map_iff. exists (j, k, v). auto. }
  apply in_map_iff in Hf. destruct Hf as ([[a c] v0] & Hf1 & Hf2). simpl in Hf1. injection Hf1 as -> ->. eauto.
Qed.

(** *** the interpolation weight *)
Lemma poly_le1 t : t <= 1 -> t * (3 * t^4 - 10 * t^2 + 15) <= 8.
Proof.
  intros H. assert (E : 8 - t * (3 * t^4 - 10 * t^2 + 15) = (1 - t)^3 * (3 * t^2 + 9 * t + 8)) by ring.
  assert (0 <= (1 - t)^3 * (3 * t^2 + 9 * t + 8)); [|lra].
  apply Rmult_le_pos. { apply pow_le. lra. }
  assert (0 <= 3 * (t + 3/2)^2 + 5/4) by (pose proof (pow2_ge_0 (t + 3/2)); lra).
  replace (3 * t^2 + 9 * t + 8) with (3 * (t + 3/2)^2 + 5/4) by field. auto.
Qed.
Lemma poly_ge1 t : 1 <= t -> 8 <= t * (3 * t^4 - 10 * t^2 + 15).
Proof.
  intros H. assert (E : t * (3 * t^4 - 10 * t^2 + 15) - 8 = (t - 1)^3 * (3 * t^2 + 9 * t + 8)) by ring.
  assert (0 <= (t - 1)^3 * (3 * t^2 + 9 * t + 8)); [|lra].
  apply Rmult_le_pos. { apply pow_le. lra. } nra.
Qed.
Lemma alpha_poly th : alpha th = clip1 ((2*th) * (3 * (2*th)^4 - 10 * (2*th)^2 + 15) / 8).
Proof. unfold alpha. f_equal. replace 0.125 with (1/8) by lra. field. Qed.
Lemma alpha_switch th : alpha th = switch th.
Proof.
  rewrite alpha_poly. unfold switch, clip1. set (t := 2 * th). set (P := t * (3 * t^4 - 10 * t^2 + 15)).
  destruct (Rleb_spec (1/2) th).
  - assert (8 <= P) by (apply poly_ge1; unfold t; lra).
    rewrite (Rltb_false (P/8)) by lra. destruct (Rltb_spec 1 (P/8)); lra.
  - assert (t <= 1) by (unfold t; lra). assert (P <= 8) by (apply poly_le1; auto).
    rewrite (Rltb_false 1) by lra.
    destruct (Rleb_spec th (-1/2)).
    + assert (8 <= - t * (3 * (-t)^4 - 10 * (-t)^2 + 15)) by (apply poly_ge1; unfold t; lra).
      replace (- t * (3 * (-t)^4 - 10 * (-t)^2 + 15)) with (- P) in * by (unfold P; ring).
      destruct (Rltb_spec (P/8) (-1)); lra.
    + assert (- t * (3 * (-t)^4 - 10 * (-t)^2 + 15) <= 8) by (apply poly_le1; unfold t; lra).
      replace (- t * (3 * (-t)^4 - 10 * (-t)^2 + 15)) with (- P) in * by (unfold P; ring).
      rewrite Rltb_false by lra. unfold P, t. field.
Qed.

(** variation as a sum over nuisances *)
Lemma mtheta_len sym th : List.length (mthetaalpha sym th) = ((if sym then 1 else 2) * List.length th)%nat.
Proof. unfold mthetaalpha. destruct sym; rewrite ?app_length, ?map_length; lia. Qed.
Lemma variation_sum sym th (k : nat -> R) avg half :
  let n := List.length th in
  (forall s, (s < n)%nat -> k s = avg s) ->
  (sym = false -> forall s, (s < n)%nat -> k (n + s)%nat = half s) ->
  (sym = true -> forall s, (s < n)%nat -> half s = 0) ->
  sum_n (List.length (mthetaalpha sym th)) (fun col => k col * nth col (mthetaalpha sym th) 0) =
  variation n (fun s => nth s th 0) avg half.
Proof.
  intros n A H1 H2. unfold variation. fold (sum_n n (fun s => nth s th 0 * avg s + nth s th 0 * switch (nth s th 0) * half s)).
  rewrite mtheta_len. fold n. destruct sym.
  - replace (1 * n)%nat with n by lia. apply sum_n_ext. intros s Hs. rewrite A, (H2 eq_refl) by auto. simpl. ring.
  - replace (2 * n)%nat with (n + n)%nat by lia. rewrite sum_n_app, sum_n_plus. f_equal; apply sum_n_ext; intros s Hs.
    + rewrite A by auto. unfold mthetaalpha. rewrite app_nth1 by auto. ring.
    + rewrite (H1 eq_refl) by auto. unfold mthetaalpha. rewrite app_nth2 by (fold n; lia). fold n.
      replace (n + s - n)%nat with s by lia.
      rewrite (nth_indep _ 0 (0 * alpha 0)) by (rewrite map_length; auto).
      rewrite (map_nth (fun t => t * alpha t)). rewrite alpha_switch. ring.
Qed.

(** *** from the declarations to the prediction *)
Definition prediction cfg (ops : list (op R)) (systs : list string) (r r0 : R) (th : list R) (c p : string) (i : nat) : R :=
  let nom := spec_norm (c_allowneg cfg) ops c p i in
  let v := variation (List.length systs) (fun s => nth s th 0)
    (fun s => spec_avg cfg ops c p (nth s systs EmptyString) i)
    (fun s => spec_half cfg ops c p (nth s systs EmptyString) i) in
  match c_type cfg with
  | LogNormal => predict_lognormal r nom v
  | Normal => predict_normal r r0 nom v
  end.

Lemma written_canon cfg (ops : list (op R)) w : written cfg ops w -> clean ops ->
  canon (w_tensors w) (w_nbinsfull w) (List.length (w_procs w)) ((if w_symmetric w then 1 else 2) * List.length (w_systs w)).
Proof.
  intros (st & R & W) (C1 & C2 & C3 & C4). destruct (w_tensors w) as [n k|sp] eqn:T; simpl; auto.
  destruct (sparse_canonical cfg ops st w sp R W T C1 (once_stable _ C3) C4) as (S1 & B1 & S2 & NC & B2 & _).
  assert (NDL : forall l : list (nat * nat), StronglySorted lex2 l -> NoDup l).
  { clear. induction l as [|a l IH]; intros S; inversion S; subst; constructor; auto.
    intros X. rewrite Forall_forall in H2. apply H2 in X. unfold lex2 in X. lia. }
  split; auto. split; auto. split; auto. intros j kk v H. rewrite <- NC. eauto.
Qed.
Lemma written_bins cfg (ops : list (op R)) w : written cfg ops w -> clean ops -> (w_nbins w <= w_nbinsfull w)%nat.
Proof.
  intros (st & R & W) (C1 & C2 & C3 & C4).
  destruct (layout_correct cfg ops st w R W (once_stable _ C3)) as (_ & _ & _ & (R1 & R2 & _ & _ & T2 & _) & _).
  revert T2. generalize (w_nbins w) (w_nbinsfull w). clear. induction R2 as [|[c [s e]] r IH]; simpl; intros a b H; [lia|].
  destruct H as (-> & L & H). apply IH in H. lia.
Qed.
Lemma spec_half_sym cfg (ops : list (op R)) c p s i : existsb is_asym ops = false -> spec_half cfg ops c p s i = 0.
Proof.
  intros H. unfold spec_half. replace (last_of (op_half c p s) ops) with (@None (effect R)); auto.
  symmetry. apply last_of_None. intros o Ho. destruct (op_half c p s o) eqn:E; auto. exfalso.
  assert (is_asym o = true).
  { destruct o; try discriminate. destruct h; try discriminate. destruct m; try discriminate. auto. }
  assert (existsb is_asym ops = true) by (apply existsb_exists; eauto). congruence.
Qed.

(** the main result: the computed prediction in terms of the declarations *)
Theorem yields_prediction cfg ops w np rinit t r th (full : bool) nexp nc :
  written cfg ops w -> clean ops -> List.length th = List.length (w_systs w) ->
  scale_logk (indata_of w) np rinit = Ok t ->
  yields (indata_of w) t r th full = Ok (nexp, nc) ->
  let r0 b p := if Nat.eqb np 0 then 1 else rn_bcast rinit b p in
  let nb := if full then w_nbinsfull w else w_nbins w in
  List.length nexp = nb /\
  (forall c p i b ip, at_point w c p i b ip -> (b < nb)%nat ->
     nc b ip = prediction cfg ops (w_systs w) (rn_bcast r b ip) (r0 b ip) th c p i) /\
  (forall b, (b < nb)%nat -> nth b nexp 0 = sum_n (List.length (w_procs w)) (nc b)).
Proof.
  intros Wr Cl LT SC Y r0 nb.
  assert (C0 := written_canon cfg ops w Wr Cl).
  assert (LB := written_bins cfg ops w Wr Cl).
  assert (CL : canon (in_tens (indata_of w)) (in_nbinsfull (indata_of w)) (in_nproc (indata_of w))
     (List.length (mthetaalpha (in_sym (indata_of w)) th))).
  { rewrite mtheta_len, LT. exact C0. }
  assert (C1 := scale_canon _ _ _ _ _ SC CL).
  pose proof (yields_cell (indata_of w) t r th full C1 LB) as YC. rewrite Y in YC.
  cbn [in_nbinsfull in_nbins in_nproc in_type in_sym indata_of] in YC. fold nb in YC. destruct YC as [Y1 Y2].
  split. { rewrite Y1, map_length, seq_length. auto. }
  split.
  2:{ intros b Hb. rewrite Y1.
      rewrite (nth_indep _ 0 (sum_n (List.length (w_procs w)) (cell (w_type w) t r (mthetaalpha (w_symmetric w) th) 0%nat)))
        by (rewrite map_length, seq_length; auto).
      rewrite (map_nth (fun b => sum_n (List.length (w_procs w)) (cell (w_type w) t r (mthetaalpha (w_symmetric w) th) b))).
      rewrite seq_nth by auto. simpl. apply sum_n_ext. intros p _. symmetry. apply Y2. auto. }
  intros c p i b ip P Hb. rewrite (Y2 b ip Hb).
  destruct (view_point cfg ops w c p i b ip Wr Cl P) as (V1 & _ & _ & V4).
  assert (WT : w_type w = c_type cfg).
  { destruct Wr as (st & _ & W). apply write_fields in W. tauto. }
  assert (WS := symmetric_iff cfg ops w Wr Cl).
  destruct (scale_view _ _ _ _ SC) as [SV1 SV2].
  { destruct (in_tens (indata_of w)) as [n k|sp] eqn:T; simpl; auto.
    destruct CL as (a1 & a2 & a3 & a4). split; auto. split; auto. split; auto.
    intros j k v H. split; [apply (a4 j k v H)|].
    destruct Wr as (st & R & W). destruct Cl as (c1 & c2 & c3 & c4).
    destruct (sparse_canonical cfg ops st w sp R W T c1 (once_stable _ c3) c4) as (_ & _ & _ & _ & B2 & _).
    apply (B2 j k v H). }
  cbn [in_tens in_type indata_of] in SV1, SV2.
  unfold cell. rewrite SV1, V1.
  assert (VS : sum_n (List.length (mthetaalpha (w_symmetric w) th))
      (fun col => view_logk (w_tensors w) b ip col * nth col (mthetaalpha (w_symmetric w) th) 0) =
    variation (List.length (w_systs w)) (fun s => nth s th 0)
      (fun s => spec_avg cfg ops c p (nth s (w_systs w) EmptyString) i)
      (fun s => spec_half cfg ops c p (nth s (w_systs w) EmptyString) i)).
  { rewrite <- LT.
    apply (variation_sum (w_symmetric w) th (fun col => view_logk (w_tensors w) b ip col)).
    - intros s Hs. rewrite LT in Hs. apply V4. apply nth_error_nth'. auto.
    - intros SY s Hs. rewrite LT in *. apply V4; auto. apply nth_error_nth'. auto.
    - intros SY s Hs. apply spec_half_sym. rewrite WS in SY. apply negb_true_iff in SY. auto. }
  unfold prediction. rewrite <- WT.
  destruct (w_type w) eqn:TY.
  - rewrite (sum_n_ext _ _ (fun col => view_logk (w_tensors w) b ip col * nth col (mthetaalpha (w_symmetric w) th) 0))
      by (intros; rewrite SV2; ring).
    rewrite VS. unfold predict_lognormal. auto.
  - rewrite (sum_n_ext _ _ (fun col => r0 b ip * (view_logk (w_tensors w) b ip col * nth col (mthetaalpha (w_symmetric w) th) 0)))
      by (intros; rewrite SV2; unfold r0; ring).
    rewrite sum_n_scal, VS. unfold predict_normal. auto.
Qed.
