(** Proofs about the likelihood. *)
From Coq Require Import List Arith Bool String Reals Lra Lia Permutation.
From Verif Require Import PyList ListUtil RBase PyDict BBStat_Model Writer_Model Yields_Model Yields_Proof
  Freeze_Model Freeze_Spec Freeze_Proof Ext_Model Nll_Model Init_Model Nll_Spec.
Import ListNotations.
Local Open Scope R_scope.

(** *** lists *)
Lemma upd_nth_length {A} (l : list A) i v : List.length (upd_nth i v l) = List.length l.
Proof. revert i. induction l; destruct i; simpl; auto. Qed.
Lemma nth_upd_same {A} (l : list A) i v d : (i < List.length l)%nat -> nth i (upd_nth i v l) d = v.
Proof. revert i. induction l; destruct i; simpl; intros; try lia; auto. apply IHl; lia. Qed.
Lemma nth_upd_other {A} (l : list A) i j v d : i <> j -> nth j (upd_nth i v l) d = nth j l d.
Proof. revert i j. induction l; destruct i, j; simpl; intros; auto; try lia. Qed.
Lemma slice_length {A} a n (l : list A) : List.length (slice a n l) = Nat.min n (List.length l - a).
Proof. unfold slice. rewrite firstn_length, skipn_length. auto. Qed.
Lemma nth_firstn' {A} (l : list A) n j d : (j < n)%nat -> nth j (firstn n l) d = nth j l d.
Proof. revert n j. induction l; destruct n, j; simpl; intros; auto; try lia. apply IHl; lia. Qed.
Lemma nth_skipn' {A} (l : list A) n j d : nth j (skipn n l) d = nth (n + j) l d.
Proof. revert n. induction l; destruct n; simpl; auto. destruct j; auto. Qed.
Lemma nth_slice {A} a n (l : list A) j d : (j < n)%nat -> nth j (slice a n l) d = nth (a + j) l d.
Proof. intros H. unfold slice. rewrite nth_firstn' by auto. apply nth_skipn'. Qed.
Lemma zipw_length {A B C} (f : A -> B -> C) a b : List.length (zipw f a b) = Nat.min (List.length a) (List.length b).
Proof. unfold zipw. rewrite map_length, combine_length. auto. Qed.
Lemma zipw_ext {A B C} (f g : A -> B -> C) a b : (forall x y, f x y = g x y) -> zipw f a b = zipw g a b.
Proof. intros H. unfold zipw. apply map_ext. auto. Qed.
Lemma nth_zipw {A B C} (f : A -> B -> C) a b j da db dc : (j < List.length a)%nat -> (j < List.length b)%nat ->
  nth j (zipw f a b) dc = f (nth j a da) (nth j b db).
Proof.
  revert b j. induction a as [|x a IH]; intros [|y b] [|j]; simpl; intros; try lia; auto.
  apply (IH b j); lia.
Qed.
Lemma nth_map' {A B} (f : A -> B) l j d d' : (j < List.length l)%nat -> nth j (map f l) d = f (nth j l d').
Proof. intros H. rewrite (nth_indep _ d (f d')) by (rewrite map_length; auto). apply map_nth. Qed.
Lemma where_sg_length m c t : List.length c = List.length t -> List.length (where_sg m c t) = Nat.min (List.length m) (List.length c).
Proof. intros. unfold where_sg. rewrite zipw_length, combine_length. lia. Qed.
Lemma where_sg_same m : forall c, (List.length c <= List.length m)%nat -> where_sg m c c = c.
Proof.
  induction m as [|b m IH]; intros [|x c]; simpl; intros; try lia; auto.
  unfold where_sg, zipw in *. simpl. rewrite IH by lia. destruct b; auto.
Qed.
Lemma where_sg_ext m : forall c t t', List.length t = List.length t' ->
  (forall j, nth j m false = false -> (j < List.length m)%nat -> nth j t 0 = nth j t' 0) -> where_sg m c t = where_sg m c t'.
Proof.
  induction m as [|b m IH]; intros [|x c] [|y t] [|z t'] L H; simpl in *; try discriminate; auto.
  unfold where_sg, zipw in *. simpl. f_equal.
  - destruct b; auto. apply (H 0%nat); auto. lia.
  - apply IH; [lia|]. intros j F J. apply (H (S j)); auto. lia.
Qed.

Lemma upd_comm {A} (l : list A) : forall a b v w, a <> b -> upd_nth a v (upd_nth b w l) = upd_nth b w (upd_nth a v l).
Proof. induction l as [|x l IH]; intros [|a] [|b] v w; simpl; intros; auto; try lia. f_equal. apply IH. lia. Qed.

(** *** C20 *)
Lemma ext_nll_ext ts : forall x x', (forall t k, In t ts -> In k (tf_idx t) -> nth k x 0 = nth k x' 0) -> ext_nll ts x = ext_nll ts x'.
Proof.
  intros x x' H. unfold ext_nll. apply sumR_map_ext. intros t Ht. unfold term_value.
  assert (E : map (fun i => nth i x 0) (tf_idx t) = map (fun i => nth i x' 0) (tf_idx t)).
  { apply map_ext_in. intros k Hk. eapply H; eauto. }
  rewrite E. auto.
Qed.
Definition same_tracked (P : problem) (e : eff) (xt xt' : list R) : Prop :=
  List.length xt = List.length xt' /\
  (forall j, nth j (ef_mask e) false = false -> nth j xt 0 = nth j xt' 0) /\
  (forall t k, In t (pb_ext P) -> In k (tf_idx t) -> nth k xt 0 = nth k xt' 0).
Lemma where_slice_ext e (f : R -> R) a n xc xt xt' : List.length xt = List.length xt' ->
  (forall j, nth j (ef_mask e) false = false -> nth j xt 0 = nth j xt' 0) ->
  where_sg (slice a n (ef_mask e)) (map f (slice a n xc)) (map f (slice a n xt)) =
  where_sg (slice a n (ef_mask e)) (map f (slice a n xc)) (map f (slice a n xt')).
Proof.
  intros L H. apply where_sg_ext.
  - rewrite !map_length, !slice_length, L. auto.
  - intros j F J. rewrite slice_length in J. rewrite nth_slice in F by lia. specialize (H _ F).
    destruct (Nat.lt_ge_cases j (List.length (slice a n xt))) as [B|B].
    + assert (B' : (j < List.length (slice a n xt'))%nat) by (rewrite slice_length in *; lia).
      rewrite !(nth_indep _ 0 (f 0)) by (rewrite map_length; auto). rewrite !map_nth, !nth_slice by lia. rewrite H. auto.
    + assert (B' : (List.length (slice a n xt') <= j)%nat) by (rewrite slice_length in *; lia).
      rewrite !nth_overflow by (rewrite map_length; auto). auto.
Qed.
Lemma nll_tracked P e xc xt xt' : same_tracked P e xt xt' -> nll_ad P e xc xt = nll_ad P e xc xt'.
Proof.
  intros (L & H & X). unfold nll_ad.
  assert (E1 : get_poi (pb_model P) e xc xt = get_poi (pb_model P) e xc xt').
  { unfold get_poi. rewrite (where_slice_ext e (enc (pb_model P)) _ _ xc xt xt' L H). auto. }
  assert (E2 : get_nui (pb_model P) e xc xt = get_nui (pb_model P) e xc xt').
  { unfold get_nui. pose proof (where_slice_ext e (fun x => x) (pm_npoi (pb_model P)) (pm_npou (pb_model P)) xc xt xt' L H) as W.
    rewrite !map_id in W. auto. }
  assert (E3 : forall n, get_theta (pb_model P) n e xc xt = get_theta (pb_model P) n e xc xt').
  { intros n. unfold get_theta. pose proof (where_slice_ext e (fun x => x) (pm_npoi (pb_model P) + pm_npou (pb_model P)) n xc xt xt' L H) as W.
    rewrite !map_id in W. rewrite W. auto. }
  unfold get_x. rewrite E1, E2, E3. rewrite (ext_nll_ext (pb_ext P) xt xt' X). auto.
Qed.
Lemma frozen_tracked P e i v xt : (i < List.length (ef_mask e))%nat -> nth i (ef_mask e) false = true -> ~ ext_uses P i ->
  same_tracked P e (upd_nth i v xt) xt.
Proof.
  intros I F U. split; [apply upd_nth_length|split].
  - intros j J. apply nth_upd_other. intros ->. congruence.
  - intros t k T K. apply nth_upd_other. intros ->. apply U. exists t. auto.
Qed.
Lemma derivable_const f c : (forall t, f t = c) -> derivable_pt_lim f 0 0.
Proof.
  intros H eps He. exists (mkposreal 1 Rlt_0_1). intros h Hh _. rewrite !H.
  replace ((c - c) / h - 0) with 0 by (field; auto). rewrite Rabs_R0. auto.
Qed.
Lemma derivable_near f c l : nearby (fun t => f t = c) -> derivable_pt_lim f 0 l -> l = 0.
Proof.
  intros (d & Hd & H) D. apply (uniqueness_limite f 0); auto.
  intros eps He. exists (mkposreal d Hd). intros h Hh B. simpl in B. rewrite Rplus_0_l.
  rewrite (H h B), (H 0) by (rewrite Rabs_R0; auto). replace ((c - c) / h - 0) with 0 by (field; auto). rewrite Rabs_R0. auto.
Qed.
Lemma derivable_same f g l : (forall t, f t = g t) -> derivable_pt_lim f 0 l -> derivable_pt_lim g 0 l.
Proof. intros H D eps He. destruct (D eps He) as [d Q]. exists d. intros h Hh B. rewrite <- !H. auto. Qed.

Section Frozen.
  Variables (P : problem) (e : eff) (i : nat).
  Hypothesis I : (i < List.length (ef_mask e))%nat.
  Hypothesis F : nth i (ef_mask e) false = true.
  Hypothesis U : ~ ext_uses P i.
  Variable y : list R.
  Let L := fun xt => val (nll_ad P e y xt).
  Lemma L_frozen v xt : L (upd_nth i v xt) = L xt.
  Proof. unfold L. f_equal. apply nll_tracked, frozen_tracked; auto. Qed.
  Lemma frozen_grad0 x : derivable_pt_lim (fun t => L (move x i t)) 0 0.
  Proof. apply (derivable_const _ (L x)). intros t. apply L_frozen. Qed.
  Lemma frozen_row x j v g : j <> i ->
    derivable_pt_lim (fun t => L (move x j t)) 0 g -> derivable_pt_lim (fun t => L (move (upd_nth i v x) j t)) 0 g.
  Proof.
    intros N. apply derivable_same. intros t. unfold move. rewrite nth_upd_other by auto. rewrite upd_comm by auto.
    symmetry. apply L_frozen.
  Qed.
  Lemma grad_frozen x g : (i < List.length x)%nat -> is_grad L x g -> g i = 0.
  Proof. intros B H. apply (uniqueness_limite _ 0 _ _ (H i B) (frozen_grad0 x)). Qed.
  Lemma move_length x j t : List.length (move x j t) = List.length x.
  Proof. apply upd_nth_length. Qed.
  Lemma addv_length x t u : List.length (addv x t u) = List.length x.
  Proof. unfold addv. rewrite map_length, seq_length. auto. Qed.
  Lemma search_frozen x u : (i < List.length x)%nat -> search L x u -> u i = 0.
  Proof.
    intros B S. induction S as [|g G|a b u v S1 IH1 S2 IH2|u G h S IH N D|u G h S IH N D].
    - auto.
    - eapply grad_frozen; eauto.
    - rewrite IH1, IH2; lra.
    - apply (derivable_near _ 0 _ ) with (2 := D i B). destruct N as (d & Hd & N). exists d. split; auto.
      intros t T. apply (grad_frozen (addv x t u)); auto. rewrite addv_length. auto.
    - pose proof (D i B) as Di. destruct (N i B) as (d & Hd & Ni).
      eapply (derivable_near _ (sum_n (List.length x) (fun k => G i 0 k * u k))); [|exact Di].
      exists d. split; auto. intros t T. apply sum_n_ext. intros k Hk.
      destruct (Nat.eq_dec k i) as [->|Hki].
      + rewrite IH. lra.
      + f_equal. pose proof (Ni t T k) as G1. rewrite move_length in G1. specialize (G1 Hk).
        pose proof (Ni 0) as G0. rewrite Rabs_R0 in G0. specialize (G0 Hd k). rewrite move_length in G0. specialize (G0 Hk).
        apply (uniqueness_limite _ 0 _ _ G1).
        apply (derivable_same (fun s => L (move (move x i 0) k s))); auto.
        intros s. unfold move. rewrite !nth_upd_other by auto.
        rewrite !(upd_comm _ k i) by auto. rewrite !L_frozen. auto.
  Qed.
End Frozen.
Theorem fit_frozen P e i x y : (i < List.length (ef_mask e))%nat -> nth i (ef_mask e) false = true -> ~ ext_uses P i ->
  (i < List.length x)%nat -> fit_path P e x y -> nth i y 0 = nth i x 0.
Proof.
  intros I F U B Pth.
  assert (G : List.length y = List.length x /\ nth i y 0 = nth i x 0); [|apply G].
  induction Pth as [|y u s Pth [L E] S]; auto.
  rewrite (addv_length y s u). split; auto. unfold addv.
  rewrite (nth_map' _ _ _ 0 0%nat) by (rewrite seq_length; lia). rewrite seq_nth by lia. simpl. rewrite (search_frozen P e i I F U y y u); auto; [lra|lia].
Qed.

(** *** C21 *)
Lemma get_poi_value pm m x : (List.length x <= List.length m)%nat ->
  get_poi pm (mkEff m None) x x = map (enc pm) (slice 0 (pm_npoi pm) x).
Proof.
  intros H. unfold get_poi. cbn [ef_mask ef_blind]. apply where_sg_same. rewrite map_length, !slice_length. lia.
Qed.
Lemma get_poi_blind pm m op ot x : (List.length x <= List.length m)%nat ->
  get_poi pm (mkEff m (Some (op, ot))) x x = zipw Rmult (map (enc pm) (slice 0 (pm_npoi pm) x)) op.
Proof.
  intros H. unfold get_poi. cbn [ef_mask ef_blind]. f_equal. apply where_sg_same. rewrite map_length, !slice_length. lia.
Qed.
Lemma get_nui_value pm m b x : (List.length x <= List.length m)%nat ->
  get_nui pm (mkEff m b) x x = slice (pm_npoi pm) (pm_npou pm) x.
Proof. intros H. unfold get_nui. cbn [ef_mask]. apply where_sg_same. rewrite !slice_length. lia. Qed.
Lemma get_theta_value pm n m x : (List.length x <= List.length m)%nat ->
  get_theta pm n (mkEff m None) x x = slice (pm_npoi pm + pm_npou pm) n x.
Proof. intros H. unfold get_theta. cbn [ef_mask ef_blind]. apply where_sg_same. rewrite !slice_length. lia. Qed.
Lemma get_theta_blind pm n m op ot x : (List.length x <= List.length m)%nat ->
  get_theta pm n (mkEff m (Some (op, ot))) x x = zipw Rplus (slice (pm_npoi pm + pm_npou pm) n x) ot.
Proof. intros H. unfold get_theta. cbn [ef_mask ef_blind]. f_equal. apply where_sg_same. rewrite !slice_length. lia. Qed.

Theorem blind_shift P m m' op ot x x' : List.length x = npar P -> List.length m = npar P -> List.length m' = npar P ->
  List.length op = pm_npoi (pb_model P) -> List.length ot = in_nsyst (pb_data P) ->
  (forall v, In v op -> 0 <= v) -> pb_ext P = [] -> shifted P op ot x x' ->
  nll P (mkEff m (Some (op, ot))) x = nll P (mkEff m' None) x'.
Proof.
  unfold npar. intros Lx Lm Lm' Lo Lt Pos Ext (Lx' & S1 & S2 & S3). unfold nll, nll_ad. set (pm := pb_model P) in *.
  assert (E1 : get_poi pm (mkEff m (Some (op, ot))) x x = get_poi pm (mkEff m' None) x' x').
  { rewrite get_poi_value, get_poi_blind by lia.
    apply (nth_ext _ _ 0 0).
    - rewrite zipw_length, !map_length, !slice_length. lia.
    - intros j J. rewrite zipw_length, map_length, slice_length in J.
      rewrite (nth_zipw _ _ _ _ 0 0) by (rewrite ?map_length, ?slice_length; lia).
      rewrite !(nth_map' _ _ _ 0 0) by (rewrite slice_length; lia). rewrite !nth_slice by lia. cbn [Nat.add].
      rewrite S1 by lia. unfold enc. destruct (pm_allowneg pm); [auto|].
      assert (0 <= nth j op 0). { apply Pos, nth_In. lia. }
      rewrite <- (sqrt_sqrt (nth j op 0)) at 1 by auto. lra. }
  assert (E2 : get_nui pm (mkEff m (Some (op, ot))) x x = get_nui pm (mkEff m' None) x' x').
  { rewrite !get_nui_value by lia. apply (nth_ext _ _ 0 0); [rewrite !slice_length; lia|].
    intros j J. rewrite slice_length in J. rewrite !nth_slice by lia. symmetry. apply S2. lia. }
  assert (E3 : get_theta pm (in_nsyst (pb_data P)) (mkEff m (Some (op, ot))) x x = get_theta pm (in_nsyst (pb_data P)) (mkEff m' None) x' x').
  { rewrite get_theta_value, get_theta_blind by lia.
    apply (nth_ext _ _ 0 0); [rewrite zipw_length, !slice_length; lia|].
    intros j J. rewrite zipw_length, slice_length in J.
    rewrite (nth_zipw _ _ _ _ 0 0) by (rewrite ?slice_length; lia). rewrite !nth_slice by lia. symmetry. apply S3. lia. }
  unfold get_x. rewrite E1, E2, E3, Ext. auto.
Qed.
