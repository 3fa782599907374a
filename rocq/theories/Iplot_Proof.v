(** Proofs about the plots of the templates. *)
From Coq Require Import Reals List Arith Bool String Ascii Lia Lra Permutation.
From Verif Require Session_Proof Param_Names.
From Verif Require Import RBase PyList Hplot_Model Hplot_Proof Iplot_Model Iplot_Spec.
Import ListNotations.
Local Open Scope nat_scope.

(** ** sums over bins *)
Definition same (g g' : asg) : Prop := forall n, g n = g' n.
Definition proper (f : asg -> R) : Prop := forall g g', same g g' -> f g = f g'.
Lemma local_proper axes f : local axes f -> proper f.
Proof. intros L g g' S. apply L. intros n _. apply S. Qed.
Lemma upd_same g n i : upd g n i n = i.
Proof. unfold upd. rewrite String.eqb_refl. reflexivity. Qed.
Lemma upd_other g n i m : m <> n -> upd g n i m = g m.
Proof. intros H. unfold upd. destruct (String.eqb_spec m n); [contradiction|reflexivity]. Qed.
Lemma upd_ext g g' n i : same g g' -> same (upd g n i) (upd g' n i).
Proof. intros S m. unfold upd. destruct (String.eqb m n); [reflexivity|apply S]. Qed.
Lemma upd_swap g a b i j : a <> b -> same (upd (upd g a i) b j) (upd (upd g b j) a i).
Proof. intros H m. unfold upd. destruct (String.eqb_spec m b), (String.eqb_spec m a); subst; congruence. Qed.
Lemma sumL_in {A} (f g : A -> R) l : (forall x, In x l -> f x = g x) -> sumL f l = sumL g l.
Proof. intros H. unfold sumL. induction l as [|x l IH]; cbn; [reflexivity|]. rewrite H by (left; reflexivity). rewrite IH; [reflexivity|]. intros y I. apply H. right. exact I. Qed.
Lemma sumL_scal {A} (k : R) (f : A -> R) l : sumL (fun x => k * f x)%R l = (k * sumL f l)%R.
Proof. unfold sumL. induction l as [|x l IH]; cbn; [lra|rewrite IH; lra]. Qed.
Lemma sumL_sumR {A} (f : A -> R) l : sumL f l = sumR (map f l).
Proof. unfold sumL. induction l as [|x l IH]; cbn; [reflexivity|]. rewrite IH. reflexivity. Qed.
Lemma sum_cons a axes f g : sumL f (points (a :: axes) g) = sumL (fun i => sumL f (points axes (upd g (fst a) i))) (seq 0 (snd a)).
Proof. cbn [points]. apply sumL_flat. Qed.
Lemma sum_ext axes f g g' : proper f -> same g g' -> sumL f (points axes g) = sumL f (points axes g').
Proof.
  intros P. revert g g'. induction axes as [|a axes IH]; intros g g' S.
  - cbn. rewrite (P g g' S). reflexivity.
  - rewrite !sum_cons. apply sumL_ext. intros i. apply IH. apply upd_ext. exact S.
Qed.
Lemma sum_app a b f g : sumL f (points (a ++ b) g) = sumL (fun g' => sumL f (points b g')) (points a g).
Proof.
  revert g. induction a as [|x a IH]; intros g.
  - cbn [app points]. symmetry. apply Rplus_0_r.
  - change ((x :: a) ++ b)%list with (x :: (a ++ b))%list. rewrite !sum_cons. apply sumL_ext. intros i. apply IH.
Qed.
Lemma sum_perm a b f : proper f -> NoDup (map fst a) -> Permutation a b -> forall g, sumL f (points a g) = sumL f (points b g).
Proof.
  intros P N E. induction E as [|x a b E IH|x y a|a b c E IH E' IH']; intros g.
  - reflexivity.
  - rewrite !sum_cons. apply sumL_ext. intros i. apply IH. inversion N; assumption.
  - rewrite !sum_cons. etransitivity; [apply sumL_ext; intros i; apply sum_cons|]. rewrite sumL_swap. apply sumL_ext. intros j. rewrite sum_cons. apply sumL_ext. intros i.
    apply sum_ext; [exact P|]. apply upd_swap. cbn in N. inversion N as [|? ? I _]; subst. intros H. apply I. left. congruence.
  - rewrite IH by exact N. apply IH'. apply (Permutation_NoDup (Permutation_map fst E)). exact N.
Qed.
Lemma sum_other axes f g n i : ~ In n (map fst axes) -> proper f -> sumL f (points axes (upd g n i)) = sumL (fun h => f (upd h n i)) (points axes g).
Proof.
  intros I P. revert g. induction axes as [|a axes IH]; intros g.
  - cbn. reflexivity.
  - rewrite !sum_cons. apply sumL_ext. intros j. rewrite <- IH by (intros H; apply I; right; exact H). apply sum_ext; [exact P|]. apply upd_swap. intros H. apply I. left. congruence.
Qed.
Lemma mem_in n l : mem n l = true <-> In n l.
Proof. unfold mem. rewrite existsb_exists. split; [intros (x & I & E); apply String.eqb_eq in E; subst; exact I|intros I; exists n; split; [exact I|apply String.eqb_refl]]. Qed.
Lemma mem_not n l : mem n l = false <-> ~ In n l.
Proof. destruct (mem n l) eqn:E; [apply mem_in in E; split; [discriminate|contradiction]|split; [intros _ I; apply mem_in in I; congruence|reflexivity]]. Qed.
(** the split into named and other axes *)
Lemma filter_name n (axes : list (string * nat)) : ~ In n (map fst axes) -> filter (fun a => String.eqb (fst a) n) axes = [].
Proof.
  induction axes as [|a axes IH]; cbn; intros H; [reflexivity|]. destruct (String.eqb_spec (fst a) n); [exfalso; apply H; left; assumption|].
  apply IH. intros I. apply H. right. exact I.
Qed.
Lemma perm_filter {A} (p : A -> bool) l : Permutation l (filter p l ++ filter (fun x => negb (p x)) l).
Proof.
  induction l as [|x l IH]; cbn; [constructor|]. destruct (p x); cbn.
  - constructor. exact IH.
  - apply Permutation_cons_app. exact IH.
Qed.
Lemma filter_filter {A} (p q : A -> bool) l : filter p (filter q l) = filter (fun x => q x && p x) l.
Proof. induction l as [|x l IH]; cbn; [reflexivity|]. destruct (q x); cbn; [destruct (p x)|]; rewrite IH; reflexivity. Qed.
Lemma filter_ext_in {A} (p q : A -> bool) l : (forall x, In x l -> p x = q x) -> filter p l = filter q l.
Proof. induction l as [|x l IH]; cbn; intros H; [reflexivity|]. rewrite H by (left; reflexivity). rewrite IH; [reflexivity|]. intros y I. apply H. right. exact I. Qed.
Lemma named_perm names axes : NoDup names -> Permutation (axes_named names axes) (within names axes).
Proof.
  revert axes. induction names as [|n names IH]; intros axes N.
  - cbn. unfold within. cbn. induction axes; cbn; auto.
  - inversion N as [|? ? I N']; subst. cbn [axes_named flat_map]. symmetry.
    eapply perm_trans; [apply (perm_filter (fun a => String.eqb (fst a) n))|]. unfold within. rewrite !filter_filter. apply Permutation_app.
    + rewrite (filter_ext_in (fun x => mem (fst x) (n :: names) && String.eqb (fst x) n) (fun a => String.eqb (fst a) n)); [reflexivity|].
      intros x _. cbn. destruct (String.eqb (fst x) n); [reflexivity|]. apply andb_false_r.
    + rewrite (filter_ext_in (fun x => mem (fst x) (n :: names) && negb (String.eqb (fst x) n)) (fun a => mem (fst a) names)); [symmetry; apply IH; exact N'|].
      intros x _. cbn. destruct (String.eqb_spec (fst x) n) as [->|E]; cbn; [symmetry; apply mem_not; exact I|]. rewrite andb_true_r. reflexivity.
Qed.
Lemma split_perm names axes : NoDup names -> Permutation axes (axes_named names axes ++ without names axes).
Proof.
  intros N. eapply perm_trans; [apply (perm_filter (fun a : string * nat => mem (fst a) names))|]. apply Permutation_app; [symmetry; apply named_perm; exact N|reflexivity].
Qed.
Lemma sum_split names axes f g : NoDup names -> NoDup (map fst axes) -> proper f ->
  sumL f (points axes g) = sumL (fun g' => sumL f (points (without names axes) g')) (points (axes_named names axes) g).
Proof. intros N A P. rewrite (sum_perm axes _ f P A (split_perm names axes N) g). apply sum_app. Qed.

(** ** bins as lists of numbers *)
Lemma at_other axes v n : ~ In n (map fst axes) -> at_axis axes v n = 0.
Proof.
  revert v. induction axes as [|a axes IH]; intros v H; [reflexivity|]. destruct v as [|i v]; [reflexivity|]. cbn.
  destruct (String.eqb_spec n (fst a)); [exfalso; apply H; left; auto|]. apply IH. intros I. apply H. right. exact I.
Qed.
Lemma sum_cells axes f : NoDup (map fst axes) -> proper f -> sumL f (points axes origin) = sumL (fun v => f (at_axis axes v)) (cells axes).
Proof.
  intros N. revert f. induction axes as [|a axes IH]; intros f P.
  - cbn. f_equal.
  - inversion N as [|? ? I N']; subst. rewrite sum_cons. cbn [cells]. rewrite sumL_flat. apply sumL_ext. intros i. rewrite sumL_map.
    rewrite sum_other by assumption. rewrite IH; [|exact N'|].
    + apply sumL_ext. intros v. apply P. intros n. cbn [at_axis]. unfold upd. reflexivity.
    + intros g g' S. apply P. apply upd_ext. exact S.
Qed.
Lemma sum_filter {A} (p : A -> bool) (f : A -> R) l : sumL f (filter p l) = sumL (fun x => if p x then f x else 0%R) l.
Proof. unfold sumL. induction l as [|x l IH]; cbn; [reflexivity|]. destruct (p x); cbn; rewrite IH; lra. Qed.
Lemma agrees_ext names g g' h : same g g' -> agrees names g h = agrees names g' h.
Proof. intros S. unfold agrees. induction names as [|n names IH]; cbn; [reflexivity|]. rewrite (S n), IH. reflexivity. Qed.
Lemma agrees_in names g h : agrees names g h = true <-> forall n, In n names -> g n = h n.
Proof. unfold agrees. rewrite forallb_forall. split; intros H n I; [apply Nat.eqb_eq|apply Nat.eqb_eq]; apply H; exact I. Qed.
(** exactly one bin of the named axes agrees with [g] *)
Lemma sum_one axes (F : asg -> R) g g0 : NoDup (map fst axes) -> (forall a, In a axes -> g (fst a) < snd a) ->
  (forall h, (forall n, In n (map fst axes) -> h n = g n) -> (forall n, ~ In n (map fst axes) -> h n = g0 n) -> F h = F g) ->
  sumL (fun h => if agrees (map fst axes) h g then F h else 0%R) (points axes g0) = F g.
Proof.
  intros N. revert F g0. induction axes as [|a axes IH]; intros F g0 B L.
  - cbn. rewrite (L g0); [lra|intros n []|reflexivity].
  - inversion N as [|? ? I N']; subst. rewrite sum_cons.
    transitivity (sumL (fun i => if Nat.eqb i (g (fst a)) then F g else 0%R) (seq 0 (snd a))).
    + apply sumL_ext. intros i. destruct (Nat.eqb_spec i (g (fst a))) as [->|E].
      * rewrite <- (IH N' F (upd g0 (fst a) (g (fst a)))).
        -- apply sumL_in. intros h J. cbn [map agrees forallb].
           assert (h (fst a) = g (fst a)) as Q.
           { clear - J I. revert J. assert (upd g0 (fst a) (g (fst a)) (fst a) = g (fst a)) as Q by apply upd_same. revert Q. generalize (upd g0 (fst a) (g (fst a))) as k.
             induction axes as [|x axes IH]; intros k Q J; cbn in J; [destruct J as [<-|[]]; exact Q|]. apply in_flat_map in J. destruct J as (j & _ & J).
             apply IH in J; [exact J| |].
             - intros H. apply I. right. exact H.
             - rewrite upd_other; [exact Q|]. intros H. apply I. left. auto. }
           rewrite Q, Nat.eqb_refl. reflexivity.
        -- intros b J. apply B. right. exact J.
        -- intros h H1 H2. apply L.
           ++ intros n [<-|J]; [rewrite (H2 _ I); apply upd_same|apply H1; exact J].
           ++ intros n J. rewrite H2 by (intros H; apply J; right; exact H). apply upd_other. intros ->. apply J. left. reflexivity.
      * transitivity (sumL (fun _ : asg => 0%R) (points axes (upd g0 (fst a) i))); [|apply sumL_zero]. apply sumL_in. intros h J. cbn [map agrees forallb].
        assert (h (fst a) = i) as Q.
        { clear - J I. revert J. assert (upd g0 (fst a) i (fst a) = i) as Q by apply upd_same. revert Q. generalize (upd g0 (fst a) i) as k.
          induction axes as [|x axes IH]; intros k Q J; cbn in J; [destruct J as [<-|[]]; exact Q|]. apply in_flat_map in J. destruct J as (j & _ & J).
          apply IH in J; [exact J| |].
          - intros H. apply I. right. exact H.
          - rewrite upd_other; [exact Q|]. intros H. apply I. left. auto. }
        rewrite Q. destruct (Nat.eqb_spec i (g (fst a))); [contradiction|reflexivity].
    + assert (B0 : g (fst a) < snd a) by (apply B; left; reflexivity). clear - B0. assert (forall s k, s <= g (fst a) < s + k -> sumL (fun i => if Nat.eqb i (g (fst a)) then F g else 0%R) (seq s k) = F g) as Q.
      { intros s k. revert s. induction k as [|k IH]; intros s H; [lia|]. cbn [seq]. unfold sumL. cbn [fold_right]. fold (sumL (fun i => if Nat.eqb i (g (fst a)) then F g else 0%R) (seq (S s) k)).
        destruct (Nat.eqb_spec s (g (fst a))) as [E|E].
        - rewrite (sumL_in _ (fun _ => 0%R)); [rewrite sumL_zero; lra|]. intros x J. apply in_seq in J. destruct (Nat.eqb_spec x (g (fst a))); [lia|reflexivity].
        - rewrite IH by lia. lra. }
      apply Q. lia.
Qed.
Lemma map_fst_named names axes : NoDup (map fst axes) -> (forall n, In n names -> In n (map fst axes)) -> map fst (axes_named names axes) = names.
Proof.
  intros N. induction names as [|n names IH]; intros H; [reflexivity|]. cbn [axes_named flat_map]. rewrite map_app. fold (axes_named names axes). rewrite IH by (intros m I; apply H; right; exact I).
  assert (map fst (filter (fun a => String.eqb (fst a) n) axes) = [n]) as ->; [|reflexivity].
  assert (I : In n (map fst axes)) by (apply H; left; reflexivity). clear - N I. induction axes as [|a axes IH]; [destruct I|]. inversion N as [|? ? I' N']; subst. cbn. destruct (String.eqb_spec (fst a) n) as [E|E].
  - cbn. rewrite E. rewrite filter_name; [reflexivity|]. rewrite <- E. exact I'.
  - apply IH; [exact N'|]. destruct I as [I|I]; [contradiction|exact I].
Qed.
Lemma in_named names axes a : In a (axes_named names axes) <-> In a axes /\ In (fst a) names.
Proof.
  unfold axes_named. rewrite in_flat_map. split.
  - intros (n & I & J). apply filter_In in J. destruct J as [J E]. apply String.eqb_eq in E. subst. auto.
  - intros [I J]. exists (fst a). split; [exact J|]. apply filter_In. split; [exact I|apply String.eqb_refl].
Qed.
Lemma points_outside axes g h n : ~ In n (map fst axes) -> In h (points axes g) -> h n = g n.
Proof.
  intros I. revert g. induction axes as [|a axes IH]; intros g J; cbn in J; [destruct J as [<-|[]]; reflexivity|]. apply in_flat_map in J. destruct J as (i & _ & J).
  rewrite (IH (fun H => I (or_intror H)) _ J). apply upd_other. intros ->. apply I. left. reflexivity.
Qed.
Lemma without_names names axes n : In n (map fst (without names axes)) <-> In n (map fst axes) /\ ~ In n names.
Proof.
  unfold without. rewrite !in_map_iff. split.
  - intros (a & <- & I). apply filter_In in I. destruct I as [I M]. apply negb_true_iff, mem_not in M. split; [exists a; auto|exact M].
  - intros [(a & <- & I) M]. exists a. split; [reflexivity|]. apply filter_In. split; [exact I|]. apply negb_true_iff, mem_not. exact M.
Qed.
(** hidden bins only depend on the other axes *)
Lemma sum_local all axes f g g' : (forall h h', (forall n, In n all -> h n = h' n) -> f h = f h') -> (forall n, In n all -> ~ In n (map fst axes) -> g n = g' n) ->
  sumL f (points axes g) = sumL f (points axes g').
Proof.
  intros P. revert g g'. induction axes as [|a axes IH]; intros g g' S.
  - cbn. rewrite (P g g'); [reflexivity|]. intros n I. apply S; [exact I|intros []].
  - rewrite !sum_cons. apply sumL_ext. intros i. apply IH. intros n I J. unfold upd. destruct (String.eqb_spec n (fst a)) as [E|E]; [reflexivity|]. apply S; [exact I|].
    intros [H|H]; [apply E; auto|contradiction].
Qed.
Lemma project_content names axes f g : NoDup names -> NoDup (map fst axes) -> (forall n, In n names -> In n (map fst axes)) -> local axes f ->
  (forall a, In a axes -> In (fst a) names -> g (fst a) < snd a) -> x_val (project names (mkHist axes f)) g = content axes names f g.
Proof.
  intros N A S L B. unfold content. rewrite <- sumL_sumR, sum_filter. cbn [project x_val x_axes].
  rewrite <- (sum_cells axes (fun h => if agrees names h g then f h else 0%R) A).
  2:{ intros h h' E. rewrite (agrees_ext names h h' g E). destruct (agrees names h' g); [apply (local_proper _ _ L); exact E|reflexivity]. }
  rewrite (sum_split names axes _ origin N A).
  2:{ intros h h' E. rewrite (agrees_ext names h h' g E). destruct (agrees names h' g); [apply (local_proper _ _ L); exact E|reflexivity]. }
  set (F := fun h : asg => sumL f (points (without names axes) h)).
  assert (NA : map fst (axes_named names axes) = names) by (apply map_fst_named; assumption).
  transitivity (sumL (fun h => if agrees (map fst (axes_named names axes)) h g then F h else 0%R) (points (axes_named names axes) origin)).
  - symmetry. apply sum_one.
    + rewrite NA. exact N.
    + intros a I. apply in_named in I. destruct I as [I J]. apply B; assumption.
    + intros h H1 H2. rewrite NA in *. unfold F. apply (sum_local (map fst axes)); [exact L|]. intros n I J. apply H1.
      destruct (in_dec string_dec n names) as [K|K]; [exact K|]. exfalso. apply J. apply without_names. auto.
  - rewrite NA. apply sumL_in. intros h J. unfold F. destruct (agrees names h g) eqn:E.
    + apply sumL_in. intros k K. assert (agrees names k g = true) as ->; [|reflexivity]. apply agrees_in. intros n I.
      rewrite (points_outside _ _ _ n) with (2 := K); [apply agrees_in with (1 := E); exact I|]. intros H. apply without_names in H. tauto.
    + transitivity (sumL (fun _ : asg => 0%R) (points (without names axes) h)); [symmetry; apply sumL_zero|]. apply sumL_in. intros k K.
      destruct (agrees names k g) eqn:E'; [|reflexivity]. exfalso. assert (agrees names h g = true); [|congruence]. apply agrees_in. intros n I.
      rewrite <- (points_outside _ _ _ n) with (2 := K); [apply agrees_in with (1 := E'); exact I|]. intros H. apply without_names in H. tauto.
Qed.
Lemma project_sum names h : NoDup names -> NoDup (map fst (x_axes h)) -> proper (x_val h) -> sum_hist (project names h) = sum_hist h.
Proof. intros N A P. unfold sum_hist. cbn [project x_axes x_val]. symmetry. apply sum_split; assumption. Qed.
Lemma sum_yield axes f : NoDup (map fst axes) -> local axes f -> sum_hist (mkHist axes f) = yield axes f.
Proof.
  intros A L. unfold sum_hist, yield, content. cbn [x_axes x_val]. rewrite sum_cells; [|exact A|apply (local_proper axes); exact L].
  rewrite sumL_sumR. f_equal. f_equal. symmetry. cbn. induction (cells axes); cbn; [reflexivity|]. f_equal. assumption.
Qed.

(** ** slices *)
Lemma upds_cons p idxs g : upds (p :: idxs) g = upds idxs (upd g (fst p) (snd p)).
Proof. reflexivity. Qed.
Lemma upds_ext idxs g g' : same g g' -> same (upds idxs g) (upds idxs g').
Proof. revert g g'. induction idxs as [|p idxs IH]; intros g g' S; [exact S|]. rewrite !upds_cons. apply IH. apply upd_ext. exact S. Qed.
Lemma upds_out idxs g n : ~ In n (map fst idxs) -> upds idxs g n = g n.
Proof. revert g. induction idxs as [|p idxs IH]; intros g H; [reflexivity|]. rewrite upds_cons, IH by (intros I; apply H; right; exact I). apply upd_other. intros ->. apply H. left. reflexivity. Qed.
Lemma upds_in idxs g g' n : In n (map fst idxs) -> upds idxs g n = upds idxs g' n.
Proof.
  revert g g'. induction idxs as [|p idxs IH]; intros g g' H; [destruct H|]. rewrite !upds_cons. destruct (in_dec string_dec n (map fst idxs)) as [I|I]; [apply IH; exact I|].
  rewrite !upds_out by exact I. destruct H as [<-|H]; [rewrite !upd_same; reflexivity|contradiction].
Qed.
Lemma upds_nodup idxs g n i : NoDup (map fst idxs) -> In (n, i) idxs -> upds idxs g n = i.
Proof.
  revert g. induction idxs as [|p idxs IH]; intros g N H; [destruct H|]. inversion N as [|? ? I N']; subst. rewrite upds_cons. destruct H as [->|H].
  - rewrite upds_out by exact I. apply upd_same.
  - apply IH; assumption.
Qed.
Lemma sum_upds axes f g idxs : (forall n, In n (map fst idxs) -> ~ In n (map fst axes)) -> proper f ->
  sumL f (points axes (upds idxs g)) = sumL (fun h => f (upds idxs h)) (points axes g).
Proof.
  revert f g. induction idxs as [|p idxs IH]; intros f g H P; [reflexivity|]. rewrite upds_cons. rewrite IH; [|intros n I; apply H; right; exact I|exact P].
  rewrite sum_other; [reflexivity|apply H; left; reflexivity|]. intros h h' S. apply P. apply upds_ext. exact S.
Qed.
Lemma without_app a b axes : without a (without b axes) = without (a ++ b) axes.
Proof.
  unfold without. rewrite filter_filter. apply filter_ext_in. intros x _. unfold mem. rewrite existsb_app, negb_orb. apply andb_comm.
Qed.
Lemma in_range_ok axes idxs : in_range axes idxs = true <-> forall p, In p idxs -> exists a, In a axes /\ fst a = fst p /\ snd p < snd a.
Proof.
  unfold in_range. rewrite forallb_forall. split; intros H p I; specialize (H p I).
  - apply existsb_exists in H. destruct H as (a & J & E). apply andb_true_iff in E. destruct E as [E L]. exists a. split; [exact J|]. split; [apply String.eqb_eq; exact E|apply Nat.ltb_lt; exact L].
  - destruct H as (a & J & E & L). apply existsb_exists. exists a. split; [exact J|]. apply andb_true_iff. split; [apply String.eqb_eq; exact E|apply Nat.ltb_lt; exact L].
Qed.
Lemma size_unique (axes : list (string * nat)) a b : NoDup (map fst axes) -> In a axes -> In b axes -> fst a = fst b -> a = b.
Proof.
  intros N. induction axes as [|x axes IH]; intros I J E; [destruct I|]. inversion N as [|? ? K N']; subst. destruct I as [->|I], J as [->|J]; auto.
  - exfalso. apply K. rewrite E. apply in_map. exact J.
  - exfalso. apply K. rewrite <- E. apply in_map. exact I.
Qed.
Lemma slice_content ns axes idxs f g : NoDup (ns ++ map fst idxs) -> NoDup (map fst axes) -> (forall n, In n ns -> In n (map fst axes)) -> local axes f -> in_range axes idxs = true ->
  (forall a, In a axes -> In (fst a) ns -> g (fst a) < snd a) ->
  x_val (project ns (fixed idxs (mkHist axes f))) g = content axes (ns ++ map fst idxs) f (upds idxs g).
Proof.
  intros N A S L R B. assert (RO := proj1 (in_range_ok _ _) R). assert (D : forall n, In n ns -> ~ In n (map fst idxs)).
  { intros n I J. clear - N I J. induction ns as [|m ns IH]; [destruct I|]. cbn in N. inversion N as [|? ? K N']; subst. destruct I as [->|I]; [apply K; apply in_or_app; right; exact J|apply IH; assumption]. }
  assert (NI : NoDup (map fst idxs)). { clear - N. induction ns as [|m ns IH]; [exact N|]. cbn in N. inversion N; subst. apply IH. assumption. }
  rewrite <- project_content.
  - cbn [project fixed x_val x_axes]. rewrite without_app. symmetry. apply sum_upds; [|apply (local_proper axes); exact L].
    intros n I J. apply without_names in J. destruct J as [_ J]. apply J. apply in_or_app. right. exact I.
  - exact N.
  - exact A.
  - intros n I. apply in_app_or in I. destruct I as [I|I]; [apply S; exact I|]. apply in_map_iff in I. destruct I as (p & <- & I). destruct (RO p I) as (a & J & E & _). rewrite <- E. apply in_map. exact J.
  - exact L.
  - intros a I J. apply in_app_or in J. destruct J as [J|J].
    + rewrite upds_out by (apply D; exact J). apply B; assumption.
    + apply in_map_iff in J. destruct J as (p & E & J). rewrite (upds_nodup idxs g (fst a) (snd p) NI).
      * destruct (RO p J) as (b & K & E' & Lt). assert (a = b) as -> by (apply (size_unique axes); [exact A|exact I|exact K|congruence]). exact Lt.
      * rewrite <- E. destruct p; exact J.
Qed.

(** ** results *)
Lemma Forall2_in_r {A B} {R : A -> B -> Prop} {l l' y} : Forall2 R l l' -> In y l' -> exists x, In x l /\ R x y.
Proof. intros F. induction F as [|a b l l' H F IH]; intros I; [destruct I|]. destruct I as [<-|I]; [exists a; cbn; auto|]. destruct (IH I) as (x & J & K). exists x. cbn; auto. Qed.
Lemma Forall2_in_l {A B} {R : A -> B -> Prop} {l l' x} : Forall2 R l l' -> In x l -> exists y, In y l' /\ R x y.
Proof. intros F. induction F as [|a b l l' H F IH]; intros I; [destruct I|]. destruct I as [<-|I]; [exists b; cbn; auto|]. destruct (IH I) as (y & J & K). exists y. cbn; auto. Qed.
Lemma seqr_ok {A} (l : list (result A)) ys : seqr l = Ok ys -> Forall2 (fun r y => r = Ok y) l ys.
Proof.
  revert ys. induction l as [|r l IH]; intros ys H; cbn in H; [injection H as <-; constructor|]. destruct r as [x|e]; cbn in H; [|discriminate].
  destruct (seqr l) as [zs|e]; cbn in H; [|discriminate]. injection H as <-. constructor; [reflexivity|apply IH; reflexivity].
Qed.
Lemma seqr_all {A} (l : list (result A)) : (forall r, In r l -> exists y, r = Ok y) -> exists ys, seqr l = Ok ys.
Proof.
  induction l as [|r l IH]; intros H; [exists []; reflexivity|]. destruct (H r (or_introl eq_refl)) as (y & ->). destruct (IH (fun r I => H r (or_intror I))) as (ys & E).
  exists (y :: ys). cbn. rewrite E. reflexivity.
Qed.
Lemma seqr_in {A} (l : list (result A)) ys : seqr l = Ok ys -> forall y, In y ys <-> In (Ok y) l.
Proof.
  intros H y. apply seqr_ok in H. induction H as [|r z l ys E H IH]; cbn; [tauto|]. subst r. rewrite IH. split; (intros [E|I]; [left; congruence|right; exact I]).
Qed.
Lemma seqr_raise {A} (l : list (result A)) e : In (Raise e) l -> forall ys, seqr l <> Ok ys.
Proof. intros I ys H. apply seqr_ok in H. induction H as [|r z l ys E H IH]; [destruct I|]. subst r. destruct I as [I|I]; [discriminate|apply IH; exact I]. Qed.

(** ** combinations *)
Lemma in_combs k l c : In c (combs k l) <-> subseq c l /\ List.length c = k.
Proof.
  revert k c. induction l as [|x l IH]; intros k c.
  - destruct k; cbn.
    + split; [intros [<-|[]]; split; [constructor|reflexivity]|intros [S _]; inversion S; auto].
    + split; [intros []|intros [S E]; inversion S; subst; discriminate].
  - destruct k.
    + cbn. split; [intros [<-|[]]|intros [S E]; destruct c; [auto|discriminate]]. split; [|reflexivity]. clear. constructor. induction l; constructor. assumption.
    + cbn [combs]. rewrite in_app_iff, in_map_iff. split.
      * intros [(d & <- & I)|I]; apply IH in I; destruct I as [S E].
        -- split; [constructor; exact S|cbn; congruence].
        -- split; [constructor; exact S|exact E].
      * intros [S E]. inversion S as [|? ? ? S'|? d ? S']; subst.
        -- right. apply IH. auto.
        -- left. exists d. split; [reflexivity|]. apply IH. split; [exact S'|cbn in E; congruence].
Qed.
Lemma sub_in {A} (c l : list A) : subseq c l -> forall x, In x c -> In x l.
Proof. intros S. induction S; intros y I; [destruct I|right; auto|destruct I as [->|I]; [left; reflexivity|right; auto]]. Qed.
Lemma sub_nodup {A} (c l : list A) : subseq c l -> NoDup l -> NoDup c.
Proof. intros S. induction S as [|x a b S IH|x a b S IH]; intros N; [constructor| |]; inversion N as [|? ? I N']; subst; [auto|]. constructor; [|auto]. intros J. apply I. apply (sub_in a b S). exact J. Qed.
Lemma sub_len {A} (c l : list A) : subseq c l -> List.length c <= List.length l.
Proof. intros S. induction S; cbn; lia. Qed.
Lemma nodup_combs k l : NoDup l -> NoDup (combs k l).
Proof.
  intros N. revert k. induction N as [|x l I N IH]; intros k; destruct k; cbn [combs]; try (repeat constructor; intros []; fail).
  - apply nodup_app; [apply nodup_map_inj; [intros ? ? _ _ E; injection E; auto|apply IH]|apply IH|]. intros c J K. apply in_map_iff in J. destruct J as (d & <- & _).
    apply in_combs in K. destruct K as [S _]. apply I. apply (sub_in _ _ S). left. reflexivity.
Qed.
Lemma in_combinations l c : In c (combinations l) <-> subseq c l /\ c <> [].
Proof.
  unfold combinations. rewrite in_app_iff, in_map_iff, in_flat_map. split.
  - intros [(n & <- & I)|(k & I & J)].
    + split; [|discriminate]. apply (in_combs 1). clear - I. induction l as [|x l IH]; [destruct I|]. cbn [combs]. apply in_or_app. destruct I as [->|I]; [left; destruct l; left; reflexivity|right; apply IH; exact I].
    + apply in_combs in J. destruct J as [S E]. apply in_seq in I. split; [exact S|]. intros ->. cbn in E. lia.
  - intros [S E]. destruct c as [|x [|y c]]; [contradiction| |].
    + left. exists x. split; [reflexivity|]. apply (sub_in _ _ S). left. reflexivity.
    + right. exists (List.length (x :: y :: c)). split; [|apply in_combs; auto]. pose proof (sub_len _ _ S) as L. apply in_seq. cbn [List.length] in *. lia.
Qed.
Lemma nodup_combinations l : NoDup l -> NoDup (combinations l).
Proof.
  intros N. unfold combinations. apply nodup_app.
  - apply nodup_map_inj; [intros ? ? _ _ E; injection E; auto|exact N].
  - generalize (seq_NoDup (List.length l - 1) 2). generalize (seq 2 (List.length l - 1)). intros s H. induction H as [|k s I H IH]; cbn; [constructor|]. apply nodup_app; [apply nodup_combs; exact N|exact IH|].
    intros c J K. apply in_combs in J. apply in_flat_map in K. destruct K as (k' & K & K'). apply in_combs in K'. destruct J as [_ J], K' as [_ K']. apply I. congruence.
  - intros c I J. apply in_map_iff in I. destruct I as (n & <- & _). apply in_flat_map in J. destruct J as (k & J & K). apply in_combs in K. destruct K as [_ K]. apply in_seq in J. cbn in K. lia.
Qed.

(** ** splitting text *)
Lemma split_ne c s : split_at c s <> [].
Proof. destruct s as [|x s]; cbn; [discriminate|]. destruct (Ascii.eqb x c); [discriminate|]. destruct (split_at c s); discriminate. Qed.
Lemma split_app c a b : split_at c (a ++ String c b) = (split_at c a ++ split_at c b)%list.
Proof.
  induction a as [|x a IH]; cbn [split_at append].
  - rewrite Ascii.eqb_refl. reflexivity.
  - rewrite IH. destruct (Ascii.eqb x c); [reflexivity|]. destruct (split_at c a) as [|h t] eqn:E; [exfalso; exact (split_ne c a E)|]. reflexivity.
Qed.
Lemma split_bare c s : bare c s -> split_at c s = [s].
Proof.
  induction s as [|x s IH]; intros B; [reflexivity|]. cbn [split_at]. destruct (Ascii.eqb_spec x c) as [->|E].
  - exfalso. apply (B EmptyString s). reflexivity.
  - rewrite IH; [reflexivity|]. intros a b H. apply (B (String x a) b). rewrite H. reflexivity.
Qed.
Lemma split_concat c l : l <> [] -> Forall (bare c) l -> split_at c (String.concat (String c EmptyString) l) = l.
Proof.
  intros H F. induction F as [|s l B F IH]; [contradiction|]. destruct l as [|t l].
  - cbn. apply split_bare. exact B.
  - change (String.concat (String c EmptyString) (s :: t :: l)) with (s ++ String c (String.concat (String c EmptyString) (t :: l)))%string.
    rewrite split_app, IH by discriminate. rewrite split_bare by exact B. reflexivity.
Qed.
Lemma same_set_ok a b : same_set a b = true <-> forall n, In n a <-> In n b.
Proof.
  unfold same_set. rewrite andb_true_iff, !forallb_forall. split.
  - intros [H H'] n. split; intros I; apply mem_in; auto.
  - intros H. split; intros n I; apply mem_in; apply H; exact I.
Qed.

(** ** the plots of a channel *)
Definition templates (a : args) (c : chan) : list hist := map (fun p => mkHist (c_axes c) (c_nom c p)) (chosen_procs a (c_procs c)).
Definition drawn (a : args) (known : list string) : list (string * string) := variations known (a_vars a) (a_labels a).
Definition downs (a : args) known (c : chan) : list syst := map (fun v => mkS (c_axes c) (c_down c (fst v))) (drawn a known).
Definition ups (a : args) known (c : chan) : list syst := map (fun v => mkS (c_axes c) (c_up c (fst v))) (drawn a known).
Definition data_of (a : args) (c : chan) : option hist := if a_nodata a || a_split a then None else option_map (mkHist (c_axes c)) (c_data c).
(** the combinations of bins *)
Definition slices (a : args) (c : chan) : list (list (string * nat)) :=
  match axes_named (a_selaxes a) (c_axes c) with
  | [] => [[]]
  | sel => map (combine (map fst sel)) (match a_select a with [] => product (map (fun x => seq 0 (snd x)) (within (a_selaxes a) (c_axes c))) | l => [l] end)
  end.
Definition tag (a : args) (c : chan) (idxs : list (string * nat)) : option (list (string * nat)) :=
  match axes_named (a_selaxes a) (c_axes c) with [] => None | _ => Some idxs end.
Definition slice_plots (a : args) known ch (c : chan) (idxs : list (string * nat)) : result (list plot) :=
  make_plots a (c_procs c) (map (fixed idxs) (templates a c)) (option_map (fixed idxs) (data_of a c)) (map (fixed_syst idxs) (downs a known c)) (map (fixed_syst idxs) (ups a known c))
    (tag a c idxs) ch (chosen_procs a (c_procs c)) (map snd (drawn a known)).
Lemma without_nil axes : without [] axes = axes.
Proof. unfold without. induction axes as [|x axes IH]; cbn; [reflexivity|]. f_equal. exact IH. Qed.
Lemma fixed_nil h : fixed [] h = h.
Proof. unfold fixed. cbn [map]. rewrite without_nil. destruct h. reflexivity. Qed.
Lemma fixed_syst_nil s : fixed_syst [] s = s.
Proof. unfold fixed_syst. cbn [map]. rewrite without_nil. destruct s. reflexivity. Qed.
Lemma map_same {A} (f : A -> A) l : (forall x, f x = x) -> map f l = l.
Proof. intros H. induction l as [|x l IH]; cbn; [reflexivity|rewrite H, IH; reflexivity]. Qed.
Lemma concat_one {A} (l : list A) : List.concat [l] = l.
Proof. cbn. apply app_nil_r. Qed.
Lemma channel_eq a known ch c : chosen_procs a (c_procs c) <> [] ->
  channel_plots a known ch c = (ls <- seqr (map (fun idxs => if in_range (c_axes c) idxs then slice_plots a known ch c idxs else Raise IndexError) (slices a c)) ;; Ok (List.concat ls)).
Proof.
  intros NE. unfold channel_plots. fold (templates a c). fold (drawn a known). fold (downs a known c). fold (ups a known c). fold (data_of a c).
  assert (T : templates a c <> []) by (unfold templates; destruct (chosen_procs a (c_procs c)); [contradiction|discriminate]).
  destruct (templates a c) as [|h0 hs] eqn:ET; [contradiction|]. rewrite <- ET. unfold slices, slice_plots, tag.
  destruct (axes_named (a_selaxes a) (c_axes c)) as [|x sel] eqn:ES.
  - cbn [map seqr in_range forallb]. rewrite !map_same by (apply fixed_nil || apply fixed_syst_nil).
    assert (option_map (fixed []) (data_of a c) = data_of a c) as -> by (destruct (data_of a c) as [d|]; cbn; [rewrite fixed_nil; reflexivity|reflexivity]).
    destruct (make_plots a (c_procs c) (templates a c) (data_of a c) (downs a known c) (ups a known c) None ch (chosen_procs a (c_procs c)) (map snd (drawn a known))); cbn; [rewrite app_nil_r; reflexivity|reflexivity].
  - rewrite map_map. reflexivity.
Qed.
Lemma channel_in a known ch c ps : channel_plots a known ch c = Ok ps -> forall p, In p ps <-> exists idxs l, In idxs (slices a c) /\ in_range (c_axes c) idxs = true /\ slice_plots a known ch c idxs = Ok l /\ In p l.
Proof.
  intros H p. assert (NE : chosen_procs a (c_procs c) <> []). { intros E. unfold channel_plots in H. rewrite E in H. discriminate. }
  rewrite channel_eq in H by exact NE. destruct (seqr _) as [ls|e] eqn:E in H; cbn in H; [|discriminate]. injection H as <-. rewrite in_concat. split.
  - intros (l & I & J). apply (seqr_in _ _ E) in I. apply in_map_iff in I. destruct I as (idxs & Q & I). destruct (in_range (c_axes c) idxs) eqn:R; [|discriminate]. exists idxs, l. auto.
  - intros (idxs & l & I & R & Q & J). exists l. split; [|exact J]. apply (seqr_in _ _ E). apply in_map_iff. exists idxs. rewrite R. auto.
Qed.
Lemma slices_names a c idxs : NoDup (a_selaxes a) -> NoDup (map fst (c_axes c)) -> In idxs (slices a c) -> NoDup (map fst idxs) /\ forall n, In n (map fst idxs) -> In n (a_selaxes a).
Proof.
  intros NS NA I. unfold slices in I. destruct (axes_named (a_selaxes a) (c_axes c)) as [|x sel] eqn:ES.
  - destruct I as [<-|[]]. split; [constructor|intros n []].
  - apply in_map_iff in I. destruct I as (b & <- & _). assert (N : NoDup (map fst (x :: sel))).
    { rewrite <- ES. apply (Permutation_NoDup (Permutation_map fst (Permutation_sym (named_perm (a_selaxes a) (c_axes c) NS)))). unfold within. clear - NA. induction (c_axes c) as [|y axes IH]; cbn; [constructor|].
      inversion NA as [|? ? K N']; subst. destruct (mem (fst y) (a_selaxes a)); cbn; [|apply IH; exact N']. constructor; [|apply IH; exact N']. intros H. apply K. apply in_map_iff in H. destruct H as (z & <- & H). apply filter_In in H. apply in_map. tauto. }
    assert (S : forall n, In n (map fst (x :: sel)) -> In n (a_selaxes a)).
    { rewrite <- ES. intros n H. apply in_map_iff in H. destruct H as (y & <- & H). apply in_named in H. tauto. }
    clear ES. revert b. generalize (map fst (x :: sel)) N S. clear. intros l N S. induction N as [|n l I N IH]; intros b; [split; [constructor|intros n []]|]. destruct b as [|i b]; [split; [constructor|intros m []]|].
    destruct (IH (fun m J => S m (or_intror J)) b) as [N1 S1]. cbn [combine map fst]. split.
    + constructor; [|exact N1]. intros H. apply I. apply in_map_iff in H. destruct H as ((m & j) & <- & H). apply in_combine_l in H. exact H.
    + intros m [<-|H]; [apply S; left; reflexivity|apply S1; exact H].
Qed.
(** the plots of one slice *)
Lemma make_plots_in a all hs data o1 o2 sel ch procs ls ps : make_plots a all hs data o1 o2 sel ch procs ls = Ok ps -> a_split a = false ->
  exists h0 hs', hs = h0 :: hs' /\ x_axes h0 <> [] /\ Forall2 (fun ns p => make_plot a all hs data o1 o2 ns sel ch procs "" ls = Ok p)
    (filter (wanted (a_hists a)) (combinations (if a_invert a then rev (map fst (x_axes h0)) else map fst (x_axes h0)))) ps.
Proof.
  intros H S. unfold make_plots in H. rewrite S in H. destruct hs as [|h0 hs']; [discriminate|]. exists h0, hs'. split; [reflexivity|].
  destruct (map fst (x_axes h0)) as [|n ns] eqn:E; [discriminate|]. split; [destruct (x_axes h0); discriminate|]. rewrite <- E in *. apply seqr_ok in H.
  assert (forall l, flat_map (fun ns => [make_plot a all (h0 :: hs') data o1 o2 ns sel ch procs "" ls]) l = map (fun ns => make_plot a all (h0 :: hs') data o1 o2 ns sel ch procs "" ls) l) as Q by (induction l as [|y l IH]; cbn; [reflexivity|f_equal; exact IH]).
  rewrite Q in H. remember (filter (wanted (a_hists a)) (combinations (if a_invert a then rev (map fst (x_axes h0)) else map fst (x_axes h0)))) as L. clear - H. revert ps H. induction L as [|y L IH]; intros ps H; inversion H; subst; constructor; auto.
Qed.
Lemma make_plots_split a all hs data o1 o2 sel ch procs ls ps : make_plots a all hs data o1 o2 sel ch procs ls = Ok ps -> a_split a = true ->
  exists h0 hs', hs = h0 :: hs' /\ x_axes h0 <> [] /\ forall p, In p ps <-> exists ns pr h, In ns (filter (wanted (a_hists a)) (combinations (if a_invert a then rev (map fst (x_axes h0)) else map fst (x_axes h0))))
     /\ In (pr, h) (combine procs hs) /\ nonzero h = true /\ make_plot a all [h] data o1 o2 ns sel ch (chars pr) pr ls = Ok p.
Proof.
  intros H S. unfold make_plots in H. rewrite S in H. destruct hs as [|h0 hs']; [discriminate|]. exists h0, hs'. split; [reflexivity|].
  destruct (map fst (x_axes h0)) as [|n ns] eqn:E; [discriminate|]. split; [destruct (x_axes h0); discriminate|]. rewrite <- E in *. intros p. rewrite (seqr_in _ _ H). rewrite in_flat_map. split.
  - intros (m & I & J). apply in_map_iff in J. destruct J as ((pr & h) & Q & J). apply filter_In in J. exists m, pr, h. tauto.
  - intros (m & pr & h & I & J & Z & Q). exists m. split; [exact I|]. apply in_map_iff. exists (pr, h). split; [exact Q|]. apply filter_In. auto.
Qed.
Lemma sub_rev {A} (a b : list A) : subseq a (rev b) -> forall x, In x a -> In x b.
Proof. intros S x I. apply in_rev. exact (sub_in _ _ S x I). Qed.
Lemma nodup_without names axes : NoDup (map fst axes) -> NoDup (map fst (without names axes)).
Proof.
  unfold without. induction axes as [|y axes IH]; cbn; intros N; [constructor|]. inversion N as [|? ? K N']; subst. destruct (negb (mem (fst y) names)); cbn; [|apply IH; exact N']. constructor; [|apply IH; exact N'].
  intros H. apply K. apply in_map_iff in H. destruct H as (z & <- & H). apply filter_In in H. apply in_map. tauto.
Qed.
(** the axes of a plot *)
Lemma drawn_axes a c (idxs : list (string * nat)) ns : NoDup (map fst (c_axes c)) -> NoDup (map fst idxs) ->
  In ns (filter (wanted (a_hists a)) (combinations (if a_invert a then rev (map fst (without (map fst idxs) (c_axes c))) else map fst (without (map fst idxs) (c_axes c))))) ->
  NoDup (ns ++ map fst idxs) /\ (forall n, In n ns -> In n (map fst (c_axes c))) /\ ns <> [].
Proof.
  intros NA NI I. apply filter_In in I. destruct I as [I _]. apply in_combinations in I. destruct I as [S NE].
  assert (NW := nodup_without (map fst idxs) (c_axes c) NA).
  assert (S1 : forall n, In n ns -> In n (map fst (without (map fst idxs) (c_axes c)))) by (destruct (a_invert a); [exact (sub_rev _ _ S)|exact (sub_in _ _ S)]).
  assert (N1 : NoDup ns) by (apply (sub_nodup _ _ S); destruct (a_invert a); [apply NoDup_rev; exact NW|exact NW]).
  split; [|split; [intros n J; apply S1, without_names in J; tauto|exact NE]]. apply nodup_app; [exact N1|exact NI|]. intros n J K. apply S1, without_names in J. tauto.
Qed.
Lemma plot_of a all hs data o1 o2 ns sel ch procs ls p : a_split a = false -> make_plot a all hs data o1 o2 ns sel ch procs "" ls = Ok p ->
  exists k, p_axes p = ns /\ p_file p = file_name a "" ns ch sel /\ p_pred p = scaled k (added (map (project ns) hs)) /\ p_data p = option_map (project ns) data
    /\ p_stack p = (if a_nostack a then [] else combine procs (map (scaled k) (map (project ns) hs)))
    /\ p_vars p = zip_vars (a_onesided a) (fun s => project ns (of_all all s)) (map (scaled_syst k) o1) (map (scaled_syst k) o2) ls
    /\ (a_norm a = false -> k = 1%R) /\ (a_norm a = true -> exists d, data = Some d /\ k = (sum_hist (project ns d) / sum_hist (added (map (project ns) hs)))%R).
Proof.
  intros S H. unfold make_plot in H. rewrite S in H. destruct (a_norm a) eqn:E.
  - destruct data as [d|]; cbn [option_map] in H; [|discriminate]. injection H as <-. exists (sum_hist (project ns d) / sum_hist (added (map (project ns) hs)))%R. do 6 (split; [reflexivity|]). split; [discriminate|]. intros _. exists d. auto.
  - injection H as <-. exists 1%R. do 6 (split; [reflexivity|]). split; [reflexivity|discriminate].
Qed.
(** what a plot of a channel is *)
Definition plot_at (a : args) known ch (c : chan) idxs ns p : Prop :=
  make_plot a (c_procs c) (map (fixed idxs) (templates a c)) (option_map (fixed idxs) (data_of a c)) (map (fixed_syst idxs) (downs a known c)) (map (fixed_syst idxs) (ups a known c)) ns
    (tag a c idxs) ch (chosen_procs a (c_procs c)) "" (map snd (drawn a known)) = Ok p.
Definition names_at (a : args) (c : chan) (idxs : list (string * nat)) : list (list string) :=
  filter (wanted (a_hists a)) (combinations (if a_invert a then rev (map fst (without (map fst idxs) (c_axes c))) else map fst (without (map fst idxs) (c_axes c)))).
Lemma channel_plot a known ch c ps : channel_plots a known ch c = Ok ps -> a_split a = false ->
  (forall p, In p ps -> exists idxs ns, In idxs (slices a c) /\ in_range (c_axes c) idxs = true /\ In ns (names_at a c idxs) /\ plot_at a known ch c idxs ns p) /\
  (forall idxs ns, In idxs (slices a c) -> In ns (names_at a c idxs) -> in_range (c_axes c) idxs = true /\ exists p, In p ps /\ plot_at a known ch c idxs ns p).
Proof.
  intros H S. pose proof (channel_in a known ch c ps H) as CI. split.
  - intros p I. apply CI in I. destruct I as (idxs & l & I & R & Q & J). destruct (make_plots_in _ _ _ _ _ _ _ _ _ _ _ Q S) as (h0 & hs' & E & _ & F).
    assert (A0 : x_axes h0 = without (map fst idxs) (c_axes c)). { unfold templates in E. destruct (chosen_procs a (c_procs c)); cbn in E; [discriminate|]. injection E as <- _. reflexivity. }
    rewrite A0 in F. exists idxs. destruct (Forall2_in_r F J) as (ns & K & M). exists ns. auto.
  - assert (NE : chosen_procs a (c_procs c) <> []). { intros E. unfold channel_plots in H. rewrite E in H. discriminate. }
    intros idxs ns I J. rewrite channel_eq in H by exact NE. destruct (seqr _) as [ls|e] eqn:E in H; cbn in H; [|discriminate]. injection H as <-.
    assert (K : In (if in_range (c_axes c) idxs then slice_plots a known ch c idxs else Raise IndexError) (map (fun idxs => if in_range (c_axes c) idxs then slice_plots a known ch c idxs else Raise IndexError) (slices a c))) by (apply in_map_iff; exists idxs; auto).
    destruct (in_range (c_axes c) idxs) eqn:R; [|exfalso; exact (seqr_raise _ _ K _ E)]. split; [reflexivity|].
    destruct (slice_plots a known ch c idxs) as [l|e] eqn:Q; [|exfalso; exact (seqr_raise _ _ K _ E)].
    destruct (make_plots_in _ _ _ _ _ _ _ _ _ _ _ Q S) as (h0 & hs' & E' & _ & F).
    assert (A0 : x_axes h0 = without (map fst idxs) (c_axes c)). { unfold templates in E'. destruct (chosen_procs a (c_procs c)); cbn in E'; [discriminate|]. injection E' as <- _. reflexivity. }
    rewrite A0 in F. destruct (Forall2_in_l F J) as (p & K' & M). exists p. split; [|exact M]. apply in_concat. exists l. split; [apply (seqr_in _ _ E); exact K|exact K'].
Qed.
Lemma content_ext axes names f g g' : (forall n, In n names -> g n = g' n) -> content axes names f g = content axes names f g'.
Proof.
  intros H. unfold content. f_equal. f_equal. apply filter_ext_in. intros v _. unfold agrees. induction names as [|n names IH]; cbn; [reflexivity|]. rewrite H by (left; reflexivity). rewrite IH; [reflexivity|]. intros m I. apply H. right. exact I.
Qed.
Definition on_slice (idxs : list (string * nat)) (g : asg) : Prop := forall p, In p idxs -> g (fst p) = snd p.
Lemma slice_agrees idxs g : NoDup (map fst idxs) -> on_slice idxs g -> forall n, upds idxs g n = g n.
Proof.
  intros N S n. destruct (in_dec string_dec n (map fst idxs)) as [I|I]; [|apply upds_out; exact I]. apply in_map_iff in I. destruct I as ((m & i) & <- & I).
  cbn [fst]. rewrite (upds_nodup idxs g m i N I). symmetry. exact (S _ I).
Qed.
Lemma sum_slice axes idxs f ns g : NoDup (map fst axes) -> NoDup (map fst idxs) -> NoDup ns -> in_range axes idxs = true -> local axes f -> on_slice idxs g ->
  sum_hist (project ns (fixed idxs (mkHist axes f))) = content axes (map fst idxs) f g.
Proof.
  intros A N NN R L S. assert (RO := proj1 (in_range_ok _ _) R). rewrite project_sum; [|exact NN|apply nodup_without; exact A|intros h h' E; apply (local_proper axes f L); apply upds_ext; exact E].
  unfold sum_hist. cbn [fixed x_axes x_val]. rewrite <- sum_upds; [|intros n I J; apply without_names in J; tauto|apply (local_proper axes); exact L].
  transitivity (x_val (project (map fst idxs) (mkHist axes f)) (upds idxs origin)); [reflexivity|]. rewrite project_content; [|exact N|exact A| |exact L|].
  - apply content_ext. intros n I. apply in_map_iff in I. destruct I as ((m & i) & <- & I). cbn [fst]. rewrite (upds_nodup idxs origin m i N I). symmetry. exact (S _ I).
  - intros n I. apply in_map_iff in I. destruct I as (p & <- & I). destruct (RO p I) as (a & J & E & _). rewrite <- E. apply in_map. exact J.
  - intros a I J. apply in_map_iff in J. destruct J as (p & E & J). rewrite (upds_nodup idxs origin (fst a) (snd p) N) by (rewrite <- E; destruct p; exact J).
    destruct (RO p J) as (b & K & E' & Lt). assert (a = b) as -> by (apply (size_unique axes); [exact A|exact I|exact K|congruence]). exact Lt.
Qed.
Lemma sum_added hs axes : hs <> [] -> (forall h, In h hs -> x_axes h = axes) -> sum_hist (added hs) = sumL sum_hist hs.
Proof.
  intros NE H. assert (E : x_axes (added hs) = axes). { destruct hs as [|h hs]; [contradiction|]. cbn. apply H. left. reflexivity. }
  unfold sum_hist at 1. rewrite E. cbn [added x_val]. rewrite sumL_swap. apply sumL_in. intros h I. unfold sum_hist. rewrite (H h I). reflexivity.
Qed.
Lemma sum_scaled k h : sum_hist (scaled k h) = (k * sum_hist h)%R.
Proof. unfold sum_hist. cbn. apply sumL_scal. Qed.
(** variations *)
Lemma zip_nth one view up dn ls : List.length up = List.length ls -> List.length dn = List.length ls -> forall k, k < List.length ls ->
  exists u d l, nth_error up k = Some u /\ nth_error dn k = Some d /\ nth_error ls k = Some l /\ nth_error (zip_vars one view up dn ls) k = Some (l, view u, if one then None else Some (view d)).
Proof.
  revert dn ls. induction up as [|u up IH]; intros dn ls E E' k H; destruct ls as [|l ls]; cbn in *; try lia. destruct dn as [|d dn]; cbn in *; [lia|]. destruct k as [|k].
  - exists u, d, l. auto.
  - apply (IH dn ls); lia.
Qed.
Lemma zip_len one view up dn ls : List.length up = List.length ls -> List.length dn = List.length ls -> List.length (zip_vars one view up dn ls) = List.length ls.
Proof. revert dn ls. induction up as [|u up IH]; intros dn ls E E'; destruct ls as [|l ls]; cbn in *; try lia. destruct dn as [|d dn]; cbn in *; [lia|]. rewrite IH by lia. reflexivity. Qed.
Lemma in_variations known vars labels v l : In (v, l) (variations known vars labels) <-> exists k, nth_error vars k = Some v /\ In v known /\ l = nth k labels v.
Proof.
  unfold variations. rewrite in_flat_map.
  assert (C : forall (x : nat * string), In x (combine (seq 0 (List.length vars)) vars) <-> nth_error vars (fst x) = Some (snd x)).
  { assert (G : forall s (x : nat * string), In x (combine (seq s (List.length vars)) vars) <-> s <= fst x /\ nth_error vars (fst x - s) = Some (snd x)).
    { induction vars as [|y vars IH]; intros s x; cbn.
      - split; [intros []|intros [_ H]; destruct (fst x - s); discriminate].
      - rewrite IH. split.
        + intros [<-|[L H]]; cbn; [rewrite Nat.sub_diag; auto|]. split; [lia|]. replace (fst x - s) with (S (fst x - S s)) by lia. exact H.
        + intros [L H]. destruct (fst x - s) as [|m] eqn:E; cbn in H.
          * left. injection H as ->. destruct x; cbn in *. f_equal. lia.
          * right. split; [lia|]. replace (fst x - S s) with m by lia. exact H. }
    intros x. rewrite (G 0 x). rewrite Nat.sub_0_r. intuition lia. }
  split.
  - intros ((k & w) & I & J). apply C in I. cbn [fst snd] in *. destruct (mem w known) eqn:M; [|destruct J]. destruct J as [J|[]]. injection J as <- <-. exists k. split; [exact I|]. split; [apply mem_in; exact M|reflexivity].
  - intros (k & I & M & ->). exists (k, v). split; [apply C; exact I|]. cbn [fst snd]. assert (mem v known = true) as -> by (apply mem_in; exact M). left. reflexivity.
Qed.
