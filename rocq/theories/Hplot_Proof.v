(** Proofs about the plot of histograms. *)
From Coq Require Import Reals List Arith Bool String Ascii Lia Lra.
From Verif Require Session_Proof Param_Names.
From Verif Require Import RBase PyList PyDict Writer_Model Hplot_Model Hplot_Spec.
Import ListNotations.
Local Open Scope nat_scope.
Local Open Scope string_scope.

Lemma in_bins axes v : In v (bins_of axes) <-> valid axes v.
Proof.
  unfold bins_of, valid. revert v. induction axes as [|a axes IH]; intros v; cbn.
  - split; [intros [<-|[]]; constructor|intros H; inversion H; auto].
  - rewrite in_flat_map. split.
    + intros (i & I & J). apply in_map_iff in J. destruct J as (w & <- & J). apply in_seq in I. constructor; [lia|apply IH; exact J].
    + intros H. inversion H as [|x y l l' L F]; subst. exists y. split; [apply in_seq; lia|]. apply in_map. apply IH. exact F.
Qed.
Definition unsel (sel : list string) (axes : list (string * nat)) := filter (fun a => negb (selected sel a)) axes.
Lemma weave_valid sel axes b i : valid (filter (selected sel) axes) b -> valid (unsel sel axes) i -> valid axes (weave sel axes b i).
Proof.
  unfold valid, unsel. revert b i. induction axes as [|a axes IH]; intros b i B I; cbn in *; [constructor|]. destruct (selected sel a); cbn in *.
  - inversion B; subst. constructor; auto.
  - inversion I; subst. constructor; auto.
Qed.
Lemma weave_inj sel axes b i b' i' : valid (filter (selected sel) axes) b -> valid (unsel sel axes) i -> valid (filter (selected sel) axes) b' -> valid (unsel sel axes) i' ->
  weave sel axes b i = weave sel axes b' i' -> b = b' /\ i = i'.
Proof.
  unfold valid, unsel. revert b i b' i'. induction axes as [|a axes IH]; intros b i b' i' B I B' I' E; cbn in *.
  - inversion B; inversion I; inversion B'; inversion I'; auto.
  - destruct (selected sel a); cbn in *.
    + inversion B; inversion B'; subst. injection E as -> E. edestruct IH as [Q1 Q2]; [| | | |exact E|]; eauto. subst. auto.
    + inversion I; inversion I'; subst. injection E as -> E. edestruct IH as [Q1 Q2]; [| | | |exact E|]; eauto. subst. auto.
Qed.
Lemma weave_surj sel axes v : valid axes v -> exists b i, valid (filter (selected sel) axes) b /\ valid (unsel sel axes) i /\ weave sel axes b i = v.
Proof.
  unfold valid, unsel. revert v. induction axes as [|a axes IH]; intros v V; inversion V as [|x y l l' L F]; subst; cbn.
  - exists [], []. auto.
  - destruct (IH l' F) as (b & i & B & I & W). destruct (selected sel a); cbn.
    + exists (y :: b), i. rewrite W. auto.
    + exists b, (y :: i). rewrite W. auto.
Qed.

(** sums *)
Lemma sumL_app {A} (f : A -> R) a b : sumL f (a ++ b) = (sumL f a + sumL f b)%R.
Proof. unfold sumL. induction a as [|x a IH]; cbn; [lra|rewrite IH; lra]. Qed.
Lemma sumL_ext {A} (f g : A -> R) l : (forall x, f x = g x) -> sumL f l = sumL g l.
Proof. intros H. unfold sumL. induction l as [|x l IH]; cbn; [reflexivity|rewrite H, IH; reflexivity]. Qed.
Lemma sumL_map {A B} (g : A -> B) (f : B -> R) l : sumL f (map g l) = sumL (fun x => f (g x)) l.
Proof. unfold sumL. induction l as [|x l IH]; cbn; [reflexivity|rewrite IH; reflexivity]. Qed.
Lemma sumL_flat {A B} (g : A -> list B) (f : B -> R) l : sumL f (flat_map g l) = sumL (fun x => sumL f (g x)) l.
Proof. induction l as [|x l IH]; [reflexivity|]. cbn [flat_map]. rewrite sumL_app, IH. reflexivity. Qed.
Lemma sumL_plus {A} (f g : A -> R) l : sumL (fun x => f x + g x)%R l = (sumL f l + sumL g l)%R.
Proof. unfold sumL. induction l as [|x l IH]; cbn; [lra|rewrite IH; lra]. Qed.
Lemma sumL_zero {A} (l : list A) : sumL (fun _ => 0%R) l = 0%R.
Proof. unfold sumL. induction l as [|x l IH]; cbn; [reflexivity|rewrite IH; lra]. Qed.
Lemma sumL_swap {A B} (f : A -> B -> R) a b : sumL (fun x => sumL (f x) b) a = sumL (fun y => sumL (fun x => f x y) a) b.
Proof.
  induction a as [|x a IH].
  - cbn. symmetry. apply sumL_zero.
  - change (sumL (fun x => sumL (f x) b) (x :: a)) with (sumL (f x) b + sumL (fun x => sumL (f x) b) a)%R. rewrite IH, <- sumL_plus. apply sumL_ext. intros y. reflexivity.
Qed.
Lemma bins_cons a axes : bins_of (a :: axes) = flat_map (fun i => map (cons i) (bins_of axes)) (seq 0 (snd a)).
Proof. reflexivity. Qed.
Lemma sum_cons a axes (f : list nat -> R) : sumL f (bins_of (a :: axes)) = sumL (fun x => sumL (fun v => f (x :: v)) (bins_of axes)) (seq 0 (snd a)).
Proof. rewrite bins_cons, sumL_flat. apply sumL_ext. intros x. apply sumL_map. Qed.
Lemma sum_split sel axes (f : list nat -> R) :
  sumL f (bins_of axes) = sumL (fun b => sumL (fun i => f (weave sel axes b i)) (bins_of (unsel sel axes))) (bins_of (filter (selected sel) axes)).
Proof.
  unfold unsel. revert f. induction axes as [|a axes IH]; intros f.
  - cbn. lra.
  - rewrite sum_cons. cbn [filter weave]. destruct (selected sel a) eqn:S; cbn [negb].
    + rewrite sum_cons. apply sumL_ext. intros x. exact (IH (fun v => f (x :: v))).
    + transitivity (sumL (fun x => sumL (fun b => sumL (fun i => f (x :: weave sel axes b i)) (bins_of (filter (fun a => negb (selected sel a)) axes))) (bins_of (filter (selected sel) axes))) (seq 0 (snd a))).
      { apply sumL_ext. intros x. exact (IH (fun v => f (x :: v))). }
      rewrite sumL_swap. apply sumL_ext. intros b. rewrite sum_cons. reflexivity.
Qed.
Lemma no_selected sel axes : filter (selected sel) axes = [] -> unsel sel axes = axes.
Proof.
  unfold unsel. induction axes as [|a axes IH]; cbn; [reflexivity|]. destruct (selected sel a); [discriminate|]. cbn. intros H. rewrite IH by exact H. reflexivity.
Qed.
Lemma total_plots channel sel h : total h = sumL (fun p => total (snd p)) (plots channel sel h).
Proof.
  unfold plots. destruct (filter (selected sel) (h_axes h)) as [|a l] eqn:E.
  - cbn. lra.
  - rewrite <- E. rewrite sumL_map. cbn [snd]. unfold total, pick. cbn [h_axes h_val]. apply sum_split.
Qed.

(** names *)
Lemma nodup_app {A} (a b : list A) : NoDup a -> NoDup b -> (forall x, In x a -> ~ In x b) -> NoDup (a ++ b).
Proof.
  intros A1 B D. induction A1 as [|x a N A1 IH]; cbn; [exact B|]. constructor.
  - intros I. apply in_app_or in I. destruct I as [I|I]; [contradiction|]. apply (D x); [left; reflexivity|exact I].
  - apply IH. intros y I. apply D. right. exact I.
Qed.
Lemma nodup_map_inj {A B} (f : A -> B) l : (forall x y, In x l -> In y l -> f x = f y -> x = y) -> NoDup l -> NoDup (map f l).
Proof.
  intros H N. induction N as [|x l I N IH]; cbn; [constructor|]. constructor.
  - intros J. apply in_map_iff in J. destruct J as (y & E & J). assert (y = x) by (apply H; [right; exact J|left; reflexivity|exact E]). subst. contradiction.
  - apply IH. intros a b A1 B1. apply H; right; assumption.
Qed.
Lemma nodup_product l : (forall x, In x l -> NoDup x) -> NoDup (product l).
Proof.
  induction l as [|a l IH]; intros H; cbn; [repeat constructor; auto|].
  assert (Na : NoDup a) by (apply H; left; reflexivity). assert (Nl : NoDup (product l)) by (apply IH; intros x I; apply H; right; exact I). clear IH H.
  induction Na as [|x a N Na IH]; cbn; [constructor|]. apply nodup_app; [apply nodup_map_inj; [intros ? ? _ _ E; injection E; auto|exact Nl]|exact IH|].
  intros v I J. apply in_map_iff in I. destruct I as (w & <- & _). apply in_flat_map in J. destruct J as (y & J & K). apply in_map_iff in K. destruct K as (w' & E & _). injection E as -> _. contradiction.
Qed.
Lemma nodup_bins axes : NoDup (bins_of axes).
Proof. apply nodup_product. intros x I. apply in_map_iff in I. destruct I as (a & <- & _). apply seq_NoDup. Qed.
Lemma sapp_assoc (a b c : string) : (a ++ b) ++ c = a ++ (b ++ c).
Proof. induction a as [|x a IH]; cbn; [reflexivity|rewrite IH; reflexivity]. Qed.
(** digits, then the end or an underscore *)
Lemma digits_split m n (r r' : string) :
  (r = "" \/ exists t, r = "_" ++ t) -> (r' = "" \/ exists t, r' = "_" ++ t) -> nat_str m ++ r = nat_str n ++ r' -> m = n /\ r = r'.
Proof.
  intros R R' E. assert (P := Param_Names.nat_str_digits m). assert (P' := Param_Names.nat_str_digits n).
  assert (L : forall x s, (s = "" \/ exists t, s = "_" ++ t) -> forallb Param_Names.is_digit (Param_Names.chars (nat_str x)) = true ->
     Param_Names.lead (Param_Names.chars (nat_str x ++ s)) = List.length (Param_Names.chars (nat_str x))).
  { intros x s S D. rewrite Param_Names.chars_app, Param_Names.lead_digits by exact D. destruct S as [->|(t & ->)]; [cbn; lia|]. change (Param_Names.lead (Param_Names.chars ("_" ++ t))) with 0. lia. }
  pose proof (L m r R P) as A. rewrite E, (L n r' R' P') in A.
  apply (f_equal Param_Names.chars) in E. rewrite !Param_Names.chars_app in E.
  assert (X : Param_Names.chars (nat_str m) = Param_Names.chars (nat_str n) /\ Param_Names.chars r = Param_Names.chars r').
  { revert A E. generalize (Param_Names.chars (nat_str m)) (Param_Names.chars (nat_str n)) (Param_Names.chars r) (Param_Names.chars r'). clear.
    induction l as [|x l IH]; intros [|y l'] a b A E; cbn in *; try lia; auto. injection E as -> E. destruct (IH l' a b) as [-> ->]; auto. }
  destruct X as [X1 X2]. apply Param_Names.chars_inj in X1, X2. split; [apply Session_Proof.nat_str_inj; exact X1|exact X2].
Qed.
Definition piece (p : (string * nat) * nat) : string := fst (fst p) ++ "_" ++ nat_str (snd p).
Lemma pieces_inj axes b b' : List.length b = List.length axes -> List.length b' = List.length axes ->
  String.concat "_" (map piece (combine axes b)) = String.concat "_" (map piece (combine axes b')) -> b = b'.
Proof.
  revert b b'. induction axes as [|a axes IH]; intros b b' L L'.
  - destruct b, b'; cbn in *; try discriminate; auto.
  - destruct b as [|x b], b' as [|x' b']; cbn in L, L'; try discriminate. intros E.
    destruct axes as [|a2 axes].
    + destruct b, b'; cbn in L, L'; try discriminate. cbn in E. unfold piece in E. cbn [fst snd] in E. apply Session_Proof.app_inj_l in E. apply Session_Proof.app_inj_l in E. apply Session_Proof.nat_str_inj in E. subst. reflexivity.
    + destruct b as [|y b], b' as [|y' b']; cbn in L, L'; try discriminate.
      assert (Q : forall z zs, String.concat "_" (map piece (combine (a :: a2 :: axes) (x :: z :: zs))) = fst a ++ "_" ++ (nat_str x ++ "_" ++ String.concat "_" (map piece (combine (a2 :: axes) (z :: zs))))).
      { intros z zs. change (String.concat "_" (map piece (combine (a :: a2 :: axes) (x :: z :: zs)))) with (piece (a, x) ++ "_" ++ String.concat "_" (map piece (combine (a2 :: axes) (z :: zs)))).
        unfold piece at 1. cbn [fst snd]. rewrite !sapp_assoc. reflexivity. }
      assert (Q' : forall z zs, String.concat "_" (map piece (combine (a :: a2 :: axes) (x' :: z :: zs))) = fst a ++ "_" ++ (nat_str x' ++ "_" ++ String.concat "_" (map piece (combine (a2 :: axes) (z :: zs))))).
      { intros z zs. change (String.concat "_" (map piece (combine (a :: a2 :: axes) (x' :: z :: zs)))) with (piece (a, x') ++ "_" ++ String.concat "_" (map piece (combine (a2 :: axes) (z :: zs)))).
        unfold piece at 1. cbn [fst snd]. rewrite !sapp_assoc. reflexivity. }
      rewrite Q, Q' in E. apply Session_Proof.app_inj_l in E. apply Session_Proof.app_inj_l in E. apply digits_split in E; [|right; eexists; reflexivity|right; eexists; reflexivity].
      destruct E as [-> E]. apply Session_Proof.app_inj_l in E. f_equal. apply IH; cbn; auto.
Qed.
Lemma valid_length axes v : valid axes v -> List.length v = List.length axes.
Proof. intros H. unfold valid in H. induction H; cbn; congruence. Qed.
Lemma suffix_inj channel axes b b' : valid axes b -> valid axes b' -> suffix channel axes b = suffix channel axes b' -> b = b'.
Proof.
  intros V V' E. unfold suffix in E. apply Session_Proof.app_inj_l in E. apply Session_Proof.app_inj_l in E. revert E. apply pieces_inj; apply valid_length; assumption.
Qed.
Lemma plots_nodup channel sel h : NoDup (map fst (plots channel sel h)).
Proof.
  unfold plots. destruct (filter (selected sel) (h_axes h)) as [|a l] eqn:E; [repeat constructor; auto|]. rewrite <- E. rewrite map_map. cbn [fst].
  apply nodup_map_inj; [|apply nodup_bins]. intros x y X Y. apply suffix_inj; apply in_bins; assumption.
Qed.

(** variations *)
Definition file_sources (a : vargs) : list vsource :=
  match a_names a with
  | None => []
  | Some _ =>
    let types := if Nat.eqb (List.length (a_types a)) 1 then flat_map (fun _ => a_types a) (seq 0 (a_files a)) else a_types a in
    map (fun p => VFile (fst p) (snd p)) (combine (seq 0 (a_files a)) types)
  end.
Lemma flat_const {A B} (t : B) (l : list A) : flat_map (fun _ => [t]) l = map (fun _ => t) l.
Proof. induction l; cbn; congruence. Qed.
Lemma combine_seq_nth {A} s (l : list A) d k : k < List.length l -> nth k (combine (seq s (List.length l)) l) (0, d) = (s + k, nth k l d).
Proof.
  revert s k. induction l as [|x l IH]; intros s k H; cbn in *; [lia|]. destruct k; [rewrite Nat.add_0_r; reflexivity|]. rewrite IH by lia. f_equal. lia.
Qed.
Lemma files_nth a : complete a -> List.length (file_sources a) = a_files a /\ forall k d, k < a_files a -> nth k (file_sources a) d = VFile k (fit_type a k).
Proof.
  intros (F & T & N). unfold file_sources. destruct (a_names a) as [names|]; [|split; [rewrite N; reflexivity|intros k d H; rewrite N in H by reflexivity; lia]].
  set (types := if Nat.eqb (List.length (a_types a)) 1 then flat_map (fun _ => a_types a) (seq 0 (a_files a)) else a_types a).
  assert (L : List.length types = a_files a).
  { unfold types. destruct (Nat.eqb_spec (List.length (a_types a)) 1) as [E|E].
    - destruct (a_types a) as [|t [|t2 l]]; cbn in E; try lia. rewrite flat_const, map_length, seq_length. reflexivity.
    - destruct T; congruence. }
  assert (V : forall k, k < a_files a -> nth k types "" = fit_type a k).
  { intros k K. unfold types, fit_type. destruct (Nat.eqb_spec (List.length (a_types a)) 1) as [E|E].
    - destruct (a_types a) as [|t [|t2 l]]; cbn in E; try lia. rewrite flat_const. rewrite nth_indep with (d' := t) by (rewrite map_length, seq_length; exact K).
      rewrite (map_nth (fun _ => t) (seq 0 (a_files a)) 0 k). reflexivity.
    - destruct (a_types a) as [|t [|t2 l]]; [reflexivity|cbn in E; lia|reflexivity]. }
  split; [rewrite map_length, combine_length, seq_length, L; apply Nat.min_id|].
  intros k d K. rewrite nth_indep with (d' := VFile 0 "") by (rewrite map_length, combine_length, seq_length, L, Nat.min_id; exact K).
  rewrite (map_nth (fun p => VFile (fst p) (snd p)) _ (0, "") k). rewrite <- L, combine_seq_nth by (rewrite L; exact K). cbn [fst snd]. rewrite V by exact K. reflexivity.
Qed.
Definition rest_names (a : vargs) : list string := match a_names a with None => [] | Some l => skipn (a_files a) l end.
Lemma skipn_nth {A} n (l : list A) k d : nth k (skipn n l) d = nth (n + k) l d.
Proof. revert n. induction l as [|x l IH]; intros [|n]; cbn; auto; destruct k; auto. Qed.
Lemma rest_eq a : (a_names a = None -> a_files a = 0) -> rest_names a = skipn (a_files a) (names_of a).
Proof. unfold rest_names, names_of. destruct (a_names a); [reflexivity|]. intros H. rewrite H by reflexivity. reflexivity. Qed.
Lemma variations_ok a known available : (a_names a = None -> a_files a = 0) -> usable a known available -> variations a known available = Ok (file_sources a ++ map VNominal (rest_names a) ++ map VGroup (a_groups a))%list.
Proof.
  intros N (K & G). unfold variations. fold (file_sources a). fold (rest_names a).
  assert (F : forallb known (rest_names a) = true).
  { apply forallb_forall. intros n I. rewrite (rest_eq a N) in I. apply (In_nth _ _ "") in I. destruct I as (k & L & <-). rewrite skipn_nth. rewrite skipn_length in L. apply K. lia. } rewrite F. cbn [negb].
  destruct (a_groups a) as [|g gs] eqn:E; [cbn [map]; rewrite app_nil_r; reflexivity|].
  destruct G as (av & -> & G); [discriminate|].
  assert (F2 : forallb (fun g => existsb (String.eqb g) av) (g :: gs) = true).
  { apply forallb_forall. intros x I. apply existsb_exists. exists x. split; [apply G; exact I|apply String.eqb_refl]. }
  rewrite F2. reflexivity.
Qed.
Lemma sources_nth a k d : complete a -> k < List.length (variation_names a) -> nth k (file_sources a ++ map VNominal (rest_names a) ++ map VGroup (a_groups a))%list d = meant a k.
Proof.
  intros C K. destruct (files_nth a C) as (L & V). destruct C as (F & T & N). pose proof (rest_eq a N) as RE. unfold variation_names in K. rewrite app_length in K. unfold meant.
  destruct (Nat.ltb_spec k (a_files a)) as [A|A].
  - rewrite app_nth1 by lia. apply V. exact A.
  - rewrite app_nth2 by lia. rewrite L, RE. destruct (Nat.ltb_spec k (List.length (names_of a))) as [B|B].
    + rewrite app_nth1 by (rewrite map_length, skipn_length; lia). rewrite nth_indep with (d' := VNominal "") by (rewrite map_length, skipn_length; lia).
      rewrite map_nth, skipn_nth. do 2 f_equal. lia.
    + rewrite app_nth2 by (rewrite map_length, skipn_length; lia). rewrite map_length, skipn_length.
      rewrite nth_indep with (d' := VGroup "") by (rewrite map_length; lia). rewrite map_nth. do 2 f_equal. lia.
Qed.
Lemma sources_length a : complete a -> List.length (file_sources a ++ map VNominal (rest_names a) ++ map VGroup (a_groups a))%list = List.length (variation_names a).
Proof.
  intros C. destruct (files_nth a C) as (L & _). destruct C as (F & T & N). rewrite !app_length, !map_length, L, (rest_eq a N), skipn_length. unfold variation_names. rewrite app_length. lia.
Qed.
