(** Composite parameter models. *)
From Coq Require Import Reals List Arith ZArith Bool String Lia Lra.
From Verif Require Import RBase PyList PyDict ListUtil Yields_Model Param_Model Param_Spec.
Import ListNotations.
Open Scope R_scope.

(** *** blocks *)
Section Blocks.
  Context {A B : Type} (k : A -> nat).
  Definition blocks (f : A -> list B) (l : list A) : list B :=
    flat_map (fun a => firstn (k a) (f a)) l ++ flat_map (fun a => skipn (k a) (f a)) l.
End Blocks.
Lemma permuted_blocks {A} (f : model -> list A) ms : permuted f ms = blocks m_npoi f ms.
Proof. reflexivity. Qed.
Lemma combine_app {A B} (l1 l2 : list A) (m1 m2 : list B) : List.length l1 = List.length m1 ->
  combine (l1 ++ l2) (m1 ++ m2) = combine l1 m1 ++ combine l2 m2.
Proof. revert m1. induction l1; intros [|b m1] H; simpl in *; try lia; auto. f_equal. apply IHl1. lia. Qed.
Lemma combine_firstn {A B} n (l : list A) (m : list B) : firstn n (combine l m) = combine (firstn n l) (firstn n m).
Proof. revert l m. induction n; intros [|a l] [|b m]; simpl; auto. f_equal; auto. Qed.
Lemma combine_skipn {A B} n (l : list A) (m : list B) : List.length l = List.length m -> skipn n (combine l m) = combine (skipn n l) (skipn n m).
Proof. revert l m. induction n; intros [|a l] [|b m] H; simpl in *; auto; try lia. Qed.
Lemma combine_flat {A B C} (f : A -> list B) (g : A -> list C) l : (forall a, In a l -> List.length (f a) = List.length (g a)) ->
  combine (flat_map f l) (flat_map g l) = flat_map (fun a => combine (f a) (g a)) l.
Proof.
  induction l; intros H; auto. cbn [flat_map]. rewrite combine_app by (apply H; simpl; auto). rewrite IHl; auto. intros; apply H; simpl; auto.
Qed.
Lemma flat_len_eq {A B C} (f : A -> list B) (g : A -> list C) l : (forall a, In a l -> List.length (f a) = List.length (g a)) ->
  List.length (flat_map f l) = List.length (flat_map g l).
Proof. induction l; intros H; auto. cbn [flat_map]. rewrite !app_length, IHl, H; simpl; auto. intros; apply H; simpl; auto. Qed.
Lemma flat_map_ext_in {A B} (f g : A -> list B) l : (forall a, In a l -> f a = g a) -> flat_map f l = flat_map g l.
Proof. induction l; intros H; auto. cbn [flat_map]. rewrite H, IHl; simpl; auto. intros; apply H; simpl; auto. Qed.
Lemma combine_blocks {A B C} k (f : A -> list B) (g : A -> list C) l : (forall a, In a l -> List.length (f a) = List.length (g a)) ->
  combine (blocks k f l) (blocks k g l) = blocks k (fun a => combine (f a) (g a)) l.
Proof.
  intros H. unfold blocks. rewrite combine_app.
  - rewrite !combine_flat.
    + f_equal; apply flat_map_ext_in; intros a Ha; [rewrite combine_firstn|rewrite combine_skipn by auto]; auto.
    + intros. rewrite !skipn_length, H; auto.
    + intros. rewrite !firstn_length, H; auto.
  - apply flat_len_eq. intros. rewrite !firstn_length, H; auto.
Qed.
Lemma map_blocks {A B C} k (h : B -> C) (f : A -> list B) l : map h (blocks k f l) = blocks k (fun a => map h (f a)) l.
Proof.
  assert (M : forall (g : A -> list B) l, map h (flat_map g l) = flat_map (fun a => map h (g a)) l).
  { intros g l'. induction l'; auto. cbn [flat_map]. rewrite map_app, IHl'; auto. }
  unfold blocks. rewrite map_app, !M. f_equal; apply flat_map_ext_in; intros; [rewrite firstn_map|rewrite skipn_map]; auto.
Qed.
Lemma blocks_ext {A B} k (f g : A -> list B) l : (forall a, In a l -> f a = g a) -> blocks k f l = blocks k g l.
Proof. intros H. unfold blocks. f_equal; apply flat_map_ext_in; intros; rewrite H; auto. Qed.
Lemma sumn_cons a l : sumn (a :: l) = (a + sumn l)%nat.
Proof. reflexivity. Qed.
Lemma flat_len_sum {A B} (f : A -> list B) l : List.length (flat_map f l) = sumn (map (fun a => List.length (f a)) l).
Proof. induction l; auto. cbn [flat_map map]. rewrite app_length, IHl, sumn_cons. auto. Qed.
Lemma poi_len (ms : list model) {A} (f : model -> list A) : (forall m, In m ms -> List.length (f m) = nparams m) ->
  List.length (flat_map (fun m => firstn (m_npoi m) (f m)) ms) = sumn (map m_npoi ms).
Proof.
  intros H. rewrite flat_len_sum. f_equal. apply map_ext_in. intros m I. rewrite firstn_length, H by auto. unfold nparams. lia.
Qed.
Lemma pou_len (ms : list model) {A} (f : model -> list A) : (forall m, In m ms -> List.length (f m) = nparams m) ->
  List.length (flat_map (fun m => skipn (m_npoi m) (f m)) ms) = sumn (map m_npou ms).
Proof.
  intros H. rewrite flat_len_sum. f_equal. apply map_ext_in. intros m I. rewrite skipn_length, H by auto. unfold nparams. lia.
Qed.
Lemma blocks_len (ms : list model) {A} (f : model -> list A) : (forall m, In m ms -> List.length (f m) = nparams m) ->
  List.length (permuted f ms) = (sumn (map m_npoi ms) + sumn (map m_npou ms))%nat.
Proof. intros H. rewrite permuted_blocks. unfold blocks. rewrite app_length, poi_len, pou_len; auto. Qed.

(** *** splitting a parameter vector *)
Lemma split_fst ms : forall a b x, map fst (split_params ms a b x) = ms.
Proof. induction ms; intros; cbn [split_params map fst]; auto. f_equal. auto. Qed.
Lemma pyslice_len {A} a b (x : list A) : (b <= List.length x)%nat -> (a <= b)%nat -> List.length (pyslice a b x) = (b - a)%nat.
Proof. intros. unfold pyslice. rewrite firstn_length, skipn_length. lia. Qed.
Lemma split_len ms : forall a b x, (a + sumn (map m_npoi ms) <= List.length x)%nat -> (b + sumn (map m_npou ms) <= List.length x)%nat ->
  Forall (fun p => List.length (snd p) = nparams (fst p)) (split_params ms a b x).
Proof.
  induction ms as [|m ms IH]; intros a b x H H'; cbn [split_params]; constructor; cbn [map] in *; rewrite sumn_cons in *.
  - cbn [fst snd]. rewrite app_length, !pyslice_len by lia. unfold nparams. lia.
  - apply IH; lia.
Qed.
Lemma skipn_skipn' {A} n m (l : list A) : skipn n (skipn m l) = skipn (m + n) l.
Proof. revert l. induction m; intros [|a l]; simpl; auto. apply skipn_nil. Qed.
Lemma pyslice_cat {A} a b c (x : list A) : (a <= b)%nat -> (b <= c)%nat -> pyslice a b x ++ pyslice b c x = pyslice a c x.
Proof.
  intros. unfold pyslice. rewrite <- (firstn_skipn (b - a) (firstn (c - a) (skipn a x))). f_equal.
  - rewrite firstn_firstn. f_equal. lia.
  - rewrite skipn_firstn_comm, skipn_skipn'. f_equal; [lia|]. f_equal. lia.
Qed.
Lemma firstn_app_len {A} (l1 l2 : list A) n : List.length l1 = n -> firstn n (l1 ++ l2) = l1.
Proof. intros <-. rewrite firstn_app, Nat.sub_diag, firstn_all. simpl. apply app_nil_r. Qed.
Lemma skipn_app_len {A} (l1 l2 : list A) n : List.length l1 = n -> skipn n (l1 ++ l2) = l2.
Proof. intros <-. rewrite skipn_app, Nat.sub_diag, skipn_all. reflexivity. Qed.
Lemma split_parts ms : forall a b x, (a + sumn (map m_npoi ms) <= List.length x)%nat -> (b + sumn (map m_npou ms) <= List.length x)%nat ->
  flat_map (fun p => firstn (m_npoi (fst p)) (snd p)) (split_params ms a b x) = pyslice a (a + sumn (map m_npoi ms)) x /\
  flat_map (fun p => skipn (m_npoi (fst p)) (snd p)) (split_params ms a b x) = pyslice b (b + sumn (map m_npou ms)) x.
Proof.
  induction ms as [|m ms IH]; intros a b x H H'; cbn [split_params map flat_map fst snd].
  - unfold pyslice. cbn [sumn fold_right]. rewrite !Nat.add_0_r, !Nat.sub_diag. auto.
  - cbn [map] in H, H'. rewrite sumn_cons in *. rewrite sumn_cons. destruct (IH (a + m_npoi m)%nat (b + m_npou m)%nat x) as (E1 & E2); try lia.
    rewrite E1, E2. rewrite firstn_app_len, skipn_app_len by (rewrite pyslice_len; lia).
    rewrite !pyslice_cat by lia. split; f_equal; lia.
Qed.
Lemma pyslice_all {A} (x : list A) n m : List.length x = (n + m)%nat -> pyslice 0 n x ++ pyslice n (n + m) x = x.
Proof. intros H. rewrite pyslice_cat by lia. unfold pyslice. cbn [skipn]. rewrite <- H, Nat.sub_0_r. apply firstn_all. Qed.
Lemma split_blocks ms x : List.length x = (sumn (map m_npoi ms) + sumn (map m_npou ms))%nat ->
  blocks (fun p => m_npoi (fst p)) snd (split_params ms 0 (sumn (map m_npoi ms)) x) = x.
Proof. intros H. unfold blocks. destruct (split_parts ms 0 (sumn (map m_npoi ms)) x) as (-> & ->); try lia. apply pyslice_all. auto. Qed.
(** the blocks of the names are the names of the parts *)
Lemma pyslice_mid {A} (l1 l2 l3 : list A) a : a = List.length l1 -> pyslice a (a + List.length l2) (l1 ++ l2 ++ l3) = l2.
Proof. intros ->. unfold pyslice. rewrite skipn_app_len by auto. replace (_ + _ - _)%nat with (List.length l2) by lia. apply firstn_app_len. auto. Qed.
Lemma split_permuted {f : model -> list R} ms : (forall m, In m ms -> List.length (f m) = nparams m) ->
  split_params ms 0 (sumn (map m_npoi ms)) (permuted f ms) = map (fun m => (m, f m)) ms.
Proof.
  intros H. rewrite permuted_blocks. unfold blocks.
  assert (G : forall ms2 p1 q1 a b, (forall m, In m ms2 -> List.length (f m) = nparams m) -> a = List.length p1 ->
    b = (List.length p1 + List.length (flat_map (fun m => firstn (m_npoi m) (f m)) ms2) + List.length q1)%nat ->
    split_params ms2 a b ((p1 ++ flat_map (fun m => firstn (m_npoi m) (f m)) ms2) ++ q1 ++ flat_map (fun m => skipn (m_npoi m) (f m)) ms2) = map (fun m => (m, f m)) ms2).
  { induction ms2 as [|m ms2 IH]; intros p1 q1 a b L Ea Eb; auto. cbn [split_params map flat_map].
    assert (Lm : List.length (f m) = nparams m) by (apply L; simpl; auto). unfold nparams in Lm.
    assert (L1 : List.length (firstn (m_npoi m) (f m)) = m_npoi m) by (rewrite firstn_length; lia).
    assert (L2 : List.length (skipn (m_npoi m) (f m)) = m_npou m) by (rewrite skipn_length; lia).
    cbn [flat_map] in Eb. rewrite app_length in Eb. f_equal.
    - f_equal. rewrite <- (firstn_skipn (m_npoi m) (f m)) at 5. f_equal.
      + rewrite <- L1 at 1. rewrite <- !app_assoc. apply pyslice_mid. auto.
      + rewrite <- L2 at 1. rewrite (app_assoc _ q1). apply pyslice_mid. rewrite !app_length. lia.
    - rewrite <- (IH (p1 ++ firstn (m_npoi m) (f m)) (q1 ++ skipn (m_npoi m) (f m)) (a + m_npoi m)%nat (b + m_npou m)%nat).
      + f_equal. rewrite <- !app_assoc. reflexivity.
      + intros; apply L; simpl; auto.
      + rewrite app_length. lia.
      + rewrite !app_length. lia. }
  apply (G ms [] []); auto. cbn [List.length app]. rewrite poi_len by auto. lia.
Qed.

(** *** the result of a composition *)
Lemma composite_ok ms an c : composite ms an = Ok c ->
  ms <> [] /\ m_npoi c = sumn (map m_npoi ms) /\ m_npou c = sumn (map m_npou ms) /\
  m_params c = permuted m_params ms /\ m_default c = permuted m_default ms /\
  (forall m, In m ms -> (0 < m_npoi m)%nat -> m_allowneg m = m_allowneg c) /\
  (m_sigmas c = None /\ m_means c = None /\ (forall m, In m ms -> m_sigmas m = None) \/
   m_sigmas c = Some (permuted sigmas_of ms) /\ m_means c = Some (permuted means_of ms)) /\
  m_groups c = merge_groups ms /\ m_compute c = composite_compute ms (sumn (map m_npoi ms)) /\
  m_linear c = Nat.eqb (m_npoi c + m_npou c) 0 ||
    (m_allowneg c && Nat.leb (List.length (filter (fun m => Nat.ltb 0 (nparams m)) ms)) 1 && forallb m_linear (filter (fun m => Nat.ltb 0 (nparams m)) ms)).
Proof.
  unfold composite. intros H.
  destruct (Nat.eqb_spec (List.length ms) 0) as [|NE]; [discriminate|].
  destruct (existsb (fun b => b) (map m_allowneg (filter (fun m => Nat.ltb 0 (m_npoi m)) ms)) && existsb negb (map m_allowneg (filter (fun m => Nat.ltb 0 (m_npoi m)) ms))) eqn:F; [discriminate|].
  set (fl := map m_allowneg (filter (fun m => Nat.ltb 0 (m_npoi m)) ms)) in *.
  destruct (match an with None => Ok (match (match fl with [] => None | b :: _ => Some b end) with Some b => b | None => false end)
    | Some a => match (match fl with [] => None | b :: _ => Some b end) with Some b => if Bool.eqb a b then Ok a else Raise ValueError | None => Ok a end end) as [v|] eqn:AN;
    cbn [rbind] in H; [|discriminate].
  assert (FL : forall b, In b fl -> b = v).
  { intros b I. destruct fl as [|b0 r] eqn:E; [destruct I|].
    assert (b0 = v). { destruct an as [a|]; [destruct (Bool.eqb_spec a b0); congruence|congruence]. } subst b0.
    destruct I as [->|I]; auto. destruct (Bool.bool_dec b v); auto. exfalso. apply andb_false_iff in F as [F|F].
    - destruct v; [simpl in F; discriminate|]. destruct b; [|congruence]. simpl in F. assert (existsb (fun b => b) r = true) by (apply existsb_exists; eauto). congruence.
    - destruct v; [|simpl in F; discriminate]. destruct b; [congruence|]. simpl in F. assert (existsb negb r = true) by (apply existsb_exists; eexists; split; eauto). congruence. }
  injection H as <-. cbn. repeat match goal with |- _ /\ _ => split end; auto.
  - intros ->. apply NE. reflexivity.
  - intros m I P. apply FL. apply in_map. apply filter_In. split; auto. apply Nat.ltb_lt. auto.
  - destruct (existsb (fun m => match m_sigmas m with Some _ => true | None => false end) ms) eqn:E; auto. left. split; [|split]; auto.
    intros m I. destruct (m_sigmas m) eqn:D; auto. exfalso. rewrite <- not_true_iff_false in E. apply E. apply existsb_exists. exists m. rewrite D. auto.
Qed.
Lemma sigmas_len m : sized_model m -> List.length (sigmas_of m) = nparams m.
Proof. intros (_ & _ & S & _). unfold sigmas_of. destruct (m_sigmas m); [apply S; auto|apply repeat_length]. Qed.
Lemma means_len m : sized_model m -> List.length (means_of m) = nparams m.
Proof. intros (_ & D & _ & S). unfold means_of. destruct (m_means m); [apply S; auto|auto]. Qed.
Lemma composite_sized ms an c : Forall sized_model ms -> composite ms an = Ok c -> sized_model c.
Proof.
  intros W H. rewrite Forall_forall in W. apply composite_ok in H as (_ & P & Q & Np & Nd & _ & Sg & _).
  unfold sized_model. rewrite Np, Nd. unfold nparams at 1 2 3 4. rewrite P, Q. repeat split.
  - apply blocks_len. intros m I. destruct (W m I) as (A & _); auto.
  - apply blocks_len. intros m I. destruct (W m I) as (_ & A & _); auto.
  - intros s E. destruct Sg as [(N & _)|(N & _)]; rewrite N in E; [discriminate|]. injection E as <-. apply blocks_len. intros. apply sigmas_len. auto.
  - intros s E. destruct Sg as [(_ & N & _)|(_ & N)]; rewrite N in E; [discriminate|]. injection E as <-. apply blocks_len. intros. apply means_len. auto.
Qed.
Lemma seq_split n m : seq 0 (n + m) = seq 0 n ++ seq n m.
Proof. rewrite seq_app. reflexivity. Qed.
Lemma map_const {A B} (f : A -> B) v l : (forall a, In a l -> f a = v) -> map f l = repeat v (List.length l).
Proof. induction l; intros H; auto. simpl. rewrite H, IHl; simpl; auto. intros; apply H; simpl; auto. Qed.
Lemma is_poi_rep m : is_poi m = repeat true (m_npoi m) ++ repeat false (m_npou m).
Proof.
  unfold is_poi, nparams. rewrite seq_split, map_app. f_equal.
  - rewrite (map_const _ true), seq_length; auto. intros a I. apply in_seq in I. apply Nat.ltb_lt. lia.
  - rewrite (map_const _ false), seq_length; auto. intros a I. apply in_seq in I. apply Nat.ltb_ge. lia.
Qed.
Lemma is_poi_len m : List.length (is_poi m) = nparams m.
Proof. unfold is_poi. rewrite map_length, seq_length. auto. Qed.
Lemma flat_repeat {A B} (v : B) (f : A -> nat) l : flat_map (fun a => repeat v (f a)) l = repeat v (sumn (map f l)).
Proof. induction l; auto. cbn [flat_map map]. rewrite IHl, sumn_cons, repeat_app. auto. Qed.
Lemma is_poi_blocks c ms : m_npoi c = sumn (map m_npoi ms) -> m_npou c = sumn (map m_npou ms) -> is_poi c = blocks m_npoi is_poi ms.
Proof.
  intros P Q. unfold blocks. rewrite is_poi_rep, P, Q. f_equal.
  - rewrite <- flat_repeat. apply flat_map_ext_in. intros m _. rewrite is_poi_rep, firstn_app_len; auto. apply repeat_length.
  - rewrite <- flat_repeat. apply flat_map_ext_in. intros m _. rewrite is_poi_rep, skipn_app_len; auto. apply repeat_length.
Qed.
Definition prior_of (p : option R * R) : option (R * R) := match fst p with None => None | Some v => Some (v, snd p) end.
Lemma prior_col_eq m : sized_model m -> prior_col m = map prior_of (combine (sigmas_of m) (means_of m)).
Proof.
  intros W. pose proof (means_len m W) as ML. destruct W as (Lp & Ld & Ls & Lm). unfold prior_col, sigmas_of. destruct (m_sigmas m) as [s|] eqn:E.
  - unfold means_of. destruct (m_means m); auto.
  - rewrite (map_const _ None) by auto. rewrite Lp. rewrite <- ML. clear. induction (means_of m); auto. simpl. rewrite IHl. auto.
Qed.
Lemma prior_col_len m : sized_model m -> List.length (prior_col m) = nparams m.
Proof. intros W. rewrite prior_col_eq by auto. rewrite map_length, combine_length, sigmas_len, means_len by auto. lia. Qed.
Lemma prior_blocks ms an c : Forall sized_model ms -> composite ms an = Ok c -> prior_col c = blocks m_npoi prior_col ms.
Proof.
  intros W H. pose proof (composite_sized _ _ _ W H) as Wc. rewrite Forall_forall in W.
  rewrite (blocks_ext _ prior_col (fun m => map prior_of (combine (sigmas_of m) (means_of m)))) by (intros; apply prior_col_eq; auto).
  apply composite_ok in H as (_ & P & Q & Np & _ & _ & [(S & M & N)|(S & M)] & _).
  - rewrite <- map_blocks. rewrite <- combine_blocks by (intros; rewrite sigmas_len, means_len; auto).
    unfold prior_col. rewrite S. rewrite (map_const _ None) by auto. destruct Wc as (Lp & _). rewrite Lp.
    rewrite (blocks_ext _ sigmas_of (fun m => repeat None (nparams m))) by (intros m I; unfold sigmas_of; rewrite (N m I); auto).
    assert (E : blocks m_npoi (fun m => repeat (@None R) (nparams m)) ms = repeat None (nparams c)).
    { unfold blocks, nparams. rewrite P, Q, repeat_app. f_equal.
      - rewrite <- flat_repeat. apply flat_map_ext_in. intros. rewrite repeat_app, firstn_app_len; auto. apply repeat_length.
      - rewrite <- flat_repeat. apply flat_map_ext_in. intros. rewrite repeat_app, skipn_app_len; auto. apply repeat_length. }
    rewrite E. assert (L : List.length (blocks m_npoi means_of ms) = nparams c).
    { rewrite <- permuted_blocks, blocks_len by (intros; apply means_len; auto). unfold nparams. lia. }
    revert L. generalize (blocks m_npoi means_of ms), (nparams c). clear. intros l n <-. induction l; auto. simpl. f_equal. auto.
  - rewrite prior_col_eq by auto. unfold sigmas_of at 1, means_of at 1. rewrite S, M, !permuted_blocks.
    rewrite combine_blocks by (intros; rewrite sigmas_len, means_len; auto). apply map_blocks.
Qed.
Lemma table_len m : sized_model m -> List.length (table m) = nparams m.
Proof.
  intros W. pose proof (prior_col_len m W). destruct W as (Lp & Ld & _). unfold table, row. rewrite !combine_length, is_poi_len. lia.
Qed.
Lemma table_blocks ms an c : Forall sized_model ms -> composite ms an = Ok c -> table c = blocks m_npoi table ms.
Proof.
  intros W H. unfold table at 1. rewrite (prior_blocks _ _ _ W H). apply composite_ok in H as (_ & P & Q & Np & Nd & _).
  rewrite (is_poi_blocks c ms P Q), Np, Nd, !permuted_blocks. rewrite Forall_forall in W.
  assert (L : forall m, In m ms -> List.length (m_params m) = nparams m /\ List.length (m_default m) = nparams m /\ List.length (prior_col m) = nparams m).
  { intros m I. pose proof (W m I) as X. pose proof (prior_col_len m X). destruct X as (A & B & _). auto. }
  rewrite (combine_blocks m_npoi m_default prior_col) by (intros m I; destruct (L m I) as (A & B & C); lia).
  rewrite (combine_blocks m_npoi m_params) by (intros m I; destruct (L m I) as (A & B & C); rewrite combine_length; lia).
  rewrite (combine_blocks m_npoi is_poi) by (intros m I; destruct (L m I) as (A & B & C); rewrite is_poi_len, !combine_length; lia).
  reflexivity.
Qed.
(** filtering by the first column is cutting at the number of POIs *)
Lemma filter_true {A} (f : A -> bool) l : (forall a, In a l -> f a = true) -> filter f l = l.
Proof. induction l; intros H; auto. simpl. rewrite H by (simpl; auto). f_equal. apply IHl. intros; apply H; simpl; auto. Qed.
Lemma filter_false {A} (f : A -> bool) l : (forall a, In a l -> f a = false) -> filter f l = [].
Proof. induction l; intros H; auto. simpl. rewrite H by (simpl; auto). apply IHl. intros; apply H; simpl; auto. Qed.
Lemma flagged_split {A} (g : A -> bool) (l : list A) n k : map g l = repeat true n ++ repeat false k ->
  filter g l = firstn n l /\ filter (fun a => negb (g a)) l = skipn n l.
Proof.
  revert n k. induction l as [|a l IH]; intros n k H.
  - destruct n; auto.
  - destruct n as [|n]; simpl in H.
    + destruct k as [|k]; [discriminate|]. simpl in H. injection H as E H. cbn [filter]. rewrite E. cbn [negb firstn skipn].
      destruct (IH 0%nat k) as (F & F'); [rewrite H; auto|]. rewrite F, F'. auto.
    + injection H as E H. cbn [filter]. rewrite E. cbn [negb firstn skipn]. destruct (IH n k H) as (F & F'). rewrite F, F'. auto.
Qed.
Lemma map_fst_combine {A B} (l : list A) (m : list B) : List.length l = List.length m -> map fst (combine l m) = l.
Proof. revert m. induction l; intros [|b m] H; simpl in *; try lia; auto. f_equal. auto. Qed.
Lemma table_flags m : sized_model m -> map flag (table m) = repeat true (m_npoi m) ++ repeat false (m_npou m).
Proof.
  intros W. change (map fst (table m) = repeat true (m_npoi m) ++ repeat false (m_npou m)). unfold table, row. rewrite map_fst_combine; [apply is_poi_rep|]. pose proof (prior_col_len m W). destruct W as (Lp & Ld & _).
  rewrite is_poi_len, !combine_length. lia.
Qed.
Lemma vtable_flags m x : sized_model m -> List.length x = nparams m ->
  map vflag (combine (table m) x) = repeat true (m_npoi m) ++ repeat false (m_npou m).
Proof.
  intros W L. unfold vflag. rewrite <- (map_map (fun r : row * R => fst r) flag). change (map flag (map fst (combine (table m) x)) = repeat true (m_npoi m) ++ repeat false (m_npou m)). rewrite map_fst_combine by (rewrite table_len; auto). apply table_flags. auto.
Qed.
Lemma joined_rows_blocks ms : Forall sized_model ms -> joined_rows (map table ms) = blocks m_npoi table ms.
Proof.
  intros W. unfold joined_rows, blocks. induction W as [|m ms Wm W IH]; auto. cbn [map flat_map].
  destruct (flagged_split flag (table m) _ _ (table_flags m Wm)) as (F & F'). rewrite F, F'.
  assert (E1 : flat_map (filter flag) (map table ms) = flat_map (fun a => firstn (m_npoi a) (table a)) ms).
  { clear -W. induction W; auto. cbn [map flat_map]. rewrite IHW. f_equal. eapply flagged_split. apply table_flags. auto. }
  assert (E2 : flat_map (filter (fun r => negb (flag r))) (map table ms) = flat_map (fun a => skipn (m_npoi a) (table a)) ms).
  { clear -W. induction W; auto. cbn [map flat_map]. rewrite IHW. f_equal. eapply flagged_split. apply table_flags. auto. }
  rewrite E1, E2. reflexivity.
Qed.

(** *** products *)
Lemma rn_mul_ok n a b : rn_fits a n = true -> rn_fits b n = true -> exists r, rn_mul a b = Ok r /\ rn_fits r n = true /\
  forall i p, (i < n)%nat -> rn_bcast r i p = rn_bcast a i p * rn_bcast b i p.
Proof.
  destruct a as [f|na f], b as [g|nb g]; cbn [rn_mul rn_fits]; intros A B.
  - eexists. split; [reflexivity|]. auto.
  - eexists. split; [reflexivity|]. split; [cbn [rn_fits]; auto|]. intros i p I. cbn [rn_bcast]. destruct (Nat.eqb nb 1); auto.
  - eexists. split; [reflexivity|]. split; [cbn [rn_fits]; auto|]. intros i p I. cbn [rn_bcast]. destruct (Nat.eqb na 1); auto.
  - destruct (Nat.eqb_spec na nb) as [<-|N].
    + eexists. split; [reflexivity|]. split; [cbn [rn_fits]; auto|]. intros i p I. cbn [rn_bcast]. destruct (Nat.eqb na 1); auto.
    + destruct (Nat.eqb_spec na 1) as [->|N1].
      * eexists. split; [reflexivity|]. split; [cbn [rn_fits]; auto|]. intros i p I. cbn [rn_bcast Nat.eqb]. destruct (Nat.eqb_spec nb 1); [congruence|]. auto.
      * destruct (Nat.eqb_spec nb 1) as [->|N2].
        -- eexists. split; [reflexivity|]. split; [cbn [rn_fits]; rewrite orb_false_r in A; rewrite A; auto|]. intros i p I. cbn [rn_bcast Nat.eqb]. destruct (Nat.eqb_spec na 1); [congruence|]. auto.
        -- rewrite orb_false_r in A, B. apply Nat.eqb_eq in A, B. congruence.
Qed.
Lemma rn_reduce_ok n rs : Forall (fun r => rn_fits r n = true) rs -> forall a, rn_fits a n = true ->
  exists r, rn_reduce a rs = Ok r /\ product_of n (a :: rs) r.
Proof.
  intros H. induction H as [|q rs Q H IH]; intros a A; cbn [rn_reduce].
  - exists a. split; auto. split; auto. intros b p I. cbn [map prodR fold_right]. ring.
  - destruct (rn_mul_ok n a q A Q) as (r & -> & F & E). cbn [rbind]. destruct (IH r F) as (r' & -> & F' & E'). exists r'. split; auto. split; auto.
    intros b p I. rewrite E' by auto. cbn [map prodR fold_right]. rewrite E by auto. ring.
Qed.
Lemma rmap_ok {A B} (f : A -> result B) l rs : rmap f l = Ok rs <-> Forall2 (fun a b => f a = Ok b) l rs.
Proof.
  revert rs. induction l as [|a l IH]; intros rs; cbn [rmap].
  - split; [intros E; injection E as <-; constructor|intros H; inversion H; auto].
  - destruct (f a) as [b|] eqn:E; cbn [rbind].
    + destruct (rmap f l) as [bs|] eqn:M; cbn [rbind].
      * split; [intros X; injection X as <-; constructor; auto; apply IH; auto|].
        intros H. inversion H; subst. rewrite E in H2. injection H2 as <-. apply IH in H4. injection H4 as <-. auto.
      * split; [discriminate|]. intros H. inversion H; subst. apply IH in H4. discriminate.
    + split; [discriminate|]. intros H. inversion H; subst. congruence.
Qed.
Lemma composite_compute_ok ms npoi x full r : composite_compute ms npoi x full = Ok r ->
  exists rs, Forall2 (fun mp r => m_compute (fst mp) (snd mp) full = Ok r) (split_params ms 0 npoi x) rs.
Proof.
  unfold composite_compute. destruct (rmap (fun mp => m_compute (fst mp) (snd mp) full) (split_params ms 0 npoi x)) as [rs|] eqn:E; [|discriminate]. intros _. exists rs.
  apply rmap_ok in E. auto.
Qed.
Lemma composite_compute_product ms npoi x full n rs : ms <> [] ->
  Forall2 (fun mp r => m_compute (fst mp) (snd mp) full = Ok r) (split_params ms 0 npoi x) rs -> Forall (fun r => rn_fits r n = true) rs ->
  exists r, composite_compute ms npoi x full = Ok r /\ product_of n rs r.
Proof.
  intros NE H F. unfold composite_compute. apply rmap_ok in H as M. rewrite M. cbn [rbind].
  destruct rs as [|r0 rs]; [inversion H; destruct ms; [congruence|discriminate]|]. inversion F; subst. apply rn_reduce_ok; auto.
Qed.

(** *** any nesting *)
Scheme built_mut := Induction for built Sort Prop with builts_mut := Induction for builts Sort Prop.
Combined Scheme built_builts_ind from built_mut, builts_mut.
Lemma prodR_app a b : prodR (a ++ b) = prodR a * prodR b.
Proof. induction a; simpl; [ring|]. unfold prodR in *. rewrite IHa. ring. Qed.
Lemma product_concat n rss rs : Forall2 (product_of n) rss rs -> forall b p, (b < n)%nat ->
  prodR (map (fun q => rn_bcast q b p) rs) = prodR (map (fun q => rn_bcast q b p) (List.concat rss)).
Proof.
  intros H b p I. induction H as [|l r rss rs (F & E) H IH]; auto. cbn [map List.concat]. rewrite map_app, prodR_app, <- IH. cbn [prodR fold_right]. rewrite E by auto. reflexivity.
Qed.
(** the vectors [xs] of the parts of [c] at [x] *)
Definition parts (c : model) (ls : list model) (x : list R) (xs : list (list R)) : Prop :=
  Forall2 (fun m v => List.length v = nparams m) ls xs /\
  combine (table c) x = joined (map (fun p => combine (table (fst p)) (snd p)) (combine ls xs)).
Definition computes (c : model) (x : list R) (ls : list model) (xs : list (list R)) : Prop :=
  forall full,
    (forall r, m_compute c x full = Ok r -> exists rs, Forall2 (fun mv r => m_compute (fst mv) (snd mv) full = Ok r) (combine ls xs) rs) /\
    (forall n rs, Forall2 (fun mv r => m_compute (fst mv) (snd mv) full = Ok r) (combine ls xs) rs -> Forall (fun r => rn_fits r n = true) rs ->
       exists r, m_compute c x full = Ok r /\ product_of n rs r).
Definition ok_all (full : bool) : list (model * list R) -> list rnorm -> Prop := Forall2 (fun mv r => m_compute (fst mv) (snd mv) full = Ok r).
Definition computesL (ms : list model) (vs : list (list R)) (ls : list model) (xs : list (list R)) : Prop :=
  forall full,
    (forall rs, ok_all full (combine ms vs) rs -> exists rs', ok_all full (combine ls xs) rs') /\
    (forall n rs', ok_all full (combine ls xs) rs' -> Forall (fun r => rn_fits r n = true) rs' ->
       exists rs, ok_all full (combine ms vs) rs /\ Forall (fun r => rn_fits r n = true) rs /\
         forall b p, (b < n)%nat -> prodR (map (fun q => rn_bcast q b p) rs) = prodR (map (fun q => rn_bcast q b p) rs')).
Lemma computes_comp ms an c x vs ls xs : composite ms an = Ok c -> split_params ms 0 (sumn (map m_npoi ms)) x = combine ms vs ->
  computesL ms vs ls xs -> computes c x ls xs.
Proof.
  intros H S L full. apply composite_ok in H as (NE & _ & _ & _ & _ & _ & _ & _ & C & _). rewrite C. destruct (L full) as (L1 & L2). split.
  - intros r E. apply composite_compute_ok in E as (rs & E). rewrite S in E. apply (L1 rs). auto.
  - intros n rs' A F. destruct (L2 n rs' A F) as (rs & B & F' & E).
    destruct (composite_compute_product ms (sumn (map m_npoi ms)) x full n rs) as (r & Er & (Fr & Pr)); auto; [rewrite S; auto|].
    exists r. split; auto. split; auto. intros b p I. rewrite Pr, E; auto.
Qed.
Lemma computesL_nil : computesL [] [] [] [].
Proof.
  intros full. split.
  - intros rs H. exists []. constructor.
  - intros n rs' H _. inversion H; subst. exists []. split; [constructor|]. split; [constructor|]. auto.
Qed.
Lemma combine_app_len {A B} (l1 l2 : list A) (m1 m2 : list B) : Forall2 (fun _ _ => True) l1 m1 ->
  combine (l1 ++ l2) (m1 ++ m2) = combine l1 m1 ++ combine l2 m2.
Proof. intros H. apply combine_app. eapply Forall2_len; eauto. Qed.
Lemma computesL_cons m v l y ms vs ls xs : List.length l = List.length y -> computes m v l y -> computesL ms vs ls xs ->
  computesL (m :: ms) (v :: vs) (l ++ ls) (y ++ xs).
Proof.
  intros Len C L full. destruct (C full) as (C1 & C2). destruct (L full) as (L1 & L2). rewrite combine_app by auto. cbn [combine]. split.
  - intros rs H. inversion H; subst. destruct (C1 _ H2) as (r1 & E1). destruct (L1 _ H4) as (r2 & E2). exists (r1 ++ r2). apply Forall2_app; auto.
  - intros n rs' H F. apply Forall2_app_inv_l in H as (r1 & r2 & H1 & H2 & ->). apply Forall_app in F as (F1 & F2).
    destruct (C2 n r1 H1 F1) as (r & Er & (Fr & Pr)). destruct (L2 n r2 H2 F2) as (rs & Ers & Frs & Prs).
    exists (r :: rs). split; [constructor; auto|]. split; [constructor; auto|]. intros b p I. cbn [map prodR fold_right].
    rewrite map_app, prodR_app, <- (Prs b p I), <- (Pr b p I). reflexivity.
Qed.
Lemma computes_leaf m v : computes m v [m] [v].
Proof.
  intros full. cbn [combine]. split.
  - intros r E. exists [r]. constructor; auto.
  - intros n rs H F. inversion H; subst. inversion H4; subst. cbn [fst snd] in H2. exists y. split; auto. inversion F; subst. split; auto.
    intros b p I. cbn [map prodR fold_right]. ring.
Qed.
Definition vp (p : model * list R) := firstn (m_npoi (fst p)) (combine (table (fst p)) (snd p)).
Definition vs_ (p : model * list R) := skipn (m_npoi (fst p)) (combine (table (fst p)) (snd p)).
Definition len_ok : list model -> list (list R) -> Prop := Forall2 (fun m v => List.length v = nparams m).
Lemma combine_fst_snd {A B} (l : list (A * B)) : combine (map fst l) (map snd l) = l.
Proof. induction l as [|[a b] l IH]; simpl; auto. rewrite IH. auto. Qed.
Theorem built_parts : 
  (forall c ls, built c ls -> Forall sized_model ls ->
     sized_model c /\ m_npoi c = sumn (map m_npoi ls) /\ m_npou c = sumn (map m_npou ls) /\
     (forall m, In m ls -> (0 < m_npoi m)%nat -> m_allowneg m = m_allowneg c) /\
     (firstn (m_npoi c) (table c) = flat_map (fun m => firstn (m_npoi m) (table m)) ls /\
      skipn (m_npoi c) (table c) = flat_map (fun m => skipn (m_npoi m) (table m)) ls) /\
     forall x, List.length x = nparams c -> exists xs, len_ok ls xs /\ computes c x ls xs /\
        vp (c, x) = flat_map vp (combine ls xs) /\ vs_ (c, x) = flat_map vs_ (combine ls xs)) /\
  (forall ms ls, builts ms ls -> Forall sized_model ls ->
     Forall sized_model ms /\ sumn (map m_npoi ms) = sumn (map m_npoi ls) /\ sumn (map m_npou ms) = sumn (map m_npou ls) /\
     (forall m, In m ls -> (0 < m_npoi m)%nat -> exists c, In c ms /\ (0 < m_npoi c)%nat /\ m_allowneg m = m_allowneg c) /\
     (flat_map (fun m => firstn (m_npoi m) (table m)) ms = flat_map (fun m => firstn (m_npoi m) (table m)) ls /\
      flat_map (fun m => skipn (m_npoi m) (table m)) ms = flat_map (fun m => skipn (m_npoi m) (table m)) ls) /\
     forall vs, len_ok ms vs -> exists xs, len_ok ls xs /\ computesL ms vs ls xs /\
        flat_map vp (combine ms vs) = flat_map vp (combine ls xs) /\ flat_map vs_ (combine ms vs) = flat_map vs_ (combine ls xs)).
Proof.
  apply built_builts_ind.
  - intros m W. inversion W; subst. cbn [map flat_map]. rewrite !sumn_cons. cbn [sumn fold_right]. rewrite !Nat.add_0_r, !app_nil_r.
    repeat split; auto; try (destruct H1 as (A & B & C & D); auto; fail).
    + intros m' [->|[]] _. auto.
    + intros x L. exists [x]. split; [constructor; auto|]. split; [apply computes_leaf|]. cbn [combine flat_map]. rewrite !app_nil_r. auto.
  - intros ms an c ls B IH H W. destruct (IH W) as (Wm & Np & Nq & Al & (T1 & T2) & V). pose proof (composite_sized _ _ _ Wm H) as Wc.
    pose proof (table_blocks _ _ _ Wm H) as TB. pose proof (composite_ok _ _ _ H) as (_ & P & Q & _ & _ & A & _).
    assert (TL : List.length (flat_map (fun m => firstn (m_npoi m) (table m)) ms) = m_npoi c).
    { rewrite poi_len, P; auto. intros m I. apply table_len. rewrite Forall_forall in Wm. auto. }
    split; auto. split; [lia|]. split; [lia|]. split; [|split].
    + intros m I Ps. destruct (Al m I Ps) as (m' & I' & Ps' & ->). apply A; auto.
    + rewrite TB. unfold blocks. rewrite firstn_app_len, skipn_app_len by auto. auto.
    + intros x L. set (sp := split_params ms 0 (sumn (map m_npoi ms)) x).
      assert (SF : map fst sp = ms) by apply split_fst.
      assert (Lx : List.length x = (sumn (map m_npoi ms) + sumn (map m_npou ms))%nat) by (rewrite L; unfold nparams; lia).
      assert (SL : Forall (fun p => List.length (snd p) = nparams (fst p)) sp) by (apply split_len; lia).
      assert (SB : blocks (fun p => m_npoi (fst p)) snd sp = x) by (apply split_blocks; auto).
      assert (SC : sp = combine ms (map snd sp)) by (rewrite <- SF at 1; symmetry; apply combine_fst_snd).
      destruct (V (map snd sp)) as (xs & Lxs & CL & E1 & E2).
      { clear -SF SL. revert SF. generalize ms. induction SL as [|p sp Hp SL IH]; intros ms' SF; simpl in SF; subst; constructor; auto. apply IH. auto. }
      exists xs. split; auto. split; [eapply computes_comp; eauto|].
      assert (TV : combine (table c) x = blocks (fun p => m_npoi (fst p)) (fun p => combine (table (fst p)) (snd p)) sp).
      { rewrite TB. rewrite <- SB. rewrite <- combine_blocks.
        - f_equal. unfold blocks. rewrite <- SF. rewrite !flat_map_concat_map, !map_map, <- !flat_map_concat_map. reflexivity.
        - intros p I. rewrite Forall_forall in SL. rewrite SL by auto. apply table_len. rewrite Forall_forall in Wm. apply Wm. rewrite <- SF. apply in_map. auto. }
      assert (VL : List.length (flat_map vp sp) = m_npoi c).
      { rewrite P, flat_len_sum, <- SF, map_map. f_equal. apply map_ext_in. intros p I. unfold vp. rewrite Forall_forall in SL, Wm.
        rewrite firstn_length, combine_length, table_len, SL by (auto; apply Wm; rewrite <- SF; apply in_map; auto). unfold nparams. lia. }
      unfold vp, vs_ at 1. cbn [fst snd]. rewrite <- SC in E1, E2. change (firstn (m_npoi c) (combine (table c) x) = flat_map vp (combine ls xs) /\ skipn (m_npoi c) (combine (table c) x) = flat_map vs_ (combine ls xs)).
      rewrite TV. unfold blocks. change (fun a : model * list R => firstn (m_npoi (fst a)) (combine (table (fst a)) (snd a))) with vp.
      change (fun a : model * list R => skipn (m_npoi (fst a)) (combine (table (fst a)) (snd a))) with vs_.
      rewrite firstn_app_len, skipn_app_len by auto. auto.
  - intros _. split; [constructor|]. split; auto. split; auto. split; [intros m []|]. split; auto.
    intros vs H. inversion H; subst. exists []. split; [constructor|]. split; [apply computesL_nil|]. auto.
  - intros m l ms ls B1 IH1 B2 IH2 W. apply Forall_app in W as (W1 & W2).
    destruct (IH1 W1) as (Wm & P1 & Q1 & A1 & (T1 & T1') & V1). destruct (IH2 W2) as (Wms & P2 & Q2 & A2 & (T2 & T2') & V2).
    assert (SA : forall a b, sumn (a ++ b) = (sumn a + sumn b)%nat) by (intros a b; induction a; auto; cbn [app]; rewrite !sumn_cons, IHa; lia).
    split; [constructor; auto|]. rewrite !map_app, !SA. cbn [map]. rewrite !sumn_cons, !flat_map_app. cbn [flat_map].
    split; [lia|]. split; [lia|]. split; [|split].
    + intros m' I Ps. apply in_app_iff in I as [I|I].
      * exists m. split; [simpl; auto|]. split; [|apply A1; auto]. rewrite P1. clear -I Ps. induction l; [destruct I|]. cbn [map]. rewrite sumn_cons. destruct I as [->|I]; [lia|]. specialize (IHl I). lia.
      * destruct (A2 m' I Ps) as (c & Ic & R). exists c. split; simpl; auto.
    + rewrite T1, T1', T2, T2'. auto.
    + intros vs H. inversion H; subst. destruct (V1 y H2) as (x1 & L1 & C1 & E1 & E1'). destruct (V2 l' H4) as (x2 & L2 & C2 & E2 & E2').
      exists (x1 ++ x2). split; [apply Forall2_app; auto|]. split; [apply computesL_cons; auto; eapply Forall2_len; eauto|].
      rewrite combine_app by (eapply Forall2_len; eauto). rewrite !flat_map_app. cbn [combine flat_map]. rewrite E1, E1', E2, E2'. auto.
Qed.
Lemma joined_parts ls xs : Forall sized_model ls -> len_ok ls xs ->
  joined (map (fun p => combine (table (fst p)) (snd p)) (combine ls xs)) = flat_map vp (combine ls xs) ++ flat_map vs_ (combine ls xs).
Proof.
  intros W L. unfold joined. f_equal.
  - induction L; auto. inversion W; subst. cbn [combine map flat_map]. rewrite IHL by auto. f_equal. unfold vp. cbn [fst snd]. eapply flagged_split. apply vtable_flags; auto.
  - induction L; auto. inversion W; subst. cbn [combine map flat_map]. rewrite IHL by auto. f_equal. unfold vs_. cbn [fst snd]. eapply flagged_split. apply vtable_flags; auto.
Qed.
Theorem composite_table c ls : built c ls -> Forall sized_model ls ->
  sized_model c /\ table c = joined_rows (map table ls) /\ (forall m, In m ls -> (0 < m_npoi m)%nat -> m_allowneg m = m_allowneg c).
Proof.
  intros B W. destruct (proj1 built_parts c ls B W) as (Wc & _ & _ & A & (T1 & T2) & _). split; auto. split; auto.
  rewrite joined_rows_blocks by auto. unfold blocks. rewrite <- T1, <- T2. symmetry. apply firstn_skipn.
Qed.
Theorem composite_product c ls x : built c ls -> Forall sized_model ls -> List.length x = nparams c ->
  exists xs, Forall2 (fun m v => List.length v = nparams m) ls xs /\
    combine (table c) x = joined (map (fun p => combine (table (fst p)) (snd p)) (combine ls xs)) /\
    forall full,
    (forall r, m_compute c x full = Ok r -> exists rs, Forall2 (fun mv r => m_compute (fst mv) (snd mv) full = Ok r) (combine ls xs) rs) /\
    (forall n rs, Forall2 (fun mv r => m_compute (fst mv) (snd mv) full = Ok r) (combine ls xs) rs -> Forall (fun r => rn_fits r n = true) rs ->
       exists r, m_compute c x full = Ok r /\ product_of n rs r).
Proof.
  intros B W L. destruct (proj1 built_parts c ls B W) as (Wc & _ & _ & _ & _ & V). destruct (V x L) as (xs & Lx & C & E1 & E2).
  exists xs. split; auto. split; [|exact C]. rewrite joined_parts, <- E1, <- E2 by auto. unfold vp, vs_. cbn [fst snd]. symmetry. apply firstn_skipn.
Qed.
(** with values by name *)
Theorem built_env env :
  (forall c ls, built c ls -> Forall sized_model ls -> computes c (map env (m_params c)) ls (map (fun m => map env (m_params m)) ls)) /\
  (forall ms ls, builts ms ls -> Forall sized_model ls ->
     computesL ms (map (fun m => map env (m_params m)) ms) ls (map (fun m => map env (m_params m)) ls)).
Proof.
  apply built_builts_ind.
  - intros m W. apply computes_leaf.
  - intros ms an c ls B IH H W. destruct (proj2 built_parts ms ls B W) as (Wm & _).
    eapply computes_comp; eauto. apply composite_ok in H as (_ & _ & _ & -> & _). rewrite permuted_blocks, map_blocks, <- permuted_blocks.
    rewrite (split_permuted (f := fun m => map env (m_params m))).
    + clear. induction ms; auto. cbn [map combine]. f_equal. auto.
    + intros m I. rewrite map_length. rewrite Forall_forall in Wm. destruct (Wm m I) as (A & _). auto.
  - intros. apply computesL_nil.
  - intros m l ms ls B1 IH1 B2 IH2 W. apply Forall_app in W as (W1 & W2). rewrite map_app. cbn [map]. apply computesL_cons; auto. rewrite map_length. auto.
Qed.
(** impact groups *)
Lemma group_extend_get k v d q : dget q (group_extend k v d) =
  if String.eqb q k then Some (match dget k d with Some l => l ++ v | None => v end) else dget q d.
Proof.
  induction d as [|[k' v'] r IH]; cbn [group_extend dget].
  - destruct (String.eqb_spec q k) as [->|N]; auto.
  - destruct (String.eqb_spec k k') as [->|N]; cbn [dget].
    + destruct (String.eqb_spec q k'); auto.
    + rewrite IH. destruct (String.eqb_spec q k') as [->|M]; auto. destruct (String.eqb_spec k' k); congruence.
Qed.
Lemma merge_get q gs : forall d,
  (match dget q (fold_left (fun d g => group_extend (fst g) (snd g) d) gs d) with Some l => l | None => [] end) =
  (match dget q d with Some l => l | None => [] end) ++ flat_map (fun g => if String.eqb (fst g) q then snd g else []) gs.
Proof.
  induction gs as [|[k v] r IH]; intros d; cbn [fold_left flat_map]; [rewrite app_nil_r; auto|]. rewrite IH. cbn [fst snd].
  rewrite group_extend_get. rewrite (String.eqb_sym k q). destruct (String.eqb_spec q k) as [->|N]; auto. destruct (dget k d); cbn [app]; rewrite ?app_assoc; auto.
Qed.
Theorem composite_groups ms an c q : composite ms an = Ok c ->
  (match dget q (m_groups c) with Some l => l | None => [] end) = group_members q ms.
Proof.
  intros H. apply composite_ok in H as (_ & _ & _ & _ & _ & _ & _ & -> & _). unfold merge_groups. rewrite merge_get. cbn [dget app]. unfold group_members.
  clear. induction ms; auto. cbn [flat_map]. rewrite flat_map_app, IHms. auto.
Qed.
(** the linearity flag *)
Lemma along_len x y t : List.length x = List.length y -> List.length (along x y t) = List.length x.
Proof. intros H. unfold along. rewrite map_length, combine_length. lia. Qed.
Lemma along_pyslice a b x y t : List.length x = List.length y -> pyslice a b (along x y t) = along (pyslice a b x) (pyslice a b y) t.
Proof.
  intros H. unfold pyslice, along. rewrite <- combine_firstn, <- combine_skipn by auto. rewrite skipn_map, firstn_map. reflexivity.
Qed.
Lemma along_app x1 x2 y1 y2 t : List.length x1 = List.length y1 -> along (x1 ++ x2) (y1 ++ y2) t = along x1 y1 t ++ along x2 y2 t.
Proof. intros H. unfold along. rewrite combine_app, map_app by auto. auto. Qed.
Lemma split_along ms : forall a b x y t, List.length x = List.length y ->
  split_params ms a b (along x y t) = map (fun p => (fst (fst p), along (snd (fst p)) (snd (snd p)) t)) (combine (split_params ms a b x) (split_params ms a b y)).
Proof.
  induction ms as [|m ms IH]; intros a b x y t L; auto. cbn [split_params combine map fst snd]. rewrite IH by auto. f_equal. f_equal.
  rewrite !along_pyslice by auto. rewrite along_app; auto. unfold pyslice. rewrite !firstn_length, !skipn_length. lia.
Qed.
Fixpoint sum_active (ms : list model) : nat := match ms with [] => O | m :: r => ((if Nat.ltb 0 (nparams m) then 1 else 0) + sum_active r)%nat end.
Lemma sum_active_len ms : sum_active ms = List.length (filter (fun m => Nat.ltb 0 (nparams m)) ms).
Proof. induction ms; auto. cbn [sum_active filter]. destruct (Nat.ltb 0 (nparams a)); cbn [List.length]; lia. Qed.
Lemma along_nil_len x y t : List.length x = 0%nat -> along x y t = [].
Proof. destruct x; [auto|discriminate]. Qed.
(** products in which at most one factor moves *)
Lemma lin_prod n full t b p ms : (b < n)%nat ->
  (forall m, In m ms -> (0 < nparams m)%nat -> affine_model n m full) ->
  (forall m, In m ms -> forall v r, m_compute m v full = Ok r -> rn_fits r n = true) ->
  forall i j x y rx ry rt, List.length x = List.length y -> (i + sumn (map m_npoi ms) <= List.length x)%nat -> (j + sumn (map m_npou ms) <= List.length x)%nat ->
  ok_all full (split_params ms i j x) rx -> ok_all full (split_params ms i j y) ry -> ok_all full (split_params ms i j (along x y t)) rt ->
  let P := fun rs => prodR (map (fun q => rn_bcast q b p) rs) in
  Forall (fun r => rn_fits r n = true) rx /\ Forall (fun r => rn_fits r n = true) ry /\ Forall (fun r => rn_fits r n = true) rt /\
  (sum_active ms = 0%nat -> P rx = P rt /\ P ry = P rt) /\ ((sum_active ms <= 1)%nat -> P rt = P rx + t * (P ry - P rx)).
Proof.
  intros Hb Af Fi. induction ms as [|m ms IH]; intros i j x y rx ry rt L Bi Bj Hx Hy Ht P.
  - inversion Hx; inversion Hy; inversion Ht; subst. cbn [sum_active]. repeat split; auto. intros _. unfold P. simpl. ring.
  - cbn [split_params] in *. cbn [map] in Bi, Bj. rewrite sumn_cons in Bi, Bj. inversion Hx as [|? r1 ? rx' E1 Hx']; inversion Hy as [|? r2 ? ry' E2 Hy']; inversion Ht as [|? r3 ? rt' E3 Ht']; subst. cbn [fst snd] in E1, E2, E3.
    destruct (IH (fun m I => Af m (or_intror I)) (fun m I => Fi m (or_intror I)) (i + m_npoi m)%nat (j + m_npou m)%nat x y rx' ry' rt' L ltac:(lia) ltac:(lia) Hx' Hy' Ht') as (F1 & F2 & F3 & Z & O).
    pose proof (Fi m (or_introl eq_refl)) as Fm.
    split; [constructor; eauto|]. split; [constructor; eauto|]. split; [constructor; eauto|].
    unfold P. cbn [map prodR fold_right sum_active]. fold (prodR (map (fun q => rn_bcast q b p) rx')) (prodR (map (fun q => rn_bcast q b p) ry')) (prodR (map (fun q => rn_bcast q b p) rt')).
    rewrite !along_pyslice, <- along_app in E3 by (auto; unfold pyslice; rewrite !firstn_length, !skipn_length; lia).
    set (vx := pyslice i (i + m_npoi m) x ++ pyslice j (j + m_npou m) x) in *. set (vy := pyslice i (i + m_npoi m) y ++ pyslice j (j + m_npou m) y) in *.
    assert (Lx : List.length vx = nparams m) by (unfold vx; rewrite app_length, !pyslice_len by lia; unfold nparams; lia).
    assert (Ly : List.length vy = nparams m) by (unfold vy; rewrite app_length, !pyslice_len by lia; unfold nparams; lia).
    destruct (Nat.ltb_spec 0 (nparams m)) as [Pos|Zero].
    + split; [lia|]. intros S. destruct (Z ltac:(lia)) as (-> & ->).
      rewrite (Af m (or_introl eq_refl) Pos vx vy t Lx Ly r1 r2 r3 E1 E2 E3 (Fm _ _ E1) (Fm _ _ E2) (Fm _ _ E3) b p Hb). ring.
    + assert (X0 : vx = []) by (apply length_zero_iff_nil; lia). assert (Y0 : vy = []) by (apply length_zero_iff_nil; lia).
      rewrite X0 in E1, E3. rewrite Y0 in E2. cbn in E3. rewrite E1 in E2. rewrite E1 in E3. injection E2 as <-. injection E3 as <-.
      split; [intros S; destruct (Z S) as (-> & ->); auto|]. intros S. rewrite (O S). ring.
Qed.
Theorem composite_linear n full ms an c : composite ms an = Ok c -> m_linear c = true ->
  (forall m, In m ms -> m_linear m = true -> affine_model n m full) ->
  (forall m, In m ms -> forall v r, m_compute m v full = Ok r -> rn_fits r n = true) ->
  affine_model n c full /\ (m_allowneg c = true \/ nparams c = 0%nat).
Proof.
  intros H Lin Af Fi. pose proof (composite_ok _ _ _ H) as (NE & P & Q & _ & _ & _ & _ & _ & C & LC). rewrite LC in Lin.
  apply orb_true_iff in Lin as [Z|Lin].
  - apply Nat.eqb_eq in Z. split; [|right; auto]. intros x y t Lx Ly rx ry rt Ex Ey Et _ _ _ b p Hb. unfold nparams in Lx, Ly. rewrite Z in Lx, Ly.
    apply length_zero_iff_nil in Lx, Ly. subst. cbn in Et. rewrite Ex in Ey, Et. injection Ey as <-. injection Et as <-. ring.
  - apply andb_true_iff in Lin as (Lin & AL). apply andb_true_iff in Lin as (AN & One). apply Nat.leb_le in One. split; auto.
    intros x y t Lx Ly rx ry rt Ex Ey Et _ _ _ b p Hb. rewrite C in *. unfold nparams in Lx, Ly. rewrite P, Q in Lx, Ly.
    apply composite_compute_ok in Ex as Kx. destruct Kx as (rxs & Kx). apply composite_compute_ok in Ey as Ky. destruct Ky as (rys & Ky). apply composite_compute_ok in Et as Kt. destruct Kt as (rts & Kt).
    destruct (lin_prod n full t b p ms Hb) with (i := 0%nat) (j := sumn (map m_npoi ms)) (x := x) (y := y) (rx := rxs) (ry := rys) (rt := rts) as (F1 & F2 & F3 & _ & O); auto; try lia.
    { intros m I Pos. apply Af; auto. rewrite forallb_forall in AL. apply AL. apply filter_In. split; auto. apply Nat.ltb_lt. auto. }
    destruct (composite_compute_product _ _ _ _ n _ NE Kx F1) as (qx & Qx & (_ & Vx)). destruct (composite_compute_product _ _ _ _ n _ NE Ky F2) as (qy & Qy & (_ & Vy)).
    destruct (composite_compute_product _ _ _ _ n _ NE Kt F3) as (qt & Qt & (_ & Vt)). rewrite Ex in Qx. rewrite Ey in Qy. rewrite Et in Qt.
    injection Qx as <-. injection Qy as <-. injection Qt as <-. rewrite Vx, Vy, Vt by auto. apply O. rewrite sum_active_len. auto.
Qed.
Theorem composite_empty an : composite [] an = Raise ValueError.
Proof. reflexivity. Qed.
(** what is refused: nothing, POIs of both signs, or a flag against the parts *)
Theorem composite_accepts ms an : ms <> [] ->
  (forall m m', In m ms -> In m' ms -> (0 < m_npoi m)%nat -> (0 < m_npoi m')%nat -> m_allowneg m = m_allowneg m') ->
  (forall a m, an = Some a -> In m ms -> (0 < m_npoi m)%nat -> m_allowneg m = a) -> exists c, composite ms an = Ok c.
Proof.
  intros NE Ag An. unfold composite. destruct (Nat.eqb_spec (List.length ms) 0) as [Z|_]; [apply length_zero_iff_nil in Z; congruence|].
  set (fl := map m_allowneg (filter (fun m => Nat.ltb 0 (m_npoi m)) ms)).
  assert (FL : forall b, In b fl -> exists m, In m ms /\ (0 < m_npoi m)%nat /\ b = m_allowneg m).
  { intros b I. apply in_map_iff in I as (m & <- & I). apply filter_In in I as (I & L). apply Nat.ltb_lt in L. eauto. }
  replace (existsb (fun b => b) fl && existsb negb fl) with false.
  - destruct an as [a|]; [|cbn [rbind]; eauto]. destruct fl as [|b0 r] eqn:E; [cbn [rbind]; eauto|].
    destruct (FL b0) as (m & I & Ps & ->); [simpl; auto|]. rewrite (An a m eq_refl I Ps). rewrite Bool.eqb_reflx. cbn [rbind]. eauto.
  - symmetry. apply not_true_iff_false. intros X. apply andb_true_iff in X as (X & Y). apply existsb_exists in X as (b1 & I1 & ->). apply existsb_exists in Y as (b2 & I2 & N).
    destruct (FL _ I1) as (m1 & J1 & P1 & E1). destruct (FL _ I2) as (m2 & J2 & P2 & E2). rewrite (Ag m1 m2 J1 J2 P1 P2) in E1. rewrite <- E2 in E1. subst. discriminate.
Qed.
