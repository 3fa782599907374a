(** What a converted datacard looks like in the workspace. *)
From Coq Require Import List Arith Bool String Ascii ZArith Lia.
From Verif Require Import PyList PyDict ListUtil Num Names_Model Writer_Model Writer_Spec Writer_Layout Writer_Meta Writer_Inv
  Writer_State Writer_Tensor Writer_Hist Writer_Denote Writer_Master Writer_Effects Pseudo_Spec Pseudo_Proof Writer_Props Card_Model Card_Spec Card_Parse Card_Convert.
Import ListNotations.
Local Open Scope nat_scope.
Local Open Scope string_scope.
Local Open Scope list_scope.

Lemma Forall2_at {A B} (R : A -> B -> Prop) l m x : Forall2 R l m -> In x l ->
  exists l1 l2 m1 y m2, l = l1 ++ x :: l2 /\ m = m1 ++ y :: m2 /\ R x y /\ Forall2 R l1 m1 /\ Forall2 R l2 m2.
Proof.
  induction 1 as [|a b l m E F IH]; intros H; [contradiction|]. destruct H as [->|H].
  - exists [], l, [], b, m. repeat split; auto.
  - destruct (IH H) as (l1 & l2 & m1 & y & m2 & -> & -> & E' & F1 & F2). exists (a :: l1), l2, (b :: m1), y, m2. repeat split; auto.
Qed.
Lemma Forall2_In_r {A B} (R : A -> B -> Prop) l m y : Forall2 R l m -> In y m -> exists x, In x l /\ R x y.
Proof. induction 1 as [|a b l m E F IH]; intros H; [contradiction|]. destruct H as [->|H]; [exists a|destruct (IH H) as (x & ? & ?); exists x]; cbn; auto. Qed.
Lemma append_last (s t : string) x y : (s ++ String x "")%string = (t ++ String y "")%string -> x = y.
Proof.
  revert t. induction s as [|c s IH]; intros [|d t] H; cbn in H.
  - congruence.
  - injection H as -> H. destruct t; discriminate.
  - injection H as -> H. destruct s; discriminate.
  - injection H as -> H. eauto.
Qed.
Lemma append_assoc_s (a b d : string) : ((a ++ b) ++ d)%string = (a ++ (b ++ d))%string.
Proof. induction a as [|x a IH]; cbn; congruence. Qed.
Lemma suffixes_differ a b : (a ++ "SymAvg")%string <> (b ++ "SymDiff")%string.
Proof.
  intros H. change "SymAvg" with ("SymAv" ++ "g")%string in H. change "SymDiff" with ("SymDif" ++ "f")%string in H.
  rewrite <- !append_assoc_s in H. apply append_last in H. discriminate.
Qed.
Lemma suffix_inj (x a b : string) : (a ++ x)%string = (b ++ x)%string -> a = b.
Proof.
  assert (L : forall s t : string, String.length (s ++ t) = String.length s + String.length t) by (induction s; cbn; congruence).
  revert b. induction a as [|c a IH]; intros [|d b] H; cbn in H; auto.
  - apply (f_equal String.length) in H. cbn in H. rewrite L in H. lia.
  - apply (f_equal String.length) in H. cbn in H. rewrite L in H. lia.
  - injection H as -> H. f_equal. auto.
Qed.

Section Workspace.
  Context {V : Type} {NV : Num V} {NL : NumLaws V}.
  Variable pyfloat : string -> option V.
  Variable exists_file : string -> bool.
  Variable files : string -> string -> option (thist V).
  Variable mass : string.
  Variable k101 : V.
  Variable symm : symmode.
  Variables (cfg : config) (A : acard) (c : card V) (ops : list (op V)) (w : workspace V).
  Hypothesis W : wf_card pyfloat exists_file A.
  Hypothesis P : parsed_as pyfloat A c.
  Hypothesis T : tidy A.
  Hypothesis FV : forall f n h, files f n = Some h -> List.length (th_vars h) = List.length (th_vals h).
  Hypothesis CV : convert pyfloat files mass k101 symm c = (ops, None).
  Hypothesis Wr : written cfg ops w.
  Notation tmpl := (template pyfloat files mass A).
  Notation th := (th pyfloat files mass A).
  Notation one_entry := (one_entry pyfloat files mass symm A).
  Notation spec_chan := (spec_chan pyfloat files mass A).
  Notation spec_rate := (spec_rate k101 A c).

  Lemma decompose : exists sy, ops = flat_map spec_chan (chans A) ++ flat_map spec_rate (ac_rates A) ++ sy /\
    systs_ops pyfloat files mass symm A sy /\
    (forall b, In b (chans A) -> tmpl b "data_obs" <> None) /\ (forall k, In k (ac_cols A) -> tmpl (co_bin k) (co_proc k) <> None).
  Proof. eapply convert_inv; eauto. Qed.

  (** an entry makes no call or one *)
  Lemma one_entry_len s b p e o : one_entry s b p e o -> o = [] \/ (exists x, o = [x]) /\ no_effect e = false.
  Proof.
    unfold Card_Convert.one_entry. destruct (no_effect e); auto. destruct (smem (sl_type s) _).
    - destruct (varied _ _ _ _ _ _), (varied _ _ _ _ _ _); try contradiction.
      + intros (kf & _ & ->). right. split; eauto.
      + intros (_ & u & _ & ->). right. split; eauto.
    - destruct (smem (sl_type s) _); auto. intros (u & _ & ->). right. split; eauto.
  Qed.
  (** the call an entry makes *)
  Definition call (s : sline) (b p e : string) (o : op V) : Prop :=
    In s (ac_systs A) /\ In (b, p, e) (entries A s) /\ no_effect e = false /\ one_entry s b p e [o].
  Lemma entries_In l s os o : (forall x, In x l -> In x (entries A s)) ->
    Forall2 (fun ke o => one_entry s (fst (fst ke)) (snd (fst ke)) (snd ke) o) l os -> In o (List.concat os) -> In s (ac_systs A) ->
    exists b p e, In (b, p, e) l /\ call s b p e o.
  Proof.
    intros I F H S. apply in_concat in H as (o' & H1 & H2). destruct (Forall2_In_r _ _ _ _ F H1) as ([[b p] e] & K1 & K2). cbn in K2.
    exists b, p, e. destruct (one_entry_len _ _ _ _ _ K2) as [->|[[x ->] E]]; [contradiction|]. destruct H2 as [->|[]].
    split; auto. split; auto.
  Qed.
  Lemma systs_In l oss o : (forall s, In s l -> In s (ac_systs A)) ->
    Forall2 (fun s o => exists os, Forall2 (fun ke o => one_entry s (fst (fst ke)) (snd (fst ke)) (snd ke) o) (entries A s) os /\ o = List.concat os) l oss ->
    In o (List.concat oss) -> exists s b p e, In s l /\ call s b p e o.
  Proof.
    intros I F H. apply in_concat in H as (o' & H1 & H2). destruct (Forall2_In_r _ _ _ _ F H1) as (s & K1 & os & K2 & ->).
    destruct (entries_In _ s os o (fun x h => h) K2 H2 (I _ K1)) as (b & p & e & _ & K). exists s, b, p, e. auto.
  Qed.

  Definition nuisance_of (s : sline) (n : string) : Prop :=
    n = sl_name s \/ n = (sl_name s ++ "SymAvg")%string \/ n = (sl_name s ++ "SymDiff")%string.
  Lemma nuisance_inj s s' n : In s (ac_systs A) -> In s' (ac_systs A) -> nuisance_of s n -> nuisance_of s' n -> s = s'.
  Proof.
    intros S S' N N'.
    assert (E : sl_name s = sl_name s').
    { destruct N as [->|[->| ->]], N' as [E|[E|E]]; auto.
      - exfalso. apply (proj1 (td_suffix _ T s s' S S')). auto.
      - exfalso. apply (proj2 (td_suffix _ T s s' S S')). auto.
      - exfalso. apply (proj1 (td_suffix _ T s' s S' S)). auto.
      - apply suffix_inj in E. auto.
      - exfalso. apply (suffixes_differ _ _ E).
      - exfalso. apply (proj2 (td_suffix _ T s' s S' S)). auto.
      - exfalso. apply (suffixes_differ _ _ (eq_sym E)).
      - apply suffix_inj in E. auto. }
    pose proof (td_names _ T) as D. clear - S S' E D. induction (ac_systs A) as [|x l IH]; [contradiction|].
    cbn in D. inversion D as [|? ? D1 D2]. subst. destruct S as [->|S], S' as [->|S']; auto.
    - exfalso. apply D1. rewrite E. apply in_map. auto.
    - exfalso. apply D1. rewrite <- E. apply in_map. auto.
  Qed.
  Lemma call_avg s b p e o c' p' n : call s b p e o -> op_avg c' p' n o <> None -> c' = b /\ p' = p /\ nuisance_of s n.
  Proof.
    intros (_ & _ & NE & H). unfold Card_Convert.one_entry in H. rewrite NE in H.
    assert (N : forall u, op_avg c' p' n (AddNormSystematic (sl_name s) [p] b [u] Average kw_plain) <> None -> c' = b /\ p' = p /\ nuisance_of s n).
    { intros u. cbn [op_avg combine last_pair]. unfold last_pair. cbn [fold_left combine fst snd].
      destruct (String.eqb_spec c' b), (String.eqb_spec n (sl_name s)), (String.eqb_spec p' p); cbn; try congruence. intros _. unfold nuisance_of. auto. }
    destruct (smem (sl_type s) _).
    - destruct (varied _ _ _ _ _ _), (varied _ _ _ _ _ _); try contradiction.
      + destruct H as (kf & _ & H). injection H as ->. cbn [op_avg].
        destruct (String.eqb_spec c' b), (String.eqb_spec p' p); cbn; try congruence. unfold nuisance_of.
        destruct symm; repeat match goal with |- context [String.eqb n ?x] => destruct (String.eqb_spec n x) end; intros Q; try congruence; auto.
      + destruct H as (_ & u & _ & H). injection H as ->. apply N.
    - destruct (smem (sl_type s) _); [|discriminate]. destruct H as (u & _ & H). injection H as ->. apply N.
  Qed.
  Lemma rate_avg r o b p s n : In r (ac_rates A) -> In o (spec_rate r) -> In s (ac_systs A) -> nuisance_of s n -> op_avg b p n o = None.
  Proof.
    intros R H S N. unfold Card_Convert.spec_rate in H. apply in_map_iff in H as (b' & <- & _). cbn [op_avg].
    destruct (String.eqb_spec n (rl_name r)) as [E|]; [|rewrite andb_false_r; auto]. exfalso.
    destruct N as [->|[->| ->]].
    - apply (td_rates _ T s r S R). auto.
    - apply (proj1 (td_suffix' _ T r s R S)). auto.
    - apply (proj2 (td_suffix' _ T r s R S)). auto.
  Qed.
  Lemma chan_avg b0 o b p n : In o (spec_chan b0) -> op_avg b p n o = None.
  Proof.
    intros [<-|[<-|H]]; auto. apply in_map_iff in H as (k & <- & _). auto.
  Qed.

  Lemma keys_of_entries s : In s (ac_systs A) -> NoDup (map fst (entries A s)).
  Proof.
    intros S. unfold entries. pose proof (wf_keys _ _ _ W) as N. revert N. generalize (map co_key (ac_cols A)) (sl_entries s).
    induction l as [|k l IH]; intros [|e es] N; cbn [combine filter map]; try constructor. inversion N as [|? ? N1 N2]. subst.
    assert (G : ~ In k (map fst (filter (fun ke : key * string => negb (String.eqb (snd ke) "-")) (combine l es)))).
    { intros X. apply N1. apply in_map_iff in X as ([k' e'] & <- & X). apply filter_In in X as [X _]. apply in_combine_l in X. auto. }
    cbn [snd]. destruct (negb (String.eqb e "-")); cbn [map fst]; auto. constructor; auto.
  Qed.
  Lemma entry_fun s b p e e' : In s (ac_systs A) -> In (b, p, e) (entries A s) -> In (b, p, e') (entries A s) -> e = e'.
  Proof.
    intros S H H'. pose proof (keys_of_entries s S) as N. pose proof (kget_NoDup _ _ _ N H). pose proof (kget_NoDup _ _ _ N H'). congruence.
  Qed.

  Lemma ops_avg o b p s n : In o ops -> In s (ac_systs A) -> nuisance_of s n -> op_avg b p n o <> None ->
    exists e, call s b p e o.
  Proof.
    intros H S N Q. destruct decompose as (sy & E & (oss & F & ->) & _). rewrite E in H. apply in_app_iff in H as [H|H].
    { apply in_flat_map in H as (b0 & _ & H). rewrite (chan_avg _ _ _ _ _ H) in Q. congruence. }
    apply in_app_iff in H as [H|H].
    { apply in_flat_map in H as (r & R & H). rewrite (rate_avg r o b p s n R H S N) in Q. congruence. }
    destruct (systs_In _ _ _ (fun s h => h) F H) as (s' & b' & p' & e & S' & C).
    destruct (call_avg _ _ _ _ _ _ _ _ C Q) as (-> & -> & N'). rewrite (nuisance_inj s s' n S S' N N'). eauto.
  Qed.
  (** nothing booked where there is no entry *)
  Lemma no_entry b p s n : In s (ac_systs A) -> nuisance_of s n -> (forall e, ~ entry A s b p e) -> last_of (op_avg b p n) ops = None.
  Proof.
    intros S N H. apply last_of_None. intros o Ho. destruct (op_avg b p n o) eqn:Q; auto. exfalso.
    destruct (ops_avg o b p s n Ho S N) as (x & _ & I & NE & _); [congruence|]. apply (H x). split; auto.
    intros X. apply no_effect_spec in X. congruence.
  Qed.
  (** the call of an entry is the last one on its column *)
  Lemma with_entry b p s e : In s (ac_systs A) -> modelled (sl_type s) -> entry A s b p e ->
    exists o, call s b p e o /\ forall n, nuisance_of s n -> last_booking (op_avg b p n) ops o.
  Proof.
    intros S ST [I NE]. assert (NE' : no_effect e = false). { destruct (no_effect e) eqn:X; auto. apply no_effect_spec in X. contradiction. }
    destruct decompose as (sy & E & (oss & F & ->) & _).
    destruct (Forall2_at _ _ _ s F S) as (s1 & s2 & m1 & y & m2 & ES & -> & (os & FE & ->) & F1 & F2).
    destruct (Forall2_at _ _ _ _ FE I) as (e1 & e2 & q1 & z & q2 & EE & -> & OE & G1 & G2). cbn [fst snd] in OE.
    assert (exists o, z = [o]) as [o ->].
    { destruct (one_entry_len _ _ _ _ _ OE) as [->|[X _]]; auto. exfalso. unfold Card_Convert.one_entry in OE. rewrite NE' in OE.
      destruct (smem (sl_type s) ["shape"; "shapeN"; "shape?"; "shapeU"]) eqn:S1.
      - destruct (varied _ _ _ _ _ _), (varied _ _ _ _ _ _); try contradiction.
        + destruct OE as (kf & _ & X). discriminate.
        + destruct OE as (_ & u & _ & X). discriminate.
      - destruct (smem (sl_type s) ["lnN"; "lnU"]) eqn:S2; [destruct OE as (u & _ & X); discriminate|].
        destruct ST as [[ST|ST]|[ST|[ST|[ST|ST]]]]; rewrite ST in *; discriminate. }
    assert (C : call s b p e o) by (repeat split; auto).
    exists o. split; auto. intros n N.
    exists (flat_map spec_chan (chans A) ++ flat_map spec_rate (ac_rates A) ++ List.concat m1 ++ List.concat q1), (List.concat q2 ++ List.concat m2).
    split.
    { rewrite E, !concat_app. cbn [List.concat app]. rewrite <- !app_assoc. cbn [app]. rewrite <- ?app_assoc. reflexivity. }
    apply Forall_app. split; apply Forall_forall; intros x Hx; destruct (op_avg b p n x) eqn:Q; auto; exfalso.
    - assert (exists b' p' e', In (b', p', e') e2 /\ call s b' p' e' x) as (b' & p' & e' & K & C').
      { apply (entries_In e2 s q2 x); auto. intros t Ht. rewrite EE. apply in_app_iff. right. right. auto. }
      destruct (call_avg _ _ _ _ _ _ _ _ C' ltac:(rewrite Q; discriminate)) as (<- & <- & _).
      pose proof (keys_of_entries s S) as D. rewrite EE, map_app in D. cbn [map fst] in D. apply NoDup_remove_2 in D. apply D.
      apply in_app_iff. right. apply in_map_iff. exists (b, p, e'). auto.
    - assert (exists s' b' p' e', In s' s2 /\ call s' b' p' e' x) as (s' & b' & p' & e' & K & C').
      { apply (systs_In s2 m2 x); auto. intros t Ht. rewrite ES. apply in_app_iff. right. right. auto. }
      destruct (call_avg _ _ _ _ _ _ _ _ C' ltac:(rewrite Q; discriminate)) as (<- & <- & N').
      assert (s = s') by (eapply nuisance_inj; eauto; rewrite ES; apply in_app_iff; right; right; auto). subst s'.
      pose proof (td_names _ T) as D. rewrite ES, map_app in D. cbn [map] in D. apply NoDup_remove_2 in D. apply D.
      apply in_app_iff. right. apply in_map. auto.
  Qed.

  (** *** declarations *)
  Lemma flat_map_flat_map {X Y Z} (f : X -> list Y) (g : Y -> list Z) l : flat_map g (flat_map f l) = flat_map (fun x => flat_map g (f x)) l.
  Proof. induction l as [|x l IH]; cbn; auto. rewrite flat_map_app, IH. auto. Qed.
  Lemma flat_map_none {X Y} (f : X -> list Y) l : (forall x, In x l -> f x = []) -> flat_map f l = [].
  Proof. induction l as [|x l IH]; cbn; intros H; auto. rewrite H by auto. apply IH. auto. Qed.
  (** rate parameters and systematics make no declaration of another kind *)
  Definition is_syst_op (o : op V) : Prop := match o with AddSystematic _ _ _ _ _ _ _ _ _ | AddNormSystematic _ _ _ _ _ _ => True | _ => False end.
  Lemma call_kind s b p e o : call s b p e o -> is_syst_op o.
  Proof.
    intros (_ & _ & NE & H). unfold Card_Convert.one_entry in H. rewrite NE in H. destruct (smem (sl_type s) _).
    - destruct (varied _ _ _ _ _ _), (varied _ _ _ _ _ _); try contradiction.
      + destruct H as (kf & _ & H). injection H as ->. cbn. auto.
      + destruct H as (_ & u & _ & H). injection H as ->. cbn. auto.
    - destruct (smem (sl_type s) _); [|discriminate]. destruct H as (u & _ & H). injection H as ->. cbn. auto.
  Qed.
  Lemma tail_kind : exists tail, ops = flat_map spec_chan (chans A) ++ tail /\ Forall is_syst_op tail.
  Proof.
    destruct decompose as (sy & E & (oss & F & ->) & _). eexists. split; [exact E|]. apply Forall_app. split; apply Forall_forall; intros o H.
    - apply in_flat_map in H as (r & _ & H). apply in_map_iff in H as (b & <- & _). cbn. auto.
    - destruct (systs_In _ _ _ (fun s h => h) F H) as (s & b & p & e & _ & C). eapply call_kind; eauto.
  Qed.
  Definition size_of (b : string) : nat := axes_size (th_axes (th b "data_obs")) false.
  Lemma decls_ok : chan_decls [] ops = map (fun b => (b, mkCh (th_axes (th b "data_obs")) false false)) (chans A).
  Proof.
    destruct tail_kind as (tail & E & F). rewrite E. clear E.
    assert (G0 : forall l seen, Forall is_syst_op l -> chan_decls seen l = []).
    { induction l as [|o l IH]; intros seen H; cbn [chan_decls]; auto. inversion H. subst. destruct o; cbn in *; auto; contradiction. }
    assert (G1 : forall ks b0 l seen, chan_decls seen (map (fun k => AddProcess (V := V) (HDense (th_vals (th b0 (co_proc k))) (th_vars (th b0 (co_proc k)))) (co_proc k) b0 (signal_col k) None) ks ++ l) = chan_decls seen l).
    { induction ks as [|k ks IH]; intros; cbn; auto. }
    generalize (@nil string). induction (chans A) as [|b l IH]; intros seen; cbn [flat_map map app].
    - apply G0. auto.
    - unfold Card_Convert.spec_chan at 1. cbn [app]. cbn [chan_decls]. rewrite <- app_assoc, G1. f_equal. apply IH.
  Qed.
  Lemma flat_tail {Y} (f : op V -> list Y) : (forall o, is_syst_op o -> f o = []) -> flat_map f ops = flat_map (fun b => flat_map f (spec_chan b)) (chans A).
  Proof.
    intros H. destruct tail_kind as (tail & E & F). rewrite E. clear E. rewrite flat_map_app, flat_map_flat_map, (flat_map_none f tail); [apply app_nil_r|].
    intros x Hx. apply H. rewrite Forall_forall in F. auto.
  Qed.
  Lemma process_In h p b sg vs : In (AddProcess h p b sg vs) ops <->
    exists k, In k (ac_cols A) /\ co_key k = (b, p) /\ h = HDense (th_vals (th b p)) (th_vars (th b p)) /\ sg = signal_col k /\ vs = None.
  Proof.
    destruct tail_kind as (tail & E & F). rewrite E. clear E. rewrite in_app_iff. split.
    - intros [H|H]; [|rewrite Forall_forall in F; apply F in H; contradiction].
      apply in_flat_map in H as (b' & _ & [H|[H|H]]); try discriminate. apply in_map_iff in H as (k & H & K). apply filter_In in K as [K1 K2].
      apply String.eqb_eq in K2. injection H as <- <- <- <- <-. exists k. unfold co_key. rewrite K2. auto.
    - intros (k & K & E & -> & -> & ->). injection E as <- <-. left. apply in_flat_map. exists (co_bin k). split.
      { apply (wf_cover _ _ _ W). eauto. }
      right. right. apply in_map_iff. exists k. split; auto. apply filter_In. split; auto. apply String.eqb_refl.
  Qed.
  Lemma proc_decls_ok p sg : In (p, sg) (proc_decls ops) <-> exists k, In k (ac_cols A) /\ co_proc k = p /\ sg = signal_col k.
  Proof.
    unfold proc_decls. rewrite in_flat_map. split.
    - intros (o & Ho & H). destruct o; try contradiction. destruct H as [H|[]]. injection H as -> ->.
      apply process_In in Ho as (k & K & E & _ & -> & _). injection E as _ E. eauto.
    - intros (k & K & <- & ->). eexists. split; [apply process_In; exists k; split; [exact K|]; split; [reflexivity|]; auto|]. left. auto.
  Qed.
  Lemma data_ok b v : In (b, v) (data_log ops) <-> In b (chans A) /\ v = (th_vals (th b "data_obs"), th_vars (th b "data_obs")).
  Proof.
    unfold data_log. rewrite flat_tail by (intros []; cbn; contradiction || auto). rewrite in_flat_map. split.
    - intros (b' & Hb & H). cbn [Card_Convert.spec_chan flat_map app] in H. destruct H as [H|H].
      + injection H as <- <-. auto.
      + apply in_flat_map in H as (o & H & X). apply in_map_iff in H as (k & <- & _). contradiction.
    - intros [Hb ->]. exists b. split; auto. left. auto.
  Qed.

  (** constrained or not *)
  Lemma syst_decl n kw o : In o ops -> In (n, kw) (syst_decls o) ->
    (exists r, In r (ac_rates A) /\ n = rl_name r /\ kw = kw_free) \/
    (exists s b p e, In s (ac_systs A) /\ entry A s b p e /\ modelled (sl_type s) /\
       In n (booked_names symm s (varied files mass A b p (sl_name s ++ "Up")) (varied files mass A b p (sl_name s ++ "Down"))) /\
       kw_constrained kw = negb (String.eqb (sl_type s) "shapeU") /\ kw_noi kw = false).
  Proof.
    intros Ho H. destruct decompose as (sy & E & (oss & F & ->) & _). rewrite E in Ho. apply in_app_iff in Ho as [Ho|Ho].
    { apply in_flat_map in Ho as (b & _ & [<-|[<-|Ho]]); try contradiction. apply in_map_iff in Ho as (k & <- & _). contradiction. }
    apply in_app_iff in Ho as [Ho|Ho].
    { apply in_flat_map in Ho as (r & R & Ho). apply in_map_iff in Ho as (b & <- & _). destruct H as [H|[]]. injection H as <- <-. left. eauto. }
    destruct (systs_In _ _ _ (fun s h => h) F Ho) as (s & b & p & e & S & (_ & I & NE & C)). right. exists s.
    exists b, p, e. split; auto. unfold Card_Convert.one_entry in C. rewrite NE in C. unfold booked_names, modelled, norm_type, shape_type.
    assert (EN : entry A s b p e). { split; auto. intros X. apply no_effect_spec in X. congruence. }
    split; auto.
    destruct (smem (sl_type s) ["shape"; "shapeN"; "shape?"; "shapeU"]) eqn:S1.
    - assert (S2 : smem (sl_type s) ["lnN"; "lnU"] = false /\ shape_type (sl_type s)).
      { apply smem_In in S1.  unfold shape_type. destruct S1 as [S1|[S1|[S1|[S1|[]]]]]; rewrite <- S1; split; auto. }
      destruct S2 as [S2 S3]. rewrite S2. unfold shape_type in S3. split; auto.
      destruct (varied files mass A b p (sl_name s ++ "Up")), (varied files mass A b p (sl_name s ++ "Down")); try contradiction.
      + destruct C as (kf & _ & C). injection C as ->. cbn [syst_decls] in H. destruct symm; cbn [In] in H;
          repeat destruct H as [H|H]; try contradiction; injection H as <- <-; cbn; auto.
      + destruct C as (U & u & _ & C). injection C as ->. destruct H as [H|[]]. injection H as <- <-. split; [left; auto|]. cbn [kw_constrained kw_noi kw_plain].
        split; auto. destruct (String.eqb_spec (sl_type s) "shapeU") as [Q|Q]; auto. exfalso. destruct U as [U|U]; [|congruence].
        apply (td_free _ T s b p e S Q); auto.
    - destruct (smem (sl_type s) ["lnN"; "lnU"]) eqn:S2; [|discriminate]. destruct C as (u & _ & C). injection C as ->.
      apply smem_In in S2. assert (S3 : sl_type s = "lnN" \/ sl_type s = "lnU") by (destruct S2 as [<-|[<-|[]]]; auto).
      split; auto. destruct H as [H|[]]. injection H as <- <-. split.
      { repeat match goal with |- context [match ?x with Some _ => _ | None => _ end] => destruct x end; left; auto. }
      split; auto. cbn [kw_constrained kw_plain]. destruct S3 as [-> | ->]; auto.
  Qed.
  Lemma booked_nuisance s (u d : option (thist V)) n : In n (booked_names symm s u d) -> nuisance_of s n.
  Proof.
    unfold booked_names, nuisance_of. destruct u, d, (smem (sl_type s) ["lnN"; "lnU"]), symm; cbn; intuition.
  Qed.
  Lemma stable : constraint_stable ops.
  Proof.
    intros n [(k1 & H1 & C1) (k2 & H2 & C2)]. unfold all_systs in H1, H2.
    apply in_flat_map in H1 as (o1 & O1 & H1). apply in_flat_map in H2 as (o2 & O2 & H2).
    destruct (syst_decl _ _ _ O1 H1) as [(r & R & -> & ->)|(s & b & p & e & S & _ & _ & N & K & _)]; [discriminate|]. apply booked_nuisance in N.
    destruct (syst_decl _ _ _ O2 H2) as [(r & R & -> & ->)|(s' & b' & p' & e' & S' & _ & _ & N' & K' & _)]; [|apply booked_nuisance in N'].
    - destruct N as [N|[N|N]].
      + apply (td_rates _ T s r S R). auto.
      + apply (proj1 (td_suffix' _ T r s R S)). auto.
      + apply (proj2 (td_suffix' _ T r s R S)). auto.
    - rewrite (nuisance_inj s s' n S S' N N') in K. congruence.
  Qed.
  Lemma th_lengths b p : List.length (th_vars (th b p)) = List.length (th_vals (th b p)).
  Proof.
    unfold Card_Convert.th. destruct (tmpl b p) as [h|] eqn:E; auto. unfold template in E. destruct (used_shape A p b).
    - eapply FV; eauto.
    - destruct (dget b (ac_chans A)); [|discriminate]. destruct (pyfloat s); [|discriminate]. injection E as <-. auto.
  Qed.
  Theorem cleaned : clean ops.
  Proof.
    assert (K : Forall (fun o => wf_op o /\ no_stored_zeros o) ops).
    { destruct tail_kind as (tail & E & F). rewrite E. apply Forall_app. split.
      - apply Forall_forall. intros o H. apply in_flat_map in H as (b & _ & [<-|[<-|H]]).
        + cbn. auto.
        + cbn. split; auto. apply th_lengths.
        + apply in_map_iff in H as (k & <- & _). cbn. repeat split; auto. apply th_lengths.
      - apply Forall_forall. intros o H. destruct decompose as (sy & E' & (oss & FS & ->) & _).
        assert (tail = flat_map spec_rate (ac_rates A) ++ List.concat oss) by (eapply app_inv_head; rewrite <- E, <- E'; auto). subst tail.
        apply in_app_iff in H as [H|H].
        + apply in_flat_map in H as (r & _ & H). apply in_map_iff in H as (b & <- & _). cbn. auto.
        + destruct (systs_In _ _ _ (fun s h => h) FS H) as (s & b & p & e & _ & (_ & _ & NE & C)).
          unfold Card_Convert.one_entry in C. rewrite NE in C. destruct (smem (sl_type s) _).
          * destruct (varied _ _ _ _ _ _), (varied _ _ _ _ _ _); try contradiction.
            -- destruct C as (kf & _ & C). injection C as ->. cbn. auto.
            -- destruct C as (_ & u & _ & C). injection C as ->. cbn. auto.
          * destruct (smem (sl_type s) _); [|discriminate]. destruct C as (u & _ & C). injection C as ->. cbn. auto. }
    split; [|split; [|split]].
    - eapply Forall_impl; [|exact K]. cbn. tauto.
    - eapply Forall_impl; [|exact K]. cbn. tauto.
    - unfold channels_once. rewrite decls_ok, map_map. cbn [fst]. rewrite map_id. apply (wf_chans _ _ _ W).
    - apply stable.
  Qed.

  (** *** the workspace *)
  Theorem ws_channels :
    (forall b, In b (map fst (reader_ranges 0 (w_channels w))) <-> In b (chans A)) /\
    (forall b s e, In (b, (s, e)) (reader_ranges 0 (w_channels w)) -> e = s + size_of b) /\
    NoDup (map fst (reader_ranges 0 (w_channels w))) /\ tiles 0 (w_nbinsfull w) (reader_ranges 0 (w_channels w)).
  Proof.
    destruct Wr as (st & R & Wt). pose proof cleaned as (_ & _ & C3 & _).
    destruct (layout_correct cfg ops st w R Wt (once_stable _ C3)) as (L1 & L2 & L3 & _ & L5 & _).
    rewrite decls_ok in L2, L5. split; [|split; [|split]]; auto.
    - intros b. rewrite L2, map_map. cbn [fst]. rewrite map_id. tauto.
    - intros b s e H. destruct (L5 b s e H) as (i & D & ->). f_equal. unfold size_of.
      apply dget_In, dict_of_In in D. apply in_map_iff in D as (b' & E & _). injection E as -> <-. reflexivity.
  Qed.
  Theorem ws_processes :
    (forall p, In p (w_procs w) <-> exists k, In k (ac_cols A) /\ co_proc k = p) /\
    (forall p, In p (w_signals w) <-> exists k z, In k (ac_cols A) /\ co_proc k = p /\ pyint (co_idx k) = Some z /\ (z <= 0)%Z).
  Proof.
    destruct Wr as (st & R & Wt). destruct (proc_axis cfg ops st w R Wt) as (sg & bk & E1 & E2 & _ & _ & _ & S & B).
    assert (SG : forall k, In k (ac_cols A) -> signal_col k = true <-> exists z, pyint (co_idx k) = Some z /\ (z <= 0)%Z).
    { intros k K. unfold signal_col. destruct (pyint (co_idx k)) as [z|].
      - rewrite Z.leb_le. split; [eauto|]. intros (z' & H & L). congruence.
      - split; [discriminate|]. intros (z & H & _). discriminate. }
    split.
    - intros p. rewrite E1, in_app_iff, S, B, !proc_decls_ok. split.
      + intros [(k & K & X & _)|(k & K & X & _)]; eauto.
      + intros (k & K & X). destruct (signal_col k) eqn:Q; eauto.
    - intros p. rewrite E2, S, proc_decls_ok. split.
      + intros (k & K & X & Q). symmetry in Q. apply SG in Q as (z & Z1 & Z2); auto. exists k, z. auto.
      + intros (k & z & K & X & Z1 & Z2). exists k. split; auto. split; auto. symmetry. apply SG; eauto.
  Qed.
  Theorem ws_data b s e i h : In (b, (s, e)) (reader_ranges 0 (w_channels w)) -> i < e - s -> tmpl b "data_obs" = Some h ->
    w_data_obs w (s + i) = nth i (th_vals h) n0.
  Proof.
    intros H I E. destruct Wr as (st & R & Wt). pose proof cleaned as (_ & _ & C3 & _).
    assert (D : exists info, dget b (w_channels w) = Some info /\ ch_masked info = false).
    { destruct (run_chan_init cfg ops st R (once_stable _ C3)) as [L _]. destruct (write_fields cfg st w Wt) as (EC & _).
      assert (K : In b (dkeys (w_channels w))) by (rewrite <- (reader_names _ 0); apply in_map_iff; exists (b, (s, e)); auto).
      destruct (dget b (w_channels w)) as [info|] eqn:D; [|apply dget_None in D; contradiction]. exists info. split; auto.
      rewrite EC, L in D. apply dget_In in D. apply in_app_iff in D as [D|D]; [eapply layoutU_flag; eauto|].
      apply layoutM_sub in D. rewrite decls_ok in D. apply in_map_iff in D as (b' & X & _). injection X as _ <-. auto. }
    destruct D as (info & D & M).
    destruct (written_data cfg ops st w R Wt (once_stable _ C3) b s e info H D M) as (v & Iv & K).
    apply in_map_iff in Iv as ([b' [v1 v2]] & X & Iv). cbn in X. injection X as -> ->. apply data_ok in Iv as [_ Iv]. injection Iv as -> _.
    rewrite (K i I). unfold Card_Convert.th. rewrite E. auto.
  Qed.

  (** *** templates *)
  Theorem ws_template b p h i r ip : (exists k, In k (ac_cols A) /\ co_key k = (b, p)) -> tmpl b p = Some h -> at_point w b p i r ip ->
    view_norm (w_tensors w) r ip = spec_clip (c_allowneg cfg) (nth i (th_vals h) n0) /\
    w_sumw w r ip = spec_clip (c_allowneg cfg) (nth i (th_vals h) n0) /\ w_sumw2 w r ip = nth i (th_vars h) n0.
  Proof.
    intros (k & K & E) H AP.
    assert (I : In (AddProcess (HDense (th_vals h) (th_vars h)) p b (signal_col k) None) ops).
    { apply process_In. exists k. split; auto. split; auto. unfold Card_Convert.th. rewrite H. auto. }
    apply (Writer_Props.C03_template V NV NL cfg ops w Wr cleaned _ _ _ _ _ I i r ip AP).
  Qed.
  Lemma nominal_at b p h i : (exists k, In k (ac_cols A) /\ co_key k = (b, p)) -> tmpl b p = Some h ->
    spec_norm (c_allowneg cfg) ops b p i = spec_clip (c_allowneg cfg) (nth i (th_vals h) n0).
  Proof.
    intros K H. unfold spec_norm.
    assert (G : forall o x, In o ops -> op_proc b p o = Some x -> x = (HDense (th_vals h) (th_vars h), None)).
    { intros o x Ho Q. destruct o; try discriminate. cbn [op_proc] in Q.
      destruct (String.eqb_spec b ch); [|discriminate]. destruct (String.eqb_spec p name); [|discriminate]. cbn in Q. subst.
      apply process_In in Ho as (k' & _ & _ & -> & _ & ->). unfold Card_Convert.th in Q. rewrite H in Q. congruence. }
    destruct (last_of (op_proc b p) ops) as [x|] eqn:L.
    - assert (exists o, In o ops /\ op_proc b p o = Some x) as (o & O1 & O2).
      { revert L. unfold last_of. assert (X : forall l acc, fold_left (fun acc o => match op_proc b p o with Some e => Some e | None => acc end) l acc = Some x ->
            acc = Some x \/ exists o, In o l /\ op_proc b p o = Some x).
        { clear. induction l as [|o l IH]; intros acc H; cbn [fold_left] in H; auto. apply IH in H as [H|(o' & I & H)].
          - destruct (op_proc b p o) eqn:Q; auto. right. exists o. split; [left; auto|congruence].
          - right. exists o'. split; [right; auto|auto]. }
        intros Q. apply X in Q as [Q|Q]; [discriminate|auto]. }
      rewrite (G o x O1 O2). auto.
    - exfalso. destruct K as (k & K & E).
      assert (I : In (AddProcess (HDense (th_vals h) (th_vars h)) p b (signal_col k) None) ops).
      { apply process_In. exists k. split; auto. split; auto. unfold Card_Convert.th. rewrite H. auto. }
      pose proof (proj1 (last_of_None _ _) L _ I) as Q. cbn [op_proc] in Q. rewrite !String.eqb_refl in Q. discriminate.
  Qed.
  Theorem ws_unbooked b p i r ip : at_point w b p i r ip -> (forall k, In k (ac_cols A) -> co_key k <> (b, p)) ->
    view_norm (w_tensors w) r ip = n0.
  Proof.
    intros AP N. destruct (view_point cfg ops w b p i r ip Wr cleaned AP) as (E & _). rewrite E. unfold spec_norm.
    replace (last_of (op_proc b p) ops) with (@None (histo V * option (list V))); auto. symmetry. apply last_of_None. intros o Ho.
    destruct o; auto. cbn [op_proc]. destruct (String.eqb_spec b ch); auto. destruct (String.eqb_spec p name); auto. subst. exfalso.
    apply process_In in Ho as (k & K & Q & _). apply (N k K). auto.
  Qed.

  (** *** nuisances *)
  Definition syst_nuisance (s : sline) (n : string) : Prop := exists b p e, entry A s b p e /\ modelled (sl_type s) /\
    In n (booked_names symm s (varied files mass A b p (sl_name s ++ "Up")) (varied files mass A b p (sl_name s ++ "Down"))).
  Definition acts (r : rline) : Prop := rl_chan r = "*" -> chans A <> [].
  Lemma rate_op r b : In r (ac_rates A) -> (rl_chan r = "*" /\ In b (chans A) \/ rl_chan r <> "*" /\ b = rl_chan r) ->
    In (AddNormSystematic (rl_name r) (rate_procs c r) b [UScalar k101] Average kw_free) ops.
  Proof.
    intros R H. destruct decompose as (sy & -> & _). apply in_app_iff. right. apply in_app_iff. left. apply in_flat_map. exists r. split; auto.
    unfold Card_Convert.spec_rate. apply in_map_iff. exists b. split; auto.
    destruct (String.eqb_spec (rl_chan r) "*"); destruct H as [[? ?]|[? ->]]; auto; try contradiction. left. auto.
  Qed.
  Lemma call_in s b p e o : call s b p e o -> modelled (sl_type s) -> In o ops.
  Proof.
    intros (S & I & NE & C) M. destruct (with_entry b p s e S M) as (o' & (_ & _ & _ & C') & L).
    { split; auto. intros X. apply no_effect_spec in X. congruence. }
    assert (o = o').
    { unfold Card_Convert.one_entry in *. rewrite NE in *. assert (FF : forall u u', factor pyfloat e u -> factor pyfloat e u' -> u = u').
      { unfold factor. intros u u'. destruct (Parse_Model.splitc _ _) as [|? [|? [|? ?]]]; try contradiction.
        - intros (x & E & ->) (x' & E' & ->). congruence.
        - intros (x & y & E & F & ->) (x' & y' & E' & F' & ->). congruence. }
      destruct (smem (sl_type s) _).
      - destruct (varied _ _ _ _ _ _), (varied _ _ _ _ _ _); try contradiction.
        + destruct C as (kf & E & C), C' as (kf' & E' & C'). congruence.
        + destruct C as (_ & u & E & C), C' as (_ & u' & E' & C'). rewrite (FF _ _ E E') in C. congruence.
      - destruct (smem (sl_type s) _); [|discriminate]. destruct C as (u & E & C), C' as (u' & E' & C'). rewrite (FF _ _ E E') in C. congruence. }
    subst o'. destruct (L (sl_name s) (or_introl eq_refl)) as (o1 & o2 & -> & _). apply in_app_iff. right. left. auto.
  Qed.
  Lemma syst_declared s n : In s (ac_systs A) -> syst_nuisance s n -> exists kw, In (n, kw) (all_systs ops).
  Proof.
    intros S (b & p & e & E & M & N). destruct (with_entry b p s e S M E) as (o & C & L).
    assert (Ho : In o ops) by (destruct (L _ (or_introl eq_refl)) as (o1 & o2 & -> & _); apply in_app_iff; right; left; auto).
    destruct C as (_ & _ & NE & C). unfold Card_Convert.one_entry in C. rewrite NE in C.
    assert (X : exists kw, In (n, kw) (syst_decls o)).
    { unfold booked_names in N. destruct (smem (sl_type s) ["shape"; "shapeN"; "shape?"; "shapeU"]) eqn:S1.
      - assert (S2 : smem (sl_type s) ["lnN"; "lnU"] = false).
        { apply smem_In in S1. destruct S1 as [S1|[S1|[S1|[S1|[]]]]]; rewrite <- S1; auto. }
        rewrite S2 in N. destruct (varied files mass A b p (sl_name s ++ "Up")), (varied files mass A b p (sl_name s ++ "Down")); try contradiction.
        + destruct C as (kf & _ & C). injection C as ->. cbn [syst_decls]. destruct symm; cbn [In] in N |- *;
            repeat destruct N as [N|N]; try contradiction; subst; eexists; eauto.
        + destruct C as (_ & u & _ & C). injection C as ->. destruct N as [<-|[]]. eexists. left. eauto.
      - destruct (smem (sl_type s) ["lnN"; "lnU"]); [|discriminate]. destruct C as (u & _ & C). injection C as ->.
        assert (n = sl_name s). { repeat match type of N with context [match ?x with Some _ => _ | None => _ end] => destruct x end; destruct N as [<-|[]]; auto. }
        subst. eexists. left. eauto. }
    destruct X as (kw & X). exists kw. unfold all_systs. apply in_flat_map. eauto.
  Qed.
  Lemma rate_declared r : In r (ac_rates A) -> acts r -> In (rl_name r, kw_free) (all_systs ops).
  Proof.
    intros R AC. assert (exists b, rl_chan r = "*" /\ In b (chans A) \/ rl_chan r <> "*" /\ b = rl_chan r) as (b & B).
    { destruct (String.eqb_spec (rl_chan r) "*") as [E|E]; [|eauto]. specialize (AC E). destruct (chans A) as [|b l]; [contradiction|]. exists b. left. split; auto. left. auto. }
    unfold all_systs. apply in_flat_map. eexists. split; [apply rate_op; eauto|]. left. auto.
  Qed.
  Lemma rate_acts r o : In o (spec_rate r) -> acts r.
  Proof. unfold Card_Convert.spec_rate, acts. intros H E. rewrite E in H. cbn in H. destruct (chans A); [contradiction|discriminate]. Qed.
  Lemma declared_iff n kw : In (n, kw) (all_systs ops) ->
    (exists r, In r (ac_rates A) /\ acts r /\ n = rl_name r /\ kw = kw_free) \/
    (exists s, In s (ac_systs A) /\ syst_nuisance s n /\ kw_constrained kw = negb (String.eqb (sl_type s) "shapeU") /\ kw_noi kw = false).
  Proof.
    intros H. unfold all_systs in H. apply in_flat_map in H as (o & O & H).
    destruct (syst_decl _ _ _ O H) as [(r & R & -> & ->)|(s & b & p & e & S & E & M & N & K & Q)].
    - left. (* which line does the call come from? *)
      destruct decompose as (sy & EO & (oss & F & ->) & _). rewrite EO in O. apply in_app_iff in O as [O|O].
      { apply in_flat_map in O as (b & _ & [<-|[<-|O]]); try contradiction. apply in_map_iff in O as (k & <- & _). contradiction. }
      apply in_app_iff in O as [O|O].
      + apply in_flat_map in O as (r' & R' & O). exists r'. split; auto. split; [eapply rate_acts; eauto|].
        apply in_map_iff in O as (b & <- & _). destruct H as [H|[]]. injection H as E. auto.
      + exfalso. destruct (systs_In _ _ _ (fun s h => h) F O) as (s & b & p & e & S & C).
        assert (N : nuisance_of s (rl_name r)).
        { destruct C as (_ & _ & NE & C). unfold Card_Convert.one_entry in C. rewrite NE in C. unfold nuisance_of. destruct (smem (sl_type s) _).
          - destruct (varied _ _ _ _ _ _), (varied _ _ _ _ _ _); try contradiction.
            + destruct C as (kf & _ & C). injection C as ->. cbn [syst_decls] in H. destruct symm; cbn [In] in H; repeat destruct H as [H|H]; try contradiction; injection H; auto.
            + destruct C as (_ & u & _ & C). injection C as ->. destruct H as [H|[]]. injection H. auto.
          - destruct (smem (sl_type s) _); [|discriminate]. destruct C as (u & _ & C). injection C as ->. destruct H as [H|[]]. injection H. auto. }
        destruct N as [N|[N|N]].
        * apply (td_rates _ T s r S R). auto.
        * apply (proj1 (td_suffix' _ T r s R S)). auto.
        * apply (proj2 (td_suffix' _ T r s R S)). auto.
    - right. exists s. split; auto. split; auto. exists b, p, e. auto.
  Qed.
  Theorem ws_nuisances :
    NoDup (w_systs w) /\
    (forall n, In n (w_systs w) <-> (exists r, In r (ac_rates A) /\ acts r /\ n = rl_name r) \/ (exists s, In s (ac_systs A) /\ syst_nuisance s n)) /\
    (forall k r, In r (ac_rates A) -> nth_error (w_systs w) k = Some (rl_name r) -> nth_error (w_cw w) k = Some n0) /\
    (forall k s n, In s (ac_systs A) -> syst_nuisance s n -> nth_error (w_systs w) k = Some n ->
       nth_error (w_cw w) k = Some (if String.eqb (sl_type s) "shapeU" then n0 else n1)) /\
    (forall k, ~ In k (w_noiidxs w)).
  Proof.
    destruct Wr as (st & R & Wt). destruct (Writer_Props.C05_metadata V NV cfg ops st w R Wt stable) as (M1 & M2 & _ & M4 & _ & M6).
    split; auto. split; [|split; [|split]].
    - intros n. rewrite M2. split.
      + intros (kw & H). destruct (declared_iff _ _ H) as [(r & ? & ? & ? & _)|(s & ? & ? & _)]; [left|right]; eauto.
      + intros [(r & H1 & H2 & ->)|(s & H1 & H2)]; [exists kw_free; apply rate_declared; auto|apply (syst_declared s); auto].
    - intros k r Hr K. apply (M6 k _ K). assert (H : In (rl_name r) (w_systs w)) by (eapply nth_error_In; eauto). apply M2 in H as (kw & H).
      exists kw. split; auto. destruct (declared_iff _ _ H) as [(r' & ? & ? & _ & ->)|(s & S & (b & p & e & _ & _ & N) & _)]; auto. exfalso.
      apply booked_nuisance in N. destruct N as [N|[N|N]].
      + apply (td_rates _ T s r S Hr). auto.
      + apply (proj1 (td_suffix' _ T r s Hr S)). auto.
      + apply (proj2 (td_suffix' _ T r s Hr S)). auto.
    - intros k s n S N K. destruct (syst_declared s n S N) as (kw & H). destruct (M6 k n K) as [U C].
      destruct (declared_iff _ _ H) as [(r' & Hr & _ & -> & _)|(s' & S' & N' & Q & _)].
      + exfalso. destruct N as (b & p & e & _ & _ & N). apply booked_nuisance in N. destruct N as [N|[N|N]].
        * apply (td_rates _ T s r' S Hr). auto.
        * apply (proj1 (td_suffix' _ T r' s Hr S)). auto.
        * apply (proj2 (td_suffix' _ T r' s Hr S)). auto.
      + assert (s = s').
        { destruct N as (b & p & e & _ & _ & N), N' as (b' & p' & e' & _ & _ & N'). eapply nuisance_inj; eauto using booked_nuisance. }
        subst s'. destruct (String.eqb (sl_type s) "shapeU"); cbn in Q; [apply U|apply C]; exists kw; auto.
    - intros k H. apply M4 in H as (n & K & kw & H & Q). destruct (declared_iff _ _ H) as [(r & _ & _ & _ & ->)|(s & _ & _ & _ & X)]; [discriminate|congruence].
  Qed.

  (** *** no entry, no effect *)
  Theorem ws_no_entry b p i r ip s k n : at_point w b p i r ip -> In s (ac_systs A) -> nuisance_of s n -> nth_error (w_systs w) k = Some n ->
    (forall e, ~ entry A s b p e) ->
    view_logk (w_tensors w) r ip k = n0 /\ (w_symmetric w = false -> view_logk (w_tensors w) r ip (List.length (w_systs w) + k) = n0).
  Proof.
    intros AP S N K NE. destruct (view_point cfg ops w b p i r ip Wr cleaned AP) as (_ & _ & _ & H). destruct (H k n K) as [H1 H2].
    pose proof (no_entry b p s n S N NE) as L. split; [rewrite H1; unfold spec_avg; rewrite L; auto|]. intros Y. rewrite (H2 Y). unfold spec_half.
    replace (last_of (op_half b p n) ops) with (@None (effect V)); auto. symmetry. apply last_of_None. intros o Ho.
    pose proof (proj1 (last_of_None _ _) L o Ho) as Q. destruct o; auto. cbn [op_half op_avg] in *. destruct h; auto. destruct m; auto.
    destruct (String.eqb b ch && String.eqb p p0); auto. destruct (String.eqb n name); [discriminate|auto].
  Qed.

  (** *** rate parameters: on or off *)
  Lemma rate_reach r b p : In r (ac_rates A) ->
    (exists o, In o (spec_rate r) /\ op_avg b p (rl_name r) o <> None) <-> reaches A r b p.
  Proof.
    intros R. unfold reaches, Card_Convert.spec_rate, rate_procs.
    assert (Q : forall l, last_pair p (combine l [UScalar k101]) = if match hd_error l with Some x => String.eqb p x | None => false end then Some (UScalar k101) else None).
    { intros [|x [|y l]]; auto; cbn; destruct (String.eqb p x); auto. }
    split.
    - intros (o & Ho & H). apply in_map_iff in Ho as (b' & <- & Hb). cbn [op_avg] in H. rewrite String.eqb_refl, andb_true_r in H.
      destruct (String.eqb_spec b b') as [<-|]; [|congruence]. rewrite Q in H. split.
      + destruct (String.eqb_spec (rl_chan r) "*"); [left|right]; auto. destruct Hb as [<-|[]]. auto.
      + destruct (String.eqb_spec (rl_proc r) "*"); [left|right]; split; auto.
        * rewrite (pa_first _ _ _ P) in H. destruct (hd_error _) as [x|]; [|congruence]. destruct (String.eqb_spec p x); congruence.
        * cbn [hd_error] in H. destruct (String.eqb_spec p (rl_proc r)); congruence.
    - intros [B HP]. eexists. split.
      + apply in_map_iff. exists b. split; [reflexivity|]. destruct (String.eqb_spec (rl_chan r) "*"), B as [[? ?]|[? ->]]; auto; try contradiction. left. auto.
      + cbn [op_avg]. rewrite !String.eqb_refl. cbn [andb]. rewrite Q.
        destruct (String.eqb_spec (rl_proc r) "*"), HP as [[? HP]|[? HP]]; try contradiction.
        * rewrite (pa_first _ _ _ P), HP, String.eqb_refl. discriminate.
        * subst p. cbn [hd_error]. rewrite String.eqb_refl. discriminate.
  Qed.
  Lemma rate_effect b p n : (forall s, In s (ac_systs A) -> ~ nuisance_of s n) ->
    ((exists r, In r (ac_rates A) /\ rl_name r = n /\ reaches A r b p) -> last_of (op_avg b p n) ops = Some (ENormOne k101)) /\
    (~ (exists r, In r (ac_rates A) /\ rl_name r = n /\ reaches A r b p) -> last_of (op_avg b p n) ops = None).
  Proof.
    intros NS.
    assert (G : forall o x, In o ops -> op_avg b p n o = Some x -> x = ENormOne k101 /\ exists r, In r (ac_rates A) /\ rl_name r = n /\ reaches A r b p).
    { intros o x Ho Q. destruct decompose as (sy & EO & (oss & F & ->) & _). rewrite EO in Ho. apply in_app_iff in Ho as [Ho|Ho].
      { apply in_flat_map in Ho as (b0 & _ & H). rewrite (chan_avg _ _ _ _ _ H) in Q. discriminate. }
      apply in_app_iff in Ho as [Ho|Ho].
      - apply in_flat_map in Ho as (r & Hr & Ho). pose proof Ho as Ho'. apply in_map_iff in Ho as (b' & E & _). subst o. cbn [op_avg] in Q.
        destruct (String.eqb_spec b b'); [|discriminate]. destruct (String.eqb_spec n (rl_name r)) as [->|]; [|discriminate]. cbn [andb] in Q.
        split.
        + destruct (last_pair _ _) as [u|] eqn:L; [|discriminate].
          assert (u = UScalar k101). { destruct (rate_procs c r) as [|x0 [|y0 l0]]; cbn in L; try discriminate; destruct (String.eqb p x0); congruence. }
          subst u. congruence.
        + exists r. split; auto. split; auto. apply rate_reach; auto. eexists. split; [exact Ho'|]. cbn [op_avg]. rewrite <- e, !String.eqb_refl. cbn [andb].
          rewrite Q. discriminate.
      - destruct (systs_In _ _ _ (fun s h => h) F Ho) as (s & b' & p' & e & S & C).
        destruct (call_avg _ _ _ _ _ b p n C ltac:(rewrite Q; discriminate)) as (_ & _ & N). exfalso. apply (NS s S N). }
    split.
    - intros (r & Hr & <- & X). apply rate_reach in X as (o & Ho & Q); auto.
      assert (Io : In o ops). { destruct decompose as (sy & -> & _). apply in_app_iff. right. apply in_app_iff. left. apply in_flat_map. eauto. }
      destruct (last_of (op_avg b p (rl_name r)) ops) as [x|] eqn:L.
      + assert (exists o, In o ops /\ op_avg b p (rl_name r) o = Some x) as (o' & O1 & O2).
        { revert L. unfold last_of. assert (X : forall l acc, fold_left (fun acc o => match op_avg b p (rl_name r) o with Some e => Some e | None => acc end) l acc = Some x ->
            acc = Some x \/ exists o, In o l /\ op_avg b p (rl_name r) o = Some x).
          { clear. induction l as [|o l IH]; intros acc H; cbn [fold_left] in H; auto. apply IH in H as [H|(o' & I & H)].
            - destruct (op_avg b p (rl_name r) o) eqn:Q; auto. right. exists o. split; [left; auto|congruence].
            - right. exists o'. split; [right; auto|auto]. }
          intros Y. apply X in Y as [Y|Y]; [discriminate|auto]. }
        destruct (G o' x O1 O2) as [-> _]. auto.
      + exfalso. apply Q. apply (proj1 (last_of_None _ _) L o Io).
    - intros N. apply last_of_None. intros o Ho. destruct (op_avg b p n o) as [x|] eqn:Q; auto. exfalso. apply N. apply (G o x Ho Q).
  Qed.
End Workspace.
