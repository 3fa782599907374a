(** The parser reads a laid out card as the card it is. *)
From Coq Require Import List Arith Bool String Ascii ZArith Lia.
From Verif Require Import PyList PyDict ListUtil Num Names_Model Writer_Model Card_Model Card_Spec.
From Verif Require Parse_Model.
Import ListNotations.
Local Open Scope nat_scope.
Local Open Scope string_scope.
Local Open Scope list_scope.

(** ** dictionaries keyed by pairs *)
Lemma keqb_spec a b : keqb a b = true <-> a = b.
Proof.
  destruct a, b. unfold keqb. cbn. rewrite andb_true_iff, !String.eqb_eq. split; [intros [-> ->]; auto|]. intros H. injection H. auto.
Qed.
Lemma keqb_refl a : keqb a a = true.
Proof. apply keqb_spec. auto. Qed.
Lemma keqb_neq a b : a <> b -> keqb a b = false.
Proof. intros H. destruct (keqb a b) eqn:E; auto. apply keqb_spec in E. contradiction. Qed.
Lemma kset_new {B} k (v : B) d : ~ In k (map fst d) -> kset k v d = d ++ [(k, v)].
Proof.
  induction d as [|[k' v'] d IH]; cbn; intros H; auto. rewrite keqb_neq by (intros ->; apply H; auto). rewrite IH by (intros X; apply H; auto). auto.
Qed.
Lemma kget_kset {B} k k' (v : B) d : kget k' (kset k v d) = if keqb k' k then Some v else kget k' d.
Proof.
  induction d as [|[k2 v2] d IH]; cbn.
  - destruct (keqb k' k); auto.
  - destruct (keqb k k2) eqn:E; cbn.
    + apply keqb_spec in E. subst. destruct (keqb k' k2); auto.
    + rewrite IH. destruct (keqb k' k2) eqn:E2; auto. apply keqb_spec in E2. subst. destruct (keqb k2 k) eqn:E3; auto.
      apply keqb_spec in E3. subst. rewrite keqb_refl in E. discriminate.
Qed.
Lemma kget_app {B} k (a b : list (key * B)) : kget k (a ++ b) = match kget k a with Some v => Some v | None => kget k b end.
Proof. induction a as [|[k' v] a IH]; cbn; auto. destruct (keqb k k'); auto. Qed.
Lemma kget_In {B} k (v : B) d : kget k d = Some v -> In (k, v) d.
Proof.
  induction d as [|[k' v'] d IH]; cbn; [discriminate|]. destruct (keqb k k') eqn:E.
  - apply keqb_spec in E. subst. intros H. injection H as ->. auto.
  - auto.
Qed.
Lemma kget_NoDup {B} k (v : B) d : NoDup (map fst d) -> In (k, v) d -> kget k d = Some v.
Proof.
  induction d as [|[k' v'] d IH]; cbn; intros N H; [contradiction|]. inversion N as [|? ? N1 N2]. subst. destruct H as [H|H].
  - injection H as -> ->. rewrite keqb_refl. auto.
  - rewrite keqb_neq; auto. intros ->. apply N1. apply in_map_iff. exists (k', v). auto.
Qed.
Lemma kget_notin {B} k (d : list (key * B)) : ~ In k (map fst d) -> kget k d = None.
Proof.
  induction d as [|[k' v] d IH]; cbn; intros H; auto. rewrite keqb_neq by (intros ->; apply H; auto). apply IH. intros X. apply H. auto.
Qed.

(** ** searches *)
Lemma filter_one {A} (f : A -> bool) l x : filter f l = [x] ->
  exists a b, l = a ++ x :: b /\ f x = true /\ Forall (fun y => f y = false) a /\ Forall (fun y => f y = false) b.
Proof.
  induction l as [|y l IH]; cbn; [discriminate|]. destruct (f y) eqn:E.
  - intros H. injection H as -> H. exists [], l. repeat split; auto.
    clear - H. induction l as [|z l IH]; constructor; cbn in H; destruct (f z) eqn:E; auto; discriminate.
  - intros H. destruct (IH H) as (a & b & -> & F & F1 & F2). exists (y :: a), b. repeat split; auto.
Qed.
Lemma find_skip {A} (f : A -> bool) a x b : Forall (fun y => f y = false) a -> f x = true -> find f (a ++ x :: b) = Some x.
Proof. intros F H. induction F as [|y a E F IH]; cbn; [rewrite H|rewrite E]; auto. Qed.

Lemma find_bin_at b : forall (pre : list line) first rest x, Forall (fun l => starts "bin" l = false) pre -> starts "bin" (x : line) = true -> b = x ->
  match rest with l :: _ => starts "process" l = false | [] => True end ->
  find_bin first (pre ++ x :: rest) = Some b.
Proof.
  induction pre as [|l pre IH]; cbn [app find_bin]; intros first rest x F X -> R.
  - rewrite X. cbn [andb]. unfold process_bin_line. destruct rest as [|n rest]; [rewrite andb_false_r; auto|]. rewrite R, andb_false_r. auto.
  - inversion F. subst. rewrite H1. cbn [andb]. apply IH; auto.
Qed.

Lemma find_block_at : forall (pre : list line) b1 b2 b3 b4 rest, Forall (fun l => starts "process" l = false) pre ->
  starts "bin" b1 = true -> starts "process" b1 = false -> starts "process" b2 = true -> starts "process" b3 = true -> starts "rate" b4 = true ->
  find_block (pre ++ b1 :: b2 :: b3 :: b4 :: rest) = Some (b1, b2, b3, b4).
Proof.
  induction pre as [|l pre IH]; intros b1 b2 b3 b4 rest F H1 H1' H2 H3 H4.
  - cbn. rewrite H1, H2, H3, H4. auto.
  - inversion F as [|? ? Fl Fp]. subst. cbn [app find_block].
    assert (N : match pre ++ b1 :: b2 :: b3 :: b4 :: rest with n :: _ => starts "process" n = false | [] => True end).
    { destruct pre as [|n pre]; cbn; auto. inversion Fp. auto. }
    specialize (IH b1 b2 b3 b4 rest Fp H1 H1' H2 H3 H4).
    destruct (pre ++ b1 :: b2 :: b3 :: b4 :: rest) as [|n [|n2 [|n3 r]]] eqn:E;
      try (apply (f_equal (@List.length line)) in E; rewrite app_length in E; cbn in E; lia).
    rewrite N, !andb_false_r. cbn [andb]. auto.
Qed.
Lemma after_rate_at : forall (pre : list line) x rest, Forall (fun l => starts "rate" l = false) pre -> starts "rate" x = true ->
  after_rate (pre ++ x :: rest) = Some rest.
Proof. induction pre as [|l pre IH]; cbn; intros x rest F H; [rewrite H; auto|]. inversion F. subst. rewrite H2. auto. Qed.

Section Parse.
  Context {V : Type} {NV : Num V}.
  Variable pyfloat : string -> option V.
  Variable exists_file : string -> bool.

  Lemma header_ok lines : Forall (fun l => starts "imax" l = true \/ starts "jmax" l = true \/ starts "kmax" l = true -> 2 <= List.length l) lines ->
    forall h, exists h', parse_header h lines = Ok h'.
  Proof.
    assert (HV : forall l : line, 2 <= List.length l -> exists v, header_value l = Ok v).
    { intros [|a [|b l]] H; cbn in *; try lia. eauto. }
    induction 1 as [|l r H F IH]; intros h; cbn [parse_header]; [eauto|].
    destruct (starts "imax" l) eqn:E1; [|destruct (starts "jmax" l) eqn:E2; [|destruct (starts "kmax" l) eqn:E3; [|apply IH]]];
      (destruct (HV l) as [v ->]; [apply H; auto|]; apply IH).
  Qed.

  (** *** observations *)
  Lemma set_obs_ok : forall bins obs d, List.length bins = List.length obs -> Forall (fun t => exists v, pyfloat t = Some v) obs -> NoDup bins ->
    exists d', set_obs pyfloat bins obs d = Ok d' /\
      (forall b, ~ In b bins -> dget b d' = dget b d) /\
      (forall b t, In (b, t) (combine bins obs) -> dget b d' = pyfloat t).
  Proof.
    induction bins as [|b bins IH]; intros [|o obs] d L F N; cbn in L; try lia; cbn [set_obs combine].
    - exists d. repeat split; auto. intros ? ? [].
    - inversion F as [|? ? [v E] F']. subst. inversion N as [|? ? N1 N2]. subst. unfold tofloat. rewrite E. cbn [rbind].
      destruct (IH obs (dset b v d) ltac:(lia) F' N2) as (d' & S & O & I). exists d'. split; auto. split.
      + intros x H. rewrite O by (intros X; apply H; cbn; auto). apply dget_dset_other. intros ->. apply H. cbn. auto.
      + intros x t [H|H]; auto. injection H as <- <-. rewrite O; auto. rewrite dget_dset_same. auto.
  Qed.

  (** *** columns *)
  Lemma set_indices_ok : forall names idx d, List.length names = List.length idx ->
    (forall n i n' i', In (n, i) (combine names idx) -> In (n', i') (combine names idx) -> n = n' -> pyint i = pyint i') ->
    (forall i, In i idx -> exists z, pyint i = Some z) ->
    exists d', set_indices names idx d = Ok d' /\
      (forall n, ~ In n names -> dget n d' = dget n d) /\
      (forall n i, In (n, i) (combine names idx) -> dget n d' = pyint i).
  Proof.
    induction names as [|n names IH]; intros [|i idx] d L C F; cbn in L; try lia; cbn [set_indices].
    - exists d. repeat split; auto. intros ? ? [].
    - destruct (F i) as [z Z]; [left; auto|]. assert (toint i = Ok z) as ->.
      { unfold toint. unfold pyint in Z. destruct (Parse_Model.py_int (Parse_Model.T i)); congruence. }
      cbn [rbind]. destruct (IH idx (dset n z d)) as (d' & S & O & I); [lia| |intros; apply F; right; auto|].
      { intros. eapply C; cbn; eauto. }
      exists d'. split; auto. split.
      + intros x H. rewrite O by (intros X; apply H; cbn; auto). apply dget_dset_other. intros ->. apply H. cbn. auto.
      + cbn [combine]. intros x t [H|H]; auto. injection H as <- <-.
        destruct (in_dec string_dec n names) as [H|H].
        * destruct (In_nth_error _ _ H) as [j J]. assert (exists i', nth_error idx j = Some i') as [i' J'].
          { destruct (nth_error idx j) eqn:Q; eauto. apply nth_error_None in Q. assert (nth_error names j <> None) by congruence. apply nth_error_Some in H0. lia. }
          assert (In (n, i') (combine names idx)).
          { clear - J J'. revert idx j J J'. induction names as [|a names IH]; intros [|b idx] [|j] J J'; cbn in *; try discriminate; auto.
            - injection J as ->. injection J' as ->. auto.
            - right. eauto. }
          rewrite (I n i') by auto. eapply (C n i' n i); cbn; auto.
        * rewrite O by auto. rewrite dget_dset_same. auto.
  Qed.

  Lemma set_rates_ok : forall cols m d,
    (forall c, In c cols -> exists v, pyfloat (co_rate c) = Some v) ->
    NoDup (map fst d ++ map co_key cols) ->
    (forall b e n, dget b m = Some e -> In n (dkeys e) -> In (b, n) (map fst d)) ->
    exists m' d', set_rates pyfloat (map co_bin cols) (map co_proc cols) (map co_rate cols) m d = Ok (m', d') /\
      map fst d' = map fst d ++ map co_key cols /\
      (forall k, In k (map fst d) -> kget k d' = kget k d) /\
      (forall c, In c cols -> kget (co_key c) d' = pyfloat (co_rate c)) /\
      (forall b, let new := map co_proc (filter (fun k => String.eqb (co_bin k) b) cols) in
         match dget b m with
         | Some e => exists e', dget b m' = Some e' /\ dkeys e' = dkeys e ++ new
         | None => new <> [] -> exists e', dget b m' = Some e' /\ dkeys e' = new
         end).
  Proof.
    induction cols as [|c cols IH]; intros m d F N C; cbn [map set_rates].
    - exists m, d. repeat split; auto. { rewrite app_nil_r. auto. } { intros ? []. }
      intros b. cbn. destruct (dget b m) as [e|]; [|congruence]. exists e. rewrite app_nil_r. auto.
    - destruct (F c) as [v E]; [left; auto|]. unfold tofloat. rewrite E. cbn [rbind].
      assert (NK : ~ In (co_key c) (map fst d)).
      { cbn [map] in N. apply NoDup_remove_2 in N. intros X. apply N. apply in_app_iff. auto. }
      change (co_bin c, co_proc c) with (co_key c). rewrite kset_new by auto.
      set (old := match dget (co_bin c) m with Some e => e | None => [] end).
      assert (NO : ~ In (co_proc c) (dkeys old)).
      { unfold old. destruct (dget (co_bin c) m) as [e|] eqn:Q; [|intros []]. intros X. apply NK. eapply C; eauto. }
      assert (KO : dkeys (dset (co_proc c) v old) = dkeys old ++ [co_proc c]).
      { clear - NO. induction old as [|[k x] old IH]; cbn; auto. cbn in NO. destruct (String.eqb_spec (co_proc c) k); [subst; exfalso; auto|].
        cbn. f_equal. apply IH. auto. }
      destruct (IH (dset (co_bin c) (dset (co_proc c) v old) m) (d ++ [(co_key c, v)])) as (m' & d' & S & K & O & I & M).
      { intros. apply F. right. auto. }
      { rewrite map_app, <- app_assoc. auto. }
      { intros b e n G H. rewrite map_app, in_app_iff. rewrite dget_dset in G. destruct (String.eqb_spec (co_bin c) b).
        - subst b. injection G as <-. rewrite KO, in_app_iff in H. destruct H as [H|[<-|[]]]; [left|right; left; auto].
          unfold old in H. destruct (dget (co_bin c) m) as [e|] eqn:Q; [|destruct H]. eapply C; eauto.
        - left. eapply C; eauto. }
      exists m', d'. split; auto. rewrite map_app in K. cbn [map] in K.
      split; [rewrite K, <- app_assoc; auto|]. split; [|split].
      + intros k Hk. rewrite O by (rewrite map_app, in_app_iff; auto). rewrite kget_app. destruct (kget k d) eqn:Q; auto.
        cbn. rewrite keqb_neq; auto. intros ->. contradiction.
      + intros x [<-|Hx]; auto. rewrite O by (rewrite map_app, in_app_iff; right; left; auto). rewrite kget_app, kget_notin by auto.
        cbn. rewrite keqb_refl. auto.
      + intros b. specialize (M b). rewrite dget_dset in M. cbn [filter map].
        destruct (String.eqb_spec (co_bin c) b).
        * subst b. cbn [map] in *. destruct M as (e' & G & H). rewrite KO in H. unfold old in H.
          destruct (dget (co_bin c) m) as [e|]; [exists e'|intros _; exists e']; split; auto.
          rewrite H, <- app_assoc. auto.
        * auto.
  Qed.

  Lemma fromkeys_ok l : forall acc, NoDup acc -> NoDup (fold_left (fun acc x => set_add x acc) l acc) /\
    forall p, In p (fold_left (fun acc x => set_add x acc) l acc) <-> In p acc \/ In p l.
  Proof.
    induction l as [|x l IH]; cbn [fold_left]; intros acc N.
    - split; auto. intros p. cbn. tauto.
    - destruct (IH (set_add x acc)) as [A B]. { apply set_add_NoDup. auto. } split; auto.
      intros p. rewrite B, set_add_In. cbn. intuition.
  Qed.

  Lemma fromkeys_hd l : hd_error (fromkeys l) = hd_error l.
  Proof.
    assert (G : forall l x acc, exists t, fold_left (fun acc x => set_add x acc) l (x :: acc) = x :: t).
    { induction l0 as [|y l0 IH]; intros x acc; cbn [fold_left]; eauto. change (set_add y (x :: acc)) with (if smem y (x :: acc) then x :: acc else (x :: acc) ++ [y]). destruct (smem y (x :: acc)); cbn [app]; apply IH. }
    destruct l as [|x l]; auto. unfold fromkeys. cbn [fold_left]. destruct (G l x []) as [t E]. cbn in E |- *. rewrite E. auto.
  Qed.

  (** *** shapes *)
  Lemma parse_shapes_ok lines : forall ss, filter (starts "shapes") lines = map shape_line ss ->
    (forall s, In s ss -> exists_file (sh_file s) = true) -> parse_shapes exists_file lines = Ok ss.
  Proof.
    induction lines as [|l lines IH]; intros ss H F; cbn [filter parse_shapes] in *.
    - destruct ss; [auto|discriminate].
    - destruct (starts "shapes" l) eqn:E.
      + destruct ss as [|s ss]; [discriminate|]. injection H as -> H. unfold shape_line at 1. cbn [shape_of].
        change (String.prefix "shapes" "shapes") with true. cbn [starts]. rewrite (F s) by (left; auto). cbn [rbind].
        rewrite (IH ss H) by (intros; apply F; right; auto). cbn [rbind]. f_equal. f_equal. destruct s as [a b c d [e|]]; auto.
      + replace (shape_of exists_file l) with (@None (result shape)); auto.
        destruct l as [|k [|p [|c [|f [|pat more]]]]]; auto. cbn [shape_of]. cbn [starts] in E. rewrite E. auto.
  Qed.

  (** *** systematics *)
  Lemma effects_ok keys : NoDup keys -> forall es, List.length es = List.length keys ->
    effects_of keys es = filter (fun ke => negb (String.eqb (snd ke) "-")) (combine keys es).
  Proof.
    intros N es L. unfold effects_of. rewrite (proj2 (Nat.eqb_eq _ _) L).
    assert (G : forall ks es d, NoDup ks -> (forall k, In k ks -> ~ In k (map fst d)) ->
      fold_left (fun d ke => if String.eqb (snd ke) "-" then d else kset (fst ke) (snd ke) d) (combine ks es) d =
      d ++ filter (fun ke : key * string => negb (String.eqb (snd ke) "-")) (combine ks es)).
    { clear. induction ks as [|k ks IH]; intros [|e es] d N D; cbn [combine fold_left filter]; try (rewrite app_nil_r; auto; fail).
      inversion N as [|? ? N1 N2]. subst. cbn [fst snd]. destruct (String.eqb e "-") eqn:E; cbn [negb].
      - apply IH; auto. intros. apply D. right. auto.
      - rewrite kset_new by (apply D; left; auto). rewrite IH; auto.
        + rewrite <- app_assoc. auto.
        + intros x H X. rewrite map_app, in_app_iff in X. destruct X as [X|[<-|[]]]; [eapply D; eauto; right; auto|contradiction]. }
    rewrite G; auto.
  Qed.
  Definition as_line (keys : list key) (s : sline) : string * string * list (key * string) :=
    (sl_name s, sl_type s, filter (fun ke => negb (String.eqb (snd ke) "-")) (combine keys (sl_entries s))).
  Lemma systs_dirs keys dirs : Forall (fun l => in_words syst_words l = false) dirs -> systs_from keys dirs = Ok [].
  Proof.
    induction 1 as [|l r H F IH]; cbn [systs_from]; auto. destruct (Nat.ltb (List.length l) 2); auto.
    destruct (smem (second l) stop_words); auto. unfold in_words in H. unfold second. rewrite H. auto.
  Qed.
  Lemma systs_ok keys dirs : NoDup keys -> Forall (fun l => in_words syst_words l = false) dirs ->
    forall sy ss, Forall (fun l => in_words stop_words l = false) sy -> filter (in_words syst_words) sy = map syst_line ss ->
    (forall s, In s ss -> List.length (sl_entries s) = List.length keys /\
       (sl_type s = "gmN" -> exists t z, sl_n s = [t] /\ pyint t = Some z) /\ (sl_type s <> "gmN" -> sl_n s = [])) ->
    exists r, systs_from keys (sy ++ dirs) = Ok r /\
      map (fun s => (sy_name s, sy_type s, sy_effects s)) r = map (as_line keys) ss.
  Proof.
    intros N D. induction sy as [|l sy IH]; intros ss F H W.
    - destruct ss; [|discriminate]. exists []. split; auto. apply systs_dirs. auto.
    - inversion F as [|? ? F1 F2]. subst. cbn [app systs_from filter] in *.
      destruct (in_words syst_words l) eqn:E.
      + destruct ss as [|s ss]; [discriminate|]. injection H as -> H.
        destruct (IH ss F2 H) as (r & R & M); [intros; apply W; right; auto|]. rewrite R.
        destruct (W s) as (W1 & W2 & W3); [left; auto|].
        unfold in_words in F1, E. unfold second. cbn [syst_line nth List.length] in *. cbn [Nat.ltb Nat.leb]. rewrite F1, E. unfold syst_line. cbn [syst_of List.length Nat.ltb Nat.leb].
        destruct (String.eqb_spec (sl_type s) "gmN") as [G|G].
        * destruct (W2 G) as (t & z & -> & Z). cbn [app]. assert (toint t = Ok z) as ->.
          { unfold toint. unfold pyint in Z. destruct (Parse_Model.py_int (Parse_Model.T t)); congruence. }
          cbn [rbind]. rewrite effects_ok by auto. eexists. split; [reflexivity|]. cbn [map sy_name sy_type sy_effects]. f_equal; auto.
        * rewrite (W3 G). cbn [app rbind]. rewrite effects_ok by auto. eexists. split; [reflexivity|]. cbn [map sy_name sy_type sy_effects]. f_equal; auto.
      + destruct (IH ss F2 H W) as (r & R & M). exists r. split; auto.
        unfold in_words in F1, E. unfold second. rewrite F1, E. destruct (Nat.ltb (List.length l) 2); auto.
  Qed.

  Lemma directives_ok lines : forall rs, filter (in_words ["rateParam"]) lines = map rate_line rs ->
    directives "rateParam" lines = map (fun r => rl_name r :: rl_chan r :: rl_proc r :: rl_val r :: rl_more r) rs.
  Proof.
    induction lines as [|l lines IH]; intros rs H; cbn [filter] in H.
    - destruct rs; [auto|discriminate].
    - change (directives "rateParam" (l :: lines)) with
        (match l with a :: t :: rest => if String.eqb t "rateParam" then [a :: rest] else [] | _ => [] end ++ directives "rateParam" lines).
      destruct (in_words ["rateParam"] l) eqn:E.
      + destruct rs as [|s rs]; [discriminate|]. injection H as -> H. rewrite (IH rs H). unfold rate_line. reflexivity.
      + rewrite <- (IH rs H). destruct l as [|a [|t rest]]; auto. unfold in_words, smem in E. cbn [nth existsb] in E.
        rewrite orb_false_r in E. rewrite E. auto.
  Qed.

  Theorem parsed A lines : laid_out A lines -> wf_card pyfloat exists_file A ->
    exists c, parse pyfloat exists_file lines = Ok c /\ parsed_as pyfloat A c.
  Proof.
    intros (pre & sy & dirs & E & Hb & Ho & Hp & Hs & Hy & Hd & Hsh & Hr & Hh) W.
    destruct (header_ok lines Hh (None, None, None)) as [h H1].
    assert (PB : exists d, parse_observations pyfloat lines = Ok (chans A, d) /\ forall b t, In (b, t) (ac_chans A) -> dget b d = pyfloat t).
    { destruct (filter_one _ _ _ Hb) as (p1 & p2 & Eb & Fx & F1 & F2). destruct (filter_one _ _ _ Ho) as (q1 & q2 & Eo & Gx & G1 & G2).
      unfold parse_observations.
      assert (find_bin true lines = Some ("bin" :: map fst (ac_chans A))) as ->.
      { rewrite E, Eb, <- app_assoc. cbn [app]. eapply find_bin_at; auto. destruct p2 as [|l p2]; cbn [app]; [reflexivity|].
        rewrite Eb in Hp. apply Forall_app in Hp as [_ Hp]. inversion Hp as [|? ? _ Hq]. inversion Hq as [|? ? [Q _] _]. auto. }
      assert (find (starts "observation") lines = Some ("observation" :: map snd (ac_chans A))) as ->.
      { rewrite E, Eo, <- app_assoc. cbn [app]. apply find_skip; auto. }
      cbn [tl]. rewrite !map_length, Nat.eqb_refl.
      destruct (set_obs_ok (map fst (ac_chans A)) (map snd (ac_chans A)) []) as (d & S & _ & I).
      { rewrite !map_length. auto. }
      { rewrite Forall_forall. intros t Ht. apply in_map_iff in Ht as ([b t'] & <- & Ht). eapply wf_obs; eauto. }
      { apply (wf_chans _ _ _ W). }
      rewrite S. cbn [rbind]. exists d. split; auto. intros b t Ht. apply I.
      clear - Ht. induction (ac_chans A) as [|[x y] l IH]; cbn in *; auto. destruct Ht as [Ht|Ht]; auto. }
    destruct PB as (dobs & PB & OB).
    assert (FB : find_block lines = Some ("bin" :: map co_bin (ac_cols A), "process" :: map co_proc (ac_cols A),
                                          "process" :: map co_idx (ac_cols A), "rate" :: map co_rate (ac_cols A))).
    { rewrite E. unfold block. cbn [app]. apply find_block_at; auto. eapply Forall_impl; [|exact Hp]. cbn. intros l [? ?]. auto. }
    destruct (set_indices_ok (map co_proc (ac_cols A)) (map co_idx (ac_cols A)) []) as (didx & SI & _ & II).
    { rewrite !map_length. auto. }
    { intros n i n' i' H2 H3 ->. assert (G : forall x y, In (x, y) (combine (map co_proc (ac_cols A)) (map co_idx (ac_cols A))) ->
        exists k, In k (ac_cols A) /\ co_proc k = x /\ co_idx k = y).
      { clear. induction (ac_cols A) as [|k l IH]; cbn; intros x y H; [contradiction|]. destruct H as [H|H].
        - injection H as <- <-. exists k. auto.
        - destruct (IH _ _ H) as (k' & ? & ?). exists k'. auto. }
      destruct (G _ _ H2) as (k & K1 & K2 & <-). destruct (G _ _ H3) as (k' & K1' & K2' & <-). eapply wf_same; eauto. congruence. }
    { intros i Hi. apply in_map_iff in Hi as (k & <- & Hk). eapply wf_idx; eauto. }
    destruct (set_rates_ok (ac_cols A) [] []) as (m & d & SR & KD & _ & RD & MD).
    { intros. eapply wf_rates; eauto. } { apply (wf_keys _ _ _ W). } { intros ? ? ? X. discriminate X. }
    assert (PR : parse_rates pyfloat lines = Ok (fromkeys (map co_proc (ac_cols A)), didx, (m, d))).
    { unfold parse_rates. rewrite FB. cbn [tl]. rewrite SI. cbn [rbind]. rewrite SR. auto. }
    pose proof (parse_shapes_ok lines (ac_shapes A) Hsh (wf_files _ _ _ W)) as PS.
    destruct (systs_ok (map fst d) dirs) with (sy := sy) (ss := ac_systs A) as (r & SY & MY); auto.
    { rewrite KD. apply (wf_keys _ _ _ W). }
    { intros s Hss. destruct (wf_entries _ _ _ W s Hss) as (W1 & W2 & W3). rewrite KD. cbn [map app]. rewrite map_length. auto. }
    assert (PY : parse_systematics (map fst d) lines = Ok r).
    { unfold parse_systematics. rewrite E. unfold block.
      change (pre ++ ["bin" :: map co_bin (ac_cols A); "process" :: map co_proc (ac_cols A); "process" :: map co_idx (ac_cols A); "rate" :: map co_rate (ac_cols A)] ++ sy ++ dirs)
        with (pre ++ ["bin" :: map co_bin (ac_cols A); "process" :: map co_proc (ac_cols A); "process" :: map co_idx (ac_cols A)] ++ ("rate" :: map co_rate (ac_cols A)) :: sy ++ dirs).
      rewrite app_assoc, after_rate_at; auto. apply Forall_app. split.
      - eapply Forall_impl; [|exact Hp]. cbn. intros l [? ?]. auto.
      - repeat constructor. }
    eexists. split.
    - unfold parse. rewrite H1. cbn [rbind]. rewrite PB. cbn [rbind]. rewrite PR. cbn [rbind snd fst]. rewrite PS. cbn [rbind].
      rewrite PY. cbn [rbind]. reflexivity.
    - split; cbn [cd_bins cd_obs cd_procs cd_idx cd_map cd_rates cd_shapes cd_systs cd_rateparams fst snd]; auto.
      + intros k Hk. apply II. clear - Hk. induction (ac_cols A) as [|c l IH]; cbn in *; [contradiction|]. destruct Hk as [->|Hk]; auto.
      + destruct (fromkeys_ok (map co_proc (ac_cols A)) [] (NoDup_nil _)) as [F1 F2]. split; auto.
        intros p. unfold fromkeys. rewrite F2, in_map_iff. cbn. split.
        * intros [[]|(k & K1 & K2)]. eauto.
        * intros (k & K1 & K2). eauto.
      + apply fromkeys_hd.
      + intros b Hc. specialize (MD b). cbn in MD. apply MD. apply (wf_cover _ _ _ W) in Hc as (k & K1 & K2).
        intros X. apply map_eq_nil in X. assert (In k []) as []. rewrite <- X. apply filter_In. split; auto. apply String.eqb_eq. auto.
      + rewrite MY, KD. reflexivity.
      + apply directives_ok. auto.
  Qed.
End Parse.
