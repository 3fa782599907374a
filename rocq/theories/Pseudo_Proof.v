From Coq Require Import List Arith Bool String Lia.
From Verif Require Import PyList PyDict ListUtil Order Num Names_Model Writer_Model Writer_Spec Writer_Frame Writer_Layout Writer_Arr Writer_Hist Writer_Master
  Pseudo_Model Pseudo_Spec.
Import ListNotations.
Local Open Scope list_scope.
Local Open Scope nat_scope.

(** *** reading *)
Lemma filter_len_le {A} (f : A -> bool) l : List.length (filter f l) <= List.length l.
Proof. induction l as [|x l IH]; cbn [filter List.length]; [lia|]. destruct (f x); cbn [List.length]; lia. Qed.
Section Read.
  Context {V : Type}.
  Lemma where_spec mask : forall k, In k (where_ mask) <-> nth_error mask k = Some true.
  Proof.
    unfold where_. assert (G : forall a k, In k (map fst (filter (fun kb => snd kb) (combine (seq a (List.length mask)) mask))) <-> a <= k /\ nth_error mask (k - a) = Some true).
    { induction mask as [|b m IH]; intros a k; cbn [List.length seq combine filter map].
      - split; [intros []|]. intros [_ H]. destruct (k - a); discriminate.
      - assert (R : In k (map fst (filter (fun kb => snd kb) (combine (seq (S a) (List.length m)) m))) <-> S a <= k /\ nth_error m (k - S a) = Some true) by apply IH.
        destruct b; cbn [snd map fst In]; rewrite R; clear R IH.
        + split.
          * intros [<-|[H H0]]; [split; auto; rewrite Nat.sub_diag; auto|]. split; [lia|]. replace (k - a) with (S (k - S a)) by lia. auto.
          * intros [H H0]. destruct (Nat.eq_dec a k); auto. right. split; [lia|]. replace (k - a) with (S (k - S a)) in H0 by lia. auto.
        + split.
          * intros [H H0]. split; [lia|]. replace (k - a) with (S (k - S a)) by lia. auto.
          * intros [H H0]. assert (a <> k). { intros ->. rewrite Nat.sub_diag in H0. discriminate. } split; [lia|]. replace (k - a) with (S (k - S a)) in H0 by lia. auto. }
    intros k. rewrite G. rewrite Nat.sub_0_r. intuition lia.
  Qed.
  (** picking the marked positions is filtering *)
  Lemma where_pick {A B} (f : A -> bool) (g : nat -> B) (l : list A) : map g (where_ (map f l)) =
    map (fun kb => g (fst kb)) (filter (fun kb => f (snd kb)) (combine (seq 0 (List.length l)) l)).
  Proof.
    unfold where_. rewrite map_length, map_map. generalize 0. induction l as [|x l IH]; intros a; cbn [List.length seq combine map filter snd]; auto.
    destruct (f x); cbn [map fst]; [f_equal|]; auto.
  Qed.
  Lemma columns_eq (m : mat V) : columns m = map (column m) (seq 0 (m_cols m)).
  Proof. reflexivity. Qed.
  Lemma columns_gather idx (m : mat V) : columns (gather1 idx m) = map (column m) idx.
  Proof.
    unfold columns, gather1. cbn [m_rows m_cols m_at]. unfold column.
    assert (G : forall l pre, idx = pre ++ l -> map (fun j => map (fun b => m_at m b (nth j idx 0)) (seq 0 (m_rows m))) (seq (List.length pre) (List.length l)) =
      map (fun k => map (fun b => m_at m b k) (seq 0 (m_rows m))) l).
    { induction l as [|k l IH]; intros pre E; cbn [List.length seq map]; auto. f_equal.
      - rewrite E, app_nth2, Nat.sub_diag by lia. auto.
      - specialize (IH (pre ++ [k])). rewrite app_length in IH. cbn [List.length] in IH. rewrite Nat.add_1_r in IH. apply IH. rewrite <- app_assoc. auto. }
    apply (G idx []). auto.
  Qed.
  Lemma label_ok names : forall (l : list (list V * option (list V))) j, j + List.length l <= List.length names ->
    label_from names j l = Ok (combine (skipn j names) l).
  Proof.
    induction l as [|d l IH]; intros j L; cbn [label_from List.length] in *. { destruct (skipn j names); auto. }
    destruct (nth_error names j) as [n|] eqn:E. 2: { apply nth_error_None in E. lia. }
    rewrite IH by lia. cbn [rbind]. f_equal.
    assert (S : skipn j names = n :: skipn (S j) names).
    { clear - E. revert j E. induction names as [|a names IH]; intros [|j] E; try discriminate; cbn in *; [congruence|auto]. }
    rewrite S. auto.
  Qed.
  Lemma combine_fst {A B C} (l : list A) (m : list B) (k : list C) : List.length m = List.length k ->
    map (fun x => (fst x, fst (snd x))) (combine l (combine m k)) = combine l m.
  Proof. revert m k. induction l as [|a l IH]; intros [|b m] [|c k] L; try discriminate; cbn [combine map fst snd]; auto. f_equal. apply IH. auto. Qed.
  Lemma combine_map_same {A B C} (f : A -> B) (g : A -> C) l : combine (map f l) (map g l) = map (fun x => (f x, g x)) l.
  Proof. induction l as [|a l IH]; cbn [map combine]; auto. f_equal. auto. Qed.
  Lemma columns_len (m : mat V) : List.length (columns m) = m_cols m.
  Proof. unfold columns. rewrite map_length, seq_length. auto. Qed.

  Lemma pick_named (names : list string) (obs : mat V) req : m_cols obs = List.length names ->
    let idx := where_ (map (fun n => smem n req) names) in
    combine (map (fun k => nth k names ""%string) idx) (map (column obs) idx) =
    filter (fun nv => smem (fst nv) req) (combine names (columns obs)).
  Proof.
    intros E idx. unfold idx. rewrite combine_map_same, where_pick, columns_eq, E.
    assert (G : forall l pre, names = pre ++ l ->
      map (fun kb => (nth (fst kb) names ""%string, column obs (fst kb))) (filter (fun kb => smem (snd kb) req) (combine (seq (List.length pre) (List.length l)) l)) =
      filter (fun nv => smem (fst nv) req) (combine l (map (column obs) (seq (List.length pre) (List.length l))))).
    { induction l as [|n l IH]; intros pre Q; cbn [List.length seq combine map filter fst snd]; auto.
      specialize (IH (pre ++ [n])). rewrite app_length in IH. cbn [List.length] in IH. rewrite Nat.add_1_r in IH.
      assert (N : nth (List.length pre) names ""%string = n) by (rewrite Q, app_nth2, Nat.sub_diag by lia; auto).
      destruct (smem n req); cbn [map fst snd]; [f_equal; [rewrite N; auto|]|]; apply IH; rewrite <- app_assoc; auto. }
    apply (G names []). auto.
  Qed.

  (** the data sets that are fitted, with the names they are stored under *)
  Lemma fitted_named (f : pfile V) names obs req : consistent f names obs -> req <> [] -> (forall n, In n req -> In n names) -> 
    exists l, fitted f req = Ok l /\
      map (fun x => (fst x, fst (snd x))) l = filter (fun nv => smem (fst nv) req) (combine names (columns obs)).
  Proof.
    intros (N & O & C & VV) R I. unfold fitted, load_pseudo. rewrite N, O. destruct req as [|r0 rs]; [contradiction|]. set (req := r0 :: rs) in *.
    assert (F : forallb (fun n => smem n names) req = true). { apply forallb_forall. intros n Hn. apply smem_In. auto. }
    rewrite F. cbn [negb]. set (idx := where_ (map (fun n => smem n req) names)).
    assert (NE : exists i r, idx = i :: r).
    { destruct (In_nth_error names r0 (I r0 (or_introl eq_refl))) as [k K].
      assert (Ik : In k idx). { apply where_spec. rewrite nth_error_map, K. cbn [option_map]. f_equal. apply smem_In. left. auto. }
      destruct idx as [|i r]; [destruct Ik|]. eauto. }
    destruct NE as (i & r & E). rewrite E. cbn [rbind]. rewrite <- E. cbn [l_names l_obs l_var].
    assert (LD : List.length (datasets (mkLd (map (fun k => nth k names ""%string) idx) (gather1 idx obs) (pf_var f))) = List.length idx /\
      exists vs, datasets (mkLd (map (fun k => nth k names ""%string) idx) (gather1 idx obs) (pf_var f)) = combine (map (column obs) idx) vs /\ List.length idx <= List.length vs).
    { assert (LI : List.length idx <= List.length names).
      { unfold idx, where_. rewrite map_length. etransitivity; [apply filter_len_le|]. rewrite combine_length, seq_length, map_length. lia. }
      unfold datasets. cbn [l_obs l_var]. rewrite columns_gather. split.
      - rewrite combine_length, map_length. destruct (pf_var f) as [v|]; [rewrite map_length, columns_len, VV; lia|]. rewrite repeat_length. cbn [gather1 m_cols]. lia.
      - eexists. split; [reflexivity|]. destruct (pf_var f) as [v|]; [rewrite map_length, columns_len, VV; lia|]. rewrite repeat_length. cbn [gather1 m_cols]. lia. }
    destruct LD as (L & vs & Dv & LV).
    eexists. split. { apply label_ok. rewrite L, map_length. lia. }
    cbn [skipn]. rewrite <- (pick_named names obs req C). fold idx. rewrite Dv.
    assert (CT : combine (map (column obs) idx) vs = combine (map (column obs) idx) (firstn (List.length idx) vs)).
    { clear. revert vs. induction idx as [|a l IH]; intros [|v vs]; cbn [map combine List.length firstn]; auto. f_equal. auto. }
    rewrite CT. apply combine_fst. rewrite map_length, firstn_length. lia.
  Qed.
  Lemma fitted_unknown (f : pfile V) names obs req n : pf_names f = Some names -> pf_obs f = Some obs -> In n req -> ~ In n names ->
    load_pseudo f (Some req) = Raise ValueError /\ fitted f req = Raise ValueError.
  Proof.
    intros N O I U. assert (L : load_pseudo f (Some req) = Raise ValueError).
    { unfold load_pseudo. rewrite N, O. destruct req as [|r0 rs]; [destruct I|].
      destruct (forallb (fun n => smem n names) (r0 :: rs)) eqn:F; auto. rewrite forallb_forall in F. apply F in I. apply smem_In in I. contradiction. }
    split; auto. unfold fitted. rewrite L. auto.
  Qed.
  Lemma fitted_all (f : pfile V) names obs : consistent f names obs ->
    exists l, fitted f [] = Ok l /\ map (fun x => (fst x, fst (snd x))) l = combine names (columns obs).
  Proof.
    intros (N & O & C & VV). unfold fitted, load_pseudo. rewrite N, O. cbn [rbind l_names].
    assert (LV : exists vs, datasets (mkLd names obs (pf_var f)) = combine (columns obs) vs /\ List.length vs = List.length names).
    { unfold datasets. cbn [l_obs l_var]. eexists. split; [reflexivity|]. destruct (pf_var f) as [v|]; [rewrite map_length, columns_len; auto|]. rewrite repeat_length. auto. }
    destruct LV as (vs & E & L). eexists. split. { apply label_ok. rewrite E, combine_length, columns_len. lia. }
    rewrite E. cbn [skipn]. apply combine_fst. rewrite columns_len. congruence.
  Qed.
  (** the variances: those of the same column when the file has none, or all sets are used *)
  Lemma fitted_var_none (f : pfile V) req l : pf_var f = None -> fitted f req = Ok l -> Forall (fun x => snd (snd x) = None) l.
  Proof.
    intros N. assert (G : forall names (d : list (list V * option (list V))) j r, Forall (fun x => snd x = None) d -> label_from names j d = Ok r -> Forall (fun x => snd (snd x) = None) r).
    { intros names. induction d as [|x d IH]; intros j r F; cbn [label_from]. { intros H. injection H as <-. constructor. }
      inversion F; subst. destruct (nth_error names j); [|discriminate]. destruct (label_from names (S j) d) as [q|] eqn:E; cbn [rbind]; [|discriminate].
      intros H. injection H as <-. constructor; auto. eapply IH; eauto. }
    unfold fitted. destruct (load_pseudo f (Some req)) as [[d|]|] eqn:E; cbn [rbind]; try discriminate.
    - apply G. assert (VN : l_var d = None).
      { unfold load_pseudo in E. destruct (pf_obs f); [|discriminate]. destruct req as [|r0 rs]; [injection E as <-; auto|].
        destruct (negb _); [discriminate|]. destruct (where_ _); [discriminate|]. injection E as <-. auto. }
      unfold datasets. rewrite VN. clear. generalize (columns (l_obs d)) (m_cols (l_obs d)). induction l as [|a l IH]; intros [|n]; cbn [repeat combine]; constructor; auto.
    - intros H. injection H as <-. constructor.
  Qed.
End Read.

(** *** writing *)
Section Write.
  Context {V : Type} {NV : Num V}.

  Lemma step_frame cfg (st : state V) o st' : step cfg st o = (st', None) ->
    match o with
    | AddData ch v w => st_data_obs st ch = None /\ st_data_obs st' = upd1 (st_data_obs st) ch (Some v) /\
        st_pseudodata st' = st_pseudodata st /\ st_pseudonames st' = st_pseudonames st
    | AddPseudodata n ch v =>
        let nm := match n with Some n => n | None => ("pseudodata_" ++ nat_str (List.length (st_pseudonames st)))%string end in
        st_pseudodata st ch nm = None /\ st_pseudodata st' = upd2 (st_pseudodata st) ch nm (Some v) /\
        st_pseudonames st' = set_add nm (st_pseudonames st) /\ st_data_obs st' = st_data_obs st
    | _ => st_data_obs st' = st_data_obs st /\ st_pseudodata st' = st_pseudodata st /\ st_pseudonames st' = st_pseudonames st
    end.
  Proof.
    destruct o; cbn [step].
    - unfold add_channel. destruct (_ && _); [congruence|]. intros H. injection H as <-. auto.
    - intros H. apply add_process_inv in H. destruct H as (_ & _ & nm & w & H). tauto.
    - unfold add_data. destruct (check_hist _ _ _); [congruence|]. destruct (st_data_obs st ch) eqn:E; [congruence|].
      destruct (flat_variances _); [|congruence]. intros H. injection H as <-. auto.
    - unfold add_pseudodata. destruct (check_hist _ _ _); [congruence|]. cbv zeta. set (nm := match name with Some n => n | None => _ end).
      destruct (st_pseudodata st ch nm) eqn:E; [congruence|]. intros H. injection H as <-. auto.
    - intros H. assert (B := base_add_systematic _ _ _ _ _ _ _ _ _ _ _ _ H). unfold base in B. injection B. intros. auto.
    - intros H. assert (B := step_base cfg st (AddNormSystematic name procs ch unc m kw) st' H). cbn beta iota in B. unfold base in B. injection B. intros. auto.
  Qed.

  Lemma run_pseudo cfg ops : forall (st st' : state V), run cfg st ops = Ok st' ->
    st_pseudonames st' = fold_left (fun s x => set_add (snd (fst x)) s) (pseudo_log (st_pseudonames st) ops) (st_pseudonames st) /\
    (forall c n v, st_pseudodata st' c n = Some v <-> st_pseudodata st c n = Some v \/ In (c, n, v) (pseudo_log (st_pseudonames st) ops)).
  Proof.
    induction ops as [|o ops IH]; intros st st' R. { cbn [run] in R. injection R as <-. split; auto. intros. cbn. tauto. }
    apply run_cons in R. destruct R as (s & S & R). pose proof (step_frame _ _ _ _ S) as F. destruct (IH _ _ R) as [I1 I2].
    destruct o; cbn [pseudo_log]; try (destruct F as (F1 & F2 & F3); rewrite F3, ?F2 in *; split; auto; fail).
    - destruct F as (_ & _ & F2 & F3). rewrite F3, F2 in *. split; auto.
    - cbv zeta in F. destruct F as (F1 & F2 & F3 & _). set (nm := match name with Some n => n | None => _ end) in *. rewrite F3 in *. cbn [fold_left fst snd].
      split; auto. intros c n v. rewrite I2, F2. unfold upd2. cbn [In].
      destruct (String.eqb_spec ch c); [destruct (String.eqb_spec nm n)|]; subst.
      + subst nm. rewrite F1. split; [intros [H|H]; auto; injection H as <-; auto|]. intros [H|[H|H]]; [discriminate| |auto]. injection H as <-. auto.
      + split; [tauto|]. intros [H|[H|H]]; auto. congruence.
      + split; [tauto|]. intros [H|[H|H]]; auto. congruence.
  Qed.
  Lemma run_data cfg ops : forall (st st' : state V), run cfg st ops = Ok st' ->
    forall c v, st_data_obs st' c = Some v <-> st_data_obs st c = Some v \/ In (c, v) (map (fun x => (fst x, fst (snd x))) (data_log ops)).
  Proof.
    induction ops as [|o ops IH]; intros st st' R c v. { cbn [run] in R. injection R as <-. cbn. tauto. }
    apply run_cons in R. destruct R as (s & S & R). pose proof (step_frame _ _ _ _ S) as F. rewrite (IH _ _ R c v). unfold data_log. cbn [flat_map].
    destruct o; cbn [app]; try (destruct F as (F1 & F2); rewrite F1; tauto).
    - destruct F as (F1 & F2 & _). rewrite F2. unfold upd1. cbn [map fst snd In]. destruct (String.eqb_spec ch c); subst.
      + rewrite F1. split; [intros [H|H]; auto; injection H as <-; auto|]. intros [H|[H|H]]; [discriminate| |auto]. injection H as <-. auto.
      + split; [tauto|]. intros [H|[H|H]]; auto. congruence.
    - destruct F as (F1 & F2 & F3 & F4). rewrite F4. tauto.
  Qed.

  (** a fold over the channels writes the block of each *)
  Lemma fill_data_at st (d : string -> option (list V)) a : NoDup (dkeys (st_channels st)) -> fill_data st d = Ok a ->
    forall c ib n, In (c, (ib, n)) (unmasked_offsets st) -> exists l, d c = Some l /\ forall i, i < n -> a (ib + i) = nth i l n0.
  Proof.
    intros ND F c ib n I. unfold fill_data in F.
    assert (SUB : forall x, In x (unmasked_offsets st) -> In x (chan_offsets st)) by (intros x Hx; apply filter_In in Hx; tauto).
    assert (I0 := SUB _ I).
    assert (RA : forall L e, fold_left (fun r co => a <- r ;; let '(c, (ib, n)) := co in
      match d c with Some l => Ok (fun b => if in_block ib n b then nth (b - ib) l n0 else a b) | None => Raise KeyError end) L (Raise e) = Raise e).
    { induction L as [|x L IH]; intros e; cbn [fold_left rbind]; auto. }
    assert (G : forall L, (forall x, In x L -> In x (chan_offsets st)) -> forall a0, fold_left (fun r co => a <- r ;; let '(c, (ib, n)) := co in
      match d c with Some l => Ok (fun b => if in_block ib n b then nth (b - ib) l n0 else a b) | None => Raise KeyError end) L (Ok a0) = Ok a ->
      (In (c, (ib, n)) L -> exists l, d c = Some l /\ forall i, i < n -> a (ib + i) = nth i l n0) /\
      (forall l, d c = Some l -> (forall i, i < n -> a0 (ib + i) = nth i l n0) -> forall i, i < n -> a (ib + i) = nth i l n0)).
    { induction L as [|[c' [ib' n']] L IH]; intros S a0 E; cbn [fold_left rbind] in E. { injection E as ->. split; [intros []|auto]. }
      destruct (d c') as [l'|] eqn:D; [|rewrite RA in E; discriminate].
      set (a1 := fun b => if in_block ib' n' b then nth (b - ib') l' n0 else a0 b) in *.
      destruct (IH (fun x Hx => S x (or_intror Hx)) a1 E) as [IH1 IH2]. 
      assert (KEEP : forall l, d c = Some l -> (forall i, i < n -> a0 (ib + i) = nth i l n0) -> forall i, i < n -> a1 (ib + i) = nth i l n0).
      { intros l Dl H i Hi. unfold a1. destruct (in_block ib' n' (ib + i)) eqn:B; auto. apply in_block_spec in B.
        assert (B0 : ib <= ib + i < ib + n) by lia.
        destruct (offsets_disjoint _ _ (ib + i) _ _ _ _ _ _ _ ND (S _ (or_introl eq_refl)) I0 B B0) as (-> & -> & ->).
        rewrite Dl in D. injection D as ->. f_equal. lia. }
      split.
      - intros [Q|Q]; auto. injection Q as -> -> ->. exists l'. split; auto. apply IH2; auto.
        intros i Hi. unfold a1. rewrite (proj2 (in_block_spec ib n (ib + i))) by lia. f_equal. lia.
      - intros l Dl H. apply IH2; auto. }
    destruct (G _ SUB _ F) as [G1 _]. auto.
  Qed.

  Lemma fill_pseudo_at st a : NoDup (dkeys (st_channels st)) -> NoDup (st_pseudonames st) -> fill_pseudo st = Ok a ->
    forall c ib n k x, In (c, (ib, n)) (unmasked_offsets st) -> nth_error (st_pseudonames st) k = Some x ->
    exists l, st_pseudodata st c x = Some l /\ forall i, i < n -> a (ib + i) k = nth i l n0.
  Proof.
    intros ND NN F c ib n k x I X. unfold fill_pseudo in F.
    assert (SUB : forall x, In x (unmasked_offsets st) -> In x (chan_offsets st)) by (intros y Hy; apply filter_In in Hy; tauto).
    assert (I0 := SUB _ I). set (P := st_pseudodata st) in *.
    set (inner := fun (c : string) (ib n : nat) r2 (in_ : nat * string) => a2 <- r2 ;; match P c (snd in_) with Some l => Ok (block2 ib n (fst in_) l a2) | None => Raise KeyError end).
    set (NL := enumerate (st_pseudonames st)) in *.
    assert (RI : forall c ib n L e, fold_left (inner c ib n) L (Raise e) = Raise e) by (intros c' ib' n'; induction L as [|y L IH]; intros e; cbn [fold_left]; [auto|apply IH]).
    assert (KX : forall y, In (k, y) NL -> y = x).
    { intros y Hy. unfold NL, enumerate in Hy. clear - Hy X. assert (G : forall l a, In (k, y) (combine (seq a (List.length l)) l) -> nth_error l (k - a) = Some y /\ a <= k).
      { induction l as [|z l IH]; intros a; cbn [List.length seq combine In]; [intros []|]. intros [Q|Q]; [injection Q as <- ->; rewrite Nat.sub_diag; auto|].
        apply IH in Q. destruct Q as [Q1 Q2]. split; [|lia]. replace (k - a) with (S (k - S a)) by lia. auto. }
      apply G in Hy. rewrite Nat.sub_0_r in Hy. destruct Hy. congruence. }
    assert (KIN : In (k, x) NL).
    { unfold NL, enumerate. clear - X. assert (G : forall l a k, nth_error l k = Some x -> In (a + k, x) (combine (seq a (List.length l)) l)).
      { induction l as [|z l IH]; intros a [|q] H; try discriminate; cbn [List.length seq combine In] in *; [injection H as ->; left; f_equal; lia|].
        right. replace (a + S q) with (S a + q) by lia. apply IH. auto. }
      apply (G _ 0 k X). }
    (* one channel: other than c, column k of c's block is kept; c itself writes it *)
    assert (IN1 : forall c' ib' n', In (c', (ib', n')) (chan_offsets st) -> forall L a0 a1, (forall y, In y L -> In y NL) -> fold_left (inner c' ib' n') L (Ok a0) = Ok a1 ->
      (c' = c -> In (k, x) L -> exists l, P c x = Some l /\ forall i, i < n -> a1 (ib + i) k = nth i l n0) /\
      (forall l, P c x = Some l -> (forall i, i < n -> a0 (ib + i) k = nth i l n0) -> forall i, i < n -> a1 (ib + i) k = nth i l n0)).
    { intros c' ib' n' J. induction L as [|[k' y] L IH]; intros a0 a1 S E; cbn [fold_left] in E. { injection E as ->. split; [intros _ []|auto]. }
      unfold inner at 2 in E. cbn [rbind snd fst] in E. destruct (P c' y) as [l'|] eqn:D; [|rewrite RI in E; discriminate].
      destruct (IH _ _ (fun z Hz => S z (or_intror Hz)) E) as [IH1 IH2].
      assert (KEEP : forall l, P c x = Some l -> (forall i, i < n -> a0 (ib + i) k = nth i l n0) -> forall i, i < n -> block2 ib' n' k' l' a0 (ib + i) k = nth i l n0).
      { intros l Dl H i Hi. unfold block2. destruct (in_block ib' n' (ib + i)) eqn:B; cbn [andb]; auto. destruct (Nat.eqb_spec k k'); auto. subst k'.
        apply in_block_spec in B. assert (B0 : ib <= ib + i < ib + n) by lia.
        destruct (offsets_disjoint _ _ (ib + i) _ _ _ _ _ _ _ ND J I0 B B0) as (-> & -> & ->).
        assert (y = x) by (apply KX; apply S; left; auto). subst y. rewrite Dl in D. injection D as ->. f_equal. lia. }
      split.
      - intros -> [Q|Q]; auto. injection Q as -> ->. exists l'. split; auto. apply IH2; auto.
        intros i Hi. unfold block2.
        assert (EQ : ib' = ib /\ n' = n). { assert (B0 : ib <= ib + i < ib + n) by lia. assert (NDk := offsets_disjoint (st_nbinschan st) (dkeys (st_channels st))).
          clear - J I0 ND. unfold chan_offsets in *. revert J I0. generalize 0. induction (dkeys (st_channels st)) as [|z zs IHz]; intros s; cbn [offsets In]; [intros []|].
          inversion ND; subst. assert (KO : forall s c s' n', In (c, (s', n')) (offsets (st_nbinschan st) s zs) -> In c zs).
          { clear. induction zs as [|z zs IH]; intros s c s' n'; cbn [offsets In]; auto. intros [Q|Q]; [injection Q as -> _ _; auto|]. right. eapply IH; eauto. }
          intros [Q|Q] [Q'|Q'].
          - rewrite Q in Q'. injection Q' as -> ->. auto.
          - injection Q as -> _ _. apply KO in Q'. contradiction.
          - injection Q' as -> _ _. apply KO in Q. contradiction.
          - eapply IHz; eauto. }
        destruct EQ as [-> ->]. rewrite (proj2 (in_block_spec ib n (ib + i))) by lia. rewrite Nat.eqb_refl. cbn [andb]. f_equal. lia.
      - intros l Dl H. apply IH2; auto. }
    set (outer := fun r (co : string * (nat * nat)) => a <- r ;; let '(c, (ib, n)) := co in fold_left (inner c ib n) NL (Ok a)).
    assert (RO : forall L e, fold_left outer L (Raise e) = Raise e) by (induction L as [|y L IH]; intros e; cbn [fold_left]; [auto|apply IH]).
    assert (G : forall L, (forall y, In y L -> In y (chan_offsets st)) -> forall a0, fold_left outer L (Ok a0) = Ok a ->
      (In (c, (ib, n)) L -> exists l, P c x = Some l /\ forall i, i < n -> a (ib + i) k = nth i l n0) /\
      (forall l, P c x = Some l -> (forall i, i < n -> a0 (ib + i) k = nth i l n0) -> forall i, i < n -> a (ib + i) k = nth i l n0)).
    { induction L as [|[c' [ib' n']] L IH]; intros S a0 E; cbn [fold_left] in E. { injection E as ->. split; [intros []|auto]. }
      unfold outer at 2 in E. cbn [rbind] in E. destruct (fold_left (inner c' ib' n') NL (Ok a0)) as [a1|] eqn:Q; [|rewrite RO in E; discriminate].
      destruct (IH (fun y Hy => S y (or_intror Hy)) a1 E) as [IH1 IH2].
      destruct (IN1 c' ib' n' (S _ (or_introl eq_refl)) NL a0 a1 (fun y Hy => Hy) Q) as [J1 J2]. split.
      - intros [W|W]; auto. injection W as -> -> ->. destruct (J1 eq_refl KIN) as (l & Dl & H). exists l. split; auto.
      - intros l Dl H. apply IH2; auto. }
    destruct (G _ SUB _ F) as [G1 _]. auto.
  Qed.
End Write.

(** *** the written file *)
Section Written.
  Context {V : Type} {NV : Num V}.

  Lemma unmasked_range cfg (ops : list (op V)) st w c s e info : run cfg init_state ops = Ok st -> write cfg st = Ok w ->
    flags_stable (chan_decls [] ops) -> In (c, (s, e)) (reader_ranges 0 (w_channels w)) ->
    dget c (w_channels w) = Some info -> ch_masked info = false -> In (c, (s, e - s)) (unmasked_offsets st).
  Proof.
    intros R W F I D M. apply filter_In. split; [eapply off_reader; eauto|]. cbn [fst].
    destruct (write_fields cfg st w W) as (E1 & _). rewrite E1 in D. rewrite D, M. auto.
  Qed.
  Lemma chans_NoDup cfg (ops : list (op V)) st : run cfg init_state ops = Ok st -> flags_stable (chan_decls [] ops) -> NoDup (dkeys (st_channels st)).
  Proof. intros R F. eapply inv_ch_NoDup; eauto. apply (run_chan_init _ _ _ R F). Qed.

  Lemma written_data cfg (ops : list (op V)) st w : run cfg init_state ops = Ok st -> write cfg st = Ok w -> flags_stable (chan_decls [] ops) ->
    forall c s e info, In (c, (s, e)) (reader_ranges 0 (w_channels w)) -> dget c (w_channels w) = Some info -> ch_masked info = false ->
    exists v, In (c, v) (map (fun x => (fst x, fst (snd x))) (data_log ops)) /\ forall i, i < e - s -> w_data_obs w (s + i) = nth i v n0.
  Proof.
    intros R W F c s e info I D M. pose proof (unmasked_range _ _ _ _ _ _ _ _ R W F I D M) as U.
    destruct (write_fields cfg st w W) as (_ & _ & _ & _ & _ & _ & _ & _ & _ & _ & _ & _ & _ & _ & FD & _).
    destruct (fill_data_at st _ _ (chans_NoDup _ _ _ R F) FD c s (e - s) U) as (l & L & H). exists l. split; auto.
    apply (run_data cfg ops _ _ R) in L. destruct L as [L|L]; auto. discriminate.
  Qed.
  Lemma pseudonames_NoDup cfg (ops : list (op V)) st : run cfg init_state ops = Ok st -> NoDup (st_pseudonames st).
  Proof.
    intros R. rewrite (proj1 (run_pseudo cfg ops _ _ R)). cbn [init_state st_pseudonames].
    assert (G : forall (l : list (string * string * list V)) s, NoDup s -> NoDup (fold_left (fun s x => set_add (snd (fst x)) s) l s)).
    { induction l as [|x l IH]; intros s N; cbn [fold_left]; auto. apply IH. apply set_add_NoDup. auto. }
    apply G. constructor.
  Qed.
  Lemma pseudonames_In cfg (ops : list (op V)) st : run cfg init_state ops = Ok st ->
    forall n, In n (st_pseudonames st) <-> exists c v, In (c, n, v) (pseudo_log [] ops).
  Proof.
    intros R n. rewrite (proj1 (run_pseudo cfg ops _ _ R)). cbn [init_state st_pseudonames].
    assert (G : forall (l : list (string * string * list V)) s, In n (fold_left (fun s x => set_add (snd (fst x)) s) l s) <-> In n s \/ exists c v, In (c, n, v) l).
    { induction l as [|[[c x] v] l IH]; intros s; cbn [fold_left fst snd In].
      - split; auto. intros [H|(c & v & [])]; auto.
      - rewrite IH, set_add_In. split.
        + intros [[->|H]|(c' & v' & H)]; eauto.
        + intros [H|(c' & v' & [H|H])]; [auto| |right; eauto]. injection H as -> -> ->. auto. }
    rewrite G. cbn [In]. intuition.
  Qed.
  Lemma written_pseudo cfg (ops : list (op V)) st w : run cfg init_state ops = Ok st -> write cfg st = Ok w -> flags_stable (chan_decls [] ops) ->
    forall c s e info k n, In (c, (s, e)) (reader_ranges 0 (w_channels w)) -> dget c (w_channels w) = Some info -> ch_masked info = false ->
    nth_error (w_pseudonames w) k = Some n ->
    exists v, In (c, n, v) (pseudo_log [] ops) /\ forall i, i < e - s -> w_pseudo w (s + i) k = nth i v n0.
  Proof.
    intros R W F c s e info k n I D M K. pose proof (unmasked_range _ _ _ _ _ _ _ _ R W F I D M) as U.
    destruct (write_fields cfg st w W) as (_ & _ & _ & _ & _ & _ & _ & _ & _ & _ & _ & _ & _ & _ & _ & _ & EN & FP & _). rewrite EN in K.
    destruct (fill_pseudo_at st _ (chans_NoDup _ _ _ R F) (pseudonames_NoDup _ _ _ R) FP c s (e - s) k n U K) as (l & L & H). exists l. split; auto.
    apply (proj2 (run_pseudo cfg ops _ _ R)) in L. destruct L as [L|L]; auto. discriminate.
  Qed.

  (** the file as the reader sees it *)
  Definition file_of (w : workspace V) : pfile V :=
    mkPf (Some (w_pseudonames w)) (Some (mkMat (w_nbins w) (List.length (w_pseudonames w)) (w_pseudo w))) None.
  Lemma file_consistent w : consistent (file_of w) (w_pseudonames w) (mkMat (w_nbins w) (List.length (w_pseudonames w)) (w_pseudo w)).
  Proof. repeat split. Qed.

  Lemma range_bound cfg (ops : list (op V)) st w c s e info : run cfg init_state ops = Ok st -> write cfg st = Ok w ->
    flags_stable (chan_decls [] ops) -> In (c, (s, e)) (reader_ranges 0 (w_channels w)) ->
    dget c (w_channels w) = Some info -> ch_masked info = false -> e <= w_nbins w.
  Proof.
    intros R W F I D M. destruct (layout_correct cfg ops st w R W F) as (_ & _ & _ & (R1 & R2 & E & T1 & T2 & U & Q) & _).
    rewrite E in I. apply in_app_iff in I.
    assert (TB : forall l a b, tiles a b l -> forall c s e, In (c, (s, e)) l -> e <= b).
    { clear. induction l as [|[c' [s' e']] l IH]; intros a b; cbn [tiles In]; [intros _ c s e []|]. intros T c s e.
      assert (forall a b l, tiles a b l -> a <= b). { clear. intros a b l. revert a. induction l as [|[c' [s' e']] l IH]; intros a; cbn [tiles]; intros T; [lia|]. destruct T as (T1 & T2 & T3). apply IH in T3. lia. }
      destruct T as (T1 & T2 & T3). intros [Q|Q]; [injection Q as -> -> ->; eapply H; eauto|]. eapply IH; eauto. }
    destruct I as [I|I]; [eapply TB; eauto|]. exfalso.
    assert (IN : In (c, info) (chan_decls [] ops)).
    { destruct (write_fields cfg st w W) as (E1 & _). rewrite E1 in D. pose proof (run_chan_init _ _ _ R F) as C.
      rewrite (proj1 C), layout_dget in D by auto. apply dget_In in D. apply dict_of_In in D. auto. }
    apply (in_map fst) in I. rewrite (Q c info I IN) in M. discriminate.
  Qed.

  Lemma written_fitted cfg (ops : list (op V)) st w req : run cfg init_state ops = Ok st -> write cfg st = Ok w -> flags_stable (chan_decls [] ops) ->
    (forall n, In n req -> exists c v, In (c, n, v) (pseudo_log [] ops)) ->
    exists l, fitted (file_of w) req = Ok l /\ NoDup (map fst l) /\
      (forall n, In n (map fst l) <-> (exists c v, In (c, n, v) (pseudo_log [] ops)) /\ (req = [] \/ In n req)) /\
      forall n d, In (n, d) l -> List.length (fst d) = w_nbins w /\
        forall c s e info, In (c, (s, e)) (reader_ranges 0 (w_channels w)) -> dget c (w_channels w) = Some info -> ch_masked info = false ->
          exists v, In (c, n, v) (pseudo_log [] ops) /\ forall i, i < e - s -> nth (s + i) (fst d) n0 = nth i v n0.
  Proof.
    intros R W F Q. pose proof (file_consistent w) as FC. set (names := w_pseudonames w) in *. set (obs := mkMat _ _ _) in *.
    destruct (write_fields cfg st w W) as (_ & _ & _ & _ & _ & _ & _ & _ & _ & _ & _ & _ & _ & _ & _ & _ & EN & _).
    assert (NN : NoDup names) by (unfold names; rewrite EN; eapply pseudonames_NoDup; eauto).
    assert (NI : forall n, In n names <-> exists c v, In (c, n, v) (pseudo_log [] ops)) by (unfold names; rewrite EN; eapply pseudonames_In; eauto).
    assert (LC : List.length names = List.length (columns obs)) by (rewrite columns_len; auto).
    assert (EX : exists l, fitted (file_of w) req = Ok l /\ map (fun x => (fst x, fst (snd x))) l = filter (fun nv => match req with [] => true | _ => smem (fst nv) req end) (combine names (columns obs))).
    { destruct req as [|r0 rs].
      - destruct (fitted_all _ _ _ FC) as (l & L & E). exists l. split; auto. rewrite E. clear. induction (combine names (columns obs)) as [|x q IH]; cbn [filter]; auto. f_equal. auto.
      - destruct (fitted_named _ _ _ (r0 :: rs) FC) as (l & L & E); [discriminate| |eauto]. intros n Hn. apply NI. auto. }
    destruct EX as (l & L & E). exists l. split; auto.
    assert (MF : map fst l = map fst (filter (fun nv => match req with [] => true | _ => smem (fst nv) req end) (combine names (columns obs)))).
    { rewrite <- E, map_map. auto. }
    assert (MF' : map fst l = filter (fun n => match req with [] => true | _ => smem n req end) names).
    { rewrite MF. clear - LC. revert LC. generalize (columns obs). induction names as [|n ns IH]; intros [|c cs] LC; try discriminate; cbn [combine filter map fst]; auto.
      destruct (match req with [] => true | _ => smem n req end); cbn [map fst]; [f_equal|]; auto. }
    split. { rewrite MF'. apply NoDup_filter. auto. }
    split. { intros n. rewrite MF', filter_In, NI. destruct req as [|r0 rs]; [intuition|]. rewrite smem_In. intuition discriminate. }
    intros n d I. apply (in_map (fun x => (fst x, fst (snd x)))) in I. rewrite E in I. cbn [fst snd] in I. apply filter_In in I. destruct I as [I _].
    assert (K : exists k, nth_error names k = Some n /\ fst d = column obs k).
    { clear - I. rewrite columns_eq in I. cbn [obs m_cols] in I. fold names in I.
      assert (G : forall l a, In (n, fst d) (combine l (map (column obs) (seq a (List.length l)))) -> exists k, nth_error l k = Some n /\ fst d = column obs (a + k)).
      { induction l as [|x l IH]; intros a; cbn [List.length seq map combine In]; [intros []|]. intros [H|H].
        - injection H as -> H. exists 0. rewrite Nat.add_0_r. auto.
        - apply IH in H. destruct H as (k & K1 & K2). exists (S k). split; auto. rewrite K2. f_equal. lia. }
      apply (G names 0) in I. auto. }
    destruct K as (k & K & ->). unfold column. cbn [obs m_rows m_at]. split. { rewrite map_length, seq_length. auto. }
    intros c s e info Rg Dg M. destruct (written_pseudo cfg ops st w R W F c s e info k n Rg Dg M K) as (v & Lg & H). exists v. split; auto.
    intros i Hi. rewrite <- H by auto. pose proof (range_bound cfg ops st w c s e info R W F Rg Dg M).
    erewrite nth_error_nth; [reflexivity|]. rewrite nth_error_map, (nth_error_nth' _ 0) by (rewrite seq_length; lia). rewrite seq_nth by lia. reflexivity.
  Qed.
End Written.
