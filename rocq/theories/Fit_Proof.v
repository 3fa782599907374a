(** Proofs about the callback, the iterative fit and loading external results. *)
From Coq Require Import List Arith Bool String ZArith Lia Sorted Permutation.
From Verif Require Import PyList ListUtil PyDict Order Fit_Model Fit_Spec.
Import ListNotations.

Lemma last_cons {T} (x : T) l d : last (x :: l) d = last l x.
Proof. revert x d. induction l as [|y l IH]; intros x d; auto. change (last (x :: y :: l) d) with (last (y :: l) d). rewrite !IH. auto. Qed.
Section Cb.
  Context {L X V : Type}.
  Variables (isnan : L -> bool) (leb : L -> L -> bool) (k : Z).
  Notation stops' := (stops isnan leb k).
  Lemma cb_call_spec (c : @cbst L X) l x :
    (stops' (cb_hist c ++ [l]) (List.length (cb_hist c)) /\ cb_call isnan leb k c l x = Raise ValueError) \/
    (~ stops' (cb_hist c ++ [l]) (List.length (cb_hist c)) /\
     cb_call isnan leb k c l x = Ok (mkCb (cb_iter c + 1) x (cb_hist c ++ [l]))).
  Proof.
    unfold cb_call. set (h := cb_hist c).
    assert (NL : nth_error (h ++ [l]) (List.length h) = Some l) by (rewrite nth_error_app2, Nat.sub_diag by lia; auto).
    destruct (isnan l) eqn:N.
    - left. split; auto. left. exists l. auto.
    - assert (Q : ~ (exists b, nth_error (h ++ [l]) (List.length h) = Some b /\ isnan b = true)).
      { intros (b & E & F). rewrite NL in E. injection E as <-. congruence. }
      destruct (Z.ltb_spec 0 k) as [K|K]; cbn [andb].
      2:{ right. split; auto. intros [S|S]; [auto|]. lia. }
      destruct (Z.ltb_spec k (Z.of_nat (List.length h))) as [K2|K2]; cbn [andb].
      2:{ right. split; auto. intros [S|S]; [auto|]. lia. }
      set (j := (List.length h - Z.to_nat k)%nat).
      assert (J : (j < List.length h)%nat) by lia.
      assert (NJ : nth_error (h ++ [l]) (List.length h - Z.to_nat k) = Some (nth j h l)).
      { rewrite nth_error_app1 by auto. apply nth_error_nth'. auto. }
      destruct (leb (nth j h l) l) eqn:LE.
      + left. split; auto. right. split; [auto|]. split; [lia|]. exists (nth j h l), l. repeat split; auto. lia.
      + right. split; auto. intros [S|S]; [auto|]. destruct S as (_ & _ & a & b & _ & E1 & E2 & E3).
        rewrite NJ in E1. rewrite NL in E2. injection E1 as <-. injection E2 as <-. congruence.
  Qed.
  Lemma cb_call_ok (c c' : @cbst L X) l x : cb_call isnan leb k c l x = Ok c' ->
    ~ stops' (cb_hist c ++ [l]) (List.length (cb_hist c)) /\ c' = mkCb (cb_iter c + 1) x (cb_hist c ++ [l]).
  Proof. intros E. destruct (cb_call_spec c l x) as [[_ F]|[S F]]; [congruence|]. split; auto. congruence. Qed.
  Lemma cb_call_raise (c : @cbst L X) l x e : cb_call isnan leb k c l x = Raise e ->
    stops' (cb_hist c ++ [l]) (List.length (cb_hist c)) /\ e = ValueError.
  Proof. intros E. destruct (cb_call_spec c l x) as [[S F]|[_ F]]; [|congruence]. split; auto. congruence. Qed.
  (** whether iteration i stops depends on the losses up to i only *)
  Lemma stops_prefix p q i : (i < List.length p)%nat -> stops' (p ++ q) i <-> stops' p i.
  Proof.
    intros H. unfold stops, no_gain.
    assert (E : forall j, (j <= i)%nat -> nth_error (p ++ q) j = nth_error p j) by (intros; apply nth_error_app1; lia).
    split.
    - intros [(b & N & S)|(K & I & a & b & G & N1 & N2 & S)].
      + left. exists b. rewrite E in N; auto.
      + right. rewrite E in N1, N2 by lia. split; auto. split; auto. exists a, b. auto.
    - intros [(b & N & S)|(K & I & a & b & G & N1 & N2 & S)].
      + left. exists b. rewrite E; auto.
      + right. split; auto. split; auto. exists a, b. rewrite !E by lia. auto.
  Qed.

  Lemma calls_spec : forall (its : list (L * X)) (c : @cbst L X) c' ok,
    calls isnan leb k c its = (c', ok) ->
    exists n, (n <= List.length its)%nat /\ cb_hist c' = cb_hist c ++ map fst (firstn n its) /\
      cb_iter c' = (cb_iter c + n)%nat /\ cb_x c' = last (map snd (firstn n its)) (cb_x c) /\
      (forall i, (i < n)%nat -> ~ stops' (cb_hist c ++ map fst its) (List.length (cb_hist c) + i)) /\
      (ok = true -> n = List.length its) /\
      (ok = false -> (n < List.length its)%nat /\ stops' (cb_hist c ++ map fst its) (List.length (cb_hist c) + n)).
  Proof.
    induction its as [|[l x] its IH]; intros c c' ok E.
    - injection E as <- <-. exists 0%nat. cbn [firstn map List.length last]. rewrite app_nil_r, Nat.add_0_r.
      repeat split; auto; try lia; try discriminate.
    - cbn [calls] in E. destruct (cb_call isnan leb k c l x) as [c1|e] eqn:C.
      + apply cb_call_ok in C. destruct C as [S ->].
        destruct (IH _ _ _ E) as (n & N & H & I & LX & P & T & F). cbn [cb_hist cb_iter cb_x] in *.
        exists (Datatypes.S n). cbn [firstn map List.length].
        rewrite <- app_assoc in H. cbn [app] in H.
        assert (LA : (cb_hist c ++ [l]) ++ map fst its = cb_hist c ++ map fst ((l, x) :: its)) by (rewrite <- app_assoc; auto).
        rewrite LA in P, F. rewrite app_length in P, F. cbn [List.length] in P, F.
        split; [lia|]. split; [auto|]. split; [lia|]. split; [|split; [|split]].
        * rewrite LX. cbn [map snd]. symmetry. apply last_cons.
        * intros [|i] Hi.
          -- rewrite Nat.add_0_r. intros Q. apply S. apply (stops_prefix _ (map fst its)); [rewrite app_length; simpl; lia|]. rewrite LA. exact Q.
          -- specialize (P i ltac:(lia)). intros Q. apply P. replace (List.length (cb_hist c) + 1 + i)%nat with (List.length (cb_hist c) + Datatypes.S i)%nat by lia. auto.
        * intros O. specialize (T O). lia.
        * intros O. destruct (F O) as [F1 F2]. split; [lia|].
          replace (List.length (cb_hist c) + 1 + n)%nat with (List.length (cb_hist c) + Datatypes.S n)%nat in F2 by lia. auto.
      + apply cb_call_raise in C. destruct C as [S ->]. injection E as <- <-. exists 0%nat. cbn [firstn map List.length last].
        rewrite app_nil_r, Nat.add_0_r. repeat split; auto; try lia; try discriminate.
        rewrite Nat.add_0_r. change (fst (l, x) :: map fst its) with ([l] ++ map fst its). rewrite app_assoc.
        apply stops_prefix; auto. rewrite app_length. simpl. lia.
  Qed.

  Variable ev : X -> option V.
  Lemma stops_dec h l : stops' (h ++ [l]) (List.length h) \/ ~ stops' (h ++ [l]) (List.length h).
  Proof.
    destruct (isnan l) eqn:N0.
    { left. left. exists l. rewrite nth_error_app2, Nat.sub_diag by lia. auto. }
    assert (NL : nth_error (h ++ [l]) (List.length h) = Some l) by (rewrite nth_error_app2, Nat.sub_diag by lia; auto).
    assert (Q : ~ (exists b, nth_error (h ++ [l]) (List.length h) = Some b /\ isnan b = true)).
    { intros (b & E & F). rewrite NL in E. injection E as <-. congruence. }
    destruct (Z_lt_dec 0 k); [|right; intros [S|S]; [auto|lia]].
    destruct (lt_dec (Z.to_nat k) (List.length h)); [|right; intros [S|S]; [auto|lia]].
    destruct (nth_error (h ++ [l]) (List.length h - Z.to_nat k)) as [a|] eqn:NA.
    - destruct (leb a l) eqn:LE.
      + left. right. split; auto. split; auto. exists a, l. repeat split; auto. lia.
      + right. intros [S|S]; [auto|]. destruct S as (_ & _ & a' & b & _ & E1 & E2 & E3). congruence.
    - right. intros [S|S]; [auto|]. destruct S as (_ & _ & a' & b & _ & E1 & E2 & E3). congruence.
  Qed.
  Lemma exec_total : forall (s : @strat L X V) acc, exists acc' o, exec isnan leb k ev s acc acc' o.
  Proof.
    induction s as [x| | |y next IH|l y next IH]; intros acc.
    - do 2 eexists. constructor.
    - do 2 eexists. constructor.
    - do 2 eexists. constructor.
    - destruct (ev y) as [v|] eqn:E; [|do 2 eexists; apply ex_eval_fail; auto].
      destruct (IH v acc) as (a & o & H). exists a, o. eapply ex_eval; eauto.
    - destruct (stops_dec (map fst acc) l) as [S|S]; rewrite map_length in S.
      + do 2 eexists. apply ex_iter_stop; auto.
      + destruct (IH (acc ++ [(l, y)])) as (a & o & H). exists a, o. eapply ex_iter; eauto.
  Qed.
  Lemma last_snoc {T} (l : list T) x d : last (l ++ [x]) d = x.
  Proof. induction l as [|a l IH]; auto. simpl. destruct (l ++ [x]) eqn:E; auto. destruct l; discriminate. Qed.
  Lemma run_min_exec s acc acc' o : exec isnan leb k ev s acc acc' o ->
    forall x x0 c, cb_hist c = map fst acc -> cb_x c = last (map snd acc) x0 -> cb_iter c = List.length acc ->
    exists xc c', run_min isnan leb ev k s x c = (xc, c', o) /\ cb_hist c' = map fst acc' /\
      cb_x c' = last (map snd acc') x0 /\ cb_iter c' = List.length acc'.
  Proof.
    induction 1; intros xx x0 c H1 H2 H3; cbn [run_min].
    - repeat eexists; eauto.
    - repeat eexists; eauto.
    - repeat eexists; eauto.
    - rewrite H. apply IHexec; auto.
    - rewrite H. eauto 6.
    - destruct (cb_call_spec c l y) as [[S F]|[S F]]; rewrite F.
      + rewrite H1, map_length in S. contradiction.
      + apply IHexec; cbn [cb_hist cb_x cb_iter].
        * rewrite H1, map_app. auto.
        * rewrite map_app. simpl. rewrite last_snoc. auto.
        * rewrite H3, app_length. auto.
    - destruct (cb_call_spec c l y) as [[S F]|[S F]]; rewrite F.
      + eauto 6.
      + rewrite H1, map_length in S. contradiction.
  Qed.
  Theorem fit_spec s x acc o : exec isnan leb k ev s [] acc o ->
    match o with
    | Returned r => exists c, fit isnan leb ev k s x = (r, Some c) /\ cb_hist c = map fst acc
    | Failed => exists c, fit isnan leb ev k s x = (last (map snd acc) x, Some c) /\ cb_hist c = map fst acc
    | Interrupted => exists xc, fit isnan leb ev k s x = (xc, None)
    end.
  Proof.
    intros E. destruct (run_min_exec _ _ _ _ E x x (cb_init x)) as (xc & c & R & H1 & H2 & H3); auto.
    unfold fit. rewrite R. destruct o; eauto. rewrite <- H2. eauto.
  Qed.
  (** the accepted iterations are points the minimiser reported *)
  Fixpoint reported (s : @strat L X V) (p : L * X) : Prop :=
    match s with
    | SEval _ next => exists v, reported (next v) p
    | SIter l y next => p = (l, y) \/ reported next p
    | _ => False
    end.
  Lemma exec_reported s acc acc' o : exec isnan leb k ev s acc acc' o -> exists new, acc' = acc ++ new /\ forall p, In p new -> reported s p.
  Proof.
    induction 1; try (exists []; split; [symmetry; apply app_nil_r|intros ? []]).
    - destruct IHexec as (new & -> & P). exists new. split; auto. intros p I. exists v. auto.
    - destruct IHexec as (new & -> & P). exists ((l, y) :: new). rewrite <- app_assoc. split; auto.
      intros p [<-|I]; simpl; auto.
  Qed.
End Cb.

(** ** intersect1d *)
Section Inter.
  Definition before (p q : string * nat) : Prop :=
    string_c (fst p) (fst q) = Lt \/ (fst p = fst q /\ (snd p < snd q)%nat).
  Lemma before_trans p q r : before p q -> before q r -> before p r.
  Proof.
    intros [A|[A A']] [B|[B B']].
    - left. eapply (c_trans _ string_cmp); eauto.
    - left. rewrite <- B. auto.
    - left. rewrite A. auto.
    - right. split; [congruence|lia].
  Qed.
  Lemma insert_before x l : (forall q, In q l -> (snd x < snd q)%nat) -> StronglySorted before l ->
    StronglySorted before (insert_k fst string_c x l).
  Proof.
    induction l as [|y l IH]; intros H S; simpl. { constructor; constructor. }
    inversion S as [|? ? S' F]; subst. unfold le_k.
    assert (B : match string_c (fst x) (fst y) with Gt => before y x | _ => before x y end).
    { destruct (string_c (fst x) (fst y)) eqn:C.
      - right. apply (c_eq _ string_cmp) in C. split; auto. apply H. simpl; auto.
      - left. auto.
      - left. rewrite (c_anti _ string_cmp), C. auto. }
    destruct (string_c (fst x) (fst y)) eqn:C.
    - constructor; auto. constructor; auto. eapply Forall_impl; [|exact F]. intros a Ha. eapply before_trans; eauto.
    - constructor; auto. constructor; auto. eapply Forall_impl; [|exact F]. intros a Ha. eapply before_trans; eauto.
    - constructor.
      + apply IH; auto. intros q I. apply H. simpl; auto.
      + apply Forall_forall. intros z Hz. apply (Permutation_in _ (insert_perm _ _ x l)) in Hz. destruct Hz as [<-|Hz]; auto.
        rewrite Forall_forall in F. auto.
  Qed.
  Lemma ssort_before : forall names a, StronglySorted before (ssort (combine names (seq a (List.length names)))).
  Proof.
    unfold ssort, sort_k. induction names as [|n names IH]; intros a; simpl; [constructor|].
    apply insert_before; auto. intros q I. apply (Permutation_in _ (sort_perm _ _ _)) in I.
    destruct q as [m i]. apply in_combine_r in I. apply in_seq in I. simpl. lia.
  Qed.
  Lemma adj_equal_In l : StronglySorted before l ->
    (forall n a b c, In (n, a) l -> In (n, b) l -> In (n, c) l -> (a < b)%nat -> (b < c)%nat -> False) ->
    forall i j, In (i, j) (adj_equal l) <-> exists n, In (n, i) l /\ In (n, j) l /\ (i < j)%nat.
  Proof.
    induction l as [|p l IH]; intros S T i j. { simpl. split; [intros []|intros (n & [] & _)]. }
    inversion S as [|? ? S' F]; subst. rewrite Forall_forall in F.
    assert (IH' := IH S' (fun n a b c A B C => T n a b c (or_intror A) (or_intror B) (or_intror C)) i j). clear IH.
    destruct l as [|q l].
    { simpl. split; [intros []|]. intros (n & [A|[]] & [B|[]] & H). subst p. injection B as ->. lia. }
    change (adj_equal (p :: q :: l)) with ((if String.eqb (fst p) (fst q) then [(snd p, snd q)] else []) ++ adj_equal (q :: l)).
    rewrite in_app_iff, IH'. clear IH'. split.
    - intros [H|(n & A & B & C)].
      + destruct (String.eqb_spec (fst p) (fst q)) as [E|E]; [|destruct H]. destruct H as [H|[]]. injection H as <- <-.
        exists (fst p). split; [left; destruct p; auto|]. split; [right; left; destruct q; simpl in *; congruence|].
        destruct (F q (or_introl eq_refl)) as [L|[_ L]]; auto. rewrite E in L.
        assert (X : string_c (fst q) (fst q) = Eq) by (apply (c_eq _ string_cmp); auto). congruence.
      + exists n. split; [right; auto|]. split; [right; auto|auto].
    - intros (n & A & B & C). destruct A as [A|A], B as [B|B].
      + subst p. injection B as ->. lia.
      + subst p. destruct B as [B|B].
        * subst q. left. simpl. rewrite String.eqb_refl. simpl; auto.
        * exfalso. pose proof (F q (or_introl eq_refl)) as P1. inversion S' as [|? ? _ F']; subst. rewrite Forall_forall in F'.
          pose proof (F' _ B) as P2. destruct q as [m a].
          assert (R : forall s, string_c s s = Eq) by (intros; apply (c_eq _ string_cmp); auto).
          assert (m = n). { destruct P1 as [P1|[P1 _]], P2 as [P2|[P2 _]]; simpl in *; auto.
            pose proof (c_trans _ string_cmp _ _ _ P1 P2). rewrite R in H. discriminate. }
          subst m. destruct P1 as [P1|[_ P1]]; simpl in P1; [rewrite R in P1; discriminate|].
          destruct P2 as [P2|[_ P2]]; simpl in P2; [rewrite R in P2; discriminate|].
          apply (T n i a j); simpl; auto.
      + subst p. exfalso. destruct (F _ A) as [L|[_ L]]; simpl in L; [|lia].
        assert (X : string_c n n = Eq) by (apply (c_eq _ string_cmp); auto). congruence.
      + right. exists n. auto.
  Qed.
  Lemma In_combine_seq (names : list string) n i : In (n, i) (combine names (seq 0 (List.length names))) <-> nth_error names i = Some n.
  Proof.
    assert (G : forall a, In (n, i) (combine names (seq a (List.length names))) <-> (a <= i)%nat /\ nth_error names (i - a) = Some n).
    { induction names as [|m names IH]; intros a; simpl.
      - split; [intros []|]. intros [_ H]. destruct (i - a)%nat; discriminate.
      - rewrite IH. split.
        + intros [E|[E H]]. * injection E as <- <-. rewrite Nat.sub_diag. split; auto. * split; [lia|]. replace (i - a)%nat with (S (i - S a)) by lia. auto.
        + intros [E H]. destruct (Nat.eq_dec a i) as [->|D].
          * left. rewrite Nat.sub_diag in H. simpl in H. congruence.
          * right. split; [lia|]. replace (i - a)%nat with (S (i - S a)) in H by lia. auto. }
    rewrite G, Nat.sub_0_r. split; [tauto|]. split; [lia|auto].
  Qed.
  Theorem intersect_spec a b : NoDup a -> NoDup b ->
    forall i z, In (i, z) (intersect1d a b) <-> exists j, z = Z.of_nat j /\ shared a b i j.
  Proof.
    intros Na Nb i z. unfold intersect1d.
    assert (M : forall n k, In (n, k) (ssort (combine (a ++ b) (seq 0 (List.length (a ++ b))))) <-> nth_error (a ++ b) k = Some n).
    { intros n k. unfold ssort. rewrite sort_in. apply In_combine_seq. }
    assert (D : forall n k l, nth_error (a ++ b) k = Some n -> nth_error (a ++ b) l = Some n -> (k < l)%nat ->
      (k < List.length a)%nat /\ (List.length a <= l)%nat).
    { intros n k l H1 H2 H. destruct (lt_dec k (List.length a)) as [K|K].
      - split; auto. destruct (le_dec (List.length a) l); auto. exfalso. rewrite nth_error_app1 in H1, H2 by lia.
        assert (k = l); [|lia]. apply (proj1 (NoDup_nth_error a) Na); [lia|congruence].
      - exfalso. rewrite nth_error_app2 in H1, H2 by lia.
        assert (X : (k - List.length a = l - List.length a)%nat); [|lia]. apply (proj1 (NoDup_nth_error b) Nb); [apply nth_error_Some; congruence|congruence]. }
    assert (T : forall i j, In (i, j) (adj_equal (ssort (combine (a ++ b) (seq 0 (List.length (a ++ b)))))) <->
       exists n, nth_error (a ++ b) i = Some n /\ nth_error (a ++ b) j = Some n /\ (i < j)%nat).
    { intros i0 j0. rewrite adj_equal_In.
      - split; intros (n & A & B & C); exists n; rewrite ?M in *; auto.
      - apply ssort_before.
      - intros n x y w A B C L1 L2. apply M in A, B, C. pose proof (D _ _ _ A B L1). pose proof (D _ _ _ B C L2). lia. }
    rewrite in_map_iff. split.
    - intros ([i0 j0] & E & I). apply T in I. destruct I as (n & A & B & L). simpl in E. injection E as <- <-.
      pose proof (D _ _ _ A B L) as [L1 L2]. exists (j0 - List.length a)%nat. split; [lia|].
      exists n. rewrite nth_error_app1 in A by auto. rewrite nth_error_app2 in B by auto. auto.
    - intros (j & -> & n & A & B). exists (i, (j + List.length a)%nat). split; [simpl; f_equal; lia|].
      apply T. exists n. assert ((i < List.length a)%nat) by (apply nth_error_Some; congruence).
      rewrite nth_error_app1, nth_error_app2 by lia. replace (j + List.length a - List.length a)%nat with j by lia. split; [auto|split; [auto|lia]].
  Qed.
  Lemma StronglySorted_NoDup l : StronglySorted before l -> NoDup l.
  Proof.
    induction 1 as [|p l S IH F]; constructor; auto. intros I. rewrite Forall_forall in F. destruct (F _ I) as [L|[_ L]]; [|lia].
    assert (X : string_c (fst p) (fst p) = Eq) by (apply (c_eq _ string_cmp); auto). congruence.
  Qed.
  (** *** scattering *)
  Context {A : Type}.
  Lemma py_get_ok {B} (l : list B) j v : nth_error l j = Some v -> py_get l (Z.of_nat j) = Ok v.
  Proof.
    intros H. assert (J : (j < List.length l)%nat) by (apply nth_error_Some; congruence).
    unfold py_get. destruct (Z.ltb_spec (Z.of_nat j) 0); [lia|]. destruct (Z.leb_spec 0 (Z.of_nat j)); [|lia].
    destruct (Z.ltb_spec (Z.of_nat j) (Z.of_nat (List.length l))); [|lia]. simpl. rewrite Nat2Z.id, H. auto.
  Qed.
  Lemma py_set_ok {B} (l : list B) i v : (i < List.length l)%nat -> exists d, py_set l i v = Ok d /\ List.length d = List.length l /\
    nth_error d i = Some v /\ forall k, k <> i -> nth_error d k = nth_error l k.
  Proof.
    intros H. unfold py_set. destruct (Nat.ltb_spec i (List.length l)); [|lia]. eexists. split; [reflexivity|].
    assert (F : List.length (firstn i l) = i) by (rewrite firstn_length; lia). split; [|split].
    - rewrite app_length, F. cbn [List.length]. rewrite skipn_length. lia.
    - rewrite nth_error_app2, F, Nat.sub_diag by lia. auto.
    - intros k K. destruct (lt_dec k i).
      + rewrite nth_error_app1 by lia. rewrite nth_error_firstn. destruct (Nat.ltb_spec k i); auto; lia.
      + rewrite nth_error_app2, F by lia. destruct (k - i)%nat eqn:E; [lia|]. cbn [nth_error]. rewrite nth_error_skipn. f_equal. lia.
  Qed.
  Lemma scatter_spec : forall pairs (src dst : list A),
    (forall i z, In (i, z) pairs -> (i < List.length dst)%nat /\ exists j, z = Z.of_nat j /\ (j < List.length src)%nat) ->
    (forall i z z', In (i, z) pairs -> In (i, z') pairs -> z = z') ->
    exists d, scatter pairs src dst = Ok d /\ List.length d = List.length dst /\
      (forall i j, In (i, Z.of_nat j) pairs -> nth_error d i = nth_error src j) /\
      (forall i, (forall z, ~ In (i, z) pairs) -> nth_error d i = nth_error dst i).
  Proof.
    induction pairs as [|[i z] r IH]; intros src dst H U.
    - exists dst. repeat split; auto. intros i j [].
    - destruct (H i z (or_introl eq_refl)) as (I & j & -> & J). cbn [scatter].
      destruct (nth_error src j) as [v|] eqn:E; [|apply nth_error_None in E; lia]. rewrite (py_get_ok _ _ _ E). cbn [rbind].
      destruct (py_set_ok dst i v I) as (d1 & E1 & L1 & N1 & O1). rewrite E1. cbn [rbind].
      destruct (IH src d1) as (d & E2 & L2 & P2 & Q2).
      + intros i' z' I'. rewrite L1. apply H. right; auto.
      + intros i' z' z'' A1 A2. eapply U; right; eauto.
      + exists d. split; auto. split; [lia|]. split.
        * intros i' j' [X|X]; auto. injection X as <- X. apply Nat2Z.inj in X. subst j'.
          destruct (In_dec (fun a b : nat * Z => ltac:(decide equality; [apply Z.eq_dec|apply Nat.eq_dec]) : {a = b} + {a <> b}) (i, Z.of_nat j) r) as [Y|Y]; [auto|].
          rewrite Q2, N1; auto. intros z' Y'. assert (z' = Z.of_nat j) by (eapply U; [right; eauto|left; auto]). congruence.
        * intros i' N. rewrite Q2; [apply O1|].
          -- intros ->. apply (N (Z.of_nat j)). left; auto.
          -- intros z' Y. apply (N z'). right; auto.
  Qed.

  Definition rect (m n : nat) (c : list (list A)) : Prop := List.length c = m /\ forall r, In r c -> List.length r = n.
  Lemma scatter_block_spec : forall pairs all m n (src dst : list (list A)),
    rect m m dst -> rect n n src ->
    (forall i z, In (i, z) pairs -> (i < m)%nat /\ exists j, z = Z.of_nat j /\ (j < n)%nat) ->
    (forall i z, In (i, z) all -> (i < m)%nat /\ exists j, z = Z.of_nat j /\ (j < n)%nat) ->
    (forall i z z', In (i, z) pairs -> In (i, z') pairs -> z = z') ->
    (forall i z z', In (i, z) all -> In (i, z') all -> z = z') ->
    exists d, scatter_block pairs all src dst = Ok d /\ rect m m d /\
      forall i row old, nth_error d i = Some row -> nth_error dst i = Some old ->
        ((forall z, ~ In (i, z) pairs) -> row = old) /\
        (forall j, In (i, Z.of_nat j) pairs -> exists srow, nth_error src j = Some srow /\
           (forall k l, In (k, Z.of_nat l) all -> nth_error row k = nth_error srow l) /\
           (forall k, (forall z, ~ In (k, z) all) -> nth_error row k = nth_error old k)).
  Proof.
    induction pairs as [|[i z] r IH]; intros all m n src dst Rd Rs H Ha U Ua.
    - exists dst. split; auto. split; auto. intros i row old E1 E2. split; [intros _; congruence|intros j []].
    - destruct (H i z (or_introl eq_refl)) as (I & j & -> & J). cbn [scatter_block].
      destruct Rd as [Ld Rd'], Rs as [Ls Rs'].
      destruct (nth_error src j) as [srow|] eqn:Ej; [|apply nth_error_None in Ej; lia]. rewrite (py_get_ok _ _ _ Ej). cbn [rbind].
      destruct (nth_error dst i) as [old|] eqn:Ei; [|apply nth_error_None in Ei; lia]. rewrite (py_get_ok _ _ _ Ei). cbn [rbind].
      assert (Lo : List.length old = m) by (apply Rd'; eapply nth_error_In; eauto).
      assert (Lr : List.length srow = n) by (apply Rs'; eapply nth_error_In; eauto).
      destruct (scatter_spec all srow old) as (new & E1 & L1 & P1 & Q1).
      { intros i' z' I'. rewrite Lo, Lr. auto. } { auto. }
      rewrite E1. cbn [rbind]. destruct (py_set_ok dst i new) as (d1 & E2 & L2 & N2 & O2); [lia|]. rewrite E2. cbn [rbind].
      assert (R1 : rect m m d1).
      { split; [lia|]. intros row Hr. apply In_nth_error in Hr. destruct Hr as [k Hk]. destruct (Nat.eq_dec k i) as [->|D].
        - rewrite N2 in Hk. injection Hk as <-. lia.
        - rewrite O2 in Hk by auto. apply Rd'. eapply nth_error_In; eauto. }
      destruct (IH all m n src d1) as (d & E3 & R3 & P3); auto.
      { split; auto. } { intros i' z' I'. apply H. right; auto. } { intros i' z' z'' A1 A2. eapply U; right; eauto. }
      exists d. split; auto. split; auto. intros i' row old' Er Eo.
      destruct (Nat.eq_dec i' i) as [->|D].
      + rewrite Ei in Eo. injection Eo as <-. destruct (P3 i row new Er N2) as [P4 P5]. split.
        { intros N. exfalso. apply (N (Z.of_nat j)). left; auto. }
        intros j' Ij. assert (j' = j).
        { apply Nat2Z.inj. destruct Ij as [X|X]; [congruence|]. eapply U; [right; exact X|left; auto]. }
        subst j'. exists srow. split; auto.
        destruct (In_dec (fun a b : nat * Z => ltac:(decide equality; [apply Z.eq_dec|apply Nat.eq_dec]) : {a = b} + {a <> b}) (i, Z.of_nat j) r) as [Y|Y].
        * destruct (P5 _ Y) as (s' & Es & Q3 & Q4). rewrite Ej in Es. injection Es as <-. split; auto.
          intros k N. rewrite Q4 by auto. auto.
        * rewrite P4; [split; auto|]. intros z' Y'. assert (z' = Z.of_nat j) by (eapply U; [right; eauto|left; auto]). congruence.
      + rewrite <- O2 in Eo by auto. destruct (P3 i' row old' Er Eo) as [P4 P5]. split.
        * intros N. apply P4. intros z' Y. apply (N z'). right; auto.
        * intros j' [X|X]; [congruence|]. auto.
  Qed.

  Definition entry (c : list (list A)) (i k : nat) : option A :=
    match nth_error c i with Some r => nth_error r k | None => None end.
  Lemma shared_fun a b i j j' : NoDup b -> shared a b i j -> shared a b i j' -> j = j'.
  Proof.
    intros N (n & A1 & B1) (n' & A2 & B2). apply (proj1 (NoDup_nth_error b) N); [apply nth_error_Some; congruence|congruence].
  Qed.
  Theorem load_spec pr bb parms (e : @ext_result A) (s : @lstate A) :
    NoDup parms -> NoDup (er_parms e) ->
    List.length (ls_x s) = List.length parms -> List.length (er_x e) = List.length (er_parms e) ->
    (forall c, ls_cov s = Some c -> rect (List.length parms) (List.length parms) c) ->
    (forall c, er_cov e = Some c -> rect (List.length (er_parms e)) (List.length (er_parms e)) c) ->
    let '(s', ex) := load_fitresult pr bb parms e s in
    let fin := if (pr && negb bb)%bool then Some ValueError else None in
    List.length (ls_x s') = List.length (ls_x s) /\
    (forall i j, shared parms (er_parms e) i j -> nth_error (ls_x s') i = nth_error (er_x e) j) /\
    (forall i, (forall j, ~ shared parms (er_parms e) i j) -> nth_error (ls_x s') i = nth_error (ls_x s) i) /\
    match er_cov e, ls_cov s with
    | None, _ => ex = fin /\ ls_cov s' = ls_cov s /\ ls_loaded s' = false
    | Some _, None => ex = Some RuntimeError /\ ls_cov s' = None /\ ls_loaded s' = false
    | Some ce, Some c => ex = fin /\ ls_loaded s' = true /\ exists c', ls_cov s' = Some c' /\ rect (List.length parms) (List.length parms) c' /\
        (forall i j k l, shared parms (er_parms e) i j -> shared parms (er_parms e) k l -> entry c' i k = entry ce j l) /\
        (forall i k, (forall j, ~ shared parms (er_parms e) i j) \/ (forall l, ~ shared parms (er_parms e) k l) -> entry c' i k = entry c i k)
    end.
  Proof.
    intros Np Ne Lx Le Rc Re. unfold load_fitresult. set (ps := intersect1d parms (er_parms e)).
    assert (I : forall i z, In (i, z) ps <-> exists j, z = Z.of_nat j /\ shared parms (er_parms e) i j) by (apply intersect_spec; auto).
    assert (B : forall i z, In (i, z) ps -> (i < List.length parms)%nat /\ exists j, z = Z.of_nat j /\ (j < List.length (er_parms e))%nat).
    { intros i z H. apply I in H. destruct H as (j & -> & n & A1 & A2). split; [apply nth_error_Some; congruence|].
      exists j. split; auto. apply nth_error_Some; congruence. }
    assert (U : forall i z z', In (i, z) ps -> In (i, z') ps -> z = z').
    { intros i z z' H1 H2. apply I in H1, H2. destruct H1 as (j & -> & S1), H2 as (j' & -> & S2). f_equal. eapply shared_fun; eauto. }
    assert (IS : forall i j, shared parms (er_parms e) i j -> In (i, Z.of_nat j) ps) by (intros i j S; apply I; eauto).
    assert (NS : forall i, (forall j, ~ shared parms (er_parms e) i j) -> forall z, ~ In (i, z) ps).
    { intros i N z H. apply I in H. destruct H as (j & _ & S). apply (N j S). }
    destruct (scatter_spec ps (er_x e) (ls_x s)) as (x' & E1 & L1 & P1 & Q1).
    { intros i z H. rewrite Lx, Le. auto. } { auto. }
    rewrite E1. destruct (er_cov e) as [ce|] eqn:Ce.
    - destruct (ls_cov s) as [c|] eqn:Cs.
      + destruct (scatter_block_spec ps ps (List.length parms) (List.length (er_parms e)) ce c) as (c' & E2 & R2 & P2); auto.
        rewrite E2. cbn [ls_x ls_cov ls_loaded]. split; [auto|]. split; [auto|]. split; [auto|].
        split; [auto|]. split; [auto|]. exists c'. split; [auto|]. split; [auto|].
        pose proof (Rc c eq_refl) as [Lc Rc'].
        assert (G : forall i, (i < List.length parms)%nat -> exists row old, nth_error c' i = Some row /\ nth_error c i = Some old).
        { intros i Hi. destruct R2 as [L2 _]. destruct (nth_error c' i) eqn:X1; [|apply nth_error_None in X1; lia].
          destruct (nth_error c i) eqn:X2; [|apply nth_error_None in X2; lia]. eauto. }
        split.
        * intros i j k l S1 S2. pose proof (IS _ _ S1) as I1. destruct (B _ _ I1) as [Bi _].
          destruct (G i Bi) as (row & old & X1 & X2). destruct (P2 i row old X1 X2) as [_ P3].
          destruct (P3 j I1) as (srow & X3 & P4 & _). unfold entry. rewrite X1, X3. apply P4. auto.
        * intros i k N. destruct (lt_dec i (List.length parms)) as [Bi|Bi].
          2:{ unfold entry. destruct R2 as [L2 _]. rewrite !(proj2 (nth_error_None _ _)) by lia. auto. }
          destruct (G i Bi) as (row & old & X1 & X2). destruct (P2 i row old X1 X2) as [P3 P4]. unfold entry. rewrite X1, X2.
          destruct N as [N|N]; [rewrite P3; auto|].
          destruct (In_dec string_dec (nth i parms EmptyString) (er_parms e)) as [Y|Y].
          -- apply In_nth_error in Y. destruct Y as [j Y].
             assert (S1 : shared parms (er_parms e) i j) by (exists (nth i parms EmptyString); split; auto; apply nth_error_nth'; auto).
             destruct (P4 j (IS _ _ S1)) as (srow & _ & _ & P5). apply P5. auto.
          -- rewrite P3; auto. apply NS. intros j (nm & A1 & A2). apply Y. rewrite (nth_error_nth _ _ EmptyString A1). eapply nth_error_In; eauto.
      + cbn [ls_x ls_cov ls_loaded]. repeat split; auto.
    - cbn [ls_x ls_cov ls_loaded]. repeat split; auto.
  Qed.
End Inter.
