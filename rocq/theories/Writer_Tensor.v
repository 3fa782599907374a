(** The written tensors, dense and sparse, hold exactly the booked values. *)
From Coq Require Import List Arith Bool String Permutation Sorted Lia.
From Verif Require Import PyList PyDict Order Num Names_Model Writer_Model Writer_Spec Writer_Frame
  Writer_Layout Writer_Meta Writer_Inv Writer_State Writer_Arr.
Import ListNotations.
Local Open Scope list_scope.

Section Views.
  Context {V : Type} {NV : Num V}.
  (** value stored in a coordinate list at coordinates (a, b) *)
  Fixpoint look3 (a b : nat) (l : list (nat * nat * V)) : option V :=
    match l with
    | [] => None
    | (x, y, v) :: l' => if Nat.eqb a x && Nat.eqb b y then Some v else look3 a b l'
    end.
  Fixpoint pos3 (a b : nat) (l : list (nat * nat * V)) : option nat :=
    match l with
    | [] => None
    | (x, y, v) :: l' => if Nat.eqb a x && Nat.eqb b y then Some 0 else option_map S (pos3 a b l')
    end.
  Definition or0 (o : option V) : V := match o with Some v => v | None => n0 end.
  (** entry of the (possibly sparse) tensors at dense coordinates *)
  Definition view_norm (t : tensors V) (b p : nat) : V :=
    match t with TDense n _ => n b p | TSparse s => or0 (look3 b p (sp_norm s)) end.
  Definition view_logk (t : tensors V) (b p col : nat) : V :=
    match t with
    | TDense _ k => k b p col
    | TSparse s => match pos3 b p (sp_norm s) with
                   | Some j => or0 (look3 j col (sp_logk s))
                   | None => n0 end
    end.
  Definition normval (st : state V) c p i := match st_norm st c p with Some nm => nden nm i | None => n0 end.
  Definition avgval (st : state V) c p s i := match dget s (st_logkavg st c p) with Some e => lden e i | None => n0 end.
  Definition halfval (st : state V) c p s i := match dget s (st_logkhalf st c p) with Some e => lden e i | None => n0 end.
  Definition sumw2val (st : state V) c p i := match st_sumw2 st c p with Some l => nth i l n0 | None => n0 end.

  Lemma look3_In a b v l : look3 a b l = Some v -> In (a, b, v) l.
  Proof.
    induction l as [|[[x y] w] l IH]; simpl; [discriminate|].
    destruct (Nat.eqb_spec a x); destruct (Nat.eqb_spec b y); simpl; auto.
    intros H. injection H as ->. subst. auto.
  Qed.
  Lemma look3_None a b l : look3 a b l = None <-> ~ In (a, b) (map fst l).
  Proof.
    induction l as [|[[x y] w] l IH]; simpl; [tauto|].
    destruct (Nat.eqb_spec a x); destruct (Nat.eqb_spec b y); simpl; rewrite ?IH;
      split; intros H; try discriminate; subst; try (intros [E|E]; [congruence|tauto]); try tauto.
  Qed.
  Lemma In_look3 a b v l : NoDup (map fst l) -> In (a, b, v) l -> look3 a b l = Some v.
  Proof.
    induction l as [|[[x y] w] l IH]; simpl; [contradiction|]. intros N [H|H]; inversion N; subst.
    - injection H as -> -> ->. rewrite !Nat.eqb_refl. auto.
    - destruct (Nat.eqb_spec a x); destruct (Nat.eqb_spec b y); simpl; auto. subst. exfalso. apply H2.
      apply in_map_iff. exists (x, y, v). auto.
  Qed.
  Lemma pos3_spec a b l :
    match pos3 a b l with
    | Some j => exists v, nth_error l j = Some (a, b, v)
    | None => ~ In (a, b) (map fst l)
    end.
  Proof.
    induction l as [|[[x y] w] l IH]; simpl; auto.
    destruct (Nat.eqb_spec a x); destruct (Nat.eqb_spec b y); simpl; subst; eauto;
      destruct (pos3 _ _ l); simpl in *; auto; intros [E|E]; try congruence; tauto.
  Qed.
  Lemma pos3_NoDup a b v l j : NoDup (map fst l) -> nth_error l j = Some (a, b, v) -> pos3 a b l = Some j.
  Proof.
    intros N H. pose proof (pos3_spec a b l) as P. destruct (pos3 a b l) as [k|].
    - destruct P as [w P]. f_equal.
      assert (nth_error (map fst l) k = Some (a, b)) by (rewrite nth_error_map, P; auto).
      assert (nth_error (map fst l) j = Some (a, b)) by (rewrite nth_error_map, H; auto).
      apply (proj1 (NoDup_nth_error _) N). { apply nth_error_Some. congruence. } congruence.
    - exfalso. apply P. apply in_map_iff. exists (a, b, v). split; auto. eapply nth_error_In; eauto.
  Qed.
End Views.

Section Tensor.
  Context {V : Type} {NV : Num V} {NL : NumLaws V}.
  Notation cell := (string * nat * nat * nat * string * normarr V)%type.

  Variables (cfg : config) (st : state V).
  Hypothesis IV : Inv cfg st.
  Hypothesis NBeq : forall c, dget c (st_nbinschan st) = option_map isize (dget c (st_channels st)).
  Hypothesis NDch : NoDup (dkeys (st_channels st)).
  Variables (procs systs : list string).
  Hypothesis NDp : NoDup procs.
  Hypothesis NDs : NoDup systs.
  Hypothesis Ksub : forall c p s, In s (dkeys (st_logkavg st c p)) -> In s systs.

  Lemma cells_In c ib n ip p nm : In (c, ib, n, ip, p, nm) (cells st procs) <->
    In (c, (ib, n)) (chan_offsets st) /\ nth_error procs ip = Some p /\ st_norm st c p = Some nm.
  Proof.
    unfold cells. rewrite in_flat_map. split.
    - intros ([c' [ib' n']] & H1 & H2). apply in_flat_map in H2. destruct H2 as ([ip' p'] & H2 & H3).
      simpl in H3. destruct (st_norm st c' p') eqn:E; [|contradiction]. destruct H3 as [H3|[]].
      injection H3 as <- <- <- <- <- <-. apply In_enumerate in H2. auto.
    - intros (H1 & H2 & H3). exists (c, (ib, n)). split; auto. apply in_flat_map. exists (ip, p).
      split. { apply In_enumerate. auto. } simpl. rewrite H3. left. auto.
  Qed.
  Lemma cells_NoDup : NoDup (cells st procs).
  Proof.
    unfold cells. apply NoDup_flat_map.
    - apply NoDup_map_inv with (f := fst). unfold chan_offsets. rewrite offsets_names. auto.
    - intros [c [ib n]] _. apply NoDup_flat_map.
      + apply enumerate_NoDup.
      + intros [ip p] _. simpl. destruct (st_norm st c p); repeat constructor; auto.
      + intros [ip p] [ip' p'] x _ _. simpl. destruct (st_norm st c p); [|contradiction].
        destruct (st_norm st c p'); [|contradiction]. intros [<-|[]] [E|[]]. congruence.
    - intros [c [ib n]] [c' [ib' n']] x _ _ H1 H2. apply in_flat_map in H1, H2.
      destruct H1 as ([ip p] & _ & H1), H2 as ([ip' p'] & _ & H2). simpl in *.
      destruct (st_norm st c p); [|contradiction]. destruct (st_norm st c' p'); [|contradiction].
      destruct H1 as [<-|[]], H2 as [E|[]]. congruence.
  Qed.
  Lemma cell_size c ib n ip p nm : In (c, ib, n, ip, p, nm) (cells st procs) -> nsize nm = n /\ wf_norm cfg nm.
  Proof.
    intros H. apply cells_In in H. destruct H as (H1 & _ & H3).
    destruct (inv_norm _ _ IV _ _ _ H3) as (W & (i & D & Z) & _). split; auto.
    unfold chan_offsets in H1. apply offsets_size in H1. rewrite NBeq, D in H1. simpl in H1. congruence.
  Qed.
  (** two cells covering the same point are the same *)
  Lemma cells_disjoint c ib n ip p nm c' ib' n' p' nm' b :
    In (c, ib, n, ip, p, nm) (cells st procs) -> In (c', ib', n', ip, p', nm') (cells st procs) ->
    ib <= b < ib + n -> ib' <= b < ib' + n' -> (c, ib, n, p, nm) = (c', ib', n', p', nm').
  Proof.
    intros H H' B B'. apply cells_In in H, H'. destruct H as (H1 & H2 & H3), H' as (H1' & H2' & H3').
    destruct (offsets_disjoint _ _ b _ _ _ _ _ _ _ NDch H1 H1' B B') as (-> & -> & ->). congruence.
  Qed.

  (** *** dense fills *)
  Section Point.
    Variables (c p : string) (ib n ip i : nat).
    Hypothesis Hoff : In (c, (ib, n)) (chan_offsets st).
    Hypothesis Hproc : nth_error procs ip = Some p.
    Hypothesis Hi : i < n.

    Lemma cover_is c' ib' n' p' nm' : In (c', ib', n', ip, p', nm') (cells st procs) ->
      ib' <= ib + i < ib' + n' -> c' = c /\ ib' = ib /\ n' = n /\ p' = p /\ st_norm st c p = Some nm'.
    Proof.
      intros H B. apply cells_In in H. destruct H as (H1 & H2 & H3).
      assert (B0 : ib <= ib + i < ib + n) by lia.
      destruct (offsets_disjoint _ _ (ib + i) _ _ _ _ _ _ _ NDch H1 Hoff B B0) as (-> & -> & ->).
      assert (p' = p) by congruence. subst. auto.
    Qed.
    Lemma cell_here nm : st_norm st c p = Some nm -> In (c, ib, n, ip, p, nm) (cells st procs).
    Proof. intros H. apply cells_In. auto. Qed.

    Lemma fill_norm_at : c_sparse cfg = false -> fill_norm st procs (ib + i) ip = normval st c p i.
    Proof.
      intros SP. unfold fill_norm.
      rewrite (fold_point _ (fun a : arr2 => a (ib + i) ip)
        (fun x => let '(c', ib', n', ip', p', nm') := x in in_block ib' n' (ib + i) && Nat.eqb ip ip') (normval st c p i)).
      - unfold normval. destruct (existsb _ _) eqn:X; auto. destruct (st_norm st c p) as [nm|] eqn:N; auto.
        exfalso. apply not_true_iff_false in X. apply X. apply existsb_exists.
        exists (c, ib, n, ip, p, nm). split. { apply cell_here; auto. }
        rewrite Nat.eqb_refl, andb_true_r. apply in_block_spec. lia.
      - intros s [[[[[c' ib'] n'] ip'] p'] nm'] Hin. unfold block2.
        destruct (in_block ib' n' (ib + i)) eqn:B; simpl; auto. destruct (Nat.eqb_spec ip ip'); auto. subst ip'.
        apply in_block_spec in B. pose proof (cell_size _ _ _ _ _ _ Hin) as [_ W].
        destruct (cover_is _ _ _ _ _ Hin B) as (-> & -> & -> & -> & N).
        unfold normval. rewrite N. replace (ib + i - ib) with i by lia.
        destruct nm'; auto. simpl in W. destruct W. congruence.
    Qed.
    Lemma fill_sumw2_at : fill_sumw2 st procs (ib + i) ip = if st_norm st c p then sumw2val st c p i else n0.
    Proof.
      unfold fill_sumw2.
      rewrite (fold_point _ (fun a : arr2 => a (ib + i) ip)
        (fun x => let '(c', ib', n', ip', p', nm') := x in in_block ib' n' (ib + i) && Nat.eqb ip ip') (sumw2val st c p i)).
      - destruct (existsb _ _) eqn:X.
        + apply existsb_exists in X. destruct X as ([[[[[c' ib'] n'] ip'] p'] nm'] & Hin & E).
          apply andb_true_iff in E. destruct E as [B E]. apply in_block_spec in B. apply Nat.eqb_eq in E. subst ip'.
          destruct (cover_is _ _ _ _ _ Hin B) as (-> & -> & -> & -> & N). rewrite N. auto.
        + destruct (st_norm st c p) as [nm|] eqn:N; auto. exfalso. apply not_true_iff_false in X. apply X.
          apply existsb_exists. exists (c, ib, n, ip, p, nm). split. { apply cell_here; auto. }
          rewrite Nat.eqb_refl, andb_true_r. apply in_block_spec. lia.
      - intros s [[[[[c' ib'] n'] ip'] p'] nm'] Hin.
        destruct (in_block ib' n' (ib + i)) eqn:B; simpl.
        + destruct (Nat.eqb_spec ip ip').
          * subst ip'. apply in_block_spec in B.
            destruct (cover_is _ _ _ _ _ Hin B) as (-> & -> & -> & -> & N).
            unfold sumw2val. destruct (inv_norm _ _ IV _ _ _ N) as (_ & _ & _ & w & -> & _).
            unfold block2. rewrite (proj2 (in_block_spec ib n (ib + i))) by lia. rewrite Nat.eqb_refl. simpl.
            replace (ib + i - ib) with i by lia. auto.
          * destruct (st_sumw2 st c' p'); auto. unfold block2. rewrite (proj2 (Nat.eqb_neq ip ip')) by auto.
            rewrite andb_false_r. auto.
        + destruct (st_sumw2 st c' p'); auto. unfold block2. rewrite B. auto.
    Qed.
    Lemma scatter2_at ib' ip' e a : NoDup (map fst e) -> 
      scatter2 ib' ip' e a (ib + i) ip =
      if Nat.eqb ip ip' && existsb (fun x : nat * V => Nat.eqb (ib + i) (ib' + fst x)) e
      then at_or0 (ib + i - ib') e else a (ib + i) ip.
    Proof.
      intros ND. unfold scatter2.
      rewrite (fold_point _ (fun a : arr2 => a (ib + i) ip)
        (fun x => Nat.eqb ip ip' && Nat.eqb (ib + i) (ib' + fst x)) (at_or0 (ib + i - ib') e)).
      - destruct (Nat.eqb ip ip') eqn:E; simpl; auto.
        assert (forall l : list (nat * V), existsb (fun _ => false) l = false) as -> by (induction l; auto). auto.
      - intros s [k v] Hin. simpl. destruct (Nat.eqb_spec (ib + i) (ib' + k)) as [Q|Q]; simpl.
        + destruct (Nat.eqb_spec ip ip'); simpl; auto. symmetry. apply at_or0_In; auto.
          replace (ib + i - ib') with k by lia. auto.
        + rewrite andb_false_r. auto.
    Qed.
    Lemma fill_sumw_at : fill_sumw st procs (ib + i) ip = normval st c p i.
    Proof.
      unfold fill_sumw.
      rewrite (fold_point _ (fun a : arr2 => a (ib + i) ip)
        (fun x => let '(c', ib', n', ip', p', nm') := x in
          Nat.eqb ip ip' && match nm' with NDense _ => in_block ib' n' (ib + i)
                            | NSparse e _ => existsb (fun x => Nat.eqb (ib + i) (ib' + fst x)) e end) (normval st c p i)).
      - unfold normval. destruct (existsb _ _) eqn:X; auto. destruct (st_norm st c p) as [nm|] eqn:N; auto.
        pose proof (cell_here _ N) as Hc. destruct (cell_size _ _ _ _ _ _ Hc) as [Sz W].
        apply not_true_iff_false in X. rewrite existsb_exists in X.
        destruct nm as [l|e m].
        + exfalso. apply X. exists (c, ib, n, ip, p, NDense l). split; [exact Hc|]. rewrite Nat.eqb_refl. simpl. apply in_block_spec. lia.
        + simpl. symmetry. apply at_or0_out. intros Hin. apply X. exists (c, ib, n, ip, p, NSparse e m). split; [exact Hc|].
          rewrite Nat.eqb_refl. simpl. apply existsb_exists. apply in_map_iff in Hin. destruct Hin as (x & <- & Hx).
          exists x. split; auto. apply Nat.eqb_refl.
      - intros s [[[[[c' ib'] n'] ip'] p'] nm'] Hin. pose proof (cell_size _ _ _ _ _ _ Hin) as [Sz W].
        destruct nm' as [l|e m].
        + unfold block2. rewrite andb_comm. destruct (Nat.eqb_spec ip ip'); simpl; auto. subst ip'.
          destruct (in_block ib' n' (ib + i)) eqn:B; simpl; auto. apply in_block_spec in B.
          destruct (cover_is _ _ _ _ _ Hin B) as (-> & -> & -> & -> & N).
          unfold normval. rewrite N. simpl. f_equal. lia.
        + simpl in W. destruct W as (_ & S & F). rewrite scatter2_at by (apply sorted_lt_NoDup; auto).
          destruct (Nat.eqb_spec ip ip'); simpl; auto. subst ip'.
          destruct (existsb _ e) eqn:X; auto. apply existsb_exists in X. destruct X as ([k v] & Hk & E).
          apply Nat.eqb_eq in E. simpl in E. rewrite Forall_forall in F.
          assert (k < n'). { simpl in Sz. rewrite <- Sz. apply F. apply in_map_iff. exists (k, v). auto. }
          assert (B : ib' <= ib + i < ib' + n') by lia.
          destruct (cover_is _ _ _ _ _ Hin B) as (-> & -> & -> & -> & N).
          unfold normval. rewrite N. simpl. f_equal. lia.
    Qed.

    Lemma fill_logk_avg is_ s : c_sparse cfg = false -> nth_error systs is_ = Some s ->
      fill_logk st procs systs (ib + i) ip is_ = avgval st c p s i.
    Proof.
      intros SP Hs. assert (Ls : is_ < List.length systs) by (apply nth_error_Some; congruence).
      unfold fill_logk.
      rewrite (fold_point _ (fun a : arr3 => a (ib + i) ip is_)
        (fun x => let '(c', ib', n', ip', p', nm') := x in
           in_block ib' n' (ib + i) && Nat.eqb ip ip' && (match dget s (st_logkavg st c' p') with Some _ => true | None => false end))
        (avgval st c p s i)).
      - destruct (existsb _ _) eqn:X; auto. unfold avgval. destruct (dget s (st_logkavg st c p)) as [e|] eqn:D; auto.
        destruct (st_norm st c p) as [nm|] eqn:N.
        + exfalso. apply not_true_iff_false in X. apply X. apply existsb_exists.
          exists (c, ib, n, ip, p, nm). split. { apply cell_here; auto. }
          rewrite Nat.eqb_refl, D, !andb_true_r. apply in_block_spec. lia.
        + destruct (inv_none _ _ IV _ _ N) as [E _]. rewrite E in D. discriminate.
      - intros a [[[[[c' ib'] n'] ip'] p'] nm'] Hin. unfold fill_logk_cell.
        rewrite (fold_point _ (fun a : arr3 => a (ib + i) ip is_)
          (fun ks => in_block ib' n' (ib + i) && Nat.eqb ip ip' && Nat.eqb is_ (fst ks) &&
             match dget (snd ks) (st_logkavg st c' p') with Some _ => true | None => false end) (avgval st c p s i)).
        + assert (existsb (fun ks => in_block ib' n' (ib + i) && Nat.eqb ip ip' && Nat.eqb is_ (fst ks) &&
             match dget (snd ks) (st_logkavg st c' p') with Some _ => true | None => false end) (enumerate systs)
             = in_block ib' n' (ib + i) && Nat.eqb ip ip' && match dget s (st_logkavg st c' p') with Some _ => true | None => false end) as ->; auto.
          apply eq_true_iff_eq. rewrite existsb_exists, !andb_true_iff. split.
          * intros ([k s'] & Hk & E). apply In_enumerate in Hk. simpl in E. rewrite !andb_true_iff in E.
            destruct E as [[[E1 E2] E3] E4]. apply Nat.eqb_eq in E3. subst k. assert (s' = s) by congruence. subst. auto.
          * intros [[E1 E2] E3]. exists (is_, s). split. { apply In_enumerate. auto. }
            simpl. rewrite E1, E2, E3, Nat.eqb_refl. auto.
        + intros a' [k s'] Hk. apply In_enumerate in Hk. simpl.
          assert (Lk : k < List.length systs) by (apply nth_error_Some; congruence).
          destruct (dget s' (st_logkavg st c' p')) as [e|] eqn:D; [|rewrite andb_false_r; auto].
          rewrite andb_true_r.
          assert (G : block3 ib' n' ip' k (dense_of e) a' (ib + i) ip is_ =
             if in_block ib' n' (ib + i) && Nat.eqb ip ip' && Nat.eqb is_ k then avgval st c p s i else a' (ib + i) ip is_).
          { unfold block3. destruct (in_block ib' n' (ib + i)) eqn:B; simpl; auto.
            destruct (Nat.eqb_spec ip ip'); simpl; auto. subst ip'.
            destruct (Nat.eqb_spec is_ k); auto. subst k. assert (s' = s) by congruence. subst s'.
            apply in_block_spec in B. destruct (cover_is _ _ _ _ _ Hin B) as (-> & -> & -> & -> & N).
            unfold avgval. rewrite D. replace (ib + i - ib) with i by lia.
            destruct (inv_logk _ _ IV _ _ _ N) as (_ & _ & A & _). specialize (A _ _ D).
            destruct e; simpl in *; auto. destruct A. congruence. }
          destruct (st_symmetric st); auto. destruct (dget s' (st_logkhalf st c' p')) as [h|]; auto.
          unfold block3 at 1. destruct (Nat.eqb_spec is_ (List.length systs + k)); [lia|].
          rewrite andb_false_r. auto.
    Qed.
    Lemma fill_logk_half is_ s : c_sparse cfg = false -> nth_error systs is_ = Some s -> st_symmetric st = false ->
      fill_logk st procs systs (ib + i) ip (List.length systs + is_) = halfval st c p s i.
    Proof.
      intros SP Hs Sy. assert (Ls : is_ < List.length systs) by (apply nth_error_Some; congruence).
      unfold fill_logk. set (col := List.length systs + is_).
      set (both := fun c' p' => match dget s (st_logkavg st c' p'), dget s (st_logkhalf st c' p') with
                                | Some _, Some _ => true | _, _ => false end).
      rewrite (fold_point _ (fun a : arr3 => a (ib + i) ip col)
        (fun x => let '(c', ib', n', ip', p', nm') := x in
           in_block ib' n' (ib + i) && Nat.eqb ip ip' && both c' p') (halfval st c p s i)).
      - destruct (existsb _ _) eqn:X; auto. unfold halfval. destruct (dget s (st_logkhalf st c p)) as [e|] eqn:D; auto.
        destruct (st_norm st c p) as [nm|] eqn:N.
        + exfalso. apply not_true_iff_false in X. apply X. apply existsb_exists.
          exists (c, ib, n, ip, p, nm). split. { apply cell_here; auto. }
          destruct (inv_logk _ _ IV _ _ _ N) as (_ & _ & _ & A). destruct (A _ _ D) as (_ & A2 & _).
          unfold both. rewrite D. destruct (dget s (st_logkavg st c p)) eqn:D2.
          * rewrite Nat.eqb_refl, !andb_true_r. apply in_block_spec. lia.
          * apply dget_None in D2. contradiction.
        + destruct (inv_none _ _ IV _ _ N) as [_ E]. rewrite E in D. discriminate.
      - intros a [[[[[c' ib'] n'] ip'] p'] nm'] Hin. unfold fill_logk_cell.
        rewrite (fold_point _ (fun a : arr3 => a (ib + i) ip col)
          (fun ks => in_block ib' n' (ib + i) && Nat.eqb ip ip' && Nat.eqb is_ (fst ks) && both c' p') (halfval st c p s i)).
        + assert (existsb (fun ks => in_block ib' n' (ib + i) && Nat.eqb ip ip' && Nat.eqb is_ (fst ks) && both c' p') (enumerate systs)
             = in_block ib' n' (ib + i) && Nat.eqb ip ip' && both c' p') as ->; auto.
          apply eq_true_iff_eq. rewrite existsb_exists, !andb_true_iff. split.
          * intros ([k s'] & Hk & E). apply In_enumerate in Hk. simpl in E. rewrite !andb_true_iff in E. tauto.
          * intros [[E1 E2] E3]. exists (is_, s). split. { apply In_enumerate. auto. }
            simpl. rewrite E1, E2, E3, Nat.eqb_refl. auto.
        + intros a' [k s'] Hk. apply In_enumerate in Hk. simpl.
          assert (Lk : k < List.length systs) by (apply nth_error_Some; congruence).
          assert (G0 : forall e0, block3 ib' n' ip' k e0 a' (ib + i) ip col = a' (ib + i) ip col).
          { intros e0. unfold block3. destruct (Nat.eqb_spec col k); [unfold col in *; lia|]. rewrite andb_false_r. auto. }
          destruct (Nat.eqb_spec is_ k).
          * subst k. assert (s' = s) by congruence. subst s'. rewrite andb_true_r. unfold both.
            destruct (dget s (st_logkavg st c' p')) as [e|] eqn:D; [|rewrite andb_false_r; auto].
            rewrite Sy. destruct (dget s (st_logkhalf st c' p')) as [h|] eqn:Dh; [|rewrite andb_false_r; auto].
            rewrite andb_true_r. unfold block3 at 1. fold col. rewrite Nat.eqb_refl, andb_true_r.
            destruct (in_block ib' n' (ib + i)) eqn:B; simpl; auto.
            destruct (Nat.eqb_spec ip ip'); simpl; auto. subst ip'.
            apply in_block_spec in B. destruct (cover_is _ _ _ _ _ Hin B) as (-> & -> & -> & -> & N).
            unfold halfval. rewrite Dh. replace (ib + i - ib) with i by lia.
            destruct (inv_logk _ _ IV _ _ _ N) as (_ & _ & _ & A). destruct (A _ _ Dh) as (A1 & _).
            destruct h; simpl in *; auto. destruct A1. congruence.
          * rewrite !andb_false_r. simpl. destruct (dget s' (st_logkavg st c' p')) as [e|]; auto. rewrite Sy.
            destruct (dget s' (st_logkhalf st c' p')) as [h|]; auto. unfold block3 at 1.
            destruct (Nat.eqb_spec col (List.length systs + k)); [unfold col in *; lia|]. rewrite andb_false_r. auto.
    Qed.
  End Point.

  (** *** sparse assembly *)
  Definition cell_norm (x : cell) : list (nat * nat * V) :=
    let '(c, ib, n, ip, p, nm) := x in map (fun iv => (ib + fst iv, ip, snd iv)) (coo_entries nm).
  Fixpoint cells_off (cs : list cell) (old : nat) : list (cell * nat) :=
    match cs with
    | [] => []
    | x :: r => (x, old) :: cells_off r (old + List.length (cell_norm x))
    end.
  Definition cell_logk (xo : cell * nat) : list (nat * nat * V) :=
    let '(c, ib, n, ip, p, nm) := fst xo in logk_of_cell st systs c p nm (snd xo).

  Lemma assemble_eq cs : forall old, assemble st systs cs old =
    (flat_map cell_norm cs, flat_map cell_logk (cells_off cs old)).
  Proof.
    induction cs as [|[[[[[c ib] n] ip] p] nm] cs IH]; intros old; simpl; auto.
    rewrite map_length. rewrite IH. auto.
  Qed.
  Lemma cells_off_fst cs old x o : In (x, o) (cells_off cs old) -> In x cs.
  Proof.
    revert old. induction cs as [|y cs IH]; simpl; intros old; [contradiction|].
    intros [E|H]; [left; congruence|right; eauto].
  Qed.
  Lemma cells_off_ge cs old x o : In (x, o) (cells_off cs old) -> old <= o.
  Proof.
    revert old. induction cs as [|y cs IH]; simpl; intros old; [contradiction|].
    intros [E|H]; [injection E as _ <-; auto|]. apply IH in H. lia.
  Qed.
  Lemma cells_off_NoDup cs old : NoDup cs -> NoDup (cells_off cs old).
  Proof.
    revert old. induction cs as [|y cs IH]; simpl; intros old N; constructor; inversion N; subst; auto.
    intros H. apply cells_off_fst in H. auto.
  Qed.
  Lemma cells_off_unique cs old x o x' o' j : In (x, o) (cells_off cs old) -> In (x', o') (cells_off cs old) ->
    o <= j < o + List.length (cell_norm x) -> o' <= j < o' + List.length (cell_norm x') -> (x, o) = (x', o').
  Proof.
    revert old. induction cs as [|y cs IH]; simpl; intros old H H' B B'; [contradiction|].
    destruct H as [E|H], H' as [E'|H'].
    - congruence.
    - injection E as <- <-. apply cells_off_ge in H'. lia.
    - injection E' as <- <-. apply cells_off_ge in H. lia.
    - eapply IH; eauto.
  Qed.
  Lemma cells_off_nth cs : forall old x o k e, In (x, o) (cells_off cs old) ->
    nth_error (cell_norm x) k = Some e -> old <= o /\ nth_error (flat_map cell_norm cs) (o - old + k) = Some e.
  Proof.
    induction cs as [|y cs IH]; simpl; intros old x o k e H Hk; [contradiction|].
    destruct H as [E|H].
    - injection E as -> ->. split; auto. rewrite Nat.sub_diag. simpl.
      rewrite nth_error_app1; auto. apply nth_error_Some. congruence.
    - destruct (IH _ _ _ _ _ H Hk) as [L Q]. split; [lia|].
      rewrite nth_error_app2 by lia. rewrite <- Q. f_equal. lia.
  Qed.
  Lemma cells_off_ex cs : forall old x, In x cs -> exists o, In (x, o) (cells_off cs old).
  Proof.
    induction cs as [|y cs IH]; simpl; intros old x; [contradiction|]. intros [->|H]; eauto.
    destruct (IH (old + List.length (cell_norm y)) x H) as [o Ho]. eauto.
  Qed.

  Definition nsl := flat_map cell_norm (cells st procs).
  Definition ksl := flat_map cell_logk (cells_off (cells st procs) 0).

  Lemma In_nsl b ip v : In (b, ip, v) nsl <-> exists c ib n p nm i,
    In (c, ib, n, ip, p, nm) (cells st procs) /\ b = ib + i /\ In (i, v) (coo_entries nm).
  Proof.
    unfold nsl. rewrite in_flat_map. split.
    - intros ([[[[[c ib] n] ip'] p] nm] & H1 & H2). simpl in H2. apply in_map_iff in H2.
      destruct H2 as ([i w] & E & H2). simpl in E. injection E as <- <- <-.
      exists c, ib, n, p, nm, i. auto.
    - intros (c & ib & n & p & nm & i & H1 & -> & H2). exists (c, ib, n, ip, p, nm). split; auto.
      simpl. apply in_map_iff. exists (i, v). auto.
  Qed.
  Lemma coo_range c ib n ip p nm i : In (c, ib, n, ip, p, nm) (cells st procs) ->
    In i (map fst (coo_entries nm)) -> i < n.
  Proof.
    intros H Hi. destruct (cell_size _ _ _ _ _ _ H) as [Z W]. rewrite <- Z. destruct nm as [l|e m].
    - apply coo_idx_NDense in Hi. simpl. tauto.
    - simpl in *. destruct W as (_ & _ & F). rewrite Forall_forall in F. auto.
  Qed.
  Lemma nsl_NoDup : NoDup (map fst nsl).
  Proof.
    unfold nsl.
    assert (E : forall cs, map fst (flat_map cell_norm cs) = flat_map (fun x => map fst (cell_norm x)) cs).
    { induction cs as [|x cs IH]; simpl; auto. rewrite map_app, IH. auto. }
    rewrite E. clear E. apply NoDup_flat_map.
    - apply cells_NoDup.
    - intros [[[[[c ib] n] ip] p] nm] H. simpl. rewrite map_map. simpl.
      destruct (cell_size _ _ _ _ _ _ H) as [_ W]. pose proof (sorted_lt_NoDup _ (coo_sorted _ _ W)) as N.
      replace (map (fun x : nat * V => (ib + fst x, ip)) (coo_entries nm))
        with (map (fun k => (ib + k, ip)) (map fst (coo_entries nm))) by (rewrite map_map; auto).
      clear - N. induction N; simpl; constructor; auto.
      intros Hin. apply in_map_iff in Hin. destruct Hin as (y & E & Hy). injection E as E.
      assert (y = x) by lia. subst. auto.
    - intros [[[[[c ib] n] ip] p] nm] [[[[[c' ib'] n'] ip'] p'] nm'] [b q] H H' Hb Hb'. simpl in Hb, Hb'.
      rewrite map_map in Hb, Hb'. simpl in Hb, Hb'. apply in_map_iff in Hb, Hb'.
      destruct Hb as ([i v] & E & Hi), Hb' as ([i' v'] & E' & Hi'). simpl in E, E'.
      injection E as <- <-. injection E' as E1 ->.
      assert (i < n). { eapply coo_range; eauto. apply in_map_iff. exists (i, v). auto. }
      assert (i' < n'). { eapply coo_range; eauto. apply in_map_iff. exists (i', v'). auto. }
      assert (B : ib <= ib + i < ib + n) by lia. assert (B' : ib' <= ib + i < ib' + n') by lia.
      pose proof (cells_disjoint _ _ _ _ _ _ _ _ _ _ _ _ H H' B B'). congruence.
  Qed.

  (** position of a populated bin among the stored entries of its template *)
  Lemma norm_pos_spec nm old i : wf_norm cfg nm -> In i (map fst (coo_entries nm)) ->
    exists k, norm_pos nm old i = old + k /\ nth_error (coo_entries nm) k = Some (i, nden nm i).
  Proof.
    intros W Hi. destruct nm as [l|e n].
    - pose proof Hi as Hi'. apply coo_idx_NDense in Hi'. destruct Hi' as [L NZ]. simpl.
      set (v := nth i l n0) in *.
      assert (EL : l = firstn i l ++ v :: skipn (S i) l).
      { rewrite <- (firstn_skipn i l) at 1. f_equal. unfold v. clear - L. revert i L.
        induction l as [|x l IH]; intros i L; simpl in *; [lia|]. destruct i; simpl; auto. apply IH. lia. }
      set (l1 := firstn i l) in *. set (l2 := skipn (S i) l) in *.
      assert (Ll1 : List.length l1 = i) by (unfold l1; rewrite firstn_length; lia).
      assert (Ff : firstn (i + 1) l = l1 ++ [v]).
      { rewrite EL. rewrite firstn_app, firstn_all2 by lia. f_equal.
        replace (i + 1 - List.length l1) with 1 by lia. reflexivity. }
      rewrite Ff, filter_app, app_length. simpl.
      assert (neq0 v = false) as Zv.
      { apply not_true_iff_false. rewrite neq0_spec. auto. }
      rewrite Zv. simpl. set (k := List.length (filter (fun v0 => negb (neq0 v0)) l1)).
      exists k. split; [lia|].
      rewrite EL at 1. rewrite app_length. simpl. rewrite seq_app. simpl. rewrite Ll1. rewrite EL at 1.
      assert (CA : forall (a1 : list nat) (b1 : list V) a2 b2, List.length a1 = List.length b1 ->
                  combine (a1 ++ a2) (b1 ++ b2) = combine a1 b1 ++ combine a2 b2).
      { clear. induction a1 as [|x a1 IH]; intros [|y b1] a2 b2 H; simpl in *; try discriminate; auto.
        f_equal. apply IH. lia. }
      rewrite CA by (rewrite seq_length; auto). rewrite filter_app. simpl. unfold nonzero at 2. simpl. rewrite Zv. simpl.
      assert (Lk : List.length (filter nonzero (combine (seq 0 i) l1)) = k).
      { unfold k. rewrite <- Ll1. clearbody l1. clear. generalize 0. induction l1 as [|x l1 IH]; intros s; simpl; auto.
        unfold nonzero at 1. simpl. destruct (neq0 x); simpl; auto. }
      rewrite nth_error_app2 by lia. rewrite Lk, Nat.sub_diag. reflexivity.
    - simpl in *. destruct W as (_ & S & F). apply In_nth with (d := 0) in Hi. destruct Hi as (k & Hk & Ek).
      exists k. split. { rewrite <- Ek, count_lt_sorted by auto. lia. }
      rewrite map_length in Hk.
      destruct (nth_error e k) as [[j v]|] eqn:E. 2:{ apply nth_error_None in E. lia. }
      assert (j = i).
      { rewrite <- Ek. rewrite (nth_error_nth (map fst e) k 0 (x := j)); auto. rewrite nth_error_map, E. auto. }
      subst j. rewrite (at_or0_In i v); auto. { apply sorted_lt_NoDup; auto. } eapply nth_error_In; eauto.
  Qed.

  (** a booked value, as it should appear in the sparse tensor *)
  Definition fact (c p : string) (col i : nat) (v : V) : Prop :=
    (exists s e, nth_error systs col = Some s /\ dget s (st_logkavg st c p) = Some (LSparse e) /\ In (i, v) e) \/
    (exists k s e, col = List.length systs + k /\ nth_error systs k = Some s /\
       dget s (st_logkhalf st c p) = Some (LSparse e) /\ In (i, v) e).

  Hypothesis SPARSE : c_sparse cfg = true.

  Lemma sparse_entry nm e : wf_lentry cfg nm e -> exists l, e = LSparse l.
  Proof. destruct e; simpl; eauto. intros [? _]. congruence. Qed.

  Lemma logk_of_cell_In c ib n ip p nm old j col v : In (c, ib, n, ip, p, nm) (cells st procs) ->
    (In (j, col, v) (logk_of_cell st systs c p nm old) <->
     exists i, j = norm_pos nm old i /\ fact c p col i v).
  Proof.
    intros H. apply cells_In in H. destruct H as (_ & _ & N).
    destruct (inv_logk _ _ IV _ _ _ N) as (_ & _ & A & B).
    unfold logk_of_cell. rewrite in_flat_map. split.
    - intros ([k s] & Hk & Hin). apply In_enumerate in Hk. simpl in Hin.
      destruct (dget s (st_logkavg st c p)) as [e|] eqn:D; [|contradiction].
      destruct (sparse_entry nm e (A _ _ D)) as [l ->]. simpl in Hin. apply in_app_iff in Hin. destruct Hin as [Hin|Hin].
      + apply in_map_iff in Hin. destruct Hin as ([i w] & E & Hin). simpl in E. injection E as <- <- <-.
        exists i. split; auto. left. eauto 6.
      + destruct (dget s (st_logkhalf st c p)) as [h|] eqn:Dh; [|contradiction].
        destruct (B _ _ Dh) as (B1 & _). destruct (sparse_entry nm h B1) as [lh ->]. simpl in Hin.
        apply in_map_iff in Hin. destruct Hin as ([i w] & E & Hin). simpl in E. injection E as <- <- <-.
        exists i. split; auto. right. eauto 8.
    - intros (i & -> & [(s & e & Hk & D & Hin)|(k & s & e & -> & Hk & D & Hin)]).
      + exists (col, s). split. { apply In_enumerate. auto. } simpl. rewrite D. apply in_app_iff. left. simpl.
        apply in_map_iff. exists (i, v). auto.
      + exists (k, s). split. { apply In_enumerate. auto. } simpl.
        destruct (B _ _ D) as (_ & B2 & _). destruct (dget s (st_logkavg st c p)) as [e'|] eqn:D2.
        2:{ apply dget_None in D2. contradiction. }
        apply in_app_iff. right. rewrite D. simpl. apply in_map_iff. exists (i, v). auto.
  Qed.

  Lemma fact_populated c p nm col i v : st_norm st c p = Some nm -> fact c p col i v ->
    In i (map fst (coo_entries nm)) /\ v <> n0.
  Proof.
    intros N. destruct (inv_logk _ _ IV _ _ _ N) as (_ & _ & A & B).
    intros [(s & e & Hk & D & Hin)|(k & s & e & -> & Hk & D & Hin)].
    - destruct (A _ _ D) as (_ & _ & I & F). rewrite Forall_forall in F. split.
      + apply I. apply in_map_iff. exists (i, v). auto.
      + apply (F _ Hin).
    - destruct (B _ _ D) as ((_ & _ & I & F) & _). rewrite Forall_forall in F. split.
      + apply I. apply in_map_iff. exists (i, v). auto.
      + apply (F _ Hin).
  Qed.
  Lemma fact_functional c p nm col i v v' : st_norm st c p = Some nm ->
    fact c p col i v -> fact c p col i v' -> v = v'.
  Proof.
    intros N. destruct (inv_logk _ _ IV _ _ _ N) as (_ & _ & A & B).
    assert (F : forall (e : list (nat * V)), NoDup (map fst e) -> In (i, v) e -> In (i, v') e -> v = v').
    { intros e S H1 H2. pose proof (In_assoc _ _ _ S H1). pose proof (In_assoc _ _ _ S H2). congruence. }
    intros [(s & e & Hk & D & Hin)|(k & s & e & -> & Hk & D & Hin)]
           [(s' & e' & Hk' & D' & Hin')|(k' & s' & e' & E' & Hk' & D' & Hin')].
    - assert (s' = s) by congruence. subst. assert (e' = e) by congruence. subst.
      destruct (A _ _ D) as (_ & S & _). eauto.
    - assert (col < List.length systs) by (apply nth_error_Some; congruence). lia.
    - assert (List.length systs + k < List.length systs) by (apply nth_error_Some; congruence). lia.
    - assert (k' = k) by lia. subst k'. assert (s' = s) by congruence. subst. assert (e' = e) by congruence. subst.
      destruct (B _ _ D) as ((_ & S & _) & _). eauto.
  Qed.

  (** every log-variation entry refers to the norm entry of its own bin and process *)
  Lemma In_ksl j col v : In (j, col, v) ksl <-> exists c ib n ip p nm i,
    In (c, ib, n, ip, p, nm) (cells st procs) /\ fact c p col i v /\
    nth_error nsl j = Some (ib + i, ip, nden nm i).
  Proof.
    unfold ksl. rewrite in_flat_map. split.
    - intros ([[[[[[c ib] n] ip] p] nm] o] & H1 & H2). unfold cell_logk in H2. simpl in H2.
      pose proof (cells_off_fst _ _ _ _ H1) as Hc.
      apply (logk_of_cell_In c ib n ip p nm) in H2; auto. destruct H2 as (i & -> & F).
      pose proof Hc as Hc'. apply cells_In in Hc'. destruct Hc' as (_ & _ & N).
      destruct (cell_size _ _ _ _ _ _ Hc) as [_ W].
      destruct (fact_populated _ _ _ _ _ _ N F) as [P _].
      destruct (norm_pos_spec nm o i W P) as (k & Ek & Hk).
      exists c, ib, n, ip, p, nm, i. split; auto. split; auto. rewrite Ek.
      assert (Hk' : nth_error (cell_norm (c, ib, n, ip, p, nm)) k = Some (ib + i, ip, nden nm i)).
      { simpl. rewrite nth_error_map, Hk. auto. }
      destruct (cells_off_nth _ _ _ _ _ _ H1 Hk') as [_ Q]. rewrite Nat.sub_0_r in Q. exact Q.
    - intros (c & ib & n & ip & p & nm & i & Hc & F & Hj).
      pose proof Hc as Hc'. apply cells_In in Hc'. destruct Hc' as (_ & _ & N).
      destruct (cell_size _ _ _ _ _ _ Hc) as [_ W].
      destruct (fact_populated _ _ _ _ _ _ N F) as [P _].
      destruct (cells_off_ex _ 0 _ Hc) as [o Ho].
      destruct (norm_pos_spec nm o i W P) as (k & Ek & Hk).
      assert (Hk' : nth_error (cell_norm (c, ib, n, ip, p, nm)) k = Some (ib + i, ip, nden nm i)).
      { simpl. rewrite nth_error_map, Hk. auto. }
      destruct (cells_off_nth _ _ _ _ _ _ Ho Hk') as [_ Q]. rewrite Nat.sub_0_r in Q. fold nsl in Q.
      assert (j = o + k).
      { apply (proj1 (NoDup_nth_error _) nsl_NoDup).
        - rewrite map_length. apply nth_error_Some. congruence.
        - rewrite !nth_error_map, Hj, Q. auto. }
      exists ((c, ib, n, ip, p, nm), o). split; auto. unfold cell_logk. simpl.
      apply (logk_of_cell_In c ib n ip p nm); auto. exists i. split; auto. congruence.
  Qed.

  Lemma ksl_NoDup : NoDup (map fst ksl).
  Proof.
    unfold ksl.
    assert (E : forall l, map fst (flat_map cell_logk l) = flat_map (fun x => map fst (cell_logk x)) l).
    { induction l as [|x l IH]; simpl; auto. rewrite map_app, IH. auto. }
    rewrite E. clear E.
    assert (POS : forall c ib n ip p nm o i, In ((c, ib, n, ip, p, nm), o) (cells_off (cells st procs) 0) ->
              In i (map fst (coo_entries nm)) ->
              o <= norm_pos nm o i < o + List.length (cell_norm (c, ib, n, ip, p, nm)) /\
              nth_error (coo_entries nm) (norm_pos nm o i - o) = Some (i, nden nm i)).
    { intros c ib n ip p nm o i H P. pose proof (cells_off_fst _ _ _ _ H) as Hc.
      destruct (cell_size _ _ _ _ _ _ Hc) as [_ W]. destruct (norm_pos_spec nm o i W P) as (k & -> & Hk).
      replace (o + k - o) with k by lia. split; auto. simpl. rewrite map_length.
      assert (k < List.length (coo_entries nm)) by (apply nth_error_Some; congruence). lia. }
    apply NoDup_flat_map.
    - apply cells_off_NoDup, cells_NoDup.
    - intros [[[[[[c ib] n] ip] p] nm] o] H. unfold cell_logk. simpl.
      pose proof (cells_off_fst _ _ _ _ H) as Hc. pose proof Hc as Hc'. apply cells_In in Hc'. destruct Hc' as (_ & _ & N).
      destruct (inv_logk _ _ IV _ _ _ N) as (_ & _ & A & B).
      unfold logk_of_cell.
      assert (E : forall (f : nat * string -> list (nat * nat * V)) l, map fst (flat_map f l) = flat_map (fun x => map fst (f x)) l).
      { induction l as [|x l IH]; simpl; auto. rewrite map_app, IH. auto. }
      rewrite E. clear E.
      assert (INJ : forall (e : list (nat * V)) (col : nat), NoDup (map fst e) -> incl (map fst e) (map fst (coo_entries nm)) ->
                NoDup (map fst (map (fun iv : nat * V => (norm_pos nm o (fst iv), (col : nat), snd iv)) e))).
      { intros e col S I. rewrite map_map. simpl.
        replace (map (fun x : nat * V => (norm_pos nm o (fst x), col)) e)
          with (map (fun i => (norm_pos nm o i, col)) (map fst e)) by (rewrite map_map; auto).
        revert S I. generalize (map fst e) as l. induction l as [|x l IH]; simpl; intros S I; constructor.
        - intros Hin. apply in_map_iff in Hin. destruct Hin as (y & Ey & Hy). injection Ey as Ey.
          destruct (POS _ _ _ _ _ _ _ x H) as [_ P1]. { apply I. left. auto. }
          destruct (POS _ _ _ _ _ _ _ y H) as [_ P2]. { apply I. right. auto. }
          rewrite Ey in P2. assert (x = y) by congruence. subst. inversion S; auto.
        - apply IH. { inversion S; auto. } intros z Hz. apply I. right. auto. }
      apply NoDup_flat_map.
      + apply enumerate_NoDup.
      + intros [k s] Hk. simpl. destruct (dget s (st_logkavg st c p)) as [e|] eqn:D; [|constructor].
        destruct (sparse_entry nm e (A _ _ D)) as [l ->]. pose proof (A _ _ D) as (_ & S1 & I1 & _). simpl.
        rewrite map_app. apply In_enumerate in Hk.
        assert (k < List.length systs) by (apply nth_error_Some; congruence).
        apply NoDup_app_intro.
        * apply INJ; auto.
        * destruct (dget s (st_logkhalf st c p)) as [h|] eqn:Dh; [|constructor].
          destruct (B _ _ Dh) as (B1 & _). destruct (sparse_entry nm h B1) as [lh ->].
          destruct B1 as (_ & S2 & I2 & _). apply INJ; auto.
        * intros [a b] H1 H2. rewrite map_map in H1. apply in_map_iff in H1. destruct H1 as ([i v] & E1 & _).
          simpl in E1. injection E1 as _ E1. destruct (dget s (st_logkhalf st c p)); [|contradiction].
          rewrite map_map in H2. apply in_map_iff in H2. destruct H2 as ([i' v'] & E2 & _). simpl in E2. injection E2 as _ E2. lia.
      + intros [k s] [k' s'] [a b] Hk Hk' H1 H2. simpl in H1, H2. apply In_enumerate in Hk, Hk'.
        assert (k < List.length systs) by (apply nth_error_Some; congruence).
        assert (k' < List.length systs) by (apply nth_error_Some; congruence).
        assert (G : forall k0 s0, In (a, b) (map fst (match dget s0 (st_logkavg st c p) with
             | Some e => map (fun iv => (norm_pos nm o (fst iv), k0, snd iv)) (sparse_of e) ++
                match dget s0 (st_logkhalf st c p) with
                | Some h => map (fun iv => (norm_pos nm o (fst iv), List.length systs + k0, snd iv)) (sparse_of h)
                | None => [] end | None => [] end)) -> b = k0 \/ b = List.length systs + k0).
        { clear. intros k0 s0 H. apply in_map_iff in H. destruct H as ([[x y] v] & E & H). simpl in E. injection E as -> ->.
          destruct (dget s0 (st_logkavg st c p)); [|contradiction]. apply in_app_iff in H. destruct H as [H|H].
          - apply in_map_iff in H. destruct H as (iv & E & _). left. congruence.
          - destruct (dget s0 (st_logkhalf st c p)); [|contradiction].
            apply in_map_iff in H. destruct H as (iv & E & _). right. congruence. }
        apply G in H1, H2. assert (k = k') by lia. subst. congruence.
    - intros [[[[[[c ib] n] ip] p] nm] o] [[[[[[c' ib'] n'] ip'] p'] nm'] o'] [j col] H H' H1 H2.
      unfold cell_logk in H1, H2. simpl in H1, H2. apply in_map_iff in H1, H2.
      destruct H1 as ([[j1 c1] v1] & E1 & H1), H2 as ([[j2 c2] v2] & E2 & H2). simpl in E1, E2.
      injection E1 as -> ->. injection E2 as -> ->.
      pose proof (cells_off_fst _ _ _ _ H) as Hc. pose proof (cells_off_fst _ _ _ _ H') as Hc'.
      apply (logk_of_cell_In c ib n ip p nm) in H1; auto. apply (logk_of_cell_In c' ib' n' ip' p' nm') in H2; auto.
      destruct H1 as (i & E1 & F1), H2 as (i' & E2 & F2).
      apply cells_In in Hc, Hc'. destruct Hc as (_ & _ & N), Hc' as (_ & _ & N').
      destruct (fact_populated _ _ _ _ _ _ N F1) as [P1 _]. destruct (fact_populated _ _ _ _ _ _ N' F2) as [P2 _].
      destruct (POS _ _ _ _ _ _ _ _ H P1) as [B1 _]. destruct (POS _ _ _ _ _ _ _ _ H' P2) as [B2 _].
      rewrite <- E1 in B1. rewrite <- E2 in B2. eapply cells_off_unique; eauto.
  Qed.

  (** the pre-computed totals match, so the assertions hold *)
  Lemma count_dict {B} (f : B -> nat) (d : dict B) l : NoDup l -> NoDup (dkeys d) -> incl (dkeys d) l ->
    sumn (map (fun s => match dget s d with Some e => f e | None => 0 end) l) = sumn (map f (dvals d)).
  Proof.
    intros Nl. induction d as [|[k v] d IH]; intros Nd I.
    - unfold sumn. simpl. clear. induction l; simpl; auto.
    - inversion Nd; subst. change (dvals ((k, v) :: d)) with (v :: dvals d). cbn [map].
      change (sumn (f v :: map f (dvals d))) with (f v + sumn (map f (dvals d))).
      rewrite <- IH by (auto; intros x Hx; apply I; right; auto).
      assert (Hk : In k l) by (apply I; left; auto).
      assert (G : forall l', NoDup l' -> sumn (map (fun s => match dget s ((k, v) :: d) with Some e => f e | None => 0 end) l')
         = (if in_dec string_dec k l' then f v else 0) + sumn (map (fun s => match dget s d with Some e => f e | None => 0 end) l')).
      { induction l' as [|s l' IHl]; intros Nl'; [reflexivity|]. inversion Nl'; subst.
        change (sumn (map ?g (s :: l'))) with (g s + sumn (map g l')). cbv beta. rewrite IHl by auto. simpl dget.
        destruct (String.eqb_spec s k).
        - subst. apply dget_None in H1. rewrite H1.
          destruct (in_dec string_dec k (k :: l')) as [_|Q]; [|exfalso; apply Q; left; auto].
          destruct (in_dec string_dec k l'); [contradiction|]. lia.
        - destruct (in_dec string_dec k (s :: l')) as [Q|Q], (in_dec string_dec k l') as [R|R]; try lia.
          + destruct Q; [congruence|contradiction].
          + exfalso. apply Q. right. auto. }
      rewrite G by auto. destruct (in_dec string_dec k l); [lia|contradiction].
  Qed.
  Lemma map_snd_enumerate {A} (l : list A) : map snd (enumerate l) = l.
  Proof. unfold enumerate. generalize 0. induction l; intros s; simpl; f_equal; auto. Qed.
  Lemma map_enumerate {A B} (f : A -> B) l : map f l = map (fun x => f (snd x)) (enumerate l).
  Proof. rewrite <- (map_map snd f), map_snd_enumerate. auto. Qed.
  Lemma length_flat_map {A B} (f : A -> list B) l : List.length (flat_map f l) = sumn (map (fun x => List.length (f x)) l).
  Proof. unfold sumn. induction l; simpl; auto. rewrite app_length, IHl. auto. Qed.
  Lemma sumn_add {A} (f g : A -> nat) l : sumn (map (fun x => f x + g x) l) = sumn (map f l) + sumn (map g l).
  Proof. unfold sumn. induction l; simpl; lia. Qed.

  Lemma ksl_total : List.length ksl = logk_total st (cells st procs).
  Proof.
    unfold ksl, logk_total. rewrite length_flat_map.
    assert (E : forall cs old, incl cs (cells st procs) ->
      sumn (map (fun x => List.length (cell_logk x)) (cells_off cs old)) =
      sumn (map (fun x => let '(c, _, _, _, p, _) := x in
         sumn (map lsize (dvals (st_logkavg st c p))) + sumn (map lsize (dvals (st_logkhalf st c p)))) cs)).
    { induction cs as [|[[[[[c ib] n] ip] p] nm] cs IH]; intros old I; [reflexivity|].
      cbn [cells_off map]. change (sumn (?a :: ?b)) with (a + sumn b).
      rewrite IH by (intros x Hx; apply I; right; auto). f_equal. unfold cell_logk. simpl fst. simpl snd.
      unfold logk_of_cell. rewrite length_flat_map.
      assert (Hc : In (c, ib, n, ip, p, nm) (cells st procs)) by (apply I; left; auto).
      apply cells_In in Hc. destruct Hc as (_ & _ & N).
      destruct (inv_logk _ _ IV _ _ _ N) as (NA & NH & A & B).
      assert (IA : incl (dkeys (st_logkavg st c p)) systs) by (intros s; apply Ksub).
      assert (IH' : incl (dkeys (st_logkhalf st c p)) systs).
      { intros s Hs. apply keys_ex in Hs. destruct Hs as [h Hh]. apply In_dget in Hh; auto.
        destruct (B _ _ Hh) as (_ & B2 & _). apply Ksub in B2. auto. }
      rewrite <- (count_dict lsize (st_logkavg st c p) systs) by auto.
      rewrite <- (count_dict lsize (st_logkhalf st c p) systs) by auto.
      rewrite <- sumn_add. rewrite (map_enumerate _ systs). f_equal.
      apply map_ext. intros [k s]. simpl.
      destruct (dget s (st_logkavg st c p)) as [e|] eqn:D.
      - rewrite app_length, map_length. destruct (dget s (st_logkhalf st c p)); simpl; auto. rewrite map_length. auto.
      - destruct (dget s (st_logkhalf st c p)) as [h|] eqn:Dh; auto.
        destruct (B _ _ Dh) as (_ & B2 & _). apply dget_None in D. contradiction. }
    apply E. apply incl_refl.
  Qed.

  (** *** the sorted arrays *)
  Definition order := argsort (map (fun e : nat * nat * V => fst (fst e) * List.length procs + snd (fst e)) nsl).
  Definition ns' := gather dflt3 nsl order.
  Definition perm := argsort order.
  Definition ncol := if st_symmetric st then List.length systs else 2 * List.length systs.
  Definition ks1 := map (fun e : nat * nat * V => (nth (fst (fst e)) perm 0, snd (fst e), snd e)) ksl.
  Definition ks' := gather dflt3 ks1 (argsort (map (fun e : nat * nat * V => fst (fst e) * ncol + snd (fst e)) ks1)).

  Lemma write_sparse_eq : write_sparse st procs systs = Ok (mkSp ns' ks' ncol).
  Proof.
    unfold write_sparse. rewrite assemble_eq. fold nsl ksl. rewrite ksl_total, Nat.eqb_refl. reflexivity.
  Qed.

  Lemma order_perm : Permutation order (seq 0 (List.length nsl)).
  Proof. unfold order. eapply perm_trans; [apply argsort_perm|]. rewrite map_length. auto. Qed.
  Lemma ns'_perm : Permutation ns' nsl.
  Proof. apply gather_perm, order_perm. Qed.
  Lemma ns'_NoDup : NoDup (map fst ns').
  Proof. eapply Permutation_NoDup; [|apply nsl_NoDup]. apply Permutation_map, Permutation_sym, ns'_perm. Qed.
  Lemma ks'_perm : Permutation ks' ks1.
  Proof.
    apply gather_perm. eapply perm_trans; [apply argsort_perm|]. rewrite map_length. auto.
  Qed.
  Lemma order_length : List.length order = List.length nsl.
  Proof. rewrite (Permutation_length order_perm), seq_length. auto. Qed.
  Lemma ns'_nth j0 : j0 < List.length nsl -> nth_error ns' (nth j0 perm 0) = nth_error nsl j0.
  Proof.
    intros H. destruct (argsort_inv _ _ j0 order_perm H) as [L E]. fold perm in L, E.
    unfold ns', gather. rewrite nth_error_map.
    rewrite (nth_error_nth' order 0) by (rewrite order_length; auto). rewrite E. simpl.
    symmetry. apply nth_error_nth'. auto.
  Qed.
  Lemma perm_inj j1 j2 : j1 < List.length nsl -> j2 < List.length nsl -> nth j1 perm 0 = nth j2 perm 0 -> j1 = j2.
  Proof.
    intros H1 H2 E. destruct (argsort_inv _ _ j1 order_perm H1) as [_ E1].
    destruct (argsort_inv _ _ j2 order_perm H2) as [_ E2]. fold perm in E1, E2. congruence.
  Qed.
  Lemma ksl_range j col v : In (j, col, v) ksl -> j < List.length nsl.
  Proof.
    intros H. apply In_ksl in H. destruct H as (c & ib & n & ip & p & nm & i & _ & _ & H).
    apply nth_error_Some. congruence.
  Qed.
  Lemma ks1_NoDup : NoDup (map fst ks1).
  Proof.
    unfold ks1. rewrite map_map. simpl.
    pose proof ksl_NoDup as N. pose proof ksl_range as R.
    induction ksl as [|[[j col] v] l IH]; simpl in *; constructor; inversion N; subst.
    - intros Hin. apply in_map_iff in Hin. destruct Hin as ([[j' col'] v'] & E & Hin). simpl in E.
      injection E as E1 ->. apply perm_inj in E1; eauto. subst. apply H1. apply in_map_iff.
      exists (j, col, v'). auto.
    - apply IH; eauto.
  Qed.
  Lemma ks'_NoDup : NoDup (map fst ks').
  Proof. eapply Permutation_NoDup; [|apply ks1_NoDup]. apply Permutation_map, Permutation_sym, ks'_perm. Qed.

  Theorem In_ns' b ip v : In (b, ip, v) ns' <-> exists c ib n p nm i,
    In (c, ib, n, ip, p, nm) (cells st procs) /\ b = ib + i /\ In (i, v) (coo_entries nm).
  Proof.
    rewrite <- In_nsl. split; apply Permutation_in; [|apply Permutation_sym]; apply ns'_perm.
  Qed.
  Theorem In_ks' j col v : In (j, col, v) ks' <-> exists c ib n ip p nm i,
    In (c, ib, n, ip, p, nm) (cells st procs) /\ fact c p col i v /\
    nth_error ns' j = Some (ib + i, ip, nden nm i).
  Proof.
    split.
    - intros H. apply (Permutation_in _ ks'_perm) in H. unfold ks1 in H. apply in_map_iff in H.
      destruct H as ([[j0 c0] v0] & E & H). simpl in E. injection E as <- -> ->.
      pose proof (ksl_range _ _ _ H) as L. apply In_ksl in H.
      destruct H as (c & ib & n & ip & p & nm & i & H1 & H2 & H3). exists c, ib, n, ip, p, nm, i.
      rewrite ns'_nth by auto. auto.
    - intros (c & ib & n & ip & p & nm & i & H1 & H2 & H3).
      apply (Permutation_in _ (Permutation_sym ks'_perm)). unfold ks1.
      assert (Hin : In (ib + i, ip, nden nm i) nsl).
      { eapply Permutation_in; [apply ns'_perm|]. eapply nth_error_In; eauto. }
      apply In_nth_error in Hin. destruct Hin as [j0 Hj0].
      assert (L : j0 < List.length nsl) by (apply nth_error_Some; congruence).
      assert (E : nth j0 perm 0 = j).
      { apply (proj1 (NoDup_nth_error _) ns'_NoDup).
        - rewrite map_length. apply nth_error_Some. rewrite ns'_nth by auto. congruence.
        - rewrite !nth_error_map, ns'_nth by auto. congruence. }
      apply in_map_iff. exists (j0, col, v). simpl. rewrite E. split; auto.
      apply In_ksl. exists c, ib, n, ip, p, nm, i. auto.
  Qed.

  (** *** canonical order *)
  Lemma nsl_range b ip v : In (b, ip, v) nsl -> ip < List.length procs.
  Proof.
    intros H. apply In_nsl in H. destruct H as (c & ib & n & p & nm & i & H & _). apply cells_In in H.
    destruct H as (_ & H & _). apply nth_error_Some. congruence.
  Qed.
  Lemma ravel_inj n a b a' b' : b < n -> b' < n -> a * n + b = a' * n + b' -> a = a' /\ b = b'.
  Proof.
    intros Hb Hb' E. assert (a = a') by nia. subst. split; auto. lia.
  Qed.
  Lemma ravel_lex n a b a' b' : b < n -> b' < n -> (a * n + b < a' * n + b' <-> a < a' \/ (a = a' /\ b < b')).
  Proof. intros. split; intros; [destruct (Nat.lt_trichotomy a a') as [|[|]]; nia|nia]. Qed.
  Definition lex2 (x y : nat * nat) : Prop := fst x < fst y \/ (fst x = fst y /\ snd x < snd y).

  Lemma gather_key_sorted (l : list (nat * nat * V)) n :
    (forall e, In e l -> snd (fst e) < n) -> NoDup (map fst l) ->
    StronglySorted lex2 (map fst (gather dflt3 l (argsort (map (fun e : nat * nat * V => fst (fst e) * n + snd (fst e)) l)))).
  Proof.
    intros R N. set (key := fun e : nat * nat * V => fst (fst e) * n + snd (fst e)).
    set (idx := argsort (map key l)).
    assert (P : Permutation idx (seq 0 (List.length l))).
    { unfold idx. eapply perm_trans; [apply argsort_perm|]. rewrite map_length. auto. }
    assert (E : gather 0 (map key l) idx = map key (gather dflt3 l idx)).
    { unfold gather. rewrite map_map. apply map_ext_in. intros j Hj.
      apply (Permutation_in _ P), in_seq in Hj. rewrite (nth_indep _ 0 (key dflt3)) by (rewrite map_length; lia).
      apply map_nth. }
    pose proof (argsort_sorted (map key l)) as S. fold idx in S. rewrite E in S.
    assert (PG : Permutation (gather dflt3 l idx) l) by (apply gather_perm; auto).
    assert (NG : NoDup (map fst (gather dflt3 l idx))).
    { eapply Permutation_NoDup; [apply Permutation_sym, Permutation_map, PG|auto]. }
    assert (RG : forall e, In e (gather dflt3 l idx) -> snd (fst e) < n).
    { intros e He. apply R. eapply Permutation_in; eauto. }
    clear - S NG RG. induction (gather dflt3 l idx) as [|e g IH]; simpl in *; constructor.
    - inversion S; inversion NG; subst. apply IH; auto.
    - inversion S; inversion NG; subst. rewrite Forall_forall in *. intros y Hy. apply in_map_iff in Hy.
      destruct Hy as (e' & <- & He'). assert (K : key e <= key e') by (apply H2; apply in_map; auto).
      assert (D : fst e <> fst e') by (intros Q; apply H5; rewrite Q; apply in_map; auto).
      unfold lex2. apply (ravel_lex n); auto. destruct e as [[a b] v], e' as [[a' b'] v']. unfold key in K. simpl in *.
      assert (a * n + b <> a' * n + b'); [|lia]. intros Q. apply ravel_inj in Q; [destruct Q; congruence| |].
      + apply (RG (a, b, v)). auto.
      + apply (RG (a', b', v')). auto.
  Qed.
  Theorem ns'_sorted : StronglySorted lex2 (map fst ns').
  Proof.
    apply gather_key_sorted; [|apply nsl_NoDup]. intros [[b ip] v] H. simpl. eapply nsl_range; eauto.
  Qed.
  Lemma fact_col c p nm col i v : st_norm st c p = Some nm -> fact c p col i v -> col < ncol.
  Proof.
    intros N. unfold ncol. intros [(s & e & Hk & D & Hin)|(k & s & e & -> & Hk & D & Hin)].
    - assert (col < List.length systs) by (apply nth_error_Some; congruence). destruct (st_symmetric st); lia.
    - assert (k < List.length systs) by (apply nth_error_Some; congruence).
      destruct (inv_logk _ _ IV _ _ _ N) as (_ & _ & _ & B). destruct (B _ _ D) as (_ & _ & ->). lia.
  Qed.
  Theorem ks'_sorted : StronglySorted lex2 (map fst ks').
  Proof.
    apply gather_key_sorted; [|apply ks1_NoDup]. intros [[j col] v] H. simpl.
    apply (Permutation_in _ (Permutation_sym ks'_perm)) in H.
    apply In_ks' in H. destruct H as (c & ib & n & ip & p & nm & i & H1 & H2 & _).
    apply cells_In in H1. destruct H1 as (_ & _ & N). eapply fact_col; eauto.
  Qed.

  (** *** views of the sparse tensors *)
  Section SPoint.
    Variables (c p : string) (ib n ip i : nat).
    Hypothesis Hoff : In (c, (ib, n)) (chan_offsets st).
    Hypothesis Hproc : nth_error procs ip = Some p.
    Hypothesis Hi : i < n.

    Lemma ns'_here v : In (ib + i, ip, v) ns' <-> exists nm, st_norm st c p = Some nm /\ In (i, v) (coo_entries nm).
    Proof.
      rewrite In_ns'. split.
      - intros (c' & ib' & n' & p' & nm' & i' & H1 & H2 & H3).
        assert (i' < n'). { eapply coo_range; eauto. apply in_map_iff. exists (i', v). auto. }
        assert (B : ib' <= ib + i < ib' + n') by lia.
        destruct (cover_is c p ib n ip i Hoff Hproc Hi _ _ _ _ _ H1 B) as (-> & -> & -> & -> & N).
        exists nm'. split; auto. assert (i' = i) by lia. subst. auto.
      - intros (nm & N & H). exists c, ib, n, p, nm, i. split; auto. apply cells_In. auto.
    Qed.
    Theorem sview_norm : or0 (look3 (ib + i) ip ns') = normval st c p i.
    Proof.
      unfold normval. destruct (look3 (ib + i) ip ns') as [v|] eqn:L; simpl.
      - apply look3_In, ns'_here in L. destruct L as (nm & N & H). rewrite N.
        destruct (inv_norm _ _ IV _ _ _ N) as (W & _). rewrite <- (coo_den _ _ _ W).
        symmetry. apply at_or0_In; auto. apply sorted_lt_NoDup. eapply coo_sorted; eauto.
      - destruct (st_norm st c p) as [nm|] eqn:N; auto.
        destruct (inv_norm _ _ IV _ _ _ N) as (W & _). rewrite <- (coo_den _ _ _ W).
        symmetry. apply at_or0_out. intros Hin. apply look3_None in L. apply L.
        apply in_map_iff in Hin. destruct Hin as ([j v] & E & Hin). simpl in E. subst j.
        apply in_map_iff. exists (ib + i, ip, v). split; auto. apply ns'_here. eauto.
    Qed.
    Lemma ks'_here j v0 col v : nth_error ns' j = Some (ib + i, ip, v0) ->
      (In (j, col, v) ks' <-> fact c p col i v).
    Proof.
      intros Hj.
      assert (Hin : In (ib + i, ip, v0) ns') by (eapply nth_error_In; eauto).
      apply ns'_here in Hin. destruct Hin as (nm & N & Hin). rewrite In_ks'. split.
      - intros (c' & ib' & n' & ip' & p' & nm' & i' & H1 & H2 & H3). rewrite Hj in H3. injection H3 as E1 <- _.
        pose proof H1 as H1'. apply cells_In in H1'. destruct H1' as (_ & _ & N').
        destruct (fact_populated _ _ _ _ _ _ N' H2) as [P _].
        assert (i' < n') by (eapply coo_range; eauto). assert (B : ib' <= ib + i < ib' + n') by lia.
        destruct (cover_is c p ib n ip i Hoff Hproc Hi _ _ _ _ _ H1 B) as (-> & -> & -> & -> & _).
        assert (i' = i) by lia. subst. auto.
      - intros F. exists c, ib, n, ip, p, nm, i. split. { apply cells_In. auto. } split; auto. rewrite Hj.
        destruct (inv_norm _ _ IV _ _ _ N) as (W & _). rewrite <- (coo_den _ _ _ W).
        rewrite (at_or0_In i v0); auto. apply sorted_lt_NoDup. eapply coo_sorted; eauto.
    Qed.
    Lemma sview_logk_fact col (F : V -> Prop) (val : V) :
      (forall v, fact c p col i v -> val = v) -> ((forall v, ~ fact c p col i v) -> val = n0) ->
      match pos3 (ib + i) ip ns' with Some j => or0 (look3 j col ks') | None => n0 end = val.
    Proof.
      intros H1 H2. pose proof (pos3_spec (ib + i) ip ns') as P. destruct (pos3 (ib + i) ip ns') as [j|].
      - destruct P as [v0 Hj]. destruct (look3 j col ks') as [v|] eqn:L; simpl.
        + apply look3_In in L. apply (ks'_here _ _ _ _ Hj) in L. symmetry. auto.
        + symmetry. apply H2. intros v Fv. apply look3_None in L. apply L. apply in_map_iff.
          exists (j, col, v). split; auto. apply (ks'_here _ _ _ _ Hj). auto.
      - symmetry. apply H2. intros v Fv. apply P.
        assert (exists nm, st_norm st c p = Some nm) as [nm N].
        { destruct (st_norm st c p) as [nm|] eqn:N; eauto. exfalso. destruct (inv_none _ _ IV _ _ N) as [E1 E2].
          destruct Fv as [(s & e & _ & D & _)|(k & s & e & _ & _ & D & _)]; rewrite ?E1, ?E2 in D; discriminate. }
        destruct (fact_populated _ _ _ _ _ _ N Fv) as [Pp _]. apply in_map_iff in Pp.
        destruct Pp as ([i' w] & E & Hin). simpl in E. subst i'. apply in_map_iff. exists (ib + i, ip, w). split; auto.
        apply ns'_here. eauto.
    Qed.
    Theorem sview_avg is_ s : nth_error systs is_ = Some s ->
      match pos3 (ib + i) ip ns' with Some j => or0 (look3 j is_ ks') | None => n0 end = avgval st c p s i.
    Proof.
      intros Hs. assert (Ls : is_ < List.length systs) by (apply nth_error_Some; congruence).
      assert (W : forall nm s0 e, st_norm st c p = Some nm -> dget s0 (st_logkavg st c p) = Some e -> wf_lentry cfg nm e).
      { intros nm s0 e N D. destruct (inv_logk _ _ IV _ _ _ N) as (_ & _ & A & _). eauto. }
      apply (sview_logk_fact is_ (fun _ => True)).
      - intros v [(s' & e & Hk & D & Hin)|(k & s' & e & -> & _)]; [|lia].
        assert (s' = s) by congruence. subst. unfold avgval. rewrite D. simpl. apply at_or0_In; auto.
        destruct (st_norm st c p) as [nm|] eqn:N.
        + destruct (W _ _ _ eq_refl D) as (_ & S & _). auto.
        + destruct (inv_none _ _ IV _ _ N) as [E _]. rewrite E in D. discriminate.
      - intros H. unfold avgval. destruct (dget s (st_logkavg st c p)) as [e|] eqn:D; auto.
        destruct (st_norm st c p) as [nm|] eqn:N.
        2:{ destruct (inv_none _ _ IV _ _ N) as [E _]. rewrite E in D. discriminate. }
        destruct (sparse_entry nm e (W _ _ _ eq_refl D)) as [l ->]. simpl.
        apply at_or0_out. intros Hin. apply in_map_iff in Hin. destruct Hin as ([i' v] & E & Hin). simpl in E. subst.
        apply (H v). left. eauto 6.
    Qed.
    Theorem sview_half is_ s : nth_error systs is_ = Some s ->
      match pos3 (ib + i) ip ns' with Some j => or0 (look3 j (List.length systs + is_) ks') | None => n0 end = halfval st c p s i.
    Proof.
      intros Hs. assert (Ls : is_ < List.length systs) by (apply nth_error_Some; congruence).
      assert (W : forall nm s0 e, st_norm st c p = Some nm -> dget s0 (st_logkhalf st c p) = Some e -> wf_lentry cfg nm e).
      { intros nm s0 e N D. destruct (inv_logk _ _ IV _ _ _ N) as (_ & _ & _ & B). apply (B _ _ D). }
      apply (sview_logk_fact _ (fun _ => True)).
      - intros v [(s' & e & Hk & D & Hin)|(k & s' & e & E & Hk & D & Hin)].
        { assert (List.length systs + is_ < List.length systs) by (apply nth_error_Some; congruence). lia. }
        assert (k = is_) by lia. subst.
        assert (s' = s) by congruence. subst. unfold halfval. rewrite D. simpl. apply at_or0_In; auto.
        destruct (st_norm st c p) as [nm|] eqn:N.
        + destruct (W _ _ _ eq_refl D) as (_ & S & _). auto.
        + destruct (inv_none _ _ IV _ _ N) as [_ E']. rewrite E' in D. discriminate.
      - intros H. unfold halfval. destruct (dget s (st_logkhalf st c p)) as [e|] eqn:D; auto.
        destruct (st_norm st c p) as [nm|] eqn:N.
        2:{ destruct (inv_none _ _ IV _ _ N) as [_ E]. rewrite E in D. discriminate. }
        destruct (sparse_entry nm e (W _ _ _ eq_refl D)) as [l ->]. simpl.
        apply at_or0_out. intros Hin. apply in_map_iff in Hin. destruct Hin as ([i' v] & E & Hin). simpl in E. subst.
        apply (H v). right. eauto 8.
    Qed.
  End SPoint.
End Tensor.
