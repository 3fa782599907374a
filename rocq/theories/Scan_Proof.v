(** The one- and two-dimensional scans: grid, filling, restoration of the state. *)
From Coq Require Import List Arith Bool String ZArith Reals Lra Lia.
From Verif Require Import PyList ListUtil PyDict Freeze_Model Freeze_Spec Freeze_Proof Scan_Model Scan_Spiral.
Import ListNotations.

(** *** setn *)
Lemma setn_length {A} i (v : A) l : i < List.length l -> List.length (setn i v l) = List.length l.
Proof. intros H. unfold setn. rewrite app_length, firstn_length. cbn [List.length]. rewrite skipn_length. lia. Qed.
Lemma setn_same {A} i (v d : A) l : i < List.length l -> nth i (setn i v l) d = v.
Proof.
  intros H. unfold setn. rewrite app_nth2; rewrite firstn_length; [|lia].
  replace (i - Nat.min i (List.length l)) with 0 by lia. auto.
Qed.
Lemma setn_other {A} i j (v d : A) l : i < List.length l -> j <> i -> nth j (setn i v l) d = nth j l d.
Proof.
  intros H N. unfold setn. destruct (Nat.lt_ge_cases j i) as [L|L].
  - rewrite app_nth1 by (rewrite firstn_length; lia). rewrite <- (firstn_skipn i l) at 2.
    rewrite app_nth1 by (rewrite firstn_length; lia). auto.
  - rewrite app_nth2 by (rewrite firstn_length; lia). rewrite firstn_length.
    replace (j - Nat.min i (List.length l)) with (S (j - S i)) by lia. simpl.
    destruct l as [|y l]; [simpl in H; lia|]. clear -N L H.
    assert (E : nth (j - S i) (skipn i l) d = nth (i + (j - S i)) l d).
    { clear. revert l. generalize (j - S i). induction i; intros n l; simpl; auto.
      destruct l; simpl; auto. destruct n; auto. }
    rewrite E. destruct j; [lia|]. simpl. f_equal. lia.
Qed.
Lemma linspace_length a b n : List.length (linspace a b n) = n.
Proof. unfold linspace. rewrite map_length, seq_length. auto. Qed.
Lemma linspace_nth a b n i : i < n -> nth i (linspace a b n) 0%R = (a + INR i * ((b - a) / INR (n - 1)))%R.
Proof.
  intros H. unfold linspace. set (f := fun i => _). rewrite (nth_indep _ 0%R (f 0)) by (rewrite map_length, seq_length; auto).
  rewrite map_nth, seq_nth by auto. auto.
Qed.

Section Scan.
  Variables (rx : regex) (parms : list string).
  Variable fit : nat -> list R -> freeze_st -> list R.
  Variable nll : list R -> R.
  (** fits return vectors of the right length *)
  Hypothesis fit_len : forall k x fz, List.length (fit k x fz) = List.length x.

  (** a scan point: the fit started with the parameter at the scan value, everything matched frozen *)
  Definition scanned (idx : nat) (best : R) (fz : freeze_st) (n : nat) (v : R) (e : entry) : Prop :=
    exists k x1, List.length x1 = n /\ nth idx x1 0%R = v /\ e = Val (nll (fit k x1 fz) - best)%R.

  Lemma side_loop_spec idx best pos val is : forall st vals dn,
    idx < List.length (sc_x st) ->
    (forall i, In i is -> pos i < List.length vals) -> List.length dn = List.length vals ->
    NoDup (map pos is) ->
    let '(st', vals', dn') := side_loop fit nll idx best pos val is st vals dn in
    List.length vals' = List.length vals /\ List.length dn' = List.length dn /\ sc_fz st' = sc_fz st /\
    (forall k, ~ In k (map pos is) -> nth k vals' 0%R = nth k vals 0%R /\ nth k dn' Unset = nth k dn Unset) /\
    (forall i, In i is -> nth (pos i) vals' 0%R = val i /\
       scanned idx best (sc_fz st) (List.length (sc_x st)) (val i) (nth (pos i) dn' Unset)).
  Proof.
    induction is as [|i is IH]; intros st vals dn HI HP HL ND; cbn [side_loop].
    - split; auto. split; auto. split; auto. split; auto. intros i [].
    - set (x1 := setn idx (val i) (sc_x st)). set (x2 := fit (sc_calls st) x1 (sc_fz st)).
      assert (L1 : List.length x1 = List.length (sc_x st)) by (apply setn_length; auto).
      assert (L2 : List.length x2 = List.length (sc_x st)) by (unfold x2; rewrite fit_len; auto).
      assert (P0 : pos i < List.length vals) by (apply HP; simpl; auto).
      specialize (IH (mkSc x2 (sc_fz st) (S (sc_calls st))) (setn (pos i) (val i) vals) (setn (pos i) (Val (nll x2 - best)) dn)).
      cbn [sc_x sc_fz] in IH. rewrite !setn_length in IH by lia. simpl in ND. inversion ND as [|? ? N1 N2]; subst.
      specialize (IH ltac:(lia) ltac:(intros; apply HP; simpl; auto) HL N2).
      destruct (side_loop fit nll idx best pos val is _ _ _) as [[st' vals'] dn'].
      destruct IH as (A & B & C & D & E). split; auto. split; auto. split; auto. split.
      + intros k Hk. simpl in Hk. destruct (D k) as [D1 D2]; [tauto|]. rewrite D1, D2, !setn_other by (auto; lia). auto.
      + intros j [<-|Hj].
        * destruct (D (pos i) N1) as [D1 D2]. rewrite D1, D2, !setn_same by lia. split; auto.
          exists (sc_calls st), x1. split; auto. split; auto. unfold x1. apply setn_same. auto.
        * destruct (E j Hj) as [E1 E2]. rewrite L2 in E2. auto.
  Qed.

  (** freezing and releasing the same expressions *)
  Lemma freeze_defreeze fz exprs m : match_params rx exprs parms = Ok m ->
    freeze_params rx parms fz exprs = Ok (update_frozen parms (fz_list fz ++ m)) /\
    defreeze_params rx parms (update_frozen parms (fz_list fz ++ m)) exprs =
      Ok (update_frozen parms (filter (fun p => negb (smem p m)) (fz_list fz))).
  Proof.
    intros M. unfold freeze_params, defreeze_params. rewrite M. simpl. split; auto. f_equal. f_equal.
    rewrite filter_app. replace (filter (fun p => negb (smem p m)) m) with (@nil string).
    - apply app_nil_r.
    - symmetry. assert (X : forall l, (forall x, In x l -> In x m) -> filter (fun p => negb (smem p m)) l = []).
      { induction l as [|x l IH]; intros H; simpl; auto. rewrite (proj2 (smem_In x m)) by (apply H; simpl; auto).
        simpl. apply IH. intros; apply H; simpl; auto. }
      apply X. auto.
  Qed.
  Lemma filter_all (m l : list string) : (forall p, In p l -> ~ In p m) -> filter (fun p => negb (smem p m)) l = l.
  Proof.
    induction l as [|x l IH]; intros H; simpl; auto.
    destruct (smem x m) eqn:E; [exfalso; apply smem_In in E; apply (H x); simpl; auto|]. simpl. f_equal. apply IH.
    intros; apply H; simpl; auto.
  Qed.

  Theorem nll_scan_spec param range points sigma st idx m :
    match_params rx [param] parms = Ok m -> index_of param parms = Some idx -> idx < List.length (sc_x st) ->
    exists st' vals dn, nll_scan rx parms fit nll param range points sigma st = Ok (st', vals, dn) /\
      let h := points / 2 in
      let x0 := nth idx (sc_x st) 0%R in
      List.length vals = 2 * h + 1 /\ List.length dn = 2 * h + 1 /\
      sc_x st' = sc_x st /\ fz_list (sc_fz st') = filter (fun p => negb (smem p m)) (fz_list (sc_fz st)) /\
      (exists l, sc_fz st' = update_frozen parms l) /\
      nth h vals 0%R = x0 /\ nth h dn Unset = Val 0 /\
      (forall i, 1 <= i <= h -> nth (h - i) vals 0%R = (x0 - INR i * (range / INR h) * sigma)%R /\
                               nth (h + i) vals 0%R = (x0 + INR i * (range / INR h) * sigma)%R) /\
      (forall k, k < 2 * h + 1 -> k <> h ->
         scanned idx (nll (sc_x st)) (update_frozen parms (fz_list (sc_fz st) ++ m)) (List.length (sc_x st))
           (nth k vals 0%R) (nth k dn Unset)).
  Proof.
    intros M I L. destruct (freeze_defreeze (sc_fz st) [param] m M) as [F1 F2].
    unfold nll_scan. rewrite F1. cbn [rbind]. rewrite I. rewrite map_length, linspace_length.
    set (h := points / 2) in *. replace (h + 1 - 1) with h by lia.
    replace (2 * (h + 1) - 1) with (2 * h + 1) by lia. replace ((2 * h + 1) / 2) with h.
    2:{ replace (2 * h + 1) with (1 + h * 2) by lia. rewrite Nat.div_add by lia. simpl. auto. }
    set (offs := map (fun o => (o * sigma)%R) (linspace 0 range (h + 1))).
    set (x0 := nth idx (sc_x st) 0%R). set (fz1 := update_frozen parms (fz_list (sc_fz st) ++ m)) in *.
    assert (OF : forall i, i <= h -> nth i offs 0%R = (INR i * (range / INR h) * sigma)%R).
    { intros i Hi. unfold offs. rewrite (nth_indep _ 0%R ((fun o => (o * sigma)%R) 0%R)) by (rewrite map_length, linspace_length; lia).
      rewrite (map_nth (fun o => (o * sigma)%R)), linspace_nth by lia. replace (h + 1 - 1) with h by lia.
      rewrite Rminus_0_r, Rplus_0_l. auto. }
    set (v0 := setn h x0 (repeat 0%R (2 * h + 1))). set (dn0 := setn h (Val 0) (repeat Unset (2 * h + 1))).
    assert (LV : List.length v0 = 2 * h + 1) by (unfold v0; rewrite setn_length; rewrite repeat_length; lia).
    assert (LD : List.length dn0 = 2 * h + 1) by (unfold dn0; rewrite setn_length; rewrite repeat_length; lia).
    pose proof (side_loop_spec idx (nll (sc_x st)) (fun i => h - i) (fun i => (x0 + -1 * nth i offs 0)%R) (seq 1 h)
      (mkSc (sc_x st) fz1 (sc_calls st)) v0 dn0 L) as S1. cbn [sc_fz sc_x] in S1.
    destruct (side_loop fit nll idx (nll (sc_x st)) (fun i => h - i) _ (seq 1 h) _ v0 dn0) as [[st1 v1] dn1].
    destruct S1 as (A1 & A2 & A3 & A4 & A5).
    { intros i Hi. lia. } { lia. }
    { assert (X : forall a n, a + n <= S h -> NoDup (map (fun i => h - i) (seq a n))).
      { clear. intros a n; revert a. induction n; intros a H; simpl; constructor.
        - rewrite in_map_iff. intros (x & E & Hx). apply in_seq in Hx. lia.
        - apply IHn. lia. }
      apply X. lia. }
    pose proof (side_loop_spec idx (nll (sc_x st)) (fun i => h + i) (fun i => (x0 + 1 * nth i offs 0)%R) (seq 1 h)
      (mkSc (sc_x st) fz1 (sc_calls st1)) v1 dn1 L) as S2. cbn [sc_fz sc_x] in S2.
    destruct (side_loop fit nll idx (nll (sc_x st)) (fun i => h + i) _ (seq 1 h) _ v1 dn1) as [[st2 v2] dn2].
    destruct S2 as (B1 & B2 & B3 & B4 & B5).
    { intros i Hi. apply in_seq in Hi. lia. } { lia. }
    { assert (X : forall a n, NoDup (map (fun i => h + i) (seq a n))).
      { clear. intros a n; revert a. induction n; intros a; simpl; constructor; auto.
        rewrite in_map_iff. intros (x & E & Hx). apply in_seq in Hx. lia. }
      apply X. }
    rewrite F2. cbn [rbind]. exists (mkSc (sc_x st) (update_frozen parms (filter (fun p => negb (smem p m)) (fz_list (sc_fz st)))) (sc_calls st2)), v2, dn2.
    split; auto. cbv zeta. split; [lia|]. split; [lia|]. split; auto. split; auto. split. { eexists. reflexivity. }
    assert (N1 : forall k, ~ In k (map (fun i => h - i) (seq 1 h)) <-> (h <= k)).
    { intros k. rewrite in_map_iff. split.
      - intros H. apply Nat.nlt_ge. intros K. apply H. exists (h - k). split; [lia|]. apply in_seq. lia.
      - intros H (x & E & Hx). apply in_seq in Hx. lia. }
    assert (N2 : forall k, k < 2 * h + 1 -> ~ In k (map (fun i => h + i) (seq 1 h)) <-> (k <= h)).
    { intros k K0. rewrite in_map_iff. split.
      - intros H. apply Nat.nlt_ge. intros K. apply H. exists (k - h). split; [lia|]. apply in_seq. lia.
      - intros H (x & E & Hx). apply in_seq in Hx. lia. }
    split. { rewrite (proj1 (B4 h ltac:(apply N2; lia))), (proj1 (A4 h ltac:(apply N1; lia))). unfold v0. apply setn_same. rewrite repeat_length. lia. }
    split. { rewrite (proj2 (B4 h ltac:(apply N2; lia))), (proj2 (A4 h ltac:(apply N1; lia))). unfold dn0. apply setn_same. rewrite repeat_length. lia. }
    split.
    - intros i Hi. split.
      + rewrite (proj1 (B4 (h - i) ltac:(apply N2; lia))). rewrite (proj1 (A5 i ltac:(apply in_seq; lia))), OF by lia. ring.
      + rewrite (proj1 (B5 i ltac:(apply in_seq; lia))), OF by lia. ring.
    - intros k K N. destruct (Nat.lt_ge_cases k h) as [LT|GE].
      + destruct (B4 k ltac:(apply N2; lia)) as [-> ->]. destruct (A5 (h - k) ltac:(apply in_seq; lia)) as [Q1 Q2].
        replace (h - (h - k)) with k in * by lia. rewrite Q1. auto.
      + destruct (B5 (k - h) ltac:(apply in_seq; lia)) as [Q1 Q2].
        replace (h + (k - h)) with k in * by lia. rewrite Q1. auto.
  Qed.

  (** *** two dimensions *)
  Lemma pyidx_in n z : (0 <= z < Z.of_nat n)%Z -> pyidx n z = Some (Z.to_nat z).
  Proof.
    intros H. unfold pyidx. destruct (Z.ltb_spec z 0); [lia|].
    destruct (Z.leb_spec 0 z); [|lia]. destruct (Z.ltb_spec z (Z.of_nat n)); [|lia]. auto.
  Qed.
  Definition scanned2 (i0 i1 : nat) (best : R) (fz : freeze_st) (n : nat) (v0 v1 : R) (e : entry) : Prop :=
    exists k x1, List.length x1 = n /\ nth i1 x1 0%R = v1 /\ (i0 <> i1 -> nth i0 x1 0%R = v0) /\
      e = Val (nll (fit k x1 fz) - best)%R.
  Lemma visit_spec i0 i1 best xs ys bf cells : forall st g,
    i0 < List.length (sc_x st) -> i1 < List.length (sc_x st) ->
    (forall c, In c cells -> (0 <= bf - fst c < Z.of_nat (List.length xs))%Z /\ (0 <= bf + snd c < Z.of_nat (List.length ys))%Z) ->
    NoDup cells ->
    exists st' g', visit (cell_body fit nll i0 i1 best xs ys) bf cells (st, g) = Ok (st', g') /\
      sc_fz st' = sc_fz st /\
      forall a b,
        (In (bf - Z.of_nat a, Z.of_nat b - bf)%Z cells ->
           scanned2 i0 i1 best (sc_fz st) (List.length (sc_x st)) (nth a xs 0%R) (nth b ys 0%R) (g' a b)) /\
        (~ In (bf - Z.of_nat a, Z.of_nat b - bf)%Z cells -> g' a b = g a b).
  Proof.
    induction cells as [|[i j] cells IH]; intros st g H0 H1 HC ND; cbn [visit].
    - exists st, g. split; auto. split; auto. intros a b. split; auto. intros [].
    - destruct (HC (i, j) ltac:(simpl; auto)) as [C1 C2]. cbn [fst snd] in C1, C2.
      unfold cell_body at 1. rewrite !pyidx_in by lia. cbn [rbind].
      set (a0 := Z.to_nat (bf - i)). set (b0 := Z.to_nat (bf + j)).
      set (x1 := setn i1 (nth b0 ys 0%R) (setn i0 (nth a0 xs 0%R) (sc_x st))).
      assert (L0 : List.length (setn i0 (nth a0 xs 0%R) (sc_x st)) = List.length (sc_x st)) by (apply setn_length; auto).
      assert (L1 : List.length x1 = List.length (sc_x st)) by (unfold x1; rewrite setn_length; lia).
      set (x2 := fit (sc_calls st) x1 (sc_fz st)).
      assert (L2 : List.length x2 = List.length (sc_x st)) by (unfold x2; rewrite fit_len; auto).
      inversion ND as [|? ? N1 N2]; subst.
      destruct (IH (mkSc x2 (sc_fz st) (S (sc_calls st))) (gset g a0 b0 (Val (nll x2 - best)))) as (st' & g' & E & F & G); cbn [sc_x sc_fz] in *; try lia; auto.
      { intros c Hc. apply HC. simpl. auto. }
      exists st', g'. split; auto. split; auto. intros a b. destruct (G a b) as [G1 G2]. rewrite L2 in G1.
      split.
      + intros [E1|Hin]; [|auto].
        injection E1 as E1 E2. assert (A : a0 = a) by (unfold a0; lia). assert (B : b0 = b) by (unfold b0; lia).
        rewrite G2. 2:{ rewrite <- E1, <- E2. auto. }
        unfold gset. rewrite A, B, !Nat.eqb_refl. simpl. exists (sc_calls st), x1. split; auto.
        split. { unfold x1. rewrite <- B. apply setn_same. lia. }
        split. { intros NE. unfold x1. rewrite setn_other by (auto; lia). rewrite <- A. apply setn_same. auto. }
        auto.
      + intros NI. simpl in NI. rewrite G2 by tauto. unfold gset.
        destruct (Nat.eqb_spec a a0) as [A|A]; simpl; auto. destruct (Nat.eqb_spec b b0) as [B|B]; simpl; auto.
        exfalso. apply NI. left. f_equal; [unfold a0 in A|unfold b0 in B]; lia.
  Qed.

  Theorem nll_scan2D_spec p0 p1 range points prefit s0 s1 fuel st i0 i1 m :
    match_params rx [p0; p1] parms = Ok m -> index_of p0 parms = Some i0 -> index_of p1 parms = Some i1 ->
    i0 < List.length (sc_x st) -> i1 < List.length (sc_x st) -> 1 <= points -> points * points <= fuel ->
    exists st' xs ys g, nll_scan2D rx parms fit nll p0 p1 range points prefit s0 s1 fuel st = Some (Ok (st', xs, ys, g)) /\
      let bf := (points + 1) / 2 - 1 in
      List.length xs = points /\ List.length ys = points /\
      sc_x st' = sc_x st /\ fz_list (sc_fz st') = filter (fun p => negb (smem p m)) (fz_list (sc_fz st)) /\
      (exists l, sc_fz st' = update_frozen parms l) /\
      g bf bf = Val 0 /\
      (forall a b, a <= 2 * bf -> b <= 2 * bf -> (a, b) <> (bf, bf) ->
        scanned2 i0 i1 (nll (sc_x st)) (update_frozen parms (fz_list (sc_fz st) ++ m)) (List.length (sc_x st))
          (nth a xs 0%R) (nth b ys 0%R) (g a b)) /\
      (forall a b, 2 * bf < a \/ 2 * bf < b -> g a b = Unset) /\
      (prefit = false -> forall a, a < points ->
         nth a xs 0%R = (nth i0 (sc_x st) 0 + (- range + INR a * ((range - - range) / INR (points - 1))) * s0)%R /\
         nth a ys 0%R = (nth i1 (sc_x st) 0 + (- range + INR a * ((range - - range) / INR (points - 1))) * s1)%R).
  Proof.
    intros M I0 I1 L0 L1 P F. destruct (freeze_defreeze (sc_fz st) [p0; p1] m M) as [F1 F2].
    unfold nll_scan2D. rewrite F1, I0, I1.
    set (bf := (points + 1) / 2 - 1).
    assert (BF : 2 * bf + 1 <= points /\ 1 <= (points + 1) / 2).
    { assert (1 <= (points + 1) / 2) by (apply Nat.div_le_lower_bound; lia).
      assert (2 * ((points + 1) / 2) <= points + 1) by (apply Nat.mul_div_le; lia). unfold bf. lia. }
    destruct BF as [BF B1]. replace (Z.of_nat ((points + 1) / 2) - 1)%Z with (Z.of_nat bf) by (unfold bf; lia).
    set (ds := linspace (- range) range points).
    set (xs := if prefit then ds else map (fun d => (nth i0 (sc_x st) 0 + d * s0)%R) ds).
    set (ys := if prefit then ds else map (fun d => (nth i1 (sc_x st) 0 + d * s1)%R) ds).
    assert (LX : List.length xs = points) by (unfold xs, ds; destruct prefit; rewrite ?map_length, linspace_length; auto).
    assert (LY : List.length ys = points) by (unfold ys, ds; destruct prefit; rewrite ?map_length, linspace_length; auto).
    rewrite pyidx_in by lia. rewrite Nat2Z.id.
    rewrite spiral_terminates by nia.
    destruct (visit_spec i0 i1 (nll (sc_x st)) xs ys (Z.of_nat bf) (rings 1 bf)
      (mkSc (sc_x st) (update_frozen parms (fz_list (sc_fz st) ++ m)) (sc_calls st)) (gset (fun _ _ => Unset) bf bf (Val 0)) L0 L1)
      as (st' & g' & E & Q & G).
    { intros [a b] H. apply rings_In in H; [|lia]. cbn [fst snd] in *. lia. }
    { apply rings_NoDup. lia. }
    rewrite E. cbn [sc_fz sc_x] in *. rewrite F2.
    eexists _, xs, ys, g'. split; [reflexivity|]. cbv zeta. cbn [sc_x sc_fz].
    split; auto. split; auto. split; auto. split; auto. split. { eexists; reflexivity. }
    split.
    { destruct (G bf bf) as [_ G2]. rewrite G2. { unfold gset. rewrite Nat.eqb_refl. auto. }
      rewrite rings_In by lia. cbn [fst snd]. lia. }
    split.
    { intros a b A B N. apply G. rewrite rings_In by lia. cbn [fst snd].
      assert (a <> bf \/ b <> bf) by (destruct (Nat.eq_dec a bf); auto; destruct (Nat.eq_dec b bf); auto; exfalso; apply N; congruence). lia. }
    split.
    { intros a b H. destruct (G a b) as [_ G2]. rewrite G2.
      - unfold gset. destruct (Nat.eqb_spec a bf); simpl; auto. destruct (Nat.eqb_spec b bf); simpl; auto. lia.
      - rewrite rings_In by lia. cbn [fst snd]. lia. }
    intros PF a Ha. unfold xs, ys. rewrite PF.
    assert (X : forall f : R -> R, nth a (map f ds) 0%R = f (nth a ds 0%R)).
    { intros f. rewrite (nth_indep _ 0%R (f 0%R)) by (unfold ds; rewrite map_length, linspace_length; auto). apply map_nth. }
    rewrite !X. unfold ds. rewrite linspace_nth by auto. auto.
  Qed.
End Scan.
