(** What a term selects. *)
From Coq Require Import Reals List Arith ZArith Bool String Lia Lra Permutation.
From Verif Require Import RBase PyList PyDict ListUtil Shape Map_Model Map_Spec Map_Collect Map_Perm Map_Rules Map_Term Map_Merge Param_Names.
Import ListNotations.
Local Open Scope nat_scope.

Lemma kept_idx_plain n lo hi st : lower (Some (Sl lo hi st)) <= upper n (Some (Sl lo hi st)) <= n -> match st with Some k => k = 1 | None => True end ->
  kept_idx n lo hi st = seq (lower (Some (Sl lo hi st))) (upper n (Some (Sl lo hi st)) - lower (Some (Sl lo hi st))).
Proof.
  intros B St. unfold kept_idx. assert (Q : sl_step st = 1) by (destruct st; cbn; auto). rewrite Q. replace (sl_lo lo) with (lower (Some (Sl lo hi st))) by (destruct lo; auto).
  replace (sl_hi n hi) with (upper n (Some (Sl lo hi st))) by (destruct hi; cbn in *; lia). replace (1 - 1) with 0 by lia. rewrite Nat.add_0_r, Nat.div_1_r.
  set (a := lower _). set (m := upper _ _ - a). clearbody a m. revert a. induction m as [|m IH]; intros a; auto. cbn [seq map]. f_equal; [lia|]. rewrite <- seq_shift, map_map. rewrite <- (IH (S a)). apply map_ext. intros. lia.
Qed.
Lemma find_pos_seq a m i : find_pos (seq a m) i = if (a <=? i) && (i <? a + m) then Some (i - a) else None.
Proof.
  destruct ((a <=? i) && (i <? a + m)) eqn:E.
  - apply andb_true_iff in E as (A & B). apply Nat.leb_le in A. apply Nat.ltb_lt in B. apply find_pos_spec; [apply seq_NoDup|]. rewrite seq_length. split; [lia|]. rewrite seq_nth; lia.
  - unfold find_pos. replace (existsb (Nat.eqb i) (seq a m)) with false; auto. symmetry. apply not_true_iff_false. intros X. apply existsb_exists in X as (x & I & X). apply Nat.eqb_eq in X. subst x. apply in_seq in I. apply andb_false_iff in E as [E|E]; [apply Nat.leb_gt in E|apply Nat.ltb_ge in E]; lia.
Qed.
Lemma every_one {A} : forall n (l : list A), every n 1 l = firstn n l.
Proof. induction n as [|n IH]; intros [|a l]; cbn [every firstn skipn]; auto. rewrite IH. auto. Qed.
(** selection on one axis *)
Definition asel_of sel (a : haxis) : asel := match dget (ha_name a) sel with Some s => to_asel (ha_size a) s | None => APos (seq 0 (ha_size a)) end.
Definition keeps sel (a : haxis) (i : nat) : bool := let s := dget (ha_name a) sel in (lower s <=? i) && (i <? upper (ha_size a) s).
Definition bounded sel (a : haxis) : Prop := forall s, dget (ha_name a) sel = Some s -> lower (Some s) <= upper (ha_size a) (Some s) <= ha_size a /\ match s with Sl _ _ (Some k) => k = 1 | _ => True end.
Lemma asel_of_fits sel a : bounded sel a -> asel_fits (asel_of sel a) (ha_size a).
Proof.
  intros B. unfold asel_of. destruct (dget (ha_name a) sel) as [s|] eqn:E; [|cbn; split; [apply seq_NoDup|intros x I; apply in_seq in I; lia]]. destruct (B s E) as (B1 & B2). destruct s as [lo hi st|i]; cbn [to_asel asel_fits].
  - rewrite kept_idx_plain by auto. split; [apply seq_NoDup|]. intros x I. apply in_seq in I. lia.
  - cbn in B1. lia.
Qed.
Definition sel_rule sel (a : haxis) : rule :=
  let s := dget (ha_name a) sel in if is_at s then Gone (keeps sel a) else Stay (fun i => if keeps sel a i then Some (i - lower s) else None).
Lemma place_ext rs ss : Forall2 (fun r s => match r, s with Gone f, Gone g => forall i, f i = g i | Stay f, Stay g => forall i, f i = g i | _, _ => False end) rs ss -> forall idx, place rs idx = place ss idx.
Proof. induction 1 as [|r s rs ss E F IH]; intros idx; auto. destruct idx as [|i q]; [destruct r, s; auto|]. destruct r as [f|f], s as [g|g]; try tauto; cbn [place]; rewrite E, IH; auto. Qed.
Lemma asel_rules sel axes idx : (forall a, In a axes -> bounded sel a) -> place (map asel_rule (map (asel_of sel) axes)) idx = place (map (sel_rule sel) axes) idx.
Proof.
  intros B. apply place_ext. induction axes as [|a axes IH]; cbn [map]; constructor; [|apply IH; intros; apply B; cbn; auto]. specialize (B a (or_introl eq_refl)). unfold asel_of, sel_rule, keeps, bounded in *. destruct (dget (ha_name a) sel) as [s|] eqn:E.
  - destruct (B s eq_refl) as (B1 & B2). destruct s as [lo hi st|i]; cbn [to_asel asel_rule is_at].
    + intros j. rewrite kept_idx_plain by auto. rewrite find_pos_seq. set (l := lower _) in *. set (u := upper _ _) in *. replace (l + (u - l)) with u by lia. auto.
    + intros j. cbn [lower upper]. destruct (Nat.eqb_spec i j); destruct (Nat.leb_spec i j); destruct (Nat.ltb_spec j (S i)); cbn; auto; lia.
  - cbn [asel_rule is_at lower upper]. intros j. rewrite find_pos_seq. cbn [plus]. rewrite Nat.add_0_l || idtac. auto.
Qed.
Lemma sel_axes_names sel axes : map ha_name (sel_axes sel axes) = flat_map (fun a => if is_at (dget (ha_name a) sel) then [] else [ha_name a]) axes.
Proof. unfold sel_axes. induction axes as [|a axes IH]; auto. cbn [flat_map]. rewrite map_app, IH. f_equal. destruct (dget (ha_name a) sel) as [[|]|]; auto. Qed.
Lemma sel_axes_In sel axes a' : In a' (sel_axes sel axes) -> exists a, In a axes /\ ha_name a' = ha_name a /\ is_at (dget (ha_name a) sel) = false.
Proof. unfold sel_axes. intros I. apply in_flat_map in I as (a & I & J). exists a. split; auto. destruct (dget (ha_name a) sel) as [[|]|]; cbn in J; [destruct J as [<-|[]]; auto|tauto|destruct J as [<-|[]]; auto]. Qed.
Lemma sel_axes_NoDup sel axes : NoDup (map ha_name axes) -> NoDup (map ha_name (sel_axes sel axes)).
Proof.
  rewrite sel_axes_names. induction axes as [|a axes IH]; cbn [map flat_map]; auto. intros ND. inversion ND as [|? ? N Nd]; subst. specialize (IH Nd). destruct (is_at _); auto. cbn [app]. constructor; auto.
  intros I. apply N. apply in_flat_map in I as (b & I & J). destruct (is_at _); [destruct J|]. destruct J as [<-|[]]. apply in_map. auto.
Qed.
Lemma slice_plain a lo hi st : lower (Some (Sl lo hi st)) <= upper (ha_size a) (Some (Sl lo hi st)) <= ha_size a -> match st with Some k => k = 1 | None => True end ->
  ha_size (slice_axis a lo hi st) = upper (ha_size a) (Some (Sl lo hi st)) - lower (Some (Sl lo hi st)) /\ ha_edges (slice_axis a lo hi st) = part_edges a (Some (Sl lo hi st)).
Proof.
  intros B St. unfold slice_axis. cbn [ha_size ha_edges]. assert (Q : sl_step st = 1) by (destruct st; cbn; auto). rewrite Q, Nat.div_1_r. replace (sl_lo lo) with (lower (Some (Sl lo hi st))) by (destruct lo; auto).
  replace (sl_hi (ha_size a) hi) with (upper (ha_size a) (Some (Sl lo hi st))) by (destruct hi; cbn in *; lia). split; auto. rewrite every_one. unfold part_edges, pyslice. f_equal. lia.
Qed.
Lemma sel_axes_edges sel axes a' : (forall a, In a axes -> bounded sel a) -> (forall a, In a axes -> edges_ok a) -> In a' (sel_axes sel axes) ->
  edges_ok a' /\ exists a, In a axes /\ ha_name a' = ha_name a /\ ha_edges a' = part_edges a (dget (ha_name a) sel).
Proof.
  intros B Ed I. unfold sel_axes in I. apply in_flat_map in I as (a & I & J). specialize (B a I). specialize (Ed a I). unfold bounded, edges_ok in *. destruct (dget (ha_name a) sel) as [[lo hi st|i]|] eqn:E; cbn in J; [destruct J as [<-|[]]|tauto|destruct J as [<-|[]]].
  - destruct (B _ eq_refl) as (B1 & B2). destruct (slice_plain a lo hi st B1 B2) as (S1 & S2). split.
    + rewrite S2. rewrite S1. unfold part_edges. rewrite pyslice_len by (rewrite Ed; lia). lia.
    + exists a. rewrite E. auto.
  - split; auto. exists a. split; auto. split; auto. rewrite E. unfold part_edges, pyslice. cbn [lower upper skipn]. rewrite Nat.sub_0_r. rewrite <- Ed. symmetry. apply firstn_all.
Qed.
Lemma sel_shape_eq sel axes tail : (forall a, In a axes -> bounded sel a) -> sel_shape (map (asel_of sel) axes) (map ha_size axes ++ tail) = map ha_size (sel_axes sel axes) ++ tail.
Proof.
  unfold sel_axes. induction axes as [|a axes IH]; intros B; [destruct tail; auto|]. cbn [map app flat_map]. rewrite map_app, <- app_assoc, <- IH by (intros; apply B; cbn; auto). specialize (B a (or_introl eq_refl)). unfold asel_of at 1. unfold bounded in B. destruct (dget (ha_name a) sel) as [[lo hi st|i]|] eqn:E; cbn [to_asel sel_shape map app].
  - destruct (B _ eq_refl) as (B1 & B2). destruct (slice_plain a lo hi st B1 B2) as (S1 & _). rewrite kept_idx_plain, seq_length by auto. rewrite S1. auto.
  - auto.
  - rewrite seq_length. auto.
Qed.
(** the three steps together *)
Lemma goes_compose sel cuts sums : forall axes idx, List.length axes <= List.length idx ->
  then_ (place (map (sel_rule sel) axes)) (then_ (place (merges cuts (map ha_name (sel_axes sel axes)))) (place (map (fun n => if smem n sums then Gone (fun _ => true) else id_rule) (map ha_name (sel_axes sel axes))))) idx
  = goes sel cuts sums axes idx.
Proof.
  induction axes as [|a axes IH]; intros idx L.
  - cbn [map sel_axes flat_map goes]. unfold then_. rewrite !place_nil. destruct idx; auto.
  - destruct idx as [|i q]; cbn in L; [lia|]. specialize (IH q ltac:(lia)). cbn [goes map]. unfold then_ in *. unfold sel_rule at 1. unfold moved. unfold sel_axes in *. cbn [flat_map]. destruct (dget (ha_name a) sel) as [[lo hi st|v]|] eqn:E; cbn [is_at orb].
    + cbn [map app slice_axis ha_name]. unfold merges. cbn [map]. cbn [place]. assert (K : (keeps sel a i) = (lower (Some (Sl lo hi st)) <=? i) && (i <? upper (ha_size a) (Some (Sl lo hi st)))) by (unfold keeps; rewrite E; auto). rewrite <- K. destruct (keeps sel a i); auto.
      fold (merges cuts (map ha_name (flat_map (fun a0 : haxis => match dget (ha_name a0) sel with | Some (Sl lo0 hi0 st0) => [slice_axis a0 lo0 hi0 st0] | Some (At _) => [] | None => [a0] end) axes))).
      destruct (place (map (sel_rule sel) axes) q) as [w|].
      * cbn [place]. unfold merge at 1. destruct (dget (ha_name a) cuts) as [c|]; [destruct (bin_of c _) as [j|]; auto|].
        -- destruct (place (merges _ _) w) as [z|]; [|destruct (goes sel cuts sums axes q); [discriminate|auto]]. destruct (smem (ha_name a) sums); cbn [place id_rule]; rewrite IH; destruct (goes sel cuts sums axes q); auto.
        -- destruct (place (merges _ _) w) as [z|]; [|destruct (goes sel cuts sums axes q); [discriminate|auto]]. destruct (smem (ha_name a) sums); cbn [place id_rule]; rewrite IH; destruct (goes sel cuts sums axes q); auto.
      * rewrite <- IH. destruct (dget (ha_name a) cuts) as [c|]; [destruct (bin_of c _) as [j|]; auto|auto].
    + cbn [app place]. assert (K : (keeps sel a i) = (lower (Some (At v)) <=? i) && (i <? upper (ha_size a) (Some (At v)))) by (unfold keeps; rewrite E; auto). rewrite <- K. destruct (keeps sel a i); auto. rewrite IH. destruct (goes sel cuts sums axes q); auto.
    + cbn [map app ha_name]. unfold merges. cbn [map]. cbn [place]. assert (K : (keeps sel a i) = (lower None <=? i) && (i <? upper (ha_size a) None)) by (unfold keeps; rewrite E; auto). rewrite <- K. destruct (keeps sel a i); auto.
      fold (merges cuts (map ha_name (flat_map (fun a0 : haxis => match dget (ha_name a0) sel with | Some (Sl lo0 hi0 st0) => [slice_axis a0 lo0 hi0 st0] | Some (At _) => [] | None => [a0] end) axes))).
      destruct (place (map (sel_rule sel) axes) q) as [w|].
      * cbn [place]. unfold merge at 1. destruct (dget (ha_name a) cuts) as [c|]; [destruct (bin_of c _) as [j|]; auto|].
        -- destruct (place (merges _ _) w) as [z|]; [|destruct (goes sel cuts sums axes q); [discriminate|auto]]. destruct (smem (ha_name a) sums); cbn [place id_rule]; rewrite IH; destruct (goes sel cuts sums axes q); auto.
        -- destruct (place (merges _ _) w) as [z|]; [|destruct (goes sel cuts sums axes q); [discriminate|auto]]. destruct (smem (ha_name a) sums); cbn [place id_rule]; rewrite IH; destruct (goes sel cuts sums axes q); auto.
      * rewrite <- IH. destruct (dget (ha_name a) cuts) as [c|]; [destruct (bin_of c _) as [j|]; auto|auto].
Qed.
