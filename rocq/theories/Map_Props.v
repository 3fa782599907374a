(** Mappings: C47, C48, C49, C50, C69, C70, C71, C72, C73. *)
From Coq Require Import Reals List Arith ZArith Bool String Lia Lra.
From Verif Require Import RBase PyList PyDict ListUtil Shape Map_Model Map_Spec Map_Collect Map_Perm Map_Rules Map_Term Map_Merge Map_Select Map_Cells Map_Project Map_Proof Map_Comb Map_Angular Map_Data Param_Names.
Import ListNotations.
Local Open Scope nat_scope.

(** ** C47 *)
Theorem C47_collects procs c keep obs n : filled c -> NoDup keep -> (forall a, In a keep -> In a (map ha_name (ci_axes c))) -> t_shape obs = [n] -> ci_stop c <= n ->
  exists m, project_mapping procs c keep false = Ok m /\ mp_axes m = pick_axes (ci_axes c) keep /\
    mp_flat m obs = Ok (map (collected (fun i => t_at obs [ci_start c + ravel (chan_shape c) i]) (chan_shape c) (fun i => Some (projected (ci_axes c) keep i))) (all_idx (map (shape_of c) keep))).
Proof. intros F N K So Sn. exact (project_flat procs c keep F N K obs n So Sn). Qed.
Theorem C47_total procs c keep obs n l : filled c -> NoDup keep -> (forall a, In a keep -> In a (map ha_name (ci_axes c))) -> t_shape obs = [n] -> ci_stop c <= n ->
  (exists m, project_mapping procs c keep false = Ok m /\ mp_flat m obs = Ok l) -> sumR l = sumR (map (fun k => t_at obs [k]) (seq (ci_start c) (prodn (chan_shape c)))).
Proof.
  intros F N K So Sn H. rewrite (project_conserves procs c keep F N K obs n l So Sn H). rewrite all_idx_seq, map_map. generalize (ci_start c). intros s.
  assert (Sh : forall q o, map (fun k => s + k) (seq o q) = seq (s + o) q) by (induction q as [|q IH]; intros o; auto; cbn [seq map]; f_equal; rewrite IH; f_equal; lia).
  pose proof (Sh (prodn (chan_shape c)) 0) as E0. rewrite Nat.add_0_r in E0. rewrite <- E0, map_map. apply sumR_map_ext. intros k I. apply in_seq in I. destruct (all_idx_at (chan_shape c) k) as (i & E & _ & R); [lia|]. rewrite (nth_error_nth _ _ [] E), R. auto.
Qed.
Theorem C47_two_steps axes keep keep2 v tail t : NoDup (map ha_name axes) -> NoDup keep -> NoDup keep2 -> (forall n, In n keep -> In n (map ha_name axes)) -> (forall n, In n keep2 -> In n keep) -> t_shape v = map ha_size axes ++ tail ->
  project_t axes keep v = Ok t -> exists t1 t2, project_t (pick_axes axes keep) keep2 t = Ok t1 /\ project_t axes keep2 v = Ok t2 /\ t_shape t1 = t_shape t2 /\ flat t1 = flat t2.
Proof. exact (project_two_steps axes keep keep2 v tail t). Qed.
Theorem C47_per_process procs c keep obs n m : filled c -> NoDup keep -> (forall a, In a keep -> In a (map ha_name (ci_axes c))) -> t_shape obs = [n; m] -> ci_stop c <= n ->
  exists t, project_per_process procs c keep false obs = Ok t /\ t_shape t = map (shape_of c) keep ++ [m] /\
    (forall j p, in_shape (map (shape_of c) keep) j -> p < m -> t_at t (j ++ [p]) = collected (fun i => t_at obs [ci_start c + ravel (chan_shape c) i; p]) (chan_shape c) (fun i => Some (projected (ci_axes c) keep i)) j) /\
    forall l, (exists mp, project_mapping procs c keep false = Ok mp /\ evaluate mp obs = Ok l) -> l = map (fun j => sumR (map (fun p => t_at t (j ++ [p])) (seq 0 m))) (all_idx (map (shape_of c) keep)).
Proof.
  intros F N K So Sn. destruct (project_each procs c keep F N K obs n m So Sn) as (t & E & S & V). exists t. split; auto. split; auto. split; auto. intros l H. apply (project_each_sum procs c keep F N K obs n m t l So Sn E H).
Qed.
(** two processes, a channel of six bins after one of two *)
Definition hx := mkHaxis "x" 2 4 [0; 1; 2]%R.
Definition hy := mkHaxis "y" 3 5 [0; 1; 2; 3]%R.
Definition chn : cinfo := mkCinfo 2 8 [hx; hy] false false.
Definition obs8 : tensor := of_list [100; 200; 1; 2; 3; 4; 5; 6]%R.
Ltac run := lazy -[IZR Rplus Rmult Rminus Rdiv Rinv Ropp Rabs isclose Reqb Rleb Rltb INR rebin_ok segments].
Ltac entries := try apply f_equal; repeat (apply (f_equal2 cons); [try reflexivity; field; try lra|]); try reflexivity.
Example C47_example : filled chn /\ exists m, project_mapping ["a"; "b"]%string chn ["y"; "x"]%string false = Ok m /\ mp_flat m obs8 = Ok [1; 4; 2; 5; 3; 6]%R /\
  exists m', project_mapping ["a"; "b"]%string chn ["y"]%string false = Ok m' /\ mp_flat m' obs8 = Ok [5; 7; 9]%R /\ mp_axes m' = [hy].
Proof.
  split; [split; [repeat constructor; cbn; intuition discriminate|reflexivity]|]. eexists. split; [reflexivity|]. split; [run; entries|]. eexists. split; [reflexivity|]. split; [run; entries|reflexivity].
Qed.

(** ** C48 *)
Theorem C48_value procs c keep obs n : filled c -> NoDup keep -> (forall a, In a keep -> In a (map ha_name (ci_axes c))) -> t_shape obs = [n] -> ci_stop c <= n ->
  exists p m x, project_mapping procs c keep false = Ok p /\ mp_flat p obs = Ok x /\ project_mapping procs c keep true = Ok m /\ mp_flat m obs = Ok (map (fun v => v / sumR x)%R x).
Proof.
  intros F N K So Sn. destruct (project_flat procs c keep F N K obs n So Sn) as (p & P & _ & X). destruct (normalize_flat procs c keep F N K obs n So Sn) as (m & M & Y). exists p, m. eexists. split; [exact P|]. split; [exact X|]. split; [exact M|]. rewrite Y. f_equal. rewrite map_map. apply map_ext. intros j. f_equal. f_equal. symmetry. apply (project_conserves procs c keep F N K obs n _ So Sn). exists p. auto.
Qed.
Theorem C48_one procs c keep obs n l : filled c -> NoDup keep -> (forall a, In a keep -> In a (map ha_name (ci_axes c))) -> t_shape obs = [n] -> ci_stop c <= n -> chan_total c obs <> 0%R ->
  (exists m, project_mapping procs c keep true = Ok m /\ mp_flat m obs = Ok l) -> sumR l = 1%R.
Proof. intros F N K So Sn. exact (normalize_one procs c keep F N K obs n l So Sn). Qed.
Theorem C48_nonneg procs c keep obs n l : filled c -> NoDup keep -> (forall a, In a keep -> In a (map ha_name (ci_axes c))) -> t_shape obs = [n] -> ci_stop c <= n ->
  (forall i, in_shape (chan_shape c) i -> (0 <= t_at obs [(ci_start c + ravel (chan_shape c) i)%nat])%R) -> (exists m, project_mapping procs c keep true = Ok m /\ mp_flat m obs = Ok l) -> Forall (fun x => (0 <= x)%R) l.
Proof. intros F N K So Sn. exact (normalize_nonneg procs c keep F N K obs n l So Sn). Qed.
Theorem C48_scale procs c keep obs n s m : filled c -> NoDup keep -> (forall a, In a keep -> In a (map ha_name (ci_axes c))) -> t_shape obs = [n] -> ci_stop c <= n -> s <> 0%R ->
  project_mapping procs c keep true = Ok m -> mp_flat m (map_t (fun x => (s * x)%R) obs) = mp_flat m obs.
Proof. intros F N K So Sn. exact (normalize_scale procs c keep F N K obs n s m So Sn). Qed.
(** all processes together sum to one *)
Theorem C48_per_process procs c keep obs n m : filled c -> NoDup keep -> (forall a, In a keep -> In a (map ha_name (ci_axes c))) -> t_shape obs = [n; m] -> ci_stop c <= n ->
  sumR (map (fun i => sumR (map (fun p => t_at obs [ci_start c + ravel (chan_shape c) i; p]) (seq 0 m))) (all_idx (chan_shape c))) <> 0%R ->
  exists t, project_per_process procs c keep true obs = Ok t /\ t_shape t = map (shape_of c) keep ++ [m] /\ total t = 1%R.
Proof. intros F N K So Sn Nz. destruct (normalize_each procs c keep F N K obs n m So Sn) as (t & E & S & T & _). exists t. auto. Qed.
Example C48_example : exists m, project_mapping ["a"]%string chn ["y"]%string true = Ok m /\ mp_flat m obs8 = Ok [5/21; 7/21; 9/21]%R.
Proof. eexists. split; [reflexivity|]. run. entries. Qed.

(** ** C49 *)
Theorem C49_cells procs r m yields n : fair r -> select_mapping procs (rq_chan r) (rq_procs r) (rq_sel r) (rq_rebin r) (rq_sums r) = Ok m -> t_shape yields = [n; List.length procs] -> ci_stop (rq_chan r) <= n ->
  map ha_size (mp_axes m) = out_of r /\ evaluate m yields = Ok (map (wanted r (seq 0 (List.length procs)) yields) (all_idx (out_of r))).
Proof. exact (select_value procs r m yields n). Qed.
Theorem C49_per_process procs r tm yields n : fair r -> init_of procs r = Ok tm -> t_shape yields = [n; List.length procs] -> ci_stop (rq_chan r) <= n ->
  exists t, select_per_process tm yields = Ok t /\ t_shape t = out_of r ++ [List.length (taken procs (rq_procs r))] /\
    forall j k, in_shape (out_of r) j -> k < List.length (taken procs (rq_procs r)) -> t_at t (j ++ [k]) = wanted r [nth k (taken procs (rq_procs r)) 0] yields j.
Proof.
  intros (A & B & C & D) I Sy Sn. destruct (each_cells _ _ _ _ _ _ _ _ A B C D I yields n Sy Sn) as (t & E & S & _ & V). exists t. split; auto. split; auto. intros j k J K. rewrite V by auto. unfold wanted, collected. apply sumR_map_ext. intros i _. unfold bin_yield. cbn [map sumR fold_right]. lra.
Qed.
Theorem C49_total procs r tm yields ps : fair r -> init_of procs r = Ok tm -> t_shape yields = [ci_stop (rq_chan r); List.length procs] ->
  sumR (map (wanted r ps yields) (all_idx (out_of r))) =
  sumR (map (fun i => match goes (rq_sel r) (rq_cuts r) (rq_sums r) (ci_axes (rq_chan r)) i with Some _ => bin_yield (rq_chan r) ps yields i | None => 0%R end) (all_idx (sizes_of (rq_chan r)))).
Proof. intros F I S. apply (wanted_total procs r tm yields _ F I S). auto. Qed.
Theorem C49_segments old new c n : positions old new c -> List.length old = S n -> 2 <= List.length new ->
  let ids := segments new old in
  List.length ids = n /\ (forall i, i < n -> nth i ids (-1)%Z = match bin_of c i with Some j => Z.of_nat j | None => (-1)%Z end) /\
  Z.to_nat (zmax ids + 1) = List.length new - 1 /\
  (forall i j a b, i < j -> bin_of c i = Some a -> bin_of c j = Some b -> a <= b) /\
  (forall g, S g < List.length c -> exists i, i < n /\ bin_of c i = Some g).
Proof.
  intros P L M ids. pose proof P as (Lc & Rc & Pb & _). destruct (segments_valid old new c n P L M) as (V1 & _ & _ & V4 & _). split; auto. split; [apply segments_nth; auto|]. split; [rewrite <- Lc; auto|]. split.
  - intros i j a b Lt A B. rewrite bin_of_below in A, B by auto. destruct (_ || _); [discriminate|]. destruct (_ || _) in B; [discriminate|]. injection A as <-. injection B as <-.
    assert (Q : below c i <= below c j); [|lia]. unfold below. clear -Lt. induction c as [|x c IH]; cbn [filter]; auto. destruct (Nat.leb_spec x i), (Nat.leb_spec x j); cbn [List.length]; lia.
  - intros g G. exists (nth g c 0). split.
    + pose proof (Pb (List.length new - 1) ltac:(lia)) as U. assert (W : forall d g, S (g + d) < List.length c -> nth g c 0 < nth (S (g + d)) c 0).
      { assert (W1 : forall l g, rising l -> S g < List.length l -> nth g l 0 < nth (S g) l 0). { clear. induction l as [|x l IH]; intros g R H; cbn in H; [lia|]. cbn [rising] in R. destruct R as (R1 & R2). destruct g; [destruct l; cbn in H; [lia|auto]|]. change (nth g l 0 < nth (S g) l 0). apply IH; auto. lia. }
        induction d as [|d IH]; intros h H; [rewrite Nat.add_0_r in *; apply W1; auto|]. pose proof (IH h ltac:(lia)). pose proof (W1 c (S (h + d)) Rc ltac:(lia)). replace (S (h + S d)) with (S (S (h + d))) by lia. lia. }
      pose proof (W (List.length c - 2 - g) g ltac:(lia)) as Q. replace (S (g + (List.length c - 2 - g))) with (List.length new - 1) in Q by lia. lia.
    + clear -Rc G. revert g G. induction c as [|a c IH]; intros g G; cbn in G; [lia|]. pose proof (rising_tl _ _ Rc) as Rt. destruct c as [|b c]; [cbn in G; lia|]. pose proof (rising_head _ _ Rc b (or_introl eq_refl)) as Ab. destruct g as [|g].
      * change (nth 0 (a :: b :: c) 0) with a. cbn [bin_of]. rewrite Nat.leb_refl. destruct (Nat.ltb_spec a b); [auto|lia].
      * change (nth (S g) (a :: b :: c) 0) with (nth g (b :: c) 0). assert (Gg : S g < List.length (b :: c)) by (cbn in *; lia). pose proof (IH Rt g Gg) as Q. change (bin_of (a :: b :: c) (nth g (b :: c) 0)) with (if (a <=? nth g (b :: c) 0) && (nth g (b :: c) 0 <? b) then Some 0 else option_map S (bin_of (b :: c) (nth g (b :: c) 0))).
        rewrite Q. assert (Ge : b <= nth g (b :: c) 0) by (destruct g; [cbn; lia|]; pose proof (rising_head _ _ Rt (nth g c 0)) as W; cbn [nth]; apply Nat.lt_le_incl, W, nth_In; cbn in Gg; lia). destruct (Nat.ltb_spec (nth g (b :: c) 0) b); [lia|]. rewrite andb_false_r. auto.
Qed.
(** edges that are taken from the old ones are found when the old ones are apart *)
Definition apart (old : list R) : Prop := forall i j, i < List.length old -> j < List.length old -> i <> j -> isclose (nth i old 0%R) (nth j old 0%R) = false.
Theorem C49_positions old cuts : apart old -> rising cuts -> (forall k, In k cuts -> k < List.length old) -> positions old (map (fun k => nth k old 0%R) cuts) cuts.
Proof.
  intros A R B. split; [rewrite map_length; auto|]. split; auto. rewrite map_length. split; [intros j J; apply B, nth_In; auto|]. intros i j I J. assert (E : nth j (map (fun k => nth k old 0%R) cuts) 0%R = nth (nth j cuts 0) old 0%R) by (rewrite (nth_map' _ _ _ _ 0) by auto; auto). rewrite E. assert (K : nth j cuts 0 < List.length old) by (apply B, nth_In; auto).
  assert (Z : forall v, isclose v v = true). { intros v. unfold isclose. unfold Rminus at 1; rewrite Rplus_opp_r, Rabs_R0. destruct (Rleb_spec 0 (/ 100000000 + / 100000 * Rabs v)) as [|Q]; auto. pose proof (Rabs_pos v). exfalso. apply Q. lra. }
  destruct (Nat.eq_dec i (nth j cuts 0)) as [->|N]; [rewrite Z; tauto|]. rewrite (A i (nth j cuts 0)), (A (nth j cuts 0) i) by auto. split; split; intros Q; try discriminate; tauto.
Qed.
Definition hz := mkHaxis "z" 4 6 [0; 1; 2; 4; 8]%R.
Definition chz : cinfo := mkCinfo 0 8 [hx; hz] false false.
Ltac close := unfold isclose; match goal with |- Rleb ?a ?b = _ => destruct (Rleb_spec a b) as [Q|Q]; auto; exfalso; first [apply Q; unfold Rabs; repeat destruct (Rcase_abs _); lra|revert Q; unfold Rabs; repeat destruct (Rcase_abs _); lra] end.
Lemma hz_apart : apart [0; 1; 2; 4; 8]%R.
Proof. intros i j I J N. cbn in I, J. do 5 (destruct i as [|i]; [do 5 (destruct j as [|j]; [try lia; cbn [nth]; close|]); lia|]). lia. Qed.
Definition req_ex : request := mkReq chz [] [("x"%string, Sl (Some 1) (Some 2) None)] [("z"%string, [1; 2; 8]%R)] ["x"%string] [("z"%string, [1; 2; 4])].
Example C49_example : fair req_ex /\ (exists tm, init_of ["a"]%string req_ex = Ok tm) /\ out_of req_ex = [2] /\
  map (wanted req_ex [0] (mkT [8; 1] (fun i => INR (hd 0 i)))) (all_idx (out_of req_ex)) = [INR 5; (INR 6 + INR 7)]%R.
Proof.
  split; [|split; [|split; [reflexivity|]]].
  - split; [split; [reflexivity|split; [repeat constructor; cbn; intuition discriminate|split; [intros a [<-|[<-|[]]]; reflexivity|reflexivity]]]|]. split; [|split; [repeat constructor; cbn; tauto|]].
    + intros a s [<-|[<-|[]]] E; [injection E as <-; cbn; lia|discriminate].
    + split; [reflexivity|]. intros a new c Ia In1 In2. destruct In1 as [E|[]]. destruct In2 as [E'|[]]. injection E as Ea <-. injection E' as _ <-. destruct Ia as [<-|[<-|[]]]; [discriminate|].
      apply (C49_positions (ha_edges hz) [1; 2; 4]); [apply hz_apart|cbn; lia|cbn; intuition lia].
  - eexists. run.
    match goal with |- context [rebin_ok ?a ?b] => assert (RO : rebin_ok a b = true) end.
    { unfold rebin_ok. cbn [forallb existsb increasing List.length Nat.leb].
      assert (T1 : isclose 1 1 = true) by close. assert (T2 : isclose 2 2 = true) by close. assert (T8 : isclose 8 8 = true) by close. rewrite T1, T2, T8. rewrite !orb_true_r. cbn [andb orb]. rewrite !Rltb_true by lra. auto. }
    rewrite RO. reflexivity.
  - run. entries.
Qed.
(** with a step the values are those of every second bin while the axis has merged bins *)
Theorem C49_step_refuted : exists procs c sel m obs, proper c /\ select_mapping procs c [] sel [] [] = Ok m /\ sel = [("z"%string, Sl None None (Some 2))] /\
  map ha_edges (mp_axes m) = [[0; 2; 8]%R] /\ map ha_edges (ci_axes c) = [[0; 1; 2; 4; 8]%R] /\ mp_flat m obs = Ok [1; 3]%R /\ flat obs = [1; 2; 3; 4]%R.
Proof.
  exists ["a"%string], (mkCinfo 0 4 [hz] false false), [("z"%string, Sl None None (Some 2))]. eexists. exists (of_list [1; 2; 3; 4]%R). split; [split; [reflexivity|split; [repeat constructor; cbn; tauto|split; [intros a [<-|[]]; reflexivity|reflexivity]]]|].
  split; [reflexivity|]. split; [reflexivity|]. split; [reflexivity|]. split; [reflexivity|]. split; [run; reflexivity|run; reflexivity].
Qed.
(** five bins in steps of two: three values for two bins *)
Theorem C49_step_sizes_refuted : exists procs c sel m obs l, proper c /\ select_mapping procs c [] sel [] [] = Ok m /\ mp_flat m obs = Ok l /\ List.length l = 3 /\ map ha_size (mp_axes m) = [2].
Proof.
  exists ["a"%string], (mkCinfo 0 5 [mkHaxis "z" 5 7 [0; 1; 2; 3; 4; 5]%R] false false), [("z"%string, Sl None None (Some 2))]. eexists. exists (of_list [1; 2; 3; 4; 5]%R). eexists. split; [split; [reflexivity|split; [repeat constructor; cbn; tauto|split; [intros a [<-|[]]; reflexivity|reflexivity]]]|].
  split; [reflexivity|]. split; [reflexivity|]. split; reflexivity.
Qed.
(** a channel with flow bins: index 0 is the underflow bin *)
Theorem C49_flow_refuted : exists procs c m obs, filled c /\ ci_flow c = true /\ select_mapping procs c [] [("z"%string, Sl (Some 0) (Some 1) None)] [] [] = Ok m /\
  map ha_edges (mp_axes m) = [[0; 1]%R] /\ flat obs = [10; 1; 2; 3; 4; 20]%R /\ mp_flat m obs = Ok [10]%R.
Proof.
  exists ["a"%string], (mkCinfo 0 6 [hz] false true). eexists. exists (of_list [10; 1; 2; 3; 4; 20]%R). split; [split; [repeat constructor; cbn; tauto|reflexivity]|]. split; [reflexivity|]. split; [reflexivity|]. split; [reflexivity|]. split; run; reflexivity.
Qed.
(** and merging bins always fails *)
Theorem C49_flow_rebin_refuted : exists procs c m, filled c /\ ci_flow c = true /\ select_mapping procs c [] [] [("z"%string, [0; 2; 8]%R)] [] = Ok m /\ forall obs, t_shape obs = [6] -> exists e, mp_flat m obs = Raise e.
Proof.
  exists ["a"%string], (mkCinfo 0 6 [hz] false true). 
  assert (RO : rebin_ok [0; 1; 2; 4; 8]%R [0; 2; 8]%R = true).
  { unfold rebin_ok. cbn [forallb existsb increasing List.length Nat.leb]. assert (T1 : isclose 0 0 = true) by close. assert (T2 : isclose 2 2 = true) by close. assert (T8 : isclose 8 8 = true) by close. rewrite T1, T2, T8. rewrite !orb_true_r. cbn [andb orb]. rewrite !Rltb_true by lra. auto. }
  assert (SG : segments [0; 2; 8]%R [0; 1; 2; 4; 8]%R = [0; 0; 1; 1]%Z).
  { unfold segments. cbn [removelast seg_loop last existsb]. assert (A1 : isclose 0 0 = true) by close. assert (A2 : isclose 1 0 = false) by close. assert (A3 : isclose 1 2 = false) by close. assert (A4 : isclose 1 8 = false) by close. assert (A5 : isclose 2 0 = false) by close. assert (A6 : isclose 2 2 = true) by close. assert (A7 : isclose 4 0 = false) by close. assert (A8 : isclose 4 2 = false) by close. assert (A9 : isclose 4 8 = false) by close. assert (A0 : isclose 8 8 = true) by close.
    rewrite A1, A2, A3, A4, A5, A6, A7, A8, A9, A0. reflexivity. }
  eexists. split; [split; [repeat constructor; cbn; tauto|reflexivity]|]. split; [reflexivity|]. split.
  - unfold select_mapping. match goal with |- rbind ?t _ = _ => let t' := eval lazy -[IZR rebin_ok segments] in t in change t with t' end. rewrite RO, SG. reflexivity.
  - intros obs So. exists ValueError. cbn [channel_mapping mp_flat]. unfold term_select. cbn [tm_start tm_stop]. unfold slice0. rewrite So. cbn. reflexivity.
Qed.
(** edges closer than the tolerance of np.isclose (one part in 100000): the last bin is not dropped, two values for one bin *)
Theorem C49_close_edges_refuted : exists procs c m obs, proper c /\ select_mapping procs c [] [] [("z"%string, [0; 300000]%R)] [] = Ok m /\
  map ha_edges (ci_axes c) = [[0; 300000; 300001]%R] /\ map ha_edges (mp_axes m) = [[0; 300000]%R] /\ flat obs = [1; 2]%R /\ mp_flat m obs = Ok [1; 2]%R.
Proof.
  exists ["a"%string], (mkCinfo 0 2 [mkHaxis "z" 2 4 [0; 300000; 300001]%R] false false).
  assert (RO : rebin_ok [0; 300000; 300001]%R [0; 300000]%R = true).
  { unfold rebin_ok. cbn [forallb existsb increasing List.length Nat.leb]. assert (T1 : isclose 0 0 = true) by close. assert (T2 : isclose 300000 300000 = true) by close. rewrite T1, T2. rewrite !orb_true_r. cbn [andb orb]. rewrite !Rltb_true by lra. auto. }
  assert (SG : segments [0; 300000]%R [0; 300000; 300001]%R = [0; 1]%Z).
  { unfold segments. cbn [removelast seg_loop last existsb]. assert (A1 : isclose 0 0 = true) by close. assert (A2 : isclose 300000 0 = false) by close. assert (A3 : isclose 300000 300000 = true) by close. assert (A4 : isclose 300000 300001 = true) by close. rewrite A1, A2, A3, A4. reflexivity. }
  eexists. exists (of_list [1; 2]%R). split; [split; [reflexivity|split; [repeat constructor; cbn; tauto|split; [intros a [<-|[]]; reflexivity|reflexivity]]]|]. split.
  - unfold select_mapping. match goal with |- rbind ?t _ = _ => let t' := eval lazy -[IZR rebin_ok segments] in t in change t with t' end. rewrite RO, SG. reflexivity.
  - split; [reflexivity|]. split; [reflexivity|]. split; [run; reflexivity|]. run. entries.
Qed.

(** ** C50 *)
Theorem C50_uniform_partial ms yields : Forall no_procs ms \/ Forall (fun m => mp_needs_procs m = true) ms -> evaluate (composite_mapping ms) yields = each_alone ms yields.
Proof. exact (composite_uniform ms yields). Qed.
Theorem C50_last_partial ms m yields : Forall (fun m => mp_needs_procs m = true) ms -> rank yields = 2 -> evaluate (composite_mapping (ms ++ [m])) yields = each_alone (ms ++ [m]) yields.
Proof. exact (composite_last ms m yields). Qed.
(** two parts that do not need processes beside one that does: never a result *)
Theorem C50_two_parts_fail a p b q c yields x : no_procs p -> no_procs q -> existsb mp_needs_procs (a ++ p :: b ++ q :: c) = true -> rank yields = 2 -> evaluate (composite_mapping (a ++ p :: b ++ q :: c)) yields <> Ok x.
Proof. exact (composite_two_fail a p b q c yields x). Qed.
Definition ch2 : cinfo := mkCinfo 0 2 [hx] false false.
Definition two_procs : tensor := mkT [2; 2] (fun i => match i with [0; 0] => 1 | [0; 1] => 2 | [1; 0] => 4 | [1; 1] => 6 | _ => 0 end)%R.
Definition part1 : mapping := match project_mapping ["a"; "b"]%string ch2 ["x"%string] false with Ok m => m | Raise _ => mkMap [] false false (fun _ => Raise ValueError) end.
Definition part2 : mapping := match ratio_mapping KRatio ["a"; "b"]%string ch2 ch2 ["a"%string] ["b"%string] [] [] [] [] [] [] with Ok m => m | Raise _ => mkMap [] false false (fun _ => Raise ValueError) end.
Example C50_example : evaluate (composite_mapping [part2; part1]) two_procs = Ok [1/2; 4/6; 3; 10]%R /\ evaluate part2 two_procs = Ok [1/2; 4/6]%R.
Proof. split; run; entries. Qed.
(** the observables are summed for the first part and stay summed for the second: the ratio a/b becomes one *)
Theorem C50_order_refuted : exists m m' yields, evaluate m yields = Ok [3; 10]%R /\ evaluate m' yields = Ok [1/2; 4/6]%R /\ evaluate (composite_mapping [m; m']) yields = Ok [3; 10; 1; 1]%R.
Proof. exists part1, part2, two_procs. split; [run; entries|]. split; run; entries. Qed.
(** a composite of two projections and a ratio of processes *)
Theorem C50_exception_refuted : exists m m' yields, evaluate m yields = Ok [3; 10]%R /\ evaluate m' yields = Ok [1/2; 4/6]%R /\ exists e, evaluate (composite_mapping [m'; m; m]) yields = Raise e.
Proof. exists part1, part2, two_procs. split; [run; entries|]. split; [run; entries|]. eexists. run. reflexivity. Qed.

(** ** C69: processes *)
Theorem C69_ratio_partial k procs a b m yields n : fair a -> fair b ->
  ratio_mapping k procs (rq_chan a) (rq_chan b) (rq_procs a) (rq_procs b) (rq_sel a) (rq_sel b) (rq_rebin a) (rq_rebin b) (rq_sums a) (rq_sums b) = Ok m ->
  t_shape yields = [n; List.length procs] -> ci_stop (rq_chan a) <= n -> ci_stop (rq_chan b) <= n ->
  exists f, evaluate m yields = Ok (map (fun j => f (wanted a (taken procs (rq_procs a)) yields j) (wanted b (taken procs (rq_procs b)) yields j)) (all_idx (out_of a))).
Proof.
  intros Fa Fb M Sy Na Nb. destruct (ratio_value k procs a b m yields n Fa Fb M Sy Na Nb) as (_ & E). eexists (fun x y => kind_value k x y _ _). exact E.
Qed.
Theorem C69_taken procs sp p : sp <> [] -> In p (taken procs sp) <-> p < List.length procs /\ In (nth p procs ""%string) sp.
Proof. intros N. unfold taken. destruct sp as [|s sp]; [tauto|]. rewrite filter_In, in_seq, smem_In. intuition lia. Qed.
Definition req_a : request := mkReq ch2 ["a"%string] [] [] [] [].
Lemma req_a_fair : fair req_a.
Proof. split; [split; [reflexivity|split; [repeat constructor; cbn; tauto|split; [intros a [<-|[]]; reflexivity|reflexivity]]]|]. split; [intros a s _ E; discriminate|]. split; [constructor|]. split; [reflexivity|]. intros a new c _ []. Qed.
Example C69_example : fair req_a /\ evaluate part2 two_procs = Ok [1/2; 4/6]%R /\ map (wanted req_a (taken ["a"; "b"]%string ["a"%string]) two_procs) (all_idx (out_of req_a)) = [1; 4]%R.
Proof. split; [apply req_a_fair|]. split; run; entries. Qed.
(** the selection of one process of two: the inclusive result has both *)
Theorem C69_select_refuted : exists procs r m yields, fair r /\ rq_procs r = ["a"%string] /\ select_mapping procs (rq_chan r) (rq_procs r) (rq_sel r) (rq_rebin r) (rq_sums r) = Ok m /\
  map (wanted r (taken procs (rq_procs r)) yields) (all_idx (out_of r)) = [1; 4]%R /\ evaluate m yields = Ok [3; 10]%R.
Proof. exists ["a"; "b"]%string, req_a. eexists. exists two_procs. split; [apply req_a_fair|]. split; [reflexivity|]. split; [reflexivity|]. split; run; entries. Qed.

(** ** C70: names of the columns *)
Lemma taken_names procs sp : map (fun p => nth p procs ""%string) (filter (fun p => smem (nth p procs ""%string) sp) (seq 0 (List.length procs))) = filter (fun p => smem p sp) procs.
Proof.
  assert (G : forall l pre, map (fun p => nth p (pre ++ l) ""%string) (filter (fun p => smem (nth p (pre ++ l) ""%string) sp) (seq (List.length pre) (List.length l))) = filter (fun p => smem p sp) l); [|apply (G procs [])].
  induction l as [|x l IH]; intros pre; auto. cbn [List.length seq filter]. assert (E : nth (List.length pre) (pre ++ x :: l) ""%string = x) by (rewrite app_nth2, Nat.sub_diag by lia; auto). rewrite E.
  specialize (IH (pre ++ [x])). rewrite <- app_assoc, app_length, Nat.add_1_r in IH. cbn [app] in IH. destruct (smem x sp); cbn [map]; rewrite ?E, IH; auto.
Qed.
Theorem C70_columns_partial procs sp : filter (fun p => smem p sp) procs = sp \/ sp = [] -> select_columns procs sp = map (fun p => nth p procs ""%string) (taken procs sp).
Proof.
  intros [E| ->]; [|symmetry; cbn [taken select_columns]; apply map_seq_nth]. destruct sp as [|s sp]; [symmetry; apply map_seq_nth|]. unfold select_columns, taken. rewrite taken_names. auto.
Qed.
Example C70_example : select_columns ["a"; "b"; "c"]%string ["a"; "c"]%string = ["a"; "c"]%string /\ taken ["a"; "b"; "c"]%string ["a"; "c"]%string = [0; 2].
Proof. split; reflexivity. Qed.
(** processes asked for in another order: the column named b holds a *)
Theorem C70_order_refuted : exists procs c sp tm t yields, term_init procs c sp [] [] [] = Ok tm /\ select_per_process tm yields = Ok t /\ sp = ["b"; "a"]%string /\ select_columns procs sp = ["b"; "a"]%string /\
  flat t = [1; 2; 4; 6]%R /\ t_shape t = [2; 2] /\ flat yields = [1; 2; 4; 6]%R /\ procs = ["a"; "b"]%string.
Proof.
  exists ["a"; "b"]%string, ch2, ["b"; "a"]%string. eexists. eexists. exists two_procs. split; [reflexivity|]. split; [reflexivity|]. split; [reflexivity|]. split; [reflexivity|]. split; [run; entries|]. split; [reflexivity|]. split; [run; entries|]. reflexivity.
Qed.

(** ** C71: ratios *)
Theorem C71_values k procs a b m yields n : fair a -> fair b ->
  ratio_mapping k procs (rq_chan a) (rq_chan b) (rq_procs a) (rq_procs b) (rq_sel a) (rq_sel b) (rq_rebin a) (rq_rebin b) (rq_sums a) (rq_sums b) = Ok m ->
  t_shape yields = [n; List.length procs] -> ci_stop (rq_chan a) <= n -> ci_stop (rq_chan b) <= n ->
  let x := wanted a (taken procs (rq_procs a)) yields in let y := wanted b (taken procs (rq_procs b)) yields in
  out_of a = out_of b /\
  evaluate m yields = Ok (map (fun j => kind_value k (x j) (y j) (sumR (map x (all_idx (out_of a)))) (sumR (map y (all_idx (out_of a))))) (all_idx (out_of a))).
Proof. exact (ratio_value k procs a b m yields n). Qed.
(** a ratio of normalised distributions is one everywhere for proportional ones, an asymmetry lies between -1 and 1 *)
Theorem C71_proportional x y sx sy s : (x = s * y -> sx = s * sy -> s <> 0 -> y <> 0 -> sy <> 0 -> kind_value KNormratio x y sx sy = 1 /\ kind_value KDifference x y sx sy = 0)%R.
Proof. intros -> -> A B C. unfold kind_value. split; field; auto. Qed.
Theorem C71_asymmetry_range x y sx sy : (0 <= x -> 0 <= y -> 0 < x + y -> -1 <= kind_value KAsymmetry x y sx sy <= 1)%R.
Proof.
  intros X Y P. unfold kind_value. split; [apply Rmult_le_reg_r with (x + y)%R|apply Rmult_le_reg_r with (x + y)%R]; auto; unfold Rdiv; rewrite Rmult_assoc, Rinv_l by lra; lra.
Qed.
Example C71_example : exists m, ratio_mapping KAsymmetry ["a"; "b"]%string ch2 ch2 ["a"%string] ["b"%string] [] [] [] [] [] [] = Ok m /\ evaluate m two_procs = Ok [-1/3; -1/5]%R /\
  exists m', ratio_mapping KNormratio ["a"; "b"]%string ch2 ch2 ["a"%string] ["b"%string] [] [] [] [] [] [] = Ok m' /\ evaluate m' two_procs = Ok [4/5; 16/15]%R.
Proof. eexists. split; [reflexivity|]. split; [run; entries|]. eexists. split; [reflexivity|]. run; entries. Qed.
(** Difference is documented as the difference of numerator and denominator; it is the one of the normalised distributions *)
Theorem C71_difference_refuted : exists procs c m yields, ratio_mapping KDifference procs c c ["a"%string] ["b"%string] [] [] [] [] [] [] = Ok m /\ flat yields = [1; 2; 4; 6]%R /\ procs = ["a"; "b"]%string /\ evaluate m yields = Ok [1/5 - 2/8; 4/5 - 6/8]%R.
Proof. exists ["a"; "b"]%string, ch2. eexists. exists two_procs. split; [reflexivity|]. split; [run; entries|]. split; [reflexivity|]. run; entries. Qed.

(** ** C72: angular coefficients *)
Theorem C72_coefficients_partial procs c sp sel rebin sums cuts h tk yields n :
  let rn := mkReq c sp (with_default h (Sl (Some 1) None None) sel) rebin sums cuts in let rd := mkReq c sp (with_default h (At 0) sel) rebin sums cuts in let all := seq 0 (List.length procs) in
  helicity_axis (ci_axes c) = Ok h -> dget h sel = None -> smem h sums = false -> fair rn -> fair rd -> angular_terms procs c sp sel rebin sums = Ok tk -> t_shape yields = [n; List.length procs] -> ci_stop c <= n ->
  exists k t, index_of h (out_names (rq_sel rn) sums (ci_axes c)) = Some k /\ snd tk = k /\ angular_compute tk (sum_axis 1 yields) = Ok t /\ t_shape t = out_of rn /\
  forall j, in_shape (out_of rn) j -> t_at t j = (wanted rn all yields j / wanted rd all yields (remove_at k j))%R.
Proof. exact (angular_value procs c sp sel rebin sums cuts h tk yields n). Qed.
(** bin i+1 over bin 0 of the helicity axis *)
Theorem C72_plain c sp h k yields ps j : proper c -> index_of h (map ha_name (ci_axes c)) = Some k -> in_shape (set_at k (nth k (sizes_of c) 0 - 1) (sizes_of c)) j ->
  wanted (mkReq c sp [(h, Sl (Some 1) None None)] [] [] []) ps yields j = bin_yield c ps yields (set_at k (S (nth k j 0)) j) /\
  wanted (mkReq c sp [(h, At 0)] [] [] []) ps yields (remove_at k j) = bin_yield c ps yields (set_at k 0 j).
Proof. exact (plain_slice c sp h k yields ps j). Qed.
Theorem C72_lam_tung_partial procs c sp sel rebin sums cuts h tk yields n k :
  let rn := mkReq c sp (with_default h (Sl (Some 1) None None) sel) rebin sums cuts in let rd := mkReq c sp (with_default h (At 0) sel) rebin sums cuts in let all := seq 0 (List.length procs) in
  helicity_axis (ci_axes c) = Ok h -> dget h sel = None -> smem h sums = false -> fair rn -> fair rd -> angular_terms procs c sp sel rebin sums = Ok tk -> t_shape yields = [n; List.length procs] -> ci_stop c <= n ->
  index_of h (out_names (rq_sel rn) sums (ci_axes c)) = Some k -> 3 <= nth k (out_of rn) 0 ->
  exists t, lamtung_compute tk (sum_axis 1 yields) = Ok t /\ t_shape t = out_of rd /\
  forall j, in_shape (out_of rd) j -> t_at t j = (wanted rn all yields (insert_at k 0%nat j) / wanted rd all yields j - wanted rn all yields (insert_at k 2%nat j) / wanted rd all yields j)%R.
Proof. intros rn rd all H1 H2 H3 H4 H5 H6 H7 H8. exact (lamtung_value procs c sp sel rebin sums cuts h tk yields n H1 H2 H3 H4 H5 H6 H7 H8 k). Qed.
Definition hh := mkHaxis "helicity" 4 6 [-1; 0; 1; 2; 3]%R.
Definition chh : cinfo := mkCinfo 0 8 [hx; hh] false false.
Definition obsh : tensor := of_list [10; 1; 2; 3; 20; 6; 8; 4]%R.
Example C72_example : exists tk t t', angular_terms ["a"]%string chh [] [] [] [] = Ok tk /\ angular_compute tk obsh = Ok t /\ flat t = [1/10; 2/10; 3/10; 6/20; 8/20; 4/20]%R /\
  lamtung_compute tk obsh = Ok t' /\ flat t' = [1/10 - 3/10; 6/20 - 4/20]%R.
Proof. eexists. eexists. eexists. split; [reflexivity|]. split; [reflexivity|]. split; [run; entries|]. split; [reflexivity|]. run; entries. Qed.
(** a selection on the helicity axis replaces numerator and denominator, and every bin is divided by every other: A_0 of one and mixed bins *)
Theorem C72_selected_helicity_refuted : exists tk t, angular_terms ["a"]%string chh [] [("helicity"%string, Sl (Some 1) (Some 2) None)] [] [] = Ok tk /\ flat obsh = [10; 1; 2; 3; 20; 6; 8; 4]%R /\
  angular_compute tk obsh = Ok t /\ t_shape t = [2; 2; 1] /\ flat t = [1; 6; 1/6; 1]%R.
Proof. eexists. eexists. split; [reflexivity|]. split; [run; entries|]. split; [reflexivity|]. split; [reflexivity|]. run; entries. Qed.
(** the selection of processes is ignored as in C69 *)
Theorem C72_processes_refuted : exists tk t yields, angular_terms ["a"; "b"]%string (mkCinfo 0 4 [hh] false false) ["a"%string] [] [] [] = Ok tk /\ angular_compute tk (sum_axis 1 yields) = Ok t /\
  flat yields = [10; 10; 1; 3; 2; 4; 3; 5]%R /\ t_shape yields = [4; 2] /\ flat t = [4/20; 6/20; 8/20]%R.
Proof.
  eexists. eexists. exists (mkT [4; 2] (fun i => nth (ravel [4; 2] i) [10; 10; 1; 3; 2; 4; 3; 5]%R 0%R)). split; [reflexivity|]. split; [reflexivity|]. split; [run; entries|]. split; [reflexivity|]. run; entries.
Qed.

(** ** C73: covariance of mapped data *)
Theorem C73_projection procs c keep m n x jac var : filled c -> NoDup keep -> (forall n, In n keep -> In n (map ha_name (ci_axes c))) -> ci_stop c <= n -> project_mapping procs c keep false = Ok m -> jacobian_of m n x jac -> List.length var = n ->
  exists v, mp_flat m (of_list var) = Ok v /\ forall a b, a < List.length v -> b < List.length v -> data_cov jac var a b = if Nat.eqb a b then nth a v 0%R else 0%R.
Proof. exact (project_cov procs c keep m n x jac var). Qed.
Theorem C73_selection procs r m n x jac var : fair r -> select_mapping procs (rq_chan r) (rq_procs r) (rq_sel r) (rq_rebin r) (rq_sums r) = Ok m -> ci_stop (rq_chan r) <= n -> jacobian_of m n x jac -> List.length var = n ->
  exists v, mp_flat m (of_list var) = Ok v /\ forall a b, a < List.length v -> b < List.length v -> data_cov jac var a b = if Nat.eqb a b then nth a v 0%R else 0%R.
Proof. exact (select_cov procs r m n x jac var). Qed.
Theorem C73_normalized_rows procs c keep m n x jac var b : filled c -> NoDup keep -> (forall n, In n keep -> In n (map ha_name (ci_axes c))) -> ci_stop c <= n -> project_mapping procs c keep true = Ok m -> jacobian_of m n x jac -> chan_total c (vec n x) <> 0%R -> List.length var = n ->
  sumR (map (fun a => data_cov jac var a b) (seq 0 (prodn (map (shape_of c) keep)))) = 0%R.
Proof. exact (normalize_cov procs c keep m n x jac var b). Qed.
Theorem C73_positive jac var coef k : Forall (fun v => (0 <= v)%R) var -> (0 <= sumR (map (fun a => sumR (map (fun b => coef a * coef b * data_cov jac var a b) (seq 0 k))) (seq 0 k)))%R.
Proof.
  intros P. replace (sumR (map (fun a => sumR (map (fun b => coef a * coef b * data_cov jac var a b) (seq 0 k))) (seq 0 k)))%R
    with (sumR (map (fun j => nth j var 0 * (sumR (map (fun a => coef a * jac a j) (seq 0 k)) * sumR (map (fun a => coef a * jac a j) (seq 0 k))))%R (seq 0 (List.length var)))).
  - apply sumR_nonneg. intros z I. apply in_map_iff in I as (j & <- & I). apply in_seq in I. apply Rmult_le_pos; [|apply Rle_0_sqr]. rewrite Forall_forall in P. apply P, nth_In. lia.
  - transitivity (sumR (map (fun a => sumR (map (fun j => (coef a * jac a j) * (nth j var 0 * sumR (map (fun b => coef b * jac b j) (seq 0 k)))) (seq 0 (List.length var)))) (seq 0 k)))%R.
    + rewrite sumR_swap. apply sumR_map_ext. intros j _. rewrite <- Rmult_assoc, (Rmult_comm (nth j var 0%R)), Rmult_assoc. rewrite Rmult_comm. rewrite <- sumR_map_scal. apply sumR_map_ext. intros a _. lra.
    + apply sumR_map_ext. intros a _. transitivity (sumR (map (fun b => sumR (map (fun j => coef a * coef b * (jac a j * nth j var 0 * jac b j)) (seq 0 (List.length var)))) (seq 0 k)))%R.
      * rewrite sumR_swap. apply sumR_map_ext. intros j _. rewrite <- Rmult_assoc, <- sumR_map_scal. apply sumR_map_ext. intros b _. lra.
      * apply sumR_map_ext. intros b _. unfold data_cov. rewrite sumR_map_scal. auto.
Qed.
(** a jacobian of a projection exists: bins 0,1 of the data are outside, the others go to y *)
Example C73_example : exists m jac, project_mapping ["a"; "b"]%string chn ["y"]%string false = Ok m /\ jacobian_of m 8 (fun q => INR q) jac /\
  data_cov jac [100; 200; 1; 2; 3; 4; 5; 6]%R 0 0 = 5%R /\ data_cov jac [100; 200; 1; 2; 3; 4; 5; 6]%R 0 1 = 0%R.
Proof.
  assert (F : filled chn) by (split; [repeat constructor; cbn; intuition discriminate|reflexivity]). assert (Nk : NoDup ["y"%string]) by (repeat constructor; cbn; tauto). assert (Hk : forall n, In n ["y"%string] -> In n (map ha_name (ci_axes chn))) by (intros n [<-|[]]; cbn; auto).
  destruct (project_flat ["a"; "b"]%string chn ["y"%string] F Nk Hk (vec 8 (fun q => INR q)) 8 eq_refl ltac:(cbn; lia)) as (m & M & _ & V). exists m, (fun i j => w 2 [2; 3] (proj_place chn ["y"%string]) (nth i (all_idx [3]) []) j). split; auto. split; [|split; run; ring].
  intros y Y i j I J. rewrite V in Y. apply ok_inj in Y. subst y. rewrite map_length, all_idx_len in I.
  assert (G : forall z, match mp_flat m (vec 8 z) with Ok l => nth i l 0%R | Raise _ => 0%R end = sumR (map (fun p => z p * (w 2 [2; 3] (proj_place chn ["y"%string]) (nth i (all_idx [3]) []) p)%nat)%R (seq 0 8))).
  { intros z. destruct (project_flat ["a"; "b"]%string chn ["y"%string] F Nk Hk (vec 8 z) 8 eq_refl ltac:(cbn; lia)) as (m' & M' & _ & V'). rewrite M' in M. apply ok_inj in M. subst m'. rewrite V'. rewrite (nth_map' _ _ _ _ []) by (rewrite all_idx_len; auto). cbn [vec t_at hd]. rewrite <- (collected_lin 2 [2; 3] (proj_place chn ["y"%string]) 8 ltac:(cbn; lia) z). reflexivity. }
  intros e He. exists (mkposreal 1 Rlt_0_1). intros h Hh _. rewrite !G, !(bump_lin 2 [2; 3] (proj_place chn ["y"%string]) 8) by auto. match goal with |- (Rabs ?q < e)%R => replace q with 0%R by (field; auto) end. rewrite Rabs_R0. auto.
Qed.

Print Assumptions C47_collects.
Print Assumptions C47_total.
Print Assumptions C47_two_steps.
Print Assumptions C47_per_process.
Print Assumptions C48_value.
Print Assumptions C48_one.
Print Assumptions C48_nonneg.
Print Assumptions C48_scale.
Print Assumptions C48_per_process.
Print Assumptions C49_cells.
Print Assumptions C49_per_process.
Print Assumptions C49_total.
Print Assumptions C49_segments.
Print Assumptions C49_positions.
Print Assumptions C49_step_refuted.
Print Assumptions C49_step_sizes_refuted.
Print Assumptions C49_flow_refuted.
Print Assumptions C49_flow_rebin_refuted.
Print Assumptions C49_close_edges_refuted.
Print Assumptions C50_uniform_partial.
Print Assumptions C50_last_partial.
Print Assumptions C50_two_parts_fail.
Print Assumptions C50_order_refuted.
Print Assumptions C50_exception_refuted.
Print Assumptions C69_ratio_partial.
Print Assumptions C69_taken.
Print Assumptions C69_select_refuted.
Print Assumptions C70_columns_partial.
Print Assumptions C70_order_refuted.
Print Assumptions C71_values.
Print Assumptions C71_proportional.
Print Assumptions C71_asymmetry_range.
Print Assumptions C71_difference_refuted.
Print Assumptions C72_coefficients_partial.
Print Assumptions C72_plain.
Print Assumptions C72_lam_tung_partial.
Print Assumptions C72_selected_helicity_refuted.
Print Assumptions C72_processes_refuted.
Print Assumptions C73_projection.
Print Assumptions C73_selection.
Print Assumptions C73_normalized_rows.
Print Assumptions C73_positive.
