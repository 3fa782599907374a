(** Angular coefficients and the Lam-Tung combination. *)
From Coq Require Import Reals List Arith ZArith Bool String Lia Lra Permutation.
From Verif Require Import RBase PyList PyDict ListUtil Shape Map_Model Map_Spec Map_Collect Map_Perm Map_Rules Map_Term Map_Merge Map_Select Map_Cells Map_Project Map_Proof Map_Comb Param_Names.
Import ListNotations.
Local Open Scope nat_scope.

Lemma rebin_names : forall rebin axes out, rebin_loop rebin axes = Ok out -> map ha_name (fst out) = map ha_name axes.
Proof.
  induction rebin as [|(n, new) r IH]; intros axes out E; cbn [rebin_loop] in E; [apply ok_inj in E; subst; auto|]. destruct (index_of n (map ha_name axes)) as [k|] eqn:K; [|discriminate]. destruct (negb _); [discriminate|]. destruct (rebin_loop r _) as [rest|] eqn:R; [|discriminate]. cbn [rbind] in E. apply ok_inj in E. subst out. cbn [fst]. rewrite (IH _ _ R), set_at_map. cbn [ha_name]. apply set_at_same, index_of_Some. auto.
Qed.
Definition out_names (sel : list (string * selection)) (sums : list string) (axes : list haxis) : list string :=
  flat_map (fun a => if is_at (dget (ha_name a) sel) || smem (ha_name a) sums then [] else [ha_name a]) axes.
Lemma term_names procs c sp sel rebin sums tm : term_init procs c sp sel rebin sums = Ok tm -> map ha_name (tm_axes tm) = out_names sel sums (ci_axes c).
Proof.
  unfold term_init. destruct (negb _); [discriminate|]. destruct (negb _); [discriminate|]. destruct (rebin_loop rebin (sel_axes sel (ci_axes c))) as [rb|] eqn:R; [|discriminate]. cbn [rbind]. intros E. apply ok_inj in E. subst tm. cbn [tm_axes]. apply rebin_names in R.
  assert (Q : forall l, map ha_name (filter (fun a => negb (smem (ha_name a) sums)) l) = filter (fun n => negb (smem n sums)) (map ha_name l)) by (induction l as [|a l IH]; cbn; auto; destruct (smem (ha_name a) sums); cbn; rewrite IH; auto).
  rewrite Q, R, sel_axes_names. clear R Q rb. unfold out_names. induction (ci_axes c) as [|a l IH]; auto. cbn [flat_map]. rewrite filter_app, IH. f_equal. destruct (is_at _); auto. cbn [orb filter]. destruct (smem (ha_name a) sums); auto.
Qed.
Section Helicity.
Variables (h : string) (sel : list (string * selection)) (s0 : selection).
Hypothesis (Hs : dget h sel = None).
Lemma with_default_h : dget h (with_default h s0 sel) = Some s0.
Proof. unfold with_default. rewrite Hs. cbn [dget]. rewrite String.eqb_refl. auto. Qed.
Lemma with_default_off n : n <> h -> dget n (with_default h s0 sel) = dget n sel.
Proof. intros N. unfold with_default. rewrite Hs. cbn [dget]. destruct (String.eqb_spec n h); [tauto|auto]. Qed.
End Helicity.
Section Ai.
Variables (h : string) (sel : list (string * selection)) (cuts : list (string * list nat)) (sums : list string) (lo hi st : option nat) (i0 : nat).
Hypothesis (Hs : dget h sel = None) (Hu : smem h sums = false).
Let sn := with_default h (Sl lo hi st) sel.
Let sd := with_default h (At i0) sel.
Lemma out_apart axes : ~ In h (map ha_name axes) -> out_sizes sd cuts sums axes = out_sizes sn cuts sums axes.
Proof.
  unfold out_sizes. induction axes as [|a l IH]; intros N; auto. cbn [flat_map]. cbn in N. rewrite IH by tauto. f_equal. unfold sn, sd. rewrite !with_default_off by (auto; intros E; apply N; auto). auto.
Qed.
Lemma out_remove : forall axes k, NoDup (map ha_name axes) -> index_of h (out_names sn sums axes) = Some k -> out_sizes sd cuts sums axes = remove_at k (out_sizes sn cuts sums axes) /\ k < List.length (out_sizes sn cuts sums axes).
Proof.
  induction axes as [|a l IH]; intros k ND E; [discriminate|]. inversion ND as [|? ? Na Nl]; subst. unfold out_names, out_sizes in *. cbn [flat_map] in *. destruct (string_dec (ha_name a) h) as [Q|Q].
  - rewrite Q in *. rewrite Hu in *. unfold sn, sd in *. rewrite !with_default_h in * by auto. cbn [is_at orb app index_of] in *. rewrite String.eqb_refl in E. injection E as <-. cbn [List.length]. split; [|lia]. unfold remove_at. cbn [firstn skipn app]. apply (out_apart l). auto.
  - assert (D1 : dget (ha_name a) sn = dget (ha_name a) sel) by (apply with_default_off; auto). assert (D2 : dget (ha_name a) sd = dget (ha_name a) sel) by (apply with_default_off; auto). rewrite D1 in *. rewrite D2. destruct (is_at (dget (ha_name a) sel) || smem (ha_name a) sums); cbn [app] in *; [apply IH; auto|].
    cbn [index_of] in E. destruct (String.eqb_spec h (ha_name a)); [subst; tauto|]. destruct (index_of h _) as [q|] eqn:K; [|discriminate]. cbn in E. injection E as <-. destruct (IH q Nl eq_refl) as (A & B). rewrite A. unfold remove_at. cbn [firstn skipn app List.length]. split; auto. lia.
Qed.
End Ai.
(** one operand has size one along axis k *)
Lemma bcast_one k s : k < List.length s -> bcast_shape s (set_at k 1 s) = Ok s.
Proof.
  intros K. unfold bcast_shape. rewrite set_at_len, Nat.max_id by auto. unfold pad. rewrite set_at_len, Nat.sub_diag by auto. cbn [repeat app].
  assert (G : forall l k, k < List.length l -> forallb (fun p => Nat.eqb (fst p) (snd p) || Nat.eqb (fst p) 1 || Nat.eqb (snd p) 1) (combine l (set_at k 1 l)) = true /\ map (fun p => if Nat.eqb (fst p) 1 then snd p else fst p) (combine l (set_at k 1 l)) = l).
  { clear. assert (D : forall l, forallb (fun p => Nat.eqb (fst p) (snd p) || Nat.eqb (fst p) 1 || Nat.eqb (snd p) 1) (combine l l) = true /\ map (fun p => if Nat.eqb (fst p) 1 then snd p else fst p) (combine l l) = l) by (induction l as [|x l (A & B)]; auto; cbn [combine forallb map fst snd]; rewrite Nat.eqb_refl, A, B; cbn; split; auto; destruct (x =? 1); auto).
    induction l as [|x l IH]; intros k K; [cbn in K; lia|]. destruct k as [|k].
    - change (set_at 0 1 (x :: l)) with (1 :: l). destruct (D l) as (A & B). cbn [combine forallb map fst snd]. rewrite A, B, Nat.eqb_refl, orb_true_r. split; auto. destruct (Nat.eqb_spec x 1); subst; auto.
    - change (set_at (S k) 1 (x :: l)) with (x :: set_at k 1 l). destruct (IH k ltac:(cbn in K; lia)) as (A & B). cbn [combine forallb map fst snd]. rewrite A, B, Nat.eqb_refl. split; auto. destruct (x =? 1); auto. }
  destruct (G s k K) as (-> & ->). auto.
Qed.
Lemma stretch_self s i : in_shape s i -> stretch s i = i.
Proof.
  intros H. unfold stretch. rewrite (in_shape_len _ _ H), Nat.sub_diag. cbn [skipn]. induction H as [|n v s i A H IH]; auto. cbn [combine map fst snd]. rewrite IH. f_equal. destruct (Nat.eqb_spec n 1); lia.
Qed.
Lemma stretch_one : forall s i k, in_shape s i -> k < List.length s -> stretch (set_at k 1 s) i = set_at k 0 i.
Proof.
  intros s i k H K. unfold stretch. rewrite set_at_len, (in_shape_len _ _ H), Nat.sub_diag by auto. cbn [skipn]. revert k K. induction H as [|n v s i A H IH]; intros k K; [cbn in K; lia|]. destruct k as [|k].
  - change (set_at 0 1 (n :: s)) with (1 :: s). change (set_at 0 0 (v :: i)) with (0 :: i). cbn [combine map fst snd Nat.eqb]. f_equal. pose proof (stretch_self s i H) as Q. unfold stretch in Q. rewrite (in_shape_len _ _ H), Nat.sub_diag in Q. exact Q.
  - change (set_at (S k) 1 (n :: s)) with (n :: set_at k 1 s). change (set_at (S k) 0 (v :: i)) with (v :: set_at k 0 i). cbn [combine map fst snd]. rewrite IH by (cbn in K; lia). f_equal. destruct (Nat.eqb_spec n 1); lia.
Qed.
Section Angular.
Variables (procs : list string) (c : cinfo) (sp : list string) (sel : list (string * selection)) (rebin : list (string * list R)) (sums : list string) (cuts : list (string * list nat)) (h : string) (tk : term * term * nat) (yields : tensor) (n : nat).
Let rn := mkReq c sp (with_default h (Sl (Some 1) None None) sel) rebin sums cuts.
Let rd := mkReq c sp (with_default h (At 0) sel) rebin sums cuts.
Hypothesis (Hh : helicity_axis (ci_axes c) = Ok h) (Hs : dget h sel = None) (Hu : smem h sums = false) (Hn : fair rn) (Hd : fair rd) (Ht : angular_terms procs c sp sel rebin sums = Ok tk) (Sy : t_shape yields = [n; List.length procs]) (Sn : ci_stop c <= n).
Let all := seq 0 (List.length procs).
Theorem angular_value : exists k t, index_of h (out_names (rq_sel rn) sums (ci_axes c)) = Some k /\ snd tk = k /\ angular_compute tk (sum_axis 1 yields) = Ok t /\ t_shape t = out_of rn /\
  forall j, in_shape (out_of rn) j -> t_at t j = (wanted rn all yields j / wanted rd all yields (remove_at k j))%R.
Proof.
  unfold angular_terms in Ht. rewrite Hh in Ht. cbn [rbind] in Ht. destruct (term_init procs c sp (with_default h (Sl (Some 1) None None) sel) rebin sums) as [tn|] eqn:Tn; [|discriminate]. cbn [rbind] in Ht. destruct (term_init procs c sp (with_default h (At 0) sel) rebin sums) as [td|] eqn:Td; [|discriminate]. cbn [rbind] in Ht.
  destruct (index_of h (map ha_name (tm_axes tn))) as [k|] eqn:K; [|discriminate]. apply ok_inj in Ht. subst tk. rewrite (term_names _ _ _ _ _ _ _ Tn) in K. exists k.
  destruct (inclusive_only procs rn tn yields n Hn Tn Sy Sn) as (a & A & Sa & Va). destruct (inclusive_only procs rd td yields n Hd Td Sy Sn) as (b & B & Sb & Vb).
  pose proof Hn as ((_ & ND & _) & _). destruct (out_remove h sel cuts sums (Some 1) None None 0 Hs Hu (ci_axes c) k ND K) as (O & Lk).
  unfold angular_compute. cbn [fst snd]. rewrite A, B. cbn [rbind]. unfold div_along, div_t.
  assert (E : set_at k 1 (t_shape a) = t_shape (expand_dims k b)). { cbn [expand_dims t_shape]. rewrite Sa, Sb. unfold out_of, rd, rn. cbn [rq_sel rq_cuts rq_sums rq_chan]. rewrite O. symmetry. apply set_insert. auto. }
  assert (Lk' : k < List.length (t_shape a)) by (rewrite Sa; exact Lk). rewrite <- E, bcast_one by auto. cbn [rbind].
  eexists. split; auto. split; auto. split; [reflexivity|]. cbn [t_shape t_at]. split; auto. intros j J. rewrite stretch_one, stretch_self, Va by (rewrite ?Sa; auto; rewrite <- Sa; auto). cbn [expand_dims t_at]. unfold Rdiv. do 2 f_equal.
  pose proof (in_shape_len _ _ J) as Lj. assert (R : remove_at k (set_at k 0 j) = remove_at k j).
  { unfold out_of, rn in Lj. cbn in Lj. rewrite <- (set_insert 0 k j) by lia. apply remove_insert. rewrite remove_len by lia. lia. }
  rewrite R. apply Vb. unfold out_of, rd. cbn [rq_sel rq_cuts rq_sums rq_chan]. rewrite O. apply in_shape_remove. auto.
Qed.
(** A0 - A2 *)
Theorem lamtung_value k : index_of h (out_names (rq_sel rn) sums (ci_axes c)) = Some k -> 3 <= nth k (out_of rn) 0 ->
  exists t, lamtung_compute tk (sum_axis 1 yields) = Ok t /\ t_shape t = out_of rd /\
  forall j, in_shape (out_of rd) j -> t_at t j = (wanted rn all yields (insert_at k 0%nat j) / wanted rd all yields j - wanted rn all yields (insert_at k 2%nat j) / wanted rd all yields j)%R.
Proof.
  intros K L3. destruct angular_value as (k' & t & K' & Ek & T & S & V). rewrite K in K'. injection K' as <-. unfold lamtung_compute. rewrite T. cbn [rbind]. rewrite Ek. unfold index_axis. rewrite S.
  destruct (Nat.ltb_spec 0 (nth k (out_of rn) 0)); [|lia]. destruct (Nat.ltb_spec 2 (nth k (out_of rn) 0)); [|lia]. cbn [rbind]. unfold zip_t. cbn [t_shape]. destruct (list_eq_dec Nat.eq_dec _ _) as [_|Q]; [|tauto]. eexists. split; [reflexivity|]. cbn [t_shape t_at].
  pose proof Hn as ((_ & ND & _) & _). destruct (out_remove h sel cuts sums (Some 1) None None 0 Hs Hu (ci_axes c) k ND K) as (O & Lk).
  assert (O' : out_of rd = remove_at k (out_of rn)) by exact O. split; auto. intros j J. rewrite O' in J. pose proof (in_shape_len _ _ J) as Lj. change (out_sizes _ cuts sums (ci_axes c)) with (out_of rn) in Lk. rewrite remove_len in Lj by auto.
  assert (I : forall v, v < nth k (out_of rn) 0 -> in_shape (out_of rn) (insert_at k v j)) by (intros v Hv; apply (in_shape_insert _ _ _ (nth k (out_of rn) 0)); auto; apply nth_nth_error; auto).
  rewrite !V by (apply I; lia). rewrite !remove_insert by lia. auto.
Qed.
End Angular.
(** without further selections: bin i+1 of the helicity axis over bin 0 *)
Lemma collected_one f shape pl j i0 : in_shape shape i0 -> pl i0 = Some j -> (forall i, in_shape shape i -> pl i = Some j -> i = i0) -> collected f shape pl j = f i0.
Proof.
  intros I E U. unfold collected. transitivity (sumR (map f [i0])); [|cbn; lra]. apply sumR_perm, Permutation_map, NoDup_Permutation; [apply NoDup_filter', all_idx_NoDup|constructor; [cbn; tauto|constructor]|]. intros i. rewrite filter_In, all_idx_In, hits_true. cbn. split; [intros (A & B); left; symmetry; auto|intros [<-|[]]; auto].
Qed.
Lemma goes_rest axes : forall i sel, (forall a, In a axes -> dget (ha_name a) sel = None) -> in_shape (map ha_size axes) i -> goes sel [] [] axes i = Some i.
Proof.
  induction axes as [|a l IH]; intros i sel H I; inversion I as [|? v ? q A B]; subst; auto. cbn [goes]. rewrite (H a (or_introl eq_refl)). cbn [lower upper is_at orb dget smem]. unfold moved. destruct (Nat.leb_spec 0 v); [|lia]. destruct (Nat.ltb_spec v (ha_size a)); [|lia]. cbn [andb]. rewrite IH by (auto; intros; apply H; cbn; auto). rewrite Nat.sub_0_r. auto.
Qed.
Lemma goes_slice h : forall axes k i, NoDup (map ha_name axes) -> index_of h (map ha_name axes) = Some k -> in_shape (map ha_size axes) i ->
  goes [(h, Sl (Some 1) None None)] [] [] axes i = (if 1 <=? nth k i 0 then Some (set_at k (nth k i 0 - 1) i) else None) /\ goes [(h, At 0)] [] [] axes i = (if nth k i 0 =? 0 then Some (remove_at k i) else None).
Proof.
  induction axes as [|a l IH]; intros k i ND K I; [discriminate|]. inversion ND as [|? ? Na Nl]; subst. inversion I as [|? v ? q A B]; subst. cbn [map index_of] in K. cbn [goes]. cbn [dget]. rewrite (String.eqb_sym (ha_name a) h). destruct (String.eqb_spec h (ha_name a)) as [Q|Q].
  - injection K as <-. cbn [lower upper is_at orb smem nth]. assert (G : forall s, goes [(h, s)] [] [] l q = Some q) by (intros s; apply goes_rest; auto; intros b Ib; cbn [dget]; destruct (String.eqb_spec (ha_name b) h) as [E|]; auto; exfalso; apply Na; rewrite <- Q, <- E; apply in_map; auto).
    rewrite !G. unfold moved. unfold set_at, remove_at. cbn [firstn skipn app]. split.
    + destruct (Nat.leb_spec 1 v); cbn [andb]; auto. destruct (Nat.ltb_spec v (ha_size a)); [auto|lia].
    + cbn [lower upper is_at Nat.leb andb]. destruct v; auto.
  - destruct (index_of h (map ha_name l)) as [m|] eqn:M; [|discriminate]. cbn in K. injection K as <-. cbn [lower upper is_at orb smem]. unfold moved. destruct (Nat.leb_spec 0 v); [|lia]. destruct (Nat.ltb_spec v (ha_size a)); [|lia]. cbn [andb]. rewrite Nat.sub_0_r. destruct (IH m q Nl eq_refl B) as (G1 & G2). rewrite G1, G2. cbn [nth]. split; [destruct (1 <=? nth m q 0); auto|destruct (nth m q 0 =? 0); auto].
Qed.
Theorem plain_slice c sp h k yields ps j : proper c -> index_of h (map ha_name (ci_axes c)) = Some k -> in_shape (set_at k (nth k (sizes_of c) 0 - 1) (sizes_of c)) j ->
  wanted (mkReq c sp [(h, Sl (Some 1) None None)] [] [] []) ps yields j = bin_yield c ps yields (set_at k (S (nth k j 0)) j) /\
  wanted (mkReq c sp [(h, At 0)] [] [] []) ps yields (remove_at k j) = bin_yield c ps yields (set_at k 0 j).
Proof.
  intros (_ & ND & _) K J. assert (Lk : k < List.length (sizes_of c)) by (unfold sizes_of; rewrite map_length, <- (map_length ha_name); apply nth_error_Some; rewrite (index_of_Some _ _ _ K); discriminate).
  pose proof (in_shape_len _ _ J) as Lj. rewrite set_at_len in Lj by auto. pose proof (in_shape_nth _ _ k J) as Nj. rewrite set_at_len in Nj by auto. specialize (Nj Lk). rewrite set_at_nth, Nat.eqb_refl in Nj by auto.
  assert (I : forall v, v < nth k (sizes_of c) 0 -> in_shape (sizes_of c) (set_at k v j)).
  { intros v Hv. apply in_shape_intro; [rewrite set_at_len; lia|]. intros q Lq. rewrite set_at_nth by lia. destruct (Nat.eqb_spec q k) as [->|Q]; auto. pose proof (in_shape_nth _ _ q J) as P. rewrite set_at_len in P by auto. specialize (P Lq). rewrite set_at_nth in P by auto. apply Nat.eqb_neq in Q. rewrite Q in P. auto. }
  assert (SS : forall v w, set_at k v (set_at k w j) = set_at k v j).
  { intros v w. rewrite <- (set_insert w k j) by lia. rewrite <- (set_insert v k (insert_at k w (remove_at k j))) by (rewrite set_insert, set_at_len; lia). rewrite remove_insert by (rewrite remove_len; lia). apply set_insert. lia. }
  assert (Sj : set_at k (nth k j 0) j = j) by (apply set_at_same, nth_error_nth'; lia).
  unfold wanted. cbn [rq_chan rq_sel rq_cuts rq_sums]. split.
  - apply collected_one; [apply I; lia| |].
    + destruct (goes_slice h (ci_axes c) k (set_at k (S (nth k j 0)) j) ND K) as (G & _); [apply I; lia|]. rewrite G, set_at_nth, Nat.eqb_refl by lia. cbn [Nat.leb]. rewrite SS. replace (S (nth k j 0) - 1) with (nth k j 0) by lia. rewrite Sj. auto.
    + intros i Ii E. destruct (goes_slice h (ci_axes c) k i ND K Ii) as (G & _). rewrite G in E. destruct (Nat.leb_spec 1 (nth k i 0)); [|discriminate]. injection E as <-. pose proof (in_shape_len _ _ Ii) as Li. rewrite set_at_nth, Nat.eqb_refl by lia. replace (S (nth k i 0 - 1)) with (nth k i 0) by lia.
      assert (SS' : forall v w, set_at k v (set_at k w i) = set_at k v i).
      { intros v w. rewrite <- (set_insert w k i) by lia. rewrite <- (set_insert v k (insert_at k w (remove_at k i))) by (rewrite set_insert, set_at_len; lia). rewrite remove_insert by (rewrite remove_len; lia). apply set_insert. lia. }
      rewrite SS'. symmetry. apply set_at_same, nth_error_nth'. lia.
  - apply collected_one; [apply I; lia| |].
    + destruct (goes_slice h (ci_axes c) k (set_at k 0 j) ND K) as (_ & G); [apply I; lia|]. rewrite G, set_at_nth, Nat.eqb_refl by lia. cbn [Nat.eqb]. f_equal. rewrite <- (set_insert 0 k j) by lia. apply remove_insert. rewrite remove_len; lia.
    + intros i Ii E. destruct (goes_slice h (ci_axes c) k i ND K Ii) as (_ & G). rewrite G in E. destruct (Nat.eqb_spec (nth k i 0) 0) as [Z|]; [|discriminate]. injection E as E. pose proof (in_shape_len _ _ Ii) as Li. rewrite <- (set_insert 0 k j) by lia. rewrite <- E. rewrite <- Z. symmetry. apply insert_remove. lia.
Qed.
