From Coq Require Import Reals List Arith Bool String Permutation Sorted Lia Lra.
From Verif Require Import RBase PyList PyDict ListUtil Order Shape Impacts_Model Init_Proof Read_Model Read_Spec Read_Proof.
Import ListNotations.
Local Open Scope nat_scope.
Local Open Scope string_scope.

(** ** sorting *)
Lemma Rc_laws : CmpLaws Rc.
Proof.
  split; unfold Rc.
  - intros x y. destruct (total_order_T x y) as [[L|E]|G]; split; intros H; try discriminate; try lra; auto.
  - intros x y. destruct (total_order_T x y) as [[?|?]|?], (total_order_T y x) as [[?|?]|?]; cbn; try reflexivity; lra.
  - intros x y z. destruct (total_order_T x y) as [[?|?]|?], (total_order_T y z) as [[?|?]|?], (total_order_T x z) as [[?|?]|?]; try discriminate; try reflexivity; lra.
Qed.
Lemma Rc_le x y : Rc x y <> Gt <-> (x <= y)%R.
Proof. unfold Rc. destruct (total_order_T x y) as [[?|?]|?]; split; intros; try lra; try discriminate; congruence. Qed.
Lemma argsort_perm {K} (c : K -> K -> comparison) d keys : Permutation (argsort c d keys) (seq 0 (List.length keys)).
Proof. apply sort_perm. Qed.
Lemma argsort_sorted {K} (c : K -> K -> comparison) d keys : CmpLaws c -> StronglySorted (fun i j => c (nth i keys d) (nth j keys d) <> Gt) (argsort c d keys).
Proof.
  intros L. pose proof (sort_sorted (fun i => nth i keys d) c L (seq 0 (List.length keys))) as H. unfold sortedk in H. eapply (StronglySorted_ind (fun l => StronglySorted _ l)); [constructor| |exact H].
  intros a l S IH F. constructor; [exact IH|]. eapply Forall_impl; [|exact F]. intros b B. unfold le_k in B. destruct (c _ _); discriminate.
Qed.
Lemma argsort_lt {K} (c : K -> K -> comparison) d keys i : In i (argsort c d keys) -> i < List.length keys.
Proof. intros I. eapply Permutation_in in I; [|apply argsort_perm]. apply in_seq in I. lia. Qed.
Lemma sorted_map {A B} (f : A -> B) (P : B -> B -> Prop) l : StronglySorted (fun a b => P (f a) (f b)) l -> StronglySorted P (map f l).
Proof. induction 1 as [|a l S IH F]; [constructor|]. cbn [map]. constructor; [exact IH|]. apply Forall_map. exact F. Qed.
Lemma combine_pos {A B} (da : A) (db : B) la : forall lb, List.length la = List.length lb -> map (fun i => (nth i la da, nth i lb db)) (seq 0 (List.length la)) = combine la lb.
Proof.
  induction la as [|a la IH]; intros [|b lb] L; cbn in L; try discriminate; [reflexivity|]. cbn [List.length seq map nth combine]. f_equal. rewrite <- seq_shift, map_map. apply IH. lia.
Qed.
Lemma combine_take {A B} (da : A) (db : B) order la lb : combine (take da order la) (take db order lb) = map (fun i => (nth i la da, nth i lb db)) order.
Proof. unfold take. induction order as [|i r IH]; [reflexivity|]. cbn [map combine]. f_equal. exact IH. Qed.
Lemma combine_map_r {A B C} (f : B -> C) (la : list A) : forall lb, combine la (map f lb) = map (fun p => (fst p, f (snd p))) (combine la lb).
Proof. induction la as [|a la IH]; intros [|b lb]; try reflexivity. cbn [map combine]. f_equal. apply IH. Qed.
Lemma sequence_ok {A B} (f : A -> B) (t : list (string * A)) : sequence (map (fun p => (fst p, Ok (f (snd p)))) t) = Ok (map (fun p => (fst p, f (snd p))) t).
Proof. induction t as [|(n, x) t IH]; [reflexivity|]. cbn [map sequence fst snd rbind]. rewrite IH. reflexivity. Qed.
Lemma nth_map' {A B} (f : A -> B) d d' l i : i < List.length l -> nth i (map f l) d' = f (nth i l d).
Proof. intros H. rewrite (nth_indep _ d' (f d)) by (rewrite map_length; auto). apply map_nth. Qed.

(** ** impacts *)
Section Print.
  Variable rnd : R -> R.
  Definition table {A} (key : A -> R) (sort : bool) (labels : list string) (vals : list A) (t : list (string * A)) : Prop :=
    Permutation t (combine labels vals) /\ (if sort then StronglySorted (fun a b => (key (snd a) <= key (snd b))%R) t else t = combine labels vals).
  Lemma order_ok (labels : list string) keys : List.length labels = List.length keys -> forallb (fun i => Nat.ltb i (List.length labels)) (argsort Rc 0%R keys) = true.
  Proof. intros L. apply forallb_forall. intros i I. apply argsort_lt in I. apply Nat.ltb_lt. lia. Qed.
  Lemma table_sorted {A} (d : A) (key : A -> R) labels vals : List.length labels = List.length vals ->
    table key true labels vals (combine (take "" (argsort Rc 0%R (map key vals)) labels) (take d (argsort Rc 0%R (map key vals)) vals)).
  Proof.
    intros L. rewrite combine_take. split.
    - rewrite <- (combine_pos "" d labels vals L), L, <- (map_length key vals). apply Permutation_map. apply argsort_perm.
    - apply sorted_map. cbn [snd]. pose proof (argsort_sorted Rc 0%R (map key vals) Rc_laws) as S. assert (B : forall i, In i (argsort Rc 0%R (map key vals)) -> i < List.length vals) by (intros i I; apply argsort_lt in I; rewrite map_length in I; exact I).
      revert B. induction S as [|a l S IH F]; intros B; [constructor|]. constructor; [apply IH; intros i I; apply B; right; auto|]. rewrite Forall_forall in *. intros b Ib. specialize (F b Ib). rewrite !(nth_map' key d) in F by (apply B; cbn; auto). apply Rc_le in F. exact F.
  Qed.
  (** one printed table, for scalars and for rows *)
  Lemma entries1 scale l : entries rnd false scale (A1 l) = map (fun x => Ok (P1 (rnd (x * scale)%R))) l. Proof. reflexivity. Qed.
  Lemma entries2 scale l : entries rnd true scale (A2 l) = map (fun x => Ok (P2 (rnd (maxl x * scale)%R) (rnd (minl x * scale)%R))) l. Proof. reflexivity. Qed.
  Lemma print_all1 sort scale labels vals : List.length labels = List.length vals ->
    exists t, table (fun x => x) sort labels vals t /\ print_impacts rnd false sort None scale (A1 vals) labels = Ok (map (fun p => (fst p, P1 (rnd (snd p * scale)%R))) t).
  Proof.
    intros L. unfold print_impacts. cbn [sort_keys]. rewrite order_ok by auto. rewrite andb_false_r. cbn [reorder]. pose proof (table_sorted 0%R (fun x => x) labels vals L) as T. rewrite map_id in T. destruct sort.
    - eexists. split; [exact T|]. rewrite entries1, combine_map_r. apply (sequence_ok (fun x => P1 (rnd (x * scale)%R))).
    - exists (combine labels vals). split; [split; reflexivity|]. rewrite entries1, combine_map_r. apply (sequence_ok (fun x => P1 (rnd (x * scale)%R))).
  Qed.
  Lemma print_all2 sort scale labels vals : List.length labels = List.length vals ->
    exists t, table (fun x => maxl (map Rabs x)) sort labels vals t /\
      print_impacts rnd true sort None scale (A2 vals) labels = Ok (map (fun p => (fst p, P2 (rnd (maxl (snd p) * scale)%R) (rnd (minl (snd p) * scale)%R))) t).
  Proof.
    intros L. unfold print_impacts. cbn [sort_keys]. rewrite order_ok by (rewrite map_length; auto). rewrite andb_false_r. cbn [reorder]. pose proof (table_sorted [] (fun x => maxl (map Rabs x)) labels vals L) as T. destruct sort.
    - eexists. split; [exact T|]. rewrite entries2, combine_map_r. apply (sequence_ok (fun x => P2 (rnd (maxl x * scale)%R) (rnd (minl x * scale)%R))).
    - exists (combine labels vals). split; [split; reflexivity|]. rewrite entries2, combine_map_r. apply (sequence_ok (fun x => P2 (rnd (maxl x * scale)%R) (rnd (minl x * scale)%R))).
  Qed.
  Lemma index_take order labels n j : NoDup labels -> nth_error labels j = Some n -> In j order -> (forall i, In i order -> i < List.length labels) ->
    exists i, index_of n (take "" order labels) = Some i /\ nth_error order i = Some j.
  Proof.
    intros N J I B. assert (In n (take "" order labels)) as K. { unfold take. apply in_map_iff. exists j. split; [apply nth_error_nth; auto|auto]. }
    destruct (index_of_In _ _ K) as (i & E). exists i. split; [auto|]. apply index_of_Some in E. unfold take in E. rewrite nth_error_map' in E. destruct (nth_error order i) as [k|] eqn:O; cbn in E; [|discriminate]. injection E as E. f_equal.
    apply (nth_error_inj labels k j n N); [|auto]. rewrite <- E. apply nth_error_nth'. apply B. eapply nth_error_In; eauto.
  Qed.
  Lemma print_one1 sort scale labels vals n j : List.length labels = List.length vals -> NoDup labels -> nth_error labels j = Some n ->
    print_impacts rnd false sort (Some n) scale (A1 vals) labels = Ok [(n, P1 (rnd (nth j vals 0 * scale)%R))].
  Proof.
    intros L N J. unfold print_impacts. cbn [sort_keys]. rewrite order_ok by auto. rewrite andb_false_r. cbn [reorder]. assert (JL : j < List.length labels) by (apply nth_error_Some; congruence). destruct sort.
    - destruct (index_take (argsort Rc 0%R vals) labels n j N J) as (i & E & O).
      + eapply Permutation_in; [symmetry; apply argsort_perm|]. apply in_seq. lia.
      + intros i I. apply argsort_lt in I. lia.
      + rewrite E, entries1. unfold take. rewrite map_map, nth_error_map', O. reflexivity.
    - rewrite (index_of_NoDup _ N _ _ J), entries1, nth_error_map', (nth_error_nth' vals 0%R) by lia. reflexivity.
  Qed.
  Lemma print_one2 sort scale labels vals n j : List.length labels = List.length vals -> NoDup labels -> nth_error labels j = Some n ->
    print_impacts rnd true sort (Some n) scale (A2 vals) labels = Ok [(n, P2 (rnd (maxl (nth j vals []) * scale)%R) (rnd (minl (nth j vals []) * scale)%R))].
  Proof.
    intros L N J. unfold print_impacts. cbn [sort_keys]. rewrite order_ok by (rewrite map_length; auto). rewrite andb_false_r. cbn [reorder]. assert (JL : j < List.length labels) by (apply nth_error_Some; congruence). destruct sort.
    - destruct (index_take (argsort Rc 0%R (map (fun x => maxl (map Rabs x)) vals)) labels n j N J) as (i & E & O).
      + eapply Permutation_in; [symmetry; apply argsort_perm|]. apply in_seq. rewrite map_length. lia.
      + intros i I. apply argsort_lt in I. rewrite map_length in I. lia.
      + rewrite E, entries2. unfold take. rewrite map_map, nth_error_map', O. reflexivity.
    - rewrite (index_of_NoDup _ N _ _ J), entries2, nth_error_map', (nth_error_nth' vals []) by lia. reflexivity.
  Qed.
  Lemma print_unknown asym sort scale labels impacts n : ~ In n labels -> exists e, print_impacts rnd asym sort (Some n) scale impacts labels = Raise e.
  Proof.
    intros N. unfold print_impacts. destruct (sort && negb (forallb _ _)) eqn:B; [eexists; reflexivity|]. destruct (index_of n _) as [i|] eqn:E; [|eexists; reflexivity]. exfalso. apply index_of_Some in E. destruct sort; [|apply nth_error_In in E; contradiction].
    unfold take in E. rewrite nth_error_map' in E. destruct (nth_error _ i) as [k|] eqn:O; cbn in E; [|discriminate]. injection E as E. apply N. rewrite <- E. apply nth_In. cbn [andb] in B. apply negb_false_iff in B. rewrite forallb_forall in B. apply Nat.ltb_lt. apply B. eapply nth_error_In; eauto.
  Qed.
  (** scalars are never printed as up and down impacts *)
  Lemma asym_scalar sort nuisance scale vals labels : vals <> [] -> labels <> [] -> exists e, print_impacts rnd true sort nuisance scale (A1 vals) labels = Raise e.
  Proof.
    intros V L. unfold print_impacts. destruct (sort && negb _) eqn:B; [eexists; reflexivity|]. cbn [reorder sort_keys].
    assert (Q : exists a r, (if sort then A1 (take 0%R (argsort Rc 0%R vals) vals) else A1 vals) = A1 (a :: r)).
    { destruct sort; [|destruct vals; [contradiction|eauto]]. unfold take. pose proof (Permutation_length (argsort_perm Rc 0%R vals)) as P. rewrite seq_length in P. destruct (argsort Rc 0%R vals); [destruct vals; [contradiction|discriminate]|cbn [map]; eauto]. }
    assert (Q' : exists a r, (if sort then take "" (argsort Rc 0%R vals) labels else labels) = a :: r).
    { destruct sort; [|destruct labels; [contradiction|eauto]]. unfold take. pose proof (Permutation_length (argsort_perm Rc 0%R vals)) as P. rewrite seq_length in P. destruct (argsort Rc 0%R vals); [destruct vals; [contradiction|discriminate]|cbn [map]; eauto]. }
    destruct Q as (a & r & Q), Q' as (b & s & Q'). destruct nuisance as [n|].
    - destruct (index_of n _) as [i|]; [|eexists; reflexivity]. rewrite Q. cbn [entries]. rewrite nth_error_map'. destruct (nth_error _ i); cbn; eexists; reflexivity.
    - rewrite Q, Q'. cbn. eexists. reflexivity.
  Qed.
End Print.

(** ** pulls and constraints *)
Lemma masked_pos {A} (d : A) (f : nat -> bool) l : masked (map f (seq 0 (List.length l))) l = map (fun i => nth i l d) (filter f (seq 0 (List.length l))).
Proof.
  unfold masked. enough (G : forall s, map snd (filter (fun p => fst p) (combine (map f (seq s (List.length l))) l)) = map (fun i => nth (i - s) l d) (filter f (seq s (List.length l)))).
  { rewrite (G 0). apply map_ext. intros i. rewrite Nat.sub_0_r. reflexivity. }
  induction l as [|a l IH]; intros s; [reflexivity|]. cbn [List.length seq map combine filter fst]. assert (E : map snd (filter (fun p => fst p) (combine (map f (seq (S s) (List.length l))) l)) = map (fun i => nth (i - s) (a :: l) d) (filter f (seq (S s) (List.length l)))).
  { rewrite (IH (S s)). apply map_ext_in. intros i I. apply filter_In in I. destruct I as (I & _). apply in_seq in I. replace (i - s) with (S (i - S s)) by lia. reflexivity. }
  destruct (f s); cbn [map snd]; [|exact E]. f_equal; [|exact E]. rewrite Nat.sub_diag. reflexivity.
Qed.
Lemma masked_nil {A} (mask : list bool) : masked mask (@nil A) = [].
Proof. unfold masked. destruct mask; reflexivity. Qed.
Section Pulls.
  Variable search : string -> string -> bool.
  Variable rnd : R -> R.
  Definition wantb (keep exclude : option (list string)) (l : string) : bool :=
    (match keep with Some (p :: r) => existsb (fun p => search p l) (p :: r) | _ => true end) && (match exclude with Some ps => negb (existsb (fun p => search p l) ps) | None => true end).
  Lemma wantb_ok keep exclude l : wantb keep exclude l = true <-> wanted search keep exclude l.
  Proof.
    unfold wantb, wanted. rewrite andb_true_iff. split.
    - intros (A & B). split.
      + intros ps -> NE. destruct ps as [|p r]; [contradiction|]. apply existsb_exists in A. destruct A as (q & I & S). exists q. auto.
      + intros ps p -> I. apply negb_true_iff in B. destruct (search p l) eqn:S; [|reflexivity]. exfalso. assert (existsb (fun p => search p l) ps = true) by (apply existsb_exists; eauto). congruence.
    - intros (A & B). split.
      + destruct keep as [[|p r]|]; [reflexivity| |reflexivity]. apply existsb_exists. destruct (A (p :: r) eq_refl) as (q & I & S); [discriminate|]. eauto.
      + destruct exclude as [ps|]; [|reflexivity]. apply negb_true_iff. destruct (existsb _ ps) eqn:E; [|reflexivity]. apply existsb_exists in E. destruct E as (p & I & S). rewrite (B ps p eq_refl I) in S. discriminate.
  Qed.
  Definition chosen keep exclude (parms : list string) : list nat := filter (fun i => wantb keep exclude (nth i parms "")) (seq 0 (List.length parms)).
  Lemma mask_pos keep exclude parms : filter_mask search (match keep with Some l => l | None => [] end) (match exclude with Some l => l | None => [] end) parms = map (fun i => wantb keep exclude (nth i parms "")) (seq 0 (List.length parms)).
  Proof.
    unfold filter_mask. rewrite <- (map_nth_seq "" parms) at 1. rewrite map_map. apply map_ext. intros i. unfold wantb. f_equal; [destruct keep as [[|]|]; reflexivity|destruct exclude as [[|]|]; reflexivity].
  Qed.
  Lemma forallb_all {A} (f : A -> bool) l : (forall x, In x l -> f x = true) -> forallb f l = true. Proof. intros H. apply forallb_forall. exact H. Qed.
  Lemma chosen_all parms : chosen None None parms = seq 0 (List.length parms).
  Proof. unfold chosen. cbn. generalize 0. induction (List.length parms) as [|n IH]; intros s; [reflexivity|]. cbn [seq filter]. f_equal. apply IH. Qed.
  Lemma filtered keep exclude parms pulls constraints : List.length pulls = List.length parms -> List.length constraints = List.length parms ->
    filter_nuisances search keep exclude parms pulls (A1 constraints) =
    Ok (map (fun i => nth i parms "") (chosen keep exclude parms), map (fun i => nth i pulls 0%R) (chosen keep exclude parms), A1 (map (fun i => nth i constraints 0%R) (chosen keep exclude parms))).
  Proof.
    intros P C. assert (Q : (let mask := filter_mask search (match keep with Some l => l | None => [] end) (match exclude with Some l => l | None => [] end) parms in
      ls <- mask_list mask parms ;; ps <- mask_list mask pulls ;; cs <- take_arr (nonzero mask) (A1 constraints) ;; Ok (ls, ps, cs)) =
      Ok (map (fun i => nth i parms "") (chosen keep exclude parms), map (fun i => nth i pulls 0%R) (chosen keep exclude parms), A1 (map (fun i => nth i constraints 0%R) (chosen keep exclude parms)))).
    { cbv zeta. rewrite mask_pos. unfold mask_list, nonzero. rewrite map_length, seq_length. rewrite P, Nat.eqb_refl. cbn [rbind].
      rewrite (masked_pos "" _ parms). pose proof (masked_pos 0%R (fun i => wantb keep exclude (nth i parms "")) pulls) as MP. rewrite P in MP. rewrite MP. cbn [rbind take_arr].
      pose proof (masked_pos 0 (fun i => wantb keep exclude (nth i parms "")) (seq 0 (List.length parms))) as M. rewrite seq_length in M. rewrite M. fold (chosen keep exclude parms).
      assert (SS : map (fun i => nth i (seq 0 (List.length parms)) 0) (chosen keep exclude parms) = chosen keep exclude parms).
      { rewrite <- (map_id (chosen keep exclude parms)) at 2. apply map_ext_in. intros i I. unfold chosen in I. apply filter_In in I. destruct I as (I & _). apply in_seq in I. rewrite seq_nth by lia. lia. }
      rewrite SS, forallb_all.
      - reflexivity.
      - intros i I. unfold chosen in I. apply filter_In in I. destruct I as (I & _). apply in_seq in I. apply Nat.ltb_lt. lia. }
    unfold filter_nuisances. destruct keep as [k|], exclude as [e|]; try exact Q. rewrite chosen_all. f_equal. f_equal; [f_equal|f_equal]; symmetry.
    - apply map_nth_seq.
    - rewrite <- P. apply map_nth_seq.
    - rewrite <- C. apply map_nth_seq.
  Qed.
  Section FromFit.
    Variables (parms : list string) (npoi nparams : nat) (noi : list nat) (is : list item) (d : dict hist).
    Hypothesis st : store_all parms npoi nparams noi is [] = Ok d.
    Hypothesis one : fit_items is.
    Lemma pulls_read (prefit : bool) x v keep exclude : In (if prefit then Prefit x v else Postfit x v) is ->
      pulls_and_constraints search d prefit false keep exclude =
      Ok (map (fun i => nth i parms "") (chosen keep exclude parms), map (fun i => nth i x 0%R) (chosen keep exclude parms), A1 (map (fun i => nth i (map sqrt v) 0%R) (chosen keep exclude parms))).
    Proof.
      intros I. destruct (get_parms parms npoi nparams noi is d st one prefit x v I) as (E & L1 & L2). unfold pulls_and_constraints, lookup. rewrite E. cbn [rbind]. unfold axis. cbn [h_axes map fst index_of]. cbn. rewrite <- (filtered keep exclude parms x (map sqrt v)) by (rewrite ?map_length; auto).
      unfold values, arr_of. cbn. f_equal.
      - transitivity (map (fun i => nth i x 0%R) (seq 0 (List.length x))); [|apply map_nth_seq]. rewrite L1. apply map_ext. intros i. f_equal. lia.
      - f_equal. transitivity (map (fun i => nth i (map sqrt v) 0%R) (seq 0 (List.length (map sqrt v)))); [|apply map_nth_seq]. rewrite map_length, L2. apply map_ext_in. intros i Ii. apply in_seq in Ii. rewrite (nth_map' sqrt 0%R) by lia. do 2 f_equal. lia.
    Qed.
    Lemma asym_missing (prefit : bool) x v keep exclude : In (if prefit then Prefit x v else Postfit x v) is -> pulls_and_constraints search d prefit true keep exclude = Raise KeyError.
    Proof.
      intros I. destruct (get_parms parms npoi nparams noi is d st one prefit x v I) as (E & L1 & L2). unfold pulls_and_constraints, lookup. rewrite E. cbn [rbind]. unfold axis. cbn [h_axes map fst index_of]. cbn. rewrite (no_contour_scans _ _ _ _ _ _ st). reflexivity.
    Qed.
    Definition chosen_lines keep exclude x v x0 v0 : list pline := filter (fun a => wantb keep exclude (l_label a)) (plines parms x v x0 v0).
    Lemma chosen_map keep exclude x v x0 v0 : chosen_lines keep exclude x v x0 v0 = map (fun p => mkPl (nth p parms "") (nth p x 0%R) (sqrt (nth p v 0%R)) (nth p x0 0%R) (sqrt (nth p v0 0%R))) (chosen keep exclude parms).
    Proof.
      unfold chosen_lines, plines, chosen. induction (seq 0 (List.length parms)) as [|p l IH]; [reflexivity|]. cbn [map filter l_label]. destruct (wantb _ _ _); cbn [map]; rewrite IH; reflexivity.
    Qed.
    Lemma sorted_rev_perm {A} (t u : list A) (b : bool) : Permutation t u -> Permutation (if b then rev t else t) u.
    Proof. intros H. destruct b; [|auto]. rewrite <- H. symmetry. apply Permutation_rev. Qed.
    Lemma pulls_printed keep exclude (no_prefit reverse : bool) sort x v x0 v0 : In (Postfit x v) is -> In (Prefit x0 v0) is ->
      exists t, Permutation t (chosen_lines keep exclude x v x0 v0) /\
        match sort with None => t = chosen_lines keep exclude x v x0 v0 | Some s => StronglySorted (before s) (if reverse then rev t else t) end /\
        print_pulls search rnd d keep exclude false no_prefit reverse sort = Ok (map (line rnd no_prefit) t).
    Proof.
      intros I J. destruct (get_parms _ _ _ _ _ _ st one false x v I) as (_ & LX & LV). destruct (get_parms _ _ _ _ _ _ st one true x0 v0 J) as (_ & LX0 & LV0).
      unfold print_pulls. rewrite (pulls_read false x v keep exclude I), (pulls_read true x0 v0 keep exclude J). cbn [rbind scalars].
      set (ch := chosen keep exclude parms). set (pl := fun p => mkPl (nth p parms "") (nth p x 0%R) (sqrt (nth p v 0%R)) (nth p x0 0%R) (sqrt (nth p v0 0%R))).
      assert (CH : forall i, In i ch -> i < List.length parms). { intros i Ii. apply filter_In in Ii. destruct Ii as (Ii & _). apply in_seq in Ii. lia. }
      assert (CL : chosen_lines keep exclude x v x0 v0 = map pl ch) by apply chosen_map. rewrite CL.
      set (order := match sort with Some _ => _ | None => _ end).
      assert (PO : Permutation order (seq 0 (List.length ch))).
      { unfold order. destruct sort as [s|].
        - apply sorted_rev_perm. destruct s as [| [] | | [] |]; cbn [key_of]; (eapply Permutation_trans; [apply argsort_perm|]); rewrite ?map_length; reflexivity.
        - rewrite map_length. reflexivity. }
      assert (OL : forall i, In i order -> i < List.length ch). { intros i Ii. eapply Permutation_in in Ii; [|exact PO]. apply in_seq in Ii. lia. }
      exists (map (fun i => nth i (map pl ch) (pl O)) order). split; [|split].
      - eapply Permutation_trans; [apply Permutation_map; exact PO|]. rewrite <- (map_length pl ch), map_nth_seq. reflexivity.
      - unfold order. destruct sort as [s|]; [|rewrite map_length, <- (map_length pl ch); apply map_nth_seq].
        match goal with |- context [map _ (if reverse then rev ?x else ?x)] => set (sorted := x) end.
        assert (SE : (if reverse then rev (map (fun i => nth i (map pl ch) (pl O)) (if reverse then rev sorted else sorted)) else map (fun i => nth i (map pl ch) (pl O)) (if reverse then rev sorted else sorted)) = map (fun i => nth i (map pl ch) (pl O)) sorted).
        { destruct reverse; [|reflexivity]. rewrite <- map_rev, rev_involutive. reflexivity. }
        rewrite SE. apply sorted_map.
        assert (SL : forall i, In i sorted -> i < List.length ch). { intros i Ii. apply OL. unfold order. fold sorted. destruct reverse; [apply in_rev in Ii; auto|auto]. }
        assert (G : forall K (c : K -> K -> comparison) (dk : K) (key : pline -> K) keys, CmpLaws c -> sorted = argsort c dk keys -> keys = map key (map pl ch) -> StronglySorted (fun i j => c (key (nth i (map pl ch) (pl O))) (key (nth j (map pl ch) (pl O))) <> Gt) sorted).
        { intros K c dk key keys Laws -> ->. pose proof (argsort_sorted c dk (map key (map pl ch)) Laws) as S. clear - S SL. revert SL. induction S as [|a l S IH F]; intros B; [constructor|]. constructor; [apply IH; intros i Ii; apply B; right; auto|]. rewrite Forall_forall in *. intros b Ib. specialize (F b Ib). rewrite !(nth_map' key (pl O)) in F by (rewrite map_length; apply B; cbn; auto). exact F. }
        assert (GR : forall (key : pline -> R) keys, sorted = argsort Rc 0%R keys -> keys = map key (map pl ch) -> StronglySorted (fun i j => (key (nth i (map pl ch) (pl O)) <= key (nth j (map pl ch) (pl O)))%R) sorted).
        { intros key keys A B. pose proof (G R Rc 0%R key keys Rc_laws A B) as S. clear - S. induction S as [|a l S IH F]; constructor; auto. eapply Forall_impl; [|exact F]. intros b. apply Rc_le. }
        assert (SQ : forall w, List.length w = List.length parms -> map (fun i => nth i (map sqrt w) 0%R) ch = map (fun i => sqrt (nth i w 0%R)) ch). { intros w W. apply map_ext_in. intros i Ii. apply nth_map'. rewrite W. auto. }
        destruct s as [|[]| |[]|]; cbn [before].
        + eapply (G string string_c "" l_label); [apply string_cmp|reflexivity|]. rewrite map_map. reflexivity.
        + eapply (GR (fun a => Rabs (l_pull a))); [reflexivity|]. cbn [key_of]. rewrite !map_map. reflexivity.
        + eapply (GR l_pull); [reflexivity|]. cbn [key_of]. rewrite !map_map. reflexivity.
        + eapply (GR l_unc); [reflexivity|]. rewrite (SQ v LV), map_map. reflexivity.
        + eapply (GR (fun a => Rabs (l_pull0 a))); [reflexivity|]. cbn [key_of]. rewrite !map_map. reflexivity.
        + eapply (GR l_pull0); [reflexivity|]. cbn [key_of]. rewrite !map_map. reflexivity.
        + eapply (GR l_unc0); [reflexivity|]. rewrite (SQ v0 LV0), map_map. reflexivity.
      - f_equal. rewrite map_map. apply map_ext_in. intros i Ii. apply OL in Ii. rewrite (nth_map' pl 0) by auto. rewrite !(nth_map' _ 0) by auto. assert (X : nth i ch 0 < List.length parms) by (apply CH, nth_In; auto). rewrite !(nth_map' sqrt 0%R) by lia. reflexivity.
    Qed.
  End FromFit.
End Pulls.
