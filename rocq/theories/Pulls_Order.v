From Coq Require Import Reals List Arith Bool String Lia Lra Permutation Sorted.
From Verif Require Import RBase PyList PyDict Order Param_Names Read_Model Read_Print Pulls_Model Pulls_Spec.
Import ListNotations.
Local Open Scope nat_scope.
Local Open Scope string_scope.

(** ** merging *)
Lemma ref_of_inj a b : ref_of a = ref_of b -> a = b.
Proof.
  unfold ref_of. revert b. induction a as [|x a IH]; intros [|y b] H; auto.
  - exfalso. apply (f_equal String.length) in H. cbn in H. assert (L : forall z w, String.length (z ++ w) = String.length z + String.length w) by (induction z; cbn; intros; auto; rewrite IHz; auto). rewrite L in H. cbn in H. lia.
  - exfalso. apply (f_equal String.length) in H. cbn in H. assert (L : forall z w, String.length (z ++ w) = String.length z + String.length w) by (induction z; cbn; intros; auto; rewrite IHz; auto). rewrite L in H. cbn in H. lia.
  - cbn in H. injection H as -> H. f_equal. auto.
Qed.
Lemma dget_app {V} c (a b : dict V) : dget c (a ++ b)%list = match dget c a with Some x => Some x | None => dget c b end.
Proof. induction a as [|[k x] a IH]; cbn; auto. destruct (String.eqb c k); auto. Qed.
Lemma dget_ref c b : dget (ref_of c) (ref_cells b) = dget c b.
Proof.
  induction b as [|[k x] b IH]; auto. cbn [ref_cells map fst snd dget]. destruct (String.eqb_spec c k) as [->|N]; [rewrite String.eqb_refl; auto|].
  destruct (String.eqb_spec (ref_of c) (ref_of k)) as [E|_]; [apply ref_of_inj in E; contradiction|exact IH].
Qed.
Lemma dget_not_ref c b : (forall c', c <> ref_of c') -> dget c (ref_cells b) = None.
Proof. intros N. induction b as [|[k x] b IH]; auto. cbn [ref_cells map fst snd dget]. destruct (String.eqb_spec c (ref_of k)) as [E|_]; [exfalso; apply (N k); auto|exact IH]. Qed.
Lemma filter_label n (l : list row) : NoDup (map fst l) -> filter (fun r : row => String.eqb (fst r) n) l = match dget n l with Some d => [(n, d)] | None => [] end.
Proof.
  induction l as [|[k d] l IH]; cbn; intros N; auto. inversion N; subst. rewrite (String.eqb_sym n k). destruct (String.eqb_spec k n) as [->|]; auto. f_equal.
  rewrite IH by auto. destruct (dget n l) eqn:E; auto. exfalso. apply H1. apply dget_In in E. apply in_map_iff. eexists. split; [|exact E]. auto.
Qed.
Lemma dget_label (l : list row) n : (exists d, dget n l = Some d) <-> In n (map fst l).
Proof. split; [intros (d & E); apply dget_In in E; apply in_map_iff; exists (n, d); auto|]. intros I. destruct (dget n l) eqn:E; eauto. apply dget_None in E. contradiction. Qed.
Definition merged_row (a b : table) (n : string) : list row :=
  match dget n (t_rows a), dget n (t_rows b) with
  | None, None => [] | None, Some y => [(n, ref_cells y)] | Some x, None => [(n, x)] | Some x, Some y => [(n, (x ++ ref_cells y)%list)]
  end.
Section Merge.
  Variables a b : table.
  Hypothesis Na : NoDup (map fst (t_rows a)).
  Hypothesis Nb : NoDup (map fst (t_rows b)).
  Hypothesis Pa : plain_names a.
  Lemma merge_rows : t_rows (merge a b) = flat_map (merged_row a b) (all_labels a b).
  Proof.
    unfold merge. cbn [t_rows]. apply flat_map_ext. intros n. rewrite (filter_label n _ Na), (filter_label n _ Nb). unfold merged_row. destruct (dget n (t_rows a)), (dget n (t_rows b)); reflexivity.
  Qed.
  Lemma all_labels_In n : In n (all_labels a b) <-> In n (map fst (t_rows a)) \/ In n (map fst (t_rows b)).
  Proof.
    unfold all_labels. rewrite sort_in. assert (G : forall l, In n (fold_right set_add [] l) <-> In n l) by (induction l as [|k l IH]; cbn; [tauto|rewrite set_add_In, IH; intuition auto]). rewrite G. apply in_app_iff.
  Qed.
  Lemma all_labels_sorted : StronglySorted (fun x y => string_c x y = Lt) (all_labels a b).
  Proof.
    assert (ND : NoDup (all_labels a b)). { apply sort_NoDup. generalize (map fst (t_rows a) ++ map fst (t_rows b))%list. induction l as [|k l IH]; cbn; [constructor|apply set_add_NoDup; auto]. }
    pose proof (sort_sorted (fun x : string => x) string_c string_cmp (fold_right set_add [] (map fst (t_rows a) ++ map fst (t_rows b))%list)) as S. unfold sortedk in S. change (sort_k _ _ _) with (all_labels a b) in S.
    induction S as [|k l S IH F]; constructor; inversion ND; subst; auto. rewrite Forall_forall in *. intros z Z. specialize (F z Z). unfold le_k in F. destruct (string_c k z) eqn:C; auto; [apply (c_eq _ string_cmp) in C; subst; contradiction|discriminate].
  Qed.
  Lemma merged_one n : In n (all_labels a b) -> exists d, merged_row a b n = [(n, d)].
  Proof.
    rewrite all_labels_In, <- !dget_label. unfold merged_row. intros [(d & ->)|(d & ->)]; [destruct (dget n (t_rows b))|destruct (dget n (t_rows a))]; eauto.
  Qed.
  Lemma merge_labels : map fst (t_rows (merge a b)) = all_labels a b.
  Proof.
    rewrite merge_rows. pose proof merged_one as M. revert M. generalize (all_labels a b). induction l as [|n l IH]; intros M; cbn; auto. destruct (M n) as (d & ->); [left; auto|]. cbn. f_equal. apply IH. intros. apply M. right; auto.
  Qed.
  Lemma merge_cells row c : In row (t_rows (merge a b)) -> dget (ref_of c) (snd row) = cell_at b (fst row) c /\ ((forall c', c <> ref_of c') -> dget c (snd row) = cell_at a (fst row) c).
  Proof.
    rewrite merge_rows. intros I. apply in_flat_map in I as (n & _ & I). unfold merged_row in I. unfold cell_at. 
    destruct (dget n (t_rows a)) as [x|] eqn:A, (dget n (t_rows b)) as [y|] eqn:B; destruct I as [<-|[]] || destruct I; cbn [fst snd]; rewrite ?A, ?B.
    - split; [|intros N; rewrite dget_app, (dget_not_ref c y N); destruct (dget c x); auto]. rewrite dget_app, dget_ref.
      replace (dget (ref_of c) x) with (@None R); auto. symmetry. apply dget_None. apply dget_In in A. apply (Pa (n, x) c A).
    - split; auto. apply dget_None. apply dget_In in A. apply (Pa (n, x) c A).
    - split; [apply dget_ref|intros N; apply dget_not_ref; auto].
  Qed.
End Merge.

(** ** sorting *)
Lemma flip_laws {A} (c : A -> A -> comparison) : CmpLaws c -> CmpLaws (fun x y => flip (c x y)).
Proof.
  intros [E An Tr]. split.
  - intros x y. specialize (E x y). destruct (c x y); cbn; split; intros H; try discriminate; try tauto; destruct E as [_ E]; specialize (E H); discriminate.
  - intros x y. rewrite (An x y). destruct (c x y); auto.
  - intros x y z H1 H2. assert (A1 : c y x = Lt) by (rewrite (An x y); destruct (c x y); auto; discriminate). assert (A2 : c z y = Lt) by (rewrite (An y z); destruct (c y z); auto; discriminate).
    pose proof (Tr _ _ _ A2 A1) as A3. rewrite (An z x), A3. auto.
Qed.
Lemma lex_cells cs x y : by_cells cs x y = lexc Rc (map (fun c => cell c x) cs) (map (fun c => cell c y) cs).
Proof. unfold by_cells. induction cs as [|c cs IH]; cbn; auto. rewrite IH. auto. Qed.
Definition dir (ascending : bool) : R -> R -> Prop := if ascending then Rle else Rge.
Lemma sort_rows_sorted ascending k cs l : let r := sort_rows ascending (by_cells (k :: cs)) l in Permutation r l /\ ordered_by (dir ascending) k r.
Proof.
  intros r. split; [apply sort_perm|]. unfold r, sort_rows, ordered_by.
  set (key := fun x : row => map (fun c => cell c x) (k :: cs)). set (cmp := if ascending then lexc Rc else fun p q => flip (lexc Rc p q)).
  assert (L : CmpLaws cmp) by (unfold cmp; destruct ascending; [|apply flip_laws]; apply lex_cmp, Rc_laws).
  assert (E : sort_k (fun x : row => x) (in_order ascending (by_cells (k :: cs))) l = sort_k key cmp l).
  { induction l as [|x l IH]; [reflexivity|]. change (sort_k (fun x : row => x) (in_order ascending (by_cells (k :: cs))) (x :: l)) with (insert_k (fun x : row => x) (in_order ascending (by_cells (k :: cs))) x (sort_k (fun x : row => x) (in_order ascending (by_cells (k :: cs))) l)). rewrite IH. change (sort_k key cmp (x :: l)) with (insert_k key cmp x (sort_k key cmp l)).
    generalize (sort_k key cmp l). induction l0 as [|y l0 IH0]; cbn [insert_k]; auto. rewrite IH0.
    assert (LE : le_k (fun x : row => x) (in_order ascending (by_cells (k :: cs))) x y = le_k key cmp x y). { unfold le_k, in_order, cmp. rewrite lex_cells. destruct ascending; reflexivity. } rewrite LE. auto. }
  rewrite E. clear E. pose proof (sort_sorted key cmp L l) as S. unfold sortedk in S. induction S as [|x s S IH F]; constructor; auto. eapply Forall_impl; [|exact F]. cbn beta. intros y Y. unfold le_k, cmp, key in Y. unfold dir.
  assert (LX : lexc Rc (map (fun c => cell c x) (k :: cs)) (map (fun c => cell c y) (k :: cs)) = match Rc (cell k x) (cell k y) with Eq => lexc Rc (map (fun c => cell c x) cs) (map (fun c => cell c y) cs) | o => o end) by reflexivity.
  unfold Rc in LX at 2. destruct ascending; rewrite LX in Y; destruct (total_order_T (cell k x) (cell k y)) as [[?|?]|?]; try discriminate; lra.
Qed.
Lemma plain_sorted ascending key t : key <> "label" -> In key (t_cols t) -> Permutation (t_rows (sort_plain ascending key t)) (t_rows t) /\ ordered_by (dir ascending) key (t_rows (sort_plain ascending key t)) /\ t_cols (sort_plain ascending key t) = t_cols t.
Proof.
  intros N I. unfold sort_plain. destruct (String.eqb_spec key "label") as [|_]; [contradiction|]. apply smem_In in I. rewrite I. cbn [t_rows t_cols]. destruct (sort_rows_sorted ascending key (if smem (ref_of key) (t_cols t) then [ref_of key] else []) (t_rows t)) as (A & B). auto.
Qed.
Lemma ordered_app le k (a b : list row) : ordered_by le k (a ++ b) -> ordered_by le k b /\ forall h s, In h a -> In s b -> le (cell k h) (cell k s).
Proof.
  unfold ordered_by. induction a as [|x a IH]; cbn; intros S; [split; auto; intros ? ? []|]. inversion S as [|? ? S' F]; subst. destruct (IH S') as (A & B). split; auto. intros h s [<-|H] Is; auto. rewrite Forall_forall in F. apply F. apply in_or_app. auto.
Qed.
Lemma last_cut le k num t : ordered_by le k (t_rows t) -> cut_at le k num (t_rows t) (t_rows (last_rows num t)).
Proof.
  intros O. unfold last_rows, cut_at. destruct (Nat.eqb_spec num 0) as [->|N0]; cbn [negb andb].
  - exists []. cbn [app]. split; auto. split; [contradiction|]. split; auto. split; auto. intros ? ? [].
  - destruct (Nat.ltb_spec num (List.length (t_rows t))).
    + cbn [t_rows]. set (m := List.length (t_rows t) - num). exists (firstn m (t_rows t)). rewrite firstn_skipn. split; auto. split; [intros _; rewrite skipn_length; unfold m; lia|]. split; [contradiction|].
      rewrite <- (firstn_skipn m (t_rows t)) in O. apply ordered_app in O. exact O.
    + exists []. cbn [app]. split; auto. split; [intros _; lia|]. split; auto. split; auto. intros ? ? [].
Qed.
Lemma cut_perm le k num rows rows' shown : Permutation rows rows' -> cut_at le k num rows shown -> cut_at le k num rows' shown.
Proof.
  intros P (h & A & B & C & D & E). exists h. split; [eapply perm_trans; [apply Permutation_sym; exact P|exact A]|]. rewrite <- (Permutation_length P). auto.
Qed.
Lemma shown_rows ascending key num t : key <> "label" -> In key (t_cols t) -> cut_at (dir ascending) key num (t_rows t) (t_rows (last_rows num (sort_plain ascending key t))).
Proof. intros N I. destruct (plain_sorted ascending key t N I) as (P & O & _). eapply cut_perm; [exact P|]. apply last_cut. auto. Qed.
(** difference and larger one of the two *)
Lemma sort_new_spec ascending key suffix f t : In key (t_cols t) -> In (ref_of key) (t_cols t) -> key ++ suffix <> "label" -> key ++ suffix <> key -> key ++ suffix <> ref_of key ->
  exists t', sort_new ascending key suffix f t = Ok t' /\ ordered_by (dir ascending) (key ++ suffix) (t_rows t') /\
    Permutation (map fst (t_rows t')) (map fst (t_rows t)) /\
    (forall r, In r (t_rows t') -> cell (key ++ suffix) r = f (cell key r) (cell (ref_of key) r) /\ exists r0, In r0 (t_rows t) /\ fst r0 = fst r /\ forall c, c <> key ++ suffix -> cell c r = cell c r0).
Proof.
  intros I J NL NK NR. unfold sort_new. apply smem_In in I, J. rewrite I, J. cbn [andb]. unfold set_col. rewrite map_length, Nat.eqb_refl. cbn [rbind].
  set (k := key ++ suffix) in *.
  assert (E : map (fun rx : row * R => (fst (fst rx), dset k (snd rx) (snd (fst rx)))) (combine (t_rows t) (map (fun r => f (cell key r) (cell (ref_of key) r)) (t_rows t))) = map (fun r : row => (fst r, dset k (f (cell key r) (cell (ref_of key) r)) (snd r))) (t_rows t)).
  { induction (t_rows t) as [|r l IH]; cbn; auto. rewrite IH. auto. }
  rewrite E. set (t1 := mkT _ _). eexists. split; [reflexivity|]. destruct (plain_sorted ascending k t1 NL) as (P & O & _); [unfold t1; cbn [t_cols]; apply set_add_In; auto|]. split; auto. split.
  - rewrite (Permutation_map fst P). unfold t1. cbn [t_rows]. rewrite map_map. cbn [fst]. auto.
  - intros r Ir. eapply Permutation_in in Ir; [|exact P]. unfold t1 in Ir. cbn [t_rows] in Ir. apply in_map_iff in Ir as (r0 & <- & I0).
    assert (G : forall c, c <> k -> cell c (fst r0, dset k (f (cell key r0) (cell (ref_of key) r0)) (snd r0)) = cell c r0) by (intros c C; unfold cell; cbn [snd]; rewrite dget_dset_other by auto; auto).
    rewrite (G key) by auto. rewrite (G (ref_of key)) by auto. split; [unfold cell at 1; cbn [snd]; rewrite dget_dset_same; auto|]. exists r0. auto.
Qed.

(** ** traces *)
Lemma cells_ok c t : In c (t_cols t) -> cells c t = Ok (map (cell c) (t_rows t)).
Proof. intros I. unfold cells. apply smem_In in I. rewrite I. auto. Qed.
Lemma labelled_map {A} t (f : row -> A) : labelled t (map f (t_rows t)) = map (fun r => (fst r, f r)) (t_rows t).
Proof. unfold labelled. induction (t_rows t) as [|r l IH]; cbn; auto. rewrite IH. auto. Qed.
Lemma bar_ok s name c t : In c (t_cols t) -> bar s name c t = Ok (Bar name (map (fun r => (fst r, if s && Rltb (cell c r) 0 then None else Some (cell c r))) (t_rows t))).
Proof. intros I. unfold bar. rewrite cells_ok by auto. cbn [rbind]. rewrite map_map, labelled_map. auto. Qed.

Lemma include_false t : t_cols t = ["impact_down"; "impact_up"; "absimpact"] \/ t_cols t = ["impact_down"; "impact_up"; "absimpact"; "pull_prefit"; "pull"; "abspull"; "constraint"; "newpull"] \/ t_cols t = ["pull_prefit"; "pull"; "abspull"; "constraint"; "newpull"] -> include_ref t = false.
Proof. unfold include_ref. intros [ -> | [ -> | -> ] ]; reflexivity. Qed.
Section Traces.
  Variables (k : look) (t : table).
  Hypothesis imp : l_impacts k = true.
  Hypothesis cu : In "impact_up" (t_cols t).
  Hypothesis cd : In "impact_down" (t_cols t).
  Hypothesis ca : In "absimpact" (t_cols t).
  Hypothesis refs : include_ref t = true -> In "impact_up_ref" (t_cols t) /\ In "impact_down_ref" (t_cols t).
  Hypothesis some : exists r, In r (t_rows t) /\ cell "absimpact" r <> 0%R.
  Lemma nonzero : existsb (fun x => negb (Reqb x 0)) (map (cell "absimpact") (t_rows t)) = true.
  Proof. destruct some as (r & I & N). apply existsb_exists. exists (cell "absimpact" r). split; [apply in_map; auto|]. rewrite Reqb_false by auto. auto. Qed.
  Definition shown_cells (s : bool) (c : string) : list (string * option R) := map (fun r => (fst r, if s && Rltb (cell c r) 0 then None else Some (cell c r))) (t_rows t).
  Lemma traces_two_sided : l_one_sided k = false -> exists f, impact_traces k t = Ok f /\ bars "+" f = map (fun r => (fst r, Some (cell "impact_up" r))) (t_rows t) /\ bars "-" f = map (fun r => (fst r, Some (cell "impact_down" r))) (t_rows t) /\
    bars "+/-" f = [] /\ (include_ref t = true -> bars "+ ref" f = map (fun r => (fst r, Some (cell "impact_up_ref" r))) (t_rows t) /\ bars "- ref" f = map (fun r => (fst r, Some (cell "impact_down_ref" r))) (t_rows t)).
  Proof.
    intros S. unfold impact_traces. rewrite imp, S, !cells_ok by auto. cbn [rbind]. rewrite nonzero. cbn [andb]. rewrite (bar_ok _ _ "impact_up" t), (bar_ok _ _ "impact_down" t) by auto. cbn [rbind negb opt_trace andb]. destruct (include_ref t).
    - destruct (refs eq_refl) as (A & B). rewrite !bar_ok by auto. cbn [opt_trace rbind]. eexists. split; [reflexivity|]. cbn. rewrite !app_nil_r. auto.
    - cbn [opt_trace rbind]. eexists. split; [reflexivity|]. cbn. rewrite ?app_nil_r. repeat split; auto; discriminate.
  Qed.
  Hypothesis opposite : forall r, In r (t_rows t) -> cell "impact_down" r = (- cell "impact_up" r)%R.
  Lemma traces_one_sided : l_one_sided k = true -> exists f, impact_traces k t = Ok f /\
    forall i r, nth_error (t_rows t) i = Some r -> let x := cell "impact_up" r in let plus := (bars "+" f ++ bars "+/-" f)%list in
      ((0 <= x)%R -> nth_error plus i = Some (fst r, Some x)) /\ ((x < 0)%R -> nth_error plus i = Some (fst r, None) /\ nth_error (bars "-" f) i = Some (fst r, Some (- x)%R)) /\
      ((0 < x)%R -> bars "-" f = [] \/ nth_error (bars "-" f) i = Some (fst r, None)).
  Proof.
    intros S. unfold impact_traces. rewrite imp, S, !cells_ok by auto. cbn [rbind]. rewrite nonzero. cbn [andb].
    destruct (existsb (fun x => Rltb 0 x) (map (cell "impact_down") (t_rows t))) eqn:E; cbn [negb].
    - rewrite (bar_ok _ _ "impact_up" t), (bar_ok _ _ "impact_down" t) by auto. cbn [rbind opt_trace andb negb]. destruct (opt_trace (include_ref t) (bar true ("+" ++ " ref") _ t)) as [xr|] eqn:X1.
      2:{ exfalso. destruct (include_ref t); [|discriminate]. destruct (refs eq_refl) as (A & B). rewrite bar_ok in X1 by auto. discriminate. }
      cbn [rbind]. destruct (opt_trace (include_ref t) (bar true "- ref" _ t)) as [xr'|] eqn:X2.
      2:{ exfalso. destruct (include_ref t); [|discriminate]. destruct (refs eq_refl) as (A & B). rewrite bar_ok in X2 by auto. discriminate. }
      cbn [rbind]. eexists. split; [reflexivity|].
      assert (R1 : forall nm, In nm ["+"; "-"; "+/-"] -> bars nm xr = [] /\ bars nm xr' = []).
      { intros nm0 I. destruct (include_ref t); [|injection X1 as <-; injection X2 as <-; auto]. destruct (refs eq_refl) as (A & B). rewrite bar_ok in X1, X2 by auto. injection X1 as <-. injection X2 as <-. destruct I as [<-|[<-|[<-|[]]]]; cbn; auto. }
      match goal with |- context[bars "-" ?f] => set (F := f) end.
      assert (BP : (bars "+" F ++ bars "+/-" F)%list = shown_cells true "impact_up"). { unfold F, bars. cbn [app flat_map String.eqb Ascii.eqb Bool.eqb]. rewrite !flat_map_app. cbn [flat_map String.eqb Ascii.eqb Bool.eqb]. destruct (R1 "+"), (R1 "+/-"); cbn; auto. unfold bars in *. rewrite H, H0, H1, H2. cbn. rewrite !app_nil_r. auto. }
      assert (BM : bars "-" F = shown_cells true "impact_down").
      { unfold F, bars. cbn [app flat_map String.eqb Ascii.eqb Bool.eqb]. rewrite !flat_map_app. cbn [flat_map String.eqb Ascii.eqb Bool.eqb]. destruct (R1 "-"); cbn; auto. unfold bars in *. rewrite H, H0. cbn. rewrite !app_nil_r. auto. }
      intros i r N. cbv zeta. rewrite BP, BM. set (x := cell "impact_up" r). unfold shown_cells. rewrite !(map_nth_error _ _ _ N). pose proof (nth_error_In _ _ N) as I. rewrite (opposite r I). unfold x. cbn [andb]. split; [|split]; intros H.
      + rewrite Rltb_false by lra. auto.
      + rewrite Rltb_true by lra. rewrite Rltb_false by lra. auto.
      + right. rewrite Rltb_true by lra. auto.
    - rewrite (bar_ok _ _ "impact_up" t) by auto. cbn [rbind opt_trace andb negb]. destruct (opt_trace (include_ref t) _) as [xr|] eqn:X1.
      2:{ exfalso. destruct (include_ref t); [|discriminate]. destruct (refs eq_refl) as (A & B). rewrite bar_ok in X1 by auto. discriminate. }
      cbn [rbind]. eexists. split; [reflexivity|].
      assert (R1 : forall nm, In nm ["+"; "-"; "+/-"] -> bars nm xr = []).
      { intros nm0 I. destruct (include_ref t); [|injection X1 as <-; auto]. destruct (refs eq_refl) as (A & B). rewrite bar_ok in X1 by auto. injection X1 as <-. destruct I as [<-|[<-|[<-|[]]]]; cbn; auto. }
      match goal with |- context[bars "-" ?f] => set (F := f) end.
      assert (BP : (bars "+" F ++ bars "+/-" F)%list = shown_cells true "impact_up"). { unfold F, bars. cbn [app flat_map String.eqb Ascii.eqb Bool.eqb]. rewrite !flat_map_app. cbn [flat_map String.eqb Ascii.eqb Bool.eqb]. pose proof (R1 "+") as H. pose proof (R1 "+/-") as H0. unfold bars in *. rewrite H, H0 by (cbn; auto). cbn. rewrite !app_nil_r. auto. }
      assert (BM : bars "-" F = []).
      { unfold F, bars. cbn [app flat_map String.eqb Ascii.eqb Bool.eqb]. rewrite !flat_map_app. cbn [flat_map String.eqb Ascii.eqb Bool.eqb]. pose proof (R1 "-") as H. unfold bars in *. rewrite H by (cbn; auto). auto. }
      intros i r N. cbv zeta. rewrite BP, BM. set (x := cell "impact_up" r). unfold shown_cells. rewrite !(map_nth_error _ _ _ N). pose proof (nth_error_In _ _ N) as I.
      assert (NN : (0 <= x)%R). { unfold x. destruct (Rle_dec 0 (cell "impact_up" r)); auto. exfalso. assert (T : existsb (fun x => Rltb 0 x) (map (cell "impact_down") (t_rows t)) = true); [|congruence]. apply existsb_exists. exists (cell "impact_down" r). split; [apply in_map; auto|]. rewrite (opposite r I). apply Rltb_true. lra. }
      unfold x in *. cbn [andb]. split; [|split]; intros H; [rewrite Rltb_false by lra; auto|lra|auto].
  Qed.
End Traces.
Lemma traces_none k t : In "absimpact" (t_cols t) -> (forall r, In r (t_rows t) -> cell "absimpact" r = 0%R) -> impact_traces k t = Ok [].
Proof.
  intros C Z. unfold impact_traces. destruct (l_impacts k); auto. rewrite cells_ok by auto. cbn [rbind].
  assert (E : existsb (fun x => negb (Reqb x 0)) (map (cell "absimpact") (t_rows t)) = false). { apply not_true_is_false. intros E. apply existsb_exists in E as (x & I & N). apply in_map_iff in I as (r & <- & I). rewrite (Z r I), Reqb_true in N by auto. discriminate. }
  rewrite E. auto.
Qed.
Lemma zip3_map {A} (f g h : A -> R) l : zip3 (map f l) (map g l) (map h l) = map (fun r => (f r, g r, h r)) l.
Proof. unfold zip3. induction l as [|r l IH]; cbn; auto. rewrite IH. auto. Qed.
Lemma sub_map {A} (f g : A -> R) l : sub (map f l) (map g l) = map (fun r => (f r - g r)%R) l.
Proof. unfold sub. induction l as [|r l IH]; cbn; auto. rewrite IH. auto. Qed.
Lemma traces_pull k t : l_pulls k = true -> l_asym k = false -> l_asym_pulls k = false -> In "pull" (t_cols t) -> In "constraint" (t_cols t) -> (include_ref t = true -> In "pull_ref" (t_cols t) /\ In "constraint_ref" (t_cols t)) ->
  pull_traces k t = Ok (Pull (map (fun r => (fst r, (cell "pull" r, cell "constraint" r, cell "constraint" r))) (t_rows t)) ::
     if include_ref t then [RefBox (map (fun r => (fst r, (cell "pull_ref" r - cell "constraint_ref" r, 2 * cell "constraint_ref" r)%R)) (t_rows t))] else []).
Proof.
  intros P A Q C1 C2 R. unfold pull_traces. rewrite P, A, Q, !cells_ok by auto. cbn [rbind fst snd]. rewrite zip3_map, labelled_map. destruct (include_ref t).
  - destruct (R eq_refl) as (A1 & A2). rewrite !cells_ok by auto. cbn [rbind fst snd app]. rewrite sub_map, map_map.
    assert (E : combine (map (fun r => (cell "pull_ref" r - cell "constraint_ref" r)%R) (t_rows t)) (map (fun r => (2 * cell "constraint_ref" r)%R) (t_rows t)) = map (fun r => ((cell "pull_ref" r - cell "constraint_ref" r)%R, (2 * cell "constraint_ref" r)%R)) (t_rows t)) by (induction (t_rows t) as [|r l IH]; cbn; [auto|rewrite IH; auto]).
    rewrite E, labelled_map. reflexivity.
  - cbn [rbind app]. reflexivity.
Qed.
(** ** files *)
Lemma join_last (ps : list string) x : ps <> [] -> Param_Model.join_names (ps ++ [x])%list = (Param_Model.join_names ps ++ "_" ++ x)%string.
Proof.
  unfold Param_Model.join_names. intros N. induction ps as [|a ps IH]; [contradiction|]. destruct ps as [|b ps]; [reflexivity|].
  change (String.concat "_" ((a :: b :: ps) ++ [x])%list) with (a ++ "_" ++ String.concat "_" ((b :: ps) ++ [x])%list)%string. rewrite IH by discriminate.
  change (String.concat "_" (a :: b :: ps)) with (a ++ "_" ++ String.concat "_" (b :: ps))%string. apply chars_inj. rewrite !chars_app. cbn [chars list_ascii_of_string app]. rewrite ?chars_app, <- ?app_assoc. cbn [app]. rewrite ?chars_app, <- ?app_assoc. auto.
Qed.
Lemma files_differ impacts fittype pulls axes g idx g' idx' : List.length idx = List.length axes -> List.length idx' = List.length axes ->
  bin_file impacts fittype g pulls axes idx = bin_file impacts fittype g' pulls axes idx' -> g = g' /\ idx = idx'.
Proof.
  intros L L' H. unfold bin_file in H.
  set (pre := fun g : bool => ((if negb g && pulls then ["pulls_and"] else []) ++ [impacts; fittype] ++ (if g then ["grouped"] else []))%list).
  assert (E : forall g i, ((if negb g && pulls then ["pulls_and"] else []) ++ [impacts; fittype] ++ (if g then ["grouped"] else []) ++ [Param_Model.bin_label axes i])%list = (pre g ++ [Param_Model.bin_label axes i])%list) by (intros; unfold pre; rewrite <- !app_assoc; auto).
  assert (NE : forall g, pre g <> []) by (intros []; unfold pre; cbn; [discriminate|destruct pulls; discriminate]).
  rewrite !E, !join_last in H by auto. apply (f_equal chars) in H. rewrite !chars_app in H. apply app_inv_tail in H. cbn [chars list_ascii_of_string app] in H. 
  assert (K : chars (Param_Model.join_names (pre g)) = chars (Param_Model.join_names (pre g')) /\ idx = idx').
  { destruct axes as [|a axes]; [apply length_zero_iff_nil in L, L'; subst; split; auto; apply app_inv_tail in H; auto|]. destruct idx as [|x idx]; [discriminate|]. destruct idx' as [|x' idx']; [discriminate|].
    change (list_ascii_of_string (Param_Model.bin_label (a :: axes) (x :: idx))) with (chars (Param_Model.bin_label (a :: axes) (x :: idx))) in H. change (list_ascii_of_string (Param_Model.bin_label (a :: axes) (x' :: idx'))) with (chars (Param_Model.bin_label (a :: axes) (x' :: idx'))) in H.
    rewrite !lab_eq in H by discriminate. apply lab_inj in H; auto. }
  destruct K as (K & ->). split; auto. apply (f_equal (@List.length _)) in K. unfold pre, Param_Model.join_names in K. destruct g, g', pulls; auto; exfalso; cbn [negb andb app String.concat] in K; rewrite ?chars_app in K; rewrite ?app_length in K; cbn [chars list_ascii_of_string List.length] in K; rewrite ?chars_app, ?app_length in K; cbn [chars list_ascii_of_string List.length] in K; rewrite ?chars_app, ?app_length in K; cbn [chars list_ascii_of_string List.length] in K; unfold chars in K; lia.
Qed.
