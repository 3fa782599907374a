(** External likelihood terms act on the named parameters (C57). *)
From Coq Require Import List Arith Bool String Reals Lra Lia Permutation Sorted.
From Verif Require Import PyList ListUtil RBase Order PyDict Writer_Model Yields_Model Yields_Proof Ext_Model Ext_Spec Ext_Proof.
Import ListNotations.
Local Open Scope string_scope.
Local Open Scope list_scope.
Local Open Scope R_scope.

Theorem C57_value : forall cs ts parms bs x X,
  ext_calls [] cs = Ok ts -> build_ext parms (read_terms ts) = Ok bs -> reads parms x X ->
  ext_nll bs x = sumR (map (fun c => meaning false (ca_grad c) (ca_hess c) X) cs).
Proof. exact ext_total. Qed.
Print Assumptions C57_value.

(** every order of the fit parameters gives the same contribution *)
Theorem C57_parameter_order : forall cs ts parms1 parms2 bs1 bs2 x1 x2 X,
  ext_calls [] cs = Ok ts -> build_ext parms1 (read_terms ts) = Ok bs1 -> build_ext parms2 (read_terms ts) = Ok bs2 ->
  reads parms1 x1 X -> reads parms2 x2 X -> ext_nll bs1 x1 = ext_nll bs2 x2.
Proof. intros. rewrite (ext_total cs ts parms1 bs1 x1 X), (ext_total cs ts parms2 bs2 x2 X); auto. Qed.
Print Assumptions C57_parameter_order.

(** labels a call refers to *)
Definition call_params (c : ext_call) : list string :=
  match ca_hess c, ca_grad c with
  | Some h, _ => fst (hess_labels h)
  | None, Some (l, _) => l
  | None, None => []
  end.
Lemma add_ext_shape ts g h nm ts' : add_ext ts g h nm = Ok ts' ->
  exists t, ts' = ts ++ [t] /\ et_params t = call_params (mkCall g h nm) /\
    ((forall k, h = Some k -> in_range k) -> fits_term t).
Proof.
  unfold add_ext, call_params. cbn [ca_hess ca_grad]. intros E.
  destruct g as [[l v]|], h as [h|]; try discriminate; destruct (existsb _ ts); try discriminate; cbn [rbind fst snd] in E.
  - destruct (Nat.eqb (List.length v) (List.length l)); [|discriminate]. cbn [rbind fst snd] in E.
    destruct (hess_labels h) as [l0 l1] eqn:HL. destruct (strs_eqb l0 l1); [|discriminate]. cbn [negb] in E.
    destruct (strs_eqb l l0) eqn:S; [|discriminate]. cbn [negb] in E.
    destruct (hess_store (List.length l0) h) as [s|] eqn:HS; [|discriminate]. cbn [rbind fst snd] in E. injection E as <-.
    eexists. split; [reflexivity|]. split; [reflexivity|]. intros R. specialize (R h eq_refl). unfold fits_term. cbn [et_hess et_params].
    destruct h as [a b w|a b flat]; simpl in HL, HS, R; injection HL as -> ->.
    + destruct (_ && _)%bool; [|discriminate]. injection HS as <-. auto.
    + injection HS as <-. cbn [hess_fits]. apply forallb_forall. intros e He. apply in_map_iff in He. destruct He as (f & <- & Hf).
      specialize (R f Hf). cbn [fst snd]. assert (List.length l0 <> 0)%nat by nia. apply andb_true_iff. split; apply Nat.ltb_lt.
      * apply Nat.div_lt_upper_bound; auto.
      * apply Nat.mod_upper_bound; auto.
  - destruct (Nat.eqb (List.length v) (List.length l)); [|discriminate]. cbn [rbind fst snd] in E. injection E as <-.
    eexists. split; [reflexivity|]. split; [reflexivity|]. intros _. exact I.
  - destruct (hess_labels h) as [l0 l1] eqn:HL. destruct (strs_eqb l0 l1); [|discriminate]. cbn [negb] in E.
    destruct (hess_store (List.length l0) h) as [s|] eqn:HS; [|discriminate]. cbn [rbind fst snd] in E. injection E as <-.
    eexists. split; [reflexivity|]. split; [reflexivity|]. intros R. specialize (R h eq_refl). unfold fits_term. cbn [et_hess et_params].
    destruct h as [a b w|a b flat]; simpl in HL, HS, R; injection HL as -> ->.
    + destruct (_ && _)%bool; [|discriminate]. injection HS as <-. auto.
    + injection HS as <-. cbn [hess_fits]. apply forallb_forall. intros e He. apply in_map_iff in He. destruct He as (f & <- & Hf).
      specialize (R f Hf). cbn [fst snd]. assert (List.length l0 <> 0)%nat by nia. apply andb_true_iff. split; apply Nat.ltb_lt.
      * apply Nat.div_lt_upper_bound; auto.
      * apply Nat.mod_upper_bound; auto.
Qed.
Lemma ext_calls_shape cs : forall ts ts', ext_calls ts cs = Ok ts' ->
  exists new, ts' = ts ++ new /\ Forall2 (fun c t => et_params t = call_params c /\
    ((forall k, ca_hess c = Some k -> in_range k) -> fits_term t)) cs new.
Proof.
  induction cs as [|c r IH]; intros ts ts' E; simpl in E.
  - injection E as <-. exists []. rewrite app_nil_r. auto.
  - destruct (add_ext _ _ _ _) as [t1|] eqn:A; simpl in E; [|discriminate].
    destruct (add_ext_shape _ _ _ _ _ A) as (t & -> & P & F). destruct (IH _ _ E) as (new & -> & N).
    exists (t :: new). rewrite <- app_assoc. split; auto.
Qed.
Lemma fits_write t : fits_term t -> fits_term (write_term t).
Proof.
  unfold fits_term. cbn [write_term et_hess et_params]. destruct (et_hess t) as [[v|e]|]; cbn [write_hess]; auto.
  cbn [hess_fits]. destruct (canonical e); auto. rewrite !forallb_forall. intros H c Hc. apply H. eapply sort_in; eauto.
Qed.
Theorem C57_accepted : forall cs ts parms, ext_calls [] cs = Ok ts -> NoDup parms ->
  (forall c p, In c cs -> In p (call_params c) -> In p parms) ->
  (forall c h, In c cs -> ca_hess c = Some h -> in_range h) ->
  exists bs, build_ext parms (read_terms ts) = Ok bs.
Proof.
  intros cs ts parms C N P R. destruct (ext_calls_shape cs [] ts C) as (new & E & F). simpl in E. subst new.
  unfold build_ext. apply nodupb_true in N. rewrite N. apply build_terms_ok. apply Forall_forall. intros t Ht.
  unfold read_terms in Ht. apply sort_in, in_map_iff in Ht. destruct Ht as (u & <- & Hu).
  assert (G : exists c, In c cs /\ et_params u = call_params c /\ ((forall k, ca_hess c = Some k -> in_range k) -> fits_term u)).
  { clear - F Hu. induction F as [|c t cs ts H F IH]; [destruct Hu|]. destruct Hu as [<-|Hu].
    - exists c. simpl. tauto.
    - destruct (IH Hu) as (c' & A & B). exists c'. simpl. tauto. }
  destruct G as (c & Hc & E & FT). split.
  - cbn [write_term et_params]. rewrite E. intros p Hp. eapply P; eauto.
  - apply fits_write, FT. intros k Hk. eapply R; eauto.
Qed.
Print Assumptions C57_accepted.
Theorem C57_missing_name : forall cs ts parms bs c p, ext_calls [] cs = Ok ts ->
  In c cs -> In p (call_params c) -> ~ In p parms -> build_ext parms (read_terms ts) <> Ok bs.
Proof.
  intros cs ts parms bs c p C Hc Hp NP B. destruct (ext_calls_shape cs [] ts C) as (new & E & F). simpl in E. subst new.
  unfold build_ext in B. destruct (nodupb parms); [|discriminate].
  assert (X : exists bs, build_terms parms (read_terms ts) = Ok bs) by eauto. apply build_terms_ok in X.
  assert (G : exists u, In u ts /\ et_params u = call_params c).
  { clear - F Hc. induction F as [|c' t cs ts H F IH]; [destruct Hc|]. destruct Hc as [<-|Hc].
    - exists t. simpl. tauto.
    - destruct (IH Hc) as (u & A & B). exists u. simpl. tauto. }
  destruct G as (u & Hu & E). rewrite Forall_forall in X. destruct (X (write_term u)) as [X1 _].
  - unfold read_terms. apply sort_in. apply in_map; auto.
  - apply NP, X1. cbn [write_term et_params]. rewrite E. auto.
Qed.
Print Assumptions C57_missing_name.
Theorem C57_duplicate_parameter : forall parms ts, ~ NoDup parms -> build_ext parms ts = Raise RuntimeError.
Proof.
  intros parms ts H. unfold build_ext. destruct (nodupb parms) eqn:E; auto. apply nodupb_true in E. tauto.
Qed.
Print Assumptions C57_duplicate_parameter.
(** a term name is used once *)
Theorem C57_duplicate_term : forall ts g h nm, In nm (map et_name ts) -> forall ts', add_ext ts g h (Some nm) <> Ok ts'.
Proof.
  intros ts g h nm H ts' E. unfold add_ext in E.
  assert (X : existsb (fun t => String.eqb (et_name t) nm) ts = true).
  { apply existsb_exists. apply in_map_iff in H. destruct H as (t & <- & Ht). exists t. split; auto. apply String.eqb_refl. }
  destruct g as [[]|], h; try discriminate; rewrite X in E; discriminate.
Qed.
Print Assumptions C57_duplicate_term.

(** the sparse builder needs row-major order: that is what is stored *)
Definition row_major (a b : nat * nat * R) : Prop :=
  (fst (fst a) < fst (fst b) \/ fst (fst a) = fst (fst b) /\ snd (fst a) <= snd (fst b))%nat.
Definition stored_cells (t : ext_term) : list (nat * nat * R) :=
  match et_hess t with Some (SSparse e) => e | _ => [] end.
Definition div_cells (t : ext_term) : Prop :=
  forall c, In c (stored_cells t) -> (snd (fst c) < List.length (et_params t) \/ List.length (et_params t) = 0 /\ fst (fst c) = 0)%nat.
Lemma add_ext_div ts g h nm ts' : add_ext ts g h nm = Ok ts' -> Forall div_cells ts -> Forall div_cells ts'.
Proof.
  unfold add_ext. intros E F.
  assert (H1 : forall l0 h' s, hess_store (List.length l0) h' = Ok s -> forall n gr, div_cells (mkExt n l0 gr (Some s))).
  { intros l0 [a b v|a b flat] s Hs n gr; cbn [hess_store] in Hs.
    - destruct (_ && _)%bool; [|discriminate]. injection Hs as <-. intros c [].
    - injection Hs as <-. intros c Hc. cbn in Hc. apply in_map_iff in Hc. destruct Hc as (f & <- & Hf). cbn [et_params fst snd].
      destruct (List.length l0); [right; split; auto|left; apply Nat.mod_upper_bound; lia]. }
  destruct g as [[l v]|], h as [h|]; try discriminate; destruct (existsb _ ts); try discriminate; cbn [rbind fst snd] in E.
  - destruct (Nat.eqb (List.length v) (List.length l)); [|discriminate]. cbn [rbind fst snd] in E.
    destruct (hess_labels h) as [l0 l1]. destruct (strs_eqb l0 l1); [|discriminate]. cbn [negb] in E.
    destruct (strs_eqb l l0); [|discriminate]. cbn [negb] in E.
    destruct (hess_store (List.length l0) h) as [s|] eqn:HS; [|discriminate]. cbn [rbind fst snd] in E. injection E as <-.
    apply Forall_app. split; auto. constructor; [eapply H1; eauto|constructor].
  - destruct (Nat.eqb (List.length v) (List.length l)); [|discriminate]. cbn [rbind fst snd] in E. injection E as <-.
    apply Forall_app. split; auto. constructor; [intros c []|constructor].
  - destruct (hess_labels h) as [l0 l1]. destruct (strs_eqb l0 l1); [|discriminate]. cbn [negb] in E.
    destruct (hess_store (List.length l0) h) as [s|] eqn:HS; [|discriminate]. cbn [rbind fst snd] in E. injection E as <-.
    apply Forall_app. split; auto. constructor; [eapply H1; eauto|constructor].
Qed.
Lemma canonical_sorted e : canonical e = true -> LocallySorted row_major e.
Proof.
  induction e as [|a [|b r] IH]; intros H; try constructor.
  - apply IH. simpl in H. apply andb_true_iff in H. apply H.
  - simpl in H. apply andb_true_iff in H. destruct H as [H _]. apply orb_true_iff in H. unfold row_major.
    destruct H as [H|H]; [left; apply Nat.ltb_lt; auto|]. apply andb_true_iff in H. destruct H as [H1 H2].
    apply Nat.eqb_eq in H1. apply Nat.leb_le in H2. auto.
Qed.
Theorem C57_canonical : forall cs ts t, ext_calls [] cs = Ok ts -> In t (read_terms ts) ->
  LocallySorted row_major (stored_cells t).
Proof.
  intros cs ts t C Ht. unfold read_terms in Ht. apply sort_in, in_map_iff in Ht. destruct Ht as (u & <- & Hu).
  assert (F : Forall div_cells ts).
  { assert (G : forall cs a b, ext_calls a cs = Ok b -> Forall div_cells a -> Forall div_cells b).
    { clear. induction cs as [|c r IH]; simpl; intros a b E F; [injection E as <-; auto|].
      destruct (add_ext _ _ _ _) as [t1|] eqn:A; simpl in E; [|discriminate]. eapply IH; eauto. eapply add_ext_div; eauto. }
    eapply G; eauto. }
  rewrite Forall_forall in F. specialize (F u Hu). unfold div_cells in F. revert F. unfold stored_cells at 2. cbn [write_term et_hess].
  unfold stored_cells. destruct (et_hess u) as [[v|e]|]; cbn [write_hess]; intros F; try constructor.
  destruct (canonical e) eqn:K; [apply canonical_sorted; auto|].
  set (n := List.length (et_params u)) in *.
  pose proof (sort_sorted (cell_key n) Nat.compare nat_cmp e) as S.
  assert (F' : forall c, In c (sort_k (cell_key n) Nat.compare e) -> (snd (fst c) < n \/ n = 0 /\ fst (fst c) = 0)%nat).
  { intros c Hc. apply F. eapply sort_in; eauto. }
  revert S F'. generalize (sort_k (cell_key n) Nat.compare e). clear. intros l S F.
  apply Sorted_LocallySorted_iff. apply StronglySorted_Sorted. unfold sortedk in S.
  induction S as [|a l S IH A]; constructor.
  - apply IH. intros c Hc. apply F. right; auto.
  - rewrite Forall_forall in *. intros b Hb. specialize (A b Hb).
    pose proof (F a (or_introl eq_refl)). pose proof (F b (or_intror Hb)).
    unfold le_k in A. assert (L : (cell_key n a <= cell_key n b)%nat).
    { destruct (Nat.compare_spec (cell_key n a) (cell_key n b)); try lia; discriminate. }
    unfold cell_key in L. unfold row_major.
    destruct H as [H|[H H']], H0 as [H0|[H0 H0']]; try lia.
    destruct (Nat.lt_trichotomy (fst (fst a)) (fst (fst b))) as [T|[T|T]]; [auto|right; split; auto; nia|exfalso; nia].
Qed.
Print Assumptions C57_canonical.

(** example: gradient and a sparse, unsorted Hessian on ("b","a"), fit parameters ("a","c","b") *)
Definition ex_call : ext_call :=
  mkCall (Some (["b"; "a"], [1; 2])) (Some (HSparse ["b"; "a"] ["b"; "a"] [(3%nat, 5); (0%nat, 4); (1%nat, 3); (2%nat, 3)])) None.
Example C57_example : exists ts bs, ext_calls [] [ex_call] = Ok ts /\ build_ext ["a"; "c"; "b"] (read_terms ts) = Ok bs /\
  ext_nll bs [10; 7; 100] = (100 + 2 * 10) + 1/2 * (4 * 100 * 100 + 2 * (3 * 100 * 10) + 5 * 10 * 10).
Proof.
  destruct (C57_accepted [ex_call] _ ["a"; "c"; "b"] eq_refl) as [bs B].
  - repeat constructor; simpl; intuition discriminate.
  - intros c p [<-|[]]. simpl. intuition.
  - intros c h [<-|[]] E. simpl in E. injection E as <-. simpl. intros e He. intuition; subst; simpl; lia.
  - eexists. exists bs. split; [reflexivity|]. split; [exact B|].
    rewrite (ext_total [ex_call] _ ["a"; "c"; "b"] bs _ (fun s => if String.eqb s "a" then 10 else if String.eqb s "c" then 7 else 100) eq_refl B).
    + simpl. unfold meaning, ssum. simpl. lra.
    + intros [|[|[|i]]] p; simpl; try (intros E; injection E as <-; reflexivity). destruct i; discriminate.
Qed.
Example C57_example_rejects : build_ext ["a"; "c"] (read_terms [mkExt "t" ["b"] (Some [1]) None]) = Raise RuntimeError.
Proof. reflexivity. Qed.

(** a SparseHist whose axes have an overflow bin is read with the wrong row length *)
Theorem C57_overflow_refuted : exists c ts parms bs x X,
  ext_calls [] [c] = Ok ts /\ build_ext parms (read_terms ts) = Ok bs /\ reads parms x X /\
  ext_nll bs x <> meaning true (ca_grad c) (ca_hess c) X.
Proof.
  set (c := mkCall None (Some (HSparse ["a"; "b"] ["a"; "b"] [(1%nat, 1); (3%nat, 1)])) (Some "t")).
  destruct (C57_accepted [c] _ ["a"; "b"] eq_refl) as [bs B].
  - repeat constructor; simpl; intuition discriminate.
  - intros d p [<-|[]]. simpl. auto.
  - intros d h [<-|[]] E. simpl in E. injection E as <-. simpl. intros e He. intuition; subst; simpl; lia.
  - exists c. eexists. exists ["a"; "b"], bs, [1; 2], (fun s => if String.eqb s "a" then 1 else 2).
    assert (R : reads ["a"; "b"] [1; 2] (fun s => if String.eqb s "a" then 1 else 2)).
    { intros [|[|i]] p; simpl; try (intros E; injection E as <-; reflexivity). destruct i; discriminate. }
    split; [reflexivity|]. split; [exact B|]. split; [exact R|].
    rewrite (ext_total [c] _ ["a"; "b"] bs _ _ eq_refl B R). simpl. unfold meaning, ssum. simpl. lra.
Qed.
Print Assumptions C57_overflow_refuted.
