(** External terms: what is evaluated is what was declared. *)
From Coq Require Import List Arith Bool String Reals Lra Lia Permutation.
From Verif Require Import PyList ListUtil RBase Order PyDict Writer_Model Yields_Model Yields_Proof Yields_Equiv Ext_Model Ext_Spec.
Import ListNotations.
Local Open Scope R_scope.

Lemma ssum_ext n f g : (forall i, (i < n)%nat -> f i = g i) -> ssum n f = ssum n g.
Proof. apply sum_n_ext. Qed.
Lemma dot_sum n : forall a b, List.length a = n -> List.length b = n ->
  dot a b = ssum n (fun i => nth i a 0 * nth i b 0).
Proof.
  unfold dot, ssum. induction n as [|n IH]; intros a b A B.
  - destruct a; [|discriminate]. reflexivity.
  - destruct a as [|x a]; [discriminate|]. destruct b as [|y b]; [discriminate|].
    simpl in A, B. cbn [combine map seq fst snd]. rewrite <- seq_shift, map_map. simpl. f_equal. apply IH; lia.
Qed.

Lemma resolve_spec parms names is : resolve parms names = Ok is ->
  List.length is = List.length names /\
  forall i p, nth_error names i = Some p -> exists j, nth_error is i = Some j /\ nth_error parms j = Some p.
Proof.
  revert is. induction names as [|q r IH]; intros is; simpl.
  - intros E. injection E as <-. split; auto. intros [|i] p; discriminate.
  - destruct (last_index q parms) as [j|] eqn:J; [|discriminate].
    destruct (resolve parms r) as [l|] eqn:L; simpl; [|discriminate]. intros E. injection E as <-.
    destruct (IH l eq_refl) as [A B]. simpl. split; [congruence|]. intros [|i] p; simpl.
    + intros E. injection E as <-. exists j. split; auto. apply last_index_Some; auto.
    + apply B.
Qed.
Lemma resolve_ok parms names : (forall p, In p names -> In p parms) <-> exists is, resolve parms names = Ok is.
Proof.
  induction names as [|q r IH]; simpl.
  - split; eauto. tauto.
  - split.
    + intros H. destruct (last_index_In q parms) as [j ->]; [auto|].
      destruct IH as [IH _]. destruct IH as [is ->]; auto. simpl. eauto.
    + intros [is E] p Hp. destruct (last_index q parms) as [j|] eqn:J; [|discriminate].
      destruct (resolve parms r) as [l|] eqn:L; simpl in E; [|discriminate].
      destruct Hp as [<-|Hp]. { apply last_index_Some in J. eapply nth_error_In; eauto. }
      apply IH; eauto.
Qed.

(** meaning of a stored term *)
Definition st_entry (h : hess_st) (i j : nat) : R :=
  match h with SDense v => nth j (nth i v []) 0 | SSparse e => sumR (map snd (filter (at2 i j) e)) end.
Definition tmeaning (t : ext_term) (X : string -> R) : R :=
  let l := et_params t in let n := List.length l in
  (match et_grad t with Some v => ssum n (fun i => nth i v 0 * X (nth i l ""%string)) | None => 0 end)
  + (match et_hess t with
     | Some h => 1/2 * ssum n (fun i => ssum n (fun j => X (nth i l ""%string) * st_entry h i j * X (nth j l ""%string)))
     | None => 0 end).
Definition wf_term (t : ext_term) : Prop :=
  (forall v, et_grad t = Some v -> List.length v = List.length (et_params t)) /\
  (forall v, et_hess t = Some (SDense v) -> List.length v = List.length (et_params t) /\
     Forall (fun r => List.length r = List.length (et_params t)) v).

Lemma flat_entry n flat i j : (j < n)%nat ->
  sumR (map snd (filter (at2 i j) (map (fun e : nat * R => ((fst e / n)%nat, (fst e mod n)%nat, snd e)) flat)))
  = sumR (map snd (filter (fun e => Nat.eqb (fst e) (i * n + j)) flat)).
Proof.
  intros J. induction flat as [|[f v] r IH]; simpl; auto.
  assert (at2 i j ((f / n)%nat, (f mod n)%nat, v) = Nat.eqb f (i * n + j)) as ->.
  { unfold at2. cbn [fst snd]. apply eq_true_iff_eq. rewrite andb_true_iff, !Nat.eqb_eq.
    pose proof (Nat.div_mod f n ltac:(lia)). split.
    - intros [A B]. rewrite A, B in H. lia.
    - intros ->. split.
      + rewrite Nat.add_comm, Nat.div_add by lia. rewrite Nat.div_small by lia. auto.
      + rewrite Nat.add_comm, Nat.mod_add by lia. apply Nat.mod_small. lia. }
  destruct (Nat.eqb f (i * n + j)); simpl; rewrite IH; auto.
Qed.

Lemma strs_eqb_eq a b : strs_eqb a b = true -> a = b.
Proof. unfold strs_eqb. destruct (list_eq_dec string_dec a b); auto. discriminate. Qed.
Lemma hess_store_entry n h s : hess_store n h = Ok s -> forall i j, (j < n)%nat ->
  st_entry s i j = hess_entry n false h i j.
Proof.
  destruct h as [l0 l1 v|l0 l1 flat]; simpl.
  - destruct (_ && _)%bool; [|discriminate]. intros E i j _. injection E as <-. auto.
  - intros E i j J. injection E as <-. cbn [st_entry]. apply flat_entry; auto.
Qed.
Lemma hess_store_wf n h s v : hess_store n h = Ok s -> s = SDense v ->
  List.length v = n /\ Forall (fun r => List.length r = n) v.
Proof.
  destruct h as [l0 l1 w|l0 l1 flat]; simpl.
  - destruct (_ && _)%bool eqn:B; [|discriminate]. intros E F. injection E as <-. injection F as <-.
    apply andb_true_iff in B. destruct B as [B1 B2]. apply Nat.eqb_eq in B1. split; auto.
    apply Forall_forall. rewrite forallb_forall in B2. intros r Hr. apply Nat.eqb_eq, B2; auto.
  - intros E F. subst s. discriminate.
Qed.
Lemma add_ext_meaning ts g h nm ts' : add_ext ts g h nm = Ok ts' ->
  exists t, ts' = ts ++ [t] /\ wf_term t /\ forall X, tmeaning t X = meaning false g h X.
Proof.
  unfold add_ext. intros E.
  assert (E' : (if existsb (fun t => String.eqb (et_name t) (match nm with Some s => s | None => ("ext" ++ nat_str (List.length ts))%string end)) ts then Raise RuntimeError
    else
      pg <- match g with
            | None => Ok (None, None)
            | Some (l, v) => if Nat.eqb (List.length v) (List.length l) then Ok (Some l, Some v) else Raise RuntimeError
            end ;;
      ph <- match h with
            | None => Ok (match fst pg with Some l => l | None => [] end, None)
            | Some h =>
              let '(l0, l1) := hess_labels h in
              if negb (strs_eqb l0 l1) then Raise ValueError
              else if match fst pg with Some l => negb (strs_eqb l l0) | None => false end then Raise ValueError
              else s <- hess_store (List.length l0) h ;; Ok (l0, Some s)
            end ;;
      Ok (ts ++ [mkExt (match nm with Some s => s | None => ("ext" ++ nat_str (List.length ts))%string end) (fst ph) (snd pg) (snd ph)])) = Ok ts').
  { destruct g, h; auto; discriminate. }
  clear E. rename E' into E. set (name := match nm with Some s => s | None => _ end) in E. clearbody name.
  destruct (existsb _ ts); [discriminate|].
  destruct g as [[l v]|]; cbn [rbind fst snd] in E.
  - destruct (Nat.eqb_spec (List.length v) (List.length l)) as [L|]; [|discriminate]. cbn [rbind fst snd] in E.
    destruct h as [h|]; cbn [rbind fst snd] in E.
    + destruct (hess_labels h) as [l0 l1] eqn:HL. destruct (strs_eqb l0 l1); [|discriminate]. cbn [negb] in E.
      destruct (strs_eqb l l0) eqn:S; [|discriminate]. apply strs_eqb_eq in S. subst l0. cbn [negb] in E.
      destruct (hess_store (List.length l) h) as [s|] eqn:HS; [|discriminate]. cbn [rbind fst snd] in E. injection E as <-.
      eexists. split; [reflexivity|]. split.
      * split; cbn [et_grad et_hess et_params].
        { intros w F. injection F as <-. auto. }
        { intros w F. injection F as F. eapply hess_store_wf; eauto. }
      * intros X. unfold tmeaning, meaning. cbn [et_grad et_hess et_params]. rewrite HL. cbn [fst]. f_equal. f_equal.
        apply ssum_ext. intros i Hi. apply ssum_ext. intros j Hj. rewrite (hess_store_entry _ _ _ HS) by auto. auto.
    + injection E as <-. eexists. split; [reflexivity|]. split.
      * split; cbn [et_grad et_hess et_params]; [|discriminate]. intros w F. injection F as <-. auto.
      * intros X. reflexivity.
  - destruct h as [h|]; cbn [rbind fst snd] in E.
    + destruct (hess_labels h) as [l0 l1] eqn:HL. destruct (strs_eqb l0 l1); [|discriminate]. cbn [negb] in E.
      destruct (hess_store (List.length l0) h) as [s|] eqn:HS; [|discriminate]. cbn [rbind fst snd] in E. injection E as <-.
      eexists. split; [reflexivity|]. split.
      * split; cbn [et_grad et_hess et_params]; [discriminate|].
        intros w F. injection F as F. eapply hess_store_wf; eauto.
      * intros X. unfold tmeaning, meaning. cbn [et_grad et_hess et_params]. rewrite HL. cbn [fst]. f_equal. f_equal.
        apply ssum_ext. intros i Hi. apply ssum_ext. intros j Hj. rewrite (hess_store_entry _ _ _ HS) by auto. auto.
    + injection E as <-. eexists. split; [reflexivity|]. split; [split; discriminate|]. intros X. reflexivity.
Qed.

Lemma Permutation_filter {A} (f : A -> bool) l1 l2 : Permutation l1 l2 -> Permutation (filter f l1) (filter f l2).
Proof.
  induction 1; simpl; auto.
  - destruct (f x); auto.
  - destruct (f x), (f y); auto. apply perm_swap.
  - eapply perm_trans; eauto.
Qed.
Lemma write_term_meaning t : wf_term t -> wf_term (write_term t) /\ forall X, tmeaning (write_term t) X = tmeaning t X.
Proof.
  intros [A B]. split.
  - split; cbn [write_term et_grad et_hess et_params]; auto. intros v. destruct (et_hess t) as [[w|e]|] eqn:E; try discriminate.
    cbn [write_hess]. intros F. injection F as <-. apply B; auto.
  - intros X. unfold tmeaning. cbn [write_term et_grad et_hess et_params]. f_equal.
    destruct (et_hess t) as [[w|e]|]; cbn [write_hess]; auto. f_equal. apply ssum_ext. intros i _. apply ssum_ext. intros j _.
    f_equal. f_equal. cbn [st_entry]. destruct (canonical e); auto. apply sumR_perm, Permutation_map, Permutation_filter, sort_perm.
Qed.

Lemma build_term_value parms t b x X : wf_term t -> build_term parms t = Ok b -> reads parms x X ->
  term_value b x = tmeaning t X.
Proof.
  intros [WG WH] B RD. unfold build_term in B. destruct (resolve parms (et_params t)) as [is|] eqn:RS; simpl in B; [|discriminate].
  destruct (resolve_spec _ _ _ RS) as [LI NI].
  set (n := List.length (et_params t)) in *.
  assert (XS : forall i, (i < n)%nat -> nth i (map (fun j => nth j x 0) is) 0 = X (nth i (et_params t) ""%string)).
  { intros i Hi. destruct (nth_error (et_params t) i) as [p|] eqn:P; [|apply nth_error_None in P; unfold n in Hi; lia].
    destruct (NI i p P) as (j & J1 & J2). specialize (RD j p J2).
    rewrite (nth_indep _ 0 (nth 0 x 0)) by (rewrite map_length; lia). rewrite (map_nth (fun j => nth j x 0) is 0%nat i).
    rewrite (nth_error_nth _ _ 0%nat J1), (nth_error_nth _ _ _ RD), (nth_error_nth _ _ _ P). auto. }
  set (xs := map (fun j => nth j x 0) is) in *.
  assert (LX : List.length xs = n) by (unfold xs; rewrite map_length; auto).
  assert (G : match et_grad t with Some g => dot g xs | None => 0 end =
              match et_grad t with Some v => ssum n (fun i => nth i v 0 * X (nth i (et_params t) ""%string)) | None => 0 end).
  { destruct (et_grad t) as [g|] eqn:EG; auto. rewrite (dot_sum n) by (auto; apply WG; auto). apply ssum_ext. intros i Hi. rewrite XS; auto. }
  destruct (et_hess t) as [h|] eqn:EH.
  - destruct (hess_fits n h) eqn:F; [|discriminate]. injection B as <-.
    unfold term_value, tmeaning. cbn [tf_idx tf_grad tf_hess]. fold xs. rewrite EH. rewrite G. fold n. f_equal. f_equal.
    assert (LM : List.length (hess_mv h xs) = n).
    { destruct h as [v|e]; cbn [hess_mv]; rewrite map_length; [apply WH; auto|rewrite seq_length; auto]. }
    rewrite (dot_sum n) by auto. apply ssum_ext. intros i Hi. rewrite XS by auto.
    assert (MV : nth i (hess_mv h xs) 0 = ssum n (fun j => st_entry h i j * X (nth j (et_params t) ""%string))).
    { destruct h as [v|e]; cbn [hess_mv st_entry].
      - destruct (WH v eq_refl) as [LV FV]. fold n in LV, FV.
        rewrite (nth_indep _ 0 (dot [] xs)) by (rewrite map_length; lia). rewrite (map_nth (fun row => dot row xs)).
        rewrite (dot_sum n); auto.
        + apply ssum_ext. intros j Hj. rewrite XS by auto. auto.
        + rewrite Forall_forall in FV. apply FV. apply nth_In. lia.
      - rewrite LX. set (f := fun i => sumR _). rewrite (nth_indep _ 0 (f 0%nat)) by (rewrite map_length, seq_length; auto).
        rewrite map_nth, seq_nth by auto. unfold f. simpl (0 + i)%nat.
        rewrite (group_row e i n (fun c => nth c xs 0)).
        + apply ssum_ext. intros j Hj. rewrite XS by auto. auto.
        + intros c Hc. unfold hess_fits in F. rewrite forallb_forall in F. specialize (F c Hc).
          apply andb_true_iff in F. destruct F as [_ F]. apply Nat.ltb_lt in F. auto. }
    rewrite MV. rewrite <- (sum_n_scal n (X (nth i (et_params t) ""%string))). apply sum_n_ext. intros; ring.
  - injection B as <-. unfold term_value, tmeaning. cbn [tf_idx tf_grad tf_hess]. fold xs. rewrite EH, G. auto.
Qed.
Lemma build_terms_value parms ts bs x X : Forall wf_term ts -> build_terms parms ts = Ok bs -> reads parms x X ->
  ext_nll bs x = sumR (map (fun t => tmeaning t X) ts).
Proof.
  intros W. revert bs. induction W as [|t ts Wt Ws IH]; intros bs B RD; simpl in B.
  - injection B as <-. auto.
  - destruct (build_term parms t) as [b|] eqn:BT; simpl in B; [|discriminate].
    destruct (build_terms parms ts) as [br|] eqn:BR; simpl in B; [|discriminate]. injection B as <-.
    simpl. unfold ext_nll in *. simpl. rewrite (build_term_value parms t b x X Wt BT RD). f_equal. apply IH; auto.
Qed.
Lemma ext_calls_meaning cs : forall ts ts', ext_calls ts cs = Ok ts' -> Forall wf_term ts ->
  Forall wf_term ts' /\ forall X, sumR (map (fun t => tmeaning t X) ts') =
    sumR (map (fun t => tmeaning t X) ts) + sumR (map (fun c => meaning false (ca_grad c) (ca_hess c) X) cs).
Proof.
  induction cs as [|c r IH]; intros ts ts' E W; simpl in E.
  - injection E as <-. split; auto. intros. simpl. ring.
  - destruct (add_ext _ _ _ _) as [t1|] eqn:A; simpl in E; [|discriminate].
    destruct (add_ext_meaning _ _ _ _ _ A) as (t & -> & Wt & M).
    destruct (IH _ _ E) as [W' S]. { apply Forall_app. auto. }
    split; auto. intros X. rewrite S, map_app, sumR_app. simpl. rewrite M. ring.
Qed.
Theorem ext_total cs ts parms bs x X :
  ext_calls [] cs = Ok ts -> build_ext parms (read_terms ts) = Ok bs -> reads parms x X ->
  ext_nll bs x = sumR (map (fun c => meaning false (ca_grad c) (ca_hess c) X) cs).
Proof.
  intros C B RD. destruct (ext_calls_meaning cs [] ts C (Forall_nil _)) as [W S].
  unfold build_ext in B. destruct (nodupb parms); [|discriminate].
  assert (P : Permutation (read_terms ts) (map write_term ts)) by apply sort_perm.
  rewrite (build_terms_value parms _ bs x X) with (2 := B); auto.
  - rewrite (sumR_perm _ _ (Permutation_map (fun t => tmeaning t X) P)). rewrite map_map.
    transitivity (sumR (map (fun t => tmeaning t X) ts)).
    + apply sumR_map_ext. intros t Ht. rewrite Forall_forall in W. apply write_term_meaning. auto.
    + rewrite S. simpl. ring.
  - apply Forall_forall. intros t Ht. apply (Permutation_in _ P) in Ht. apply in_map_iff in Ht.
    destruct Ht as (u & <- & Hu). rewrite Forall_forall in W. apply write_term_meaning. auto.
Qed.

Lemma nodupb_true l : nodupb l = true <-> NoDup l.
Proof.
  induction l as [|x r IH]; simpl. { split; auto. constructor. }
  rewrite andb_true_iff, negb_true_iff, IH, NoDup_cons_iff, <- smem_In. destruct (smem x r); intuition congruence.
Qed.

(** which terms are accepted *)
Definition fits_term (t : ext_term) : Prop :=
  match et_hess t with Some h => hess_fits (List.length (et_params t)) h = true | None => True end.
Lemma build_terms_ok parms ts : (exists bs, build_terms parms ts = Ok bs) <->
  Forall (fun t => (forall p, In p (et_params t) -> In p parms) /\ fits_term t) ts.
Proof.
  induction ts as [|t r IH]; simpl.
  - split; eauto.
  - split.
    + intros [bs E]. destruct (build_term parms t) as [b|] eqn:BT; simpl in E; [|discriminate].
      destruct (build_terms parms r) as [br|] eqn:BR; simpl in E; [|discriminate].
      constructor; [|apply IH; eauto]. unfold build_term in BT.
      destruct (resolve parms (et_params t)) as [is|] eqn:RS; simpl in BT; [|discriminate]. split.
      * apply resolve_ok. eauto.
      * unfold fits_term. destruct (et_hess t) as [h|]; auto. destruct (hess_fits _ h); auto. discriminate.
    + intros F. inversion F as [|? ? [F1 F2] F3]; subst. apply IH in F3. destruct F3 as [br ->].
      apply resolve_ok in F1. destruct F1 as [is E]. unfold build_term. rewrite E. simpl. unfold fits_term in F2.
      destruct (et_hess t) as [h|]; [rewrite F2|]; simpl; eauto.
Qed.
