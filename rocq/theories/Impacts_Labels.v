(** Row and column labels of the impact histograms. *)
From Coq Require Import Reals List Arith Bool String Lra Lia.
From Verif Require Import RBase PyList ListUtil Mat_Model Mat_Proof Linear_Spec Linear_Proof Impacts_Model Impacts_Spec Impacts_Proof Impacts_Trad Impacts_Global Envelope_Model.
Import ListNotations.
Open Scope R_scope.

Theorem row_labels_spec {A} (parms : list A) npoi nparams noi d : (npoi <= nparams)%nat -> (nparams <= List.length parms)%nat ->
  row_labels parms npoi nparams noi d = map (fun i => nth i parms d) (reported_list npoi nparams noi).
Proof.
  intros L1 L2. unfold row_labels, reported_list. rewrite map_app, map_map. f_equal.
  - assert (L3 : (npoi <= List.length parms)%nat) by lia. clear - L3. revert parms L3. induction npoi as [|m IH]; intros parms L; auto.
    destruct parms as [|a r]; [simpl in L; lia|]. cbn [firstn seq map nth]. f_equal. rewrite IH by (simpl in L; lia). rewrite <- seq_shift, map_map. reflexivity.
  - apply map_ext. intros k. clear - L2. revert parms L2. induction nparams as [|m IH]; intros parms L; auto. destruct parms as [|a r]; [simpl in L; lia|].
    cbn [skipn]. rewrite IH by (simpl in L; lia). reflexivity.
Qed.
Lemma Forall2_map_l {A B C} (P : B -> C -> Prop) (f : A -> B) l r : Forall2 (fun a c => P (f a) c) l r -> Forall2 P (map f l) r.
Proof. induction 1; cbn [map]; constructor; auto. Qed.
Lemma Forall2_map_l' {A B C} (P : B -> C -> Prop) (f : A -> B) l r : Forall2 P (map f l) r -> Forall2 (fun a c => P (f a) c) l r.
Proof. revert r. induction l as [|a l IH]; intros r H; inversion H; subst; constructor; auto. Qed.
Theorem trad_columns_labelled n cov hess hnb fl nmod i sg pg cols :
  (exists cs ct cp, cols = cs ++ ct ++ cp /\
        Forall2 (fun g => group_column n cov i (map (fun k => nmod + k)%nat g)) (map snd sg) cs /\ stat_spec hess hnb fl i ct /\
        Forall2 (group_column n cov i) (map snd pg) cp) ->
  forall procs, Forall2 (trad_means n cov hess hnb fl nmod i) (grouped_axis sg (match hnb with Some _ => true | None => false end) false procs pg) cols.
Proof.
  intros (cs & ct & cp & -> & A & B & C) procs. unfold grouped_axis. apply Forall2_app.
  - apply Forall2_map_l. apply Forall2_map_l' in A. exact A.
  - apply Forall2_map_l' in C. assert (C' : Forall2 (trad_means n cov hess hnb fl nmod i) (map LParam pg) cp) by (apply Forall2_map_l; exact C).
    destruct hnb as [h|]; cbn [stat_spec] in B.
    + destruct B as (s & s' & b & -> & S1 & S2 & Pb & Eb). cbn [app]. constructor; [exists s'; auto|]. constructor; auto. exists h, s, s', b. auto 8.
    + destruct B as (s & -> & S1). cbn [app]. constructor; auto. exists s; auto.
Qed.
Lemma numbered_gen (names : list string) : forall k (bs : list R) l,
  (forall j, (j < List.length names)%nat -> nth_error bs (k + j) = nth_error l j) -> List.length l = List.length names ->
  Forall2 (fun p col => exists j x, snd p = [j] /\ nth_error bs j = Some x /\ col = Some x) (combine names (map (fun k => [k]) (seq k (List.length names)))) (map Some l).
Proof.
  induction names as [|a r IH]; intros k bs l H L; destruct l as [|x l]; try discriminate; cbn [List.length seq map combine]; constructor.
  - exists k, x. cbn [snd]. split; auto. split; auto. rewrite <- (Nat.add_0_r k). rewrite H by (simpl; lia). reflexivity.
  - apply IH; [|simpl in L; lia]. intros j Hj. specialize (H (S j)). simpl in H. rewrite <- H by (simpl; lia). f_equal. lia.
Qed.
Theorem global_columns_labelled n nmod sg pg bbb imp cols var procs :
  adds_up n nmod (map snd sg) (map snd pg) bbb imp cols var ->
  (match bbb with Some (np, true) => np = List.length procs | _ => True end) ->
  exists v b bs, 0 <= v /\ 0 <= b /\ (forall x, In x bs -> 0 <= x) /\ sm n (fun j => imp j ^ 2) + b ^ 2 + v ^ 2 = var /\
    (match bbb with Some (_, true) => fold_right Rplus 0 (map (fun x => x ^ 2) bs) = b ^ 2 | _ => True end) /\
    Forall2 (global_means nmod imp v b bs)
      (grouped_axis sg (match bbb with Some _ => true | None => false end) (match bbb with Some (_, f) => f | None => false end) (numbered procs) pg) cols.
Proof.
  intros (cs & mid & cp & -> & A & C & M) NP. apply Forall2_map_l' in A. apply Forall2_map_l' in C. unfold grouped_axis.
  assert (A' : forall v b bs, Forall2 (global_means nmod imp v b bs) (map LGroup sg) cs) by (intros; apply Forall2_map_l; exact A).
  assert (C' : forall v b bs, Forall2 (global_means nmod imp v b bs) (map LParam pg) cp) by (intros; apply Forall2_map_l; exact C).
  destruct bbb as [[np full]|].
  - destruct M as (v & b & cps & -> & Pv & Pb & E & F). destruct full.
    + destruct F as (bs & -> & LB & PB & EB). exists v, b, bs. repeat (split; auto). apply Forall2_app; auto. cbn [app].
      constructor; [reflexivity|]. constructor; [reflexivity|]. apply Forall2_app; auto. apply Forall2_map_l.
      unfold numbered. cbn [global_means]. apply numbered_gen; [auto|congruence].
    + subst cps. exists v, b, []. repeat (split; auto). { intros x []. } apply Forall2_app; auto. cbn [app]. constructor; [reflexivity|]. constructor; [reflexivity|auto].
  - destruct M as (v & -> & Pv & E). exists v, 0, []. split; auto. split; [lra|]. split; [intros x []|]. split; [rewrite <- E; cbn [pow]; ring|]. split; auto. apply Forall2_app; auto. cbn [app]. constructor; [reflexivity|auto].
Qed.
(** --noHessian: the indices start after the parameters of interest, not after all model parameters *)
Theorem hessfree_rows_spec npoi noi : hessfree_rows npoi noi = reported_list npoi npoi noi.
Proof. unfold hessfree_rows, reported_list. f_equal. apply map_ext. intros; lia. Qed.
