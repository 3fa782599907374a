(** Which sources the refit impacts scan and which rows form a group. *)
From Coq Require Import Reals List Arith Bool String Lia.
From Verif Require Import RBase PyDict Envelope_Model.
Import ListNotations.
Open Scope R_scope.

Lemma dict_extend_get k v d q : dget q (dict_extend k v d) =
  if String.eqb q k then Some (match dget k d with Some l => l ++ v | None => v end) else dget q d.
Proof.
  induction d as [|[k' v'] r IH]; cbn [dict_extend dget].
  - destruct (String.eqb_spec q k) as [->|N].
    + reflexivity.
    + destruct (String.eqb_spec q k); congruence.
  - destruct (String.eqb_spec k k') as [->|N]; cbn [dget].
    + destruct (String.eqb_spec q k'); auto.
    + rewrite IH. destruct (String.eqb_spec q k') as [->|M]; auto. destruct (String.eqb_spec k' k); congruence.
Qed.
(** members of all entries with a given name *)
Definition members (q : string) (l : list (string * list nat)) : list nat :=
  flat_map (fun g => if String.eqb (fst g) q then snd g else []) l.
Lemma fold_extend_get q pg : forall d, (exists l, dget q (fold_left (fun d g => dict_extend (fst g) (snd g) d) pg d) = Some l /\
    l = (match dget q d with Some l => l | None => [] end) ++ members q pg) \/
  (dget q (fold_left (fun d g => dict_extend (fst g) (snd g) d) pg d) = None /\ dget q d = None /\ ~ In q (map fst pg)).
Proof.
  induction pg as [|[k v] r IH]; intros d; cbn [fold_left members flat_map].
  - destruct (dget q d) as [l|] eqn:E; [left; exists l; split; auto; rewrite app_nil_r; auto|right; auto].
  - destruct (IH (dict_extend k v d)) as [(l & H & L)|(H & N & NI)].
    + left. exists l. split; auto. rewrite L. cbn [fst snd]. rewrite dict_extend_get. rewrite (String.eqb_sym k q).
      destruct (String.eqb_spec q k) as [->|N]; auto. destruct (dget k d); cbn [app]; rewrite ?app_assoc; auto.
    + right. cbn [fst snd] in N. rewrite dict_extend_get in N. destruct (String.eqb_spec q k) as [->|M]; [discriminate|].
      split; [|split]; auto. simpl. intros [->|I]; [congruence|auto].
Qed.
Lemma dget_map_val (f : list nat -> list nat) q (l : list (string * list nat)) :
  dget q (map (fun g => (fst g, f (snd g))) l) = option_map f (dget q l).
Proof. induction l as [|[k v] r IH]; cbn [map dget fst snd]; auto. destruct (String.eqb q k); auto. Qed.
Lemma members_get q (l : list (string * list nat)) : NoDup (map fst l) ->
  match dget q l with Some v => v | None => [] end = members q l.
Proof.
  induction l as [|[k v] r IH]; intros H; auto. cbn [map fst] in H. inversion H; subst. cbn [dget members flat_map fst snd].
  rewrite (String.eqb_sym k q). destruct (String.eqb_spec q k) as [->|N]; [|apply IH; auto].
  replace (flat_map (fun g => if String.eqb (fst g) k then snd g else []) r) with (@nil nat); [rewrite app_nil_r; auto|].
  symmetry. clear -H2. induction r as [|[k' v'] r IH]; auto. cbn [flat_map fst snd]. simpl in H2. destruct (String.eqb_spec k' k) as [->|N]; [tauto|].
  simpl. apply IH. tauto.
Qed.
Lemma dget_absent q (l : list (string * list nat)) : ~ In q (map fst l) -> dget q l = None.
Proof. induction l as [|[k v] r IH]; intros A; auto. cbn [dget]. simpl in A. destruct (String.eqb_spec q k) as [->|N]; [tauto|]. apply IH. tauto. Qed.
Lemma dget_present q (l : list (string * list nat)) : dget q l = None -> ~ In q (map fst l).
Proof.
  induction l as [|[k v] r IH]; intros E A; auto. cbn [dget] in E. simpl in A. destruct (String.eqb_spec q k) as [->|N]; [discriminate|].
  destruct A as [->|A]; [congruence|apply IH; auto].
Qed.
Lemma fold_absent q pg : ~ In q (map fst pg) -> forall d, dget q d = None -> dget q (fold_left (fun d g => dict_extend (fst g) (snd g) d) pg d) = None.
Proof.
  induction pg as [|[k v] r IH]; intros B d E; auto. cbn [fold_left fst snd]. simpl in B. apply IH; [tauto|].
  rewrite dict_extend_get. destruct (String.eqb_spec q k) as [->|N]; [tauto|auto].
Qed.
Theorem ga_groups_spec nparams sg pg q : NoDup (map fst sg) ->
  (In q (map fst sg) \/ In q (map fst pg) ->
   exists l, dget q (ga_groups nparams sg pg) = Some l /\
     forall j, In j l <-> (exists i, In i (members q sg) /\ j = (nparams + i)%nat) \/ In j (members q pg)) /\
  (~ In q (map fst sg) -> ~ In q (map fst pg) -> dget q (ga_groups nparams sg pg) = None).
Proof.
  intros ND. unfold ga_groups. rewrite <- (members_get q sg ND).
  destruct (fold_extend_get q pg (map (fun g => (fst g, map (fun i => nparams + i)%nat (snd g))) sg)) as [(l & H & L)|(H & N & NI)];
    rewrite (dget_map_val (map (fun i => nparams + i)%nat)) in *; split.
  - intros _. exists l. split; auto. intros j. rewrite L, in_app_iff. destruct (dget q sg); cbn [option_map].
    + rewrite in_map_iff. split; (intros [(i & A & B)|A]; [left; exists i|right]); auto.
    + simpl. split; [intros [[]|A]; auto|intros [(i & [] & _)|A]; auto].
  - intros A B. apply fold_absent; auto. rewrite (dget_map_val (map (fun i => nparams + i)%nat)), dget_absent; auto.
  - intros [A|A]; [|tauto]. destruct (dget q sg) eqn:E; [discriminate|]. apply dget_present in E. tauto.
  - auto.
Qed.
(** scanned sources: the constrained nuisances and the model parameters with a prior that were asked for *)
Theorem ga_sources_spec nparams cw keep priored pkeep j :
  In j (ga_sources nparams cw keep priored pkeep) <->
  (exists i w, nth_error cw i = Some w /\ 0 < w /\ keep i = true /\ j = (nparams + i)%nat) \/ (In j priored /\ pkeep j = true).
Proof.
  unfold ga_sources. rewrite in_app_iff, in_map_iff, filter_In. split; intros [H|H]; auto.
  - destruct H as (i & <- & H). apply filter_In in H as (I & H). apply andb_true_iff in H as (W & Kp). apply in_seq in I.
    left. exists i, (nth i cw 0). repeat split; auto; [|destruct (Rltb_spec 0 (nth i cw 0)); congruence].
    apply nth_error_nth'. lia.
  - destruct H as (i & w & E & W & Kp & ->). left. exists i. split; auto. apply filter_In.
    rewrite (nth_error_nth _ _ _ E). split; [apply in_seq; assert (i < List.length cw)%nat by (apply nth_error_Some; congruence); lia|].
    apply andb_true_iff. split; auto. destruct (Rltb_spec 0 w); auto. 
Qed.
