(** Proofs about parameter selection and freezing. *)
From Coq Require Import List Arith Bool String Lia.
From Verif Require Import PyList ListUtil PyDict Freeze_Model Freeze_Spec.
Import ListNotations.

Lemma subseq_refl {A} (l : list A) : subseq l l.
Proof. induction l; constructor; auto. Qed.
Lemma subseq_app {A} (a b c d : list A) : subseq a b -> subseq c d -> subseq (a ++ c) (b ++ d).
Proof.
  intros H. revert c d. induction H; intros c d H2; simpl.
  - induction l; simpl; auto. constructor; auto.
  - constructor. auto.
  - constructor. auto.
Qed.
Lemma subseq_In {A} (a b : list A) x : subseq a b -> In x a -> In x b.
Proof. induction 1; simpl; intuition. Qed.

Section Proof.
  Variable rx : regex.

  Lemma compile_ok exprs : valid rx exprs -> exists fs, compile_all rx exprs = Ok fs.
  Proof.
    induction exprs as [|e r IH]; intros V; simpl; eauto.
    destruct (rx e) eqn:E; [|exfalso; apply (V e); simpl; auto].
    destruct IH as [fs ->]. { intros x Hx. apply V. simpl. auto. } simpl. eauto.
  Qed.
  Lemma compile_valid exprs fs : compile_all rx exprs = Ok fs -> valid rx exprs.
  Proof.
    revert fs. induction exprs as [|e r IH]; intros fs H x Hx; simpl in *; [contradiction|].
    destruct (rx e) eqn:E; [|discriminate]. destruct (compile_all rx r) eqn:C; simpl in H; [|discriminate].
    destruct Hx as [<-|Hx]; [congruence|]. eapply IH; eauto.
  Qed.
  Lemma compile_match exprs fs s : compile_all rx exprs = Ok fs ->
    (smem s exprs || existsb (fun f => f s) fs = true)%bool <-> selects rx exprs s.
  Proof.
    intros H. rewrite orb_true_iff, smem_In. unfold selects.
    assert (X : existsb (fun f => f s) fs = true <-> exists e f, In e exprs /\ rx e = Some f /\ f s = true).
    { revert fs H. induction exprs as [|e r IH]; intros fs H; simpl in *.
      - injection H as <-. simpl. split; [discriminate|]. intros (e & f & [] & _).
      - destruct (rx e) as [g|] eqn:E; [|discriminate]. destruct (compile_all rx r) as [gs|]; simpl in H; [|discriminate].
        injection H as <-. simpl. rewrite orb_true_iff, (IH gs eq_refl). split.
        + intros [H|(e' & f & A & B)]; [exists e, g; auto|exists e', f; intuition].
        + intros (e' & f & [<-|A] & B & C); [left; congruence|right; exists e', f; auto]. }
    rewrite X. split.
    - intros [A|(e & f & A & B)]; [exists s; auto|exists e; split; auto; right; eauto].
    - intros (e & A & [->|(f & B & C)]); [auto|right; eauto].
  Qed.
  Lemma match_loop_spec exprs fs names : forall matched seen,
    (forall x, In x seen <-> In x matched) -> NoDup matched ->
    let r := match_loop exprs fs names matched seen in
    NoDup r /\ (exists t, r = matched ++ t /\ subseq t names) /\
    (forall x, In x r <-> In x matched \/ (In x names /\ (smem x exprs || existsb (fun f => f x) fs = true)%bool)).
  Proof.
    induction names as [|s l IH]; intros matched seen S N; cbn [match_loop].
    - split; auto. split. { exists []. rewrite app_nil_r. split; auto. constructor. } simpl. intuition.
    - destruct (smem s exprs || existsb (fun f => f s) fs)%bool eqn:M.
      + destruct (smem s seen) eqn:Q.
        * destruct (IH matched seen S N) as (A & (t & B1 & B2) & C). split; auto. split.
          { exists t. split; auto. constructor; auto. }
          intros x. rewrite C. simpl. apply smem_In in Q. apply S in Q. split; [intuition|].
          intros [H|[[->|H] H2]]; auto.
        * assert (NS : ~ In s matched) by (rewrite <- S, <- smem_In; congruence).
          destruct (IH (matched ++ [s]) (set_add s seen)) as (A & (t & B1 & B2) & C).
          { intros x. rewrite set_add_In, in_app_iff, S. simpl. intuition. }
          { apply NoDup_app'; auto. repeat constructor; auto. intros x Hx [<-|[]]. auto. }
          split; auto. split.
          { exists (s :: t). rewrite B1, <- app_assoc. split; auto. constructor; auto. }
          intros x. rewrite C, in_app_iff. simpl. split; [intuition; subst; auto|]. intuition.
      + destruct (IH matched seen S N) as (A & (t & B1 & B2) & C). split; auto. split.
        { exists t. split; auto. constructor; auto. }
        intros x. rewrite C. simpl. split; [intuition|]. intros [H|[[->|H] H2]]; auto. congruence.
  Qed.
  Theorem match_params_spec exprs names :
    (valid rx exprs -> exists r, match_params rx exprs names = Ok r) /\
    forall r, match_params rx exprs names = Ok r ->
      valid rx exprs /\ NoDup r /\ subseq r names /\ forall p, In p r <-> In p names /\ selects rx exprs p.
  Proof.
    unfold match_params. split.
    - intros V. destruct (compile_ok _ V) as [fs ->]. simpl. eauto.
    - intros r. destruct (compile_all rx exprs) as [fs|] eqn:E; simpl; [|discriminate]. intros H. injection H as <-.
      destruct (match_loop_spec exprs fs names [] []) as (A & (t & B1 & B2) & C); [tauto|constructor|].
      split. { eapply compile_valid; eauto. } split; auto. split. { rewrite B1. auto. }
      intros p. rewrite C. rewrite (compile_match _ _ _ E). simpl. tauto.
  Qed.

  (** masks and index lists *)
  Lemma where_true_spec m : forall i, In i (where_true m) <-> nth_error m i = Some true.
  Proof.
    intros i. unfold where_true. rewrite in_map_iff. split.
    - intros ((j & b) & <- & H). apply filter_In in H. destruct H as [H B]. simpl in *. subst b.
      apply In_nth_error in H. destruct H as [k H].
      assert (K : k < List.length m).
      { apply nth_error_Some. intros E. assert (L : List.length (combine (seq 0 (List.length m)) m) <= k).
        { rewrite combine_length, seq_length. apply nth_error_None in E. lia. }
        apply nth_error_None in L. congruence. }
      assert (X : forall s, nth_error (combine (seq s (List.length m)) m) k = match nth_error m k with Some b => Some (s + k, b) | None => None end).
      { clear. revert k. induction m; intros k s; simpl; [destruct k; auto|]. destruct k; simpl.
        - rewrite Nat.add_0_r. auto. - rewrite IHm. destruct (nth_error m k); auto. f_equal. f_equal. lia. }
      rewrite X in H. destruct (nth_error m k) eqn:E; [|discriminate]. injection H as <- ->. auto.
    - intros H. exists (i, true). split; auto. apply filter_In. split; auto.
      assert (X : forall s, In (s + i, true) (combine (seq s (List.length m)) m)).
      { clear -H. revert i H. induction m; intros i H s; [destruct i; discriminate|]. simpl. destruct i; simpl in H.
        - injection H as ->. left. f_equal. lia. - right. replace (s + S i) with (S s + i) by lia. auto. }
      apply (X 0).
  Qed.

  (** the mask describes the list, the index lists describe the mask *)
  Definition coherent (parms : list string) (st : freeze_st) : Prop :=
    st = update_frozen parms (fz_list st) /\ forall p, In p (fz_list st) -> In p parms.
  Lemma coherent_init parms : coherent parms (finit parms).
  Proof. split; auto. simpl. tauto. Qed.
  Lemma coherent_step parms st o : coherent parms st -> coherent parms (fstep' rx parms st o).
  Proof.
    intros [E H]. unfold fstep'. destruct o as [e|e]; simpl.
    - unfold freeze_params. destruct (match_params rx e parms) as [m|] eqn:M; simpl; [|split; auto].
      apply match_params_spec in M. destruct M as (_ & _ & _ & M). split; auto. simpl. intros p Hp.
      apply in_app_iff in Hp. destruct Hp as [Hp|Hp]; auto. apply M in Hp. tauto.
    - unfold defreeze_params. destruct (match_params rx e parms) as [m|] eqn:M; simpl; [|split; auto].
      split; auto. simpl. intros p Hp. apply filter_In in Hp. apply H. tauto.
  Qed.
  Lemma frun_app parms st a b : frun rx parms st (a ++ b) = frun rx parms (frun rx parms st a) b.
  Proof. apply fold_left_app. Qed.
  Lemma coherent_run parms ops st : coherent parms st -> coherent parms (frun rx parms st ops).
  Proof.
    revert st. induction ops; intros st H; simpl; auto. apply IHops. apply coherent_step. auto.
  Qed.
  Lemma step_list parms st o p : In p parms ->
    In p (fz_list (fstep' rx parms st o)) <-> freezes rx p o \/ (In p (fz_list st) /\ ~ releases rx p o).
  Proof.
    intros P. unfold fstep', freezes, releases. destruct o as [e|e]; simpl.
    - unfold freeze_params. destruct (match_params rx e parms) as [m|] eqn:M; simpl.
      + apply match_params_spec in M. destruct M as (V & _ & _ & M). rewrite in_app_iff, M. split.
        * intros [H|[_ H]]; [|left; exists e; auto]. right. split; auto. intros (e' & E & _). discriminate.
        * intros [(e' & E & V' & S)|[H _]]; [|auto]. injection E as <-. auto.
      + split.
        * intros H. right. split; auto. intros (e' & E & _). discriminate.
        * intros [(e' & E & V' & S)|[H _]]; auto. injection E as <-.
          destruct (proj1 (match_params_spec e parms) V') as [r Hr]. congruence.
    - unfold defreeze_params. destruct (match_params rx e parms) as [m|] eqn:M; simpl.
      + apply match_params_spec in M. destruct M as (V & _ & _ & M). rewrite filter_In, negb_true_iff.
        assert (X : smem p m = false <-> ~ In p m).
        { rewrite <- smem_In. destruct (smem p m); split; intros; try congruence; auto. }
        rewrite X, M. split.
        * intros [H N]. right. split; auto. intros (e' & E & _ & S). injection E as <-. auto.
        * intros [(e' & E & _)|[H N]]; [discriminate|]. split; auto. intros [_ S]. apply N. exists e. auto.
      + split.
        * intros H. right. split; auto. intros (e' & E & V & _). injection E as <-.
          destruct (proj1 (match_params_spec e parms) V) as [r Hr]. congruence.
        * intros [(e' & E & _)|[H _]]; [discriminate|auto].
  Qed.
  Theorem frun_frozen parms ops p : In p parms ->
    In p (fz_list (frun rx parms (finit parms) ops)) <-> is_frozen rx ops p.
  Proof.
    intros P. induction ops as [|o ops IH] using rev_ind.
    - simpl. split; [tauto|]. intros (a & o & b & E & _). destruct a; discriminate.
    - rewrite frun_app. simpl. rewrite step_list, IH by auto. split.
      + intros [H|[(a & o' & b & -> & F & N) R]].
        * exists ops, o, []. split; auto.
        * exists a, o', (b ++ [o]). split. { rewrite <- app_assoc. auto. } split; auto.
          intros x Hx. apply in_app_iff in Hx. destruct Hx as [Hx|[<-|[]]]; auto.
      + intros (a & o' & b & E & F & N). destruct b as [|y b] using rev_ind.
        * apply app_inj_tail in E. destruct E as [-> <-]. auto.
        * clear IHb. rewrite app_comm_cons, app_assoc in E. apply app_inj_tail in E. destruct E as [-> <-].
          right. split.
          { exists a, o', b. split; auto. split; auto. intros x Hx. apply N. apply in_app_iff. auto. }
          apply N. apply in_app_iff. simpl. auto.
  Qed.
  Theorem frun_mask parms ops i p : nth_error parms i = Some p ->
    let st := frun rx parms (finit parms) ops in
    (nth_error (fz_mask st) i = Some true <-> is_frozen rx ops p) /\
    (In i (fz_idx st) <-> is_frozen rx ops p) /\ (In i (fz_float st) <-> ~ is_frozen rx ops p).
  Proof.
    intros H st. destruct (coherent_run parms ops _ (coherent_init parms)) as [E _]. fold st in E.
    assert (P : In p parms) by (eapply nth_error_In; eauto).
    assert (M : fz_mask st = map (fun q => smem q (fz_list st)) parms) by (rewrite E at 1; auto).
    assert (MI : nth_error (fz_mask st) i = Some (smem p (fz_list st))).
    { rewrite M, nth_error_map', H. auto. }
    assert (T : nth_error (fz_mask st) i = Some true <-> is_frozen rx ops p).
    { rewrite MI, <- frun_frozen, <- smem_In by eauto. fold st. split; congruence. }
    split; auto. split.
    - rewrite E. cbn [fz_idx update_frozen]. rewrite where_true_spec, <- M. auto.
    - rewrite E. cbn [fz_float update_frozen]. rewrite where_true_spec, <- M, nth_error_map', MI. simpl.
      rewrite <- T, MI. destruct (smem p (fz_list st)); simpl; split; congruence.
  Qed.
  Theorem mask_length parms ops : List.length (fz_mask (frun rx parms (finit parms) ops)) = List.length parms.
  Proof.
    destruct (coherent_run parms ops _ (coherent_init parms)) as [E _]. rewrite E. simpl. apply map_length.
  Qed.
End Proof.
