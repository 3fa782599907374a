(** Proofs about the state a fit starts from. *)
From Coq Require Import List Arith Bool String Ascii ZArith Reals Lra Lia DecimalString DecimalNat.
From Verif Require Import PyList PyDict ListUtil RBase BBStat_Model Freeze_Model Freeze_Spec Freeze_Proof Writer_Model Fit_Model Session_Model Session_Spec.
Import ListNotations.
Local Open Scope R_scope.

(** [s] with other data *)
Definition upd (n l v m : vec) (s : fstate) : fstate := set_nexpnom (set_data s n l v) m.
Lemma same_upd n l v s m t : n = f_nobs s -> l = f_lognobs s -> v = f_varnobs s -> same_state s t -> same_state (upd n l v m s) t.
Proof. intros -> -> -> H. exact H. Qed.
Lemma same_refl s : same_state s s.
Proof. repeat split. Qed.
Lemma same_sym a b : same_state a b -> same_state b a.
Proof. unfold same_state. intuition. Qed.
Lemma same_trans a b c : same_state a b -> same_state b c -> same_state a c.
Proof. unfold same_state. intuition congruence. Qed.

Ltac fixt := repeat (match goal with |- _ /\ _ => split | |- _ -> _ => intro end); try discriminate; auto.
Section P.
  Variable env : senv.
  Definition fixed (a b : fstate) : Prop :=
    f_tau a = f_tau b /\ f_fz a = f_fz b /\
    (v_hascov env = false -> f_cov a = f_cov b) /\
    (v_bb env = false -> f_beta a = f_beta b /\ f_beta0 a = f_beta0 b /\ f_logbeta0 a = f_logbeta0 b) /\
    (v_chi2 env = false -> f_varnobs a = f_varnobs b) /\
    (v_doblind env = false -> f_off a = f_off b).
  Lemma fixed_refl a : fixed a a. Proof. unfold fixed; repeat split; auto. Qed.
  Lemma fixed_trans a b c : fixed a b -> fixed b c -> fixed a c.
  Proof. unfold fixed. intros (A1 & A2 & A3 & A4 & A5 & A6) (B1 & B2 & B3 & B4 & B5 & B6).
    split; [congruence|]. split; [congruence|]. split; [intros Q; rewrite A3, B3; auto|].
    split; [intros Q; destruct (A4 Q) as (? & ? & ?), (B4 Q) as (? & ? & ?); repeat split; congruence|].
    split; [intros Q; rewrite A5, B5; auto|intros Q; rewrite A6, B6; auto]. Qed.
  Lemma fixed_sym a b : fixed a b -> fixed b a.
  Proof. unfold fixed. intros (A1 & A2 & A3 & A4 & A5 & A6).
    split; [congruence|]. split; [congruence|]. split; [intros Q; rewrite A3; auto|].
    split; [intros Q; destruct (A4 Q) as (? & ? & ?); repeat split; congruence|].
    split; [intros Q; rewrite A5; auto|intros Q; rewrite A6; auto]. Qed.

  Lemma default_same a b : fixed a b -> exists n l v m, defaultassign env a = upd n l v m (defaultassign env b) /\ (v_chi2 env = false -> v = f_varnobs b).
  Proof.
    intros (A1 & A2 & A3 & A4 & A5 & A6). exists (f_nobs a), (f_lognobs a), (f_varnobs a), (f_nexpnom a).
    split; [|auto].
    destruct a as [ax ax0 ab ab0 al an aln av ac avp ao ar at_ az am], b as [bx bx0 bb bb0 bl bn bln bv bc bvp bo br bt bz bm]. cbn in *. subst.
    unfold defaultassign, upd, set_blinding, expected_yield, eff.
    destruct (v_hascov env); [|rewrite A3 by auto]; destruct (v_bb env); [|destruct (A4 eq_refl) as (-> & -> & ->)| |destruct (A4 eq_refl) as (-> & -> & ->)];
      (destruct (v_doblind env); [|rewrite A6 by auto]); reflexivity.
  Qed.
  Lemma default_varnobs b : f_varnobs (defaultassign env b) = f_varnobs b.
  Proof. unfold defaultassign, set_blinding. destruct (v_hascov env), (v_bb env), (v_doblind env); reflexivity. Qed.
  Lemma yield_upd full n l v m s : expected_yield env full (upd n l v m s) = expected_yield env full s.
  Proof. reflexivity. Qed.
  Lemma setnobs_same n l v m vals vars s : (v_chi2 env = false -> v = f_varnobs s) ->
    same_result (set_nobs env vals vars (upd n l v m s)) (set_nobs env vals vars s).
  Proof.
    intros H. unfold set_nobs. destruct (v_chi2 env).
    - destruct existsb; simpl; auto. repeat split.
    - simpl. rewrite H by auto. repeat split.
  Qed.
  Variable dr : draws.
  Lemma rb_upd n l v m s : randomize_bayes env dr (upd n l v m s) = upd n l v m (randomize_bayes env dr s).
  Proof. unfold randomize_bayes. destruct (v_bb env), (v_bbt env); reflexivity. Qed.
  Lemma rf_upd n l v m s : randomize_freq env dr (upd n l v m s) = upd n l v m (randomize_freq env dr s).
  Proof. unfold randomize_freq. destruct (v_bb env), (v_bbt env); reflexivity. Qed.
  Lemma systs_upd o n l v m s :
    match to_syst o with SrBayes => bayesassign env dr (upd n l v m s) | SrFreq => frequentistassign env dr (upd n l v m s) | SrNone => upd n l v m s end
    = upd n l v m (match to_syst o with SrBayes => bayesassign env dr s | SrFreq => frequentistassign env dr s | SrNone => s end).
  Proof.
    destruct (to_syst o); auto.
    - unfold frequentistassign. rewrite <- rf_upd. auto.
    - unfold bayesassign. rewrite <- rb_upd. auto.
  Qed.
  Lemma varnobs_systs o s :
    f_varnobs (match to_syst o with SrBayes => bayesassign env dr s | SrFreq => frequentistassign env dr s | SrNone => s end) = f_varnobs s.
  Proof.
    destruct (to_syst o); auto.
    - unfold frequentistassign, randomize_freq. destruct (v_bb env), (v_bbt env); reflexivity.
    - unfold bayesassign, randomize_bayes. destruct (v_bb env), (v_bbt env); reflexivity.
  Qed.
  Lemma finish_same o a b : same_state a b ->
    let fin s := (let s := set_x s (v_x0def env) in
    let s := if v_bb env then set_beta s (f_beta0 s) else s in
    let s := set_nexpnom s (expected_yield env false s) in
    if to_params o then
          let s := match f_cov s with
                   | None => set_x s (dr_gaussx dr (f_x s) (map sqrt (f_varpre s)))
                   | Some c => if is_diag c then set_x s (dr_gaussx dr (f_x s) (map sqrt (diag_part c)))
                               else set_x s (dr_mvnx dr (f_x s) c)
                   end in
          randomize_postfit env dr s
        else s) in same_state (fin a) (fin b).
  Proof.
    intros (H1 & H2 & H3 & H4 & H5 & H6 & H7 & H8 & H9 & H10 & H11 & H12 & H13 & H14).
    destruct a, b. cbn in *. subst. destruct (v_bb env) eqn:B, (to_params o); cbn;
      repeat (match goal with |- context[match ?c with _ => _ end] => destruct c end); cbn;
      unfold randomize_postfit; rewrite ?B; repeat split; reflexivity.
  Qed.
  Lemma toy_same o n l v m vals vars s : (v_chi2 env = false -> v = f_varnobs s) ->
    same_result (toyassign env dr o vals vars (upd n l v m s)) (toyassign env dr o vals vars s).
  Proof.
    intros H. unfold toyassign. rewrite systs_upd. rewrite <- (varnobs_systs o s) in H.
    set (s1 := match to_syst o with SrBayes => bayesassign env dr s | SrFreq => frequentistassign env dr s | SrNone => s end) in *.
    rewrite yield_upd. set (nom := if to_observed o then vals else expected_yield env false s1).
    assert (D : forall r r', same_result r r' -> same_result
       (s <- r ;; (let s := set_x s (v_x0def env) in
    let s := if v_bb env then set_beta s (f_beta0 s) else s in
    let s := set_nexpnom s (expected_yield env false s) in
    Ok (if to_params o then
          let s := match f_cov s with
                   | None => set_x s (dr_gaussx dr (f_x s) (map sqrt (f_varpre s)))
                   | Some c => if is_diag c then set_x s (dr_gaussx dr (f_x s) (map sqrt (diag_part c)))
                               else set_x s (dr_mvnx dr (f_x s) c)
                   end in
          randomize_postfit env dr s
        else s)))
       (s <- r' ;; (let s := set_x s (v_x0def env) in
    let s := if v_bb env then set_beta s (f_beta0 s) else s in
    let s := set_nexpnom s (expected_yield env false s) in
    Ok (if to_params o then
          let s := match f_cov s with
                   | None => set_x s (dr_gaussx dr (f_x s) (map sqrt (f_varpre s)))
                   | Some c => if is_diag c then set_x s (dr_gaussx dr (f_x s) (map sqrt (diag_part c)))
                               else set_x s (dr_mvnx dr (f_x s) c)
                   end in
          randomize_postfit env dr s
        else s)))).
    { intros [a|e] [b|e'] Q; simpl in Q; try contradiction; [|subst; reflexivity]. exact (finish_same o a b Q). }
    apply D. destruct (to_data o).
    - destruct (v_covfit env); [reflexivity|]. apply setnobs_same; auto.
    - destruct (v_covfit env); apply setnobs_same; auto.
    - apply setnobs_same; auto.
  Qed.
  Lemma blind_same b x y : same_state x y -> same_state (set_blinding env b x) (set_blinding env b y).
  Proof.
    unfold set_blinding. destruct (v_doblind env); auto. intros H. unfold same_state in *. cbn. intuition congruence.
  Qed.
  Theorem start_same o f vals vars a b : (-1 <= f)%Z -> fixed a b ->
    same_result (start_state env dr o f vals vars a) (start_state env dr o f vals vars b).
  Proof.
    intros F X. destruct (default_same a b X) as (n & l & v & m & E & V).
    rewrite <- default_varnobs in V.
    assert (P : same_result (prefit_state env dr o f vals vars a) (prefit_state env dr o f vals vars b)).
    { unfold prefit_state. rewrite E. set (d := defaultassign env b) in *. rewrite yield_upd.
      destruct (Z.eqb_spec f (-1)); [apply setnobs_same; auto|].
      destruct (Z.eqb_spec f 0); [apply setnobs_same; auto|].
      destruct (Z.leb_spec 1 f); [|lia]. apply toy_same; auto. }
    unfold start_state. destruct (prefit_state env dr o f vals vars a), (prefit_state env dr o f vals vars b); simpl in *; auto.
    apply blind_same; auto.
  Qed.
  (** *** offsets *)
  Lemma default_off s : v_doblind env = true -> f_off (defaultassign env s) = neutral env.
  Proof. intros H. unfold defaultassign, set_blinding. rewrite H. destruct (v_hascov env), (v_bb env); reflexivity. Qed.
  Lemma setnobs_off vals vars s t : set_nobs env vals vars s = Ok t -> f_off t = f_off s.
  Proof. unfold set_nobs. destruct (v_chi2 env); [destruct existsb|]; intros E; inversion E; reflexivity. Qed.
  Lemma prefit_off o f vals vars s t : v_doblind env = true -> prefit_state env dr o f vals vars s = Ok t -> f_off t = neutral env.
  Proof.
    intros B E. unfold prefit_state in E. rewrite <- (default_off s B). set (d := defaultassign env s) in *.
    destruct (f =? -1)%Z; [apply setnobs_off in E; auto|]. destruct (f =? 0)%Z; [apply setnobs_off in E; auto|].
    destruct (1 <=? f)%Z; [|congruence]. unfold toyassign in E.
    set (s1 := match to_syst o with SrBayes => bayesassign env dr d | SrFreq => frequentistassign env dr d | SrNone => d end) in *.
    assert (O : f_off s1 = f_off d).
    { unfold s1. destruct (to_syst o); auto; unfold frequentistassign, bayesassign, randomize_freq, randomize_bayes; destruct (v_bb env), (v_bbt env); reflexivity. }
    match type of E with rbind ?r _ = _ => destruct r as [s2|] eqn:R; [|discriminate] end. cbn [rbind] in E. injection E as <-.
    assert (O2 : f_off s2 = f_off s1).
    { destruct (to_data o); [destruct (v_covfit env); [discriminate|]|destruct (v_covfit env)|]; apply setnobs_off in R; auto. }
    rewrite <- O, <- O2. clear. destruct (to_params o), (v_bb env); cbn; auto;
      unfold randomize_postfit; repeat (match goal with |- context[match ?c with _ => _ end] => destruct c end); reflexivity.
  Qed.
  Lemma prefit_keeps o f vals vars s t : prefit_state env dr o f vals vars s = Ok t -> fixed s t.
  Proof.
    intros E. unfold prefit_state in E.
    assert (D : fixed s (defaultassign env s)).
    { unfold fixed, defaultassign, set_blinding. destruct (v_hascov env), (v_bb env), (v_doblind env); cbn; fixt. }
    apply (fixed_trans _ (defaultassign env s)); auto. clear D. revert E. generalize (defaultassign env s). clear s. intros s E.
    assert (N : forall a b u w, set_nobs env a b u = Ok w -> fixed u w).
    { intros a b u w. unfold set_nobs, fixed. destruct (v_chi2 env); [destruct existsb|]; intros Q; inversion Q; cbn; fixt. }
    destruct (f =? -1)%Z; [eauto|]. destruct (f =? 0)%Z; [eauto|].
    destruct (1 <=? f)%Z; [|injection E as <-; apply fixed_refl]. unfold toyassign in E.
    set (s1 := match to_syst o with SrBayes => bayesassign env dr s | SrFreq => frequentistassign env dr s | SrNone => s end) in *.
    assert (O : fixed s s1).
    { unfold s1, fixed. destruct (to_syst o); [| |repeat split; auto]; unfold frequentistassign, bayesassign, randomize_freq, randomize_bayes;
        destruct (v_bb env), (v_bbt env); cbn; fixt. }
    match type of E with rbind ?r _ = _ => destruct r as [s2|] eqn:R; [|discriminate] end. cbn [rbind] in E. injection E as <-.
    assert (O2 : fixed s1 s2).
    { destruct (to_data o); [destruct (v_covfit env); [discriminate|]|destruct (v_covfit env)|]; apply N in R; auto. }
    apply (fixed_trans _ s1); auto. apply (fixed_trans _ s2); auto. clear. unfold fixed.
    destruct s2 as [x x0 b b0 lb n ln_ vn c vp off_ re ta z ne]. unfold randomize_postfit.
    destruct (to_params o), (v_bb env) eqn:B; cbn; destruct c; cbn;
      try (match goal with |- context[is_diag ?c] => destruct (is_diag c) end); cbn; fixt.
  Qed.
  Lemma start_keeps o f vals vars s t : start_state env dr o f vals vars s = Ok t -> fixed s t.
  Proof.
    unfold start_state. destruct (prefit_state env dr o f vals vars s) as [u|] eqn:E; [|discriminate]. cbn [rbind]. intros H.
    injection H as <-. apply prefit_keeps in E. apply (fixed_trans _ u); auto. unfold fixed, set_blinding.
    destruct (v_doblind env); cbn; fixt.
  Qed.
  Theorem start_off o f vals vars s t : v_doblind env = true -> start_state env dr o f vals vars s = Ok t ->
    f_off t = if blinded_fit o f then (v_bpoi env, v_btheta env) else neutral env.
  Proof.
    intros B. unfold start_state. destruct (prefit_state env dr o f vals vars s) as [u|] eqn:E; [|discriminate]. cbn [rbind]. intros H.
    injection H as <-. unfold set_blinding. rewrite B. reflexivity.
  Qed.
End P.

Lemma filter_none {A} (f : A -> bool) l : (forall x, In x l -> f x = false) -> filter f l = [].
Proof. induction l; cbn; intros H; auto. rewrite H by auto. auto. Qed.
Lemma filter_id' {A} (f : A -> bool) l : (forall x, In x l -> f x = true) -> filter f l = l.
Proof. induction l; cbn; intros H; auto. rewrite H by auto. f_equal. auto. Qed.
Section R.
  Variable env : senv.
  (** freezing and releasing what was free restores the state *)
  Lemma restore z z1 z2 ps : coherent (v_parms env) z -> literal (v_rx env) (v_parms env) ps ->
    (forall q, In q ps -> ~ In q (fz_list z)) ->
    freeze_params (v_rx env) (v_parms env) z ps = Ok z1 -> defreeze_params (v_rx env) (v_parms env) z1 ps = Ok z2 -> z2 = z.
  Proof.
    intros [C _] L D. unfold freeze_params, defreeze_params.
    destruct (match_params (v_rx env) ps (v_parms env)) as [m|] eqn:M; [|discriminate]. cbn [rbind]. intros E1 E2.
    injection E1 as <-. injection E2 as <-. apply match_params_spec in M. destruct M as (_ & _ & _ & M).
    rewrite C. f_equal. cbn [fz_list update_frozen].
    assert (X : forall q, In q m -> In q ps).
    { intros q Q. apply M in Q. destruct Q as (Q & e & Ie & [<-|(f & Ef & Fq)]); auto. eapply L; eauto. }
    rewrite filter_app. rewrite (filter_none _ m).
    - rewrite app_nil_r. apply filter_id'. intros x Hx. apply negb_true_iff. destruct (smem x m) eqn:Q; auto. apply smem_In in Q. destruct (D x); auto.
    - intros x Hx. apply negb_false_iff. apply smem_In. auto.
  Qed.
  Definition okops (frozen : list string) (ps : list pop) : Prop := Forall (harmless env frozen) ps.
  Lemma pstep_keeps s t p : coherent (v_parms env) (f_fz s) -> harmless env (fz_list (f_fz s)) p -> pstep env s p = Ok t -> fixed env s t.
  Proof.
    intros C. destruct p as [x|b|c|x [c|]|steps|steps|x0 x|ps x|ms ok x]; cbn [pstep harmless]; intros H E.
    - injection E as <-. unfold fixed; cbn; fixt.
    - unfold fixed. destruct (v_bb env); [|discriminate]. injection E as <-. cbn; fixt.
    - unfold fixed. destruct (v_hascov env); [|discriminate]. injection E as <-. cbn; fixt.
    - unfold fixed. destruct (v_hascov env); [|discriminate]. injection E as <-. cbn; fixt.
    - injection E as <-. unfold fixed; cbn; fixt.
    - injection E as <-.
      assert (X : forall l u, let w := fold_left (fun s st => set_x (set_tau s (fst st)) (snd st)) l u in
         f_fz u = f_fz w /\ f_cov u = f_cov w /\ f_beta u = f_beta w /\ f_beta0 u = f_beta0 w /\ f_logbeta0 u = f_logbeta0 w /\ f_varnobs u = f_varnobs w /\ f_off u = f_off w).
      { induction l as [|st l IH]; intros u; cbn; [repeat split|]. exact (IH (set_x (set_tau u (fst st)) (snd st))). }
      destruct (X steps s) as (A & B & C0 & D & F & G & I). unfold fixed; cbn. fixt.
    - contradiction.
    - injection E as <-. unfold fixed; cbn; fixt.
    - destruct H as [L D]. destruct (freeze_params _ _ _ _) as [z1|] eqn:E1; [|discriminate]. cbn [rbind] in E.
      destruct (defreeze_params _ _ _ _) as [z2|] eqn:E2; [|discriminate]. cbn [rbind] in E. injection E as <-.
      rewrite (restore _ _ _ _ C L D E1 E2). unfold fixed; cbn; fixt.
    - unfold already in E. set (todo := filter (fun m => negb (smem m (fz_list (f_fz s)))) ms) in *.
      assert (Z : exists z1 z2, (if ok then Ok (set_fz (set_x s x) z2) else Raise GenericException) = Ok t /\ (z2 = f_fz s \/
        (freeze_params (v_rx env) (v_parms env) (f_fz s) todo = Ok z1 /\ defreeze_params (v_rx env) (v_parms env) z1 todo = Ok z2))).
      { destruct todo as [|y r]; [exists (f_fz s), (f_fz s); auto|].
        destruct (freeze_params _ _ _ _) as [z1|] eqn:E1; [|discriminate]. cbn [rbind] in E.
        destruct (defreeze_params _ _ _ _) as [z2|] eqn:E2; [|discriminate]. exists z1, z2. auto. }
      destruct Z as (z1 & z2 & Et & Z). assert (z2 = f_fz s) as ->.
      { destruct Z as [|[E1 E2]]; auto. eapply restore; eauto. intros q Q I. apply filter_In in Q. destruct Q as [_ Q].
        apply negb_true_iff in Q. apply smem_In in I. congruence. }
      destruct ok; [|discriminate]. injection Et as <-. unfold fixed; cbn; fixt.
  Qed.
  Lemma psteps_keeps ps : forall s t, coherent (v_parms env) (f_fz s) -> okops (fz_list (f_fz s)) ps -> psteps env s ps = Ok t -> fixed env s t.
  Proof.
    induction ps as [|p ps IH]; cbn [psteps]; intros s t C H E; [injection E as <-; apply fixed_refl|].
    inversion H as [|? ? H1 H2]; subst. destruct (pstep env s p) as [u|] eqn:E1; [|discriminate]. cbn [rbind] in E.
    assert (F : fixed env s u) by (eapply pstep_keeps; eauto). assert (Z : f_fz s = f_fz u) by apply F.
    apply (fixed_trans _ _ u); auto. apply IH; auto; rewrite <- Z; auto.
  Qed.
  Theorem session_keeps o rs : forall s t, coherent (v_parms env) (f_fz s) ->
    Forall (fun r => okops (fz_list (f_fz s)) (r_ops r)) rs -> session env o s rs = Ok t -> fixed env s t.
  Proof.
    induction rs as [|r rs IH]; cbn [session]; intros s t C H E; [injection E as <-; apply fixed_refl|].
    inversion H as [|? ? H1 H2]; subst.
    destruct (start_state env (r_draws r) o (r_f r) (r_values r) (r_variances r) s) as [u|] eqn:E1; [|discriminate]. cbn [rbind] in E.
    destruct (psteps env u (r_ops r)) as [w|] eqn:E2; [|discriminate]. cbn [rbind] in E.
    apply start_keeps in E1. assert (Z : f_fz s = f_fz u) by apply E1.
    apply psteps_keeps in E2; [|rewrite <- Z; auto|rewrite <- Z; auto]. assert (Z2 : f_fz u = f_fz w) by apply E2.
    apply (fixed_trans _ _ u); auto. apply (fixed_trans _ _ w); auto. apply IH; auto; rewrite <- Z2, <- Z; auto.
  Qed.
End R.

(** *** offsets during a fit *)
Lemma pstep_off env s p t : pstep env s p = Ok t -> f_off t = f_off s.
Proof.
  destruct p as [x|b|c|x [c|]|steps|steps|x0 x|ps x|ms ok x]; cbn [pstep]; intros E.
  - injection E as <-. reflexivity.
  - destruct (v_bb env); [|discriminate]. injection E as <-. reflexivity.
  - destruct (v_hascov env); [|discriminate]. injection E as <-. reflexivity.
  - destruct (v_hascov env); [|discriminate]. injection E as <-. reflexivity.
  - injection E as <-. reflexivity.
  - injection E as <-. cbn. revert s. induction steps as [|st l IH]; intros s; cbn; auto. rewrite IH. reflexivity.
  - injection E as <-. revert s. induction steps as [|st l IH]; intros s; cbn; auto. rewrite IH. reflexivity.
  - injection E as <-. reflexivity.
  - destruct (freeze_params _ _ _ _) as [z1|] eqn:E1; [|discriminate]. cbn [rbind] in E.
    destruct (defreeze_params _ _ _ _) as [z2|] eqn:E2; [|discriminate]. cbn [rbind] in E. injection E as <-. reflexivity.
  - destruct (match filter _ ms with [] => _ | _ => _ end) as [z1|]; [|discriminate]. cbn [rbind] in E.
    destruct (match filter _ ms with [] => _ | _ => _ end) as [z2|]; [|discriminate]. cbn [rbind] in E.
    destruct ok; [|discriminate]. injection E as <-. reflexivity.
Qed.
Lemma psteps_off env ps : forall s t, psteps env s ps = Ok t -> f_off t = f_off s.
Proof.
  induction ps as [|p ps IH]; cbn [psteps]; intros s t E; [injection E as <-; auto|].
  destruct (pstep env s p) as [u|] eqn:E1; [|discriminate]. cbn [rbind] in E. apply pstep_off in E1. apply IH in E. congruence.
Qed.
Lemma blinded_spec o f : blinded_fit o f = true <-> uses_data o f.
Proof.
  unfold blinded_fit, uses_data. rewrite orb_true_iff, andb_true_iff, Z.eqb_eq, Z.ltb_lt. intuition lia.
Qed.

(** *** a fit that is not blinded does not see the data *)
Lemma unblinded_data env dr o f vals vals' vars s : (-1 <= f)%Z -> ~ uses_data o f ->
  start_state env dr o f vals vars s = start_state env dr o f vals' vars s.
Proof.
  intros F U. unfold start_state. f_equal. unfold prefit_state. destruct (Z.eqb_spec f (-1)); auto.
  destruct (Z.eqb_spec f 0); [destruct U; left; auto|]. destruct (Z.leb_spec 1 f); auto.
  assert (O : to_observed o = false) by (destruct (to_observed o) eqn:Q; auto; destruct U; right; auto).
  unfold toyassign. rewrite O. reflexivity.
Qed.

(** *** grouped impacts *)
Section G.
  Variable rx : regex.
  Variable parms : list string.
  Variable scan : freeze_st -> string -> result interval.
  Lemma restore' z z1 z2 ps : coherent parms z -> (forall q, In q (fz_list z) -> ~ selects rx ps q) ->
    freeze_params rx parms z ps = Ok z1 -> defreeze_params rx parms z1 ps = Ok z2 -> z2 = z.
  Proof.
    intros [C _] D. unfold freeze_params, defreeze_params.
    destruct (match_params rx ps parms) as [m|] eqn:M; [|discriminate]. cbn [rbind]. intros E1 E2.
    injection E1 as <-. injection E2 as <-. apply match_params_spec in M. destruct M as (_ & _ & _ & M).
    rewrite C. f_equal. cbn [fz_list update_frozen].
    rewrite filter_app. rewrite (filter_none _ m).
    - rewrite app_nil_r. apply filter_id'. intros x Hx. apply negb_true_iff. destruct (smem x m) eqn:Q; auto. apply smem_In in Q.
      apply M in Q. destruct (D x); tauto.
    - intros x Hx. apply negb_false_iff. apply smem_In. auto.
  Qed.
  Lemma swf_spec targets members z : coherent parms z -> disjoint_group rx (fz_list z) members ->
    snd (scan_with_frozen rx parms scan (fz_list z) targets members z) = z.
  Proof.
    intros C D. unfold scan_with_frozen. unfold disjoint_group in D. revert D. generalize (filter (fun m => negb (smem m (fz_list z))) members). intros todo D.
    destruct todo as [|y r]; [destruct scan_targets; reflexivity|].
    destruct (freeze_params rx parms z (y :: r)) as [z1|] eqn:E1; [|reflexivity].
    destruct (defreeze_params rx parms z1 (y :: r)) as [z2|] eqn:E2.
    - assert (z2 = z) by (eapply restore'; eauto). subst. reflexivity.
    - exfalso. unfold freeze_params, defreeze_params in *. destruct (match_params rx (y :: r) parms); discriminate.
  Qed.
  (** every scan sees the parameters the user froze and the members of its group, all frozen *)
  Lemma scan_targets_ext z a targets scan' : (forall t, scan z t = scan' z t) -> scan_targets scan z a targets = scan_targets scan' z a targets.
  Proof.
    intros H. induction targets as [|t r IH]; cbn [scan_targets]; auto. destruct (smem t a); [rewrite IH; auto|]. rewrite H, IH. reflexivity.
  Qed.
  Lemma swf_frozen scan' targets members z : coherent parms z -> (forall m, In m members -> In m parms) ->
    (forall z' t, (forall q, In q (fz_list z) \/ In q members -> In q (fz_list z')) -> scan z' t = scan' z' t) ->
    scan_with_frozen rx parms scan (fz_list z) targets members z = scan_with_frozen rx parms scan' (fz_list z) targets members z.
  Proof.
    intros C M H. unfold scan_with_frozen.
    assert (T : forall q, In q (fz_list z) \/ In q members -> In q (fz_list z) \/ In q (filter (fun m => negb (smem m (fz_list z))) members)).
    { intros q [Q|Q]; auto. destruct (smem q (fz_list z)) eqn:S; [apply smem_In in S; auto|]. right. apply filter_In. rewrite S. auto. }
    assert (I : forall q, In q (filter (fun m => negb (smem m (fz_list z))) members) -> In q parms).
    { intros q Q. apply filter_In in Q. apply M. tauto. }
    revert T I. generalize (filter (fun m => negb (smem m (fz_list z))) members). intros todo T I.
    destruct todo as [|y r].
    - rewrite (scan_targets_ext z _ targets scan'); auto. intros t. apply H. intros q Q. destruct (T q Q) as [|[]]; auto.
    - destruct (freeze_params rx parms z (y :: r)) as [z1|] eqn:E1; auto.
      rewrite (scan_targets_ext z1 _ targets scan'); auto. intros t. apply H. intros q Q.
      unfold freeze_params in E1. destruct (match_params rx (y :: r) parms) as [m|] eqn:Em; [|discriminate].
      injection E1 as <-. cbn [fz_list update_frozen]. apply in_app_iff. destruct (T q Q) as [|J]; auto. right.
      apply match_params_spec in Em. destruct Em as (_ & _ & _ & Em). apply Em. split; auto. exists q. auto.
  Qed.
  Lemma sgs_spec targets groups z : coherent parms z -> (forall g, In g groups -> disjoint_group rx (fz_list z) g) ->
    snd (scan_groups rx parms scan (fz_list z) targets groups z) = z.
  Proof.
    intros C. induction groups as [|g r IH]; cbn [scan_groups]; intros D; auto.
    assert (S := swf_spec targets g z C (D g (or_introl eq_refl))).
    destruct (scan_with_frozen rx parms scan (fz_list z) targets g z) as [[a|e] z1]; cbn in S; subst z1; auto.
    assert (S := IH (fun x H => D x (or_intror H))).
    destruct (scan_groups rx parms scan (fz_list z) targets r z) as [[b|e] z2]; auto.
  Qed.
  Theorem grouped_restores targets groups constrained z : coherent parms z ->
    (forall g, In g (groups ++ [constrained]) -> disjoint_group rx (fz_list z) g) ->
    snd (grouped_asym rx parms scan targets groups constrained z) = z.
  Proof.
    intros C D. unfold grouped_asym. destruct (scan_targets scan z [] targets); auto.
    assert (S := sgs_spec targets (groups ++ [constrained]) z C D).
    destruct (scan_groups rx parms scan (fz_list z) targets (groups ++ [constrained]) z) as [[b|e] z2]; auto.
  Qed.
End G.

(** *** names *)
Local Open Scope string_scope.
Local Open Scope list_scope.
Lemma app_assoc_s a b c : ((a ++ b) ++ c = a ++ b ++ c)%string.
Proof. induction a; cbn; f_equal; auto. Qed.
Lemma app_inj_r a b c : (a ++ c = b ++ c)%string -> a = b.
Proof.
  assert (L : forall x y, String.length (x ++ y)%string = (String.length x + String.length y)%nat) by (intros x y; induction x; cbn; auto).
  revert b. induction a as [|x a IH]; intros [|y b] H; auto.
  - apply (f_equal String.length) in H. cbn in H. rewrite L in H. lia.
  - apply (f_equal String.length) in H. cbn in H. rewrite L in H. lia.
  - cbn in H. injection H as -> H. f_equal. auto.
Qed.
Lemma app_inj_l a b c : (a ++ b = a ++ c)%string -> b = c.
Proof. induction a; cbn; auto. intros H. injection H. auto. Qed.
Lemma nat_str_inj m n : nat_str m = nat_str n -> m = n.
Proof.
  unfold nat_str. intros H. apply Unsigned.to_uint_inj.
  assert (X : forall k, NilZero.uint_of_string (NilZero.string_of_uint (Nat.to_uint k)) = Some (Nat.to_uint k)).
  { intros k. apply NilZero.usu. clear. intros E. assert (Q := Unsigned.of_to k). rewrite E in Q. cbn in Q. subst. discriminate. }
  assert (Y := X m). rewrite H, X in Y. congruence.
Qed.
Lemma kind_inj f g : (-1 <= f)%Z -> (-1 <= g)%Z -> kind_label f = kind_label g -> f = g.
Proof.
  intros F G. unfold kind_label. destruct (Z.eqb_spec f (-1)), (Z.eqb_spec g (-1)); try congruence;
    destruct (Z.leb_spec 1 f), (Z.leb_spec 1 g); cbn; try discriminate; try lia.
  intros Q. injection Q as Q. apply nat_str_inj in Q. lia.
Qed.
Lemma doc_inj f g p : (-1 <= f)%Z -> (-1 <= g)%Z -> doc_name f p = doc_name g p -> f = g.
Proof. intros F G H. apply app_inj_l in H. apply app_inj_r in H. apply kind_inj; auto. Qed.
Lemma doc_inj_p f p q : doc_name f (Some p) = doc_name f (Some q) -> p = q.
Proof. intros H. apply app_inj_l in H. apply app_inj_l in H. apply app_inj_l in H. auto. Qed.
Lemma app_nil_s a : (a ++ "")%string = a. Proof. induction a; cbn; f_equal; auto. Qed.
Lemma names_none f : fit_groups None f = [doc_name f None].
Proof.
  unfold fit_groups. cbn [map group_names]. unfold group_step, doc_name, kind_label.
  destruct (f =? -1)%Z; [|destruct (1 <=? f)%Z]; cbn; rewrite ?app_nil_s; reflexivity.
Qed.
Lemma names_one f n : fit_groups (Some [n]) f = [doc_name f (Some n)].
Proof.
  unfold fit_groups. cbn [map group_names]. unfold group_step, doc_name, kind_label.
  destruct (f =? -1)%Z; [|destruct (1 <=? f)%Z]; cbn; rewrite ?app_assoc_s; reflexivity.
Qed.
Lemma group_names_zero f l : (f =? -1)%Z = false -> (1 <=? f)%Z = false -> forall j x,
  group_names f (map Some l) (S j) ["results"; x] = map (fun n => doc_name f (Some n)) l.
Proof.
  intros F G. induction l as [|n l IH]; intros j x; cbn [group_names map]; auto.
  unfold group_step at 1 2. rewrite F, G. change (Nat.eqb (S j) 0) with false. change (set_last ["results"; x] n) with ["results"; n]. cbn iota beta. rewrite IH.
  f_equal. unfold doc_name, kind_label. rewrite F, G. reflexivity.
Qed.
Lemma names_zero l : fit_groups (Some l) 0%Z = map (fun n => doc_name 0%Z (Some n)) l.
Proof.
  unfold fit_groups. destruct l as [|n l]; auto. cbn [group_names map]. unfold group_step at 1 2. cbn [Z.eqb Z.leb Z.compare Nat.eqb app].
  rewrite (group_names_zero 0%Z l eq_refl eq_refl). reflexivity.
Qed.
(** with several pseudodata sets a later name carries all the earlier ones *)
Lemma names_many f a b r : f = (-1)%Z \/ (1 <= f)%Z ->
  exists t, fit_groups (Some (a :: b :: r)) f = doc_name f (Some a) :: doc_name f (Some (a ++ "_" ++ b)%string) :: t.
Proof.
  intros H. unfold fit_groups. cbn [map group_names].
  assert (X : String.concat "_" (group_step f (Some a) 0 ["results"]) = doc_name f (Some a)).
  { assert (E := names_one f a). unfold fit_groups in E. cbn [map group_names] in E. congruence. }
  assert (Y : String.concat "_" (group_step f (Some b) 1 (group_step f (Some a) 0 ["results"])) = doc_name f (Some (a ++ "_" ++ b)%string)).
  { unfold group_step, doc_name, kind_label. destruct (Z.eqb_spec f (-1)); [cbn|destruct (Z.leb_spec 1 f); [cbn|lia]]; rewrite ?app_assoc_s; reflexivity. }
  eexists. rewrite X, Y. reflexivity.
Qed.
Lemma all_none fits : all_groups None fits = map (fun f => doc_name f None) fits.
Proof. unfold all_groups. induction fits as [|f r IH]; cbn [map List.concat]; auto. rewrite IH, names_none. auto. Qed.
Lemma all_one fits n : all_groups (Some [n]) fits = map (fun f => doc_name f (Some n)) fits.
Proof. unfold all_groups. induction fits as [|f r IH]; cbn [map List.concat]; auto. rewrite IH, names_one. auto. Qed.
Lemma NoDup_map' {A B} (f : A -> B) l : (forall x y, In x l -> In y l -> f x = f y -> x = y) -> NoDup l -> NoDup (map f l).
Proof.
  induction l as [|a l IH]; cbn; intros H N; constructor; inversion N; subst; auto.
  rewrite in_map_iff. intros (x & E & I). apply H in E; auto. subst. auto.
Qed.
(** the requested fits are distinct if at most one number of toys is given and nothing is repeated *)
Definition at_most_one_positive (toys : list Z) : Prop :=
  forall i j x y, nth_error toys i = Some x -> nth_error toys j = Some y -> (0 < x)%Z -> (0 < y)%Z -> i = j.
Lemma expand_in toys f : In f (expand_toys toys) <-> (In f toys /\ (f <= 0)%Z) \/ ((1 <= f)%Z /\ exists n, In n toys /\ (f <= n)%Z).
Proof.
  unfold expand_toys. rewrite in_concat. split.
  - intros (l & L & I). apply in_map_iff in L. destruct L as (x & <- & X). destruct (Z.leb_spec x 0).
    + destruct I as [<-|[]]. auto.
    + apply in_map_iff in I. destruct I as (i & <- & I). apply in_seq in I. right. split; [lia|]. exists x. split; auto. lia.
  - intros [[I F]|(F & n & I & L)].
    + exists [f]. split; [|left; auto]. apply in_map_iff. exists f. split; auto. destruct (Z.leb_spec f 0); auto; lia.
    + eexists. split; [apply in_map_iff; exists n; split; [reflexivity|exact I]|]. destruct (Z.leb_spec n 0); [lia|].
      apply in_map_iff. exists (Z.to_nat (f - 1)). split; [lia|]. apply in_seq. lia.
Qed.
Lemma expand_nodup toys : NoDup toys -> at_most_one_positive toys -> NoDup (expand_toys toys).
Proof.
  induction toys as [|x r IH]; intros N P; [constructor|]. unfold expand_toys. cbn [map List.concat]. fold (expand_toys r).
  inversion N as [|? ? N1 N2]; subst. assert (Pr : at_most_one_positive r).
  { intros i j a b Hi Hj A B. specialize (P (S i) (S j) a b Hi Hj A B). lia. }
  apply NoDup_app'; auto.
  - destruct (x <=? 0)%Z; [repeat constructor; auto|]. apply NoDup_map'; [intros a b _ _ E; lia|apply seq_NoDup].
  - intros f I J. apply expand_in in J. destruct (Z.leb_spec x 0).
    + destruct I as [<-|[]]. destruct J as [[J _]|(J & _)]; [auto|lia].
    + apply in_map_iff in I. destruct I as (i & <- & I). destruct J as [[_ J]|(_ & n & J & L)]; [lia|].
      apply In_nth_error in J. destruct J as [k J]. specialize (P 0%nat (S k) x n eq_refl J). lia.
Qed.
