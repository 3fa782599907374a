From Coq Require Import Reals List Arith Bool String Permutation Sorted Lia Lra.
From Verif Require Import RBase PyList PyDict ListUtil Order Shape Impacts_Model Init_Proof Read_Model Read_Spec Read_Proof Read_Print.
Import ListNotations.
Local Open Scope nat_scope.
Local Open Scope string_scope.

(** ** the covariance of selected channels *)
Fixpoint ranges (s : nat) (chans : list (string * list R)) : list (string * nat * nat) :=
  match chans with [] => [] | (c, h) :: r => (c, s, List.length h) :: ranges (s + List.length h) r end.
Lemma ranges_ok : forall chans, combine (combine (map fst chans) (starts (map (fun c => List.length (snd c)) chans))) (map (fun c => List.length (snd c)) chans) = ranges 0 chans.
Proof.
  enough (G : forall chans s, combine (combine (map fst chans) (map (fun k => s + sumn (firstn k (map (fun c : string * list R => List.length (snd c)) chans))) (seq 0 (List.length chans)))) (map (fun c => List.length (snd c)) chans) = ranges s chans).
  { intros chans. rewrite <- (G chans 0). unfold starts. rewrite map_length. reflexivity. }
  induction chans as [|(c, h) r IH]; intros s; [reflexivity|]. cbn [List.length seq map fst snd combine ranges firstn]. f_equal; [f_equal; f_equal; cbn; lia|]. rewrite <- (IH (s + List.length h)). f_equal. f_equal. rewrite <- seq_shift, map_map. apply map_ext. intros k. cbn [firstn map sumn fold_right]. fold (sumn (firstn k (map (fun c : string * list R => List.length (snd c)) r))). lia.
Qed.
Definition sel (cs : list string) (chans : list (string * list R)) : list (string * list R) := filter (fun c => smem (fst c) cs) chans.
Definition idxs (cs : list string) (s : nat) (chans : list (string * list R)) : list nat := flat_map (fun cse => seq (snd (fst cse)) (snd cse)) (filter (fun cse => smem (fst (fst cse)) cs) (ranges s chans)).
Lemma idxs_len cs chans : forall s, List.length (idxs cs s chans) = sumn (map (fun c => List.length (snd c)) (sel cs chans)).
Proof.
  induction chans as [|(c, h) r IH]; intros s; [reflexivity|]. unfold idxs, sel in *. cbn [ranges filter fst snd]. destruct (smem c cs); [|apply IH]. cbn [flat_map map sumn fold_right fst snd]. rewrite app_length, seq_length, IH. reflexivity.
Qed.
Lemma position_lt chans c h i : In (c, h) chans -> NoDup (map fst chans) -> i < List.length h -> position chans c i < sumn (map (fun c => List.length (snd c)) chans).
Proof.
  induction chans as [|(n, g) r IH]; intros I N L; [contradiction|]. cbn [map fst] in N. inversion N; subst. cbn [position map snd sumn fold_right]. fold (sumn (map (fun c : string * list R => List.length (snd c)) r)). destruct (String.eqb_spec n c) as [->|E].
  - destruct I as [[= ->]|I]; [lia|]. exfalso. apply H1. apply (in_map fst) in I. exact I.
  - destruct I as [[= -> ->]|I]; [contradiction|]. specialize (IH I H2 L). lia.
Qed.
Lemma idxs_at cs chans : NoDup (map fst chans) -> forall s c h i, In (c, h) chans -> In c cs -> i < List.length h -> nth (position (sel cs chans) c i) (idxs cs s chans) 0 = s + position chans c i.
Proof.
  induction chans as [|(n, g) r IH]; intros N s c h i I C L; [contradiction|]. cbn [map fst] in N. inversion N; subst. unfold sel, idxs. cbn [ranges filter fst snd position]. destruct (smem n cs) eqn:M.
  - cbn [position flat_map fst snd]. destruct (String.eqb_spec n c) as [->|E].
    + destruct I as [[= ->]|I]; [|exfalso; apply H1; apply (in_map fst) in I; exact I]. rewrite app_nth1 by (rewrite seq_length; auto). rewrite seq_nth by auto. lia.
    + destruct I as [[= -> ->]|I]; [contradiction|]. rewrite app_nth2 by (rewrite seq_length; lia). rewrite seq_length. replace (List.length g + _ - List.length g) with (position (sel cs r) c i) by (unfold sel; lia). fold (idxs cs (s + List.length g) r). rewrite (IH H2 _ c h i I C L). lia.
  - destruct (String.eqb_spec n c) as [->|E]; [apply smem_In in C; congruence|]. destruct I as [[= -> ->]|I]; [contradiction|]. fold (idxs cs (s + List.length g) r). fold (sel cs r). rewrite (IH H2 _ c h i I C L). lia.
Qed.
Lemma idxs_lt cs chans : forall s i, In i (idxs cs s chans) -> i < s + sumn (map (fun c => List.length (snd c)) chans).
Proof.
  induction chans as [|(n, g) r IH]; intros s i I; [contradiction|]. unfold idxs in I. cbn [ranges filter fst snd] in I. cbn [map snd sumn fold_right]. fold (sumn (map (fun c : string * list R => List.length (snd c)) r)). destruct (smem n cs).
  - cbn [flat_map fst snd] in I. apply in_app_or in I. destruct I as [I|I]; [apply in_seq in I; lia|]. apply IH in I. lia.
  - apply IH in I. lia.
Qed.
Lemma sel_names cs chans : map fst (sel cs chans) = filter (fun c => smem c cs) (map fst chans).
Proof. unfold sel. induction chans as [|(n, g) r IH]; [reflexivity|]. cbn [filter map fst]. destruct (smem n cs); cbn [map fst]; rewrite IH; reflexivity. Qed.
Lemma sel_hists cs chans : NoDup (map fst chans) -> cs = filter (fun c => smem c cs) (map fst chans) -> flat_map (fun c => match dget c chans with Some h => [h] | None => [] end) cs = map snd (sel cs chans).
Proof.
  intros N E. rewrite E at 1. rewrite <- sel_names. assert (G : forall l, (forall x, In x l -> In x chans) -> flat_map (fun c => match dget c chans with Some h => [h] | None => [] end) (map fst l) = map snd l).
  { induction l as [|(n, g) l IH]; intros S; [reflexivity|]. cbn [map fst snd flat_map]. rewrite (In_dget n g chans N) by (apply S; left; auto). cbn. f_equal. apply IH. intros x X. apply S. right. auto. }
  apply G. intros x X. unfold sel in X. apply filter_In in X. apply X.
Qed.
Lemma hist_cov chans cov cs : NoDup (map fst chans) -> List.length cov = sumn (map (fun c => List.length (snd c)) chans) -> cs <> [] ->
  cs = filter (fun c => smem c cs) (map fst chans) ->
  exists sub, postfit_hist_cov chans cov (Some cs) = Ok (map snd (sel cs chans), sub, cs) /\
    List.length sub = sumn (map (fun c => List.length (snd c)) (sel cs chans)) /\ rect (List.length sub) sub /\
    forall c h i c' h' i', In (c, h) chans -> In c cs -> i < List.length h -> In (c', h') chans -> In c' cs -> i' < List.length h' ->
      nth (position (sel cs chans) c' i') (nth (position (sel cs chans) c i) sub []) 0%R = nth (position chans c' i') (nth (position chans c i) cov []) 0%R.
Proof.
  intros N L NE E. unfold postfit_hist_cov. rewrite ranges_ok. destruct (list_eq_dec string_dec cs _) as [_|Q]; [|contradiction]. rewrite <- E.
  destruct (filter (fun cse => smem (fst (fst cse)) cs) (ranges 0 chans)) as [|x0 xr] eqn:F.
  { exfalso. assert (G : forall s, map (fun x => fst (fst x)) (filter (fun cse => smem (fst (fst cse)) cs) (ranges s chans)) = filter (fun c => smem c cs) (map fst chans)).
    { clear. induction chans as [|(n, g) r IH]; intros s; [reflexivity|]. cbn [ranges filter fst map]. destruct (smem n cs); cbn [map fst]; rewrite IH; reflexivity. }
    specialize (G 0). rewrite F in G. cbn in G. congruence. }
  rewrite <- F. fold (idxs cs 0 chans). unfold sub_cov. rewrite forallb_all by (intros i I; apply idxs_lt in I; apply Nat.ltb_lt; lia). cbn [rbind]. rewrite sel_hists by auto.
  eexists. split; [reflexivity|]. rewrite map_length. split; [apply idxs_len|]. split.
  { apply Forall_forall. intros r Ir. apply in_map_iff in Ir. destruct Ir as (i & <- & _). apply map_length. }
  intros c h i c' h' i' I C Li I' C' Li'.
  assert (P : forall c h i, In (c, h) chans -> In c cs -> i < List.length h -> position (sel cs chans) c i < List.length (idxs cs 0 chans)).
  { clear - N. intros c h i I C Li. rewrite idxs_len. apply (position_lt (sel cs chans) c h); [unfold sel; apply filter_In; split; [auto|apply smem_In; auto]| |auto]. rewrite sel_names. apply NoDup_filter'. auto. }
  rewrite (nth_map' _ 0) by (eapply P; eauto). rewrite (nth_map' _ 0) by (eapply P; eauto). rewrite (idxs_at cs chans N 0 c h i I C Li), (idxs_at cs chans N 0 c' h' i' I' C' Li'). reflexivity.
Qed.
Lemma hist_cov_order chans cov cs r : postfit_hist_cov chans cov (Some cs) = Ok r -> cs = filter (fun c => smem c cs) (map fst chans) /\ snd r = cs.
Proof.
  unfold postfit_hist_cov. destruct (list_eq_dec string_dec cs _) as [E|]; [|discriminate]. destruct (filter _ (combine _ _)); [discriminate|]. destruct (sub_cov _ _); cbn [rbind]; [|discriminate]. intros [= <-]. cbn [snd]. auto.
Qed.

(** ** pulls next to impacts *)
Lemma masked_all {A} (mask : list bool) (l : list A) : List.length mask = List.length l -> forallb (fun b => b) mask = true -> masked mask l = l.
Proof. revert l. induction mask as [|b m IH]; intros [|a l] L F; cbn in L; try discriminate; [reflexivity|]. cbn in F. apply andb_true_iff in F. destruct F as (-> & F). unfold masked. cbn [combine filter fst map snd]. f_equal. apply IH; auto. Qed.
Lemma filter_length_le' {A} (f : A -> bool) l : List.length (filter f l) <= List.length l.
Proof. induction l as [|a l IH]; cbn; [lia|]. destruct (f a); cbn; lia. Qed.
Section WithPulls.
  Variable search : string -> string -> bool.
  Variables (parms : list string) (npoi nparams : nat) (noi : list nat) (is : list item) (d : dict hist).
  Hypothesis st : store_all parms npoi nparams noi is [] = Ok d.
  Hypothesis one : fit_items is.
  Variables (x v x0 v0 : list R).
  Hypothesis post : In (Postfit x v) is.
  Hypothesis pre : In (Prefit x0 v0) is.
  Lemma all_pulls prefit : pulls_and_constraints search d prefit false None None = Ok (parms, if prefit then x0 else x, A1 (map sqrt (if prefit then v0 else v))).
  Proof.
    destruct (get_parms _ _ _ _ _ _ st one false x v post) as (_ & LX & LV). destruct (get_parms _ _ _ _ _ _ st one true x0 v0 pre) as (_ & LX0 & LV0).
    destruct prefit; [rewrite (pulls_read search parms npoi nparams noi is d st one true x0 v0 None None pre)|rewrite (pulls_read search parms npoi nparams noi is d st one false x v None None post)]; rewrite chosen_all; f_equal; f_equal; [f_equal| |f_equal|].
    - apply map_nth_seq.
    - rewrite <- LX0. apply map_nth_seq.
    - f_equal. rewrite <- LV0, <- (map_length sqrt v0). apply map_nth_seq.
    - apply map_nth_seq.
    - rewrite <- LX. apply map_nth_seq.
    - f_equal. rewrite <- LV, <- (map_length sqrt v). apply map_nth_seq.
  Qed.
  Lemma pulls_sym poi typ add_total i labels : read_impacts d poi false typ add_total false = Ok (i, labels) -> labels = (if add_total then (parms ++ ["Total"])%list else parms) ->
    read_impacts_pulls search d poi false typ add_total false = Ok ((x, x0, A1 (map sqrt v), A1 (map sqrt v0)), (i, labels)).
  Proof.
    intros E L. destruct (get_parms _ _ _ _ _ _ st one false x v post) as (_ & LX & LV). destruct (get_parms _ _ _ _ _ _ st one true x0 v0 pre) as (_ & LX0 & LV0).
    unfold read_impacts_pulls. rewrite E. cbn [rbind andb]. rewrite (all_pulls false), (all_pulls true). cbn [rbind snd].
    destruct (Nat.eqb_spec (List.length parms) (List.length labels)) as [Q|Q]; [reflexivity|]. assert (M : map (fun l => smem l labels) parms = repeat true (List.length parms)).
    { assert (S : forall l, In l parms -> smem l labels = true) by (intros l Il; apply smem_In; rewrite L; destruct add_total; [apply in_or_app|]; auto). revert S. generalize parms. induction parms0 as [|a r IH]; intros S; [reflexivity|]. cbn [map List.length repeat]. rewrite S by (left; auto). f_equal. apply IH. intros l Il. apply S. right. auto. }
    rewrite M. unfold mask_arr, mask_list. rewrite repeat_length, !map_length, LX, LX0, LV, LV0, Nat.eqb_refl. cbn [rbind].
    assert (F : forall n, forallb (fun b : bool => b) (repeat true n) = true) by (induction n; auto). rewrite !masked_all by (rewrite ?repeat_length, ?map_length; auto). reflexivity.
  Qed.
  Definition where_is (names : list string) : list nat := filter (fun p => smem (nth p parms "") names) (seq 0 (List.length parms)).
  Lemma pulls_asym poi typ i names : read_impacts d poi false typ false true = Ok (i, names) -> typ <> "traditional" -> names = filter (fun l => smem l names) parms ->
    let at_names := fun A (dft : A) (l : list A) => map (fun p => nth p l dft) (where_is names) in
    at_names string "" parms = names /\
    read_impacts_pulls search d poi false typ false true = Ok ((at_names R 0%R x, at_names R 0%R x0, A1 (at_names R 0%R (map sqrt v)), A1 (at_names R 0%R (map sqrt v0))), (i, names)).
  Proof.
    intros E T L at_names. destruct (get_parms _ _ _ _ _ _ st one false x v post) as (_ & LX & LV). destruct (get_parms _ _ _ _ _ _ st one true x0 v0 pre) as (_ & LX0 & LV0).
    assert (AN : forall f (l : list string), map (fun p => nth p l "") (filter (fun p => f (nth p l "")) (seq 0 (List.length l))) = filter f l).
    { clear. intros f l. transitivity (filter f (map (fun p => nth p l "") (seq 0 (List.length l)))); [|rewrite map_nth_seq; reflexivity]. induction (seq 0 (List.length l)) as [|a s IH]; [reflexivity|]. cbn [filter map]. destruct (f (nth a l "")); cbn [map]; rewrite IH; reflexivity. }
    assert (NM : at_names string "" parms = names) by (unfold at_names, where_is; rewrite (AN (fun l => smem l names)); auto). split; [exact NM|].
    unfold read_impacts_pulls. rewrite E. cbn [rbind]. destruct (String.eqb_spec typ "traditional") as [|_]; [contradiction|]. cbn [andb]. rewrite (all_pulls false), (all_pulls true). cbn [rbind snd].
    assert (MK : map (fun l => smem l names) parms = map (fun p => smem (nth p parms "") names) (seq 0 (List.length parms))).
    { transitivity (map (fun l => smem l names) (map (fun p => nth p parms "") (seq 0 (List.length parms)))); [rewrite map_nth_seq; reflexivity|]. apply map_map. }
    destruct (Nat.eqb_spec (List.length parms) (List.length names)) as [Q|Q].
    - assert (W : where_is names = seq 0 (List.length parms)).
      { assert (FL : forall (f : nat -> bool) l, List.length (filter f l) = List.length l -> filter f l = l). { clear. induction l as [|a l IH]; intros H; [reflexivity|]. cbn [filter] in *. pose proof (filter_length_le' f l). destruct (f a); cbn [List.length] in H; [f_equal; apply IH; lia|lia]. }
        pose proof (f_equal (@List.length string) NM) as NL. unfold at_names in NL. rewrite map_length in NL. unfold where_is in *. apply FL. rewrite seq_length. congruence. }
      unfold at_names. rewrite W. repeat f_equal; symmetry.
      + rewrite <- LX. apply map_nth_seq.
      + rewrite <- LX0. apply map_nth_seq.
      + rewrite <- LV, <- (map_length sqrt v). apply map_nth_seq.
      + rewrite <- LV0, <- (map_length sqrt v0). apply map_nth_seq.
    - rewrite MK. unfold mask_arr, mask_list. rewrite !map_length, seq_length, LX, LX0, LV, LV0, Nat.eqb_refl. cbn [rbind].
      assert (MP : forall l, List.length l = List.length parms -> masked (map (fun p => smem (nth p parms "") names) (seq 0 (List.length parms))) l = at_names R 0%R l).
      { intros l Ll. unfold at_names, where_is. rewrite <- Ll. apply masked_pos. }
      rewrite !MP by (rewrite ?map_length; auto). reflexivity.
  Qed.
End WithPulls.
