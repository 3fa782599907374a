(** The written file after a history with multi-axis systematics. *)
From Coq Require Import List Arith Bool String Permutation Sorted Lia ZArith Reals Lra Ascii.
From Verif Require Session_Proof Param_Names.
From Verif Require Import RBase PyList PyDict ListUtil Order Num Shape Names_Model Writer_Model Writer_Spec Writer_Frame Writer_Layout
  Writer_Meta Writer_Inv Writer_State Writer_Hist Writer_Denote Writer_Master Multi_Model Multi_Spec Multi_Geom Multi_Slices Multi_Loop Multi_Batch Multi_Hist.
Import ListNotations.
Local Open Scope list_scope.
Local Open Scope nat_scope.

Section Final.
  Context {V : Type} {NV : Num V} {NL : NumLaws V}.

  (** the channels a history declares *)
  Definition xchans (l : list (xop V)) : list string :=
    flat_map (fun x => match x with XOne (AddChannel (Some n) _ _ _) => [n] | _ => [] end) l.

  Lemma decls_snoc (H : list (op V)) n a b c : chan_decls [] (H ++ [AddChannel (Some n) a b c]) = chan_decls [] H ++ [(n, mkCh a b c)].
  Proof. rewrite chan_decls_split. reflexivity. Qed.
  Lemma decls_other (H : list (op V)) ops : Forall (fun o => match o with AddChannel _ _ _ _ => False | _ => True end) ops ->
    chan_decls [] (H ++ ops) = chan_decls [] H.
  Proof.
    intros F. rewrite chan_decls_split. assert (E : forall seen, chan_decls seen ops = []).
    { induction F as [|o ops Q F IH]; intros seen; auto. destruct o; cbn [chan_decls]; auto. contradiction. }
    rewrite E. apply app_nil_r.
  Qed.
  Lemma multi_ops flow ex chx h name p c kf mi m ad kw idx (ops : list (op V)) :
    Forall2 (single_call flow ex chx h name p c kf mi m ad kw) idx ops ->
    Forall (fun o => match o with AddChannel _ _ _ _ => False | _ => True end) ops.
  Proof.
    induction 1 as [|i o idx ops S _ IH]; constructor; auto. destruct h; cbn [single_call] in S.
    - destruct S as (s & _ & ->). exact I.
    - destruct S as (s1 & s2 & _ & _ & ->). exact I.
  Qed.

  Lemma xrun_Good sorter cfg chaxes l : a_sort sorter -> zero_law V -> Forall (xwf chaxes) l -> Forall (chaxes_ok chaxes) l ->
    forall H st st', Good cfg H st -> (forall c info, In (c, info) (chan_decls [] H) -> chan_axes info (chaxes c)) ->
    NoDup (map fst (chan_decls [] H) ++ xchans l) -> xrun sorter cfg chaxes st l = Ok st' ->
    exists H', expand_all chaxes H l H' /\ Good cfg H' st'.
  Proof.
    intros SO ZL. induction l as [|x l IH]; intros WF OK H st st' Gd CA ND R; cbn [xrun] in R.
    { injection R as <-. exists H. split; auto. reflexivity. }
    inversion WF; inversion OK; subst. destruct (xstep sorter cfg chaxes st x) as [s|] eqn:S; cbn [rbind] in R; [|discriminate].
    assert (Q : exists ops, expands chaxes H x ops /\ Good cfg (H ++ ops) s /\
      (forall c info, In (c, info) (chan_decls [] (H ++ ops)) -> chan_axes info (chaxes c)) /\
      NoDup (map fst (chan_decls [] (H ++ ops)) ++ xchans l)).
    { destruct x as [o|h name p ch kf mi m ad sa kw].
      - cbn [xstep] in S. destruct (step cfg st o) as [s' [e|]] eqn:T; [discriminate|]. injection S as ->.
        exists [o]. split; [reflexivity|]. destruct H2 as [W Z].
        assert (C : channels_once (H ++ [o]) /\ (forall c info, In (c, info) (chan_decls [] (H ++ [o])) -> chan_axes info (chaxes c)) /\
                    NoDup (map fst (chan_decls [] (H ++ [o])) ++ xchans l)).
        { unfold channels_once. destruct o; try (rewrite decls_other by (repeat constructor); repeat split; auto; apply (gd_once _ _ _ Gd)).
          cbn [chaxes_ok] in H6. destruct name as [n|]; [|contradiction]. rewrite decls_snoc, map_app. cbn [map fst].
          cbn [xchans flat_map app] in ND. fold (xchans l) in ND.
          assert (ND2 : NoDup ((map fst (chan_decls [] H) ++ [n]) ++ xchans l)) by (rewrite <- app_assoc; exact ND).
          repeat split; auto.
          - eapply NoDup_app_l; eauto.
          - intros c info Hc. apply in_app_iff in Hc. destruct Hc as [Hc|[Hc|[]]]; auto. injection Hc as <- <-. exact H6. }
        destruct C as (C1 & C2 & C3). split; [|auto]. eapply Good_step; eauto.
      - cbn [xstep] in S. destruct (Good_multi cfg H st s sorter chaxes h name p ch kf mi m ad sa kw Gd CA SO ZL H2 S) as (ops & E & Gd').
        exists ops. split; auto. split; auto. pose proof E as (info & _ & F). apply multi_ops in F. rewrite decls_other by auto. auto. }
    destruct Q as (ops & E & Gd' & CA' & ND'). destruct (IH H3 H7 (H ++ ops) s st' Gd' CA' ND' R) as (H' & E' & G').
    exists H'. split; auto. exists ops. auto.
  Qed.

  (** after a successful history the written file means the expanded history *)
  Theorem multi_written sorter cfg chaxes l st w : a_sort sorter -> zero_law V ->
    Forall (xwf chaxes) l -> Forall (chaxes_ok chaxes) l -> NoDup (xchans l) ->
    xrun sorter cfg chaxes init_state l = Ok st -> write cfg st = Ok w ->
    exists H, expand_all chaxes [] l H /\
      (constraint_stable H ->
       NoDup (w_systs w) /\ (forall s, In s (w_systs w) <-> declared H s) /\
       (forall g idx, In (g, idx) (w_groups w) -> forall i,
          In i idx <-> exists s, nth_error (w_systs w) i = Some s /\ declared_in_group H g s) /\
       w_symmetric w = negb (existsb is_asym H) /\
       forall c s e i ip p, In (c, (s, e)) (reader_ranges 0 (w_channels w)) -> i < e - s ->
         nth_error (w_procs w) ip = Some p -> holds_at cfg H w c s i ip p).
  Proof.
    intros SO ZL WF OK ND R W.
    assert (CA : forall c info, In (c, info) (chan_decls (V := V) [] []) -> chan_axes info (chaxes c)) by (intros c info []).
    destruct (xrun_Good sorter cfg chaxes l SO ZL WF OK [] init_state st (Good_init cfg) CA ND R) as (H & E & G).
    exists H. split; auto. intros CS. pose proof (gd_sys _ _ _ G) as SY.
    destruct (metadata_correct_s cfg H st w SY W CS) as (M1 & M2 & (M3 & M4 & M5) & _).
    split; auto. split; auto. split; auto.
    apply (tensors_denote_state cfg H (chan_decls [] H) st w); auto; try apply G.
    - apply once_stable. apply (gd_once _ _ _ G).
    - apply (get_systs_NoDup_s H); auto.
  Qed.
End Final.

(** *** the carriers of the theorems satisfy the law on zero variations *)
Lemma zero_law_R : zero_law R.
Proof.
  intros t kf n H. cbn [nadd Num_R n0] in *. rewrite Rplus_0_r. unfold logk1. cbn [nmul nlt nln ndiv nsub n0 nlogeps Num_R].
  destruct t; [|ring]. replace (Rltb 0 (n * n))%R with true.
  - unfold Rdiv. rewrite Rinv_r by auto. rewrite ln_1. ring.
  - symmetry. unfold Rltb. destruct (Rlt_dec 0 (n * n))%R as [|Q]; auto. exfalso. apply Q. apply Rlt_0_sqr. auto.
Qed.
Lemma zero_law_Z : @zero_law Z Num_Z.
Proof.
  intros t kf n H. cbn [nadd Num_Z n0] in *. rewrite Z.add_0_r. unfold logk1. cbn [nmul nlt nln ndiv nsub n0 nlogeps Num_Z].
  destruct t; [|lia]. assert (n * n > 0)%Z by nia. destruct (Z.ltb_spec 0 (n * n)); [|lia].
  rewrite Z.div_same by auto. lia.
Qed.

(** *** the loop over slices: the same state and the same exception as the single calls *)
Section LoopRun.
  Context {V : Type} {NV : Num V}.
  Definition batched_call (h : minput V) (mirror ad : bool) : bool :=
    match h with ISingle (MSparse _ _) => mirror && ad | _ => false end.
  Definition mixed_pair (h : minput V) : bool :=
    match h with IPair (MSparse _ _) (MDense _ _) => true | _ => false end.
  Lemma multi_loop sorter cfg chx st h name p ch kf mi m ad sa kw info extra :
    dget ch (st_channels st) = Some info ->
    detect_extra (x_names chx) (x_names (mh_axes (ref_of h))) sa = Ok (Some extra) ->
    fits_input h extra chx -> batched_call h mi ad = false -> mixed_pair h = false ->
    exists ops,
      let ex := axes_by_name (mh_axes (ref_of h)) extra in
      Forall2 (single_call (ch_flow info) ex chx h name p ch kf mi m ad kw) (all_idx (map x_size ex)) ops /\
      add_multi sorter cfg chx st h name p ch kf mi m ad sa kw = run cfg st ops.
  Proof.
    intros C D F B M. unfold add_multi. rewrite C, D. cbn [rbind].
    assert (E : exists l, get_slices h name extra = Ok l).
    { destruct h as [h1|[au fu|au eu] [ad' fd|ad' ed]]; cbn [mixed_pair] in M; try discriminate; cbn [get_slices is_sparsehist andb negb]; eexists; reflexivity. }
    destruct E as (l & E). destruct (get_slices_ok (ch_flow info) h name extra chx p ch kf mi m ad kw l F E) as [E1 E2].
    exists (map (call_of (ch_flow info) p ch kf mi m ad kw) l). split.
    - cbn zeta. clear - E2. induction E2 as [|x y a b Q _ IH]; constructor; tauto.
    - rewrite <- (book_slices_run _ _ _ _ _ _ _ _ _ _ _ E1). rewrite E. cbn [rbind]. destruct h as [[a f|a e]|u d]; auto. cbn [batched_call] in B. rewrite B. auto.
  Qed.
  Lemma multi_plain sorter cfg chx st h name p ch kf mi m ad sa kw info :
    dget ch (st_channels st) = Some info ->
    detect_extra (x_names chx) (x_names (mh_axes (ref_of h))) sa = Ok None ->
    fits_input h [] chx ->
    exists o, single_call (ch_flow info) [] chx h name p ch kf mi m ad kw [] o /\
      add_multi sorter cfg chx st h name p ch kf mi m ad sa kw = run cfg st [o].
  Proof.
    intros C D F. unfold add_multi. rewrite C, D. cbn [rbind].
    exists (call_of (ch_flow info) p ch kf mi m ad kw (name, h)). split.
    - unfold call_of. cbn [fst snd]. destruct h as [h1|u dn]; cbn [fits_input single_call spec_name] in *.
      + exists (to_histo (ch_flow info) h1). split; auto. apply whole_slice. auto.
      + destruct F as (F1 & F2 & _). exists (to_histo (ch_flow info) u), (to_histo (ch_flow info) dn). repeat split; auto; apply whole_slice; auto.
    - assert (ED : edges_ok chx (name, h)).
      { unfold edges_ok. cbn [snd]. destruct h; cbn [fits_input] in F.
        - destruct F as (_ & _ & _ & Ce). rewrite keep_nil in Ce. auto.
        - destruct F as (F1 & F2 & _). destruct F1 as (_ & _ & _ & C1). destruct F2 as (_ & _ & _ & C2). rewrite keep_nil in C1, C2. auto. }
      pose proof (book_slice_step cfg chx (ch_flow info) st (name, h) p ch kf mi m ad kw ED) as BS. cbn [fst snd] in BS. rewrite BS.
      cbn [run]. destruct (step cfg st _) as [s [e|]]; auto.
  Qed.
  (** axes with other edges *)
  Lemma multi_edges sorter cfg chx st h name p ch kf mi m ad sa kw info nm :
    dget ch (st_channels st) = Some info -> st_norm st ch p = Some nm ->
    detect_extra (x_names chx) (x_names (mh_axes h)) sa = Ok None ->
    (exists k a c, nth_error (mh_axes h) k = Some a /\ nth_error chx k = Some c /\ x_tag a <> x_tag c) ->
    List.length chx <= List.length (mh_axes h) ->
    add_multi sorter cfg chx st (ISingle h) name p ch kf mi m ad sa kw = Raise RuntimeError.
  Proof.
    intros C N D E L. unfold add_multi. rewrite C. cbn [ref_of]. rewrite D. cbn [rbind]. unfold book_slice. rewrite N.
    assert (Q : check_edges chx (mh_axes h) = Some RuntimeError).
    { clear D. destruct E as (k & a & c & A & B & T). revert L k A B. generalize (mh_axes h). induction chx as [|c0 r IH]; intros [|a0 ar] L [|k] A B; try discriminate; cbn [check_edges].
      - cbn in A, B. injection A as ->. injection B as ->. destruct (Nat.eqb_spec (x_tag c) (x_tag a)); auto. congruence.
      - destruct (Nat.eqb (x_tag c0) (x_tag a0)); auto. apply (IH ar ltac:(cbn in L; lia) k A B). }
    rewrite Q. auto.
  Qed.
End LoopRun.

(** *** distinct bins get distinct names when the labels contain no underscore *)
Lemma cut_eq (u : ascii) (a b r s : list ascii) : ~ In u a -> ~ In u b ->
  match r with [] => True | c :: _ => c = u end -> match s with [] => True | c :: _ => c = u end ->
  a ++ r = b ++ s -> a = b /\ r = s.
Proof.
  revert b. induction a as [|x a IH]; intros [|y b] A B R S E; cbn [app] in E; auto.
  - subst r. exfalso. apply B. left. auto.
  - subst s. exfalso. apply A. left. auto.
  - injection E as -> E. destruct (IH b) as [-> ->]; auto.
    + intros H. apply A. right. auto.
    + intros H. apply B. right. auto.
Qed.
Definition no_underscore (s : string) : Prop := ~ In "_"%char (list_ascii_of_string s).
Lemma nat_str_no_underscore i : no_underscore (nat_str i).
Proof.
  intros H. pose proof (Param_Names.nat_str_digits i) as D. rewrite forallb_forall in D. apply D in H. discriminate.
Qed.
(** categories of a string axis: distinct, one per bin *)
Definition clean_axis (a : maxis) : Prop :=
  match x_cats a with
  | None => True
  | Some l => NoDup l /\ List.length l = x_size a /\ Forall no_underscore l
  end.
Lemma label_clean a i : clean_axis a -> i < x_size a -> no_underscore (label_of a i).
Proof.
  unfold clean_axis, label_of. destruct (x_cats a) as [l|]; [|intros; apply nat_str_no_underscore].
  intros (_ & L & F) H. rewrite Forall_forall in F. apply F. apply nth_In. lia.
Qed.
Lemma label_inj a i j : clean_axis a -> i < x_size a -> j < x_size a -> label_of a i = label_of a j -> i = j.
Proof.
  unfold clean_axis, label_of. destruct (x_cats a) as [l|]; [|intros; apply Session_Proof.nat_str_inj; auto].
  intros (N & L & F) H K E. rewrite <- L in *. eapply NoDup_nth; eauto.
Qed.
Definition suffix_chars (ex : list maxis) (idx : list nat) : list ascii :=
  flat_map (fun ai => "_"%char :: list_ascii_of_string (label_of (fst ai) (snd ai))) (combine ex idx).
Lemma chars_app' (a b : string) : list_ascii_of_string (a ++ b) = list_ascii_of_string a ++ list_ascii_of_string b.
Proof. induction a as [|c a IH]; cbn [append list_ascii_of_string app]; auto. f_equal. auto. Qed.
Lemma spec_name_chars ex : forall name idx, list_ascii_of_string (spec_name name ex idx) = list_ascii_of_string name ++ suffix_chars ex idx.
Proof.
  unfold suffix_chars. induction ex as [|a ex IH]; intros name [|i idx]; cbn [spec_name combine flat_map]; try (rewrite app_nil_r; auto).
  rewrite IH, !chars_app'. cbn [list_ascii_of_string fst snd app]. rewrite <- app_assoc. reflexivity.
Qed.
Lemma suffix_inj ex : Forall clean_axis ex -> forall i j, in_shape (map x_size ex) i -> in_shape (map x_size ex) j ->
  suffix_chars ex i = suffix_chars ex j -> i = j.
Proof.
  assert (HD : forall l idx, match suffix_chars l idx with [] => True | c :: _ => c = "_"%char end).
  { intros [|a l] [|i idx]; cbn; auto. }
  induction 1 as [|a ex Ca F IH]; intros i j I J; cbn [map] in *; inversion I as [|? x ? ii]; inversion J as [|? y ? jj]; subst; auto.
  unfold suffix_chars. cbn [combine flat_map fst snd app]. intros E. injection E as E.
  change (flat_map _ (combine ex ii)) with (suffix_chars ex ii) in E. change (flat_map _ (combine ex jj)) with (suffix_chars ex jj) in E.
  destruct (cut_eq "_"%char _ _ _ _ (label_clean a x Ca ltac:(auto)) (label_clean a y Ca ltac:(auto)) (HD ex ii) (HD ex jj) E) as [E1 E2].
  f_equal; [|auto]. apply (label_inj a); auto.
  rewrite <- (string_of_list_ascii_of_string (label_of a x)), <- (string_of_list_ascii_of_string (label_of a y)), E1. auto.
Qed.
Lemma names_distinct name ex i j : Forall clean_axis ex -> in_shape (map x_size ex) i -> in_shape (map x_size ex) j ->
  spec_name name ex i = spec_name name ex j -> i = j.
Proof.
  intros F I J E. apply (suffix_inj ex F i j I J). apply (f_equal list_ascii_of_string) in E. rewrite !spec_name_chars in E. apply app_inv_head in E. auto.
Qed.
