(** C108: the command lines of the parameter models mean what their help texts say, and nothing else is accepted. *)
From Coq Require Import Reals List Arith ZArith Bool String Ascii Lia.
From Verif Require Import RBase PyList PyDict Parse_Model Parse_Proof Parse_Round Init_Model Param_Model Pcmd_Model Pcmd_Spec Pcmd_Proof.
Import ListNotations.
Local Open Scope nat_scope.

Definition fails {A} (r : result A) : Prop := exists e, r = Raise e.
Lemma not_ok {A} (r : result A) : (forall a, r <> Ok a) -> fails r.
Proof. destruct r as [a|e]; intros H; [destruct (H a eq_refl)|exists e; reflexivity]. Qed.
Lemma bind_fails {A B} (x : result A) (f : A -> result B) : (forall a, x <> Ok a) -> fails (rbind x f).
Proof. intros H. apply not_ok in H. destruct H as [e ->]. exists e. reflexivity. Qed.

Lemma no_dot cls : ~ In "."%char cls -> contains (T ".") cls = false.
Proof. intros D. change (T ".") with ["."%char]. apply contains_no. exact D. Qed.

Section C108.
Variable h5 npz : text -> result (list R * Z).
Variable custom : text -> list text -> result model.
Variable d : pdata.
Variable expect : option (list (string * R)).
Variable allowneg : bool.
Notation load := (load_model h5 npz custom d expect allowneg).
Notation param := (param_model h5 npz custom d expect allowneg).

(** ** the ABCD lines *)
Theorem C108_unambiguous n toks c p rs c' p' rs' : body_line n toks c p rs -> body_line n toks c' p' rs' -> c = c' /\ p = p' /\ rs = rs'.
Proof.
  intros H H'. assert (A : parse_plain n toks = Ok (mkCmd "" 1 None c p rs)) by (apply plain_ok; auto).
  assert (B : parse_plain n toks = Ok (mkCmd "" 1 None c' p' rs')) by (apply plain_ok; auto). rewrite A in B. injection B. auto.
Qed.
Theorem C108_abcd args :
  (forall corr p A B C D, body_line 4 args corr p [A; B; C; D] -> load (T "ABCD") args = abcd_model d p A B C D corr) /\
  ((forall corr p rs, ~ body_line 4 args corr p rs) -> fails (load (T "ABCD") args)).
Proof.
  split.
  - intros corr p A B C D H. change (load (T "ABCD") args) with (rbind (parse_plain 4 args) (build_abcd d)).
    assert (E : parse_plain 4 args = Ok (mkCmd "" 1 None corr p [A; B; C; D])) by (apply plain_ok; auto). rewrite E. reflexivity.
  - intros H. change (load (T "ABCD") args) with (rbind (parse_plain 4 args) (build_abcd d)). apply bind_fails. intros c E. apply plain_ok in E. destruct E as (_ & _ & _ & E). exact (H _ _ _ E).
Qed.
(** the sidebands Ax and Bx come first *)
Theorem C108_extended args :
  (forall corr p Ax Bx A B C D, body_line 6 args corr p [Ax; Bx; A; B; C; D] -> load (T "ExtendedABCD") args = ext_abcd_model d p A B C D Ax Bx corr) /\
  ((forall corr p rs, ~ body_line 6 args corr p rs) -> fails (load (T "ExtendedABCD") args)).
Proof.
  split.
  - intros corr p Ax Bx A B C D H. change (load (T "ExtendedABCD") args) with (rbind (parse_plain 6 args) (build_ext d)).
    assert (E : parse_plain 6 args = Ok (mkCmd "" 1 None corr p [Ax; Bx; A; B; C; D])) by (apply plain_ok; auto). rewrite E. reflexivity.
  - intros H. change (load (T "ExtendedABCD") args) with (rbind (parse_plain 6 args) (build_ext d)). apply bind_fails. intros c E. apply plain_ok in E. destruct E as (_ & _ & _ & E). exact (H _ _ _ E).
Qed.
(** <axis> [order:N] and the rest *)
Definition smooth_line (n : nat) (args : list text) (ax : string) (order : Z) (corr : bool) (p : string) (rs : list region) : Prop :=
  exists a l o toks, args = a :: l ++ toks /\ ax = S_ a /\ option_line t_order l o /\ not_next t_order l toks /\
    order = match o with Some z => z | None => 1%Z end /\ body_line n toks corr p rs.
Lemma with_order_ok order mk init : (0 <= order)%Z -> (exists m, mk (Z.to_nat order) None = Ok m) -> with_order order mk init = mk (Z.to_nat order) init.
Proof.
  intros H [m E]. unfold with_order. rewrite E. simpl. unfold order_ok. destruct (order =? -1)%Z eqn:K; [apply Z.eqb_eq in K; lia|].
  destruct (order <? 0)%Z eqn:K2; [apply Z.ltb_lt in K2; lia|]. reflexivity.
Qed.
Lemma with_order_neg order mk init : (order < 0)%Z -> fails (with_order order mk init).
Proof.
  intros H. unfold with_order. destruct (mk _ None) as [m|e]; [|exists e; reflexivity]. simpl. unfold order_ok. destruct (order =? -1)%Z; [exists IndexError; reflexivity|].
  apply Z.ltb_lt in H. rewrite H. exists ValueError. reflexivity.
Qed.
Lemma with_order_same order mk init : (0 <= order)%Z -> (forall i, mk (Z.to_nat order) i = mk (Z.to_nat order) None) -> with_order order mk init = mk (Z.to_nat order) None.
Proof.
  intros H E. destruct (mk (Z.to_nat order) None) as [m|e] eqn:Q; [rewrite with_order_ok by eauto; exact (E init)|]. unfold with_order. rewrite Q. reflexivity.
Qed.
Theorem C108_smooth args :
  (forall ax order corr p A B C D, smooth_line 4 args ax order corr p [A; B; C; D] ->
     ((0 <= order)%Z -> load (T "SmoothABCD") args = smooth_abcd_model d ax p A B C D (Z.to_nat order) corr) /\ ((order < 0)%Z -> fails (load (T "SmoothABCD") args))) /\
  ((forall ax order corr p rs, ~ smooth_line 4 args ax order corr p rs) -> fails (load (T "SmoothABCD") args)).
Proof.
  change (load (T "SmoothABCD") args) with (rbind (parse_smooth args) (build_smooth d)). split.
  - intros ax order corr p A B C D (a & l & o & toks & E1 & E2 & O & N & E3 & B0).
    assert (E : parse_smooth args = Ok (mkCmd ax order None corr p [A; B; C; D])) by (apply smooth_ok; exists a, l, o, toks; auto 8).
    rewrite E. cbn [rbind]. unfold build_smooth. cbn [k_regions k_order k_axis k_proc k_corr]. split.
    + intros H. rewrite with_order_same by auto. reflexivity.
    + apply with_order_neg.
  - intros H. apply bind_fails. intros c E. apply smooth_ok in E. destruct E as (a & l & o & toks & E1 & E2 & O & N & E3 & _ & B0).
    apply (H (S_ a) (k_order c) (k_corr c) (k_proc c) (k_regions c)). exists a, l, o, toks. auto 8.
Qed.
(** <axis> [params:file | order:N] and the rest; the initial values and the order come from the file *)
Definition smooth_ext_line (n : nat) (args : list text) (ax : string) (order : Z) (init : option (list R)) (corr : bool) (p : string) (rs : list region) : Prop :=
  exists a l toks, args = a :: l ++ toks /\ ax = S_ a /\ start_line (read_params h5 npz) l order init /\
    not_next t_params l toks /\ not_next t_order l toks /\ body_line n toks corr p rs.
Theorem C108_smooth_extended args :
  (forall ax order init corr p Ax Bx A B C D m, smooth_ext_line 6 args ax order init corr p [Ax; Bx; A; B; C; D] ->
     (load (T "SmoothExtendedABCD") args = Ok m <-> (0 <= order)%Z /\ smooth_ext_model d ax p A B C D Ax Bx (Z.to_nat order) init corr = Ok m)) /\
  ((forall ax order init corr p rs, ~ smooth_ext_line 6 args ax order init corr p rs) -> fails (load (T "SmoothExtendedABCD") args)).
Proof.
  change (load (T "SmoothExtendedABCD") args) with (rbind (parse_smooth_ext h5 npz args) (build_smooth_ext d)). split.
  - intros ax order init corr p Ax Bx A B C D m (a & l & toks & E1 & E2 & S & N1 & N2 & B0).
    assert (E : parse_smooth_ext h5 npz args = Ok (mkCmd ax order init corr p [Ax; Bx; A; B; C; D])) by (apply smooth_ext_ok; exists a, l, toks; auto 8).
    rewrite E. cbn [rbind]. unfold build_smooth_ext. cbn [k_regions k_order k_axis k_proc k_corr k_init].
    set (mk := fun o i => smooth_ext_model d ax p A B C D Ax Bx o i corr). change (smooth_ext_model d ax p A B C D Ax Bx (Z.to_nat order) init corr) with (mk (Z.to_nat order) init).
    assert (G : mk (Z.to_nat order) init = Ok m -> exists m', mk (Z.to_nat order) None = Ok m').
    { unfold mk, smooth_ext_model. intros H. destruct (negb _); [discriminate|]. repeat (apply bind_ok in H; destruct H as (? & -> & H); cbn [rbind]).
      destruct (negb _); [discriminate|]. destruct (negb _); [discriminate|]. eexists. reflexivity. }
    split.
    + intros H. destruct (Z_lt_le_dec order 0) as [L|L]; [destruct (with_order_neg order mk init L) as [e Q]; rewrite Q in H; discriminate|]. split; [exact L|].
      unfold with_order in H. apply bind_ok in H. destruct H as (m' & Q & H). apply bind_ok in H. destruct H as (u & _ & H). exact H.
    + intros [L H]. rewrite with_order_ok; auto.
  - intros H. apply bind_fails. intros c E. apply smooth_ext_ok in E. destruct E as (a & l & toks & E1 & E2 & S & N1 & N2 & B0).
    apply (H (S_ a) (k_order c) (k_init c) (k_corr c) (k_proc c) (k_regions c)). exists a, l, toks. auto 8.
Qed.

(** ** the lines of the iso-mt models *)
Lemma iso_parse args corr p ch : iso_line args corr p ch -> parse_iso args = Ok (mkCmd "" 1 None corr p [mkRegion ch []]).
Proof. intros H. apply iso_rest_ok. unfold iso_form, iso_channel. cbn. auto. Qed.
Theorem C108_iso args :
  (forall corr p ch, iso_line args corr p ch -> load (T "ABCDIsoMT") args = isomt_abcd d p ch corr /\ load (T "ExtendedABCDIsoMT") args = isomt_ext d p ch corr) /\
  ((forall corr p ch, ~ iso_line args corr p ch) -> fails (load (T "ABCDIsoMT") args) /\ fails (load (T "ExtendedABCDIsoMT") args)).
Proof.
  change (load (T "ABCDIsoMT") args) with (rbind (parse_iso args) (fun c => isomt_abcd d (k_proc c) (iso_channel c) (k_corr c))).
  change (load (T "ExtendedABCDIsoMT") args) with (rbind (parse_iso args) (fun c => isomt_ext d (k_proc c) (iso_channel c) (k_corr c))). split.
  - intros corr p ch H. apply iso_parse in H. rewrite H. split; reflexivity.
  - intros H. split; apply bind_fails; intros c E; apply iso_rest_ok in E; destruct E as (_ & _ & _ & E); exact (H _ _ _ E).
Qed.
Theorem C108_iso_smooth args :
  (forall l o toks corr p ch, args = l ++ toks -> option_line t_order l o -> not_next t_order l toks -> iso_line toks corr p ch ->
     let order := match o with Some z => z | None => 1%Z end in
     ((0 <= order)%Z -> load (T "SmoothABCDIsoMT") args = isomt_smooth d p ch (Z.to_nat order) corr) /\ ((order < 0)%Z -> fails (load (T "SmoothABCDIsoMT") args))) /\
  ((forall l o toks corr p ch, args = l ++ toks -> option_line t_order l o -> not_next t_order l toks -> ~ iso_line toks corr p ch) -> fails (load (T "SmoothABCDIsoMT") args)).
Proof.
  change (load (T "SmoothABCDIsoMT") args) with (rbind (parse_iso_order args) (build_iso_smooth d)). split.
  - intros l o toks corr p ch E O N H order.
    assert (Q : parse_iso_order args = Ok (mkCmd "" order None corr p [mkRegion ch []])).
    { apply iso_order_ok. exists l, o, toks. unfold iso_form, iso_channel. cbn. auto 8. }
    rewrite Q. cbn [rbind]. unfold build_iso_smooth, iso_channel. cbn [k_regions k_order k_axis k_proc k_corr rg_chan]. split.
    + intros L. rewrite with_order_same by auto. reflexivity.
    + apply with_order_neg.
  - intros H. apply bind_fails. intros c E. apply iso_order_ok in E. destruct E as (l & o & toks & E & O & N & _ & _ & _ & I). exact (H _ _ _ _ _ _ E O N I).
Qed.
Theorem C108_iso_smooth_extended args :
  (forall l toks order init corr p ch m, args = l ++ toks -> start_line h5 l order init -> not_next t_params l toks -> not_next t_order l toks -> iso_line toks corr p ch ->
     (load (T "SmoothExtendedABCDIsoMT") args = Ok m <-> (0 <= order)%Z /\ isomt_smooth_ext d p ch (Z.to_nat order) init corr = Ok m)) /\
  ((forall l toks order init corr p ch, args = l ++ toks -> start_line h5 l order init -> not_next t_params l toks -> not_next t_order l toks -> ~ iso_line toks corr p ch) ->
     fails (load (T "SmoothExtendedABCDIsoMT") args)).
Proof.
  change (load (T "SmoothExtendedABCDIsoMT") args) with (rbind (parse_iso_params h5 args) (build_iso_smooth_ext d)). split.
  - intros l toks order init corr p ch m E S N1 N2 I.
    assert (Q : parse_iso_params h5 args = Ok (mkCmd "" order init corr p [mkRegion ch []])).
    { apply iso_params_ok. exists l, toks. unfold iso_form, iso_channel. cbn. auto 8. }
    rewrite Q. cbn [rbind]. unfold build_iso_smooth_ext, iso_channel. cbn [k_regions k_order k_axis k_proc k_corr k_init rg_chan].
    set (mk := fun o i => isomt_smooth_ext d p ch o i corr). change (isomt_smooth_ext d p ch (Z.to_nat order) init corr) with (mk (Z.to_nat order) init).
    assert (G : mk (Z.to_nat order) init = Ok m -> exists m', mk (Z.to_nat order) None = Ok m').
    { unfold mk, isomt_smooth_ext. intros H. apply bind_ok in H. destruct H as (n & -> & H). cbn [rbind]. destruct (n - 3 <? 0)%Z; [discriminate|]. revert H. unfold smooth_ext_model.
      intros H. destruct (negb _); [discriminate|]. repeat (apply bind_ok in H; destruct H as (? & -> & H); cbn [rbind]).
      destruct (negb _); [discriminate|]. destruct (negb _); [discriminate|]. eexists. reflexivity. }
    split.
    + intros H. destruct (Z_lt_le_dec order 0) as [L|L]; [destruct (with_order_neg order mk init L) as [e Q']; rewrite Q' in H; discriminate|]. split; [exact L|].
      unfold with_order in H. apply bind_ok in H. destruct H as (m' & Q' & H). apply bind_ok in H. destruct H as (u & _ & H). exact H.
    + intros [L H]. rewrite with_order_ok; auto.
  - intros H. apply bind_fails. intros c E. apply iso_params_ok in E. destruct E as (l & toks & E & S & N1 & N2 & _ & I). exact (H _ _ _ _ _ _ _ E S N1 N2 I).
Qed.

(** ** comma separated lists *)
Definition plain_name (t : text) : Prop := ~ In comma t /\ strip t = t.
Lemma names_join l : l <> [] -> Forall plain_name l -> names_of (join comma l) = map S_ l.
Proof.
  intros N F. unfold names_of. rewrite splitc_join; auto; [|intros p H; apply (proj1 (proj1 (Forall_forall _ _) F p H))].
  apply map_ext_in. intros p H. rewrite (proj2 (proj1 (Forall_forall _ _) F p H)). reflexivity.
Qed.
Theorem C108_mixture ps cs : ps <> [] -> cs <> [] -> (forall p, In p (ps ++ cs) -> ~ In comma p) ->
  load (T "Mixture") [join comma ps; join comma cs] = mixture_model d (map S_ ps) (map S_ cs) expect allowneg.
Proof.
  intros N1 N2 H. unfold load_model. cbn -[mixture_model join splitc]. rewrite !splitc_join; auto; intros p Hp; apply H; apply in_or_app; auto.
Qed.
Theorem C108_axis_models ch sa ps axes slopes : ps <> [] -> axes <> [] -> slopes <> [] -> Forall plain_name ps -> Forall plain_name axes -> Forall plain_name slopes -> join comma ps <> T "all" ->
  load (T "AxisNormModel") [ch; join comma ps; join comma axes] = axis_norm d (S_ ch) (Some (map S_ ps)) (map S_ axes) expect /\
  load (T "AxisNormModel") [ch; T "all"; join comma axes] = axis_norm d (S_ ch) None (map S_ axes) expect /\
  load (T "AxisExpModel") [ch; join comma ps; sa; join comma axes] = axis_exp d (S_ ch) (Some (map S_ ps)) (S_ sa) (map S_ axes) None /\
  load (T "AxisExpModel") [ch; join comma ps; sa; join comma axes; join comma slopes] = axis_exp d (S_ ch) (Some (map S_ ps)) (S_ sa) (map S_ axes) (Some (map S_ slopes)) /\
  load (T "AxisBernsteinModel") [ch; join comma ps; sa; join comma axes] = axis_bernstein d (S_ ch) (Some (map S_ ps)) (S_ sa) (map S_ axes) expect.
Proof.
  intros N1 N2 N3 F1 F2 F3 A. assert (E : spec_of (join comma ps) = Some (map S_ ps)) by (unfold spec_of; rewrite teq_false by exact A; rewrite names_join; auto).
  unfold load_model. cbn -[axis_norm axis_exp axis_bernstein join names_of spec_of]. rewrite E, !names_join by auto. repeat split; reflexivity.
Qed.
(** how many arguments a class takes *)
Definition arity (cls : string) (n : nat) : bool :=
  if String.eqb cls "Ones" || String.eqb cls "Mu" then Nat.eqb n 0 else if String.eqb cls "Mixture" then Nat.eqb n 2
  else if String.eqb cls "AxisNormModel" then Nat.eqb n 3 else if String.eqb cls "AxisExpModel" then Nat.eqb n 4 || Nat.eqb n 5
  else if String.eqb cls "AxisBernsteinModel" then Nat.eqb n 4 else true.
Theorem C108_arity cls args : ~ In "."%char cls -> arity (S_ cls) (List.length args) = false -> fails (load cls args).
Proof.
  intros D H. unfold load_model. rewrite (no_dot cls D). unfold construct, arity in *.
  repeat match goal with |- context [String.eqb (S_ cls) ?s] => destruct (String.eqb (S_ cls) s) end; cbn [orb] in H; try discriminate;
    destruct args as [|? [|? [|? [|? [|? [|? ?]]]]]]; try discriminate; (exists ValueError; reflexivity) || (exists TypeError; reflexivity).
Qed.

(** ** names of classes *)
Definition offered : list string := ["Ones"; "Mu"; "Mixture"; "AxisNormModel"; "AxisExpModel"; "AxisBernsteinModel"; "ABCD"; "ExtendedABCD"; "SmoothABCD"; "SmoothExtendedABCD";
  "ABCDIsoMT"; "ExtendedABCDIsoMT"; "SmoothABCDIsoMT"; "SmoothExtendedABCDIsoMT"]%string.
Theorem C108_unknown cls args : ~ In "."%char cls -> ~ In (S_ cls) offered -> load cls args = Raise ValueError.
Proof.
  intros D N. unfold load_model. rewrite (no_dot cls D). unfold construct.
  repeat match goal with |- context [String.eqb (S_ cls) ?s] => let E := fresh in destruct (String.eqb (S_ cls) s) eqn:E; [apply String.eqb_eq in E; exfalso; apply N; rewrite E; unfold offered; simpl; tauto|] end.
  reflexivity.
Qed.

(** ** several models *)
Definition loads (s : list text) (m : model) : Prop := exists c r, s = c :: r /\ load c r = Ok m.
Lemma rmap_loads specs ms : rmap (fun s => match s with [] => Raise IndexError | c :: r => load c r end) specs = Ok ms <-> Forall2 loads specs ms.
Proof.
  revert ms. induction specs as [|s specs IH]; intros ms; cbn [rmap].
  - split; [intros H; injection H as <-; constructor|]. intros H. inversion H. reflexivity.
  - rewrite bind_ok. split.
    + intros (m & H & K). apply bind_ok in K. destruct K as (ms' & H2 & K). injection K as <-. constructor; [|apply IH; exact H2].
      destruct s as [|c r]; [discriminate|]. exists c, r. auto.
    + intros H. inversion H as [|? m ? ms' (c & r & -> & L) F]; subst. exists m. split; [exact L|]. apply bind_ok. exists ms'. split; [apply IH; exact F|reflexivity].
Qed.
Theorem C108_several specs m : specs <> [] -> (param specs = Ok m <-> exists ms, Forall2 loads specs ms /\
  (List.length specs = 1 -> ms = [m]) /\ (2 <= List.length specs -> composite ms None = Ok m)).
Proof.
  intros N. unfold param_model, load_models. destruct specs as [|s specs]; [congruence|]. rewrite bind_ok. split.
  - intros (ms & H & K). apply rmap_loads in H. exists ms. split; [exact H|]. destruct H as [|x m1 l ms' L F]; [discriminate|]. destruct F as [|x2 m2 l2 ms2 L2 F2].
    + injection K as ->. simpl. split; [reflexivity|lia].
    + simpl. split; [lia|]. intros _. exact K.
  - intros (ms & F & H1 & H2). exists ms. split; [apply rmap_loads; exact F|]. inversion F as [|? m1 ? ms' L F']; subst. destruct F' as [|x2 m2 l2 ms2 L2 F2].
    + specialize (H1 eq_refl). injection H1 as ->. reflexivity.
    + apply H2. simpl. lia.
Qed.
Theorem C108_default : param [] = mu_model d expect allowneg.
Proof. unfold param_model, load_models. cbn -[mu_model]. destruct (mu_model d expect allowneg); reflexivity. Qed.

(** ** starting values *)
Lemma scatter_in ps l dft o s v : scatter_defaults ps l dft = Ok o -> In (s, v) l -> In s ps.
Proof.
  revert dft. induction l as [|[s' v'] l IH]; intros dft; cbn [scatter_defaults]; [intros _ []|].
  destruct (index_of s' ps) as [i|] eqn:E; [|discriminate]. intros H [K|K]; [|eapply IH; eauto]. injection K as -> ->. apply index_of_Some in E. eapply nth_error_In. exact E.
Qed.
Lemma set_in ps l dft o s v : set_defaults ps l dft = Ok o -> In (s, v) l -> In s ps.
Proof.
  revert dft. induction l as [|[s' v'] l IH]; intros dft; cbn [set_defaults]; [intros _ []|].
  destruct (index_of s' ps) as [i|] eqn:E; [|discriminate]. intros H [K|K]; [|eapply IH; eauto]. injection K as -> ->. apply index_of_Some in E. eapply nth_error_In. exact E.
Qed.
Lemma default_in ps n l o s v : set_param_default ps n (Some l) allowneg = Ok o -> In (s, v) l -> In s ps.
Proof. unfold set_param_default. intros H. apply bind_ok in H. destruct H as (x & H & _). eapply scatter_in. exact H. Qed.
(** a starting value must name a parameter of every one of these models, not only of one of them *)
Definition named_by (cls : string) : bool := String.eqb cls "Mu" || String.eqb cls "Mixture" || String.eqb cls "AxisNormModel".
Theorem C108_expect cls args m l s v : expect = Some l -> In (s, v) l -> ~ In "."%char cls -> named_by (S_ cls) = true -> load cls args = Ok m -> In s (m_params m).
Proof.
  intros E I D N H. unfold load_model in H. rewrite (no_dot cls D) in H. unfold construct in H. rewrite E in H.
  destruct (String.eqb (S_ cls) "Ones") eqn:E0; [apply String.eqb_eq in E0; rewrite E0 in N; discriminate|].
  destruct (String.eqb (S_ cls) "Mu") eqn:E1.
  { destruct args; [|discriminate]. unfold mu_model in H. apply bind_ok in H. destruct H as (o & H & K). injection K as <-. eapply default_in; eauto. }
  destruct (String.eqb (S_ cls) "Mixture") eqn:E2.
  { destruct args as [|a [|b [|? ?]]]; try discriminate. unfold mixture_model in H. destruct (negb _); [discriminate|]. destruct (negb _); [discriminate|]. destruct (negb _); [discriminate|].
    apply bind_ok in H. destruct H as (o & H & K). injection K as <-. eapply default_in; eauto. }
  destruct (String.eqb (S_ cls) "AxisNormModel") eqn:E3.
  { destruct args as [|a [|b [|c [|? ?]]]]; try discriminate. unfold axis_norm in H. destruct (dget _ _); [|discriminate].
    apply bind_ok in H. destruct H as (axes & _ & H). apply bind_ok in H. destruct H as (procs & _ & H). apply bind_ok in H. destruct H as (o & H & K).
    injection K as <-. eapply set_in; eauto. }
  unfold named_by in N. rewrite E1, E2, E3 in N. discriminate.
Qed.
End C108.

(** ** examples *)
Definition axx := mkAxis "x" 2 [1/2; 3/2]%R [0; 1; 2]%R.
Definition axy := mkAxis "y" 3 [1; 3; 5]%R [0; 2; 4; 6]%R.
Definition dx : pdata := mkPd ["a"; "b"; "c"; "d"]%string ["a"]%string [("ch"%string, mkChan [axx; axy] false 0)] 6 6 (fun b j => INR (b + 1)).
Definition no_file : text -> result (list R * Z) := fun _ => Raise GenericException.
Definition no_class : text -> list text -> result model := fun _ _ => Raise GenericException.
Definition words (l : list string) : list text := map T l.
Definition at_xy (i j : Z) : region := mkRegion "ch" [("x"%string, i); ("y"%string, j)].
Definition ld (e : option (list (string * R))) (an : bool) (l : list (list string)) := param_model no_file no_file no_class dx e an (map words l).
Definition one_file : text -> result (list R * Z) := fun f => if teq f (T "start.hdf5") then Ok ([1; 2; 3; 4; 5]%R, 0%Z) else Raise GenericException.
Ltac picks := repeat constructor; try (apply no_colon_b; reflexivity).

Example C108_ex_abcd : parse_plain 4 (words ["yieldCorrection:1"; "d"; "ch"; "x:0"; "y:-1"; "ch"; "x: +0"; "y:1"; "ch"; "y:0"; "x:1_0"; "ot"]%string)
  = Ok (mkCmd "" 1 None true "d" [at_xy 0 (-1); at_xy 0 1; mkRegion "ch" [("y"%string, 0%Z); ("x"%string, 10%Z)]; mkRegion "ot" []]).
Proof. reflexivity. Qed.
Example C108_ex_line : body_line 4 (words ["yieldCorrection:1"; "d"; "ch"; "x:0"; "A"; "B"; "C"]%string) true "d"
  [mkRegion "ch" [("x"%string, 0%Z)]; mkRegion "A" []; mkRegion "B" []; mkRegion "C" []].
Proof.
  exists [T "yieldCorrection:1"], (Some 1%Z), (T "d"), [[T "ch"; T "x:0"]; [T "A"]; [T "B"]; [T "C"]]. split; [reflexivity|]. split; [apply (Given t_corr (T "1") 1); reflexivity|].
  split; [discriminate|]. split; [reflexivity|]. split; [reflexivity|]. split; [|reflexivity].
  constructor; [exists (T "ch"), [mkPick (T "x") (T "0") 0]; split; [reflexivity|]; split; [apply no_colon_b; reflexivity|]; split; [repeat constructor; apply no_colon_b; reflexivity|reflexivity]|].
  repeat constructor; eexists _, []; (split; [reflexivity|]; split; [apply no_colon_b; reflexivity|]; split; [constructor|reflexivity]).
Qed.
Example C108_ex_bad : map (fun l => ld None false [l]) [["ABCD"; "d"; "ch"; "x:0"; "ch"; "x:1"; "ch"]; ["ABCD"; "d"; "ch"; "ch"; "ch"; "ch"; "ch"]; ["ABCD"; "d"; "x:0"; "ch"; "ch"; "ch"; "ch"];
    ["ABCD"; "d"; "ch"; "x:one"; "ch"; "ch"; "ch"]; ["ABCD"; "yieldCorrection:1"; "d"; "ch"; "ch"; "ch"]; ["ABC"; "d"]; ["Mu"; "a"]; ["my.module.Cls"]; ["ABCDIsoMT"; "d"]]%string
  = [Raise ValueError; Raise ValueError; Raise ValueError; Raise ValueError; Raise ValueError; Raise ValueError; Raise TypeError; Raise GenericException; Raise ValueError].
Proof. reflexivity. Qed.
Example C108_ex_file : parse_smooth_ext one_file no_file (words ["pt"; "params:start.hdf5"; "yieldCorrection:0"; "d"; "Ax"; "Bx"; "A"; "B"; "C"; "D"]%string)
  = Ok (mkCmd "pt" 0 (Some [1; 2; 3; 4; 5]%R) false "d" (map (fun s => mkRegion s []) ["Ax"; "Bx"; "A"; "B"; "C"; "D"]%string)) /\
  parse_smooth_ext no_file one_file (words ["pt"; "params:start.hdf5"; "d"; "Ax"; "Bx"; "A"; "B"; "C"; "D"]%string) = Raise GenericException /\
  parse_smooth_ext no_file (fun _ => Ok ([], 3%Z)) (words ["pt"; "params:start.npz"; "d"; "Ax"; "Bx"; "A"; "B"; "C"; "D"]%string) = Ok (mkCmd "pt" 3 (Some []) false "d" (map (fun s => mkRegion s []) ["Ax"; "Bx"; "A"; "B"; "C"; "D"]%string)).
Proof. repeat split; reflexivity. Qed.
Example C108_ex_order : parse_smooth (words ["pt"; "order:2"; "d"; "A"; "B"; "C"; "D"]%string) = Ok (mkCmd "pt" 2 None false "d" (map (fun s => mkRegion s []) ["A"; "B"; "C"; "D"]%string)) /\
  parse_smooth (words ["pt"; "d"; "A"; "B"; "C"; "D"]%string) = Ok (mkCmd "pt" 1 None false "d" (map (fun s => mkRegion s []) ["A"; "B"; "C"; "D"]%string)) /\
  parse_iso_order (words ["order:0"; "yieldCorrection:1"; "d"; "ch"]%string) = Ok (mkCmd "" 0 None true "d" [mkRegion "ch" []]) /\
  parse_iso_params one_file (words ["params:start.hdf5"; "d"; "ch"]%string) = Ok (mkCmd "" 0 (Some [1; 2; 3; 4; 5]%R) false "d" [mkRegion "ch" []]).
Proof. repeat split; reflexivity. Qed.
Example C108_ex_several : exists m, ld None true [["Mu"]; ["AxisNormModel"; "ch"; "b, c"; "x"]; ["ABCD"; "d"; "ch"; "x:0"; "y:0"; "ch"; "x:0"; "y:1"; "ch"; "x:1"; "y:0"; "ch"; "x:1"; "y:1"]]%string = Ok m /\
  m_params m = ["a"; "norm_b_x0"; "norm_b_x1"; "norm_c_x0"; "norm_c_x1"; "d_ch_x0_y0"; "d_ch_x0_y1"; "d_ch_x1_y0"]%string.
Proof. eexists. split; reflexivity. Qed.
Example C108_ex_negative_order : ld None false [["SmoothABCD"; "y"; "order:-1"; "d"; "ch"; "x:0"; "ch"; "x:0"; "ch"; "x:1"; "ch"; "x:1"]]%string = Raise IndexError /\
  ld None false [["SmoothABCD"; "y"; "order:-2"; "d"; "ch"; "x:0"; "ch"; "x:0"; "ch"; "x:1"; "ch"; "x:1"]]%string = Raise ValueError.
Proof. split; reflexivity. Qed.

(** ** what the help texts promise and the program does not do *)
(** smooth_extended_abcd_model.py:286: a file and an order; the order is taken for the process *)
Theorem C108_file_and_order_refuted : exists l, l = words ["pt"; "params:start.hdf5"; "order:1"; "d"; "Ax"; "Bx"; "A"; "B"; "C"; "D"]%string /\ parse_smooth_ext one_file no_file l = Raise ValueError.
Proof. eexists. split; reflexivity. Qed.
(** the options have to come in the documented order *)
Theorem C108_option_order_refuted : exists l l', l = words ["pt"; "order:1"; "yieldCorrection:1"; "d"; "A"; "B"; "C"; "D"]%string /\ l' = words ["pt"; "yieldCorrection:1"; "order:1"; "d"; "A"; "B"; "C"; "D"]%string /\
  (exists c, parse_smooth l = Ok c) /\ parse_smooth l' = Raise ValueError.
Proof. do 2 eexists. split; [reflexivity|]. split; [reflexivity|]. split; [eexists; reflexivity|reflexivity]. Qed.
(** a repeated axis is not an error: the first choice is dropped *)
Theorem C108_repeated_axis_refuted : exists c, parse_plain 4 (words ["d"; "ch"; "x:0"; "x:1"; "A"; "B"; "C"]%string) = Ok c /\ hd_error (k_regions c) = Some (mkRegion "ch" [("x"%string, 1%Z)]).
Proof. eexists. split; reflexivity. Qed.
(** two models with parameters of their own: no starting value at all can be given on the command line *)
Theorem C108_start_refuted an : (exists m, ld None true [["Mu"]; ["AxisNormModel"; "ch"; "b"; "x"]]%string = Ok m) /\
  forall l, l <> [] -> fails (ld (Some l) an [["Mu"]; ["AxisNormModel"; "ch"; "b"; "x"]]%string).
Proof.
  split; [eexists; reflexivity|]. intros [|[s v] l] N; [congruence|]. apply not_ok. intros m H. apply C108_several in H; [|discriminate]. destruct H as (ms & F & _).
  inversion F as [|? m1 ? ms1 (c & r & Q & L1) F1]; subst. injection Q as <- <-. inversion F1 as [|? m2 ? ms2 (c & r & Q & L2) F2]; subst. injection Q as <- <-.
  assert (A : In s (m_params m1)) by (refine (C108_expect _ _ _ _ _ _ _ _ _ _ _ v eq_refl (in_eq (s, v) l) _ _ L1); [intros K; cbn in K; intuition discriminate|reflexivity]).
  assert (B : In s (m_params m2)) by (refine (C108_expect _ _ _ _ _ _ _ _ _ _ _ v eq_refl (in_eq (s, v) l) _ _ L2); [intros K; cbn in K; intuition discriminate|reflexivity]).
  assert (P1 : m_params m1 = ["a"%string]).
  { change (mu_model dx (Some ((s, v) :: l)) an = Ok m1) in L1. unfold mu_model in L1. apply bind_ok in L1. destruct L1 as (o & _ & K). injection K as <-. reflexivity. }
  assert (P2 : m_params m2 = ["norm_b_x0"; "norm_b_x1"]%string).
  { change (axis_norm dx "ch" (Some ["b"%string]) ["x"%string] (Some ((s, v) :: l)) = Ok m2) in L2. unfold axis_norm in L2. cbn [dget pd_channels dx String.eqb Ascii.eqb Bool.eqb] in L2.
    apply bind_ok in L2. destruct L2 as (axes & A1 & L2). apply bind_ok in L2. destruct L2 as (procs & A2 & L2). apply bind_ok in L2. destruct L2 as (o & _ & K). injection K as <-.
    cbn in A1. injection A1 as <-. cbn in A2. injection A2 as <-. reflexivity. }
  rewrite P1 in A. rewrite P2 in B. destruct A as [<-|[]]. destruct B as [B|[B|[]]]; discriminate.
Qed.
(** signal strengths with the default squaring cannot be combined with a per-bin normalisation *)
Theorem C108_combination_refuted : (exists m, ld None false [["Mu"]]%string = Ok m) /\ (exists m, ld None false [["AxisNormModel"; "ch"; "b"; "x"]]%string = Ok m) /\
  ld None false [["Mu"]; ["AxisNormModel"; "ch"; "b"; "x"]]%string = Raise ValueError.
Proof. split; [eexists; reflexivity|]. split; [eexists; reflexivity|reflexivity]. Qed.

Example C108_ex_file_kind : forall h5 npz, read_params h5 npz (T "a.h5") = h5 (T "a.h5") /\ read_params h5 npz (T "a.hdf5") = h5 (T "a.hdf5") /\ read_params h5 npz (T "h5.npz") = npz (T "h5.npz").
Proof. intros; split; [|split]; reflexivity. Qed.

Print Assumptions C108_unambiguous.
Print Assumptions C108_abcd.
Print Assumptions C108_extended.
Print Assumptions C108_smooth.
Print Assumptions C108_smooth_extended.
Print Assumptions C108_iso.
Print Assumptions C108_iso_smooth.
Print Assumptions C108_iso_smooth_extended.
Print Assumptions C108_mixture.
Print Assumptions C108_axis_models.
Print Assumptions C108_arity.
Print Assumptions C108_unknown.
Print Assumptions C108_several.
Print Assumptions C108_default.
Print Assumptions C108_expect.
Print Assumptions C108_file_and_order_refuted.
Print Assumptions C108_option_order_refuted.
Print Assumptions C108_repeated_axis_refuted.
Print Assumptions C108_start_refuted.
Print Assumptions C108_combination_refuted.
