(** C105: the plots of the uncertainties of histograms. *)
From Coq Require Import Reals List Arith Bool String Ascii Lia Lra.
From Verif Require Iplot_Spec Cplot_Proof.
From Verif Require Import RBase PyList ListUtil Shape Hplot_Model Hplot_Spec Hplot_Proof Iplot_Model Iplot_Proof Cplot_Spec Uplot_Model Uplot_Spec Uplot_Proof.
Import ListNotations.
Local Open Scope nat_scope.
Local Open Scope string_scope.

Definition stored (a : args) (c : chan) (names : list string) (f : string -> list nat -> R) : Prop :=
  c_impacts c ("hist_postfit_inclusive_" ++ a_type a ++ "_impacts_grouped") = Some (names, f).
(** numbers can be given relative to the prediction *)
Definition divisible (a : args) (c : chan) : Prop := forall i, valid (c_axes c) i -> (0 <= c_var c i)%R /\ (a_absolute a = false -> c_val c i <> 0%R).
Definition impact_line (a : args) (c : chan) (f : string -> list nat -> R) (bins : list (list nat)) (u : string) (l : line) : Prop :=
  l_label l = a_translate a u /\ Forall2 (fun i r => quoted (a_absolute a) (c_val c i) (f u i) r) bins (l_vals l).
Definition total_line (a : args) (c : chan) (bins : list (list nat)) (l : line) : Prop :=
  l_label l = a_translate a "Total" /\ l_colour l = None /\ Forall2 (fun i r => quoted (a_absolute a) (Rabs (c_val c i)) (sqrt (c_var c i)) r) bins (l_vals l).
Definition wants_total (a : args) : Prop := exists g, a_grouping a = Some g /\ In "Total" g.

Lemma Forall2_map_in {A B C} (P : B -> C -> Prop) (g : A -> B) (h : A -> C) l : (forall x, In x l -> P (g x) (h x)) -> Forall2 P (map g l) (map h l).
Proof. induction l as [|x l IH]; intros H; cbn; constructor; [apply H; left; reflexivity|apply IH; intros y Y; apply H; right; exact Y]. Qed.
Lemma uncertainties_in a c names f : stored a c names f -> Iplot_Spec.subseq (chosen_us a (uncertainties a c)) names /\
  forall u, In u (chosen_us a (uncertainties a c)) <-> In u names /\ (match a_filter a with None => True | Some l => In u l end) /\ match a_grouping a with None => True | Some g => In u g end.
Proof.
  intros S. unfold uncertainties. rewrite S. split.
  - eapply subseq_trans; [apply subseq_filter|]. destruct (a_filter a); [apply subseq_filter|]. clear. induction names as [|x l IH]; constructor; exact IH.
  - intros u. rewrite chosen_in. destruct (a_filter a) as [l|]; [rewrite filter_In, mem_in|]; tauto.
Qed.
Lemma plot_right a c names f b suf inv : stored a c names f -> divisible a c -> others a (c_axes c) <> [] -> inv = inverted a (others a (c_axes c)) -> valid (filter (selected (a_selaxes a)) (c_axes c)) b ->
  exists p ls tl, make_plot a (others a (c_axes c)) (uncertainties a c) (fun u i => impact a c (impacts_of a c) u (weave (a_selaxes a) (c_axes c) b i)) (fun i => total a c (weave (a_selaxes a) (c_axes c) b i)) suf = Ok p /\
    p_file p = plot_file a (others a (c_axes c)) suf /\ p_lines p = (ls ++ tl)%list /\
    Forall2 (impact_line a c f (plot_bins inv (layout a (c_axes c)) b)) (chosen_us a (uncertainties a c)) ls /\
    ((wants_total a /\ exists l, tl = [l] /\ total_line a c (plot_bins inv (layout a (c_axes c)) b) l) \/ (~ wants_total a /\ tl = [])).
Proof.
  intros S D NE EI V. destruct (make_plot_ok a (others a (c_axes c)) (uncertainties a c) (fun u i => impact a c (impacts_of a c) u (weave (a_selaxes a) (c_axes c) b i)) (fun i => total a c (weave (a_selaxes a) (c_axes c) b i)) suf NE) as (p & ls & P1 & P2 & P3 & P4 & P5).
  exists p, ls, (total_lines a (others a (c_axes c)) (fun i => total a c (weave (a_selaxes a) (c_axes c) b i))). split; [exact P1|]. split; [exact P3|]. split; [exact P2|].
  assert (VB : forall v, In v (bins_of (if inv then rev (others a (c_axes c)) else others a (c_axes c))) -> valid (c_axes c) (weave (a_selaxes a) (c_axes c) b (if inv then rev v else v))).
  { intros v I. apply in_bins in I. apply weave_valid; [exact V|]. destruct inv; [|exact I]. apply valid_rev in I. rewrite rev_involutive in I. exact I. }
  split.
  - rewrite P5. apply lines_forall. intros k u _. cbn [snd fst]. split; [reflexivity|]. cbn [l_vals]. rewrite unrolled_eq, (plot_bins_weave a inv _ _ V), <- EI. apply Forall2_map_in. intros v I.
    assert (E : impacts_of a c = f) by (unfold impacts_of; rewrite S; reflexivity). rewrite E. apply quoted_impact. apply D. apply VB. exact I.
  - unfold total_lines, wants_total. destruct (a_grouping a) as [g|]; [|right; split; [intros (g & E & _); discriminate|reflexivity]]. destruct (mem "Total" g) eqn:M.
    + left. apply mem_in in M. split; [eauto|]. eexists. split; [reflexivity|]. split; [reflexivity|]. split; [reflexivity|]. cbn [l_vals]. rewrite unrolled_eq, (plot_bins_weave a inv _ _ V), <- EI. apply Forall2_map_in. intros v I.
      destruct (D _ (VB v I)) as [D1 D2]. apply quoted_total; assumption.
    + right. split; [|reflexivity]. intros (g' & E & I). injection E as <-. apply mem_in in I. congruence.
Qed.

(** one plot for each slice, in its own file, with one line for each of the chosen uncertainties and, if it is in the
    grouping, one for the total; each line has the numbers of the bins of this slice *)
Theorem C105_plots a ch c names f : ch <> "" -> stored a c names f -> divisible a c -> others a (c_axes c) <> [] ->
  exists ps U, channel_plots a ch c = Ok ps /\ NoDup (map p_file ps) /\ Iplot_Spec.subseq U names /\
    (forall u, In u U <-> In u names /\ (match a_filter a with None => True | Some l => In u l end) /\ match a_grouping a with None => True | Some g => In u g end) /\
    Forall2 (fun b p => exists ls tl, p_lines p = (ls ++ tl)%list /\
      let bins := plot_bins (inverted a (others a (c_axes c))) (layout a (c_axes c)) b in
      Forall2 (impact_line a c f bins) U ls /\ ((wants_total a /\ exists l, tl = [l] /\ total_line a c bins l) \/ (~ wants_total a /\ tl = [])))
      (slice_list (layout a (c_axes c))) ps.
Proof.
  intros NC S D NE. destruct (uncertainties_in a c names f S) as [U1 U2]. set (U := chosen_us a (uncertainties a c)) in *. rewrite layout_sel.
  unfold channel_plots. fold (others a (c_axes c)). destruct (filter (selected (a_selaxes a)) (c_axes c)) as [|s0 sl] eqn:ES.
  - assert (EO : others a (c_axes c) = c_axes c). { unfold others. assert (H := no_selected (a_selaxes a) (c_axes c) ES). exact H. }
    assert (V : valid (filter (selected (a_selaxes a)) (c_axes c)) []) by (rewrite ES; constructor).
    destruct (plot_right a c names f [] ch _ S D NE eq_refl V) as (p & ls & tl & P1 & P2 & P3 & P4 & P5).
    assert (W : forall v, List.length v = List.length (c_axes c) -> weave (a_selaxes a) (c_axes c) [] v = v).
    { clear -ES. induction (c_axes c) as [|x l IH]; intros v L; [destruct v; [reflexivity|discriminate]|]. cbn in ES. cbn [weave]. destruct (selected (a_selaxes a) x); [discriminate|]. destruct v as [|i v]; [discriminate|]. rewrite IH; [reflexivity|exact ES|cbn in L; lia]. }
    assert (E : make_plot a (c_axes c) (uncertainties a c) (impact a c (impacts_of a c)) (total a c) ch = Ok p).
    { rewrite <- P1, EO. unfold make_plot. destruct (c_axes c) as [|x axes] eqn:EA; [reflexivity|]. rewrite <- EA in *. cbv zeta. set (inv := a_invert a && Nat.ltb 1 (List.length (c_axes c))).
      assert (EU : forall g : list nat -> R, unrolled inv (c_axes c) g = unrolled inv (c_axes c) (fun i => g (weave (a_selaxes a) (c_axes c) [] i))).
      { intros g. unfold unrolled. destruct inv; apply map_ext_in; intros v I; apply in_bins, valid_length in I; rewrite W; try reflexivity; try exact I. rewrite rev_length in *. exact I. }
      f_equal. f_equal. f_equal.
      - apply map_ext. intros ku. rewrite EU. reflexivity.
      - destruct (a_grouping a) as [g|]; [|reflexivity]. destruct (mem "Total" g); [|reflexivity]. rewrite EU. reflexivity. }
    rewrite E. cbn [rbind]. exists [p], U. split; [reflexivity|]. split; [constructor; [intros []|constructor]|]. split; [exact U1|]. split; [exact U2|]. constructor; [|constructor]. exists ls, tl. split; [exact P3|]. split; [exact P4|exact P5].
  - rewrite <- ES. set (sel := filter (selected (a_selaxes a)) (c_axes c)) in *.
    edestruct (Cplot_Proof.seqr_forall (fun b => make_plot a (others a (c_axes c)) (uncertainties a c) (fun u i => impact a c (impacts_of a c) u (weave (a_selaxes a) (c_axes c) b i)) (fun i => total a c (weave (a_selaxes a) (c_axes c) b i)) (suffix ch sel b))
      (fun b p => p_file p = plot_file a (others a (c_axes c)) (suffix ch sel b) /\ exists ls tl, p_lines p = (ls ++ tl)%list /\
         let bins := plot_bins (inverted a (others a (c_axes c))) (layout a (c_axes c)) b in
         Forall2 (impact_line a c f bins) U ls /\ ((wants_total a /\ exists l, tl = [l] /\ total_line a c bins l) \/ (~ wants_total a /\ tl = []))) (fun b => b) (bins_of sel)) as (ps & E & Q).
    + intros b B. apply in_bins in B. destruct (plot_right a c names f b (suffix ch sel b) _ S D NE eq_refl B) as (p & ls & tl & P1 & P2 & P3 & P4 & P5). exists p. split; [exact P1|]. split; [exact P2|]. exists ls, tl. split; [exact P3|]. split; [exact P4|exact P5].
    + rewrite map_id in Q. exists ps, U. split; [exact E|]. split; [|split; [exact U1|split; [exact U2|]]].
      * assert (EF : map p_file ps = map (fun b => plot_file a (others a (c_axes c)) (suffix ch sel b)) (bins_of sel)). { clear -Q. induction Q as [|x y l l' [A _] Q IH]; [reflexivity|]. cbn [map]. rewrite A, IH. reflexivity. }
        rewrite EF. apply nodup_map_inj; [|apply nodup_bins]. intros x y X Y H. apply in_bins in X, Y. apply file_inj in H; [| |]; try (unfold suffix; destruct ch; [contradiction|discriminate]). revert H. apply suffix_inj; assumption.
      * clear -Q. induction Q as [|x y l l' [_ A] Q IH]; constructor; assumption.
Qed.

(** up to twenty lines have different colours *)
Theorem C105_colours a ch c names f ps p : stored a c names f -> NoDup names -> channel_plots a ch c = Ok ps -> In p ps ->
  List.length (chosen_us a (uncertainties a c)) <= 20 -> NoDup (map l_colour (filter (fun l => match l_colour l with Some _ => true | None => false end) (p_lines p))).
Proof.
  intros S ND E I L. assert (NU : NoDup (uncertainties a c)). { unfold uncertainties. rewrite S. destruct (a_filter a); [apply NoDup_filter'|]; exact ND. }
  assert (M : forall axes imp tot suf q, make_plot a axes (uncertainties a c) imp tot suf = Ok q -> NoDup (map l_colour (filter (fun l => match l_colour l with Some _ => true | None => false end) (p_lines q)))).
  { intros axes imp tot suf q H. destruct axes as [|x axes]; [discriminate|]. destruct (make_plot_ok a (x :: axes) (uncertainties a c) imp tot suf ltac:(discriminate)) as (q' & ls & P1 & P2 & _ & _ & P5). rewrite P1 in H. injection H as <-.
    rewrite P2, filter_app. set (U := chosen_us a (uncertainties a c)) in *.
    assert (T0 : filter (fun l => match l_colour l with Some _ => true | None => false end) (total_lines a (x :: axes) tot) = []). { unfold total_lines. destruct (a_grouping a) as [g|]; [|reflexivity]. destruct (mem "Total" g); reflexivity. }
    rewrite T0, app_nil_r, P5. set (N := ncolours a (uncertainties a c)).
    assert (LN : List.length U <= N).
    { unfold N, ncolours. assert (LG : List.length U <= match a_grouping a with Some g => List.length g | None => List.length (uncertainties a c) end).
      { destruct (a_grouping a) as [g|] eqn:G.
        - apply NoDup_incl_length; [apply NoDup_filter'; exact NU|]. intros u H. apply chosen_in in H. rewrite G in H. apply H.
        - unfold U, chosen_us. rewrite G. clear. induction (uncertainties a c) as [|y l IH]; cbn; [lia|]. lia. }
      cbv zeta. destruct (Nat.leb_spec (match a_grouping a with Some g => List.length g | None => List.length (uncertainties a c) end) 10); lia. }
    assert (N0 : N <> 0) by (unfold N, ncolours; cbv zeta; destruct (Nat.leb _ _); discriminate).
    match goal with |- NoDup (map l_colour (filter ?p (map ?g (combine (seq 1 ?n) ?l)))) => assert (EF : filter p (map g (combine (seq 1 n) l)) = map g (combine (seq 1 n) l)) end.
    { clear. generalize (combine (seq 1 (List.length U)) U). induction l as [|y l IH]; [reflexivity|]. cbn. rewrite IH. reflexivity. }
    rewrite EF, map_map. cbn [l_colour].
    assert (EC : map (fun x0 : nat * string => Some (Nat.modulo (fst x0) N)) (combine (seq 1 (List.length U)) U) = map (fun k => Some (Nat.modulo k N)) (seq 1 (List.length U))).
    { clear. generalize 1. induction U as [|y l IH]; intros s; [reflexivity|]. cbn [List.length seq combine map fst]. rewrite IH. reflexivity. }
    rewrite EC. apply nodup_map_inj; [|apply seq_NoDup]. intros k k' K K' H. injection H as H. apply in_seq in K, K'.
    destruct (Nat.eq_dec k N) as [->|A]; destruct (Nat.eq_dec k' N) as [->|B]; try reflexivity.
    - rewrite Nat.mod_same in H by exact N0. rewrite Nat.mod_small in H by lia. lia.
    - rewrite Nat.mod_same in H by exact N0. rewrite Nat.mod_small in H by lia. lia.
    - rewrite !Nat.mod_small in H by lia. exact H. }
  unfold channel_plots in E. destruct (filter (selected (a_selaxes a)) (c_axes c)) as [|s0 sl].
  - destruct (make_plot a (c_axes c) (uncertainties a c) (impact a c (impacts_of a c)) (total a c) ch) as [q|] eqn:H; [|discriminate]. cbn in E. injection E as <-. destruct I as [<-|[]]. eapply M. exact H.
  - apply (proj1 (seqr_in _ _ E p)) in I. apply in_map_iff in I. destruct I as (b & H & _). eapply M. exact H.
Qed.

(** ** examples *)
Definition ex_args : args := mkArgs false [["M"]] None None ["charge"] false "global" "" false None (fun s => s).
Definition ex_names : list string := ["stat"; "lumi"; "pdf"].
Definition ex_chan : chan := mkC [("charge", 2); ("pt", 2); ("eta", 1)] (fun i => INR (List.nth 0 i 0 + 1)) (fun i => 4%R)
  (fun k => if String.eqb k "hist_postfit_inclusive_global_impacts_grouped" then Some (ex_names, fun u i => INR (String.length u + List.nth 1 i 0)) else None).
Example C105_ex_bins : slice_list (layout ex_args (c_axes ex_chan)) = [[0]; [1]] /\ plot_bins false (layout ex_args (c_axes ex_chan)) [1] = [[1; 0; 0]; [1; 1; 0]].
Proof. split; reflexivity. Qed.
Example C105_ex_order : plot_bins true [(false, 2); (true, 2); (false, 3)] [1] = [[0; 1; 0]; [1; 1; 0]; [0; 1; 1]; [1; 1; 1]; [0; 1; 2]; [1; 1; 2]].
Proof. reflexivity. Qed.
Example C105_ex_lines : exists ps p, channel_plots ex_args "a_M" ex_chan = Ok ps /\ nth_error ps 1 = Some p /\ p_file p = "uncertainties_pt_eta_a_M_charge_1" /\
  map l_label (p_lines p) = ex_names /\ map l_colour (p_lines p) = [Some 1; Some 2; Some 3] /\
  map l_vals (p_lines p) = [[INR 4 / INR 2 * 100; INR 5 / INR 2 * 100]; [INR 4 / INR 2 * 100; INR 5 / INR 2 * 100]; [INR 3 / INR 2 * 100; INR 4 / INR 2 * 100]]%R.
Proof. eexists. eexists. repeat split; reflexivity. Qed.
Example C105_ex_group : exists ps p, channel_plots (mkArgs true [] None (Some ["pdf"; "lumi"]) [] true "global" "x" true (Some ["Total"; "pdf"; "stat"]) (fun s => s ++ "'")) "a" ex_chan = Ok ps /\ nth_error ps 0 = Some p /\
  p_file p = "uncertainties_x_eta_pt_charge_a_absolute_preliminary" /\ map l_label (p_lines p) = ["pdf'"; "Total'"] /\ map l_colour (p_lines p) = [Some 1; None] /\
  map l_vals (p_lines p) = [[INR 3; INR 3; INR 4; INR 4]; [sqrt 4; sqrt 4; sqrt 4; sqrt 4]]%R.
Proof. eexists. eexists. repeat split; reflexivity. Qed.
Example C105_ex_type : uncertainties (mkArgs false [] None None [] false "gaussian_global" "" false None (fun s => s)) ex_chan = [].
Proof. reflexivity. Qed.
Example C105_ex_clean : clean "ch0_Project ch0 pt:sum eta:slice(None) -1.5,(2)" = "ch0_Project_ch0_ptsum_eta_m1p52".
Proof. reflexivity. Qed.
Example C105_ex_mapping : exists ps, all_plots (mkArgs false [["M"]; ["L"]] (Some ["a"]) None [] false "global" "" false None (fun s => s)) [("M 1", [("a", Some ex_chan); ("b", None)]); ("L", [("b", None); ("a", Some ex_chan)])] = Ok ps /\
  map p_file ps = ["uncertainties_charge_pt_eta_a_M_1"; "uncertainties_charge_pt_eta_a_L"] /\
  all_plots ex_args [("M 1", [("a", Some ex_chan); ("b", None)])] = Raise KeyError /\ all_plots ex_args [("L", [])] = Raise ValueError.
Proof. eexists. repeat split; reflexivity. Qed.
Example C105_ex_total : total ex_args ex_chan [1; 0; 0] = 100%R /\ total (mkArgs true [] None None [] false "global" "" false None (fun s => s)) ex_chan [1; 0; 0] = 2%R.
Proof.
  assert (S : sqrt 4 = 2%R) by (replace 4%R with (2 * 2)%R by lra; apply sqrt_square; lra). unfold total. cbn -[sqrt]. split; [|exact S].
  replace (4 / ((1 + 1) * (1 + 1)))%R with 1%R by lra. rewrite sqrt_1. lra.
Qed.

(** ** what does not hold *)
(** the total is never drawn without a grouping *)
Theorem C105_total_refuted : exists a ps, a_grouping a = None /\ channel_plots a "a" ex_chan = Ok ps /\ forall p l, In p ps -> In l (p_lines p) -> ~ total_line a ex_chan (plot_bins false (layout a (c_axes ex_chan)) []) l.
Proof.
  exists (mkArgs false [] None None [] false "global" "" false None (fun s => s)). eexists. split; [reflexivity|]. split; [reflexivity|]. intros p l [<-|[]] I (E & _). cbn in I. destruct I as [<-|[<-|[<-|[]]]]; discriminate.
Qed.
(** the twenty-first line has the colour of the first *)
Theorem C105_colours_refuted : exists a c ps p, NoDup (uncertainties a c) /\ channel_plots a "a" c = Ok ps /\ In p ps /\ ~ NoDup (map l_colour (p_lines p)).
Proof.
  set (ns := map (fun k => String (ascii_of_nat (65 + k)) "") (seq 0 21)).
  exists (mkArgs true [] None None [] false "global" "" false None (fun s => s)), (mkC [("pt", 1)] (fun _ => 1%R) (fun _ => 1%R) (fun _ => Some (ns, fun _ _ => 0%R))). eexists. eexists.
  split; [|split; [reflexivity|split; [left; reflexivity|]]].
  - change (NoDup ns). unfold ns. apply nodup_map_inj; [|apply seq_NoDup]. intros x y X Y H. injection H as H. apply in_seq in X, Y. apply (f_equal nat_of_ascii) in H. rewrite !nat_ascii_embedding in H by lia. lia.
  - intros H. cbn in H. inversion H as [|? ? N _]. apply N. repeat (first [left; reflexivity|right]).
Qed.
(** without -m nothing is drawn, although the help announces all mappings *)
Theorem C105_default_refuted : exists a ps, a_mapping a = [] /\ channel_plots a "a_M" ex_chan = Ok ps /\ ps <> [] /\ all_plots a [("M", [("a", Some ex_chan)])] = Ok [].
Proof. exists (mkArgs false [] None None ["charge"] false "global" "" false None (fun s => s)). eexists. split; [reflexivity|]. split; [reflexivity|]. split; [discriminate|reflexivity]. Qed.
(** a channel all of whose axes are selected is not drawn *)
Theorem C105_all_selected_refuted : exists a c, c_axes c = [("charge", 2)] /\ divisible a c /\ channel_plots a "a" c = Raise GenericException.
Proof. exists ex_args, (mkC [("charge", 2)] (fun _ => 1%R) (fun _ => 1%R) (fun _ => None)). split; [reflexivity|]. split; [intros i _; cbn; split; [lra|intros _; lra]|reflexivity]. Qed.

Print Assumptions C105_plots.
Print Assumptions C105_colours.
Print Assumptions C105_total_refuted.
Print Assumptions C105_colours_refuted.
Print Assumptions C105_default_refuted.
Print Assumptions C105_all_selected_refuted.
