(** C103: the plots of the templates of an input file. *)
From Coq Require Import Reals List Arith Bool String Ascii Lia Lra Permutation.
From Verif Require Session_Proof Param_Names.
From Verif Require Import RBase PyList Hplot_Model Hplot_Proof Iplot_Model Iplot_Spec Iplot_Proof.
Import ListNotations.
Local Open Scope nat_scope.
Local Open Scope string_scope.

(** a channel whose histograms depend on its axes only *)
Record good (c : chan) : Prop := {
  good_names : NoDup (map fst (c_axes c));
  good_nom : forall p, local (c_axes c) (c_nom c p);
  good_data : forall d, c_data c = Some d -> local (c_axes c) d;
  good_down : forall s p, local (c_axes c) (c_down c s p);
  good_up : forall s p, local (c_axes c) (c_up c s p) }.
(** a bin of a plot: in the range of its axes, and on the slice *)
Definition bin_of (c : chan) (ns : list string) (idxs : list (string * nat)) (g : string -> nat) : Prop :=
  (forall a, In a (c_axes c) -> In (fst a) ns -> g (fst a) < snd a) /\ on_slice idxs g.
Definition over_procs (procs : list string) (F : string -> R) : R := sumR (map F procs).

(** the plots of a channel are its nonempty sets of axes, each once and in order *)
Theorem C103_combinations l c : In c (combinations l) <-> subseq c l /\ c <> [].
Proof. apply in_combinations. Qed.
Theorem C103_combinations_once l : NoDup l -> NoDup (combinations l).
Proof. apply nodup_combinations. Qed.
Theorem C103_axes a known ch c ps : good c -> NoDup (a_selaxes a) -> channel_plots a known ch c = Ok ps -> a_split a = false -> (forall n, In n (a_selaxes a) -> ~ In n (map fst (c_axes c))) ->
  map p_axes ps = filter (wanted (a_hists a)) (combinations (if a_invert a then rev (map fst (c_axes c)) else map fst (c_axes c))).
Proof.
  intros G NS H S D. assert (NE : chosen_procs a (c_procs c) <> []). { intros E. unfold channel_plots in H. rewrite E in H. discriminate. }
  assert (E0 : axes_named (a_selaxes a) (c_axes c) = []).
  { destruct (axes_named (a_selaxes a) (c_axes c)) as [|x l] eqn:E; [reflexivity|]. assert (I : In x (axes_named (a_selaxes a) (c_axes c))) by (rewrite E; left; reflexivity). apply in_named in I. destruct I as [I J]. exfalso. apply (D _ J). apply in_map. exact I. }
  rewrite channel_eq in H by exact NE. unfold slices in H. rewrite E0 in H. cbn [map seqr in_range forallb] in H. unfold slice_plots in H.
  destruct (make_plots _ _ _ _ _ _ _ _ _ _) as [l|e] eqn:M in H; cbn in H; [|discriminate]. rewrite app_nil_r in H. injection H as <-.
  destruct (make_plots_in _ _ _ _ _ _ _ _ _ _ _ M S) as (h0 & hs' & E & _ & F).
  assert (A0 : x_axes h0 = c_axes c). { unfold templates in E. destruct (chosen_procs a (c_procs c)); cbn in E; [discriminate|]. injection E as <- _. apply without_nil. }
  rewrite A0 in F. remember (filter _ _) as L. clear - F S. induction F as [|ns p L l H F IH]; [reflexivity|]. cbn. f_equal; [|exact IH]. destruct (plot_of _ _ _ _ _ _ _ _ _ _ _ _ S H) as (k & E & _). exact E.
Qed.
(** --hists: the requested sets of axes *)
Theorem C103_hists reqs names : reqs <> [] -> Forall (fun r => r <> [] /\ Forall (bare "-") r) reqs ->
  (wanted (map (String.concat "-") reqs) names = true <-> exists r, In r reqs /\ forall n, In n names <-> In n r).
Proof.
  intros NE F. unfold wanted. destruct (map (String.concat "-") reqs) as [|x l] eqn:E; [destruct reqs; [contradiction|discriminate]|]. rewrite <- E. rewrite existsb_exists. split.
  - intros (h & I & J). apply in_map_iff in I. destruct I as (r & <- & I). rewrite Forall_forall in F. destruct (F r I) as [F1 F2]. exists r. split; [exact I|]. apply same_set_ok. rewrite <- (split_concat "-" r F1 F2). exact J.
  - intros (r & I & J). exists (String.concat "-" r). split; [apply in_map; exact I|]. rewrite Forall_forall in F. destruct (F r I) as [F1 F2]. unfold split_dash. rewrite (split_concat "-" r F1 F2). apply same_set_ok. exact J.
Qed.
(** each bin of a plot has what all templates of the chosen processes have in the bins of the channel it stands for *)
Definition shows (a : args) (c : chan) (idxs : list (string * nat)) (p : plot) : Prop :=
  exists k, NoDup (p_axes p ++ map fst idxs) /\ in_range (c_axes c) idxs = true /\ (forall n, In n (map fst idxs) -> In n (a_selaxes a)) /\ (forall n, In n (p_axes p) -> In n (map fst (c_axes c))) /\
    (forall g, bin_of c (p_axes p) idxs g -> x_val (p_pred p) g = (k * over_procs (chosen_procs a (c_procs c)) (fun pr => content (c_axes c) (p_axes p ++ map fst idxs) (c_nom c pr) g))%R) /\
    (a_nodata a = false -> forall d, c_data c = Some d -> exists h, p_data p = Some h /\ forall g, bin_of c (p_axes p) idxs g -> x_val h g = content (c_axes c) (p_axes p ++ map fst idxs) d g) /\
    (a_norm a = false -> k = 1%R) /\
    (a_norm a = true -> exists d, c_data c = Some d /\ forall g, on_slice idxs g -> let N := over_procs (chosen_procs a (c_procs c)) (fun pr => content (c_axes c) (map fst idxs) (c_nom c pr) g) in N <> 0%R -> (k * N)%R = content (c_axes c) (map fst idxs) d g).
Lemma shows_at a known ch c idxs ns p : good c -> NoDup (a_selaxes a) -> a_split a = false -> chosen_procs a (c_procs c) <> [] ->
  In idxs (slices a c) -> in_range (c_axes c) idxs = true -> In ns (names_at a c idxs) -> plot_at a known ch c idxs ns p -> p_axes p = ns /\ shows a c idxs p.
Proof.
  intros G NS S NE I1 R I2 P.
  destruct (slices_names a c idxs NS (good_names c G) I1) as [NI SI]. destruct (drawn_axes a c idxs ns (good_names c G) NI I2) as (ND & SN & _).
  assert (NN : NoDup ns). { clear - ND. induction ns as [|n ns IH]; [constructor|]. cbn in ND. inversion ND as [|? ? K N]; subst. constructor; [intros J; apply K; apply in_or_app; auto|apply IH; exact N]. }
  destruct (plot_of _ _ _ _ _ _ _ _ _ _ _ _ S P) as (k & EA & _ & EP & ED & _ & _ & K0 & K1). split; [exact EA|]. exists k. rewrite EA. split; [exact ND|]. split; [exact R|]. split; [exact SI|]. split; [exact SN|].
  assert (C : forall f, local (c_axes c) f -> forall g, bin_of c ns idxs g -> x_val (project ns (fixed idxs (mkHist (c_axes c) f))) g = content (c_axes c) (ns ++ map fst idxs) f g).
  { intros f L g [B1 B2]. rewrite (slice_content ns (c_axes c) idxs f g ND (good_names c G) SN L R B1). apply content_ext. intros n _. apply slice_agrees; assumption. }
  split; [|split; [|split; [exact K0|]]].
  - intros g B. rewrite EP. cbn [scaled added x_val]. unfold over_procs. rewrite <- sumL_sumR. f_equal. unfold templates. rewrite !map_map, sumL_map. apply sumL_ext. intros pr. apply C; [apply (good_nom c G)|exact B].
  - intros ND0 d Ed. rewrite ED. unfold data_of. rewrite ND0, S, Ed. cbn [orb option_map]. eexists. split; [reflexivity|]. intros g B. apply C; [apply (good_data c G); exact Ed|exact B].
  - intros Nm. destruct (K1 Nm) as (d0 & Ed0 & Ek). unfold data_of in Ed0. destruct (a_nodata a || a_split a) eqn:OO; [discriminate|]. destruct (c_data c) as [d|] eqn:Ed; [|discriminate]. cbn [option_map] in Ed0. injection Ed0 as <-. exists d. split; [reflexivity|].
    intros g B N Nz. rewrite Ek, (sum_slice (c_axes c) idxs d ns g (good_names c G) NI NN R (good_data c G d Ed) B).
    assert (sum_hist (added (map (project ns) (map (fixed idxs) (templates a c)))) = N) as ->; [|field; exact Nz].
    rewrite (sum_added _ (axes_named ns (without (map fst idxs) (c_axes c)))).
    + unfold N, over_procs, templates. rewrite !map_map, <- sumL_sumR, sumL_map. apply sumL_ext. intros pr. apply sum_slice; auto; [apply (good_names c G)|apply (good_nom c G)].
    + unfold templates. destruct (chosen_procs a (c_procs c)); [contradiction|discriminate].
    + intros h J. unfold templates in J. rewrite !map_map in J. apply in_map_iff in J. destruct J as (pr & <- & _). reflexivity.
Qed.
Lemma ok_procs a known ch c ps : channel_plots a known ch c = Ok ps -> chosen_procs a (c_procs c) <> [].
Proof. intros H E. unfold channel_plots in H. rewrite E in H. discriminate. Qed.
Theorem C103_prediction a known ch c ps p : good c -> NoDup (a_selaxes a) -> channel_plots a known ch c = Ok ps -> a_split a = false -> In p ps -> exists idxs, shows a c idxs p.
Proof.
  intros G NS H S I. destruct (channel_plot _ _ _ _ _ H S) as [Q _]. destruct (Q p I) as (idxs & ns & I1 & R & I2 & P). exists idxs. apply (shows_at a known ch c idxs ns p); auto. apply (ok_procs a known ch c ps H).
Qed.
(** the selected axes are given in the order of the histogram: there is a plot of every slice and set of axes *)
Definition in_order (a : args) (c : chan) : Prop := axes_named (a_selaxes a) (c_axes c) = within (a_selaxes a) (c_axes c).
Lemma in_product (l : list (string * nat)) v : In v (product (map (fun x => seq 0 (snd x)) l)) <-> Forall2 (fun x i => i < snd x) l v.
Proof.
  revert v. induction l as [|x l IH]; intros v; cbn.
  - split; [intros [<-|[]]; constructor|intros H; inversion H; auto].
  - rewrite in_flat_map. split.
    + intros (i & I & J). apply in_map_iff in J. destruct J as (w & <- & J). apply in_seq in I. constructor; [lia|apply IH; exact J].
    + intros H. inversion H as [|? y ? l' L F]; subst. exists y. split; [apply in_seq; lia|]. apply in_map. apply IH. exact F.
Qed.
Lemma range_slices a c idxs : NoDup (map fst (c_axes c)) -> in_order a c -> a_select a = [] -> In idxs (slices a c) -> in_range (c_axes c) idxs = true.
Proof.
  intros NA O Z I. unfold slices in I. unfold in_order in O. rewrite Z in I. destruct (axes_named (a_selaxes a) (c_axes c)) as [|x sel] eqn:E; [destruct I as [<-|[]]; reflexivity|].
  apply in_map_iff in I. destruct I as (b & <- & I). rewrite <- O in I. apply in_product in I. apply in_range_ok. intros p J.
  assert (K : forall y, In y (x :: sel) -> In y (c_axes c)) by (rewrite <- E; intros y Hy; apply in_named in Hy; tauto).
  clear - I J K. induction I as [|y i l b L F IH]; [destruct J|]. cbn in J. destruct J as [<-|J]; [exists y; cbn; split; [apply K; left; reflexivity|auto]|]. apply IH; [exact J|]. intros z Hz. apply K. right. exact Hz.
Qed.
Lemma slice_for a c g : in_order a c -> a_select a = [] -> (forall x, In x (c_axes c) -> In (fst x) (a_selaxes a) -> g (fst x) < snd x) ->
  exists idxs, In idxs (slices a c) /\ map fst idxs = map fst (within (a_selaxes a) (c_axes c)) /\ on_slice idxs g /\ without (map fst idxs) (c_axes c) = without (a_selaxes a) (c_axes c).
Proof.
  intros O Z B. set (sel := within (a_selaxes a) (c_axes c)) in *. set (idxs := combine (map fst sel) (map (fun x => g (fst x)) sel)).
  assert (E1 : map fst idxs = map fst sel). { unfold idxs. clear. induction sel as [|x l IH]; cbn; [reflexivity|f_equal; exact IH]. }
  assert (ES : on_slice idxs g). { intros p J. unfold idxs in J. clear - J. induction sel as [|x l IH]; cbn in J; [destruct J|]. destruct J as [<-|J]; [reflexivity|apply IH; exact J]. }
  exists idxs. split; [|split; [exact E1|split; [exact ES|]]].
  - assert (K : forall y, In y sel -> g (fst y) < snd y). { intros y Hy. unfold sel, within in Hy. apply filter_In in Hy. destruct Hy as [Hy M]. apply mem_in in M. apply B; assumption. }
    assert (F2 : Forall2 (fun x i => i < snd x) sel (map (fun x => g (fst x)) sel)). { clear - K. induction sel as [|y l' IH]; cbn; constructor; [apply K; left; reflexivity|apply IH; intros z Hz; apply K; right; exact Hz]. }
    apply in_product in F2. unfold slices. unfold in_order in O. rewrite O, Z. fold sel. unfold idxs. clear - F2. destruct sel as [|x l]; [left; reflexivity|]. apply in_map_iff. exists (map (fun x => g (fst x)) (x :: l)). split; [reflexivity|exact F2].
  - rewrite E1. unfold without. apply filter_ext_in. intros x I. f_equal. destruct (mem (fst x) (a_selaxes a)) eqn:M.
    + apply mem_in. apply in_map. unfold sel, within. apply filter_In. auto.
    + apply mem_not. intros J. apply in_map_iff in J. destruct J as (y & E & J). unfold sel, within in J. apply filter_In in J. destruct J as [_ J]. rewrite E in J. congruence.
Qed.
Theorem C103_slices a known ch c ps g ns : good c -> NoDup (a_selaxes a) -> in_order a c -> a_select a = [] -> channel_plots a known ch c = Ok ps -> a_split a = false ->
  (forall x, In x (c_axes c) -> In (fst x) (a_selaxes a) -> g (fst x) < snd x) ->
  subseq ns (if a_invert a then rev (map fst (without (a_selaxes a) (c_axes c))) else map fst (without (a_selaxes a) (c_axes c))) -> ns <> [] -> wanted (a_hists a) ns = true ->
  exists p idxs, In p ps /\ p_axes p = ns /\ map fst idxs = map fst (within (a_selaxes a) (c_axes c)) /\ on_slice idxs g /\ shows a c idxs p.
Proof.
  intros G NS O Z H S B SB NZ W. destruct (channel_plot _ _ _ _ _ H S) as [_ Q].
  destruct (slice_for a c g O Z B) as (idxs & I1 & E1 & ES & EW).
  assert (I2 : In ns (names_at a c idxs)). { unfold names_at. rewrite EW. apply filter_In. split; [apply in_combinations; auto|exact W]. }
  destruct (Q idxs ns I1 I2) as (R & p & I & P). destruct (shows_at a known ch c idxs ns p G NS S (ok_procs _ _ _ _ _ H) I1 R I2 P) as [EA SH].
  exists p, idxs. auto.
Qed.
(** and the script ends without an exception *)
Theorem C103_runs a known ch c : good c -> NoDup (a_selaxes a) -> in_order a c -> a_select a = [] -> a_split a = false -> chosen_procs a (c_procs c) <> [] ->
  without (a_selaxes a) (c_axes c) <> [] -> (a_norm a = true -> a_nodata a = false /\ c_data c <> None) -> exists ps, channel_plots a known ch c = Ok ps.
Proof.
  intros G NS O Z S NE NW ND. rewrite channel_eq by exact NE.
  destruct (seqr_all (map (fun idxs => if in_range (c_axes c) idxs then slice_plots a known ch c idxs else Raise IndexError) (slices a c))) as (ls & ->); [|eexists; reflexivity].
  intros r I. apply in_map_iff in I. destruct I as (idxs & <- & I). rewrite (range_slices a c idxs (good_names c G) O Z I). unfold slice_plots, make_plots. rewrite S.
  destruct (slices_names a c idxs NS (good_names c G) I) as [_ SI].
  assert (T : templates a c <> []) by (unfold templates; destruct (chosen_procs a (c_procs c)); [contradiction|discriminate]).
  assert (X : x_axes (hd (mkHist [] (fun _ => 0%R)) (map (fixed idxs) (templates a c))) = without (map fst idxs) (c_axes c)) by (unfold templates; destruct (chosen_procs a (c_procs c)); [contradiction|reflexivity]).
  destruct (map (fixed idxs) (templates a c)) as [|h0 hs] eqn:E; [destruct (templates a c); [contradiction|discriminate]|]. cbn [hd] in X. rewrite X.
  destruct (map fst (without (map fst idxs) (c_axes c))) as [|n0 l0] eqn:E0.
  { exfalso. destruct (without (a_selaxes a) (c_axes c)) as [|y l] eqn:EY; [contradiction|]. assert (J : In (fst y) (map fst (without (a_selaxes a) (c_axes c)))) by (rewrite EY; left; reflexivity).
    apply without_names in J. assert (K : In (fst y) (map fst (without (map fst idxs) (c_axes c)))) by (apply without_names; split; [tauto|intros K; apply SI in K; tauto]). rewrite E0 in K. destruct K. }
  rewrite <- E0. apply seqr_all. intros r J. apply in_flat_map in J. destruct J as (ns & _ & [<-|[]]). unfold make_plot. rewrite S. destruct (a_norm a) eqn:Nm; [|eexists; reflexivity].
  destruct (ND eq_refl) as [D1 D2]. unfold data_of. rewrite D1, S. cbn [orb]. destruct (c_data c) as [d|]; [|contradiction]. eexists. reflexivity.
Qed.
(** the stack has the chosen processes and adds up to the prediction *)
Theorem C103_stack a known ch c ps p : channel_plots a known ch c = Ok ps -> a_split a = false -> a_nostack a = false -> In p ps ->
  map fst (p_stack p) = chosen_procs a (c_procs c) /\ forall g, x_val (p_pred p) g = sumR (map (fun h => x_val (snd h) g) (p_stack p)).
Proof.
  intros H S NT I. destruct (channel_plot _ _ _ _ _ H S) as [Q _]. destruct (Q p I) as (idxs & ns & _ & _ & _ & P). destruct (plot_of _ _ _ _ _ _ _ _ _ _ _ _ S P) as (k & _ & _ & EP & _ & ES & _). rewrite ES, EP, NT. unfold templates. rewrite !map_map.
  generalize (chosen_procs a (c_procs c)) as l. intros l. split.
  - induction l as [|x l IH]; cbn; [reflexivity|]. f_equal. exact IH.
  - intros g. cbn [scaled added x_val]. rewrite sumL_map. rewrite <- sumL_sumR. induction l as [|x l IH]; cbn; [lra|]. rewrite Rmult_plus_distr_l. f_equal. exact IH.
Qed.
(** names of variations keep their labels, and unknown ones are left out *)
Theorem C103_labels known vars labels v l : In (v, l) (variations known vars labels) <-> exists k, nth_error vars k = Some v /\ In v known /\ l = nth k labels v.
Proof. apply in_variations. Qed.
(** what the lines of a variation are: the solid one is the variation Down, the dashed one the variation Up, both of all processes of the file *)
Theorem C103_lines a known ch c ps p : good c -> NoDup (a_selaxes a) -> channel_plots a known ch c = Ok ps -> a_split a = false -> a_norm a = false -> In p ps ->
  List.length (p_vars p) = List.length (variations known (a_vars a) (a_labels a)) /\
  forall j v l, nth_error (variations known (a_vars a) (a_labels a)) j = Some (v, l) -> exists solid dashed idxs, nth_error (p_vars p) j = Some (l, solid, dashed) /\
    in_range (c_axes c) idxs = true /\ (forall g, bin_of c (p_axes p) idxs g ->
      x_val solid g = over_procs (c_procs c) (fun pr => content (c_axes c) (p_axes p ++ map fst idxs) (c_down c v pr) g) /\
      if a_onesided a then dashed = None else exists h, dashed = Some h /\ x_val h g = over_procs (c_procs c) (fun pr => content (c_axes c) (p_axes p ++ map fst idxs) (c_up c v pr) g)).
Proof.
  intros G NS H S Nm I. destruct (channel_plot _ _ _ _ _ H S) as [Q _]. destruct (Q p I) as (idxs & ns & I1 & R & I2 & P). clear Q.
  destruct (slices_names a c idxs NS (good_names c G) I1) as [NI SI]. destruct (drawn_axes a c idxs ns (good_names c G) NI I2) as (ND & SN & _).
  destruct (plot_of _ _ _ _ _ _ _ _ _ _ _ _ S P) as (k & EA & _ & _ & _ & _ & EV & K0 & _). rewrite (K0 Nm) in EV. clear K0. fold (drawn a known). rewrite EA, EV.
  assert (L1 : List.length (map (scaled_syst 1) (map (fixed_syst idxs) (downs a known c))) = List.length (map snd (drawn a known))) by (unfold downs; rewrite !map_length; reflexivity).
  assert (L2 : List.length (map (scaled_syst 1) (map (fixed_syst idxs) (ups a known c))) = List.length (map snd (drawn a known))) by (unfold ups; rewrite !map_length; reflexivity).
  split; [rewrite zip_len by assumption; apply map_length|]. intros j v l J.
  assert (B : j < List.length (map snd (drawn a known))) by (rewrite map_length; apply nth_error_Some; unfold drawn in *; congruence).
  destruct (zip_nth (a_onesided a) (fun s => project ns (of_all (c_procs c) s)) _ _ _ L1 L2 j B) as (u & d & l' & Eu & Ed & El & Ez).
  unfold downs, ups in *. rewrite !map_map in Eu, Ed. rewrite (map_nth_error _ _ _ J) in Eu. rewrite (map_nth_error _ _ _ J) in Ed. rewrite (map_nth_error _ _ _ J) in El. injection Eu as <-. injection Ed as <-. injection El as <-. cbn [fst snd] in *.
  eexists _, _, idxs. split; [exact Ez|]. split; [exact R|]. intros g [B1 B2].
  assert (C : forall F : string -> asg -> Rdefinitions.R, (forall pr, local (c_axes c) (F pr)) -> x_val (project ns (of_all (c_procs c) (scaled_syst 1 (fixed_syst idxs (mkS (c_axes c) F))))) g =
     over_procs (c_procs c) (fun pr => content (c_axes c) (ns ++ map fst idxs) (F pr) g)).
  { intros F L. unfold over_procs. rewrite <- sumL_sumR. cbn [project of_all scaled_syst fixed_syst x_val x_axes s_axes s_val]. rewrite sumL_swap. apply sumL_ext. intros pr.
    rewrite sumL_scal, Rmult_1_l. transitivity (x_val (project ns (fixed idxs (mkHist (c_axes c) (F pr)))) g); [reflexivity|].
    rewrite (slice_content ns (c_axes c) idxs (F pr) g ND (good_names c G) SN (L pr) R B1). apply content_ext. intros n _. apply slice_agrees; assumption. }
  split; [apply C; intros pr; apply (good_down c G)|]. destruct (a_onesided a); [reflexivity|]. eexists. split; [reflexivity|]. apply C. intros pr. apply (good_up c G).
Qed.

(** a variation without effect is drawn at one if no processes are selected *)
Theorem C103_no_effect a known ch c ps p j v l : good c -> NoDup (a_selaxes a) -> channel_plots a known ch c = Ok ps -> a_split a = false -> a_norm a = false -> a_processes a = [] -> In p ps ->
  nth_error (variations known (a_vars a) (a_labels a)) j = Some (v, l) -> (forall pr g, c_down c v pr g = c_nom c pr g) ->
  exists solid dashed idxs, nth_error (p_vars p) j = Some (l, solid, dashed) /\ forall g, bin_of c (p_axes p) idxs g -> x_val (p_pred p) g <> 0%R -> ratio p solid g = 1%R.
Proof.
  intros G NS H S Nm AP I J E. destruct (channel_plot _ _ _ _ _ H S) as [Q _]. destruct (Q p I) as (idxs & ns & I1 & R & I2 & P). clear Q.
  destruct (plot_of _ _ _ _ _ _ _ _ _ _ _ _ S P) as (k & EA & _ & EP & _ & _ & EV & K0 & _). rewrite (K0 Nm) in EP, EV. clear K0. fold (drawn a known) in J. rewrite EV.
  assert (L1 : List.length (map (scaled_syst 1) (map (fixed_syst idxs) (downs a known c))) = List.length (map snd (drawn a known))) by (unfold downs; rewrite !map_length; reflexivity).
  assert (L2 : List.length (map (scaled_syst 1) (map (fixed_syst idxs) (ups a known c))) = List.length (map snd (drawn a known))) by (unfold ups; rewrite !map_length; reflexivity).
  assert (B : j < List.length (map snd (drawn a known))) by (rewrite map_length; apply nth_error_Some; congruence).
  destruct (zip_nth (a_onesided a) (fun s => project ns (of_all (c_procs c) s)) _ _ _ L1 L2 j B) as (u & d & l' & Eu & Ed & El & Ez).
  unfold downs in Eu. rewrite !map_map in Eu. rewrite (map_nth_error _ _ _ J) in Eu. rewrite (map_nth_error _ _ _ J) in El. injection Eu as <-. injection El as <-. cbn [fst snd] in *.
  eexists _, _, idxs. split; [exact Ez|]. intros g _ Nz. unfold ratio. assert (forall x y : Rdefinitions.R, x = y -> y <> 0%R -> (x / y = 1)%R) as F by (intros x y -> Hy; field; exact Hy). apply F; [|exact Nz].
  rewrite EP. cbn [project of_all scaled_syst fixed_syst scaled added x_val x_axes s_axes s_val]. unfold templates, chosen_procs. rewrite AP, !map_map, sumL_map, Rmult_1_l, sumL_swap. apply sumL_ext. intros pr.
  cbn [project fixed x_val x_axes]. apply sumL_ext. intros h. rewrite E. lra.
Qed.
(** --splitByProcess: a plot for each chosen process with something in the slice, of this process alone *)
Theorem C103_split a known ch c ps p : good c -> NoDup (a_selaxes a) -> channel_plots a known ch c = Ok ps -> a_split a = true -> In p ps ->
  exists idxs pr, In pr (chosen_procs a (c_procs c)) /\ p_file p = file_name a pr (p_axes p) ch (tag a c idxs) /\ p_data p = None /\ (exists x r, pr = String x r /\ p_line p = Some (String x "")) /\
    (forall g, bin_of c (p_axes p) idxs g -> x_val (p_pred p) g = content (c_axes c) (p_axes p ++ map fst idxs) (c_nom c pr) g) /\
    forall j v l, nth_error (variations known (a_vars a) (a_labels a)) j = Some (v, l) -> exists solid dashed, nth_error (p_vars p) j = Some (l, solid, dashed) /\
      forall g, bin_of c (p_axes p) idxs g -> x_val solid g = content (c_axes c) (p_axes p ++ map fst idxs) (c_down c v pr) g.
Proof.
  intros G NS H S I. apply (channel_in a known ch c ps H) in I. destruct I as (idxs & l & I1 & R & Q & I). destruct (make_plots_split _ _ _ _ _ _ _ _ _ _ _ Q S) as (h0 & hs' & E & _ & F). apply F in I. clear F.
  assert (A0 : x_axes h0 = without (map fst idxs) (c_axes c)). { unfold templates in E. destruct (chosen_procs a (c_procs c)); cbn in E; [discriminate|]. injection E as <- _. reflexivity. }
  destruct I as (ns & pr & h & I2 & I3 & _ & M). rewrite A0 in I2.
  destruct (slices_names a c idxs NS (good_names c G) I1) as [NI SI]. destruct (drawn_axes a c idxs ns (good_names c G) NI I2) as (ND & SN & _).
  assert (Eh : h = fixed idxs (mkHist (c_axes c) (c_nom c pr)) /\ In pr (chosen_procs a (c_procs c))).
  { clear - I3. unfold templates in I3. rewrite map_map in I3. induction (chosen_procs a (c_procs c)) as [|q l IH]; [destruct I3|]. cbn in I3. destruct I3 as [I3|I3]; [injection I3 as <- <-; split; [reflexivity|left; reflexivity]|]. destruct (IH I3). split; [assumption|right; assumption]. }
  destruct Eh as [-> IP]. unfold make_plot in M. rewrite S in M. cbn [map] in M. destruct (chars pr) as [|x0 r0] eqn:EC; [discriminate|]. injection M as <-. cbn [p_axes p_file p_data p_line p_pred p_vars].
  assert (C : forall f, local (c_axes c) f -> forall g, bin_of c ns idxs g -> x_val (project ns (fixed idxs (mkHist (c_axes c) f))) g = content (c_axes c) (ns ++ map fst idxs) f g).
  { intros f L g [B1 B2]. rewrite (slice_content ns (c_axes c) idxs f g ND (good_names c G) SN L R B1). apply content_ext. intros n _. apply slice_agrees; assumption. }
  exists idxs, pr. split; [exact IP|]. split; [reflexivity|]. split; [unfold data_of; rewrite S, orb_true_r; reflexivity|]. split; [|split].
  - destruct pr as [|x r]; [discriminate|]. cbn in EC. injection EC as <- _. exists x, r. auto.
  - intros g B. apply C; [apply (good_nom c G)|exact B].
  - intros j v l0 J. fold (drawn a known) in J.
    assert (L1 : List.length (map (fixed_syst idxs) (downs a known c)) = List.length (map snd (drawn a known))) by (unfold downs; rewrite !map_length; reflexivity).
    assert (L2 : List.length (map (fixed_syst idxs) (ups a known c)) = List.length (map snd (drawn a known))) by (unfold ups; rewrite !map_length; reflexivity).
    assert (B : j < List.length (map snd (drawn a known))) by (rewrite map_length; apply nth_error_Some; congruence).
    destruct (zip_nth (a_onesided a) (fun s => project ns (of_proc pr s)) _ _ _ L1 L2 j B) as (u & d & l' & Eu & Ed & El & Ez).
    unfold downs in Eu. rewrite !map_map in Eu. rewrite (map_nth_error _ _ _ J) in Eu. rewrite (map_nth_error _ _ _ J) in El. injection Eu as <-. injection El as <-. cbn [fst snd] in *.
    eexists _, _. split; [exact Ez|]. intros g Bg. transitivity (x_val (project ns (fixed idxs (mkHist (c_axes c) (c_down c v pr)))) g); [reflexivity|]. apply C; [apply (good_down c G)|exact Bg].
Qed.

(** and every chosen process with an event in a bin has its plots of the slice of this bin *)
Lemma reach axes g : (forall x, In x axes -> g (fst x) < snd x) -> NoDup (map fst axes) -> forall g0, exists h, In h (points axes g0) /\ (forall n, In n (map fst axes) -> h n = g n) /\ forall n, ~ In n (map fst axes) -> h n = g0 n.
Proof.
  induction axes as [|x axes IH]; intros B N g0; [exists g0; cbn; split; [auto|split; [intros n []|reflexivity]]|]. cbn [map] in N. apply NoDup_cons_iff in N. destruct N as [I N']. destruct (IH (fun y J => B y (or_intror J)) N' (upd g0 (fst x) (g (fst x)))) as (h & J & H1 & H2).
  exists h. split; [|split].
  - cbn. apply in_flat_map. exists (g (fst x)). split; [apply in_seq; specialize (B x (or_introl eq_refl)); lia|exact J].
  - intros n [<-|K]; [rewrite (H2 _ I); apply upd_same|apply H1; exact K].
  - intros n K. rewrite H2 by (intros Q; apply K; right; exact Q). apply upd_other. intros ->. apply K. left. reflexivity.
Qed.
Theorem C103_split_complete a known ch c ps g ns pr : good c -> NoDup (a_selaxes a) -> in_order a c -> a_select a = [] -> channel_plots a known ch c = Ok ps -> a_split a = true ->
  (forall x, In x (c_axes c) -> g (fst x) < snd x) -> In pr (chosen_procs a (c_procs c)) -> c_nom c pr g <> 0%R ->
  subseq ns (if a_invert a then rev (map fst (without (a_selaxes a) (c_axes c))) else map fst (without (a_selaxes a) (c_axes c))) -> ns <> [] -> wanted (a_hists a) ns = true ->
  exists p idxs, In p ps /\ p_axes p = ns /\ on_slice idxs g /\ p_file p = file_name a pr ns ch (tag a c idxs).
Proof.
  intros G NS O Z H S B IP NZ SB NN W. destruct (slice_for a c g O Z (fun x J _ => B x J)) as (idxs & I1 & E1 & ES & EW).
  assert (R := range_slices a c idxs (good_names c G) O Z I1). destruct (slices_names a c idxs NS (good_names c G) I1) as [NI SI].
  pose proof (ok_procs _ _ _ _ _ H) as NE. pose proof (channel_in a known ch c ps H) as CI. rewrite channel_eq in H by exact NE. destruct (seqr _) as [ls|e] eqn:E in H; cbn in H; [|discriminate].
  assert (K : In (if in_range (c_axes c) idxs then slice_plots a known ch c idxs else Raise IndexError) (map (fun idxs => if in_range (c_axes c) idxs then slice_plots a known ch c idxs else Raise IndexError) (slices a c))) by (apply in_map_iff; exists idxs; auto).
  rewrite R in K. destruct (slice_plots a known ch c idxs) as [l|e] eqn:Q; [|exfalso; exact (seqr_raise _ _ K _ E)]. pose proof Q as Q0.
  unfold slice_plots, make_plots in Q0. rewrite S in Q0.
  destruct (make_plots_split _ _ _ _ _ _ _ _ _ _ _ Q S) as (h0 & hs' & E' & _ & F).
  assert (A0 : x_axes h0 = without (map fst idxs) (c_axes c)). { unfold templates in E'. destruct (chosen_procs a (c_procs c)); cbn in E'; [discriminate|]. injection E' as <- _. reflexivity. }
  set (h := fixed idxs (mkHist (c_axes c) (c_nom c pr))).
  assert (IC : In (pr, h) (combine (chosen_procs a (c_procs c)) (map (fixed idxs) (templates a c)))).
  { unfold templates. rewrite map_map. clear - IP. induction (chosen_procs a (c_procs c)) as [|q l IH]; [destruct IP|]. cbn. destruct IP as [->|IP]; [left; reflexivity|right; apply IH; exact IP]. }
  assert (NZH : nonzero h = true).
  { destruct (reach (without (map fst idxs) (c_axes c)) g) with (g0 := origin) as (k & J & H1 & _).
    - intros x J. apply filter_In in J. apply B. tauto.
    - apply nodup_without. apply (good_names c G).
    - unfold nonzero. apply existsb_exists. exists k. split; [exact J|]. cbn [h fixed x_val]. rewrite (good_nom c G pr (upds idxs k) g).
      + unfold Reqb. destruct (Req_EM_T (c_nom c pr g) 0); [contradiction|reflexivity].
      + intros n Jn. destruct (in_dec string_dec n (map fst idxs)) as [D|D].
        * apply in_map_iff in D. destruct D as ((m & i) & <- & D). cbn [fst]. rewrite (upds_nodup idxs k m i NI D). symmetry. exact (ES _ D).
        * rewrite upds_out by exact D. apply H1. apply without_names. auto. }
  assert (I2 : In ns (filter (wanted (a_hists a)) (combinations (if a_invert a then rev (map fst (x_axes h0)) else map fst (x_axes h0))))). { rewrite A0, EW. apply filter_In. split; [apply in_combinations; auto|exact W]. }
  assert (MP : exists p, make_plot a (c_procs c) [h] (option_map (fixed idxs) (data_of a c)) (map (fixed_syst idxs) (downs a known c)) (map (fixed_syst idxs) (ups a known c)) ns (tag a c idxs) ch (chars pr) pr (map snd (drawn a known)) = Ok p /\ In p l).
  { destruct (make_plot a (c_procs c) [h] (option_map (fixed idxs) (data_of a c)) (map (fixed_syst idxs) (downs a known c)) (map (fixed_syst idxs) (ups a known c)) ns (tag a c idxs) ch (chars pr) pr (map snd (drawn a known))) as [p|e] eqn:M.
    - exists p. split; [reflexivity|]. apply F. exists ns, pr, h. auto.
    - exfalso. rewrite E' in Q0. destruct (map fst (x_axes h0)) as [|n0 l0] eqn:E0; [discriminate|]. refine (seqr_raise _ e _ _ Q0). apply in_flat_map. exists ns. split; [exact I2|]. apply in_map_iff. exists (pr, h). split; [exact M|].
      apply filter_In. rewrite <- E'. auto. }
  destruct MP as (p & M & IL). exists p, idxs. split; [apply CI; exists idxs, l; auto|]. unfold make_plot in M. rewrite S in M. cbn [map] in M. destruct (chars pr); [discriminate|]. injection M as <-. auto.
Qed.

(** names of files: no two plots of a channel have the same, if names of axes have no underscore *)
Lemma bare_chars c s : bare c s <-> ~ In c (Param_Names.chars s).
Proof.
  split.
  - intros B I. apply in_split in I. destruct I as (l1 & l2 & E). revert s B E. induction l1 as [|x l1 IH]; intros s B E; destruct s as [|y s]; cbn in E; try discriminate; injection E as -> E.
    + apply (B "" s). reflexivity.
    + apply (IH s); [|exact E]. intros a b H. apply (B (String x a) b). rewrite H. reflexivity.
  - intros H a b ->. apply H. rewrite Param_Names.chars_app. apply in_or_app. right. left. reflexivity.
Qed.
Lemma bare_comp n i : bare "_" n -> bare "_" (n ++ Writer_Model.nat_str i).
Proof.
  intros B. apply bare_chars. intros I. rewrite Param_Names.chars_app in I. apply in_app_or in I. destruct I as [I|I]; [apply bare_chars in B; contradiction|].
  pose proof (Param_Names.nat_str_digits i) as D. rewrite forallb_forall in D. specialize (D _ I). discriminate.
Qed.
Definition tail_of (a : args) (ch : string) (sel : option (list (string * nat))) : string :=
  ch ++ (match sel with None => "" | Some l => "_" ++ String.concat "_" (map (fun p => fst p ++ Writer_Model.nat_str (snd p)) l) end) ++ (if String.eqb (a_postfix a) "" then "" else "_" ++ a_postfix a).
Lemma file_split a ns ch sel : a_split a = false -> ns <> [] -> Forall (bare "_") ns ->
  exists pre, file_name a "" ns ch sel = (pre ++ String.concat "_" ns ++ String "_" (tail_of a ch sel)) /\ (pre = "hist_" ++ (if a_nostack a then "" else "stack_")) /\
    split_at "_" (String.concat "_" ns ++ String "_" (tail_of a ch sel)) = (ns ++ split_at "_" (tail_of a ch sel))%list.
Proof.
  intros S NE F. eexists. split; [|split; [reflexivity|]].
  - unfold file_name. rewrite S. destruct (a_nostack a); reflexivity.
  - rewrite split_app. change (String.concat "_" ns) with (String.concat (String "_" EmptyString) ns). rewrite split_concat by assumption. reflexivity.
Qed.
Lemma tail_split a ch idxs : idxs <> [] -> Forall (fun p : string * nat => bare "_" (fst p)) idxs ->
  split_at "_" (tail_of a ch (Some idxs)) = (split_at "_" ch ++ map (fun p => String.append (fst p) (Writer_Model.nat_str (snd p))) idxs ++ (if String.eqb (a_postfix a) "" then [] else split_at "_" (a_postfix a)))%list.
Proof.
  intros NE F. set (X := map (fun p : string * nat => fst p ++ Writer_Model.nat_str (snd p)) idxs).
  assert (C : split_at "_" (String.concat (String "_" EmptyString) X) = X).
  { apply split_concat; [unfold X; destruct idxs; [contradiction|discriminate]|]. apply Forall_forall. intros s I. apply in_map_iff in I. destruct I as (p & <- & I). apply bare_comp. rewrite Forall_forall in F. apply F. exact I. }
  transitivity (split_at "_" (ch ++ String "_" (String.concat (String "_" EmptyString) X ++ (if String.eqb (a_postfix a) "" then "" else String "_" (a_postfix a))))); [reflexivity|].
  rewrite split_app. f_equal. destruct (String.eqb (a_postfix a) "").
  - rewrite app_nil_r, <- C. f_equal. rewrite C. clear. generalize (String.concat (String "_" EmptyString) X). intros s. induction s as [|x s IH]; [reflexivity|cbn; f_equal; exact IH].
  - rewrite split_app. f_equal. exact C.
Qed.
Lemma Forall2_length {A B} {R : A -> B -> Prop} {l l'} : Forall2 R l l' -> List.length l = List.length l'.
Proof. intros H. induction H; cbn; congruence. Qed.
Lemma slice_shape a c idxs idxs' : NoDup (a_selaxes a) -> In idxs (slices a c) -> In idxs' (slices a c) -> map fst idxs = map fst idxs'.
Proof.
  intros NS I I'. unfold slices in *. pose proof (Permutation_length (named_perm (a_selaxes a) (c_axes c) NS)) as PL. destruct (axes_named (a_selaxes a) (c_axes c)) as [|x sel]; [destruct I as [<-|[]], I' as [<-|[]]; reflexivity|].
  apply in_map_iff in I, I'. destruct I as (b & <- & I), I' as (b' & <- & I'). destruct (a_select a); [|destruct I as [<-|[]], I' as [<-|[]]; reflexivity].
  apply in_product in I, I'. apply Forall2_length in I. apply Forall2_length in I'. rewrite <- PL in I, I'.
  assert (Q : forall (l : list string) (v : list nat), List.length l = List.length v -> map fst (combine l v) = l) by (induction l as [|y l IH]; intros v E; destruct v; cbn in *; try discriminate; [reflexivity|f_equal; apply IH; lia]).
  rewrite !Q by (rewrite map_length; assumption). reflexivity.
Qed.
Lemma comps_inj idxs idxs' : map fst idxs = map fst idxs' -> map (fun p : string * nat => fst p ++ Writer_Model.nat_str (snd p)) idxs = map (fun p => fst p ++ Writer_Model.nat_str (snd p)) idxs' -> idxs = idxs'.
Proof.
  revert idxs'. induction idxs as [|(n & i) idxs IH]; intros [|(m & j) idxs'] E F; cbn in *; try discriminate; [reflexivity|]. injection E as -> E. injection F as F1 F2.
  apply Session_Proof.app_inj_l, Session_Proof.nat_str_inj in F1. subst. f_equal. apply IH; assumption.
Qed.
Lemma app_inv_len {A} (a b c d : list A) : List.length a = List.length c -> (a ++ b)%list = (c ++ d)%list -> a = c /\ b = d.
Proof. revert c. induction a as [|x a IH]; intros [|y c] L E; cbn in *; try discriminate; [auto|]. injection E as -> E. destruct (IH c) as [-> ->]; auto. Qed.
Theorem C103_files a known ch c ps p p' : good c -> NoDup (a_selaxes a) -> channel_plots a known ch c = Ok ps -> a_split a = false -> Forall (fun x => bare "_" (fst x)) (c_axes c) ->
  In p ps -> In p' ps -> p_file p = p_file p' -> p = p'.
Proof.
  intros G NS H S B I I' E. destruct (channel_plot _ _ _ _ _ H S) as [Q _]. destruct (Q p I) as (idxs & ns & I1 & R & I2 & P). destruct (Q p' I') as (idxs' & ns' & I1' & R' & I2' & P'). clear Q.
  assert (SH := slice_shape a c idxs idxs' NS I1 I1').
  destruct (slices_names a c idxs NS (good_names c G) I1) as [NI SI]. destruct (slices_names a c idxs' NS (good_names c G) I1') as [NI' SI'].
  destruct (drawn_axes a c idxs ns (good_names c G) NI I2) as (_ & SN & NE). destruct (drawn_axes a c idxs' ns' (good_names c G) NI' I2') as (_ & SN' & NE').
  assert (BA : forall n, In n (map fst (c_axes c)) -> bare "_" n). { intros n J. apply in_map_iff in J. destruct J as (x & <- & J). rewrite Forall_forall in B. apply B. exact J. }
  assert (F : Forall (bare "_") ns) by (apply Forall_forall; intros n J; apply BA, SN, J). assert (F' : Forall (bare "_") ns') by (apply Forall_forall; intros n J; apply BA, SN', J).
  destruct (plot_of _ _ _ _ _ _ _ _ _ _ _ _ S P) as (k & _ & EF & _). destruct (plot_of _ _ _ _ _ _ _ _ _ _ _ _ S P') as (k' & _ & EF' & _). rewrite EF, EF' in E. clear EF EF' k k'.
  destruct (file_split a ns ch (tag a c idxs) S NE F) as (pre & E1 & Ep & E2). destruct (file_split a ns' ch (tag a c idxs') S NE' F') as (pre' & E1' & Ep' & E2'). rewrite E1, E1', Ep, Ep' in E. apply Session_Proof.app_inj_l in E.
  apply (f_equal (split_at "_")) in E. rewrite E2, E2' in E. clear E1 E1' E2 E2' Ep Ep' pre pre'.
  assert (ns = ns' /\ idxs = idxs') as [-> ->]; [|unfold plot_at in P, P'; congruence].
  unfold tag in E. destruct (axes_named (a_selaxes a) (c_axes c)) as [|x sel] eqn:ES.
  - apply app_inv_tail in E. split; [exact E|]. unfold slices in I1, I1'. rewrite ES in I1, I1'. destruct I1 as [<-|[]], I1' as [<-|[]]. reflexivity.
  - assert (NZ : idxs <> []).
    { pose proof (Permutation_length (named_perm (a_selaxes a) (c_axes c) NS)) as PL. unfold slices in I1. rewrite ES in I1, PL. apply in_map_iff in I1. destruct I1 as (b & <- & I1). destruct (a_select a) as [|z0 zs].
      - apply in_product, Forall2_length in I1. rewrite <- PL in I1. destruct b; cbn in I1; [lia|discriminate].
      - destruct I1 as [<-|[]]. discriminate. }
    assert (NZ' : idxs' <> []) by (intros ->; destruct idxs; [contradiction|discriminate SH]).
    assert (RB : forall l, in_range (c_axes c) l = true -> Forall (fun p : string * nat => bare "_" (fst p)) l). { intros l Rl. apply Forall_forall. intros q J. destruct (proj1 (in_range_ok _ _) Rl q J) as (y & J1 & J2 & _). rewrite <- J2. apply BA, in_map, J1. }
    rewrite (tail_split a ch idxs NZ (RB _ R)), (tail_split a ch idxs' NZ' (RB _ R')) in E.
    assert (LI : List.length idxs = List.length idxs') by (rewrite <- (map_length fst idxs), SH, map_length; reflexivity).
    assert (L : List.length ns = List.length ns'). { apply (f_equal (@List.length string)) in E. rewrite !app_length, !map_length in E. lia. }
    destruct (app_inv_len _ _ _ _ L E) as [-> E0]. apply app_inv_head in E0. apply app_inv_tail in E0. split; [reflexivity|]. apply comps_inj; assumption.
Qed.

(** ** what fails *)
Definition args0 : args := mkArgs None [] [] [] [] [] [] false false false false false false "".
Definition with_vars (v : list string) (one : bool) : args := mkArgs None [] v [] [] [] [] false false false false one false "".
(** one axis with two bins, a signal with 1 and 3 and a background with 4 and 4; a variation of the signal by 1 upwards and 2 downwards *)
Definition c1 : chan := mkC [("x", 2)] ["sig"; "bkg"] (fun p g => if String.eqb p "sig" then (match g "x" with 0 => 1 | _ => 3 end)%R else 4%R)
  (Some (fun g => match g "x" with 0 => 6 | _ => 10 end)%R)
  (fun s p g => if String.eqb p "sig" then (if String.eqb s "mu" then -1 else (match g "x" with 0 => 1 | _ => 3 end))%R else 4%R)
  (fun s p g => if String.eqb p "sig" then (match g "x" with 0 => 2 | _ => 4 end)%R else 4%R).
Lemma good1 : good c1.
Proof.
  split.
  - repeat constructor; intros [].
  - intros p g g' H. cbn. rewrite (H "x") by (left; reflexivity). reflexivity.
  - intros d E. injection E as <-. intros g g' H. cbn. rewrite (H "x") by (left; reflexivity). reflexivity.
  - intros s p g g' H. cbn. rewrite (H "x") by (left; reflexivity). reflexivity.
  - intros s p g g' H. cbn. rewrite (H "x") by (left; reflexivity). reflexivity.
Qed.
(** the line with the label of the variation is the variation Down: with --oneSidedVariations the variation Up is not drawn at all *)
Theorem C103_direction_refuted : exists a known ch c p label h g, good c /\ channel_plots a known ch c = Ok [p] /\ a_onesided a = true /\ In "mu" (a_vars a) /\ p_vars p = [(label, h, None)] /\
  bin_of c (p_axes p) [] g /\ x_val h g = over_procs (c_procs c) (fun pr => c_down c "mu" pr g) /\ x_val h g <> over_procs (c_procs c) (fun pr => c_up c "mu" pr g).
Proof.
  exists (with_vars ["mu"] true), ["mu"], "ch0", c1. do 3 eexists. exists (fun _ => 0). split; [exact good1|]. split; [reflexivity|]. split; [reflexivity|]. split; [left; reflexivity|]. split; [reflexivity|].
  split; [split; [intros x [<-|[]] _; cbn; lia|intros q []]|]. split.
  - cbn. lra.
  - cbn. lra.
Qed.
(** --processes: the variations are those of all processes, the prediction is not; a variation without any effect looks large *)
Theorem C103_processes_refuted : exists a known ch c p label h g, good c /\ channel_plots a known ch c = Ok [p] /\ p_vars p = [(label, h, None)] /\ bin_of c (p_axes p) [] g /\
  (forall pr g, c_down c "nothing" pr g = c_nom c pr g) /\ a_vars a = ["nothing"] /\ x_val (p_pred p) g = 1%R /\ ratio p h g = 5%R.
Proof.
  exists (mkArgs None ["sig"] ["nothing"] [] [] [] [] false false false false true false ""), ["mu"; "nothing"], "ch0", c1. do 3 eexists. exists (fun _ => 0). split; [exact good1|]. split; [reflexivity|]. split; [reflexivity|].
  split; [split; [intros x [<-|[]] _; cbn; lia|intros q []]|]. split; [intros pr g; reflexivity|]. split; [reflexivity|]. split; [cbn; lra|]. unfold ratio. cbn. field_simplify; lra.
Qed.
(** --selectionAxes in another order than in the histogram: the bins are those of the wrong axes *)
Definition c2 : chan := mkC [("q", 2); ("e", 3); ("x", 1)] ["sig"] (fun _ _ => 1%R) None (fun _ _ _ => 1%R) (fun _ _ _ => 1%R).
Definition with_sel (l : list string) : args := mkArgs None [] [] [] l [] [] false false false false false false "".
Lemma good2 : good c2.
Proof. split; [repeat constructor; cbn; intuition discriminate| | |..]; repeat intro; try reflexivity. discriminate. Qed.
Theorem C103_order_refuted : exists a a' known ch c ps, good c /\ (forall n, In n (a_selaxes a) <-> In n (a_selaxes a')) /\ channel_plots a known ch c = Ok ps /\ List.length ps = 6 /\ channel_plots a' known ch c = Raise IndexError.
Proof.
  exists (with_sel ["q"; "e"]), (with_sel ["e"; "q"]), [], "ch0", c2. eexists. split; [exact good2|]. split; [intros n; cbn; tauto|]. split; [reflexivity|]. split; reflexivity.
Qed.
(** a channel all of whose axes are in --selectionAxes (by default charge, passIso and passMT) ends the script *)
Theorem C103_all_selected_refuted : exists a known ch c, good c /\ NoDup (a_selaxes a) /\ in_order a c /\ channel_plots a known ch c = Raise GenericException.
Proof.
  exists (with_sel ["charge"; "passIso"; "passMT"]), [], "ch0", (mkC [("charge", 2)] ["sig"] (fun _ _ => 1%R) None (fun _ _ _ => 1%R) (fun _ _ _ => 1%R)).
  split; [|split; [|split; reflexivity]].
  - split; [repeat constructor; cbn; intuition discriminate| | |..]; repeat intro; try reflexivity. discriminate.
  - repeat constructor; cbn; intuition discriminate.
Qed.
(** --normToData with --noData, or for a masked channel *)
Theorem C103_norm_refuted : exists a known ch c, good c /\ a_norm a = true /\ channel_plots a known ch c = Raise GenericException.
Proof. exists (mkArgs None [] [] [] [] [] [] false false true true false false ""), [], "ch0", c1. split; [exact good1|]. split; reflexivity. Qed.
(** --splitByProcess: the legend has the first letter of the process *)
Lemma one_nonzero h g l : points (x_axes h) origin = (g :: l)%list -> x_val h g <> 0%R -> nonzero h = true.
Proof. intros E N. unfold nonzero. rewrite E. cbn. unfold Reqb. destruct (Req_EM_T (x_val h g) 0); [contradiction|reflexivity]. Qed.
Theorem C103_legend_refuted : exists a known ch c p, good c /\ c_procs c = ["sig"] /\ channel_plots a known ch c = Ok [p] /\ p_line p = Some "s".
Proof.
  exists (mkArgs None [] [] [] [] [] [] true false false false false false ""), [], "ch0", (mkC [("x", 1)] ["sig"] (fun _ _ => 1%R) None (fun _ _ _ => 1%R) (fun _ _ _ => 1%R)). eexists.
  split; [split; [repeat constructor; cbn; intuition discriminate| | |..]; repeat intro; try reflexivity; discriminate|]. split; [reflexivity|]. split.
  - unfold channel_plots. cbn [a_processes chosen_procs c_procs map c_axes axes_named a_selaxes flat_map a_split a_nodata orb]. unfold make_plots. cbn [x_axes map fst a_invert a_split combinations app flat_map seq List.length Nat.sub filter wanted a_hists combine snd].
    rewrite (one_nonzero _ (upd origin "x" 0) []) by (try reflexivity; cbn; lra). reflexivity.
  - reflexivity.
Qed.
(** --splitByProcess: processes Z and Z_pt and axes pt and eta give the same name *)
Theorem C103_split_files_refuted : exists a ch pr pr' ns ns', a_split a = true /\ pr <> pr' /\ ns <> ns' /\ file_name a pr ns ch None = file_name a pr' ns' ch None.
Proof. exists (mkArgs None [] [] [] [] [] [] true false false false false false ""), "ch0", "Z", "Z_pt", ["pt"; "eta"], ["eta"]. repeat split; discriminate. Qed.
(** and so do the axes pt and eta of a channel and the axis pt of a channel named eta_... *)
Theorem C103_channel_files_refuted : exists a ch ch' ns ns', a_split a = false /\ ch <> ch' /\ ns <> ns' /\ Forall (bare "_") (ns ++ ns') /\ file_name a "" ns ch None = file_name a "" ns' ch' None.
Proof.
  exists args0, "ch0", "eta_ch0", ["pt"; "eta"], ["pt"]. split; [reflexivity|]. split; [discriminate|]. split; [discriminate|]. split; [|reflexivity].
  repeat constructor; intros a b E; (destruct a as [|? [|? [|? [|? a]]]]; cbn in E; discriminate E).
Qed.

(** ** examples *)
Definition c3 : chan := mkC [("x", 2); ("q", 2)] ["sig"; "bkg"] (fun p g => if String.eqb p "sig" then INR (1 + 2 * g "x" + g "q") else 10%R) (Some (fun g => INR (20 * (1 + g "q")))) (fun _ _ _ => 1%R) (fun _ _ _ => 1%R).
Lemma good3 : good c3.
Proof.
  split; [repeat constructor; cbn; intuition discriminate| | |..]; try (repeat intro; reflexivity).
  - intros p g g' H. cbn [c_nom c3]. rewrite (H "x"), (H "q") by (cbn; auto). reflexivity.
  - intros d E g g' H. injection E as <-. rewrite (H "q") by (cbn; auto). reflexivity.
Qed.
(** x, q and both; with the slices in q only x *)
Example C103_ex_axes : exists ps, channel_plots args0 [] "ch0" c3 = Ok ps /\ map p_axes ps = [["x"]; ["q"]; ["x"; "q"]] /\ map p_file ps = ["hist_stack_x_ch0"; "hist_stack_q_ch0"; "hist_stack_x_q_ch0"].
Proof. eexists. split; [reflexivity|]. split; reflexivity. Qed.
Example C103_ex_sliced : exists p q, channel_plots (with_sel ["q"]) [] "ch0" c3 = Ok [p; q] /\ map p_file [p; q] = ["hist_stack_x_ch0_q0"; "hist_stack_x_ch0_q1"] /\ map p_axes [p; q] = [["x"]; ["x"]] /\
  x_val (p_pred p) (upd origin "x" 1) = 13%R /\ x_val (p_pred q) (upd origin "x" 1) = 14%R.
Proof. do 2 eexists. split; [reflexivity|]. split; [reflexivity|]. split; [reflexivity|]. split; cbn; lra. Qed.
Example C103_ex_inverted : combinations (rev ["a"; "b"; "c"]) = [["c"]; ["b"]; ["a"]; ["c"; "b"]; ["c"; "a"]; ["b"; "a"]; ["c"; "b"; "a"]].
Proof. reflexivity. Qed.
Example C103_ex_hists : filter (wanted ["q-x"; "q"]) (combinations ["x"; "q"]) = [["q"]; ["x"; "q"]].
Proof. reflexivity. Qed.
(** the bin x = 1 of the projection: 3 + 4 of the signal and 10 + 10 of the background *)
Example C103_ex_bin : exists ps p, channel_plots args0 [] "ch0" c3 = Ok ps /\ nth_error ps 0 = Some p /\ x_val (p_pred p) (upd origin "x" 1) = 27%R /\ content (c_axes c3) ["x"] (c_nom c3 "sig") (upd origin "x" 1) = 7%R.
Proof. do 2 eexists. split; [reflexivity|]. split; [reflexivity|]. split; [cbn; lra|unfold content; cbn; lra]. Qed.
(** normalised to the data: 120 events for 10 + 40 predicted *)
Example C103_ex_norm : exists ps p, channel_plots (mkArgs None [] [] [] [] [] [] false false true false false false "") [] "ch0" c3 = Ok ps /\ nth_error ps 0 = Some p /\ x_val (p_pred p) (upd origin "x" 1) = (27 * (120 / 50))%R.
Proof. do 2 eexists. split; [reflexivity|]. split; [reflexivity|]. cbn. field. Qed.
(** and so are the variations: Down of the signal in the first bin, 3 of the prediction 5, with 16 events for 12 predicted *)
Example C103_norm_lines : exists p l h, channel_plots (mkArgs None [] ["mu"] [] [] [] [] false false true false true false "") ["mu"] "ch0" c1 = Ok [p] /\ p_vars p = [(l, h, None)] /\ x_val h origin = (16 / 12 * 3)%R /\ ratio p h origin = (3 / 5)%R.
Proof. do 3 eexists. split; [reflexivity|]. split; [reflexivity|]. unfold ratio. split; cbn; field. Qed.
Example C103_ex_labels : variations ["mu"; "jes"] ["jes"; "typo"; "mu"] ["JES"; "Typo"] = [("jes", "JES"); ("mu", "mu")].
Proof. reflexivity. Qed.
Example C103_ex_processes : chosen_procs (mkArgs None ["bkg"; "qcd"] [] [] [] [] [] false false false false false false "") ["sig"; "bkg"] = ["bkg"].
Proof. reflexivity. Qed.
(** both directions are drawn without --oneSidedVariations; the pair is complete, with Up dashed *)
Example C103_ex_pair : exists p l h h', channel_plots (with_vars ["mu"] false) ["mu"] "ch0" c1 = Ok [p] /\ p_vars p = [(l, h, Some h')] /\ x_val h origin = 3%R /\ x_val h' origin = 6%R.
Proof. do 4 eexists. split; [reflexivity|]. split; [reflexivity|]. split; cbn; lra. Qed.
(** unrolled plots run over the last axis first *)
Example C103_ex_unrolled : exists ps p, channel_plots (mkArgs None ["sig"] [] [] [] [] ["x-q"] false false false false false true "") [] "ch0" c3 = Ok ps /\ nth_error ps 0 = Some p /\ p_axes p = ["q"; "x"] /\ shown (p_pred p) = [1; 3; 2; 4]%R.
Proof. do 2 eexists. split; [reflexivity|]. split; [reflexivity|]. split; [reflexivity|]. unfold shown. cbn. repeat (f_equal; try lra). Qed.
Example C103_ex_select : exists ps, channel_plots (mkArgs None [] [] [] ["q"] [1] [] false true false false false false "v2") [] "ch0" c3 = Ok ps /\ map p_file ps = ["hist_x_ch0_q1_v2"] /\ map p_line ps = [Some "Prediction"] /\ map p_stack ps = [[]].
Proof. eexists. split; [reflexivity|]. repeat split. Qed.
Example C103_ex_channels : exists ps, all_plots (mkArgs (Some ["b"]) [] [] [] [] [] ["x"] false false false true false false "") [] [("a", c3); ("b", c1)] = Ok ps /\ map p_file ps = ["hist_stack_x_b"] /\ map p_data ps = [None].
Proof. eexists. split; [reflexivity|]. split; reflexivity. Qed.
Example C103_ex_all_channels : exists ps, all_plots (mkArgs None [] [] [] [] [] ["x"] false false false true false false "") [] [("a", c1); ("b", c1)] = Ok ps /\ map p_file ps = ["hist_stack_x_a"; "hist_stack_x_b"].
Proof. eexists. split; reflexivity. Qed.

Print Assumptions C103_prediction.
Print Assumptions C103_slices.
Print Assumptions C103_lines.
Print Assumptions C103_split.
Print Assumptions C103_split_complete.
Print Assumptions C103_files.
Print Assumptions C103_no_effect.
