(** C98: what the plot of pulls and impacts shows. *)
From Coq Require Import Reals List Arith Bool String Lia Lra Permutation Sorted.
From Verif Require Param_Model.
From Verif Require Import RBase PyList PyDict Order Shape Impacts_Model Read_Model Read_Spec Read_Proof Read_Props Pulls_Model Pulls_Spec Pulls_Proof Pulls_Order.
Import ListNotations.
Local Open Scope nat_scope.
Local Open Scope string_scope.

Section C98.
  Variables (search : string -> string -> bool) (parms : list string) (npoi nparams : nat) (noi : list nat) (is : list item) (d : dict hist).
  Hypothesis st : store_all parms npoi nparams noi is [] = Ok d.
  Hypothesis one : fit_items is.
  Hypothesis distinct : NoDup parms.
  Variables (x v x0 v0 : list R).
  Hypothesis post : In (Postfit x v) is.
  Hypothesis pre : In (Prefit x0 v0) is.
  Let name := fun q => nth q parms "".
  Let sigma := fun q => sqrt (nth q v 0%R).
  (** pulls only: every parameter that passes the filters *)
  Theorem C98_pulls o : o_asym o = false -> o_group o = false ->
    exists t, read_info search d None o = Ok t /\ exists qs, positions_where (List.length parms) (fun q => kept search (o_filters o) (name q)) qs /\
      Forall2 (fun r q => fst r = name q /\ pull_cells (pull_value o (nth q x 0%R) (nth q x0 0%R)) (nth q x0 0%R) (sigma q) r) (t_rows t) qs.
  Proof. intros A G. destruct (info_pulls search parms npoi nparams noi is d st one x v x0 v0 post pre o A G) as (t & E & _ & qs & P). exists t. split; auto. exists qs. exact P. Qed.
  Variables (it : item) (vals : list (list R)) (poi : string) (r p : nat).
  Hypothesis It : In it is.
  Hypothesis Prow : NoDup (row_labels parms npoi nparams noi "").
  Hypothesis Erow : nth_error (row_labels parms npoi nparams noi "") r = Some poi.
  Hypothesis Eparm : nth_error parms p = Some poi.
  Hypothesis named : poi <> "".
  (** every other parameter that passes the filters, with its impact on [poi] and its pull *)
  Theorem C98_ungrouped o g labels : o_asym o = false -> o_group o = false -> sym_table parms (o_type o) false it = Some (vals, parms) -> rect (List.length parms) vals ->
    (o_normalize o = true -> sym_table parms (o_type o) true it = Some (g, labels) /\ rect (List.length labels) g /\ ~ In "Total" labels) ->
    exists t, read_info search d (Some poi) o = Ok t /\ t_cols t = all_cols /\
    exists qs, positions_where (List.length parms) (fun q => kept search (o_filters o) (name q) /\ name q <> poi) qs /\
      Forall2 (fun row q => fst row = name q /\ sym_cells (shown_impact o (sigma p) (name q) (nth q (nth r vals []) 0%R)) row /\
                            pull_cells (pull_value o (nth q x 0%R) (nth q x0 0%R)) (nth q x0 0%R) (sigma q) row) (t_rows t) qs.
  Proof. intros. eapply (info_ungrouped search parms npoi nparams noi is d st one distinct x v x0 v0 post pre it vals poi r p); eauto. Qed.
  (** every group that passes the filters and the uncertainty as total *)
  Theorem C98_grouped o labels : o_asym o = false -> o_group o = true -> sym_table parms (o_type o) true it = Some (vals, labels) -> rect (List.length labels) vals -> ~ In "Total" labels ->
    exists t, read_info search d (Some poi) o = Ok t /\ t_cols t = ["impact_down"; "impact_up"; "absimpact"] /\
    let group := fun q => nth q (labels ++ ["Total"])%list "" in
    exists qs, positions_where (S (List.length labels)) (fun q => kept search (o_filters o) (group q) /\ grouped_in (o_grouping o) (group q) /\ group q <> poi) qs /\
      Forall2 (fun row q => fst row = group q /\ sym_cells (shown_impact o (sigma p) (group q) (nth q (nth r vals [] ++ [sigma p])%list 0%R)) row) (t_rows t) qs.
  Proof. intros. eapply (info_grouped search parms npoi nparams noi is d st one distinct x v post it vals poi r p); eauto. Qed.
  (** impacts on a bin: impact and pull of a name are those of this name, wherever they are stored *)
  Theorem C98_bin labels l total o : NoDup labels -> List.length l = List.length labels -> o_group o = false ->
    exists t, read_bin search d labels l total o = Ok t /\
    StronglySorted (fun a b => string_c a b = Lt) (map fst (t_rows t)) /\ (forall name, In name (map fst (t_rows t)) <-> In name labels /\ In name parms /\ kept search (o_filters o) name) /\
    forall row, In row (t_rows t) -> exists i q, nth_error labels i = Some (fst row) /\ nth_error parms q = Some (fst row) /\
      sym_cells (shown_impact o total (fst row) (nth i l 0%R)) row /\ pull_cells (nth q x 0%R - nth q x0 0%R) (nth q x0 0%R) (sigma q) row.
  Proof.
    intros N L G. destruct (bin_ungrouped search parms npoi nparams noi is d st one distinct x v x0 v0 post pre labels l total N L o G) as (t & E & _ & Q). exists t. auto.
  Qed.
  Theorem C98_bin_grouped labels l total o : List.length l = List.length labels -> o_group o = true ->
    exists t, read_bin search d labels l total o = Ok t /\
    let group := fun q => nth q (labels ++ ["Total"])%list "" in
    exists qs, positions_where (S (List.length labels)) (fun q => kept search (o_filters o) (group q) /\ grouped_in (o_grouping o) (group q)) qs /\
      Forall2 (fun row q => fst row = group q /\ sym_cells (shown_impact o total (group q) (nth q (l ++ [total])%list 0%R)) row) (t_rows t) qs.
  Proof. intros L G. destruct (bin_grouped search parms d labels l total L o G) as (t & E & _ & Q). exists t. split; auto. Qed.
End C98.
(** with a reference: every label of either table once, in order; cells of the table and, with the suffix, those of the reference *)
Theorem C98_merge a b : NoDup (map fst (t_rows a)) -> NoDup (map fst (t_rows b)) -> plain_names a ->
  StronglySorted (fun x y => string_c x y = Lt) (map fst (t_rows (merge a b))) /\
  (forall n, In n (map fst (t_rows (merge a b))) <-> In n (map fst (t_rows a)) \/ In n (map fst (t_rows b))) /\
  (forall row c, In row (t_rows (merge a b)) -> dget (ref_of c) (snd row) = cell_at b (fst row) c /\ ((forall c', c <> ref_of c') -> dget c (snd row) = cell_at a (fst row) c)).
Proof.
  intros A B P. rewrite merge_labels by auto. split; [apply all_labels_sorted|]. split; [intros; apply all_labels_In|]. intros. apply merge_cells; auto.
Qed.
(** the rows that are plotted: the [num] with the largest values, sorted *)
Theorem C98_largest key num t : key <> "label" -> In key (t_cols t) -> cut_at Rle key num (t_rows t) (t_rows (last_rows num (sort_plain true key t))).
Proof. apply (shown_rows true). Qed.
(** with --sortDescending the [num] with the smallest values *)
Theorem C98_descending key num t : key <> "label" -> In key (t_cols t) -> cut_at Rge key num (t_rows t) (t_rows (last_rows num (sort_plain false key t))).
Proof. apply (shown_rows false). Qed.
(** sorting by the difference to the reference, or by the larger of the two *)
Theorem C98_sort_difference ascending key t : In key (t_cols t) -> In (ref_of key) (t_cols t) -> key = "absimpact" \/ key = "abspull" ->
  exists t', sorted_table ascending key Diff t = Ok t' /\ Permutation (map fst (t_rows t')) (map fst (t_rows t)) /\
    StronglySorted (fun a b => let diff := fun r => Rabs (cell key r - cell (ref_of key) r) in if ascending then (diff a <= diff b)%R else (diff a >= diff b)%R) (t_rows t').
Proof.
  intros I J K. destruct (sort_new_spec ascending key "_diff" (fun x y => Rabs (x - y)) t I J) as (t' & E & O & P & C); try (destruct K as [->| ->]; discriminate).
  exists t'. split; auto. split; auto. revert O C. clear. unfold ordered_by. generalize (t_rows t'). induction 1 as [|a l S IH F]; intros C; constructor.
  - apply IH. intros. apply C. right; auto.
  - rewrite Forall_forall in *. intros b B. specialize (F b B). cbv zeta. destruct (C a (or_introl eq_refl)) as (Ca & _), (C b (or_intror B)) as (Cb & _). rewrite <- Ca, <- Cb. destruct ascending; exact F.
Qed.
Theorem C98_sort_both ascending key t : In key (t_cols t) -> In (ref_of key) (t_cols t) -> key = "absimpact" \/ key = "abspull" ->
  exists t', sorted_table ascending key Both t = Ok t' /\ Permutation (map fst (t_rows t')) (map fst (t_rows t)) /\
    StronglySorted (fun a b => if ascending then (Rmax (cell key a) (cell (ref_of key) a) <= Rmax (cell key b) (cell (ref_of key) b))%R else (Rmin (cell key a) (cell (ref_of key) a) >= Rmin (cell key b) (cell (ref_of key) b))%R) (t_rows t').
Proof.
  intros I J K. destruct (sort_new_spec ascending key "_both" (if ascending then Rmax else Rmin) t I J) as (t' & E & O & P & C); try (destruct K as [->| ->]; discriminate).
  exists t'. split; auto. split; auto. revert O C. clear. unfold ordered_by. generalize (t_rows t'). induction 1 as [|a l S IH F]; intros C; constructor.
  - apply IH. intros. apply C. right; auto.
  - rewrite Forall_forall in *. intros b B. specialize (F b B). destruct (C a (or_introl eq_refl)) as (Ca & _), (C b (or_intror B)) as (Cb & _). rewrite Ca, Cb in F. destruct ascending; exact F.
Qed.
(** the bars *)
Theorem C98_two_sided k t : l_impacts k = true -> l_one_sided k = false -> In "impact_up" (t_cols t) -> In "impact_down" (t_cols t) -> In "absimpact" (t_cols t) ->
  (include_ref t = true -> In "impact_up_ref" (t_cols t) /\ In "impact_down_ref" (t_cols t)) -> (exists r, In r (t_rows t) /\ cell "absimpact" r <> 0%R) ->
  exists f, impact_traces k t = Ok f /\ bars "+" f = map (fun r => (fst r, Some (cell "impact_up" r))) (t_rows t) /\ bars "-" f = map (fun r => (fst r, Some (cell "impact_down" r))) (t_rows t) /\
    bars "+/-" f = [] /\ (include_ref t = true -> bars "+ ref" f = map (fun r => (fst r, Some (cell "impact_up_ref" r))) (t_rows t) /\ bars "- ref" f = map (fun r => (fst r, Some (cell "impact_down_ref" r))) (t_rows t)).
Proof. intros. apply traces_two_sided; auto. Qed.
(** on one side: of the two bars of a label, the one with the positive value is drawn, so its length is the size of the impact *)
Theorem C98_one_sided k t : l_impacts k = true -> l_one_sided k = true -> In "impact_up" (t_cols t) -> In "impact_down" (t_cols t) -> In "absimpact" (t_cols t) ->
  (include_ref t = true -> In "impact_up_ref" (t_cols t) /\ In "impact_down_ref" (t_cols t)) -> (exists r, In r (t_rows t) /\ cell "absimpact" r <> 0%R) ->
  (forall r, In r (t_rows t) -> cell "impact_down" r = (- cell "impact_up" r)%R) ->
  exists f, impact_traces k t = Ok f /\
    forall i r, nth_error (t_rows t) i = Some r -> let x := cell "impact_up" r in let plus := (bars "+" f ++ bars "+/-" f)%list in
      ((0 <= x)%R -> nth_error plus i = Some (fst r, Some (Rabs x))) /\ ((x < 0)%R -> nth_error plus i = Some (fst r, None) /\ nth_error (bars "-" f) i = Some (fst r, Some (Rabs x))) /\
      ((0 < x)%R -> bars "-" f = [] \/ nth_error (bars "-" f) i = Some (fst r, None)).
Proof.
  intros H1 H2 H3 H4 H5 H6 H7 H8. destruct (traces_one_sided k t H1 H3 H4 H5 H6 H7 H8 H2) as (f & E & F). exists f. split; auto. intros i r N. cbv zeta. destruct (F i r N) as (A & B & C). split; [|split; auto]; intros H; [rewrite Rabs_right by lra; auto|rewrite Rabs_left by lra; auto].
Qed.
Theorem C98_no_impacts k t : In "absimpact" (t_cols t) -> (forall r, In r (t_rows t) -> cell "absimpact" r = 0%R) -> impact_traces k t = Ok [].
Proof. apply traces_none. Qed.
(** the points of the pulls with their constraints, and the boxes of the reference around its pull *)
Theorem C98_pull_traces k t : l_pulls k = true -> l_asym k = false -> l_asym_pulls k = false -> In "pull" (t_cols t) -> In "constraint" (t_cols t) -> (include_ref t = true -> In "pull_ref" (t_cols t) /\ In "constraint_ref" (t_cols t)) ->
  exists pulls boxes, pull_traces k t = Ok (Pull pulls :: (if include_ref t then [RefBox boxes] else [])) /\
    Forall2 (fun r y => y = (fst r, (cell "pull" r, cell "constraint" r, cell "constraint" r))) (t_rows t) pulls /\
    Forall2 (fun r y => fst y = fst r /\ fst (snd y) = (cell "pull_ref" r - cell "constraint_ref" r)%R /\ (fst (snd y) + snd (snd y))%R = (cell "pull_ref" r + cell "constraint_ref" r)%R) (t_rows t) boxes.
Proof.
  intros. do 2 eexists. split; [apply traces_pull; auto|]. split; (induction (t_rows t) as [|r l IH]; constructor; [|apply IH]); auto. cbn. repeat split; lra.
Qed.
(** sorting by the values of the reference *)
Theorem C98_sort_reference ascending key num t : In (ref_of key) (t_cols t) -> exists t', sorted_table ascending key OfRef t = Ok t' /\
  cut_at (if ascending then Rle else Rge) (ref_of key) num (t_rows t) (t_rows (last_rows num t')).
Proof. intros I. eexists. split; [reflexivity|]. destruct ascending; apply shown_rows; auto; intros E; unfold ref_of in E; destruct key as [|a [|b k]]; cbn in E; try discriminate E; repeat (destruct k as [|? k]; cbn in E; try discriminate E). Qed.
(** what is plotted without a reference: the rows, with the names of the translation *)
Theorem C98_load search names d poi o s t : read_info search d poi o = Ok t -> t_rows t <> [] ->
  exists t', load search names d None poi o s = Ok (Some t') /\ t_cols t' = t_cols t /\
    Forall2 (fun r r' => (forall n, dget (fst r) names = Some n -> fst r' = n) /\ (dget (fst r) names = None -> fst r' = fst r) /\ snd r' = snd r) (t_rows t) (t_rows t').
Proof.
  intros E N. exists (translate names t). unfold load. rewrite E. cbn [rbind]. split; [destruct (t_rows t); [congruence|reflexivity]|]. split; [reflexivity|]. cbn [translate t_rows]. clear. induction (t_rows t) as [|r l IH]; cbn [map]; constructor; auto.
  cbn [fst snd]. split; [|split]; auto; intros; rewrite H; auto.
Qed.
(** with a reference: the rows of both, the reference with its own scale if one is given *)
Theorem C98_load_reference search names d d' poi o s o' t t' : read_info search d poi o = Ok t -> read_info search d' poi o' = Ok t' -> t_rows t <> [] \/ t_rows t' <> [] ->
  o_scale o' = (if Rltb 0 s then s else o_scale o) -> o_group o' = o_group o -> o_type o' = o_type o -> o_grouping o' = o_grouping o -> o_asym o' = o_asym o -> o_filters o' = o_filters o -> o_stat o' = o_stat o -> o_normalize o' = o_normalize o -> o_diff o' = o_diff o ->
  load search names d (Some d') poi o s = Ok (Some (translate names (merge t t'))).
Proof.
  intros E E' N H1 H2 H3 H4 H5 H6 H7 H8 H9. unfold load. rewrite E. cbn [rbind]. rewrite <- H1, <- H2, <- H3, <- H4, <- H5, <- H6, <- H7, <- H8, <- H9. destruct o' as [a1 a2 a3 a4 a5 a6 a7 a8 a9]. cbn [o_group o_type o_grouping o_asym o_filters o_stat o_normalize o_scale o_diff] in *. rewrite E'. cbn [rbind].
  assert (M : t_rows (merge t t') <> []); [|destruct (t_rows (merge t t')); [congruence|reflexivity]].
  assert (Q : forall r, In r (t_rows t) \/ In r (t_rows t') -> t_rows (merge t t') <> []).
  { intros r I Z. assert (A : In (fst r) (all_labels t t')) by (apply all_labels_In; destruct I as [I|I]; [left|right]; apply in_map; auto).
    unfold merge in Z. cbn [t_rows] in Z. assert (F : forall n, In n (all_labels t t') -> (let l := filter (fun r : row => String.eqb (fst r) n) (t_rows t) in let r := filter (fun r : row => String.eqb (fst r) n) (t_rows t') in
       match l, r with [], _ => map (fun y : row => (n, ref_cells (snd y))) r | _, [] => l | _, _ => flat_map (fun x : row => map (fun y : row => (n, (snd x ++ ref_cells (snd y))%list)) r) l end) = []).
    { intros n J. destruct (in_split n _ J) as (l1 & l2 & S). rewrite S in Z. rewrite flat_map_app in Z. apply app_eq_nil in Z. destruct Z as [_ Z]. cbn [flat_map] in Z. apply app_eq_nil in Z. exact (proj1 Z). }
    specialize (F _ A). cbv zeta in F.
    assert (B : In r (filter (fun r0 : row => String.eqb (fst r0) (fst r)) (t_rows t)) \/ In r (filter (fun r0 : row => String.eqb (fst r0) (fst r)) (t_rows t'))) by (destruct I as [I|I]; [left|right]; apply filter_In; split; auto; apply String.eqb_refl).
    destruct (filter _ (t_rows t)) as [|x l]; [destruct B as [[]|B]; destruct (filter _ (t_rows t')); [destruct B|discriminate F]|]. destruct (filter _ (t_rows t')) as [|y l']; discriminate F. }
  destruct N as [N|N]; [destruct (t_rows t) as [|r l] eqn:T; [congruence|]; apply (Q r); left; left; auto|destruct (t_rows t') as [|r l] eqn:T; [congruence|]; apply (Q r); right; left; auto].
Qed.
Theorem C98_nothing search names d poi o s : (exists t, read_info search d poi o = Ok t /\ t_rows t = []) -> load search names d None poi o s = Ok None.
Proof. intros (t & E & N). unfold load. rewrite E. cbn [rbind]. rewrite N. auto. Qed.
(** a merged table is plotted with its reference *)
Theorem C98_with_reference a b : In "absimpact" (t_cols b) \/ In "pull" (t_cols b) \/ In "constraint" (t_cols b) -> include_ref (merge a b) = true.
Proof.
  intros H. unfold include_ref. apply existsb_exists. assert (M : forall c, In c (t_cols b) -> smem (ref_of c) (t_cols (merge a b)) = true) by (intros c I; apply smem_In; cbn [merge t_cols]; apply in_or_app; right; apply in_map; auto).
  destruct H as [H|[H|H]]; apply M in H; eexists; (split; [|exact H]); cbn; auto.
Qed.
(** the files: html has all rows if there are other formats, the others have the wanted number of rows *)
Theorem C98_formats ascending key m num others k t t' full cut : sorted_table ascending key m t = Ok t' -> figure k t' = Ok full -> figure k (last_rows num t') = Ok cut ->
  others = [] \/ (exists e, In e others /\ e <> "html") ->
  exists l, make_plots ascending key m num others k t = Ok l /\ (forall f, In ("html", f) l <-> f = (if others then cut else full)) /\
    (forall e f, e <> "html" -> In (e, f) l <-> In e others /\ f = cut).
Proof.
  intros E F C O. unfold make_plots. rewrite E. cbn [rbind]. rewrite F. cbn [rbind]. rewrite C. cbn [rbind].
  destruct others as [|x others]; [eexists; split; [reflexivity|]; split; [intros f; cbn; intuition congruence|intros e f N; cbn; intuition congruence]|].
  assert (O' : exists e, In e (x :: others) /\ e <> "html") by (destruct O as [O|O]; [discriminate|exact O]). clear O. remember (x :: others) as L eqn:HL.
  assert (R : filter (fun e => negb (String.eqb e "html")) L <> []). { destruct O' as (e & I & N) . intros Z. assert (J : In e (filter (fun e => negb (String.eqb e "html")) L)) by (apply filter_In; split; auto; apply negb_true_iff, String.eqb_neq; auto). rewrite Z in J. destruct J. }
  assert (P : forall h, (forall f, In ("html", f) (("html", h) :: map (fun e => (e, cut)) (filter (fun e => negb (String.eqb e "html")) L)) <-> f = h) /\ (forall e f, e <> "html" -> In (e, f) (("html", h) :: map (fun e => (e, cut)) (filter (fun e => negb (String.eqb e "html")) L)) <-> In e L /\ f = cut)).
  { intros h. split.
    - intros f. split; [intros [I|I]; [congruence|]|intros ->; left; auto]. apply in_map_iff in I. destruct I as (e & Q & I). injection Q as -> _. apply filter_In in I. destruct I as [_ I]. rewrite String.eqb_refl in I. discriminate.
    - intros e f N. split; [intros [I|I]; [congruence|]|]. + apply in_map_iff in I. destruct I as (e' & Q & I). injection Q as -> <-. apply filter_In in I. tauto.
      + intros [I ->]. right. apply in_map_iff. exists e. split; auto. apply filter_In. split; auto. apply negb_true_iff, String.eqb_neq. auto. }
  destruct (negb (Nat.eqb num 0) && Nat.ltb num (List.length (t_rows t'))) eqn:B.
  - destruct (filter (fun e => negb (String.eqb e "html")) L) as [|y l]; [congruence|]. eexists. split; [reflexivity|]. subst L. exact (P full).
  - assert (cut = full) as -> by (unfold last_rows in C; rewrite B in C; congruence). eexists. split; [reflexivity|]. subst L. exact (P full).
Qed.
(** the files of the bins of a channel differ *)
Theorem C98_files impacts fittype pulls modes arg channels ch g idx f g' idx' : NoDup (map fst channels) ->
  In (ch, g, idx, f) (bin_files impacts fittype pulls modes arg channels) -> In (ch, g', idx', f) (bin_files impacts fittype pulls modes arg channels) -> g = g' /\ idx = idx'.
Proof.
  intros N H H'. unfold bin_files in H, H'. apply in_flat_map in H as ((c & axes) & I & H), H' as ((c' & axes') & I' & H'). cbn [fst snd] in *.
  destruct (smem c _); [|destruct H]. destruct (smem c' _); [|destruct H']. apply in_flat_map in H as (m & _ & H), H' as (m' & _ & H'). apply in_map_iff in H as (i & E & H), H' as (i' & E' & H'). injection E as <- <- <- <-. injection E' as -> <- <- Q.
  assert (axes = axes'). { pose proof (In_dget _ _ _ N I) as D. pose proof (In_dget _ _ _ N I') as D'. congruence. } subst axes'.
  apply all_idx_In in H, H'. assert (L : forall i, in_shape (map Param_Model.ax_size axes) i -> List.length i = List.length axes) by (intros j J; rewrite <- (map_length Param_Model.ax_size axes); revert J; generalize (map Param_Model.ax_size axes); intros s J; clear - J; induction J; cbn; congruence).
  symmetry in Q. apply files_differ in Q; auto.
Qed.

(** ** Examples *)
Local Open Scope R_scope.
Definition plain_choice (group asym : bool) (typ : string) (normalize : bool) : choice := mkC group typ None asym None 0 normalize 1 true.
Lemma eqb10 : Reqb 1 0 = false. Proof. apply Reqb_false. lra. Qed.
Lemma ltb00 : Rltb 0 0 = false. Proof. apply Rltb_false. lra. Qed.
Ltac reals := unfold read_info, read_parts, read_bin, frame, override; cbn [o_stat o_scale o_normalize o_group o_type o_asym o_filters o_grouping o_diff plain_choice bin_choice]; rewrite ?ltb00, ?eqb10.
Definition pull_row (label : string) (x0 p s : R) : row := (label, [("pull_prefit", x0); ("pull", p); ("abspull", Rabs p); ("constraint", s); ("newpull", newpull s p)]%string).
Definition impact_row (label : string) (i : R) : row := (label, [("impact_down", - i); ("impact_up", i); ("absimpact", Rabs i)]%string).
Definition full_row (label : string) (i x0 p s : R) : row := (label, (snd (impact_row label i) ++ snd (pull_row label x0 p s))%list).
Example C98_ex_pulls : read_info has stored1 None (mkC false "traditional" None false (Some ["b"; "s"]%string) 0 false 1 true) =
  Ok (mkT ["pull_prefit"; "pull"; "abspull"; "constraint"; "newpull"]%string [pull_row "s" 1 (2 - 1) (sqrt 9); pull_row "b" 0 (4 - 0) (sqrt 25)]).
Proof. reals. reflexivity. Qed.
Example C98_ex_no_diff : read_info has stored1 None (mkC false "traditional" None false None 0 false 1 false) =
  Ok (mkT ["pull_prefit"; "pull"; "abspull"; "constraint"; "newpull"]%string [pull_row "s" 1 2 (sqrt 9); pull_row "a" 0 3 (sqrt 16); pull_row "b" 0 4 (sqrt 25)]).
Proof. reals. reflexivity. Qed.
(** the parameter itself is left out *)
Example C98_ex_ungrouped : read_info has stored1 (Some "s"%string) (mkC false "traditional" None false None 0 false 1 true) =
  Ok (mkT all_cols [full_row "a" (6 * 1) 0 (3 - 0) (sqrt 16); full_row "b" (7 * 1) 0 (4 - 0) (sqrt 25)]).
Proof. reals. reflexivity. Qed.
Example C98_ex_normalized : read_info has stored1 (Some "s"%string) (mkC false "traditional" None false None 0 true 1 true) =
  Ok (mkT all_cols [full_row "a" (6 / sqrt 9) 0 (3 - 0) (sqrt 16); full_row "b" (7 / sqrt 9) 0 (4 - 0) (sqrt 25)]).
Proof. reals. reflexivity. Qed.
Example C98_ex_grouped : read_info has stored1 (Some "s"%string) (mkC true "traditional" (Some ["syst"; "Total"]%string) false None 0 false 1 true) =
  Ok (mkT ["impact_down"; "impact_up"; "absimpact"]%string [impact_row "syst" (9 * 1); impact_row "Total" (sqrt 9 * 1)]).
Proof. reals. reflexivity. Qed.
(** the impact of stat replaced *)
Example C98_ex_stat : read_info has stored1 (Some "s"%string) (mkC true "traditional" None false None 4 false 1 true) =
  Ok (mkT ["impact_down"; "impact_up"; "absimpact"]%string [impact_row "stat" (4 * 1); impact_row "syst" (9 * 1); impact_row "Total" (sqrt 9 * 1)]).
Proof. reals. rewrite (Rltb_true 0 4) by lra. reflexivity. Qed.
Example C98_ex_bin : read_bin has stored1 ["b"; "z"; "a"]%string [10; 20; 30] 5 (mkC false "global" None false None 0 true 1 false) =
  Ok (mkT all_cols [full_row "a" (30 / 5) 0 (3 - 0) (sqrt 16); full_row "b" (10 / 5) 0 (4 - 0) (sqrt 25)]).
Proof. reals. reflexivity. Qed.
Example C98_ex_bin_grouped : read_bin has stored1 ["stat"; "syst"]%string [10; 20] 5 (mkC true "global" None false (Some ["Total"; "syst"]%string) 0 false 1 true) =
  Ok (mkT ["impact_down"; "impact_up"; "absimpact"]%string [impact_row "syst" (20 * 1); impact_row "Total" (5 * 1)]).
Proof. reals. reflexivity. Qed.
Definition ta : table := mkT ["absimpact"]%string [("b", [("absimpact", 2)]); ("a", [("absimpact", 5)])]%string.
Definition tb : table := mkT ["absimpact"]%string [("c", [("absimpact", 3)]); ("a", [("absimpact", 1)])]%string.
Example C98_ex_merge : merge ta tb = mkT ["absimpact"; "absimpact_ref"]%string
  [("a", [("absimpact", 5); ("absimpact_ref", 1)]); ("b", [("absimpact", 2)]); ("c", [("absimpact_ref", 3)])]%string.
Proof. reflexivity. Qed.
Example C98_ex_load : load has [("a", "alpha")]%string stored1 (Some stored1) (Some "s"%string) (mkC true "traditional" (Some ["syst"]%string) false None 0 true 1 true) 7 =
  Ok (Some (mkT ["impact_down"; "impact_up"; "absimpact"; "impact_down_ref"; "impact_up_ref"; "absimpact_ref"]%string
    [("syst", (snd (impact_row "syst" (9 / sqrt 9)) ++ ref_cells (snd (impact_row "syst" (9 / sqrt 9))))%list)]%string)).
Proof. unfold load. reals. rewrite (Rltb_true 0 7) by lra. cbn [o_stat o_scale o_normalize o_group o_type o_asym o_filters o_grouping o_diff]. rewrite ?ltb00, (Reqb_false 7 0) by lra. reflexivity. Qed.
Ltac order := unfold by_cells, in_order, le_k, flip, Rc; cbn; repeat (match goal with |- context[total_order_T ?a ?b] => destruct (total_order_T a b) as [[?|?]|?]; try lra; cbn end).
Example C98_ex_sort : map fst (t_rows (last_rows 2 (sort_plain true "absimpact" (merge ta tb)))) = ["b"; "a"]%string /\ map fst (t_rows (last_rows 2 (sort_plain false "absimpact" (merge ta tb)))) = ["b"; "c"]%string /\
  map fst (t_rows (sort_plain false "label" (merge ta tb))) = ["c"; "b"; "a"]%string.
Proof.
  split; [|split]; [| |reflexivity]; change (sort_plain ?b "absimpact" (merge ta tb)) with (mkT (t_cols (merge ta tb)) (sort_rows b (by_cells ["absimpact"; "absimpact_ref"]%string) (t_rows (merge ta tb)))); rewrite C98_ex_merge; unfold sort_rows, sort_k, last_rows; cbn [t_rows t_cols fold_right insert_k]; unfold le_k, in_order, by_cells, flip; cbn [fold_right]; unfold cell; cbn [snd dget String.eqb Ascii.eqb Bool.eqb]; unfold Rc;
  repeat (match goal with |- context[total_order_T ?a ?b] => destruct (total_order_T a b) as [[?|?]|?]; try lra; cbn [insert_k] end); try reflexivity;
  unfold le_k, in_order, by_cells, flip; cbn [fold_right]; unfold cell; cbn [snd dget String.eqb Ascii.eqb Bool.eqb]; unfold Rc; repeat (match goal with |- context[total_order_T ?a ?b] => destruct (total_order_T a b) as [[?|?]|?]; try lra; cbn [insert_k] end); reflexivity.
Qed.
Example C98_ex_figure : figure (mkL true false true false false) (mkT all_cols [full_row "a" 6 0 3 4]) =
  Ok [Bar "+" [("a"%string, Some 6)]; Bar "-" [("a"%string, Some (-6))]; Pull [("a"%string, (3, 4, 4))]].
Proof. unfold figure, impact_traces. cbn. rewrite Reqb_false; [reflexivity|]. unfold Rabs. destruct (Rcase_abs 6); lra. Qed.
Example C98_ex_one_sided : impact_traces (mkL false true true false false) (mkT all_cols [impact_row "a" 6; impact_row "b" (-5)]) =
  Ok [Bar "+" [("a"%string, Some 6); ("b"%string, None)]; Bar "-" [("a"%string, None); ("b"%string, Some (- -5))]].
Proof.
  unfold impact_traces. cbn. rewrite (Reqb_false (Rabs 6)) by (unfold Rabs; destruct (Rcase_abs 6); lra). cbn. rewrite (Rltb_false 0 (-(6))), (Rltb_true 0 (- -5)) by lra. cbn. rewrite (Rltb_false 6 0), (Rltb_true (-5) 0), (Rltb_true (-(6)) 0), (Rltb_false (- -5) 0) by lra. reflexivity.
Qed.
Example C98_ex_box : pull_traces (mkL true false false false false) (mkT ["pull"; "constraint"; "pull_ref"; "constraint_ref"] [("a", [("pull", 1); ("constraint", 2); ("pull_ref", 3); ("constraint_ref", 4)])])%string =
  Ok [Pull [("a"%string, (1, 2, 2))]; RefBox [("a"%string, (3 - 4, 2 * 4))]].
Proof. reflexivity. Qed.
Example C98_ex_files : map snd (bin_files "global_impacts" "postfit" true [false; true] (Some "ch0"%string) [("ch0", [Param_Model.mkAxis "pt" 2 [] []]); ("ch1", [Param_Model.mkAxis "pt" 1 [] []])])%string =
  ["pulls_and_global_impacts_postfit_pt0.html"; "pulls_and_global_impacts_postfit_pt1.html"; "global_impacts_postfit_grouped_pt0.html"; "global_impacts_postfit_grouped_pt1.html"]%string.
Proof. reflexivity. Qed.

(** a label that is in one of the tables only counts as zero in the other *)
Example C98_ex_missing : cells "absimpact" (merge ta tb) = Ok [5; 2; 0] /\ cells "absimpact_ref" (merge ta tb) = Ok [1; 0; 3].
Proof. split; reflexivity. Qed.
Example C98_ex_new_pulls : pull_traces (mkL true false false false true) (mkT ["pull"; "constraint"; "newpull"; "pull_ref"; "constraint_ref"; "newpull_ref"] [("a", [("pull", 1); ("constraint", 2); ("newpull", 5); ("pull_ref", 3); ("constraint_ref", 4); ("newpull_ref", 6)])])%string =
  Ok [Pull [("a"%string, (1, 2, 2))]; RefBox [("a"%string, (3 - 4, 2 * 4))]; NewPull "" [("a"%string, 5)]; NewPull "ref" [("a"%string, 6)]].
Proof. reflexivity. Qed.
(** asymmetric non-profiled impacts; the pulls are in the order of the parameters, the labels in the order of the frozen ones *)
Example C98_ex_nonprofiled : read_info has stored1 (Some "a"%string) (plain_choice false true "nonprofiled" false) =
  Ok (mkT ["impact_down"; "impact_up"; "absimpact"; "pull_prefit"; "pull"; "abspull"; "constraint_down"; "constraint_up"]%string
    [("b", [("impact_down", 14 * 1); ("impact_up", 11 * 1); ("absimpact", Rmax (Rabs (11 * 1)) (Rabs (14 * 1))); ("pull_prefit", 0); ("pull", 3 - 0); ("abspull", Rabs (3 - 0)); ("constraint_down", - sqrt 16); ("constraint_up", sqrt 16)]%string)]%string).
Proof. reals. reflexivity. Qed.
Example C98_ex_load_names : load has [("syst", "systematics")]%string stored1 None (Some "s"%string) (mkC true "traditional" (Some ["syst"]%string) false None 0 false 1 true) 7 =
  Ok (Some (mkT ["impact_down"; "impact_up"; "absimpact"]%string [("systematics"%string, snd (impact_row "syst" (9 * 1)))])) /\
  load has [] stored1 None (Some "s"%string) (mkC true "traditional" (Some ["other"]%string) false None 0 false 1 true) 7 = Ok None.
Proof. split; unfold load; reals; reflexivity. Qed.
Example C98_ex_load_reference : load has [] stored1 (Some stored1) (Some "s"%string) (mkC true "traditional" (Some ["syst"]%string) false None 0 false 1 true) 7 =
  Ok (Some (mkT ["impact_down"; "impact_up"; "absimpact"; "impact_down_ref"; "impact_up_ref"; "absimpact_ref"]%string
    [("syst", [("impact_down", - (9 * 1)); ("impact_up", 9 * 1); ("absimpact", Rabs (9 * 1)); ("impact_down_ref", - (9 * 7)); ("impact_up_ref", 9 * 7); ("absimpact_ref", Rabs (9 * 7))]%string)]%string)).
Proof. unfold load. reals. rewrite (Rltb_true 0 7) by lra. cbn [o_stat o_scale o_normalize o_group o_type o_asym o_filters o_grouping o_diff]. rewrite ?ltb00, (Reqb_false 7 0) by lra. reflexivity. Qed.
(** a plot of one of two rows as html and pdf, and html given as another format *)
Example C98_ex_formats : let t := mkT ["pull"; "constraint"] [("a", [("pull", 1); ("constraint", 2)]); ("b", [("pull", 3); ("constraint", 4)])]%string in
  make_plots true "none" Plain 1 ["pdf"; "html"]%string (mkL true false false false false) t =
    Ok [("html", [Pull [("a", (1, 2, 2)); ("b", (3, 4, 4))]]); ("pdf", [Pull [("b", (3, 4, 4))]])]%string /\
  make_plots true "none" Plain 1 [] (mkL true false false false false) t = Ok [("html", [Pull [("b", (3, 4, 4))]])]%string /\
  make_plots true "none" Plain 1 ["html"]%string (mkL true false false false false) t = Raise IndexError.
Proof. split; [|split]; reflexivity. Qed.

(** ** Refuted *)
(** the row of "b" has the pull and the constraint of "a" *)
Theorem C98_frozen_order_refuted : exists d t r, store_all rp 1 1 [] fit1 [] = Ok d /\ In (Postfit [2; 3; 4] [9; 16; 25]) fit1 /\ nth 1 rp ""%string = "a"%string /\
  read_info has d (Some "a"%string) (plain_choice false true "nonprofiled" false) = Ok t /\ In r (t_rows t) /\ fst r = "b"%string /\ cell "pull" r = 3 - 0 /\ cell "constraint_up" r = sqrt 16.
Proof.
  exists stored1. do 2 eexists. split; [reflexivity|]. split; [right; left; reflexivity|]. split; [reflexivity|]. split; [exact C98_ex_nonprofiled|]. split; [left; reflexivity|]. split; [reflexivity|]. split; reflexivity.
Qed.
Definition gfit : list item := [Prefit [1; 0; 0] [4; 1; 1]; Postfit [2; 3; 4] [9; 16; 25]; GlobAsym ["a"; "b"]%string [[[-10; 11; 12]; [13; 14; 15]]; [[-20; 21; 22]; [23; 24; 25]]] ["g"; "h"]%string [[[-1; 2; 3]; [4; 5; 6]]; [[-7; 2; 3]; [8; 5; 6]]]].
Definition gstored : dict hist := match store_all rp 1 1 [] gfit [] with Ok d => d | Raise _ => [] end.
Lemma gstored_ok : store_all rp 1 1 [] gfit [] = Ok gstored. Proof. reflexivity. Qed.
(** grouped asymmetric impacts: every group has the bars of the first one *)
Theorem C98_asym_grouped_refuted : exists parms is d t, store_all parms 1 1 [] is [] = Ok d /\ In (GlobAsym ["a"; "b"]%string [[[-10; 11; 12]; [13; 14; 15]]; [[-20; 21; 22]; [23; 24; 25]]] ["g"; "h"]%string [[[-1; 2; 3]; [4; 5; 6]]; [[-7; 2; 3]; [8; 5; 6]]]) is /\
  read_info has d (Some "s"%string) (plain_choice true true "global" false) = Ok t /\ map fst (t_rows t) = ["g"; "h"; "Total"]%string /\
  forall r, In r (t_rows t) -> cell "impact_up" r = -1 * 1 /\ cell "impact_down" r = 4 * 1.
Proof.
  set (c := [("impact_down", 4 * 1); ("impact_up", -1 * 1); ("absimpact", maxl (map Rabs [-1 * 1; 4 * 1; -7 * 1; 8 * 1; sqrt 9 * 1]))]%string).
  exists rp, gfit, gstored, (mkT ["impact_down"; "impact_up"; "absimpact"]%string [("g"%string, c); ("h"%string, c); ("Total"%string, c)]). split; [reflexivity|]. split; [right; right; left; reflexivity|]. split; [reals; reflexivity|]. split; [reflexivity|].
  intros r [<-|[<-|[<-|[]]]]; split; reflexivity.
Qed.
(** and relative to the total they are divided by the impact of another group *)
Theorem C98_asym_normalize_refuted : exists parms is d t, store_all parms 1 1 [] is [] = Ok d /\ In (Postfit [2; 3; 4] [9; 16; 25]) is /\ nth 0 parms ""%string = "s"%string /\
  read_info has d (Some "s"%string) (plain_choice true true "global" true) = Ok t /\
  forall r, In r (t_rows t) -> cell "impact_up" r = -1 / -7 /\ cell "impact_down" r = 4 / -7.
Proof.
  set (c := [("impact_down", 4 / -7); ("impact_up", -1 / -7); ("absimpact", maxl (map Rabs [-1 / -7; 4 / -7; -7 / -7; 8 / -7; sqrt 9 / -7]))]%string).
  exists rp, gfit, gstored, (mkT ["impact_down"; "impact_up"; "absimpact"]%string [("g"%string, c); ("h"%string, c); ("Total"%string, c)]). split; [reflexivity|]. split; [right; left; reflexivity|]. split; [reflexivity|]. split; [reals; reflexivity|].
  intros r [<-|[<-|[<-|[]]]]; split; reflexivity.
Qed.
Definition gtable : table := (mkT ["impact_down"; "impact_up"; "absimpact"; "pull_prefit"; "pull"; "abspull"; "constraint_down"; "constraint_up"]%string [
    ("a", [("impact_down", 13 * 1); ("impact_up", -10 * 1); ("absimpact", maxl [Rabs (-10 * 1); Rabs (13 * 1)]); ("pull_prefit", 0); ("pull", 3 - 0); ("abspull", Rabs (3 - 0)); ("constraint_down", - sqrt 25); ("constraint_up", sqrt 16)]);
    ("b", [("impact_down", 23 * 1); ("impact_up", -20 * 1); ("absimpact", maxl [Rabs (-20 * 1); Rabs (23 * 1)]); ("pull_prefit", 0); ("pull", 4 - 0); ("abspull", Rabs (4 - 0)); ("constraint_down", - sqrt 25); ("constraint_up", sqrt 16)])]%string).
(** ungrouped: all parameters have the constraints of the first two *)
Theorem C98_asym_constraints_refuted : exists parms is d t, store_all parms 1 1 [] is [] = Ok d /\ In (Postfit [2; 3; 4] [9; 16; 25]) is /\
  read_info has d (Some "s"%string) (plain_choice false true "global" false) = Ok t /\ map fst (t_rows t) = ["a"; "b"]%string /\
  forall r, In r (t_rows t) -> cell "constraint_up" r = sqrt 16 /\ cell "constraint_down" r = - sqrt 25.
Proof.
  exists rp, gfit, gstored, gtable. split; [reflexivity|]. split; [right; left; reflexivity|]. split; [reals; reflexivity|]. split; [reflexivity|].
  intros r [<-|[<-|[]]]; split; reflexivity.
Qed.
(** the stored pair is (down, up), the plot takes it as (up, down) *)
Theorem C98_up_down_refuted : exists parms is d n i l g t, store_all parms 1 1 [] is [] = Ok d /\ In (GlobAsym n i l g) is /\ down_up = ["down"; "up"]%string /\
  read_info has d (Some "s"%string) (plain_choice false true "global" false) = Ok t /\
  exists r, In r (t_rows t) /\ nth_error n 0 = Some (fst r) /\ cell "impact_up" r = at3 i 0 0 0 * 1 /\ cell "impact_down" r = at3 i 0 1 0 * 1 /\ at3 i 0 0 0 < at3 i 0 1 0.
Proof.
  exists rp, gfit, gstored. do 4 eexists. exists gtable. split; [reflexivity|]. split; [right; right; left; reflexivity|]. split; [reflexivity|]. split; [reals; reflexivity|].
  eexists. split; [left; reflexivity|]. split; [reflexivity|]. split; [reflexivity|]. split; [reflexivity|]. unfold at3. cbn. lra.
Qed.
(** the traditional asymmetric impacts of a fit cannot be plotted ungrouped *)
Theorem C98_asym_traditional_refuted : exists parms is d, store_all parms 1 1 [] is [] = Ok d /\ (exists n i l g, In (TradAsym n i l g) is) /\
  (exists i, read_impacts d "s" false "traditional" false true = Ok i) /\ forall search, read_info search d (Some "s"%string) (plain_choice false true "traditional" false) = Raise KeyError.
Proof.
  exists rp, [Prefit [1; 0; 0] [4; 1; 1]; Postfit [2; 3; 4] [9; 16; 25]; TradAsym ["a"]%string [[[1; 2; 3]; [4; 5; 6]]] [] []]. eexists. split; [reflexivity|]. split; [do 4 eexists; right; right; left; reflexivity|].
  split; [eexists; reflexivity|]. intros. reals. reflexivity.
Qed.
(** with --sortDescending the parameter with the largest impact is cut off *)
Theorem C98_descending_refuted : exists t num hidden shown, In hidden (t_rows t) /\ ~ In (fst hidden) (map fst (t_rows (last_rows num (sort_plain false "absimpact" t)))) /\
  In shown (t_rows (last_rows num (sort_plain false "absimpact" t))) /\ cell "absimpact" shown < cell "absimpact" hidden.
Proof.
  exists (mkT ["absimpact"]%string [impact_row "a" 1; impact_row "b" 2]), 1%nat, (impact_row "b" 2), (impact_row "a" 1).
  assert (A1 : Rabs 1 = 1) by (apply Rabs_right; lra). assert (A2 : Rabs 2 = 2) by (apply Rabs_right; lra).
  assert (E : t_rows (last_rows 1 (sort_plain false "absimpact" (mkT ["absimpact"]%string [impact_row "a" 1; impact_row "b" 2]))) = [impact_row "a" 1]).
  { unfold sort_plain, sort_rows, sort_k, last_rows. cbn [t_rows t_cols fold_right insert_k String.eqb Ascii.eqb Bool.eqb smem existsb orb]. unfold le_k, in_order, by_cells. cbn [fold_right]. unfold cell. cbn. unfold Rc. rewrite A1, A2. destruct (total_order_T 1 2) as [[?|?]|?]; try lra. cbn. reflexivity. }
  rewrite E. split; [right; left; reflexivity|]. split; [cbn; intuition discriminate|]. split; [left; reflexivity|]. unfold cell. cbn. rewrite A1, A2. lra.
Qed.
(** the boxes of the reference have the asymmetric constraints of the fit and not those of the reference *)
Theorem C98_asym_box_refuted : exists t, pull_traces (mkL true false false true false) t = Ok [Pull [("a"%string, (1, 2, 3))]; RefBox [("a"%string, (4 - 2, 3 + 2))]] /\
  exists r, t_rows t = [r] /\ cell "constraint_down_ref" r = 20 /\ cell "constraint_up_ref" r = 30 /\ cell "pull_ref" r = 4.
Proof.
  exists (mkT ["pull"; "constraint_down"; "constraint_up"; "pull_ref"; "constraint_down_ref"; "constraint_up_ref"] [("a", [("pull", 1); ("constraint_down", 2); ("constraint_up", 3); ("pull_ref", 4); ("constraint_down_ref", 20); ("constraint_up_ref", 30)])])%string.
  split; [reflexivity|]. eexists. repeat split.
Qed.
(** channels with the same axes write to the same files *)
Theorem C98_channel_files_refuted : exists channels f, In ("ch0"%string, true, [0%nat], f) (bin_files "global_impacts" "postfit" true [true] None channels) /\ In ("ch1"%string, true, [0%nat], f) (bin_files "global_impacts" "postfit" true [true] None channels).
Proof. exists [("ch0", [Param_Model.mkAxis "pt" 1 [] []]); ("ch1", [Param_Model.mkAxis "pt" 1 [] []])]%string. eexists. split; [left; reflexivity|right; left; reflexivity]. Qed.
(** a channel is plotted if its name is a part of the requested one *)
Theorem C98_channel_refuted : exists arg channels, wanted_channels (Some arg) channels = ["ch1"; "ch10"]%string /\ arg = "ch10"%string.
Proof. exists "ch10"%string, ["ch1"; "ch10"; "ch2"]%string. split; reflexivity. Qed.
(** on bins the pulls are differences to the prefit values also with --pullsNoDiff *)
Theorem C98_bin_no_diff_refuted : exists search d labels l o t r, o_diff o = false /\ read_bin search d labels l 1 o = Ok t /\ In r (t_rows t) /\ fst r = "s"%string /\ cell "pull" r = 2 - 1 /\ (exists p c, pulls_and_constraints search d false false None None = Ok (rp, p, c) /\ nth 0 p 0 = 2).
Proof.
  exists has, stored1, ["s"]%string, [7], (mkC false "global" None false None 0 false 1 false), (mkT all_cols [full_row "s" (7 * 1) 1 (2 - 1) (sqrt 9)]). eexists. split; [reflexivity|]. split; [reals; reflexivity|]. split; [left; reflexivity|]. split; [reflexivity|]. split; [reflexivity|]. do 2 eexists. split; reflexivity.
Qed.
(** --scaleImpacts 0 leaves the impacts as they are *)
Theorem C98_scale_zero_refuted : exists t r, read_info has stored1 (Some "s"%string) (mkC true "traditional" None false None 0 false 0 true) = Ok t /\ In r (t_rows t) /\ cell "impact_up" r = 8.
Proof. exists (mkT ["impact_down"; "impact_up"; "absimpact"]%string [impact_row "stat" 8; impact_row "syst" 9; impact_row "Total" (sqrt 9)]). eexists. split; [reals; rewrite (Reqb_true 0 0) by auto; reflexivity|]. split; [left; reflexivity|reflexivity]. Qed.
(** relative impacts of stat given by hand are not relative *)
Theorem C98_stat_refuted : exists t r, read_info has stored1 (Some "s"%string) (mkC true "traditional" None false None 4 true 1 true) = Ok t /\ In r (t_rows t) /\ fst r = "stat"%string /\ cell "impact_up" r = 4 /\
  exists r', In r' (t_rows t) /\ fst r' = "Total"%string /\ cell "impact_up" r' = 1.
Proof.
  exists (mkT ["impact_down"; "impact_up"; "absimpact"]%string [impact_row "stat" 4; impact_row "syst" (9 / sqrt 9); impact_row "Total" (sqrt 9 / sqrt 9)]). eexists. split; [reals; rewrite (Rltb_true 0 4) by lra; reflexivity|]. split; [left; reflexivity|]. split; [reflexivity|]. split; [reflexivity|]. eexists. split; [right; right; left; reflexivity|]. split; [reflexivity|]. unfold cell. cbn. field. apply Rgt_not_eq, sqrt_lt_R0. lra.
Qed.
(** sorting by the difference to a reference without a reference *)
Theorem C98_sort_missing : forall ascending key m t, m = Diff \/ m = Both -> ~ In (ref_of key) (t_cols t) -> sorted_table ascending key m t = Raise KeyError.
Proof.
  assert (H : forall asc key s f t, ~ In (ref_of key) (t_cols t) -> sort_new asc key s f t = Raise KeyError). { intros asc key s f t N. unfold sort_new. destruct (smem (ref_of key) (t_cols t)) eqn:E; [apply smem_In in E; contradiction|]. rewrite andb_false_r. auto. }
  intros asc key m t [->| ->] N; apply H; auto.
Qed.
Print Assumptions C98_pulls.
Print Assumptions C98_ungrouped.
Print Assumptions C98_grouped.
Print Assumptions C98_bin.
Print Assumptions C98_bin_grouped.
Print Assumptions C98_merge.
Print Assumptions C98_largest.
Print Assumptions C98_descending.
Print Assumptions C98_sort_difference.
Print Assumptions C98_sort_both.
Print Assumptions C98_two_sided.
Print Assumptions C98_one_sided.
Print Assumptions C98_no_impacts.
Print Assumptions C98_pull_traces.
Print Assumptions C98_files.
Print Assumptions C98_asym_grouped_refuted.
Print Assumptions C98_asym_normalize_refuted.
Print Assumptions C98_asym_constraints_refuted.
Print Assumptions C98_up_down_refuted.
Print Assumptions C98_asym_traditional_refuted.
Print Assumptions C98_descending_refuted.
Print Assumptions C98_asym_box_refuted.
Print Assumptions C98_channel_files_refuted.
Print Assumptions C98_channel_refuted.
Print Assumptions C98_bin_no_diff_refuted.
Print Assumptions C98_scale_zero_refuted.
Print Assumptions C98_stat_refuted.
Print Assumptions C98_sort_missing.
Print Assumptions C98_sort_reference.
Print Assumptions C98_load.
Print Assumptions C98_load_reference.
Print Assumptions C98_nothing.
Print Assumptions C98_with_reference.
Print Assumptions C98_formats.
Print Assumptions C98_frozen_order_refuted.
