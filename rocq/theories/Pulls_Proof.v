From Coq Require Import Reals List Arith Bool String Lia Lra Permutation Sorted.
From Verif Require Import RBase PyList PyDict Order Impacts_Model Init_Proof Ws_Proof Read_Model Read_Spec Read_Proof Read_Props Pulls_Model Pulls_Spec.
Import ListNotations.
Local Open Scope nat_scope.
Local Open Scope string_scope.

(** ** columns of the selected rows *)
Lemma masked_map {A} (m : nat -> bool) (f : nat -> A) l : masked (map m l) (map f l) = map f (filter m l).
Proof. unfold masked. induction l as [|x l IH]; cbn; auto. destruct (m x); cbn; rewrite IH; auto. Qed.
Lemma mask_list_map {A} (m : nat -> bool) (f : nat -> A) l : mask_list (map m l) (map f l) = Ok (map f (filter m l)).
Proof. unfold mask_list. rewrite !map_length, Nat.eqb_refl, masked_map. auto. Qed.
Lemma filter_true {A} (f : A -> bool) l : (forall x, In x l -> f x = true) -> filter f l = l.
Proof. induction l as [|x l IH]; intros H; cbn; auto. rewrite (H x) by (left; auto). rewrite IH; auto. intros y Y. apply H. right; auto. Qed.
Section Frame.
  Variable search : string -> string -> bool.
  Definition keepb (group : bool) (grouping filters : option (list string)) (l : string) : bool :=
    (match grouping with Some (g :: gs) => negb group || smem l (g :: gs) | _ => true end) &&
    (match filters with Some (f :: fs) => existsb (fun f => search f l) (f :: fs) | _ => true end).
  Lemma keepb_spec group grouping filters l : keepb group grouping filters l = true <-> (group = true -> grouped_in grouping l) /\ kept search filters l.
  Proof.
    unfold keepb. rewrite andb_true_iff.
    assert (A : (match grouping with Some (g :: gs) => negb group || smem l (g :: gs) | _ => true end) = true <-> (group = true -> grouped_in grouping l)).
    { unfold grouped_in. destruct grouping as [[|g gs]|].
      - split; auto. intros _ _ ? [= <-] N. contradiction.
      - destruct group; cbn [negb orb]; [|split; auto; intros _ H; discriminate]. rewrite smem_In. split; [intros I _ ? [= <-] _; auto|intros H; apply H; auto; discriminate].
      - split; auto. intros _ _ ? H. discriminate. }
    assert (B : (match filters with Some (f :: fs) => existsb (fun f => search f l) (f :: fs) | _ => true end) = true <-> kept search filters l).
    { unfold kept. destruct filters as [[|f fs]|].
      - split; auto. intros _ ? [= <-] N. contradiction.
      - rewrite existsb_exists. split; [intros (x & I & S) ? [= <-] _; eauto|intros H; apply (H _ eq_refl); discriminate].
      - split; auto. intros _ ? H. discriminate. }
    tauto.
  Qed.
  Variables (o : choice) (lab : nat -> string) (L : list nat).
  Let keep := fun q => keepb (o_group o) (o_grouping o) (o_filters o) (lab q).
  Let mask := mask_of search (o_group o) (o_grouping o) (o_filters o) (map lab L).
  Lemma opt_map {A} (f : nat -> A) : opt_list mask (map f L) = Ok (map f (filter keep L)).
  Proof.
    unfold mask, mask_of, opt_list. destruct ((o_group o && _) || _) eqn:E.
    - rewrite map_map. apply mask_list_map.
    - apply orb_false_iff in E as [E F]. unfold keep, keepb. rewrite filter_true; auto. intros q _. destruct (o_filters o); [discriminate|]. rewrite andb_true_r. destruct (o_grouping o) as [[|g gs]|]; auto. destruct (o_group o); [discriminate|auto].
  Qed.
  Lemma opt_arr_map f : opt_arr mask (A1 (map f L)) = Ok (A1 (map f (filter keep L))).
  Proof. assert (H := opt_map f). unfold opt_list, opt_arr, mask_arr in *. destruct mask; [rewrite H; auto|]. f_equal. f_equal. congruence. Qed.
  Lemma set_each name (g : nat -> R) cs (rw : nat -> dict R) K : set_col name (Each (map g K)) (mkT cs (map (fun q => (lab q, rw q)) K)) = Ok (mkT (set_add name cs) (map (fun q => (lab q, dset name (g q) (rw q))) K)).
  Proof.
    unfold set_col. cbn [t_rows t_cols]. rewrite !map_length, Nat.eqb_refl. f_equal. f_equal. induction K as [|q K IH]; cbn; auto. rewrite IH. auto.
  Qed.
  Definition value_of (f : nat -> R) (q : nat) : R := if negb (Reqb (o_scale o) 0) && negb (o_normalize o) then (f q * o_scale o)%R else f q.
  Definition icells (f : nat -> R) (q : nat) : dict R := dset "absimpact" (Rabs (value_of f q)) (dset "impact_up" (value_of f q) (dset "impact_down" (- value_of f q)%R [])).
  Lemma impact_frame f K : set_cols (impact_cols false (if negb (Reqb (o_scale o) 0) && negb (o_normalize o) then map_arr (fun x => (x * o_scale o)%R) (A1 (map f K)) else A1 (map f K))) (mkT [] (map (fun q => (lab q, [])) K)) =
    Ok (mkT ["impact_down"; "impact_up"; "absimpact"] (map (fun q => (lab q, icells f q)) K)).
  Proof.
    replace (if negb (Reqb (o_scale o) 0) && negb (o_normalize o) then map_arr (fun x => (x * o_scale o)%R) (A1 (map f K)) else A1 (map f K)) with (A1 (map (value_of f) K)).
    - unfold impact_cols, whole, map_arr. rewrite !map_map. cbn [set_cols rbind]. rewrite set_each. cbn [rbind]. rewrite set_each. cbn [rbind]. rewrite set_each. reflexivity.
    - unfold value_of, map_arr. destruct (_ && _); auto. rewrite map_map. auto.
  Qed.
  Definition pval (p p0 : nat -> R) (q : nat) : R := if o_diff o then (p q - p0 q)%R else p q.
  Definition pcells (p p0 c : nat -> R) (q : nat) (d : dict R) : dict R :=
    dset "newpull" (newpull (c q) (pval p p0 q)) (dset "constraint" (c q) (dset "abspull" (Rabs (pval p p0 q)) (dset "pull" (pval p p0 q) (dset "pull_prefit" (p0 q) d)))).
  Lemma pull_frame p p0 c cs rw K :
    set_cols ([("pull_prefit", Ok (Each (map p0 K))); ("pull", Ok (Each (if o_diff o then sub (map p K) (map p0 K) else map p K))); ("abspull", Ok (Each (map Rabs (if o_diff o then sub (map p K) (map p0 K) else map p K))))] ++
              constraint_cols false (String.eqb (o_type o) "nonprofiled") (if o_diff o then sub (map p K) (map p0 K) else map p K) (A1 (map c K)))%list (mkT cs (map (fun q => (lab q, rw q)) K)) =
    Ok (mkT (set_add "newpull" (set_add "constraint" (set_add "abspull" (set_add "pull" (set_add "pull_prefit" cs))))) (map (fun q => (lab q, pcells p p0 c q (rw q))) K)).
  Proof.
    replace (if o_diff o then sub (map p K) (map p0 K) else map p K) with (map (pval p p0) K).
    - assert (E : map (fun cp : R * R => newpull (fst cp) (snd cp)) (combine (map c K) (map (pval p p0) K)) = map (fun q => newpull (c q) (pval p p0 q)) K) by (induction K as [|q K' IH]; cbn; [auto|rewrite IH; auto]).
      cbn [app constraint_cols set_cols rbind whole]. rewrite set_each. cbn [rbind]. rewrite set_each. cbn [rbind]. rewrite map_map, set_each. cbn [rbind]. rewrite set_each. cbn [rbind]. rewrite E, set_each. cbn [rbind]. reflexivity.
    - unfold pval. destruct (o_diff o); auto. unfold sub. induction K as [|q K' IH]; cbn; auto. rewrite IH. auto.
  Qed.
  Definition all_cols : list string := ["impact_down"; "impact_up"; "absimpact"; "pull_prefit"; "pull"; "abspull"; "constraint"; "newpull"].
  Lemma frame_both f p p0 c : o_asym o = false ->
    frame search o (map lab L) (Some (A1 (map f L))) (Some (map p L, map p0 L, A1 (map c L))) = Ok (mkT all_cols (map (fun q => (lab q, pcells p p0 c q (icells f q))) (filter keep L))).
  Proof.
    intros NA. unfold frame. fold mask. rewrite (opt_map lab), opt_arr_map. cbn [rbind]. rewrite map_map, NA, impact_frame. cbn [rbind]. rewrite !opt_map, opt_arr_map. cbn [rbind]. rewrite pull_frame. reflexivity.
  Qed.
  Lemma frame_impacts f : o_asym o = false -> frame search o (map lab L) (Some (A1 (map f L))) None = Ok (mkT ["impact_down"; "impact_up"; "absimpact"] (map (fun q => (lab q, icells f q)) (filter keep L))).
  Proof. intros NA. unfold frame. fold mask. rewrite (opt_map lab), opt_arr_map. cbn [rbind]. rewrite map_map, NA, impact_frame. reflexivity. Qed.
  Lemma frame_pulls p p0 c : o_asym o = false -> frame search o (map lab L) None (Some (map p L, map p0 L, A1 (map c L))) = Ok (mkT ["pull_prefit"; "pull"; "abspull"; "constraint"; "newpull"] (map (fun q => (lab q, pcells p p0 c q [])) (filter keep L))).
  Proof. intros NA. unfold frame. fold mask. rewrite (opt_map lab), opt_arr_map. cbn [rbind]. rewrite map_map, !opt_map. cbn [rbind]. rewrite NA. rewrite (pull_frame p p0 c [] (fun _ => [])). reflexivity. Qed.
  Lemma icells_spec f q d : d = icells f q \/ (exists p p0 c, d = pcells p p0 c q (icells f q)) -> sym_cells (value_of f q) (lab q, d).
  Proof. intros [->|(p & p0 & c & ->)]; unfold sym_cells, icells, pcells; cbn; auto. Qed.
  Lemma pcells_spec p p0 c q d : d = pcells p p0 c q [] \/ (exists f, d = pcells p p0 c q (icells f q)) -> pull_cells (pval p p0 q) (p0 q) (c q) (lab q, d).
  Proof.
    assert (N : ((c q * c q < 1)%R -> newpull (c q) (pval p p0 q) = (pval p p0 q / sqrt (1 - c q * c q))%R) /\ ((1 <= c q * c q)%R -> newpull (c q) (pval p p0 q) = 999%R)).
    { unfold newpull. split; intros H; [rewrite Rltb_true by lra|rewrite Rltb_false by lra]; auto. }
    destruct N as [N1 N2]. intros [->|(f & ->)]; unfold pull_cells, icells, pcells; cbn; repeat split; auto; intros H; [rewrite N1|rewrite N2|rewrite N1|rewrite N2]; auto.
  Qed.
End Frame.

Lemma Forall2_map_l {A B} (P : A -> B -> Prop) (f : B -> A) l : (forall q, In q l -> P (f q) q) -> Forall2 P (map f l) l.
Proof. induction l as [|q l IH]; intros H; cbn; constructor; [apply H; left; auto|apply IH; intros; apply H; right; auto]. Qed.
(** ** files of a fit *)
Lemma nth_seq_map {A} (d : A) l n : List.length l = n -> l = map (fun q => nth q l d) (seq 0 n).
Proof. intros <-. symmetry. apply Read_Proof.map_nth_seq. Qed.
Lemma override_map o (lab : nat -> string) (f : nat -> R) n : override (o_stat o) (map lab (seq 0 n)) (A1 (map f (seq 0 n))) = A1 (map (fun q => if Rltb 0 (o_stat o) && String.eqb (lab q) "stat" then o_stat o else f q) (seq 0 n)).
Proof.
  unfold override. destruct (Rltb 0 (o_stat o)); cbn [andb]; auto. f_equal. rewrite map_length, seq_length.
  assert (E : combine (seq 0 n) (map f (seq 0 n)) = map (fun q => (q, f q)) (seq 0 n)) by (generalize (seq 0 n); induction l as [|q l IH]; cbn; [auto|rewrite IH; auto]). rewrite E, map_map. apply map_ext_in. intros q Q. apply in_seq in Q. cbn [fst snd].
  rewrite (nth_indep _ "" (lab 0)) by (rewrite map_length, seq_length; lia). rewrite map_nth, seq_nth by lia. auto.
Qed.
Lemma positions_last labels : ~ In "Total" labels -> positions "Total" (labels ++ ["Total"]) = [List.length labels].
Proof.
  intros N. unfold positions. rewrite app_length. cbn [List.length]. rewrite seq_app. cbn [plus seq].
  assert (E : forall st l, ~ In "Total" l -> forall m tl, filter (fun p : nat * string => String.eqb (snd p) "Total") (combine (seq st (List.length l) ++ m) (l ++ tl)) = filter (fun p : nat * string => String.eqb (snd p) "Total") (combine m tl)).
  { intros st l. revert st. induction l as [|x l IH]; intros st I m tl; cbn; auto. destruct (String.eqb_spec x "Total") as [X|X]; [exfalso; apply I; left; auto|]. apply IH. intros J. apply I. right; auto. }
  rewrite E by auto. reflexivity.
Qed.
Lemma totals_last labels l t : ~ In "Total" labels -> List.length l = List.length labels -> totals (A1 (l ++ [t])) (labels ++ ["Total"]) = [t].
Proof. intros N E. unfold totals. rewrite positions_last by auto. cbn [map]. rewrite <- E, nth_middle. auto. Qed.
Lemma shown_value o total label x : value_of o (fun _ => if Rltb 0 (o_stat o) && String.eqb label "stat" then o_stat o else (if o_normalize o then (x / total)%R else x)) 0 = shown_impact o total label x.
Proof.
  unfold value_of, shown_impact, scaled. destruct (Rltb_spec 0 (o_stat o)), (Rlt_dec 0 (o_stat o)); try lra; cbn [andb]; (destruct (String.eqb label "stat"), (o_normalize o), (Reqb_spec (o_scale o) 0), (Req_EM_T (o_scale o) 0); cbn [negb andb]; try contradiction; auto).
Qed.

Section Fit.
  Variables (search : string -> string -> bool) (parms : list string) (npoi nparams : nat) (noi : list nat) (is : list item) (d : dict hist).
  Hypothesis st : store_all parms npoi nparams noi is [] = Ok d.
  Hypothesis one : fit_items is.
  Hypothesis distinct : NoDup parms.
  Let n := List.length parms.
  Variables (x v x0 v0 : list R).
  Hypothesis post : In (Postfit x v) is.
  Hypothesis pre : In (Prefit x0 v0) is.
  Lemma lens : List.length x = n /\ List.length v = n /\ List.length x0 = n /\ List.length v0 = n.
  Proof. destruct (get_parms _ _ _ _ _ _ st one false x v post) as (_ & A & B), (get_parms _ _ _ _ _ _ st one true x0 v0 pre) as (_ & C & D). auto. Qed.
  Lemma flat_index (f : R -> R) l : List.length l = n -> map (fun i => f (nth (i * 1 + 0) l 0%R)) (seq 0 n) = map f l.
  Proof. intros E. transitivity (map f (map (fun q => nth q l 0%R) (seq 0 n))); [|f_equal; symmetry; apply nth_seq_map; auto]. rewrite map_map. apply map_ext. intros. rewrite Nat.mul_1_r, Nat.add_0_r. auto. Qed.
  Lemma pulls_read (prefit : bool) : exists c, pulls_and_constraints search d prefit false None None = Ok (parms, if prefit then x0 else x, c) /\ c = A1 (map sqrt (if prefit then v0 else v)).
  Proof.
    destruct lens as (A & B & C & D). unfold pulls_and_constraints. destruct prefit.
    - destruct (get_parms _ _ _ _ _ _ st one true x0 v0 pre) as (E & _). unfold lookup. rewrite E. cbn [rbind]. unfold axis, values, arr_of. cbn. eexists. split; [|reflexivity].
      change (List.length parms) with n. rewrite (flat_index (fun y => y) x0 C), (flat_index sqrt v0 D), map_id. reflexivity.
    - destruct (get_parms _ _ _ _ _ _ st one false x v post) as (E & _). unfold lookup. rewrite E. cbn [rbind]. unfold axis, values, arr_of. cbn. eexists. split; [|reflexivity].
      change (List.length parms) with n. rewrite (flat_index (fun y => y) x A), (flat_index sqrt v B), map_id. reflexivity.
  Qed.
  Definition nm (q : nat) : string := nth q parms "".
  Definition unc (q : nat) : R := sqrt (nth q v 0%R).
  Lemma as_maps : parms = map nm (seq 0 n) /\ x = map (fun q => nth q x 0%R) (seq 0 n) /\ x0 = map (fun q => nth q x0 0%R) (seq 0 n) /\ map sqrt v = map unc (seq 0 n).
  Proof.
    destruct lens as (A & B & C & D). split; [apply nth_seq_map; auto|]. split; [apply nth_seq_map; auto|]. split; [apply nth_seq_map; auto|].
    rewrite (nth_seq_map 0%R v n B) at 1. rewrite map_map. auto.
  Qed.
  (** without a parameter: pulls only *)
  Lemma info_pulls o : o_asym o = false -> o_group o = false -> exists t, read_info search d None o = Ok t /\ t_cols t = ["pull_prefit"; "pull"; "abspull"; "constraint"; "newpull"] /\
    exists qs, positions_where n (fun q => kept search (o_filters o) (nm q)) qs /\
      Forall2 (fun r q => fst r = nm q /\ pull_cells (pull_value o (nth q x 0%R) (nth q x0 0%R)) (nth q x0 0%R) (unc q) r) (t_rows t) qs.
  Proof.
    intros NA NG. destruct (pulls_read false) as (c & E & ->), (pulls_read true) as (c' & E' & ->). cbv iota in E, E'.
    destruct (get_parms _ _ _ _ _ _ st one false x v post) as (H & _). cbv iota in H.
    unfold read_info, read_parts, lookup. rewrite H. cbn [rbind]. unfold axis. cbn [h_axes map fst index_of]. cbn [String.eqb Ascii.eqb Bool.eqb nth snd rbind]. rewrite NA, E, E'. cbn [rbind].
    destruct as_maps as (M1 & M2 & M3 & M4). pose proof (frame_pulls search o nm (seq 0 n) (fun q => nth q x 0%R) (fun q => nth q x0 0%R) unc NA) as F. rewrite <- M1, <- M2, <- M3, <- M4 in F. cbv beta iota. rewrite F. cbn [rbind]. eexists. split; [reflexivity|]. split; [reflexivity|].
    exists (filter (fun q => keepb search (o_group o) (o_grouping o) (o_filters o) (nm q)) (seq 0 n)). split.
    - split; [eauto|]. intros q. rewrite filter_In, in_seq, keepb_spec, NG. split; [intros [A [_ B]]; split; auto; lia|intros [A B]; split; [lia|split; auto; discriminate]].
    - apply Forall2_map_l. intros q _. split; auto. apply (pcells_spec o nm (fun q => nth q x 0%R) (fun q => nth q x0 0%R) unc). auto.
  Qed.
  Variables (it : item) (vals : list (list R)) (poi : string) (r p : nat).
  Hypothesis It : In it is.
  Hypothesis Prow : NoDup (row_labels parms npoi nparams noi "").
  Hypothesis Erow : nth_error (row_labels parms npoi nparams noi "") r = Some poi.
  Hypothesis Eparm : nth_error parms p = Some poi.
  Let rws := row_labels parms npoi nparams noi "".
  Lemma row_len typ grouped (w : list (list R)) labels : sym_table parms typ grouped it = Some (w, labels) -> rect (List.length labels) w -> List.length (nth r w []) = List.length labels.
  Proof.
    intros T Rc. destruct (get_sym _ _ _ _ _ _ st one it typ grouped w labels It T) as (_ & L). apply nth_rect; auto. rewrite (concat_len _ _ Rc) in L. destruct (Nat.eq_dec (List.length labels) 0); [auto|left].
    assert (K : r < List.length rws) by (apply nth_error_Some; unfold rws; congruence). apply Nat.mul_cancel_r in L; unfold rws in *; lia.
  Qed.
  Lemma value_fun o f q : value_of o f q = value_of o (fun _ => f q) 0. Proof. reflexivity. Qed.
  (** impacts of every parameter and its pull *)
  Lemma info_ungrouped o g labels : o_asym o = false -> o_group o = false -> sym_table parms (o_type o) false it = Some (vals, parms) -> rect n vals ->
    (o_normalize o = true -> sym_table parms (o_type o) true it = Some (g, labels) /\ rect (List.length labels) g /\ ~ In "Total" labels) -> poi <> "" ->
    exists t, read_info search d (Some poi) o = Ok t /\ t_cols t = all_cols /\
    exists qs, positions_where n (fun q => kept search (o_filters o) (nm q) /\ nm q <> poi) qs /\
      Forall2 (fun row q => fst row = nm q /\ sym_cells (shown_impact o (unc p) (nm q) (nth q (nth r vals []) 0%R)) row /\
                            pull_cells (pull_value o (nth q x 0%R) (nth q x0 0%R)) (nth q x0 0%R) (unc q) row) (t_rows t) qs.
  Proof.
    intros NA NG T Rc NT NE. set (l := nth r vals []). assert (Ll : List.length l = n) by (apply (row_len _ _ _ _ T Rc)).
    unfold read_info, read_parts. rewrite NG, NA.
    assert (RP : read_impacts_pulls search d poi false (o_type o) false false = Ok ((x, x0, A1 (map sqrt v), A1 (map sqrt v0)), (A1 l, parms))).
    { unfold read_impacts_pulls. rewrite (read_sym _ _ _ _ _ _ st one it (o_type o) false vals parms poi r It T Rc Prow Erow). cbn [rbind andb]. destruct (pulls_read false) as (c & E & ->), (pulls_read true) as (c' & E' & ->). cbv iota in E, E'. rewrite E, E'. cbn [rbind]. cbv beta iota. cbn [snd]. rewrite Nat.eqb_refl. reflexivity. }
    rewrite RP. cbn [rbind]. cbv beta iota.
    set (f := fun q => if o_normalize o then (nth q l 0 / unc p)%R else nth q l 0%R).
    assert (IM : (if o_normalize o then t <- read_impacts d poi true (o_type o) true false ;; div_by (A1 l) (totals (fst t) (snd t)) else Ok (A1 l)) = Ok (A1 (map f (seq 0 n)))).
    { unfold f. destruct (o_normalize o); [|f_equal; f_equal; apply nth_seq_map; auto]. destruct (NT eq_refl) as (TG & Rg & NTot).
      rewrite (read_total _ _ _ _ _ _ st one _ x v poi p true (o_type o) false post distinct Eparm (read_sym _ _ _ _ _ _ st one it (o_type o) true g labels poi r It TG Rg Prow Erow)). cbn [rbind fst snd append].
      rewrite totals_last; auto; [|apply (row_len _ _ _ _ TG Rg)]. cbn [div_by map_arr]. f_equal. f_equal. rewrite (nth_seq_map 0%R l n Ll) at 1. rewrite map_map. reflexivity. }
    rewrite IM. cbn [rbind]. cbv beta iota. destruct as_maps as (M1 & M2 & M3 & M4).
    pose proof (override_map o nm f n) as OV. rewrite <- M1 in OV. rewrite OV.
    match type of OV with _ = A1 (map ?G _) => set (ff := G) end.
    pose proof (frame_both search o nm (seq 0 n) ff (fun q => nth q x 0%R) (fun q => nth q x0 0%R) unc NA) as F. rewrite <- M1, <- M2, <- M3, <- M4 in F. rewrite F. cbn [rbind].
    destruct (String.eqb_spec poi "") as [|_]; [contradiction|]. eexists. split; [reflexivity|]. split; [reflexivity|]. clear F OV IM RP.
    exists (filter (fun q => negb (String.eqb (nm q) poi)) (filter (fun q => keepb search (o_group o) (o_grouping o) (o_filters o) (nm q)) (seq 0 n))). split.
    - split.
      + exists (fun q => keepb search (o_group o) (o_grouping o) (o_filters o) (nm q) && negb (String.eqb (nm q) poi)). generalize (seq 0 n). induction l0 as [|q l0 IH]; cbn; auto. destruct (keepb _ _ _ _ (nm q)); cbn; auto. destruct (negb _); cbn; rewrite IH; auto.
      + intros q. rewrite !filter_In, in_seq, keepb_spec, NG, negb_true_iff. split; [intros [[A [_ B]] C]; apply String.eqb_neq in C; split; auto; lia|intros [A [B C]]; apply String.eqb_neq in C; split; auto; split; [lia|split; auto; discriminate]].
    - cbn [t_rows drop].
      assert (FM : forall K rw, filter (fun r : row => negb (String.eqb (fst r) poi)) (map (fun q => (nm q, rw q)) K) = map (fun q : nat => (nm q, rw q : dict R)) (filter (fun q => negb (String.eqb (nm q) poi)) K)).
      { intros K rw. induction K as [|q K IH]; cbn; auto. destruct (negb _); cbn; rewrite IH; auto. }
      rewrite FM. apply Forall2_map_l. intros q _. split; auto. split.
      + rewrite <- (shown_value o (unc p) (nm q) (nth q l 0%R)).
        match goal with |- sym_cells ?a ?b => replace a with (value_of o ff q) by reflexivity end. apply icells_spec. right. eauto.
      + apply (pcells_spec o nm (fun q => nth q x 0%R) (fun q => nth q x0 0%R) unc). right. eauto.
  Qed.
  (** impacts of the groups and the total *)
  Lemma info_grouped o labels : o_asym o = false -> o_group o = true -> sym_table parms (o_type o) true it = Some (vals, labels) -> rect (List.length labels) vals -> ~ In "Total" labels -> poi <> "" ->
    exists t, read_info search d (Some poi) o = Ok t /\ t_cols t = ["impact_down"; "impact_up"; "absimpact"] /\
    let name := fun q => nth q (labels ++ ["Total"])%list "" in
    exists qs, positions_where (S (List.length labels)) (fun q => kept search (o_filters o) (name q) /\ grouped_in (o_grouping o) (name q) /\ name q <> poi) qs /\
      Forall2 (fun row q => fst row = name q /\ sym_cells (shown_impact o (unc p) (name q) (nth q (nth r vals [] ++ [unc p])%list 0%R)) row) (t_rows t) qs.
  Proof.
    intros NA NG T Rc NT NE. set (l := (nth r vals [] ++ [unc p])%list). set (m := S (List.length labels)). set (name := fun q => nth q (labels ++ ["Total"])%list "").
    assert (Ll : List.length l = m) by (unfold l; rewrite app_length, (row_len _ _ _ _ T Rc); cbn; unfold m; lia). assert (Lm : List.length (labels ++ ["Total"]) = m) by (rewrite app_length; cbn; unfold m; lia).
    unfold read_info, read_parts. rewrite NG, NA.
    assert (NP : String.eqb (o_type o) "nonprofiled" = false). { apply String.eqb_neq. intros E. rewrite E in T. destruct it; discriminate. }
    rewrite NP. cbn [negb]. rewrite (read_total _ _ _ _ _ _ st one _ x v poi p true (o_type o) false post distinct Eparm (read_sym _ _ _ _ _ _ st one it (o_type o) true vals labels poi r It T Rc Prow Erow)). cbn [rbind fst snd append]. fold (unc p). fold l.
    set (f := fun q => if o_normalize o then (nth q l 0 / unc p)%R else nth q l 0%R).
    assert (IM : (if o_normalize o then div_by (A1 l) (totals (A1 l) (labels ++ ["Total"])) else Ok (A1 l)) = Ok (A1 (map f (seq 0 m)))).
    { unfold f. destruct (o_normalize o); [|f_equal; f_equal; apply nth_seq_map; auto]. unfold l at 2. rewrite totals_last; auto; [|apply (row_len _ _ _ _ T Rc)]. cbn [div_by map_arr]. f_equal. f_equal. rewrite (nth_seq_map 0%R l m Ll) at 1. rewrite map_map. reflexivity. }
    rewrite IM. cbn [rbind]. cbv beta iota. assert (M1 : (labels ++ ["Total"])%list = map name (seq 0 m)) by (apply nth_seq_map; auto).
    pose proof (override_map o name f m) as OV. rewrite <- M1 in OV. rewrite OV.
    match type of OV with _ = A1 (map ?G _) => set (ff := G) end.
    pose proof (frame_impacts search o name (seq 0 m) ff NA) as F. rewrite <- M1 in F. rewrite F. cbn [rbind].
    destruct (String.eqb_spec poi "") as [|_]; [contradiction|]. eexists. split; [reflexivity|]. split; [reflexivity|]. clear F OV IM.
    exists (filter (fun q => negb (String.eqb (name q) poi)) (filter (fun q => keepb search (o_group o) (o_grouping o) (o_filters o) (name q)) (seq 0 m))). split.
    - split.
      + exists (fun q => keepb search (o_group o) (o_grouping o) (o_filters o) (name q) && negb (String.eqb (name q) poi)). generalize (seq 0 m). induction l0 as [|q l0 IH]; cbn; auto. destruct (keepb _ _ _ _ (name q)); cbn; auto. destruct (negb _); cbn; rewrite IH; auto.
      + intros q. rewrite !filter_In, in_seq, keepb_spec, NG, negb_true_iff. split; [intros [[A [D B]] C]; apply String.eqb_neq in C; split; [lia|]; auto|intros [A [B [D C]]]; apply String.eqb_neq in C; split; auto; split; [lia|split; auto]].
    - cbn [t_rows drop].
      assert (FM : forall K rw, filter (fun r : row => negb (String.eqb (fst r) poi)) (map (fun q => (name q, rw q)) K) = map (fun q : nat => (name q, rw q : dict R)) (filter (fun q => negb (String.eqb (name q) poi)) K)).
      { intros K rw. induction K as [|q K IH]; cbn; auto. destruct (negb _); cbn; rewrite IH; auto. }
      rewrite FM. apply Forall2_map_l. intros q _. split; auto.
      rewrite <- (shown_value o (unc p) (name q) (nth q l 0%R)).
      match goal with |- sym_cells ?a ?b => replace a with (value_of o ff q) by reflexivity end. apply icells_spec. auto.
  Qed.
  (** ** impacts on one bin *)
  Variables (labels : list string) (l : list R) (total : R).
  Hypothesis Nl : NoDup labels.
  Hypothesis Ll : List.length l = List.length labels.
  Lemma at_label_nth ls (y : list R) name i : NoDup ls -> nth_error ls i = Some name -> at_label ls y name = nth i y 0%R.
  Proof. intros N E. unfold at_label. rewrite (index_of_NoDup _ N _ _ E). auto. Qed.
  Lemma bin_ungrouped o : o_group o = false -> exists t, read_bin search d labels l total o = Ok t /\ t_cols t = all_cols /\
    StronglySorted (fun a b => string_c a b = Lt) (map fst (t_rows t)) /\ (forall name, In name (map fst (t_rows t)) <-> In name labels /\ In name parms /\ kept search (o_filters o) name) /\
    forall row, In row (t_rows t) -> exists i q, nth_error labels i = Some (fst row) /\ nth_error parms q = Some (fst row) /\
      sym_cells (shown_impact o total (fst row) (nth i l 0%R)) row /\ pull_cells (nth q x 0%R - nth q x0 0%R) (nth q x0 0%R) (unc q) row.
  Proof.
    intros NG. unfold read_bin. rewrite NG. destruct (pulls_read false) as (c & E & ->), (pulls_read true) as (c' & E' & ->). cbv iota in E, E'. rewrite E, E'. cbn [rbind]. cbv beta iota. cbn [scalars rbind].
    set (names := common labels parms). set (m := List.length names). set (name := fun q => nth q names "").
    assert (M1 : names = map name (seq 0 m)) by (apply nth_seq_map; auto).
    assert (NI : forall z, In z names <-> In z labels /\ In z parms). { intros z. unfold names, common. rewrite sort_in, filter_In, smem_In. tauto. }
    assert (ND : NoDup names) by (apply sort_NoDup, NoDup_filter; auto).
    assert (SS : StronglySorted (fun a b => string_c a b = Lt) names).
    { pose proof (sort_sorted (fun z : string => z) string_c string_cmp (filter (fun z => smem z parms) labels)) as S. unfold sortedk in S. change (sort_k _ _ _) with names in S. clear - S ND. induction S as [|a k S IH F]; constructor; inversion ND; subst; auto.
      rewrite Forall_forall in *. intros b B. specialize (F b B). unfold le_k in F. destruct (string_c a b) eqn:C; auto; [apply (c_eq _ string_cmp) in C; subst; contradiction|discriminate]. }
    assert (G : forall (h : string -> R), map h names = map (fun q => h (name q)) (seq 0 m)) by (intros h; rewrite M1 at 1; rewrite map_map; auto).
    set (f := fun q => if o_normalize o then (at_label labels l (name q) / total)%R else at_label labels l (name q)).
    assert (IM : (if o_normalize o then map (fun z => (z / total)%R) (map (at_label labels l) names) else map (at_label labels l) names) = map f (seq 0 m)).
    { unfold f. destruct (o_normalize o); [rewrite map_map; apply G|apply G]. }
    rewrite IM. pose proof (override_map o name f m) as OV. rewrite <- M1 in OV. change (o_stat o) with (o_stat (bin_choice o)) in OV. change (o_stat o) with (o_stat (bin_choice o)). rewrite OV.
    match type of OV with _ = A1 (map ?Gf _) => set (ff := Gf) end.
    pose proof (frame_both search (bin_choice o) name (seq 0 m) ff (fun q => at_label parms x (name q)) (fun q => at_label parms x0 (name q)) (fun q => at_label parms (map sqrt v) (name q)) eq_refl) as F. rewrite <- M1, <- !G in F.
    rewrite F. eexists. split; [reflexivity|]. split; [reflexivity|]. cbn [t_rows]. rewrite map_map. cbn [fst].
    assert (FN : map name (filter (fun q => keepb search (o_group o) (o_grouping o) (o_filters o) (name q)) (seq 0 m)) = filter (keepb search (o_group o) (o_grouping o) (o_filters o)) names).
    { transitivity (filter (keepb search (o_group o) (o_grouping o) (o_filters o)) (map name (seq 0 m))); [|rewrite <- M1; auto]. generalize (seq 0 m). induction l0 as [|q l0 IH]; cbn; auto. destruct (keepb _ _ _ _ (name q)); cbn; rewrite IH; auto. }
    split; [|split].
    - match goal with |- context[map ?g (filter ?h (seq 0 m))] => change (map g (filter h (seq 0 m))) with (map name (filter (fun q => keepb search (o_group o) (o_grouping o) (o_filters o) (name q)) (seq 0 m))) end. rewrite FN.
      clear - SS. induction SS as [|a k S IH Fa]; cbn; [constructor|]. destruct (keepb _ _ _ _ a); auto. constructor; auto. rewrite Forall_forall in *. intros b B. apply filter_In in B. apply Fa. tauto.
    - intros z. match goal with |- context[map ?g (filter ?h (seq 0 m))] => change (map g (filter h (seq 0 m))) with (map name (filter (fun q => keepb search (o_group o) (o_grouping o) (o_filters o) (name q)) (seq 0 m))) end. rewrite FN.
      rewrite filter_In, NI, keepb_spec, NG. split; [intros [[A B] [_ C]]; auto|intros (A & B & C); split; auto; split; auto; discriminate].
    - intros rw I. apply in_map_iff in I as (q & <- & I). apply filter_In in I as [I _]. apply in_seq in I. cbn [fst].
      assert (IN : In (name q) names) by (apply nth_In; unfold m in I; lia). apply NI in IN as [IL IP]. apply In_nth_error in IL as (i & Ei), IP as (j & Ej). exists i, j. split; auto. split; auto. split.
      + rewrite <- (at_label_nth labels l _ _ Nl Ei). rewrite <- (shown_value o total (name q) (at_label labels l (name q))).
        match goal with |- sym_cells ?a ?b => replace a with (value_of (bin_choice o) ff q) by reflexivity end. apply icells_spec. right. eauto.
      + rewrite <- (at_label_nth parms x _ _ distinct Ej), <- (at_label_nth parms x0 _ _ distinct Ej).
        assert (U : unc j = at_label parms (map sqrt v) (name q)). { rewrite (at_label_nth parms (map sqrt v) _ _ distinct Ej). unfold unc. rewrite <- (map_nth sqrt v 0%R j). apply nth_indep. rewrite map_length. destruct lens as (_ & B & _). rewrite B. apply nth_error_Some. congruence. }
        rewrite U. apply (pcells_spec (bin_choice o) name (fun q => at_label parms x (name q)) (fun q => at_label parms x0 (name q)) (fun q => at_label parms (map sqrt v) (name q))). right. eauto.
  Qed.
  Lemma bin_grouped o : o_group o = true -> exists t, read_bin search d labels l total o = Ok t /\ t_cols t = ["impact_down"; "impact_up"; "absimpact"] /\
    let name := fun q => nth q (labels ++ ["Total"])%list "" in
    exists qs, positions_where (S (List.length labels)) (fun q => kept search (o_filters o) (name q) /\ grouped_in (o_grouping o) (name q)) qs /\
      Forall2 (fun row q => fst row = name q /\ sym_cells (shown_impact o total (name q) (nth q (l ++ [total])%list 0%R)) row) (t_rows t) qs.
  Proof.
    intros NG. unfold read_bin. rewrite NG. cbv zeta. set (m := S (List.length labels)). set (name := fun q => nth q (labels ++ ["Total"])%list ""). set (y := (l ++ [total])%list).
    assert (Ly : List.length y = m) by (unfold y; rewrite app_length; cbn; unfold m; lia). assert (Lm : List.length (labels ++ ["Total"]) = m) by (rewrite app_length; cbn; unfold m; lia).
    assert (M1 : (labels ++ ["Total"])%list = map name (seq 0 m)) by (apply nth_seq_map; auto).
    set (f := fun q => if o_normalize o then (nth q y 0 / total)%R else nth q y 0%R).
    assert (IM : (if o_normalize o then map (fun z => (z / total)%R) y else y) = map f (seq 0 m)).
    { unfold f. destruct (o_normalize o); [|apply nth_seq_map; auto]. rewrite (nth_seq_map 0%R y m Ly) at 1. rewrite map_map. auto. }
    rewrite IM. pose proof (override_map o name f m) as OV. rewrite <- M1 in OV. rewrite OV.
    match type of OV with _ = A1 (map ?Gf _) => set (ff := Gf) end.
    pose proof (frame_impacts search (bin_choice o) name (seq 0 m) ff eq_refl) as F. rewrite <- M1 in F.
    eexists. split; [exact F|]. split; [reflexivity|].
    exists (filter (fun q => keepb search (o_group o) (o_grouping o) (o_filters o) (name q)) (seq 0 m)). split.
    - split; [eauto|]. intros q. rewrite filter_In, in_seq, keepb_spec, NG. split; [intros [A [D B]]; split; [lia|]; auto|intros [A [B D]]; split; [lia|split; auto]].
    - cbn [t_rows]. apply Forall2_map_l. intros q _. split; auto. cbn beta. fold y. change (nth q (labels ++ ["Total"])%list "") with (name q). rewrite <- (shown_value o total (name q) (nth q y 0%R)).
      match goal with |- sym_cells ?a ?b => replace a with (value_of (bin_choice o) ff q) by reflexivity end. apply icells_spec. auto.
  Qed.
End Fit.
