(** C85, C86, C87: what is read back from a fit result and printed. *)
From Coq Require Import Reals List Arith Bool String Lia Lra Permutation Sorted.
From Verif Require Import RBase PyList PyDict Order Shape Impacts_Model Impacts_Labels Ws_Model Read_Model Read_Spec Read_Proof Read_Print Read_Cov.
Import ListNotations.
Local Open Scope nat_scope.
Local Open Scope string_scope.
Local Open Scope list_scope.

Section C85.
  Variables (parms : list string) (npoi nparams : nat) (noi : list nat) (is : list item) (d : dict hist).
  Hypothesis st : store_all parms npoi nparams noi is [] = Ok d.
  Hypothesis one : fit_items is.
  Hypothesis distinct : NoDup parms.
  Variable rnd : R -> R.
  Notation rows := (poi_names parms npoi nparams noi).

  (** symmetric impacts of the r-th parameter of interest: the r-th row of the stored table, and the uncertainty of that parameter at the end *)
  Theorem C85_impacts it typ grouped vals labels poi r : In it is -> sym_table parms typ grouped it = Some (vals, labels) -> rect (List.length labels) vals ->
    NoDup rows -> nth_error rows r = Some poi -> read_impacts d poi grouped typ false false = Ok (A1 (nth r vals []), labels).
  Proof. apply read_sym; auto. Qed.
  Theorem C85_total it typ grouped vals labels poi r p x v : In it is -> sym_table parms typ grouped it = Some (vals, labels) -> rect (List.length labels) vals ->
    NoDup rows -> nth_error rows r = Some poi -> In (Postfit x v) is -> nth_error parms p = Some poi ->
    read_impacts d poi grouped typ true false = Ok (A1 (nth r vals [] ++ [sqrt (nth p v 0%R)]), labels ++ ["Total"]).
  Proof.
    intros I T RC ND E P Q. pose proof (read_total _ _ _ _ _ _ st one _ _ _ _ _ grouped typ false P distinct Q (C85_impacts _ _ _ _ _ _ _ I T RC ND E)) as H. exact H.
  Qed.
  (** the parameters of interest of the table are parameters *)
  Theorem C85_rows poi r : npoi <= nparams -> nparams <= List.length parms -> Forall (fun k => nparams + k < List.length parms) noi ->
    nth_error rows r = Some poi -> exists p, nth_error parms p = Some poi.
  Proof.
    intros A B F E. apply nth_error_In in E. unfold poi_names in E. apply in_app_or in E. destruct E as [E|E].
    - apply In_nth_error. rewrite <- (firstn_skipn npoi parms). apply in_or_app. auto.
    - apply in_map_iff in E. destruct E as (k & <- & K). rewrite Forall_forall in F. specialize (F k K). apply In_nth_error. assert (I : In (nth k (skipn nparams parms) "") (skipn nparams parms)) by (apply nth_In; rewrite skipn_length; lia).
      revert I. generalize (nth k (skipn nparams parms) ""). intros n I. rewrite <- (firstn_skipn nparams parms). apply in_or_app. auto.
  Qed.
  (** down and up impacts: the p-th entries of both rows of every source *)
  Theorem C85_asym it typ grouped vals labels poi p : In it is -> asym_table typ grouped it = Some (vals, labels) -> rect3 (List.length parms) vals -> nth_error parms p = Some poi ->
    read_impacts d poi grouped typ false true = Ok (A2 (map (fun i => [at3 vals i 0 p; at3 vals i 1 p]) (seq 0 (List.length labels))), labels).
  Proof. intros. eapply read_asym; eauto. Qed.
  (** the printed table: one line per name and "Total", each with the scaled value of its name, sorted by value if asked for *)
  Theorem C85_print it typ vals labels poi r p x v (ungroup sort : bool) scale : In it is -> sym_table parms typ (negb ungroup) it = Some (vals, labels) -> rect (List.length labels) vals ->
    NoDup rows -> nth_error rows r = Some poi -> List.length vals = List.length rows -> In (Postfit x v) is -> nth_error parms p = Some poi ->
    exists t, table (fun x => x) sort (labels ++ ["Total"]) (nth r vals [] ++ [sqrt (nth p v 0%R)]) t /\
      print_parm rnd d typ false ungroup sort None scale poi = Ok (map (fun l => (fst l, P1 (rnd (snd l * (1 * scale))%R))) t).
  Proof.
    intros I T RC ND E L P Q. unfold print_parm.
    assert (NP : negb (String.eqb typ "nonprofiled") = true). { destruct (String.eqb_spec typ "nonprofiled") as [->|]; [|reflexivity]. destruct it; cbn in T; discriminate. }
    rewrite NP, (C85_total _ _ _ _ _ _ _ _ _ _ I T RC ND E P Q). cbn [rbind fst snd].
    apply print_all1. rewrite !app_length. cbn [List.length]. f_equal. assert (r < List.length vals) by (rewrite L; apply nth_error_Some; congruence).
    unfold rect in RC. rewrite Forall_forall in RC. symmetry. apply RC. apply nth_In. auto.
  Qed.
  (** one name asked for: its line *)
  Theorem C85_print_one it typ vals labels poi r p x v (ungroup sort : bool) scale n j : In it is -> sym_table parms typ (negb ungroup) it = Some (vals, labels) -> rect (List.length labels) vals ->
    NoDup rows -> nth_error rows r = Some poi -> List.length vals = List.length rows -> In (Postfit x v) is -> nth_error parms p = Some poi ->
    NoDup (labels ++ ["Total"]) -> nth_error (labels ++ ["Total"]) j = Some n ->
    print_parm rnd d typ false ungroup sort (Some n) scale poi = Ok [(n, P1 (rnd (nth j (nth r vals [] ++ [sqrt (nth p v 0)]) 0 * (1 * scale))%R))].
  Proof.
    intros I T RC ND E L P Q NL J. unfold print_parm.
    assert (NP : negb (String.eqb typ "nonprofiled") = true). { destruct (String.eqb_spec typ "nonprofiled") as [->|]; [|reflexivity]. destruct it; cbn in T; discriminate. }
    rewrite NP, (C85_total _ _ _ _ _ _ _ _ _ _ I T RC ND E P Q). cbn [rbind fst snd].
    apply print_one1; auto. rewrite !app_length. cbn [List.length]. f_equal. assert (r < List.length vals) by (rewrite L; apply nth_error_Some; congruence).
    unfold rect in RC. rewrite Forall_forall in RC. symmetry. apply RC. apply nth_In. auto.
  Qed.
  Theorem C85_print_unknown asym sort scale labels impacts n : ~ In n labels -> exists e, print_impacts rnd asym sort (Some n) scale impacts labels = Raise e.
  Proof. apply print_unknown. Qed.
  (** impacts of frozen parameters: the larger and the smaller of both values *)
  Theorem C85_print_nonprofiled it vals labels poi p (ungroup sort : bool) scale : In it is -> asym_table "nonprofiled" (negb ungroup) it = Some (vals, labels) -> rect3 (List.length parms) vals -> nth_error parms p = Some poi ->
    exists t, table (fun x => maxl (map Rabs x)) sort labels (map (fun i => [at3 vals i 0 p; at3 vals i 1 p]) (seq 0 (List.length labels))) t /\
      print_parm rnd d "nonprofiled" true ungroup sort None scale poi = Ok (map (fun l => (fst l, P2 (rnd (maxl (snd l) * (1 * scale))%R) (rnd (minl (snd l) * (1 * scale))%R))) t).
  Proof.
    intros I T RC E. unfold print_parm. cbn [String.eqb Ascii.eqb Bool.eqb negb].
    rewrite (C85_asym _ _ _ _ _ _ _ I T RC E). cbn [rbind fst snd]. apply print_all2. rewrite map_length, seq_length. reflexivity.
  Qed.
  (** the other asymmetric impacts cannot be printed: the total is appended to the flattened pairs *)
  Theorem C85_asym_fails it typ vals labels poi p x v (ungroup sort : bool) nuisance scale : In it is -> asym_table typ (negb ungroup) it = Some (vals, labels) -> typ <> "nonprofiled" -> rect3 (List.length parms) vals ->
    nth_error parms p = Some poi -> In (Postfit x v) is -> exists e, print_parm rnd d typ true ungroup sort nuisance scale poi = Raise e.
  Proof.
    intros I T NT RC E P. unfold print_parm. destruct (String.eqb_spec typ "nonprofiled") as [|_]; [contradiction|]. cbn [negb].
    rewrite (read_total _ _ _ _ _ _ st one _ _ _ _ _ _ _ _ P distinct E (C85_asym _ _ _ _ _ _ _ I T RC E)). cbn [rbind fst snd append].
    apply asym_scalar; intros H; apply app_eq_nil in H; destruct H; discriminate.
  Qed.
  (** impacts with pulls: entry j of all arrays belongs to the j-th label, the total has none *)
  Variable search : string -> string -> bool.
  Variables (x v x0 v0 : list R).
  Hypothesis post : In (Postfit x v) is.
  Hypothesis pre : In (Prefit x0 v0) is.
  Theorem C85_pulls it typ vals poi r p (add_total : bool) : In it is -> sym_table parms typ false it = Some (vals, parms) -> rect (List.length parms) vals ->
    NoDup rows -> nth_error rows r = Some poi -> nth_error parms p = Some poi ->
    read_impacts_pulls search d poi false typ add_total false =
    Ok ((x, x0, A1 (map sqrt v), A1 (map sqrt v0)),
        if add_total then (A1 (nth r vals [] ++ [sqrt (nth p v 0%R)]), parms ++ ["Total"]) else (A1 (nth r vals []), parms)).
  Proof.
    intros I T RC ND E Q. destruct add_total.
    - eapply pulls_sym; eauto. eapply C85_total; eauto.
    - eapply pulls_sym; eauto. eapply C85_impacts; eauto.
  Qed.
  (** sources in the order of the parameters *)
  Theorem C85_pulls_asym it typ vals names poi p : In it is -> asym_table typ false it = Some (vals, names) -> typ <> "traditional" -> rect3 (List.length parms) vals -> nth_error parms p = Some poi ->
    names = filter (fun l => smem l names) parms ->
    let at_names := fun A (dft : A) (l : list A) => map (fun q => nth q l dft) (where_is parms names) in
    at_names string "" parms = names /\
    read_impacts_pulls search d poi false typ false true =
    Ok ((at_names R 0%R x, at_names R 0%R x0, A1 (at_names R 0%R (map sqrt v)), A1 (at_names R 0%R (map sqrt v0))),
        (A2 (map (fun i => [at3 vals i 0 p; at3 vals i 1 p]) (seq 0 (List.length names))), names)).
  Proof. intros I T NT RC E F. eapply pulls_asym; eauto. eapply C85_asym; eauto. Qed.
End C85.

(** bins of observables: the impacts, the uncertainty as total, relative to the value in percent if asked for *)
Theorem C85_bin rnd (sort relative : bool) scale labels impacts value variance : List.length labels = List.length impacts ->
  let row := map (fun x => if relative then (x / value)%R else x) (impacts ++ [sqrt variance]) in
  exists t, table (fun x => x) sort (labels ++ ["Total"]) row t /\
    print_bin rnd sort None scale relative labels impacts value variance = Ok (map (fun l => (fst l, P1 (rnd (snd l * ((if relative then 100 else 1) * scale))%R))) t).
Proof.
  intros L row. unfold print_bin.
  replace (if relative then _ else _) with row by (unfold row; destruct relative; [reflexivity|apply map_id]).
  apply print_all1. unfold row. rewrite map_length, !app_length. cbn [List.length]. lia.
Qed.
Theorem C85_bin_key ungroup : bin_key "global" ungroup = Ok (result_name false false false (if ungroup then Impacts else ImpactsGrouped)).
Proof. destruct ungroup; reflexivity. Qed.

(** a fit with one signal strength s and nuisances a, b *)
Local Open Scope R_scope.
Definition rp : list string := ["s"; "a"; "b"]%string.
Definition fit1 : list item :=
  [Prefit [1; 0; 0] [4; 1; 1]; Postfit [2; 3; 4] [9; 16; 25]; Trad [[5; 6; 7]] ["stat"; "syst"]%string [[8; 9]];
   NonProf ["b"; "a"]%string [[[10; 11; 12]; [13; 14; 15]]; [[20; 21; 22]; [23; 24; 25]]] ["g"]%string [[[1; 2; 3]; [4; 5; 6]]]].
Definition stored1 : dict hist := match store_all rp 1 1 [] fit1 [] with Ok d => d | Raise _ => [] end.
Local Close Scope R_scope.
Lemma stored1_ok : store_all rp 1 1 [] fit1 [] = Ok stored1. Proof. reflexivity. Qed.
Lemma fit1_one : fit_items fit1. Proof. unfold fit_items, fit1, kind. cbn. repeat constructor; cbn; intuition discriminate. Qed.
Lemma rp_distinct : NoDup rp. Proof. repeat constructor; cbn; intuition discriminate. Qed.
Example C85_impacts_example : read_impacts stored1 "s" false "traditional" true false = Ok (A1 [5; 6; 7; sqrt 9]%R, ["s"; "a"; "b"; "Total"]).
Proof.
  refine (C85_total rp 1 1 [] fit1 stored1 stored1_ok fit1_one rp_distinct _ "traditional" false [[5; 6; 7]]%R rp "s" 0 0 [2; 3; 4]%R [9; 16; 25]%R (or_intror (or_intror (or_introl eq_refl))) eq_refl _ _ eq_refl (or_intror (or_introl eq_refl)) eq_refl);
    repeat constructor; cbn; tauto.
Qed.
Example C85_print_example : exists t, table (fun x => x) true ["stat"; "syst"; "Total"] [8; 9; sqrt 9]%R t /\
  print_parm (fun x => x) stored1 "traditional" false false true None 10 "s" = Ok (map (fun l => (fst l, P1 (snd l * (1 * 10))%R)) t).
Proof.
  refine (C85_print rp 1 1 [] fit1 stored1 stored1_ok fit1_one rp_distinct (fun x => x) _ "traditional" [[8; 9]]%R ["stat"; "syst"] "s" 0 0 [2; 3; 4]%R [9; 16; 25]%R false true 10%R (or_intror (or_intror (or_introl eq_refl))) eq_refl _ _ eq_refl eq_refl (or_intror (or_introl eq_refl)) eq_refl);
    repeat constructor; cbn; tauto.
Qed.
Example C85_asym_example : read_impacts stored1 "a" false "nonprofiled" false true = Ok (A2 [[11; 14]; [21; 24]]%R, ["b"; "a"]).
Proof. reflexivity. Qed.
Example C85_print_one_example : print_parm (fun x => x) stored1 "traditional" false true false (Some "b") 10 "s" = Ok [("b", P1 (7 * (1 * 10))%R)].
Proof. reflexivity. Qed.
Example C85_pulls_example search : read_impacts_pulls search stored1 "s" false "traditional" false false =
  Ok (([2; 3; 4], [1; 0; 0], A1 [sqrt 9; sqrt 16; sqrt 25], A1 [sqrt 4; sqrt 1; sqrt 1]), (A1 [5; 6; 7], rp))%R.
Proof. reflexivity. Qed.

(** ** refuted *)
(** asymmetric impacts of a fit cannot be printed *)
Definition fit2 : list item := [Postfit [2; 3; 4]%R [9; 16; 25]%R; GlobAsym ["a"] [[[1; 2; 3]; [4; 5; 6]]]%R [] []].
Definition stored2 : dict hist := match store_all rp 1 1 [] fit2 [] with Ok d => d | Raise _ => [] end.
Theorem C85_asym_refuted : exists parms is d, store_all parms 1 1 [] is [] = Ok d /\ fit_items is /\
  (exists i, read_impacts d "s" false "global" false true = Ok (i, ["a"])) /\
  (exists v, read_impacts d "s" false "global" true true = Ok (A1 v, ["a"; "Total"]) /\ List.length v = 3) /\
  forall rnd sort nuisance scale, exists e, print_parm rnd d "global" true true sort nuisance scale "s" = Raise e.
Proof.
  assert (O : fit_items fit2) by (unfold fit_items, fit2, kind; cbn; repeat constructor; cbn; intuition discriminate).
  exists rp, fit2, stored2. split; [reflexivity|]. split; [exact O|]. split; [eexists; reflexivity|]. split; [eexists; split; reflexivity|].
  intros. refine (C85_asym_fails rp 1 1 [] fit2 stored2 eq_refl O rp_distinct rnd _ "global" _ _ "s" 0 _ _ true sort nuisance scale (or_intror (or_introl eq_refl)) eq_refl _ _ eq_refl (or_introl eq_refl)); [discriminate|repeat constructor].
Qed.
(** sorting is by signed value: a large negative impact comes before a small positive one and far from the large positive ones *)
Theorem C85_sort_refuted : exists labels vals t, print_impacts (fun x => x) false true None 1 (A1 vals) labels = Ok (map (fun l => (fst l, P1 (snd l * 1)%R)) t) /\
  exists a b, t = [a; b] /\ (Rabs (snd a) > Rabs (snd b))%R.
Proof.
  exists ["a"; "b"], [1; -3]%R. destruct (print_all1 (fun x => x) true 1%R ["a"; "b"] [1; -3]%R eq_refl) as (t & (P & S) & E). exists t. split; [exact E|].
  cbn [combine] in P. pose proof (Permutation_length P) as L. destruct t as [|a [|b [|]]]; cbn in L; try discriminate. exists a, b. split; [reflexivity|].
  apply Permutation_sym, Permutation_length_2_inv in P. inversion S as [|? ? S' F]; subst. inversion F as [|? ? LE _]; subst.
  destruct P as [Q|Q]; injection Q as -> ->; cbn [snd] in *; [lra|]. unfold Rabs. repeat destruct (Rcase_abs _); lra.
Qed.
(** Gaussian global impacts on observables are read from the entry of the global ones *)
Theorem C85_gaussian_refuted : exists k, bin_key "gaussian_global" true = Ok k /\ k <> result_name false false false Gauss /\ k = result_name false false false Impacts.
Proof. eexists. split; [reflexivity|]. split; [discriminate|reflexivity]. Qed.
(** frozen parameters in another order than in the file: the pulls are those of other parameters *)
Theorem C85_frozen_order_refuted : exists parms is d x v i names pulls, store_all parms 1 1 [] is [] = Ok d /\ fit_items is /\ In (Postfit x v) is /\
  (forall search, exists x0 c c0, read_impacts_pulls search d "s" false "nonprofiled" false true = Ok ((pulls, x0, c, c0), (i, names))) /\
  names = ["b"; "a"] /\ parms = ["s"; "a"; "b"] /\ x = [2; 3; 4]%R /\ pulls = [3; 4]%R.
Proof.
  exists rp, fit1, stored1. do 5 eexists. split; [reflexivity|]. split; [exact fit1_one|]. split; [right; left; reflexivity|].
  split; [intros; do 3 eexists; reflexivity|]. repeat split; reflexivity.
Qed.
(** sources that are priors of model parameters come last: same number of names, other order *)
Theorem C85_prior_refuted : exists parms is d x v i names pulls, store_all parms 1 1 [] is [] = Ok d /\ fit_items is /\ In (Postfit x v) is /\
  (forall search, exists x0 c c0, read_impacts_pulls search d "s" false "global" false true = Ok ((pulls, x0, c, c0), (i, names))) /\
  names = ["a"; "s_prior"] /\ parms = ["s"; "a"] /\ x = [2; 3]%R /\ pulls = [2; 3]%R.
Proof.
  set (is := [Prefit [1; 0] [4; 1]; Postfit [2; 3] [9; 16]; GlobAsym ["a"; "s_prior"]%string [[[1; 2]; [3; 4]]; [[5; 6]; [7; 8]]] [] []]%R).
  exists ["s"; "a"], is. do 6 eexists. split; [reflexivity|]. split; [unfold fit_items, is, kind; cbn; repeat constructor; cbn; intuition discriminate|]. split; [right; left; reflexivity|].
  split; [intros; do 3 eexists; reflexivity|]. repeat split; reflexivity.
Qed.

(** ** C86 *)
Section C86.
  Variables (search : string -> string -> bool) (rnd : R -> R) (parms : list string) (npoi nparams : nat) (noi : list nat) (is : list item) (d : dict hist).
  Hypothesis st : store_all parms npoi nparams noi is [] = Ok d.
  Hypothesis one : fit_items is.
  Variables (x v x0 v0 : list R).
  Hypothesis post : In (Postfit x v) is.
  Hypothesis pre : In (Prefit x0 v0) is.
  (** every wanted parameter is printed once with its own values, in the requested order *)
  Theorem C86_printed keep exclude (no_prefit reverse : bool) sort : exists lines t,
    (forall a, In a lines <-> In a (plines parms x v x0 v0) /\ wanted search keep exclude (l_label a)) /\ Permutation t lines /\
    (NoDup parms -> NoDup (map l_label t)) /\
    match sort with None => t = lines | Some s => StronglySorted (before s) (if reverse then rev t else t) end /\
    print_pulls search rnd d keep exclude false no_prefit reverse sort = Ok (map (line rnd no_prefit) t).
  Proof.
    destruct (pulls_printed search rnd parms npoi nparams noi is d st one keep exclude no_prefit reverse sort x v x0 v0 post pre) as (t & P & S & E).
    exists (chosen_lines search parms keep exclude x v x0 v0), t. split; [|split; [exact P|split; [|split; [exact S|exact E]]]].
    - intros a. unfold chosen_lines. rewrite filter_In, wantb_ok. tauto.
    - intros ND. eapply Permutation_NoDup; [apply Permutation_map; apply Permutation_sym; exact P|].
      assert (LB : map l_label (plines parms x v x0 v0) = parms). { unfold plines. rewrite map_map. cbn [l_label]. apply map_nth_seq. }
      rewrite <- LB in ND. unfold chosen_lines. revert ND. generalize (plines parms x v x0 v0). clear. induction l as [|a l IH]; intros ND; [constructor|]. cbn [map] in ND. inversion ND as [|? ? N ND']; subst. cbn [filter].
      destruct (wantb _ _ _ _); [|auto]. cbn [map]. constructor; [|auto]. intros I. apply N. apply in_map_iff in I. destruct I as (b & <- & I). apply filter_In in I. apply in_map. tauto.
  Qed.
  (** asymmetric constraints are never found in the result of a fit *)
  Theorem C86_asym_missing (prefit : bool) keep exclude : pulls_and_constraints search d prefit true keep exclude = Raise KeyError.
  Proof. destruct prefit; [eapply (asym_missing search parms npoi nparams noi is d st one true x0 v0) | eapply (asym_missing search parms npoi nparams noi is d st one false x v)]; auto. Qed.
End C86.
Definition has (p l : string) : bool := String.eqb p l.
Example C86_example : print_pulls has (fun x => x) stored1 (Some ["a"; "b"]) (Some ["b"]) false false false None = Ok [mkRow "a" 3 (sqrt 16) None (Some (0, sqrt 1))]%R.
Proof. reflexivity. Qed.
Example C86_all_example : print_pulls has (fun x => x) stored1 None None false true false None = Ok [mkRow "s" 2 (sqrt 9) None None; mkRow "a" 3 (sqrt 16) None None; mkRow "b" 4 (sqrt 25) None None]%R.
Proof. reflexivity. Qed.
Example C86_label_example : print_pulls has (fun x => x) stored1 None None false true true (Some ByLabel) = Ok [mkRow "s" 2 (sqrt 9) None None; mkRow "b" 4 (sqrt 25) None None; mkRow "a" 3 (sqrt 16) None None]%R.
Proof. reflexivity. Qed.

(** the fit stores the contours under another name than is read *)
Theorem C86_contours_refuted : exists parms is d, store_all parms 1 1 [] is [] = Ok d /\ fit_items is /\ (exists n ls c, In (Contours n ls c) is) /\
  forall search rnd keep exclude no_prefit reverse sort, print_pulls search rnd d keep exclude true no_prefit reverse sort = Raise KeyError.
Proof.
  set (is := [Prefit [1; 0] [4; 1]; Postfit [2; 3] [9; 16]; Contours ["s"; "a"]%string ["1.0"]%string [[[[1; 2]; [3; 4]]]; [[[5; 6]; [7; 8]]]]]%R).
  assert (O : fit_items is) by (unfold fit_items, is, kind; cbn; repeat constructor; cbn; intuition discriminate).
  exists ["s"; "a"], is. eexists. split; [reflexivity|]. split; [exact O|]. split; [do 3 eexists; right; right; left; reflexivity|].
  intros. unfold print_pulls.
  rewrite (pulls_read search ["s"; "a"] 1 1 [] is _ eq_refl O false [2; 3]%R [9; 16]%R) by (right; left; reflexivity).
  rewrite (pulls_read search ["s"; "a"] 1 1 [] is _ eq_refl O true [1; 0]%R [4; 1]%R) by (left; reflexivity). cbn [rbind].
  rewrite (C86_asym_missing search ["s"; "a"] 1 1 [] is _ eq_refl O [2; 3]%R [9; 16]%R [1; 0]%R [4; 1]%R) by (cbn; auto). reflexivity.
Qed.
(** with the name that is read: the pair is (down, up) but printed as (up, down); contours in another order than the parameters are given to the wrong ones, and contours of some parameters cannot be read *)
Definition scans (names : list string) (parms : list string) (c : list (list (list (list R)))) (d : dict hist) : dict hist :=
  match add_contours parms names ["1.0"] c [] with Ok [(_, h)] => dset "contour_scans" h d | _ => d end.
Theorem C86_contour_order_refuted : exists d, forall search rnd,
  pulls_and_constraints search d false true None None = Ok (["s"; "a"], [2; 3], A2 [[1; 3]; [6; 8]])%R /\
  (forall s, dget "contour_scans" d = Some s -> exists sub, select "confidence_level" "1.0" s = Ok sub /\ h_axes sub = [("impacts", ["a"; "s"]); ("downUpVar", ["down"; "up"]); ("parms", ["s"; "a"])] /\ h_val sub [0; 1; 1] = 4%R /\ h_val sub [0; 1; 0] = 3%R) /\
  print_pulls search rnd d None None true true false None = Ok [mkRow "s" (rnd 2) (rnd (sqrt 9)) (Some (rnd 1, rnd 3)) None; mkRow "a" (rnd 3) (rnd (sqrt 16)) (Some (rnd 6, rnd 8)) None]%R.
Proof.
  exists (scans ["a"; "s"] ["s"; "a"] [[[[1; 2]; [3; 4]]]; [[[5; 6]; [7; 8]]]]%R (match store_all ["s"; "a"] 1 1 [] [Prefit [1; 0] [4; 1]; Postfit [2; 3] [9; 16]]%R [] with Ok d => d | Raise _ => [] end)).
  intros. split; [reflexivity|]. split; [|reflexivity]. intros s E. cbn in E. injection E as <-. eexists. split; [reflexivity|]. repeat split.
Qed.
Theorem C86_contour_subset_refuted : exists d, forall search, pulls_and_constraints search d false true None None = Raise ValueError /\
  exists s, dget "contour_scans" d = Some s /\ axis "impacts" s = Ok (0, ["a"]).
Proof.
  exists (scans ["a"] ["s"; "a"] [[[[1; 2]; [3; 4]]]]%R (match store_all ["s"; "a"] 1 1 [] [Prefit [1; 0] [4; 1]; Postfit [2; 3] [9; 16]]%R [] with Ok d => d | Raise _ => [] end)).
  intros. split; [reflexivity|]. eexists. split; reflexivity.
Qed.
(** prefit constraints read with asymmetric ones are the postfit ones *)
Theorem C86_prefit_refuted : exists d, forall search, exists p0 c, pulls_and_constraints search d true true None None = Ok (["s"; "a"], p0, c) /\
  (exists p, pulls_and_constraints search d false true None None = Ok (["s"; "a"], p, c)) /\ pulls_and_constraints search d true false None None = Ok (["s"; "a"], p0, A1 [sqrt 4; sqrt 1]%R).
Proof.
  exists (scans ["s"; "a"] ["s"; "a"] [[[[1; 2]; [3; 4]]]; [[[5; 6]; [7; 8]]]]%R (match store_all ["s"; "a"] 1 1 [] [Prefit [1; 0] [4; 1]; Postfit [2; 3] [9; 16]]%R [] with Ok d => d | Raise _ => [] end)).
  intros. do 2 eexists. split; [reflexivity|]. split; [eexists; reflexivity|reflexivity].
Qed.

(** ** C87 *)
Theorem C87_submatrix chans cov cs : NoDup (map fst chans) -> List.length cov = sumn (map (fun c => List.length (snd c)) chans) -> cs <> [] ->
  cs = filter (fun c => smem c cs) (map fst chans) ->
  let selected := filter (fun c => smem (fst c) cs) chans in
  exists sub, postfit_hist_cov chans cov (Some cs) = Ok (map snd selected, sub, cs) /\
    List.length sub = sumn (map (fun c => List.length (snd c)) selected) /\ rect (List.length sub) sub /\
    forall c h i c' h' i', In (c, h) chans -> In c cs -> i < List.length h -> In (c', h') chans -> In c' cs -> i' < List.length h' ->
      nth (position selected c' i') (nth (position selected c i) sub []) 0%R = nth (position chans c' i') (nth (position chans c i) cov []) 0%R.
Proof. intros. apply hist_cov; auto. Qed.
Theorem C87_order chans cov cs r : postfit_hist_cov chans cov (Some cs) = Ok r -> cs = filter (fun c => smem c cs) (map fst chans) /\ snd r = cs.
Proof. apply hist_cov_order. Qed.
Theorem C87_all chans cov : postfit_hist_cov chans cov None = Ok (map snd chans, cov, map fst chans). Proof. reflexivity. Qed.
Example C87_example : postfit_hist_cov [("a", [1]); ("b", [2; 3]); ("c", [4])]%R [[1; 2; 3; 4]; [5; 6; 7; 8]; [9; 10; 11; 12]; [13; 14; 15; 16]]%R (Some ["a"; "c"]) =
  Ok ([[1]; [4]]%R, [[1; 4]; [13; 16]]%R, ["a"; "c"]).
Proof. reflexivity. Qed.
(** result groups: the requested one if it is there; by default the data fit, then the asimov fit *)
Theorem C87_requested r keys k : result_key (Some r) keys = Ok k -> k = ("results_" ++ r)%string /\ In k keys.
Proof. unfold result_key. cbv zeta. destruct (smem _ keys) eqn:E; [|discriminate]. intros [= <-]. split; [reflexivity|]. apply smem_In. auto. Qed.
Theorem C87_found r keys : In ("results_" ++ r)%string keys -> result_key (Some r) keys = Ok ("results_" ++ r)%string.
Proof. intros I. unfold result_key. cbv zeta. rewrite (proj2 (smem_In _ _) I). reflexivity. Qed.
Theorem C87_default keys : (In "results" keys -> result_key None keys = Ok "results") /\ (~ In "results" keys -> In "results_asimov" keys -> result_key None keys = Ok "results_asimov").
Proof.
  unfold result_key. cbv zeta. split.
  - intros I. rewrite (proj2 (smem_In _ _) I). cbv iota. rewrite (proj2 (smem_In _ _) I). reflexivity.
  - intros N I. destruct (smem "results" keys) eqn:E; [apply smem_In in E; contradiction|]. cbv iota. rewrite (proj2 (smem_In _ _) I). reflexivity.
Qed.
Theorem C87_missing name keys k : result_key name keys = Ok k -> In k keys.
Proof. unfold result_key. cbv zeta. destruct (smem _ keys) eqn:E; [|discriminate]. intros [= <-]. apply smem_In. auto. Qed.
Example C87_key_example : result_key None ["meta"; "results_asimov"; "results"] = Ok "results" /\ result_key (Some "toy1") ["results"; "results_toy1"] = Ok "results_toy1". Proof. split; reflexivity. Qed.
(** a file with results of toys only has no default *)
Theorem C87_toys_refuted : exists keys, In "results_toy1" keys /\ result_key None keys = Raise ValueError.
Proof. exists ["meta"; "results_toy1"]. split; [right; left|]; reflexivity. Qed.
(** with flow bins the sizes are those without flow bins: the covariance of b is that of a bin of a *)
Theorem C87_flow_refuted : exists (cs : list wchan) (chans : list (string * list R)) cov,
  map fst chans = map wc_name cs /\ map (fun c => List.length (snd c)) chans = map obs_bins cs /\ List.length cov = sumn (map chan_bins cs) /\
  postfit_hist_cov chans cov (Some ["b"]) = Ok ([[7]]%R, [[2]]%R, ["b"]) /\ chan_bins (nth 0 cs (mkWc "" [] false false [])) = 3 /\ nth 3 (nth 3 cov []) 0%R = 4%R.
Proof.
  exists [mkWc "a" [mkWa "x" 1 3 false] false true []; mkWc "b" [mkWa "x" 1 1 false] false false []], [("a", [6]%R); ("b", [7]%R)], [[1; 0; 0; 0]; [0; 2; 0; 0]; [0; 0; 3; 0]; [0; 0; 0; 4]]%R.
  repeat split.
Qed.
(** no channels *)
Theorem C87_empty_refuted : exists chans cov, postfit_hist_cov chans cov (Some []) = Raise ValueError.
Proof. exists [("a", [6]%R)], [[1]]%R. reflexivity. Qed.
(** the two printed numbers of an asymmetric entry are its largest and its smallest value *)
Theorem C85_largest (l : list R) : l <> [] -> In (maxl l) l /\ (forall x, In x l -> x <= maxl l)%R /\ In (minl l) l /\ (forall x, In x l -> minl l <= x)%R.
Proof.
  destruct l as [|a r]; [congruence|]. intros _. cbn [maxl minl].
  assert (M : forall r a, In (fold_left Rmax r a) (a :: r) /\ forall x, In x (a :: r) -> (x <= fold_left Rmax r a)%R).
  { clear. induction r as [|b r IH]; intros a; cbn [fold_left]; [split; [left; auto|intros x [->|[]]; lra]|]. destruct (IH (Rmax a b)) as (I & L). split.
    - destruct I as [E|I]; [rewrite <- E; unfold Rmax; destruct (Rle_dec a b); cbn; auto|right; right; auto].
    - intros x [->|[->|I2]]; [eapply Rle_trans; [apply (Rmax_l x b)|apply L; left; auto]|eapply Rle_trans; [apply (Rmax_r a x)|apply L; left; auto]|apply L; right; auto]. }
  assert (N : forall r a, In (fold_left Rmin r a) (a :: r) /\ forall x, In x (a :: r) -> (fold_left Rmin r a <= x)%R).
  { clear. induction r as [|b r IH]; intros a; cbn [fold_left]; [split; [left; auto|intros x [->|[]]; lra]|]. destruct (IH (Rmin a b)) as (I & L). split.
    - destruct I as [E|I]; [rewrite <- E; unfold Rmin; destruct (Rle_dec a b); cbn; auto|right; right; auto].
    - intros x [->|[->|I2]]; [eapply Rle_trans; [apply L; left; auto|apply (Rmin_l x b)]|eapply Rle_trans; [apply L; left; auto|apply (Rmin_r a x)]|apply L; right; auto]. }
  destruct (M r a), (N r a). auto.
Qed.
Print Assumptions C85_largest.
Print Assumptions C85_impacts.
Print Assumptions C85_total.
Print Assumptions C85_rows.
Print Assumptions C85_asym.
Print Assumptions C85_print.
Print Assumptions C85_print_one.
Print Assumptions C85_print_unknown.
Print Assumptions C85_print_nonprofiled.
Print Assumptions C85_asym_fails.
Print Assumptions C85_pulls.
Print Assumptions C85_pulls_asym.
Print Assumptions C85_bin.
Print Assumptions C85_bin_key.
Print Assumptions C85_asym_refuted.
Print Assumptions C85_sort_refuted.
Print Assumptions C85_gaussian_refuted.
Print Assumptions C85_frozen_order_refuted.
Print Assumptions C85_prior_refuted.
Print Assumptions C86_printed.
Print Assumptions C86_asym_missing.
Print Assumptions C86_contours_refuted.
Print Assumptions C86_contour_order_refuted.
Print Assumptions C86_contour_subset_refuted.
Print Assumptions C86_prefit_refuted.
Print Assumptions C87_submatrix.
Print Assumptions C87_order.
Print Assumptions C87_all.
Print Assumptions C87_requested.
Print Assumptions C87_found.
Print Assumptions C87_default.
Print Assumptions C87_missing.
Print Assumptions C87_toys_refuted.
Print Assumptions C87_flow_refuted.
Print Assumptions C87_empty_refuted.
