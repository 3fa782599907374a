(** C112: histograms of a datacard are found in the ROOT files *)
From Coq Require Import List Arith Bool String Ascii Lia.
From Verif Require Import PyList PyDict Card_Model Rfile_Model Rfile_Spec Rfile_Proof.
Import ListNotations.
Local Open Scope string_scope.
Local Open Scope list_scope.

(** uproot finds exactly the one-dimensional histograms at the path that are at least as deep as the deepest nominal pattern of the
    card, or in a directory without further directories *)
Theorem C112_uproot : forall (H : Type) m (l : rdir H) ps h, ps <> [] -> unique (List.length ps) l ->
  up_find m l ps = Ok (Some h) <-> located l ps (RObj TH1 h) /\ (m < List.length ps \/ flat l ps).
Proof. intros H. exact up_find_spec. Qed.
(** ROOT finds exactly the histograms at the path *)
Theorem C112_root : forall (H : Type) (l : rdir H) ps h, unique (List.length ps) l ->
  root_find l ps = Some h <-> located l ps (RObj TH1 h) \/ located l ps (RObj THn h).
Proof. intros H. exact root_find_spec. Qed.
(** the two readers give the same result for every histogram name of a card made from a pattern that is deep enough, unless there is a
    histogram with more dimensions, or an object that is not a directory on the way *)
Theorem C112_readers_agree : forall (H : Type) shapes s mass p b sys (l : rdir H) demand,
  no_slash mass -> no_slash p -> no_slash b -> (forall y, sys = Some y -> no_slash y) ->
  max_depth shapes <= count_slash (pattern_of s sys) ->
  let name := hist_name mass s p b sys in let ps := split_at_slash name in
  unique (List.length ps) l -> open_way l ps -> (forall h, ~ located l ps (RObj THn h)) ->
  up_histogram (max_depth shapes) l name demand = root_histogram l name demand.
Proof.
  intros H shapes s mass p b sys l demand Nm Np Nb Ns D name ps U O N.
  assert (L : max_depth shapes < List.length ps) by (unfold ps, name; rewrite split_len, name_depth by auto; lia).
  unfold up_histogram, root_histogram. fold ps.
  destruct (up_find_total (max_depth shapes) l ps U O L) as [r R]. rewrite R. cbn [rbind]. f_equal.
  assert (NE : ps <> []) by apply split_nonempty.
  destruct r as [h|].
  - apply (C112_uproot H) in R; auto. symmetry. apply (C112_root H); auto. left. tauto.
  - destruct (root_find l ps) as [h|] eqn:F; auto. exfalso. apply (C112_root H) in F; auto. destruct F as [F|F]; [|apply (N h F)].
    assert (X : up_find (max_depth shapes) l ps = Ok (Some h)) by (apply (C112_uproot H); auto). congruence.
Qed.
(** which holds for the nominal histograms of the shapes with the deepest pattern *)
Theorem C112_depth : forall shapes s, In s shapes -> count_slash (sh_pat s) <= max_depth shapes /\
  ((forall s', In s' shapes -> count_slash (sh_pat s') <= count_slash (sh_pat s)) -> count_slash (sh_pat s) = max_depth shapes).
Proof.
  intros shapes s I. assert (G : count_slash (sh_pat s) <= max_depth shapes) by (apply max_depth_ge; auto). split; auto.
  intros A. apply Nat.le_antisymm; auto. unfold max_depth. clear G I.
  assert (B : forall l m, m <= count_slash (sh_pat s) -> (forall s', In s' l -> count_slash (sh_pat s') <= count_slash (sh_pat s)) ->
    fold_left (fun m s => Nat.max m (count_slash (sh_pat s))) l m <= count_slash (sh_pat s)).
  { induction l as [|a l IH]; intros m Hm Al; simpl; auto. apply IH. { apply Nat.max_lub; auto. apply Al. simpl. auto. }
    intros s' I. apply Al. simpl. auto. }
  apply B; auto. lia.
Qed.
(** every shape is looked up in the file named in the card, relative to the directory of the card *)
Theorem C112_files : forall (H : Type) (disk : string -> option (rdir H)) dir m raw ps, isabs dir = true ->
  Forall2 (fun r p => shape_path disk dir r = Ok p) raw ps ->
  exists c, load_files disk dir m [] ps = Ok c /\
    forall r p, In (r, p) (combine raw ps) -> exists l, disk (resolve dir r) = Some l /\ opened p c = Ok (load m l).
Proof. intros H disk dir m raw ps A. apply files_spec; auto. Qed.

(** *** concrete cases *)
Definition ex_file : rdir string :=
  [("ch1", RDir [("bkg", RObj TH1 "b1"); ("bkg_jesUp", RObj TH1 "b1u"); ("note", RObj Other "text")]);
   ("ch2", RDir [("bkg", RObj TH1 "b2"); ("map", RObj THn "m2")]); ("bkg", RObj TH1 "b3")].
Definition ex_deep : shape := mkShape "*" "*" "f.root" "$CHANNEL/$PROCESS" (Some "$CHANNEL/$PROCESS_$SYSTEMATIC").
Definition ex_top : shape := mkShape "*" "ch3" "f.root" "$PROCESS" None.
Example C112_ex :
  max_depth [ex_deep] = 1 /\ hist_name "125" ex_deep "bkg" "ch1" (Some "jesUp") = "ch1/bkg_jesUp" /\ split_at_slash "ch1/bkg_jesUp" = ["ch1"; "bkg_jesUp"] /\
  up_histogram 1 ex_file "ch1/bkg_jesUp" true = Ok (Some "b1u") /\ up_histogram 1 ex_file "ch2/bkg" true = Ok (Some "b2") /\
  up_histogram 1 ex_file "ch2/sig" true = Raise ValueError /\ up_histogram 1 ex_file "ch3/sig" false = Ok None /\
  up_histogram 1 ex_file "ch1/note" false = Ok None /\ up_histogram 1 ex_file "ch1/bkg/x" false = Raise GenericException /\
  up_histogram 0 ex_file "bkg" true = Ok (Some "b3") /\ root_histogram ex_file "bkg" true = Ok (Some "b3") /\
  root_histogram ex_file "ch1" false = Ok None /\ root_histogram ex_file "ch1/note" true = Raise ValueError.
Proof. repeat split. Qed.
Lemma ex_unique n : unique n ex_file.
Proof.
  assert (A : forall k (l : rdir string), NoDup (map fst l) -> (forall p l', ~ In (p, RDir l') l) -> unique k l).
  { intros k l N E. destruct k; split; auto. intros p l' I. exfalso. eapply E; eauto. }
  destruct n; (split; [repeat constructor; simpl; intuition discriminate|]); auto.
  intros p l' I. simpl in I. destruct I as [I|[I|[I|[]]]]; try discriminate; injection I as <- <-; apply A.
  - repeat constructor; simpl; intuition discriminate.
  - intros q l2 J. simpl in J. intuition discriminate.
  - repeat constructor; simpl; intuition discriminate.
  - intros q l2 J. simpl in J. intuition discriminate.
Qed.
Example C112_ex_deeper : exists l : rdir nat, up_histogram 2 l "a/b/h" true = Ok (Some 7) /\ up_histogram 2 l "c/k" true = Ok (Some 8) /\
  up_histogram 2 l "a/h" false = Ok None /\ root_histogram l "a/h" false = Ok (Some 9).
Proof. exists [("a", RDir [("b", RDir [("h", RObj TH1 7)]); ("h", RObj TH1 9)]); ("c", RDir [("k", RObj TH1 8)])]. repeat split. Qed.
Example C112_ex_files : let disk p := if String.eqb p "/card/f.root" then Some ex_file else None in
  shape_path disk "/card" "f.root" = Ok "/card/f.root" /\ shape_path disk "/card" "/card/f.root" = Ok "/card/f.root" /\
  shape_path disk "/card" "g.root" = Raise GenericException /\
  (c <- load_files disk "/card" 1 [] ["/card/f.root"; "/card/f.root"] ;; Ok (List.length c)) = Ok 1 /\
  (c <- load_files disk "/card" 1 [] ["f.root"] ;; opened "f.root" c) = Raise KeyError.
Proof. repeat split. Qed.

(** a histogram at the top of a file that also has directories is not found by uproot if another shape of the card has a deeper pattern,
    although it is there and ROOT finds it; a variation that is not demanded is then silently taken to be missing *)
Theorem C112_depth_refuted : exists shapes s p b (l : rdir string) h, In s shapes /\ (forall n, unique n l) /\
  let name := hist_name "125" s p b None in
  located l (split_at_slash name) (RObj TH1 h) /\ root_histogram l name true = Ok (Some h) /\
  up_histogram (max_depth shapes) l name true = Raise ValueError /\ up_histogram (max_depth shapes) l name false = Ok None.
Proof.
  exists [ex_deep; ex_top], ex_top, "bkg", "ch3", ex_file, "b3". split; [simpl; auto|]. split; [apply ex_unique|].
  repeat split. constructor. simpl. auto.
Qed.
(** a histogram with two dimensions is read with ROOT and rejected with uproot *)
Theorem C112_dimensions_refuted : exists (l : rdir string) name, (forall n, unique n l) /\
  root_histogram l name true = Ok (Some "m2") /\ up_histogram 1 l name true = Raise ValueError.
Proof. exists ex_file, "ch2/map". split; [apply ex_unique|]. repeat split. Qed.
(** a name that is a directory is an unexpected exception for uproot, also for variations that are not demanded *)
Theorem C112_directory_refuted : exists (l : rdir nat) name,
  root_histogram l name false = Ok None /\ up_histogram 2 l name false = Raise GenericException.
Proof. exists [("a", RDir [("b", RDir [("h", RObj TH1 7)])])], "a". repeat split. Qed.

Print Assumptions C112_uproot.
Print Assumptions C112_root.
Print Assumptions C112_readers_agree.
Print Assumptions C112_depth.
Print Assumptions C112_files.
Print Assumptions C112_depth_refuted.
Print Assumptions C112_dimensions_refuted.
Print Assumptions C112_directory_refuted.
