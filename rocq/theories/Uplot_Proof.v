(** Proofs about the plots of uncertainties. *)
From Coq Require Import Reals List Arith Bool String Ascii Lia Lra.
From Verif Require Session_Proof.
From Verif Require Cplot_Model Cplot_Proof Iplot_Spec.
From Verif Require Import RBase PyList ListUtil Shape Hplot_Model Hplot_Spec Hplot_Proof Iplot_Model Iplot_Proof Cplot_Spec Uplot_Model Uplot_Spec.
Import ListNotations.
Local Open Scope nat_scope.

Definition layout (a : args) (axes : list (string * nat)) : list (bool * nat) := map (fun x => (mem (fst x) (a_selaxes a), snd x)) axes.
Definition others (a : args) (axes : list (string * nat)) := filter (fun x => negb (selected (a_selaxes a) x)) axes.
Definition as_cov (a : args) : Cplot_Model.args := Cplot_Model.mkArgs false [] None false (a_selaxes a) false EmptyString false.
Lemma slice_weave a axes b : valid (filter (selected (a_selaxes a)) axes) b ->
  filter (in_slice (map fst (layout a axes)) b) (cells (map snd (layout a axes))) = map (weave (a_selaxes a) axes b) (bins_of (others a axes)).
Proof.
  intros V. assert (H := Cplot_Proof.in_slice_weave (as_cov a) axes b V). change (Cplot_Proof.layout (as_cov a) axes) with (layout a axes) in H. change (Cplot_Model.others (as_cov a) axes) with (others a axes) in H.
  rewrite Cplot_Proof.cells_idx, Cplot_Proof.bins_idx. replace (map snd (layout a axes)) with (map snd axes) by (unfold layout; rewrite map_map; reflexivity). exact H.
Qed.
Lemma layout_sel a axes : slice_list (layout a axes) = bins_of (filter (selected (a_selaxes a)) axes).
Proof. unfold slice_list. rewrite Cplot_Proof.cells_idx, Cplot_Proof.bins_idx. f_equal. apply (Cplot_Proof.layout_sel (as_cov a)). Qed.
(** reversed axes *)
Lemma weave_app sel A B bA bB iA iB : List.length bA = List.length (filter (selected sel) A) -> List.length iA = List.length (unsel sel A) ->
  weave sel (A ++ B) (bA ++ bB) (iA ++ iB) = (weave sel A bA iA ++ weave sel B bB iB)%list.
Proof.
  unfold unsel. revert bA iA. induction A as [|x A IH]; intros bA iA LB LI; cbn in *.
  - destruct bA, iA; try discriminate. reflexivity.
  - destruct (selected sel x); cbn in *.
    + destruct bA as [|j bA]; [discriminate|]. cbn. rewrite IH; cbn in *; [reflexivity|lia|lia].
    + destruct iA as [|j iA]; [discriminate|]. cbn. rewrite IH; cbn in *; [reflexivity|lia|lia].
Qed.
Lemma filter_rev' {A} (p : A -> bool) l : filter p (rev l) = rev (filter p l).
Proof. induction l as [|x l IH]; [reflexivity|]. cbn [rev filter]. rewrite filter_app, IH. cbn. destruct (p x); [reflexivity|rewrite app_nil_r; reflexivity]. Qed.
Lemma weave_rev sel axes b i : List.length b = List.length (filter (selected sel) axes) -> List.length i = List.length (unsel sel axes) ->
  rev (weave sel (rev axes) (rev b) (rev i)) = weave sel axes b i.
Proof.
  unfold unsel. revert b i. induction axes as [|x axes IH]; intros b i LB LI; cbn in *; [reflexivity|]. destruct (selected sel x) eqn:S; cbn in *.
  - destruct b as [|j b]; [discriminate|]. cbn [rev]. replace (rev i) with (rev i ++ [])%list by apply app_nil_r. rewrite weave_app.
    + cbn [weave]. rewrite S. rewrite rev_app_distr. cbn. rewrite IH; cbn in *; [reflexivity|lia|lia].
    + rewrite rev_length, filter_rev', rev_length. cbn in *; lia.
    + unfold unsel. rewrite rev_length, filter_rev', rev_length. cbn in *; lia.
  - destruct i as [|j i]; [discriminate|]. cbn [rev]. replace (rev b) with (rev b ++ [])%list by apply app_nil_r. rewrite weave_app.
    + cbn [weave]. rewrite S. rewrite rev_app_distr. cbn. rewrite IH; cbn in *; [reflexivity|lia|lia].
    + rewrite rev_length, filter_rev', rev_length. cbn in *; lia.
    + unfold unsel. rewrite rev_length, filter_rev', rev_length. cbn in *; lia.
Qed.
Lemma valid_rev axes v : valid axes v -> valid (rev axes) (rev v).
Proof.
  unfold valid. intros H. induction H as [|x y l l' L H IH]; [constructor|]. cbn [rev]. apply Forall2_app; [exact IH|constructor; [exact L|constructor]].
Qed.
Lemma plot_bins_weave a inv axes b : valid (filter (selected (a_selaxes a)) axes) b ->
  plot_bins inv (layout a axes) b = map (fun v => weave (a_selaxes a) axes b (if inv then rev v else v)) (bins_of (if inv then rev (others a axes) else others a axes)).
Proof.
  intros V. unfold plot_bins. destruct inv; [|apply slice_weave; exact V]. rewrite <- !map_rev.
  replace (rev (layout a axes)) with (layout a (rev axes)) by (unfold layout; rewrite map_rev; reflexivity).
  assert (V' : valid (filter (selected (a_selaxes a)) (rev axes)) (rev b)) by (rewrite filter_rev'; apply valid_rev; exact V).
  rewrite slice_weave by exact V'. rewrite map_map. unfold others. rewrite filter_rev'. apply map_ext_in. intros v I. apply in_bins, valid_length in I. rewrite rev_length in I.
  rewrite <- (weave_rev (a_selaxes a) axes b (rev v)); [rewrite rev_involutive; reflexivity|apply valid_length; exact V|rewrite rev_length; exact I].
Qed.
Lemma unrolled_eq inv axes f : unrolled inv axes f = map (fun v => f (if inv then rev v else v)) (bins_of (if inv then rev axes else axes)).
Proof. destruct inv; reflexivity. Qed.

(** one plot *)
Definition chosen_us (a : args) (us : list string) : list string := filter (in_group (a_grouping a)) us.
Definition inverted (a : args) (axes : list (string * nat)) : bool := a_invert a && Nat.ltb 1 (List.length axes).
Definition total_lines (a : args) (axes : list (string * nat)) (tot : list nat -> R) : list line :=
  match a_grouping a with Some g => if mem "Total" g then [mkL (a_translate a "Total") None (unrolled (inverted a axes) axes tot)] else [] | None => [] end.
Definition plot_file (a : args) (axes : list (string * nat)) (suffix : string) : string :=
  (String.concat "_" (filter (fun s => negb (String.eqb s "")) (["uncertainties"; a_postfix a] ++ map fst (if inverted a axes then rev axes else axes) ++ [suffix])%list) ++
                (if a_absolute a then "_absolute" else "") ++ (if a_prelim a then "_preliminary" else ""))%string.
Lemma make_plot_ok a axes us imp tot suf : axes <> [] -> exists p ls, make_plot a axes us imp tot suf = Ok p /\ p_lines p = (ls ++ total_lines a axes tot)%list /\ p_file p = plot_file a axes suf /\
  p_axes p = map fst (if inverted a axes then rev axes else axes) /\
  ls = map (fun ku : nat * string => mkL (a_translate a (snd ku)) (Some (Nat.modulo (fst ku) (ncolours a us))) (unrolled (inverted a axes) axes (imp (snd ku)))) (combine (seq 1 (List.length (chosen_us a us))) (chosen_us a us)).
Proof.
  intros NE. unfold make_plot. destruct axes as [|x axes]; [contradiction|]. eexists. eexists. split; [reflexivity|]. cbn [p_lines p_file p_axes]. split; [reflexivity|]. split; [reflexivity|]. split; reflexivity.
Qed.
Lemma lines_forall {A B} (f : nat * A -> B) (P : A -> B -> Prop) l s : (forall k u, In u l -> P u (f (k, u))) -> Forall2 P l (map f (combine (seq s (List.length l)) l)).
Proof.
  revert s. induction l as [|x l IH]; intros s H; [constructor|]. cbn. constructor; [apply H; left; reflexivity|apply IH; intros k u U; apply H; right; exact U].
Qed.
Lemma chosen_in a us u : In u (chosen_us a us) <-> In u us /\ match a_grouping a with None => True | Some g => In u g end.
Proof. unfold chosen_us. rewrite filter_In. unfold in_group. destruct (a_grouping a) as [g|]; [rewrite mem_in; reflexivity|]. tauto. Qed.
Lemma subseq_filter {A} (p : A -> bool) l : Iplot_Spec.subseq (filter p l) l.
Proof. induction l as [|x l IH]; [constructor|]. cbn. destruct (p x); constructor; exact IH. Qed.
Lemma subseq_trans {A} (a b c : list A) : Iplot_Spec.subseq a b -> Iplot_Spec.subseq b c -> Iplot_Spec.subseq a c.
Proof.
  intros X Y. revert a X. induction Y as [|x b c Y IH|x b c Y IH]; intros a X.
  - exact X.
  - constructor. apply IH. exact X.
  - inversion X as [|? ? ? X'|? ? ? X']; subst; constructor; apply IH; assumption.
Qed.
Lemma file_inj a axes s s' : s <> EmptyString -> s' <> EmptyString -> plot_file a axes s = plot_file a axes s' -> s = s'.
Proof.
  intros N N' E. unfold plot_file in E. apply Cplot_Proof.app_inj_r in E. set (keep := fun s : string => negb (String.eqb s "")) in *.
  assert (H : forall l x, x <> EmptyString -> filter keep (["uncertainties"; a_postfix a]%string ++ l ++ [x])%list = (filter keep (["uncertainties"; a_postfix a]%string ++ l) ++ x :: filter keep [])%list).
  { intros l x X. rewrite app_assoc, filter_app. f_equal. cbn. replace (keep x) with true; [reflexivity|]. unfold keep. destruct (String.eqb_spec x ""); [contradiction|reflexivity]. }
  rewrite !H in E by assumption. destruct (Cplot_Proof.concat_mid (filter keep (["uncertainties"; a_postfix a]%string ++ map fst (if inverted a axes then rev axes else axes))) (filter keep [])) as (pre & post & Q).
  rewrite !Q in E. apply Session_Proof.app_inj_l in E. apply Cplot_Proof.app_inj_r in E. exact E.
Qed.
Lemma quoted_impact a c imp u i : (a_absolute a = false -> c_val c i <> 0%R) -> quoted (a_absolute a) (c_val c i) (imp u i) (impact a c imp u i).
Proof. intros H. unfold quoted, impact. destruct (a_absolute a); [reflexivity|]. field. apply H. reflexivity. Qed.
Lemma quoted_total a c i : (a_absolute a = false -> c_val c i <> 0%R) -> (0 <= c_var c i)%R -> quoted (a_absolute a) (Rabs (c_val c i)) (sqrt (c_var c i)) (total a c i).
Proof.
  intros H P. unfold quoted, total. destruct (a_absolute a); [reflexivity|]. assert (N := H eq_refl).
  assert (S : (0 < c_val c i * c_val c i)%R) by nra. rewrite sqrt_div by assumption. replace (c_val c i * c_val c i)%R with (Rsqr (c_val c i)) by reflexivity. rewrite sqrt_Rsqr_abs.
  field. apply Rabs_no_R0. exact N.
Qed.
