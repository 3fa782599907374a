(** The calls of the conversion, and the workspace they lead to. *)
From Coq Require Import List Arith Bool String Ascii ZArith Lia.
From Verif Require Import PyList PyDict ListUtil Num Names_Model Writer_Model Writer_Spec Writer_Layout Writer_Meta Writer_Inv
  Writer_State Writer_Tensor Writer_Hist Writer_Denote Writer_Master Writer_Effects Pseudo_Spec Pseudo_Proof Card_Model Card_Spec Card_Parse.
From Verif Require Parse_Model.
Import ListNotations.
Local Open Scope nat_scope.
Local Open Scope string_scope.
Local Open Scope list_scope.

Section Traces.
  Context {V : Type}.
  Lemma andthen_inv (a b : trace (V := V)) ops : andthen a b = (ops, None) ->
    exists x y, a = (x, None) /\ b = (y, None) /\ ops = x ++ y.
  Proof.
    unfold andthen. destruct a as [x [e|]], b as [y f]; cbn; intros H; [discriminate|]. injection H as <- ->. eauto.
  Qed.
  Lemma each_inv {A} (f : A -> trace (V := V)) l : forall ops, each f l = (ops, None) ->
    exists oss, Forall2 (fun x o => f x = (o, None)) l oss /\ ops = List.concat oss.
  Proof.
    induction l as [|x l IH]; cbn; intros ops H.
    - injection H as <-. exists []. auto.
    - apply andthen_inv in H as (a & b & H1 & H2 & ->). destruct (IH _ H2) as (oss & F & ->). exists (a :: oss). auto.
  Qed.
  Lemma each_fun {A} (f : A -> trace (V := V)) g l ops : (forall x o, In x l -> f x = (o, None) -> o = g x) -> each f l = (ops, None) -> ops = flat_map g l.
  Proof.
    intros G H. apply each_inv in H as (oss & F & ->). induction F as [|x o l oss E F IH]; cbn; auto.
    rewrite (G x o) by (auto; left; auto). f_equal. apply IH. intros. apply G; auto. right. auto.
  Qed.
  Lemma on_ok_inv {A} (r : result A) (f : A -> trace (V := V)) ops : on_ok r f = (ops, None) -> exists a, r = Ok a /\ f a = (ops, None).
  Proof. destruct r; cbn; [eauto|discriminate]. Qed.
End Traces.

Lemma no_effect_spec e : no_effect e = true <-> nothing e.
Proof. unfold no_effect, nothing. rewrite orb_true_iff, !String.eqb_eq. tauto. Qed.

Section Convert.
  Context {V : Type} {NV : Num V}.
  Variable pyfloat : string -> option V.
  Variable exists_file : string -> bool.
  Variable files : string -> string -> option (thist V).
  Variable mass : string.
  Variable k101 : V.
  Variable symm : symmode.
  Variables (A : acard) (c : card V).
  Hypothesis W : wf_card pyfloat exists_file A.
  Hypothesis P : parsed_as pyfloat A c.

  Definition proc_of (p : string) : Prop := exists k, In k (ac_cols A) /\ co_proc k = p.

  Lemma bin_plain b : In b (chans A) -> b <> "*".
  Proof. intros H. apply (wf_cover _ _ _ W) in H as (k & K & <-). apply (wf_plain _ _ _ W k K). Qed.
  Lemma proc_plain p : p = "data_obs" \/ proc_of p -> p <> "*".
  Proof. intros [->|(k & K & <-)]; [discriminate|]. apply (wf_plain _ _ _ W k K). Qed.

  (** *** shapes *)
  Lemma kget_fold_keys {B} (s : B) ks : forall d k, kget k (fold_left (fun d k => kset k s d) ks d) = if existsb (keqb k) ks then Some s else kget k d.
  Proof.
    induction ks as [|x ks IH]; cbn; intros d k; auto. rewrite IH, kget_kset. destruct (keqb k x), (existsb (keqb k) ks); auto.
  Qed.
  Lemma shape_map_get k : kget k (shape_map c) = hd_error (rev (filter (fun s => existsb (keqb k) (shape_keys c s)) (cd_shapes c))).
  Proof.
    unfold shape_map.
    assert (G : forall l d, kget k (fold_left (fun d s => fold_left (fun d k => kset k s d) (shape_keys c s) d) l d) =
      match hd_error (rev (filter (fun s => existsb (keqb k) (shape_keys c s)) l)) with Some s => Some s | None => kget k d end).
    { induction l as [|s l IH]; cbn [fold_left filter]; intros d; auto. rewrite IH, kget_fold_keys.
      destruct (existsb (keqb k) (shape_keys c s)); cbn [rev]; auto.
      destruct (rev (filter (fun s0 : shape => existsb (keqb k) (shape_keys c s0)) l)); cbn; auto. }
    rewrite G. cbn. destruct (hd_error _); auto.
  Qed.
  Lemma existsb_prod p b l m : existsb (keqb (p, b)) (list_prod l m) = smem p l && smem b m.
  Proof.
    apply eq_true_iff_eq. rewrite andb_true_iff, !smem_In, existsb_exists. split.
    - intros ([x y] & H & E). apply keqb_spec in E. injection E as -> ->. apply in_prod_iff in H. auto.
    - intros [H1 H2]. exists (p, b). split; [apply in_prod_iff; auto|apply keqb_refl].
  Qed.
  Lemma shape_info_ok p b : (p = "data_obs" \/ proc_of p) -> In b (chans A) -> shape_info c p b = used_shape A p b.
  Proof.
    intros Hp Hb. pose proof (proc_plain p Hp) as NP. pose proof (bin_plain b Hb) as NB.
    assert (S1 : smem p ("data_obs" :: cd_procs c) = true).
    { apply smem_In. destruct Hp as [->|Hp]; [left; auto|right]. apply (proj2 (pa_procs _ _ _ P)). auto. }
    assert (S2 : smem b (cd_bins c) = true). { apply smem_In. rewrite (pa_bins _ _ _ P). auto. }
    assert (S3 : smem "*" ("data_obs" :: cd_procs c) = false).
    { destruct (smem "*" ("data_obs" :: cd_procs c)) eqn:E; auto. apply smem_In in E as [E|E]; [discriminate|].
      apply (proj2 (pa_procs _ _ _ P)) in E as (k & K1 & K2). destruct (wf_plain _ _ _ W k K1) as (_ & Q & _). contradiction. }
    assert (S4 : smem "*" (cd_bins c) = false).
    { destruct (smem "*" (cd_bins c)) eqn:E; auto. apply smem_In in E. rewrite (pa_bins _ _ _ P) in E. exfalso. apply (bin_plain _ E). auto. }
    assert (one : forall x y, smem x [y] = String.eqb x y). { intros. cbn. rewrite orb_false_r. auto. }
    assert (star : forall s, existsb (keqb ("*", b)) (shape_keys c s) = false /\ existsb (keqb (p, "*")) (shape_keys c s) = false /\
                             existsb (keqb ("*", "*")) (shape_keys c s) = false).
    { intros s. unfold shape_keys. rewrite !existsb_prod.
      assert (smem "*" (if String.eqb (sh_proc s) "*" then "data_obs" :: cd_procs c else [sh_proc s]) = false) as ->.
      { destruct (String.eqb_spec (sh_proc s) "*"); auto. rewrite one. apply String.eqb_neq. auto. }
      assert (smem "*" (if String.eqb (sh_chan s) "*" then cd_bins c else [sh_chan s]) = false) as ->.
      { destruct (String.eqb_spec (sh_chan s) "*"); auto. rewrite one. apply String.eqb_neq. auto. }
      rewrite andb_false_r. auto. }
    assert (none : forall k l, (forall s, existsb (keqb k) (shape_keys c s) = false) -> filter (fun s => existsb (keqb k) (shape_keys c s)) l = []).
    { intros k l Hk. induction l as [|s l IH]; cbn [filter]; auto. rewrite Hk. auto. }
    unfold shape_info. rewrite !shape_map_get, !(none _ _ (fun s => proj1 (star s))), !(none _ _ (fun s => proj1 (proj2 (star s)))), !(none _ _ (fun s => proj2 (proj2 (star s)))).
    cbn [rev hd_error orelse]. unfold used_shape. rewrite (pa_shapes _ _ _ P).
    assert (E : filter (fun s => existsb (keqb (p, b)) (shape_keys c s)) (ac_shapes A) = filter (fun s => covers s p b) (ac_shapes A)).
    { apply filter_ext. intros s. unfold shape_keys, covers. rewrite existsb_prod. f_equal.
      - destruct (String.eqb_spec (sh_proc s) "*"); [rewrite S1; auto|]. rewrite one, String.eqb_sym. auto.
      - destruct (String.eqb_spec (sh_chan s) "*"); [rewrite S2; auto|]. rewrite one, String.eqb_sym. auto. }
    rewrite E. destruct (hd_error _); auto.
  Qed.

  (** *** nominal templates and data *)
  Notation tmpl := (template pyfloat files mass A).
  Definition th (b p : string) : thist V := match tmpl b p with Some h => h | None => mkTH [] [] [] end.
  Definition signal_col (k : column) : bool := match pyint (co_idx k) with Some z => Z.leb z 0 | None => false end.
  Definition spec_chan (b : string) : list (op V) :=
    AddChannel (Some b) (th_axes (th b "data_obs")) false false ::
    AddData b (th_vals (th b "data_obs")) (th_vars (th b "data_obs")) ::
    map (fun k => AddProcess (HDense (th_vals (th b (co_proc k))) (th_vars (th b (co_proc k)))) (co_proc k) b (signal_col k) None)
      (filter (fun k => String.eqb (co_bin k) b) (ac_cols A)).

  Lemma counting_ok b p : In b (chans A) -> used_shape A p b = None -> tmpl b p = Some (counting c b).
  Proof.
    intros Hb U. unfold template. rewrite U. unfold counting. unfold chans in Hb. apply in_map_iff in Hb as ([b' t] & <- & Hb). cbn [fst].
    assert (dget b' (ac_chans A) = Some t) as ->.
    { pose proof (wf_chans _ _ _ W) as N. unfold chans in N. clear - Hb N. induction (ac_chans A) as [|[x y] l IH]; cbn in *; [contradiction|].
      inversion N as [|? ? N1 N2]. subst. destruct Hb as [Hb|Hb].
      - injection Hb as -> ->. rewrite String.eqb_refl. auto.
      - destruct (String.eqb_spec b' x); auto. subst. exfalso. apply N1. apply in_map_iff. exists (x, t). auto. }
    rewrite (pa_obs _ _ _ P b' t Hb). destruct (wf_obs _ _ _ W b' t Hb) as [v ->]. auto.
  Qed.
  Lemma nominal_inv b p o : (p = "data_obs" \/ proc_of p) -> In b (chans A) -> nominal files mass c b p = (o, None) ->
    tmpl b p = Some (th b p) /\
    o = if String.eqb p "data_obs" then [AddChannel (Some b) (th_axes (th b p)) false false; AddData b (th_vals (th b p)) (th_vars (th b p))]
        else [AddProcess (HDense (th_vals (th b p)) (th_vars (th b p))) p b (is_signal c p) None].
  Proof.
    intros Hp Hb H. unfold nominal in H. apply on_ok_inv in H as (h & E & H). rewrite (shape_info_ok p b Hp Hb) in E.
    assert (T : tmpl b p = h /\ h <> None).
    { destruct h as [h|]; [|discriminate H]. split; [|discriminate]. destruct (used_shape A p b) as [s|] eqn:U.
      - unfold template. rewrite U. cbn [get_histogram] in E. destruct (files (sh_file s) (hist_name mass s p b None)); congruence.
      - rewrite (counting_ok b p Hb U). congruence. }
    destruct T as [T NT]. destruct h as [h|]; [|congruence]. unfold th. rewrite T. split; auto.
    destruct (String.eqb p "data_obs"); injection H as <-; auto.
  Qed.
  Lemma flat_map_single {B C} (f : B -> C) l : flat_map (fun x => [f x]) l = map f l.
  Proof. induction l; cbn; congruence. Qed.
  Lemma signal_eq k : In k (ac_cols A) -> is_signal c (co_proc k) = signal_col k.
  Proof.
    intros K. unfold is_signal, signal_col. rewrite (pa_idx _ _ _ P k K). destruct (wf_idx _ _ _ W k K) as [z ->]. auto.
  Qed.
  Lemma nominals_inv ops : nominals files mass c = (ops, None) ->
    ops = flat_map spec_chan (chans A) /\
    (forall b, In b (chans A) -> tmpl b "data_obs" <> None) /\ (forall k, In k (ac_cols A) -> tmpl (co_bin k) (co_proc k) <> None).
  Proof.
    unfold nominals. rewrite (pa_bins _ _ _ P). intros H. apply each_inv in H as (oss & F & ->).
    assert (G : Forall2 (fun b o => o = spec_chan b /\ tmpl b "data_obs" <> None /\
                (forall k, In k (ac_cols A) -> co_bin k = b -> tmpl b (co_proc k) <> None)) (chans A) oss).
    { assert (I : forall b, In b (chans A) -> In b (chans A)) by auto. revert I F. generalize (chans A) at 1 3 4. intros l I F.
      induction F as [|b o l oss E F IH]; constructor; [|apply IH; intros; apply I; right; auto].
      assert (Hb : In b (chans A)) by (apply I; left; auto). destruct (pa_map _ _ _ P b Hb) as (d & D & K). rewrite D in E.
      cbn [each fold_right] in E. apply andthen_inv in E as (o1 & o2 & E1 & E2 & ->).
      apply nominal_inv in E1 as [T1 ->]; auto. cbn [String.eqb Ascii.eqb Bool.eqb].
      change (each (nominal files mass c b) (dkeys d) = (o2, None)) in E2. rewrite K in E2.
      set (cols := filter (fun k => String.eqb (co_bin k) b) (ac_cols A)) in *.
      assert (IC : forall k, In k cols -> In k (ac_cols A)) by (intros k Hk; apply filter_In in Hk; tauto).
      apply each_inv in E2 as (os & F2 & ->).
      assert (Q : Forall2 (fun k o => tmpl b (co_proc k) <> None /\
          o = [AddProcess (HDense (th_vals (th b (co_proc k))) (th_vars (th b (co_proc k)))) (co_proc k) b (signal_col k) None]) cols os).
      { revert IC F2. generalize cols. clear - W P Hb. intros cols IC F2. revert os F2. induction cols as [|k cols IH]; intros os F2; inversion F2 as [|? o1 ? os' E1 F3]; subst; constructor.
        - apply nominal_inv in E1 as [T1 ->]; auto.
          + destruct (wf_plain _ _ _ W k (IC k (or_introl eq_refl))) as (N & _ & _). apply String.eqb_neq in N. rewrite N.
            rewrite signal_eq by (apply IC; left; auto). split; auto. congruence.
          + right. exists k. split; auto. apply IC. left. auto.
        - apply IH; auto. intros. apply IC. right. auto. }
      split; [|split].
      - unfold spec_chan. fold cols. cbn [app]. do 2 f_equal. clear - Q. induction Q as [|k o l os [_ ->] Q IH]; cbn; auto. f_equal. auto.
      - congruence.
      - intros k K1 K2. assert (KC : In k cols) by (apply filter_In; split; auto; apply String.eqb_eq; auto).
        clear - Q KC. induction Q as [|x o l os [T _] Q IH]; [contradiction|]. destruct KC as [->|KC]; auto. }
    split; [|split].
    - clear - G. induction G as [|b o l oss (-> & _) G IH]; cbn [List.concat flat_map]; auto. rewrite IH. auto.
    - intros b Hb. clear - G Hb. induction G as [|x o l oss (_ & T & _) G IH]; [contradiction|]. destruct Hb as [->|Hb]; auto.
    - intros k K. assert (Hb : In (co_bin k) (chans A)) by (apply (wf_cover _ _ _ W); eauto).
      clear - G Hb K. induction G as [|x o l oss (_ & _ & T) G IH]; [contradiction|]. destruct Hb as [->|Hb]; auto.
  Qed.

  (** *** rate parameters *)
  Definition rate_procs (r : rline) : list string := if String.eqb (rl_proc r) "*" then cd_procs c else [rl_proc r].
  Definition spec_rate (r : rline) : list (op V) :=
    map (fun b => AddNormSystematic (rl_name r) (rate_procs r) b [UScalar k101] Average kw_free)
      (if String.eqb (rl_chan r) "*" then chans A else [rl_chan r]).
  Lemma rates_inv ops : each (rate_param pyfloat k101 c) (cd_rateparams c) = (ops, None) -> ops = flat_map spec_rate (ac_rates A).
  Proof.
    rewrite (pa_rparams _ _ _ P). intros H. apply each_inv in H as (oss & F & ->). revert oss F.
    induction (ac_rates A) as [|r l IH]; intros oss F; inversion F as [|? o ? oss' E F']; subst; cbn [List.concat flat_map map]; auto.
    rewrite (IH _ F'). f_equal. cbn [rate_param] in E. apply on_ok_inv in E as (_ & _ & E). rewrite (pa_bins _ _ _ P) in E.
    unfold spec_rate. rewrite <- flat_map_single. eapply each_fun; [|exact E]. cbn. intros x o' _ H. injection H as <-. auto.
  Qed.

  (** *** systematics *)
  Definition one_entry (s : sline) (b p e : string) (o : list (op V)) : Prop :=
    let norm := exists u, factor pyfloat e u /\ o = [AddNormSystematic (sl_name s) [p] b [u] Average kw_plain] in
    if no_effect e then o = []
    else if smem (sl_type s) ["shape"; "shapeN"; "shape?"; "shapeU"] then
      match varied files mass A b p (sl_name s ++ "Up"), varied files mass A b p (sl_name s ++ "Down") with
      | Some u, Some d => exists kf, pyfloat e = Some kf /\
          o = [AddSystematic (SPair (HDense (th_vals u) (th_vars u)) (HDense (th_vals d) (th_vars d))) (sl_name s) p b kf true symm false
                 (mkKw false (negb (String.eqb (sl_type s) "shapeU")) None)]
      | None, None => (used_shape A p b = None \/ sl_type s = "shape?") /\ norm
      | _, _ => False
      end
    else if smem (sl_type s) ["lnN"; "lnU"] then norm
    else o = [].
  Lemma norm_inv name p b e o : add_norm_syst pyfloat name p b e = (o, None) ->
    exists u, factor pyfloat e u /\ o = [AddNormSystematic name [p] b [u] Average kw_plain].
  Proof.
    unfold add_norm_syst. intros H. apply on_ok_inv in H as (u & E & H). injection H as <-. exists u. split; auto.
    unfold uncertainty in E. unfold factor. destruct (Parse_Model.splitc "/" (Parse_Model.T e)) as [|a [|d [|? ?]]]; try discriminate.
    - unfold tofloat in E. destruct (pyfloat e) as [x|] eqn:X; [|discriminate]. injection E as <-. eauto.
    - unfold tofloat in E. destruct (pyfloat (Parse_Model.S_ d)) as [x|] eqn:X; [|discriminate]. cbn in E.
      destruct (pyfloat (Parse_Model.S_ a)) as [y|] eqn:Y; [|discriminate]. injection E as <-. eauto.
  Qed.
  Lemma entry_col s b p e : In (b, p, e) (entries A s) -> In b (chans A) /\ proc_of p /\ exists k, In k (ac_cols A) /\ co_key k = (b, p).
  Proof.
    intros H. unfold entries in H. apply filter_In in H as [H _]. apply in_combine_l in H. apply in_map_iff in H as (k & E & K).
    unfold co_key in E. injection E as E1 E2. split; [|split].
    - apply (wf_cover _ _ _ W). eauto.
    - exists k. auto.
    - exists k. unfold co_key. subst. auto.
  Qed.
  Lemma shape_inv s s' b p e o : sy_name s' = sl_name s -> sy_type s' = sl_type s ->
    In (b, p, e) (entries A s) -> no_effect e = false -> smem (sl_type s) ["shape"; "shapeN"; "shape?"; "shapeU"] = true ->
    shape_syst pyfloat files mass symm c s' b p e = (o, None) -> one_entry s b p e o.
  Proof.
    intros EN ET I NE ST H. destruct (entry_col s b p e I) as (Hb & Hp & _). unfold shape_syst in H. rewrite EN, ET in H.
    apply on_ok_inv in H as ([u d] & E & H). rewrite (shape_info_ok p b (or_intror Hp) Hb) in E.
    unfold one_entry. rewrite NE, ST. unfold varied, get_histogram in *.
    destruct (used_shape A p b) as [sh|] eqn:U.
    - destruct (files (sh_file sh) (hist_name mass sh p b (Some (sl_name s ++ "Up")%string))) as [hu|];
      destruct (files (sh_file sh) (hist_name mass sh p b (Some (sl_name s ++ "Down")%string))) as [hd|]; cbn in E.
      + injection E as <- <-. apply on_ok_inv in H as (kf & K & H). unfold tofloat in K. destruct (pyfloat e) as [x|] eqn:X; [|discriminate].
        injection K as ->. injection H as <-. eauto.
      + destruct (negb (String.eqb (sl_type s) "shape?")); [discriminate|]. injection E as <- <-. apply on_ok_inv in H as (kf & _ & H). discriminate.
      + destruct (negb (String.eqb (sl_type s) "shape?")); [discriminate|]. injection E as <- <-. apply on_ok_inv in H as (kf & _ & H). discriminate.
      + destruct (String.eqb_spec (sl_type s) "shape?") as [Q|Q]; cbn in E; [|discriminate]. injection E as <- <-.
        split; auto. eapply norm_inv; eauto.
    - cbn in E. injection E as <- <-. split; auto. eapply norm_inv; eauto.
  Qed.

  Definition systs_ops (ops : list (op V)) : Prop := exists oss,
    Forall2 (fun s o => exists os, Forall2 (fun ke o => one_entry s (fst (fst ke)) (snd (fst ke)) (snd ke) o) (entries A s) os /\ o = List.concat os)
      (ac_systs A) oss /\ ops = List.concat oss.
  Lemma systs_inv ops : each (systematic pyfloat files mass symm c) (cd_systs c) = (ops, None) -> systs_ops ops.
  Proof.
    intros H. apply each_inv in H as (oss & F & ->). exists oss. split; auto.
    pose proof (pa_systs _ _ _ P) as E. revert E oss F. generalize (cd_systs c) (ac_systs A).
    induction l as [|s' l IH]; intros [|s l'] E oss F; cbn in E; try discriminate; inversion F as [|? o ? oss' Eo F']; subst; constructor.
    2:{ apply (IH l'); auto. congruence. }
    injection E as EN ET EE _. clear IH F F'.
    assert (G : forall ke o', In ke (entries A s) ->
      (if no_effect (snd ke) then emit [] else
         if smem (sl_type s) ["shape"; "shapeN"; "shape?"; "shapeU"] then shape_syst pyfloat files mass symm c s' (fst (fst ke)) (snd (fst ke)) (snd ke)
         else if smem (sl_type s) ["lnN"; "lnU"] then add_norm_syst pyfloat (sl_name s) (snd (fst ke)) (fst (fst ke)) (snd ke)
         else emit []) = (o', None) -> one_entry s (fst (fst ke)) (snd (fst ke)) (snd ke) o').
    { intros [[b p] e] o' I H. cbn [fst snd] in *. destruct (no_effect e) eqn:NE.
      - unfold one_entry. rewrite NE. unfold emit in H. congruence.
      - destruct (smem (sl_type s) ["shape"; "shapeN"; "shape?"; "shapeU"]) eqn:S1; [eapply shape_inv; eauto|].
        unfold one_entry. rewrite NE, S1. destruct (smem (sl_type s) ["lnN"; "lnU"]); [apply norm_inv; auto|]. unfold emit in H. congruence. }
    assert (GG : forall f, (forall ke, f ke = if no_effect (snd ke) then emit [] else
         if smem (sl_type s) ["shape"; "shapeN"; "shape?"; "shapeU"] then shape_syst pyfloat files mass symm c s' (fst (fst ke)) (snd (fst ke)) (snd ke)
         else if smem (sl_type s) ["lnN"; "lnU"] then add_norm_syst pyfloat (sl_name s) (snd (fst ke)) (fst (fst ke)) (snd ke)
         else emit []) -> each f (entries A s) = (o, None) ->
      exists os, Forall2 (fun ke o => one_entry s (fst (fst ke)) (snd (fst ke)) (snd ke) o) (entries A s) os /\ o = List.concat os).
    { intros f Hf H. apply each_inv in H as (os & F & ->). exists os. split; auto.
      assert (I : forall x, In x (entries A s) -> In x (entries A s)) by auto. clear Eo. revert I F. generalize (entries A s) at 1 3 4. intros l0 I F.
      induction F as [|ke o' l0 os Eo' F IH]; constructor.
      - apply G. { apply I. left. auto. } rewrite <- Hf. auto.
      - apply IH. intros. apply I. right. auto. }
    unfold systematic in Eo. rewrite ET, EE, EN in Eo.
    destruct (smem (sl_type s) ["shape"; "shapeN"; "shape?"; "shapeU"]) eqn:S1.
    - eapply GG; [|exact Eo]. intros ke. cbn beta. destruct (no_effect (snd ke)); auto.
    - destruct (smem (sl_type s) ["lnN"; "lnU"]) eqn:S2.
      + eapply GG; [|exact Eo]. intros ke. cbn beta. destruct (no_effect (snd ke)); auto.
      + cbn in Eo. injection Eo as <-. apply (GG (fun _ => emit [])).
        * intros ke. destruct (no_effect (snd ke)); auto.
        * clear. unfold each. induction (entries A s) as [|x l IH]; cbn [fold_right]; auto. rewrite IH. auto.
  Qed.

  Theorem convert_inv ops : convert pyfloat files mass k101 symm c = (ops, None) ->
    exists sy, ops = flat_map spec_chan (chans A) ++ flat_map spec_rate (ac_rates A) ++ sy /\ systs_ops sy /\
    (forall b, In b (chans A) -> tmpl b "data_obs" <> None) /\ (forall k, In k (ac_cols A) -> tmpl (co_bin k) (co_proc k) <> None).
  Proof.
    intros H. unfold convert in H. apply andthen_inv in H as (x & y & H1 & H2 & ->). apply andthen_inv in H2 as (y1 & y2 & H2 & H3 & ->).
    destruct (nominals_inv _ H1) as (-> & T1 & T2). rewrite (rates_inv _ H2). exists y2. split; auto. split; auto. apply systs_inv. auto.
  Qed.
End Convert.
