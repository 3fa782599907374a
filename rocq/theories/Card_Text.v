(** The text of a card and of histogram patterns. *)
From Coq Require Import List Arith Bool String Ascii ZArith Lia.
From Verif Require Import PyList PyDict Num Names_Model Writer_Model Card_Model Card_Spec.
From Verif Require Parse_Model Parse_Proof.
Import ListNotations.
Local Open Scope nat_scope.
Local Open Scope string_scope.
Local Open Scope list_scope.

(** *** words *)
Lemma words_blank bl t : Forall (fun x => Parse_Model.is_space x = true) bl -> words (bl ++ t) = words t.
Proof. induction 1 as [|x bl H F IH]; auto. change ((x :: bl) ++ t) with (x :: (bl ++ t)). cbn [words]. rewrite H. auto. Qed.
Lemma words_word w t : w <> [] -> Forall (fun x => Parse_Model.is_space x = false) w -> match t with [] => True | x :: _ => Parse_Model.is_space x = true end ->
  words (w ++ t) = w :: words t.
Proof.
  intros N F Ht. induction F as [|x w H F IH]; [contradiction|]. destruct w as [|y w].
  - cbn [app words]. rewrite H. destruct t as [|z t]; auto. rewrite Ht. auto.
  - inversion F as [|? ? Hy _]. subst. change ((x :: y :: w) ++ t) with (x :: ((y :: w) ++ t)). cbn [words]. rewrite H. rewrite IH by discriminate.
    cbn [app]. rewrite Hy. auto.
Qed.
Theorem words_spaced t ws : spaced t ws -> words t = ws.
Proof.
  induction 1 as [bl B|bl w B N F|bl w x t ws B N F X S IH].
  - rewrite <- (app_nil_r bl), words_blank; auto.
  - rewrite words_blank by auto. rewrite <- (app_nil_r w) at 1. rewrite words_word; auto.
  - rewrite words_blank by auto. rewrite words_word by auto. cbn [words]. rewrite X, IH. auto.
Qed.
Lemma S_T t : Parse_Model.S_ (Parse_Model.T t) = t.
Proof. apply string_of_list_ascii_of_string. Qed.
Lemma T_S t : Parse_Model.T (Parse_Model.S_ t) = t.
Proof. apply list_ascii_of_string_of_list_ascii. Qed.
(** a file of lines is read as its lines, without the blank ones and the comments *)
Theorem read_lines (txt : list Parse_Model.text) (ls : list (list string)) : txt <> [] ->
  Forall (fun t => ~ In newline t) txt -> Forall2 (fun t l => spaced t (map Parse_Model.T l)) txt ls ->
  read_card (Parse_Model.S_ (Parse_Model.join newline txt)) =
    filter (fun l => match l with [] => false | w :: _ => negb (String.prefix "#" w) end) ls.
Proof.
  intros N F S. unfold read_card. rewrite T_S, Parse_Proof.splitc_join by (auto; rewrite Forall_forall in F; auto).
  replace (map read_line txt) with ls. { apply filter_ext. intros [|x l]; auto. }
  clear N F. induction S as [|t l txt ls E S IH]; auto. cbn [map]. rewrite <- IH. f_equal. unfold read_line.
  rewrite (words_spaced _ _ E), map_map. clear. induction l as [|x l IH]; cbn; auto. rewrite S_T, <- IH. auto.
Qed.

(** *** patterns *)
Lemma prefix_app a b : String.prefix a (a ++ b) = true.
Proof. induction a as [|x a IH]; cbn; auto. destruct b; auto. destruct (ascii_dec x x); auto; contradiction. Qed.
Lemma replace_skip old new t r : replace old new (String.length t) (t ++ r) = replace old new 0 r.
Proof. induction t as [|x t IH]; cbn [String.length String.append replace]; auto. Qed.
Lemma replace_lit x old new t r : ~ In x (Parse_Model.T t) -> replace (String x old) new 0 (t ++ r) = (t ++ replace (String x old) new 0 r)%string.
Proof.
  induction t as [|y t IH]; intros H; cbn [String.append]; auto. cbn [replace]. cbn [String.prefix]. destruct (ascii_dec x y) as [->|N].
  - exfalso. apply H. left. auto.
  - rewrite IH; auto. intros X. apply H. right. auto.
Qed.
Lemma replace_hit x old new r : replace (String x old) new 0 (String x old ++ r) = (new ++ replace (String x old) new 0 r)%string.
Proof.
  cbn [String.append replace]. change (String x (old ++ r)) with (String x old ++ r)%string. rewrite prefix_app.
  replace (String.length (String x old) - 1) with (String.length old) by (cbn; lia). rewrite replace_skip. auto.
Qed.
Lemma replace_miss x y z old new t r : y <> z -> ~ In x (Parse_Model.T (String z t)) ->
  replace (String x (String y old)) new 0 (String x (String z t) ++ r) = (String x (String z t) ++ replace (String x (String y old)) new 0 r)%string.
Proof.
  intros N H. change (String x (String z t) ++ r)%string with (String x (String z t ++ r)). cbn [replace].
  replace (String.prefix (String x (String y old)) (String x (String z t ++ r))) with false.
  - rewrite replace_lit by auto. auto.
  - cbn. destruct (ascii_dec x x); auto. destruct (ascii_dec y z); auto. contradiction.
Qed.
Definition subst (v : var) (new : string) (q : hpiece) : hpiece :=
  match q with Lit t => Lit t | Var v' => match v, v' with
    | VProcess, VProcess | VChannel, VChannel | VSystematic, VSystematic | VMass, VMass => Lit new
    | _, _ => Var v' end end.
Lemma replace_pattern v new l : literal l -> replace (var_text v) new 0 (pattern l) = pattern (map (subst v new) l).
Proof.
  induction l as [|q l IH]; intros L; cbn [pattern map]. { destruct v; auto. }
  assert (Q : literal l) by (intros t Ht; apply L; right; auto).
  destruct q as [t|v'].
  - assert (D : dollar_free t) by (apply L; left; auto). cbn [subst pattern]. rewrite <- IH by auto. destruct v; apply replace_lit; auto.
  - destruct v, v'; cbn [subst pattern]; rewrite <- IH by auto; try apply replace_hit; apply replace_miss; cbn; intuition discriminate.
Qed.
Lemma subst_literal v new l : dollar_free new -> literal l -> literal (map (subst v new) l).
Proof.
  intros D L t H. apply in_map_iff in H as ([t'|v'] & E & H); cbn in E.
  - injection E as ->. auto.
  - destruct v, v'; try discriminate; injection E as <-; auto.
Qed.
Lemma pattern_done l : (forall v, ~ In (Var v) l) -> forall val, pattern l = filled val l.
Proof. induction l as [|[t|v] l IH]; intros H val; cbn; auto. { f_equal. apply IH. intros v X. apply (H v). right. auto. } exfalso. apply (H v). left. auto. Qed.
Lemma filled_subst v val l : filled val (map (subst v (val v)) l) = filled val l.
Proof. induction l as [|[t|v'] l IH]; cbn; auto. { rewrite IH. auto. } destruct v, v'; cbn; rewrite IH; auto. Qed.
Lemma subst_gone v new l : ~ In (Var v) (map (subst v new) l).
Proof. intros H. apply in_map_iff in H as ([t|v'] & E & _); cbn in E; [discriminate|]. destruct v, v'; discriminate. Qed.
Lemma subst_keep v v0 new l : ~ In (Var v) l -> ~ In (Var v) (map (subst v0 new) l).
Proof. intros N H. apply in_map_iff in H as ([t|v'] & E & H); cbn in E; [discriminate|]. destruct v0, v'; try discriminate; injection E as <-; contradiction. Qed.

(** the values of the placeholders *)
Definition values (mass p b y : string) (v : var) : string :=
  match v with VProcess => p | VChannel => b | VSystematic => y | VMass => mass end.
Theorem hist_name_syst mass s p b y l : sh_syst s = Some (pattern l) -> literal l ->
  dollar_free p -> dollar_free b -> dollar_free y -> dollar_free mass ->
  hist_name mass s p b (Some y) = filled (values mass p b y) l.
Proof.
  intros E L Hp Hb Hy Hm. unfold hist_name. rewrite E.
  change "$PROCESS" with (var_text VProcess). change "$CHANNEL" with (var_text VChannel). change "$SYSTEMATIC" with (var_text VSystematic). change "$MASS" with (var_text VMass).
  rewrite !replace_pattern by (repeat apply subst_literal; auto).
  rewrite (pattern_done _) with (val := values mass p b y).
  - change mass with (values mass p b y VMass) at 2. rewrite filled_subst. change y with (values mass p b y VSystematic) at 2. rewrite filled_subst.
    change b with (values mass p b y VChannel) at 2. rewrite filled_subst. change p with (values mass p b y VProcess) at 2. rewrite filled_subst. auto.
  - intros []; repeat first [apply subst_gone | apply subst_keep].
Qed.
Theorem hist_name_nominal mass s p b l : sh_pat s = pattern l -> literal l -> (forall v, In (Var v) l -> v <> VSystematic) ->
  dollar_free p -> dollar_free b -> dollar_free mass ->
  hist_name mass s p b None = filled (values mass p b "") l /\
  (forall y, sh_syst s = None -> hist_name mass s p b (Some y) = (filled (values mass p b "") l ++ "_" ++ y)%string).
Proof.
  intros E L NS Hp Hb Hm.
  assert (G : replace "$MASS" mass 0 (replace "$CHANNEL" b 0 (replace "$PROCESS" p 0 (sh_pat s))) = filled (values mass p b "") l).
  { rewrite E. change "$PROCESS" with (var_text VProcess). change "$CHANNEL" with (var_text VChannel). change "$MASS" with (var_text VMass).
    rewrite !replace_pattern by (repeat apply subst_literal; auto).
    rewrite (pattern_done _) with (val := values mass p b "").
    - change mass with (values mass p b "" VMass) at 2. rewrite filled_subst.
      change b with (values mass p b "" VChannel) at 2. rewrite filled_subst. change p with (values mass p b "" VProcess) at 2. rewrite filled_subst. auto.
    - intros []; repeat first [apply subst_gone | apply subst_keep]. intros H. apply (NS _ H). auto. }
  unfold hist_name. split.
  - rewrite G. auto.
  - intros y ->. rewrite G. auto.
Qed.
