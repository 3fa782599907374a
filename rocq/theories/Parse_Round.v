(** Parsing a written axis selection gives its meaning. *)
From Coq Require Import Reals List Arith ZArith Bool String Ascii DecimalString Lia Lra.
From Verif Require Import RBase PyList PyDict ListUtil Parse_Model Parse_Spec Parse_Proof.
Import ListNotations.
Local Open Scope nat_scope.

Section Round.
Variable cplx : text -> result (R * R).
Variable floats : text -> result (list R).
Notation number_is := (number_is cplx).
Notation arg_is := (arg_is cplx).
Notation choice_is := (choice_is cplx floats).

Lemma forallb_incl (f g : ascii -> bool) t : (forall c, f c = true -> g c = true) -> forallb f t = true -> forallb g t = true.
Proof. intros H A. rewrite forallb_forall in *. auto. Qed.
Lemma exists_char (s : text) c (P : ascii -> bool) : forallb P s = true -> existsb (Ascii.eqb c) s = true -> P c = true.
Proof. intros F E. apply existsb_exists in E as (x & I & E). apply Ascii.eqb_eq in E. subst. rewrite forallb_forall in F. auto. Qed.
Lemma digm_num c : digm c = true -> num_char c = true.
Proof. intros H. apply (exists_char (T "-0123456789") c); auto. Qed.
Lemma number_chars n : ok_number n = true -> forallb num_char (show_number n) = true.
Proof. destruct n as [z|t]; cbn [show_number ok_number]; intros H; [apply (forallb_incl digm); [apply digm_num|apply zstr_chars]|]. apply andb_true_iff in H. tauto. Qed.
Lemma number_ok n b : ok_number n = true -> number_is n b -> number cplx (show_number n) = Ok b.
Proof.
  intros O H. unfold number. destruct H as [z|t c E]; cbn [show_number].
  - change (T "j") with ["j"%char]. rewrite contains_no by (apply (forallb_notin digm); [apply zstr_chars|auto]). rewrite zstr_int. auto.
  - cbn [ok_number] in O. apply andb_true_iff in O as (_ & J). change (T "j") with ["j"%char]. rewrite contains_one, J, E. auto.
Qed.
Lemma number_not (n : number_text) (w : text) : ok_number n = true -> existsb (fun c => negb (num_char c)) w = true -> show_number n <> w.
Proof.
  intros O W E. pose proof (number_chars n O) as H. rewrite E in H. apply existsb_exists in W as (c & I & N). rewrite forallb_forall in H. rewrite (H c I) in N. discriminate.
Qed.
Lemma arg_ok a b : ok_arg a = true -> arg_is a b -> slice_arg cplx (show_arg a) = Ok b.
Proof.
  intros O H. unfold slice_arg. destruct H as [|n b H]; cbn [show_arg]; [auto|]. rewrite teq_false by (apply number_not; auto). rewrite (number_ok n b); auto.
Qed.
(** the characters an argument of slice can have *)
Definition arg_char (c : ascii) : bool := num_char c || existsb (Ascii.eqb c) (T "None").
Lemma arg_chars a : ok_arg a = true -> forallb arg_char (show_arg a) = true.
Proof.
  destruct a as [n|]; cbn [ok_arg show_arg]; intros O; [|auto]. apply (forallb_incl num_char); [|apply number_chars; auto]. unfold arg_char. intros c ->. auto.
Qed.
Lemma forallb_join (f : ascii -> bool) d ps : f d = true -> (forall p, In p ps -> forallb f p = true) -> forallb f (join d ps) = true.
Proof.
  intros D. induction ps as [|p [|q ps] IH]; intros H; auto; [cbn [join]; apply H; left; auto|]. rewrite join_cons by discriminate. rewrite forallb_app. cbn [forallb]. rewrite D, (H p) by (left; auto). rewrite IH; auto. intros x X. apply H. right. auto.
Qed.
Definition inner_char (c : ascii) : bool := arg_char c || Ascii.eqb c comma.
Lemma inner_chars args : forallb ok_arg args = true -> forallb inner_char (join comma (map show_arg args)) = true.
Proof.
  intros O. apply forallb_join; auto. intros p P. apply in_map_iff in P as (a & <- & I). rewrite forallb_forall in O. apply (forallb_incl arg_char); [|apply arg_chars; auto]. unfold inner_char. intros c ->. auto.
Qed.
Lemma inner_flat t : forallb inner_char t = true -> flatc t.
Proof. intros H. split; apply (forallb_notin inner_char); auto. Qed.
Lemma edge_flat t : forallb edge_char t = true -> flatc t.
Proof. intros H. split; apply (forallb_notin edge_char); auto. Qed.
Lemma inside_of (w t : text) : List.length w = 6 -> inside (w ++ t ++ [rpar]) = t.
Proof.
  intros L. unfold inside, pyslice. rewrite !app_length, L. cbn [List.length]. rewrite skipn_app, L, (skipn_all2 w) by lia. rewrite Nat.sub_diag. cbn [skipn app].
  replace (6 + (List.length t + 1) - 1 - 6) with (List.length t) by lia. apply prefix_height.
Qed.
Lemma starts_app p s : starts p (p ++ s) = true.
Proof. induction p as [|c p IH]; auto. cbn [app starts]. rewrite Ascii.eqb_refl. auto. Qed.
Lemma contains_app p s : contains p (p ++ s) = true.
Proof. pose proof (starts_app p s) as H. destruct (p ++ s); cbn [contains]; rewrite H; auto. Qed.

(** what one item does to the state *)
Definition upd (m : meaning) (p : parsed) : parsed :=
  mkParsed (match me_slice m with Some s => dset (S_ (me_name m)) s (ps_sel p) | None => ps_sel p end)
           (match me_edges m with Some e => dset (S_ (me_name m)) e (ps_rebin p) | None => ps_rebin p end)
           (ps_sum p ++ sum_of m).
Definition show_item (i : text * choice) : text := fst i ++ colon :: show_choice (snd i).
Lemma choice_no_colon c : ok_choice c = true -> ~ In colon (show_choice c).
Proof.
  destruct c as [| |n|args|t]; cbn [ok_choice show_choice]; intros O.
  - cbn. intuition discriminate.
  - cbn. intuition discriminate.
  - apply (forallb_notin num_char); [apply number_chars; auto|auto].
  - apply andb_true_iff in O as (_ & O). rewrite !in_app_iff. intros [H|[H|H]]; [cbn in H; intuition discriminate| |cbn in H; intuition discriminate]. revert H. apply (forallb_notin inner_char); [apply inner_chars; auto|auto].
  - rewrite !in_app_iff. intros [H|[H|H]]; [cbn in H; intuition discriminate| |cbn in H; intuition discriminate]. revert H. apply (forallb_notin edge_char); auto.
Qed.
Lemma mapr_args args bs : forallb ok_arg args = true -> Forall2 arg_is args bs -> mapr (slice_arg cplx) (map show_arg args) = Ok bs.
Proof.
  intros O H. induction H as [|a b args bs A H IH]; auto. cbn [map mapr forallb] in *. apply andb_true_iff in O as (O1 & O2). rewrite (arg_ok a b) by auto. cbn [rbind]. rewrite IH by auto. auto.
Qed.
Lemma piece_slice p k args bs sl : forallb name_char k = true -> args <> [] -> forallb ok_arg args = true -> Forall2 arg_is args bs -> mk_slice bs = Ok sl ->
  piece cplx floats p (k ++ colon :: T "slice(" ++ join comma (map show_arg args) ++ [rpar]) = Ok (S_ k, mkParsed (dset (S_ k) sl (ps_sel p)) (ps_rebin p) (ps_sum p)).
Proof.
  intros K N O H M. unfold piece. rewrite splitc_cons by (apply (forallb_notin name_char); auto). rewrite splitc_one.
  - change (T "slice(" ++ join comma (map show_arg args) ++ [rpar]) with (T "slice" ++ (lpar :: join comma (map show_arg args) ++ [rpar])) at 1. rewrite contains_app, inside_of by auto. rewrite splitc_join.
    + rewrite (mapr_args args bs) by auto. cbn [rbind]. rewrite M. auto.
    + destruct args; [congruence|discriminate].
    + intros q Q. apply in_map_iff in Q as (a & <- & I). rewrite forallb_forall in O. apply (forallb_notin arg_char); [apply arg_chars; auto|auto].
  - rewrite !in_app_iff. intros [X|[X|X]]; [cbn in X; intuition discriminate| |cbn in X; intuition discriminate]. revert X. apply (forallb_notin inner_char); [apply inner_chars; auto|auto].
Qed.
Lemma piece_ok p i m : ok_item i = true -> item_is cplx floats i m -> piece cplx floats p (show_item i) = Ok (S_ (fst i), upd m p).
Proof.
  destruct i as [k c]. unfold ok_item, item_is, show_item, upd, sum_of. cbn [fst snd]. intros O (En & H). apply andb_true_iff in O as (K & O). rewrite En. clear En.
  assert (SP : splitc colon (k ++ colon :: show_choice c) = [k; show_choice c]) by (rewrite splitc_cons by (apply (forallb_notin name_char); auto); rewrite splitc_one by (apply choice_no_colon; auto); auto).
  destruct m as [nm sl ed su]. cbn [me_slice me_edges me_sum me_name] in *.
  destruct H; cbn [ok_choice show_choice forallb List.length Nat.leb andb] in *.
  - unfold piece. rewrite SP. rewrite app_nil_r. reflexivity.
  - unfold piece. rewrite SP. destruct p. reflexivity.
  - unfold piece. rewrite SP. change (T "slice") with ("s"%char :: T "lice"). rewrite contains_no by (apply (forallb_notin num_char); [apply number_chars; auto|auto]). rewrite (teq_false _ (T "sum")) by (apply number_not; auto).
    assert (NR : starts (T "rebin") (show_number n) = false). { pose proof (number_chars n O) as C. destruct (show_number n) as [|x r]; auto. cbn [forallb] in C. apply andb_true_iff in C as (C & _). cbn [T list_ascii_of_string starts]. destruct (Ascii.eqb_spec "r"%char x) as [E|_]; auto. rewrite <- E in C. discriminate. }
    rewrite NR. rewrite (teq_false _ (T "None")) by (apply number_not; auto). rewrite (number_ok n b) by auto. reflexivity.
  - rewrite (piece_slice p k [n] [b] (mkSl None b None)) by (auto; discriminate). rewrite app_nil_r. auto.
  - rewrite (piece_slice p k [m; n] [a; b] (mkSl a b None)) by (auto; discriminate). rewrite app_nil_r. auto.
  - rewrite (piece_slice p k [m; n; o] [a; b; c] (mkSl a b c)) by (auto; discriminate). rewrite app_nil_r. auto.
  - unfold piece. rewrite SP. change (T "slice") with ("s"%char :: T "lice"). rewrite contains_no by (intros X; rewrite !in_app_iff in X; destruct X as [X|[X|X]]; [cbn in X; intuition discriminate| |cbn in X; intuition discriminate]; revert X; apply (forallb_notin edge_char); auto).
    change (teq (T "rebin(" ++ t ++ [rpar]) (T "sum")) with false. cbv iota. change (T "rebin(" ++ t ++ [rpar]) with (T "rebin" ++ (lpar :: t ++ [rpar])) at 1. rewrite starts_app, inside_of by auto. rewrite H. cbn [rbind]. rewrite app_nil_r. auto.
Qed.
Lemma name_no k c : forallb name_char k = true -> name_char c = false -> ~ In c k.
Proof. apply forallb_notin. Qed.
Lemma item_solid i : ok_item i = true -> solid (show_item i) = true /\ closes (show_item i) = false.
Proof.
  destruct i as [k c]. unfold ok_item, show_item. cbn [fst snd]. intros O. apply andb_true_iff in O as (K & O).
  assert (PL : forall v, ~ In comma v -> flatc v -> solid (k ++ colon :: v) = true /\ closes (k ++ colon :: v) = false).
  { intros v V (F1 & F2). split; [apply solid_plain|apply closes_flat; split]; rewrite in_app_iff; intros [X|[X|X]]; try discriminate; auto; revert X; apply name_no; auto. }
  assert (PP : forall (w t : text), List.length w = 5 -> (forall x, In x w -> negb (existsb (Ascii.eqb x) [comma; lpar; rpar]) = true) -> flatc t -> solid (k ++ colon :: w ++ lpar :: t ++ [rpar]) = true /\ closes (k ++ colon :: w ++ lpar :: t ++ [rpar]) = false).
  { intros w t _ W F. assert (NW : forall x, existsb (Ascii.eqb x) [comma; lpar; rpar] = true -> ~ In x w) by (intros x E I; specialize (W x I); rewrite E in W; discriminate). split.
    - apply solid_app; [apply name_no; auto|]. change (colon :: w ++ lpar :: t ++ [rpar]) with ([colon] ++ (w ++ lpar :: t ++ [rpar])). apply solid_app; [intros [X|[]]; discriminate|]. apply solid_app; [apply NW; auto|]. change (lpar :: t ++ [rpar]) with ([lpar] ++ (t ++ [rpar])). apply solid_app; [intros [X|[]]; discriminate|]. apply solid_inner. auto.
    - change (k ++ colon :: w ++ lpar :: t ++ [rpar]) with (k ++ ([colon] ++ w) ++ lpar :: t ++ [rpar]). rewrite app_assoc. apply closes_open. split; intros X; repeat (apply in_app_or in X as [X|X] || destruct X as [X|X]); try discriminate; revert X; first [apply name_no; auto; fail|apply NW; auto]. }
  destruct c as [| |n|args|t]; cbn [ok_choice show_choice] in *.
  - apply PL; [|split]; cbn; intuition discriminate.
  - apply PL; [|split]; cbn; intuition discriminate.
  - apply PL; [|split]; apply (forallb_notin num_char); auto; apply number_chars; auto.
  - apply andb_true_iff in O as (_ & O). apply (PP (T "slice")); auto; [|apply inner_flat, inner_chars; auto]. intros x X. cbn in X. decompose [or] X; subst; try contradiction; auto.
  - apply (PP (T "rebin")); auto; [|apply edge_flat; auto]. intros x X. cbn in X. decompose [or] X; subst; try contradiction; auto.
Qed.
Lemma S_inj a b : S_ a = S_ b -> a = b.
Proof. unfold S_. intros H. rewrite <- (list_ascii_of_string_of_list_ascii a), <- (list_ascii_of_string_of_list_ascii b), H. auto. Qed.
Lemma pieces_ok items ms : Forall2 (item_is cplx floats) items ms -> forallb ok_item items = true -> forall k p,
  pieces cplx floats k p (map show_item items) = Ok (last (map (fun i => S_ (fst i)) items) k, fold_left (fun p m => upd m p) ms p).
Proof.
  intros H. induction H as [|i m items ms A H IH]; intros O k p; auto. cbn [map pieces forallb fold_left] in *. apply andb_true_iff in O as (O1 & O2). rewrite (piece_ok p i m) by auto. cbn [rbind fst snd]. rewrite IH by auto. f_equal. f_equal.
  destruct items as [|j items]; auto. change (last (map (fun i => S_ (fst i)) (j :: items)) (S_ (fst i)) = last (map (fun i => S_ (fst i)) (j :: items)) k). clear. revert j. induction items as [|x items IH]; intros j; auto. cbn [map last] in *. apply IH.
Qed.
Lemma fold_upd ms p : (forall m, In m ms -> ~ In (S_ (me_name m)) (dkeys (ps_sel p)) /\ ~ In (S_ (me_name m)) (dkeys (ps_rebin p))) -> NoDup (map me_name ms) ->
  fold_left (fun p m => upd m p) ms p = mkParsed (ps_sel p ++ flat_map sel_of ms) (ps_rebin p ++ flat_map rebin_of ms) (ps_sum p ++ flat_map sum_of ms).
Proof.
  revert p. induction ms as [|m ms IH]; intros p F N; cbn [fold_left flat_map]; [rewrite !app_nil_r; destruct p; auto|].
  inversion N as [|? ? N1 N2]; subst. destruct (F m) as (F1 & F2); [left; auto|].
  assert (E : upd m p = mkParsed (ps_sel p ++ sel_of m) (ps_rebin p ++ rebin_of m) (ps_sum p ++ sum_of m)).
  { unfold upd, sel_of, rebin_of. destruct (me_slice m), (me_edges m); rewrite ?dset_new by auto; rewrite ?app_nil_r; auto. }
  rewrite E, IH; auto.
  - cbn [ps_sel ps_rebin ps_sum]. rewrite <- !app_assoc. auto.
  - cbn [ps_sel ps_rebin]. intros x X. destruct (F x) as (G1 & G2); [right; auto|]. assert (NE : S_ (me_name x) <> S_ (me_name m)) by (intros Q; apply S_inj in Q; apply N1; rewrite <- Q; apply in_map; auto).
    unfold dkeys in *. rewrite !map_app, !in_app_iff. unfold sel_of, rebin_of. split; (intros [Q|Q]; [tauto|]); [destruct (me_slice m)|destruct (me_edges m)]; cbn in Q; try tauto; destruct Q as [Q|[]]; congruence.
Qed.
Lemma sel_keys ms x : In x (dkeys (flat_map sel_of ms)) <-> exists m, In m ms /\ me_slice m <> None /\ x = S_ (me_name m).
Proof.
  unfold dkeys. rewrite in_map_iff. split.
  - intros ((k & s) & <- & H). apply in_flat_map in H as (m & I & H). exists m. unfold sel_of in H. destruct (me_slice m); [|contradiction]. destruct H as [[= <- <-]|[]]. repeat split; auto. discriminate.
  - intros (m & I & N & ->). destruct (me_slice m) as [s|] eqn:E; [|congruence]. exists (S_ (me_name m), s). split; auto. apply in_flat_map. exists m. split; auto. unfold sel_of. rewrite E. left. auto.
Qed.
Theorem parse_show items m0 ms : Forall2 (item_is cplx floats) items (ms ++ [m0]) -> forallb ok_item items = true -> NoDup (map fst items) -> show items <> T "None:None" ->
  parse_axis_selection cplx floats (show items) =
  Ok (mkParsed (flat_map sel_of (ms ++ [m0]) ++ match me_slice m0 with Some _ => [] | None => [(S_ (me_name m0), full)] end) (flat_map rebin_of (ms ++ [m0])) (flat_map sum_of (ms ++ [m0]))).
Proof.
  intros H O N NN. assert (NE : items <> []) by (intros ->; apply Forall2_len in H; rewrite app_length in H; cbn in H; lia).
  assert (NMS : map me_name (ms ++ [m0]) = map fst items). { clear - H. remember (ms ++ [m0]) as l. clear Heql. induction H as [|i m items l A H IH]; auto. cbn [map]. rewrite IH. f_equal. apply A. }
  unfold parse_axis_selection. rewrite teq_false by auto. assert (RS : resplit (show items) = map show_item items).
  { apply resplit_joined; [destruct items; [congruence|discriminate]|]. intros q Q. apply in_map_iff in Q as (i & <- & I). apply item_solid. rewrite forallb_forall in O. auto. }
  rewrite RS, (pieces_ok items (ms ++ [m0])) by auto. cbn [rbind fst snd].
  assert (LK : last (map (fun i => S_ (fst i)) items) EmptyString = S_ (me_name m0)).
  { rewrite <- (map_map fst S_), <- NMS, !map_app. cbn [map]. apply last_last. }
  rewrite LK. rewrite fold_upd; [|cbn; tauto|rewrite NMS; auto]. cbn [ps_sel ps_rebin ps_sum app].
  set (p := mkParsed _ _ _). set (st := fun (p : parsed) (_ : text) => _).
  assert (G : dget (S_ (me_name m0)) (ps_sel p) = None <-> me_slice m0 = None).
  { rewrite dget_None. unfold p. cbn [ps_sel]. rewrite sel_keys. split.
    - intros Q. destruct (me_slice m0) eqn:E; auto. exfalso. apply Q. exists m0. rewrite in_app_iff, E. cbn. repeat split; auto; discriminate.
    - intros E (m & I & Nm & Q). apply S_inj in Q. rewrite in_app_iff in I. destruct I as [I|[<-|[]]]; [|congruence]. rewrite <- NMS, map_app in N. cbn [map] in N. apply NoDup_remove_2 in N. apply N. rewrite app_nil_r, Q. apply in_map. auto. }
  assert (FX : forall l q, dget (S_ (me_name m0)) (ps_sel q) <> None -> fold_left st l q = q).
  { induction l as [|x l IH]; intros q Q; auto. cbn [fold_left]. unfold st at 2. destruct (dget (S_ (me_name m0)) (ps_sel q)) eqn:E; [|congruence]. apply IH. congruence. }
  destruct (me_slice m0) eqn:E.
  - rewrite FX; [unfold p; rewrite app_nil_r; auto|]. intros Q. apply G in Q. discriminate.
  - destruct items as [|i items]; [congruence|]. cbn [map fold_left]. unfold st at 2. rewrite (proj2 G eq_refl). rewrite FX by (cbn [ps_sel]; rewrite dget_dset_same; discriminate). rewrite dset_new by (apply dget_None, G; auto). auto.
Qed.
End Round.
