(** Proofs for Pcmd_Props. *)
From Coq Require Import Reals List Arith ZArith Bool String Ascii Lia.
From Verif Require Import RBase PyList PyDict Parse_Model Parse_Proof Parse_Round Param_Model Pcmd_Model Pcmd_Spec.
Import ListNotations.
Local Open Scope nat_scope.

(** ** colons *)
Lemma cut_some s a b : cut_colon s = Some (a, b) <-> s = a ++ colon :: b /\ ~ In colon a.
Proof.
  revert a b. induction s as [|c r IH]; intros a b; cbn [cut_colon].
  - split; [discriminate|]. intros [H _]. destruct a; discriminate.
  - destruct (Ascii.eqb c colon) eqn:E.
    + apply Ascii.eqb_eq in E. subst c. split.
      * intros H. injection H as <- <-. split; [reflexivity|simpl; tauto].
      * intros [H Hn]. destruct a as [|x a]; simpl in H; [injection H as <-; reflexivity|]. injection H as H1 H2. exfalso. apply Hn. left. auto.
    + apply Ascii.eqb_neq in E. split.
      * destruct (cut_colon r) as [[x y]|] eqn:K; [|discriminate]. intros H. injection H as <- <-. destruct (proj1 (IH x y) eq_refl) as [-> Hn].
        split; [reflexivity|]. simpl. intros [H|H]; [congruence|tauto].
      * intros [H Hn]. destruct a as [|x a]; simpl in H; [injection H as H1 H2; congruence|]. injection H as H1 H2. subst c r.
        destruct (IH a b) as [_ K]. rewrite K; [reflexivity|]. split; [reflexivity|]. intro. apply Hn. right. auto.
Qed.
Lemma cut_none s : cut_colon s = None <-> ~ In colon s.
Proof.
  induction s as [|c r IH]; cbn [cut_colon]; [simpl; tauto|]. destruct (Ascii.eqb c colon) eqn:E.
  - apply Ascii.eqb_eq in E. simpl. split; [discriminate|]. intro H. exfalso. apply H. left. auto.
  - apply Ascii.eqb_neq in E. destruct (cut_colon r) as [[x y]|] eqn:K; simpl.
    + split; [discriminate|]. intro H. apply cut_some in K. destruct K as [-> _]. exfalso. apply H. right. apply in_or_app. right. left. auto.
    + destruct IH as [IH _]. specialize (IH eq_refl). split; [|reflexivity]. intros _ [H|H]; [congruence|tauto].
Qed.
Lemma has_colon_in s : has_colon s = true <-> In colon s.
Proof. unfold has_colon. rewrite contains_one, existsb_exists. split.
  - intros (x & Hx & E). apply Ascii.eqb_eq in E. subst. auto.
  - intros H. exists colon. split; [exact H|apply Ascii.eqb_refl]. Qed.
Lemma has_colon_not s : has_colon s = false <-> ~ In colon s.
Proof. rewrite <- has_colon_in. destruct (has_colon s); split; congruence. Qed.
Lemma starts_true p s : starts p s = true <-> begins p s.
Proof.
  unfold begins. revert s. induction p as [|c p IH]; intros s; simpl.
  - split; eauto.
  - destruct s as [|x s]; simpl; [split; [discriminate|intros [v H]; discriminate]|]. rewrite andb_true_iff, Ascii.eqb_eq, IH. split.
    + intros [-> [v ->]]. eauto.
    + intros [v H]. injection H as -> ->. eauto.
Qed.
Lemma starts_false p s : starts p s = false <-> ~ begins p s.
Proof. rewrite <- starts_true. destruct (starts p s); split; congruence. Qed.
(** the words of the options end with their only colon *)
Definition word (w : text) : Prop := exists u, w = u ++ [colon] /\ ~ In colon u.
Lemma no_colon_b (u : text) : existsb (Ascii.eqb colon) u = false -> ~ In colon u.
Proof. intros H I. enough (existsb (Ascii.eqb colon) u = true) by congruence. apply existsb_exists. exists colon. split; [assumption|apply Ascii.eqb_refl]. Qed.
Lemma w_corr : word t_corr.  Proof. exists (T "yieldCorrection"). split; [reflexivity|apply no_colon_b; reflexivity]. Qed.
Lemma w_order : word t_order. Proof. exists (T "order"). split; [reflexivity|apply no_colon_b; reflexivity]. Qed.
Lemma w_params : word t_params. Proof. exists (T "params"). split; [reflexivity|apply no_colon_b; reflexivity]. Qed.
Lemma value_word w v : word w -> value_of (w ++ v) = Ok v.
Proof. intros (u & -> & Hn). unfold value_of. rewrite <- app_assoc. simpl. destruct (cut_some (u ++ colon :: v) u v) as [_ H]. rewrite H; auto. Qed.

(** ** options *)
Lemma pop_int_ok w tk o r : word w -> (pop_int w tk = Ok (o, r) <-> exists l, tk = l ++ r /\ option_line w l o /\ not_next w l r).
Proof.
  intros W. unfold pop_int, not_next. split.
  - destruct tk as [|t tk].
    + intros H. injection H as <- <-. exists []. repeat split; auto; [constructor|]. intros; discriminate.
    + destruct (starts w t) eqn:E.
      * apply starts_true in E. destruct E as [v ->]. rewrite value_word by auto. simpl. destruct (py_int v) as [z|] eqn:P; simpl; [|discriminate].
        intros H. injection H as <- <-. exists [w ++ v]. repeat split; auto; [constructor; auto|discriminate].
      * apply starts_false in E. intros H. injection H as <- <-. exists []. repeat split; auto; [constructor|].
        intros _ t' r' H. injection H as <- <-. auto.
  - intros (l & -> & O & N). destruct O as [|v z P]; simpl.
    + destruct r as [|t r]; [reflexivity|]. specialize (N eq_refl t r eq_refl). apply starts_false in N. rewrite N. reflexivity.
    + assert (starts w (w ++ v) = true) as -> by (apply starts_true; eexists; reflexivity). rewrite value_word by auto. simpl. rewrite P. reflexivity.
Qed.
Lemma bind_ok {A B} (x : result A) (f : A -> result B) b : rbind x f = Ok b <-> exists a, x = Ok a /\ f a = Ok b.
Proof. destruct x; simpl; split; eauto; [intros (a' & H & K); injection H as <-; auto|discriminate|intros (a' & H & K); discriminate]. Qed.
Lemma pop_order_ok tk z r : pop_order tk = Ok (z, r) <-> exists l o, tk = l ++ r /\ option_line t_order l o /\ not_next t_order l r /\ z = match o with Some z => z | None => 1%Z end.
Proof.
  unfold pop_order. rewrite bind_ok. split.
  - intros ([o r'] & H & K). injection K as <- <-. apply pop_int_ok in H; [|exact w_order]. destruct H as (l & -> & O & N). eauto 6.
  - intros (l & o & -> & O & N & ->). exists (o, r). split; [|reflexivity]. apply pop_int_ok; [exact w_order|eauto].
Qed.
Lemma pop_corr_ok tk b r : pop_corr tk = Ok (b, r) <-> exists l o, tk = l ++ r /\ option_line t_corr l o /\ not_next t_corr l r /\ b = match o with Some z => negb (Z.eqb z 0) | None => false end.
Proof.
  unfold pop_corr. rewrite bind_ok. split.
  - intros ([o r'] & H & K). injection K as <- <-. apply pop_int_ok in H; [|exact w_corr]. destruct H as (l & -> & O & N). eauto 6.
  - intros (l & o & -> & O & N & ->). exists (o, r). split; [|reflexivity]. apply pop_int_ok; [exact w_corr|eauto].
Qed.

(** ** selections *)
Lemma firsts_in l x : In x (firsts l) <-> In x l.
Proof.
  induction l as [|a l IH]; simpl; [tauto|]. rewrite filter_In, IH, negb_true_iff, String.eqb_neq.
  destruct (String.string_dec a x); [subst|]; tauto.
Qed.
Lemma firsts_nodup l : NoDup (firsts l).
Proof. induction l as [|a l IH]; simpl; [constructor|]. constructor; [|apply NoDup_filter; auto]. rewrite filter_In, String.eqb_refl. simpl. intros [_ H]. discriminate. Qed.
Lemma filter_app' {A} (f : A -> bool) a b : filter f (a ++ b) = filter f a ++ filter f b.
Proof. induction a; simpl; [reflexivity|]. destruct (f a); simpl; congruence. Qed.
Lemma firsts_snoc l a : firsts (l ++ [a]) = if smem a l then firsts l else firsts l ++ [a].
Proof.
  induction l as [|b l IH]; simpl; [reflexivity|]. rewrite IH. unfold smem in *. simpl. destruct (String.eqb a b) eqn:E; simpl.
  - apply String.eqb_eq in E. subst b. destruct (existsb (String.eqb a) l); [reflexivity|]. rewrite filter_app'. simpl. rewrite String.eqb_refl. simpl. rewrite app_nil_r. reflexivity.
  - destruct (existsb (String.eqb a) l); [reflexivity|]. rewrite filter_app'. simpl. rewrite String.eqb_sym, E. reflexivity.
Qed.
Lemma last_pick_snoc a ps p : last_pick a (ps ++ [p]) = if String.eqb a (S_ (p_axis p)) then Some (p_val p) else last_pick a ps.
Proof. induction ps as [|q ps IH]; simpl; [destruct (String.eqb _ _); reflexivity|]. rewrite IH. destruct (String.eqb a (S_ (p_axis p))); reflexivity. Qed.
Lemma dset_map_in {V} (k : string) (v : V) (f : string -> V) l : NoDup l -> In k l ->
  dset k v (map (fun a => (a, f a)) l) = map (fun a => (a, if String.eqb a k then v else f a)) l.
Proof.
  induction l as [|a l IH]; intros N I; [destruct I|]. inversion N as [|? ? Ha N']; subst. simpl. destruct (String.eqb k a) eqn:E.
  - apply String.eqb_eq in E. subst a. rewrite String.eqb_refl. f_equal. apply map_ext_in. intros b Hb.
    destruct (String.eqb b k) eqn:F; [apply String.eqb_eq in F; subst; tauto|reflexivity].
  - rewrite String.eqb_sym, E. f_equal. apply IH; auto. destruct I as [I|I]; auto. subst. rewrite String.eqb_refl in E. discriminate.
Qed.
Lemma meant_snoc ps p : meant_sel (ps ++ [p]) = dset (S_ (p_axis p)) (p_val p) (meant_sel ps).
Proof.
  unfold meant_sel. rewrite map_app. cbn [map]. rewrite firsts_snoc. set (k := S_ (p_axis p)). set (names := map (fun p => S_ (p_axis p)) ps).
  destruct (smem k names) eqn:E.
  - apply smem_In in E. rewrite dset_map_in by (auto using firsts_nodup; apply firsts_in; auto).
    apply map_ext. intros a. rewrite last_pick_snoc. fold k. destruct (String.eqb a k); reflexivity.
  - assert (Hn : ~ In k names) by (rewrite <- smem_In; congruence).
    rewrite dset_new; [|unfold dkeys; rewrite map_map; simpl; rewrite map_id; rewrite firsts_in; auto].
    rewrite map_app. cbn [map]. f_equal.
    + apply map_ext_in. intros a Ha. rewrite last_pick_snoc. fold k. destruct (String.eqb a k) eqn:F; [|reflexivity].
      apply String.eqb_eq in F. exfalso. apply Hn. rewrite <- F. apply (proj1 (firsts_in _ _) Ha).
    + rewrite last_pick_snoc. fold k. rewrite String.eqb_refl. reflexivity.
Qed.
Lemma axis_sels_ok tk ps0 d r : axis_sels tk (meant_sel ps0) = Ok (d, r) <->
  exists ps, tk = map pick_token ps ++ r /\ Forall pick_ok ps /\ d = meant_sel (ps0 ++ ps) /\ (forall t r', r = t :: r' -> ~ In colon t).
Proof.
  revert ps0. induction tk as [|t tk IH]; intros ps0; cbn [axis_sels].
  - split.
    + intros H. injection H as <- <-. exists []. split; [reflexivity|]. split; [constructor|]. split; [rewrite app_nil_r; reflexivity|]. intros ? ? H. discriminate.
    + intros (ps & H & _ & -> & _). destruct ps; [|discriminate]. simpl in H. subst r. rewrite app_nil_r. reflexivity.
  - destruct (has_colon t) eqn:E.
    + apply has_colon_in in E. destruct (cut_colon t) as [[a v]|] eqn:C; [|apply cut_none in C; tauto]. apply cut_some in C. destruct C as [-> Hn]. simpl.
      destruct (py_int v) as [z|] eqn:P; simpl.
      * specialize (IH (ps0 ++ [mkPick a v z])). rewrite meant_snoc in IH. simpl in IH. rewrite IH. split.
        -- intros (ps & -> & F & -> & K). exists (mkPick a v z :: ps). rewrite <- app_assoc. repeat split; auto. constructor; [|auto]. split; auto.
        -- intros (ps & H & F & -> & K). destruct ps as [|p ps].
           { simpl in H. subst r. exfalso. apply (K _ _ eq_refl). apply in_or_app. right. left. reflexivity. }
           inversion F as [|? ? [Ha Hp] F']; subst. simpl in H. injection H as H1 H2. unfold pick_token in H1.
           assert (Some (a, v) = Some (p_axis p, p_text p)) as Q.
           { rewrite <- (proj2 (cut_some (a ++ colon :: v) a v)) by auto. apply cut_some. auto. }
           injection Q as -> ->. rewrite P in Hp. injection Hp as ->. exists ps. rewrite <- app_assoc. destruct p; simpl. repeat split; auto.
      * split; [discriminate|]. intros (ps & H & F & -> & K). destruct ps as [|p ps].
        { simpl in H. subst r. exfalso. apply (K _ _ eq_refl). apply in_or_app. right. left. reflexivity. }
        inversion F as [|? ? [Ha Hp] F']; subst. simpl in H. injection H as H1 H2. unfold pick_token in H1.
        assert (Some (a, v) = Some (p_axis p, p_text p)) as Q.
        { rewrite <- (proj2 (cut_some (a ++ colon :: v) a v)) by auto. apply cut_some. auto. }
        injection Q as -> ->. congruence.
    + apply has_colon_not in E. split.
      * intros H. injection H as <- <-. exists []. split; [reflexivity|]. split; [constructor|]. split; [rewrite app_nil_r; reflexivity|]. intros t' r' H. injection H as <- <-. auto.
      * intros (ps & H & F & -> & K). destruct ps as [|p ps].
        { simpl in H. subst r. rewrite app_nil_r. reflexivity. }
        simpl in H. injection H as H1 H2. exfalso. apply E. rewrite H1. unfold pick_token. apply in_or_app. right. left. reflexivity.
Qed.
Definition stops (r : list text) : Prop := forall t r', r = t :: r' -> ~ In colon t.
Lemma one_region_ok tk g r : one_region tk = Ok (g, r) <-> exists l, tk = l ++ r /\ region_line l g /\ stops r.
Proof.
  destruct tk as [|t tk]; cbn [one_region].
  - split; [discriminate|]. intros (l & H & (ch & ps & -> & _) & _). discriminate.
  - destruct (has_colon t) eqn:E.
    + split; [discriminate|]. intros (l & H & (ch & ps & -> & Hn & _) & _). simpl in H. injection H as <- _. apply has_colon_in in E. tauto.
    + apply has_colon_not in E. rewrite bind_ok. split.
      * intros ([d r'] & H & K). injection K as <- <-. apply (axis_sels_ok tk []) in H. destruct H as (ps & -> & F & -> & S).
        exists (t :: map pick_token ps). repeat split; auto. exists t, ps. auto.
      * intros (l & H & (ch & ps & -> & Hn & F & ->) & S). simpl in H. injection H as -> ->. exists (meant_sel ps, r). split; [|reflexivity].
        apply (axis_sels_ok _ []). exists ps. auto.
Qed.
Lemma line_stops l g r : region_line l g -> stops (l ++ r).
Proof. intros (ch & ps & -> & Hn & _) t r' H. simpl in H. injection H as <- _. auto. Qed.
Lemma regions_ok n tk gs : regions n tk = Ok (gs, []) <-> exists ls, tk = List.concat ls /\ Forall2 region_line ls gs /\ List.length gs = n.
Proof.
  enough (G : forall tk gs r, stops r -> (regions n tk = Ok (gs, r) <-> exists ls, tk = List.concat ls ++ r /\ Forall2 region_line ls gs /\ List.length gs = n)).
  { rewrite G by (intros ? ? H; discriminate). split; intros (ls & H & K); exists ls; rewrite app_nil_r in *; auto. }
  clear tk gs. induction n as [|n IH]; intros tk gs r S; cbn [regions].
  - split.
    + intros H. injection H as <- <-. exists []. auto.
    + intros (ls & -> & F & L). destruct gs; [|discriminate]. inversion F. reflexivity.
  - rewrite bind_ok. split.
    + intros ([g r1] & H & K). apply bind_ok in K. destruct K as ([gs' r2] & H2 & K). simpl in *. injection K as <- <-.
      apply one_region_ok in H. destruct H as (l & -> & Lg & S1). apply IH in H2; auto. destruct H2 as (ls & -> & F & L).
      exists (l :: ls). simpl. rewrite app_assoc. auto.
    + intros (ls & -> & F & L). destruct gs as [|g gs]; [discriminate|]. inversion F as [|l ? ls' ? Lg F']; subst. simpl.
      exists (g, List.concat ls' ++ r). split.
      * apply one_region_ok. exists l. rewrite app_assoc. repeat split; auto. destruct F' as [|l2 g2 ls2 gs2 L2 F2]; [exact S|]. simpl. rewrite <- app_assoc. eapply line_stops; eauto.
      * apply bind_ok. exists (gs, r). split; [|reflexivity]. simpl. apply IH; auto. exists ls'. auto.
Qed.
Lemma no_more_ok {A} tk (a b : A) : no_more tk a = Ok b <-> tk = [] /\ a = b.
Proof. destruct tk; simpl; split; try discriminate; [intros H; injection H as <-; auto|intros [_ <-]; auto|intros [? ?]; discriminate]. Qed.

Lemma rest_ok n e axis order init tk c : parse_rest n e axis order init tk = Ok c <->
  k_axis c = axis /\ k_order c = order /\ k_init c = init /\ body_line n tk (k_corr c) (k_proc c) (k_regions c).
Proof.
  unfold parse_rest, body_line. rewrite bind_ok. split.
  - intros ([b r] & H & K). apply pop_corr_ok in H. destruct H as (l & o & -> & O & N & ->). cbn [fst snd] in K. destruct r as [|p r]; [discriminate|].
    apply bind_ok in K. destruct K as ([gs r2] & H & K). apply no_more_ok in K. destruct K as [H2 K]. cbn [fst snd] in *. subst r2 c. cbn [k_axis k_order k_init k_corr k_proc k_regions].
    apply regions_ok in H. destruct H as (ls & -> & F & L). repeat split. exists l, o, p, ls. repeat split; auto. intros E. exact (N E _ _ eq_refl).
  - intros (<- & <- & <- & ct & o & p & ls & -> & O & N & E1 & E2 & F & L). exists (k_corr c, p :: List.concat ls). split.
    + apply pop_corr_ok. exists ct, o. repeat split; auto. intros E t r H. injection H as <- _. auto.
    + cbn [fst snd]. apply bind_ok. exists (k_regions c, []). split; [apply regions_ok; eauto|]. cbn [fst snd]. apply no_more_ok. split; [reflexivity|].
      rewrite <- E2. destruct c; reflexivity.
Qed.
Lemma option_len w l o : option_line w l o -> List.length l <= 1.
Proof. intros []; simpl; lia. Qed.
Lemma lines_len ls gs : Forall2 region_line ls gs -> List.length gs <= List.length (List.concat ls).
Proof. induction 1 as [|l g ls gs L F IH]; simpl; [lia|]. rewrite app_length. destruct L as (ch & ps & -> & _). simpl. lia. Qed.
Lemma body_len n tk c p rs : body_line n tk c p rs -> n + 1 <= List.length tk.
Proof. intros (ct & o & q & ls & -> & O & N & _ & _ & F & L). apply lines_len in F. rewrite app_length. simpl. lia. Qed.
Lemma plain_ok n args c : parse_plain n args = Ok c <->
  k_axis c = ""%string /\ k_order c = 1%Z /\ k_init c = None /\ body_line n args (k_corr c) (k_proc c) (k_regions c).
Proof.
  unfold parse_plain. destruct (Nat.ltb (List.length args) (n + 1)) eqn:E.
  - split; [discriminate|]. intros (_ & _ & _ & B). apply body_len in B. apply Nat.ltb_lt in E. lia.
  - apply rest_ok.
Qed.
Lemma smooth_ok args c : parse_smooth args = Ok c <->
  exists ax l o toks, args = ax :: l ++ toks /\ k_axis c = S_ ax /\ option_line t_order l o /\ not_next t_order l toks /\
    k_order c = match o with Some z => z | None => 1%Z end /\ k_init c = None /\ body_line 4 toks (k_corr c) (k_proc c) (k_regions c).
Proof.
  unfold parse_smooth. destruct (Nat.ltb (List.length args) 6) eqn:E.
  - split; [discriminate|]. intros (ax & l & o & toks & -> & _ & _ & _ & _ & _ & B). apply body_len in B. apply Nat.ltb_lt in E. simpl in E. rewrite app_length in E. lia.
  - clear E. destruct args as [|ax r]; [split; [discriminate|intros (? & ? & ? & ? & H & _); discriminate]|]. rewrite bind_ok. split.
    + intros ([z tk] & H & K). apply pop_order_ok in H. destruct H as (l & o & -> & O & N & ->). apply rest_ok in K. destruct K as (E1 & E2 & E3 & B). exists ax, l, o, tk. cbn [fst snd] in *. repeat (split; [solve [auto]|]). auto.
    + intros (ax' & l & o & tk & H & E1 & O & N & E2 & E3 & B). injection H as <- ->. exists (k_order c, tk). split; [apply pop_order_ok; eauto 6|].
      apply rest_ok. cbn [fst snd]. auto.
Qed.
Section Files.
Variable h5 npz : text -> result (list R * Z).
Lemma params_ok read tk z i r : pop_params read tk = Ok (z, i, r) <->
  exists l, tk = l ++ r /\ start_line read l z i /\ not_next t_params l r /\ not_next t_order l r.
Proof.
  unfold pop_params. split.
  - destruct tk as [|t tk].
    + intros H. injection H as <- <- <-. exists []. repeat split; try (intros _ ? ? H; discriminate). apply (FromOrder read [] None). constructor.
    + destruct (starts t_params t) eqn:E.
      * apply starts_true in E. destruct E as [f ->]. rewrite value_word by exact w_params. simpl. destruct (read f) as [po|] eqn:P; simpl; [|discriminate].
        intros H. injection H as <- <- <-. exists [t_params ++ f]. repeat split; try (intros ?; discriminate). constructor. auto.
      * apply starts_false in E. rewrite bind_ok. intros ([z' r'] & H & K). injection K as <- <- <-. apply pop_order_ok in H.
        destruct H as (l & o & H & O & N & ->). exists l. repeat split; auto; [constructor; auto|].
        intros -> t' r'' H2. simpl in H. subst r'. injection H2 as -> ->. auto.
  - intros (l & -> & S & N1 & N2). destruct S as [f po P|l o O].
    + change ([t_params ++ f] ++ r) with ((t_params ++ f) :: r). cbv iota beta. assert (starts t_params (t_params ++ f) = true) as -> by (apply starts_true; eexists; reflexivity). rewrite value_word by exact w_params. simpl. rewrite P. reflexivity.
    + destruct (l ++ r) as [|t tk] eqn:Q.
      { apply app_eq_nil in Q. destruct Q as [-> ->]. inversion O. reflexivity. }
      assert (Hn : ~ begins t_params t).
      { destruct O as [|v w P]; simpl in Q; [subst r; apply (N1 eq_refl t tk eq_refl)|]. injection Q as <- _. intros [u H]. discriminate. }
      apply starts_false in Hn. rewrite Hn. apply bind_ok. exists (match o with Some z => z | None => 1%Z end, r). split; [|reflexivity].
      apply pop_order_ok. exists l, o. auto.
Qed.
Lemma smooth_ext_ok args c : parse_smooth_ext h5 npz args = Ok c <->
  exists ax l toks, args = ax :: l ++ toks /\ k_axis c = S_ ax /\ start_line (read_params h5 npz) l (k_order c) (k_init c) /\
    not_next t_params l toks /\ not_next t_order l toks /\ body_line 6 toks (k_corr c) (k_proc c) (k_regions c).
Proof.
  unfold parse_smooth_ext. destruct (Nat.ltb (List.length args) 8) eqn:E.
  - split; [discriminate|]. intros (ax & l & toks & -> & _ & _ & _ & _ & B). apply body_len in B. apply Nat.ltb_lt in E. simpl in E. rewrite app_length in E. lia.
  - clear E. destruct args as [|ax r]; [split; [discriminate|intros (? & ? & ? & H & _); discriminate]|]. rewrite bind_ok. split.
    + intros ([[z i] tk] & H & K). apply params_ok in H. destruct H as (l & -> & S & N1 & N2). apply rest_ok in K. cbn [fst snd] in *. destruct K as (E1 & E2 & E3 & B).
      subst z i. exists ax, l, tk. auto 7.
    + intros (ax' & l & tk & H & E1 & S & N1 & N2 & B). injection H as <- ->. exists (k_order c, k_init c, tk). split; [apply params_ok; eauto|].
      apply rest_ok. cbn [fst snd]. auto.
Qed.
Definition iso_form (c : cmd) : Prop := k_axis c = ""%string /\ k_regions c = [mkRegion (iso_channel c) []].
Lemma iso_rest_ok order init tk c : iso_rest order init tk = Ok c <->
  iso_form c /\ k_order c = order /\ k_init c = init /\ iso_line tk (k_corr c) (k_proc c) (iso_channel c).
Proof.
  unfold iso_rest, iso_line. rewrite bind_ok. split.
  - intros ([b r] & H & K). apply pop_corr_ok in H. destruct H as (l & o & -> & O & N & ->). cbn [fst snd] in K. destruct r as [|p [|ch r]]; try discriminate.
    apply no_more_ok in K. destruct K as [-> <-]. unfold iso_form, iso_channel. cbn [k_axis k_order k_init k_corr k_proc k_regions rg_chan]. repeat split.
    exists l, o, p, ch. repeat split; auto. intros E. exact (N E _ _ eq_refl).
  - intros ([Ha Hr] & <- & <- & ct & o & p & ch & -> & O & N & E1 & E2 & E3). exists (k_corr c, [p; ch]). split.
    + apply pop_corr_ok. exists ct, o. repeat split; auto. intros E t r H. injection H as <- _. auto.
    + cbn [fst snd]. apply no_more_ok. split; [reflexivity|]. rewrite <- E2, <- E3, <- Ha, <- Hr. destruct c; reflexivity.
Qed.
Lemma iso_order_ok tk c : parse_iso_order tk = Ok c <-> exists l o toks, tk = l ++ toks /\ option_line t_order l o /\ not_next t_order l toks /\
  iso_form c /\ k_order c = match o with Some z => z | None => 1%Z end /\ k_init c = None /\ iso_line toks (k_corr c) (k_proc c) (iso_channel c).
Proof.
  unfold parse_iso_order. rewrite bind_ok. split.
  - intros ([z r] & H & K). apply pop_order_ok in H. destruct H as (l & o & -> & O & N & ->). apply iso_rest_ok in K. cbn [fst snd] in K. exists l, o, r. tauto.
  - intros (l & o & r & -> & O & N & F & E & I & L). exists (k_order c, r). split; [apply pop_order_ok; eauto 6|]. apply iso_rest_ok. auto.
Qed.
Lemma iso_params_ok tk c : parse_iso_params h5 tk = Ok c <-> exists l toks, tk = l ++ toks /\ start_line h5 l (k_order c) (k_init c) /\
  not_next t_params l toks /\ not_next t_order l toks /\ iso_form c /\ iso_line toks (k_corr c) (k_proc c) (iso_channel c).
Proof.
  unfold parse_iso_params. rewrite bind_ok. split.
  - intros ([[z i] r] & H & K). apply params_ok in H. destruct H as (l & -> & S & N1 & N2). apply iso_rest_ok in K. cbn [fst snd] in K.
    destruct K as (F & <- & <- & L). exists l, r. auto 8.
  - intros (l & r & -> & S & N1 & N2 & F & L). exists (k_order c, k_init c, r). split; [apply params_ok; eauto|]. apply iso_rest_ok. auto.
Qed.
End Files.
