From Coq Require Import Reals List Arith ZArith Bool String Ascii DecimalString DecimalZ Lia Lra.
From Verif Require Import RBase PyList PyDict ListUtil Parse_Model Parse_Spec.
Import ListNotations.
Local Open Scope nat_scope.

(** ** splitting *)
Lemma resplit_ne s : resplit s <> [].
Proof. induction s as [|c r IH]; cbn [resplit]; [discriminate|]. destruct (_ && _); [discriminate|]. destruct (resplit r); cbn [put]; discriminate. Qed.
Lemma splitc_ne d s : splitc d s <> [].
Proof. induction s as [|c r IH]; cbn [splitc]; [discriminate|]. destruct (Ascii.eqb c d); [discriminate|]. destruct (splitc d r); cbn [put]; discriminate. Qed.
Lemma join_cons d p ps : ps <> [] -> join d (p :: ps) = p ++ d :: join d ps.
Proof. destruct ps; [congruence|auto]. Qed.
Lemma join_put d c ps : ps <> [] -> join d (put c ps) = c :: join d ps.
Proof. destruct ps as [|p [|q ps]]; [congruence| |]; auto. Qed.
Theorem resplit_join s : join comma (resplit s) = s.
Proof.
  induction s as [|c r IH]; [auto|]. cbn [resplit]. destruct (Ascii.eqb_spec c comma) as [->|N]; cbn [andb].
  - destruct (negb (closes r)).
    + rewrite join_cons by apply resplit_ne. rewrite IH. auto.
    + rewrite join_put by apply resplit_ne. rewrite IH. auto.
  - rewrite join_put by apply resplit_ne. rewrite IH. auto.
Qed.
Lemma cuts_cons p ps : ps <> [] -> cuts (p :: ps) = List.length p :: map (fun i => S (List.length p) + i) (cuts ps).
Proof. destruct ps; [congruence|auto]. Qed.
Lemma cuts_put c ps : ps <> [] -> cuts (put c ps) = map S (cuts ps).
Proof.
  destruct ps as [|p [|q ps]]; [congruence|auto|]. intros _. cbn [put]. rewrite (cuts_cons (c :: p)), (cuts_cons p) by discriminate. generalize (cuts (q :: ps)). intros l. cbn [map List.length]. f_equal. rewrite map_map. auto.
Qed.
Theorem cut_iff s i : In i (cuts (resplit s)) <-> nth_error s i = Some comma /\ closes (skipn (S i) s) = false.
Proof.
  revert i. induction s as [|c r IH]; intros i.
  - cbn. split; [tauto|]. intros (H & _). destruct i; discriminate.
  - assert (P : (In i (map S (cuts (resplit r))) <-> exists j, i = S j /\ nth_error r j = Some comma /\ closes (skipn (S j) r) = false)).
    { rewrite in_map_iff. split; [intros (j & <- & H)|intros (j & -> & H)]; exists j; split; auto; apply IH; auto. }
    cbn [resplit]. destruct (Ascii.eqb c comma && negb (closes r)) eqn:E.
    + apply andb_true_iff in E as (E1 & E2). apply Ascii.eqb_eq in E1. apply negb_true_iff in E2. subst. rewrite cuts_cons by apply resplit_ne. cbn [List.length Nat.add].
      replace (map (fun i => S i) (cuts (resplit r))) with (map S (cuts (resplit r))) by auto. cbn [In]. rewrite P. destruct i as [|i]; [split; auto|]. split.
      * intros [H|(j & [= <-] & H)]; [discriminate|auto].
      * intros H. right. exists i. split; auto.
    + rewrite cuts_put by apply resplit_ne. rewrite P. destruct i as [|i].
      * split; [intros (j & A & _); discriminate|]. cbn [nth_error skipn]. intros ([= ->] & H). rewrite H, Ascii.eqb_refl in E. discriminate.
      * split; [intros (j & [= <-] & H); auto|]. intros H. exists i. auto.
Qed.
Definition flatc (u : text) : Prop := ~ In lpar u /\ ~ In rpar u.
Lemma closes_true s : closes s = true <-> exists u v, s = u ++ rpar :: v /\ flatc u.
Proof.
  unfold flatc. induction s as [|c r IH]; cbn [closes].
  - split; [discriminate|]. intros ([|] & v & E & _); discriminate.
  - destruct (Ascii.eqb_spec c lpar) as [->|N1]; [|destruct (Ascii.eqb_spec c rpar) as [->|N2]].
    + split; [discriminate|]. intros ([|x u] & v & E & A & B); [discriminate|]. injection E as <- _. exfalso. apply A. left. auto.
    + split; auto. intros _. exists [], r. auto.
    + rewrite IH. split.
      * intros (u & v & -> & A & B). exists (c :: u), v. split; auto. split; intros [H|H]; auto.
      * intros ([|x u] & v & E & A & B); [injection E; intros; congruence|]. injection E as -> ->. exists u, v. split; auto. split; intros H; [apply A|apply B]; right; auto.
Qed.
Lemma closes_false s : closes s = false -> flatc s \/ exists u v, s = u ++ lpar :: v /\ flatc u.
Proof.
  unfold flatc. induction s as [|c r IH]; cbn [closes]; [left; auto|]. destruct (Ascii.eqb_spec c lpar) as [->|N1]; [right; exists [], r; auto|]. destruct (Ascii.eqb_spec c rpar) as [->|N2]; [discriminate|].
  intros H. destruct (IH H) as [(A & B)|(u & v & -> & A & B)].
  - left. split; intros [E|E]; auto.
  - right. exists (c :: u), v. split; auto. split; intros [E|E]; auto.
Qed.
Lemma height_app a b : height (a ++ b) = (height a + height b)%Z.
Proof. induction a as [|c a IH]; [auto|]. change ((c :: a) ++ b) with (c :: a ++ b). cbn [height]. rewrite IH. lia. Qed.
Lemma height_flat u : flatc u -> height u = 0%Z.
Proof.
  unfold flatc. induction u as [|c u IH]; intros (A & B); cbn [height]; auto. destruct (Ascii.eqb_spec c lpar) as [->|_]; [exfalso; apply A; left; auto|]. destruct (Ascii.eqb_spec c rpar) as [->|_]; [exfalso; apply B; left; auto|]. rewrite IH; auto. split; intros H; [apply A|apply B]; right; auto.
Qed.
Lemma split_at (s : text) i : nth_error s i = Some comma -> s = firstn i s ++ comma :: skipn (S i) s.
Proof.
  revert s. induction i as [|i IH]; intros [|c s] H; try discriminate; [cbn in *; congruence|]. cbn [nth_error] in H. change (skipn (S (S i)) (c :: s)) with (skipn (S i) s). change (firstn (S i) (c :: s)) with (c :: firstn i s). rewrite <- app_comm_cons. f_equal. apply IH. auto.
Qed.
Lemma prefix_height (a b : text) : firstn (List.length a) (a ++ b) = a.
Proof. rewrite firstn_app, Nat.sub_diag, firstn_all, firstn_O, app_nil_r. auto. Qed.
Theorem top_level_cut s i : balanced s -> nth_error s i = Some comma -> height (firstn i s) = 0%Z -> In i (cuts (resplit s)).
Proof.
  intros (B & _) C H. apply cut_iff. split; auto. destruct (closes (skipn (S i) s)) eqn:E; auto. exfalso. apply closes_true in E as (u & v & E & F). pose proof (split_at s i C) as S1. rewrite E in S1. clear E C.
  set (a := firstn i s) in *. clearbody a. specialize (B (List.length (a ++ comma :: u ++ [rpar]))). subst s. replace (a ++ comma :: u ++ rpar :: v) with ((a ++ comma :: u ++ [rpar]) ++ v) in B by (rewrite <- app_assoc, <- app_comm_cons, <- app_assoc; auto).
  rewrite prefix_height in B. rewrite height_app in B. change (comma :: u ++ [rpar]) with ([comma] ++ u ++ [rpar]) in B. rewrite !height_app, H, (height_flat u F) in B. cbn in B. lia.
Qed.
Theorem cut_top_level s i : balanced s -> (forall n, (height (firstn n s) <= 1)%Z) -> In i (cuts (resplit s)) -> nth_error s i = Some comma /\ height (firstn i s) = 0%Z.
Proof.
  intros (B & Z) M H. apply cut_iff in H as (C & H). split; auto. pose proof (B i) as B1. pose proof (M i) as M1. destruct (Z.eq_dec (height (firstn i s)) 0) as [|N]; auto. exfalso. assert (E : height (firstn i s) = 1%Z) by lia.
  pose proof (split_at s i C) as S1. clear C B B1 M1 N. set (a := firstn i s) in *. clearbody a. destruct (closes_false _ H) as [F|(u & v & E2 & F)].
  - rewrite S1 in Z. change (comma :: skipn (S i) s) with ([comma] ++ skipn (S i) s) in Z. rewrite !height_app, (height_flat _ F), E in Z. cbn in Z. lia.
  - rewrite E2 in S1. clear E2 H. specialize (M (List.length (a ++ comma :: u ++ [lpar]))). subst s. replace (a ++ comma :: u ++ lpar :: v) with ((a ++ comma :: u ++ [lpar]) ++ v) in M by (rewrite <- app_assoc, <- app_comm_cons, <- app_assoc; auto).
    rewrite prefix_height in M. change (comma :: u ++ [lpar]) with ([comma] ++ u ++ [lpar]) in M. rewrite !height_app, E, (height_flat u F) in M. cbn in M. lia.
Qed.

(** ** splitting what was joined *)
Lemma splitc_one d s : ~ In d s -> splitc d s = [s].
Proof.
  induction s as [|c r IH]; intros H; cbn [splitc]; auto. destruct (Ascii.eqb_spec c d) as [->|N]; [exfalso; apply H; left; auto|]. rewrite IH; auto. intros X. apply H. right. auto.
Qed.
Lemma splitc_cons d a b : ~ In d a -> splitc d (a ++ d :: b) = a :: splitc d b.
Proof.
  induction a as [|c a IH]; intros H; [cbn; rewrite Ascii.eqb_refl; auto|]. change ((c :: a) ++ d :: b) with (c :: a ++ d :: b). cbn [splitc]. destruct (Ascii.eqb_spec c d) as [->|N]; [exfalso; apply H; left; auto|]. rewrite IH; [auto|]. intros X. apply H. right. auto.
Qed.
Lemma splitc_join d ps : ps <> [] -> (forall p, In p ps -> ~ In d p) -> splitc d (join d ps) = ps.
Proof.
  induction ps as [|p [|q ps] IH]; intros N H; [congruence| |].
  - cbn [join]. apply splitc_one. apply H. left. auto.
  - rewrite join_cons by discriminate. rewrite splitc_cons by (apply H; left; auto). rewrite IH; auto; [discriminate|]. intros x X. apply H. right. auto.
Qed.
Fixpoint solid (p : text) : bool := match p with [] => true | c :: q => (if Ascii.eqb c comma then closes q else true) && solid q end.
Lemma closes_app_true b r : closes b = true -> closes (b ++ r) = true.
Proof. rewrite !closes_true. intros (u & v & -> & F). exists u, (v ++ r). rewrite <- app_assoc. auto. Qed.
Lemma closes_app_false b r : closes b = false -> closes r = false -> closes (b ++ r) = false.
Proof. intros A B. induction b as [|c b IH]; auto. rewrite <- app_comm_cons. cbn [closes] in *. destruct (Ascii.eqb c lpar); auto. destruct (Ascii.eqb c rpar); auto. Qed.
Lemma resplit_cons p r : solid p = true -> closes r = false -> resplit (p ++ comma :: r) = p :: resplit r.
Proof.
  intros Sp C. induction p as [|c q IH]; cbn [app resplit].
  - rewrite Ascii.eqb_refl, C. auto.
  - cbn [solid] in Sp. apply andb_true_iff in Sp as (A & B). destruct (Ascii.eqb c comma) eqn:E; cbn [andb].
    + rewrite closes_app_true by auto. cbn [negb]. rewrite IH by auto. auto.
    + rewrite IH by auto. auto.
Qed.
Lemma resplit_one p : solid p = true -> resplit p = [p].
Proof.
  induction p as [|c q IH]; intros Sp; auto. cbn [solid resplit] in *. apply andb_true_iff in Sp as (A & B). destruct (Ascii.eqb c comma); cbn [andb]; rewrite ?A; cbn [negb]; rewrite IH by auto; auto.
Qed.
Lemma resplit_joined ps : ps <> [] -> (forall p, In p ps -> solid p = true /\ closes p = false) -> resplit (join comma ps) = ps /\ closes (join comma ps) = false.
Proof.
  induction ps as [|p [|q ps] IH]; intros N H; [congruence| |].
  - cbn [join]. destruct (H p) as (A & B); [left; auto|]. split; auto. apply resplit_one. auto.
  - rewrite join_cons by discriminate. destruct (H p) as (A & B); [left; auto|]. destruct IH as (I1 & I2); [discriminate|intros x X; apply H; right; auto|]. rewrite resplit_cons by auto. rewrite I1. split; auto.
    apply closes_app_false; auto.
Qed.
Lemma solid_plain p : ~ In comma p -> solid p = true.
Proof. induction p as [|c q IH]; intros H; auto. cbn [solid]. destruct (Ascii.eqb_spec c comma) as [->|_]; [exfalso; apply H; left; auto|]. apply IH. intros X. apply H. right. auto. Qed.
Lemma solid_inner t : flatc t -> solid (t ++ [rpar]) = true.
Proof.
  intros F. induction t as [|c t IH]; auto. assert (F' : flatc t) by (destruct F as (A & B); split; intros X; [apply A|apply B]; right; auto). cbn [app solid]. rewrite (IH F'). rewrite andb_true_r. destruct (Ascii.eqb c comma); auto. apply closes_true. exists t, []. auto.
Qed.
Lemma solid_app a b : ~ In comma a -> solid b = true -> solid (a ++ b) = true.
Proof. induction a as [|c a IH]; intros H B; auto. cbn [app solid]. destruct (Ascii.eqb_spec c comma) as [->|_]; [exfalso; apply H; left; auto|]. apply IH; auto. intros X. apply H. right. auto. Qed.
Lemma closes_flat s : flatc s -> closes s = false.
Proof. intros (A & B). destruct (closes s) eqn:E; auto. apply closes_true in E as (u & v & -> & _). exfalso. apply B. apply in_or_app. right. left. auto. Qed.
Lemma closes_open a b : flatc a -> closes (a ++ lpar :: b) = false.
Proof. intros F. apply closes_app_false; [apply closes_flat; auto|]. cbn. auto. Qed.

(** ** characters *)
Lemma forallb_notin (f : ascii -> bool) t c : forallb f t = true -> f c = false -> ~ In c t.
Proof. intros A B I. rewrite forallb_forall in A. rewrite (A c I) in B. discriminate. Qed.
Lemma contains_no c p t : ~ In c t -> contains (c :: p) t = false.
Proof.
  induction t as [|x t IH]; intros H; cbn [contains starts]; auto. destruct (Ascii.eqb_spec c x) as [->|N]; [exfalso; apply H; left; auto|]. cbn [andb orb]. apply IH. intros X. apply H. right. auto.
Qed.
Lemma contains_one c t : contains [c] t = existsb (Ascii.eqb c) t.
Proof. induction t as [|x t IH]; auto. cbn [contains starts existsb]. rewrite IH, andb_true_r. auto. Qed.
Lemma teq_true a b : teq a b = true <-> a = b.
Proof. unfold teq. destruct (list_eq_dec ascii_dec a b); split; auto; discriminate. Qed.
Lemma teq_false a b : a <> b -> teq a b = false.
Proof. intros H. destruct (teq a b) eqn:E; auto. apply teq_true in E. congruence. Qed.

(** ** numbers *)
Definition dig (c : ascii) : bool := existsb (Ascii.eqb c) (T "0123456789").
Lemma uint_chars u : forallb dig (T (NilEmpty.string_of_uint u)) = true.
Proof. induction u; cbn [NilEmpty.string_of_uint T list_ascii_of_string forallb] in *; auto. Qed.
Ltac dg := match goal with |- context [digit ?c] => let d := eval vm_compute in (digit c) in change (digit c) with d; cbv iota beta end.
Lemma uint_digits u p : digits (T (NilEmpty.string_of_uint u)) (Zpos p) true = Some (Zpos (Pos.of_uint_acc u p)).
Proof.
  unfold T. revert p. induction u; intros p; cbn [NilEmpty.string_of_uint list_ascii_of_string digits]; auto; dg; cbn [Pos.of_uint_acc]; rewrite <- IHu; f_equal; lia.
Qed.
Lemma uint_digits0 u : digits (T (NilEmpty.string_of_uint u)) 0 true = Some (Z.of_uint u).
Proof.
  unfold Z.of_uint. induction u; unfold T in *; cbn [NilEmpty.string_of_uint list_ascii_of_string digits Pos.of_uint]; auto; dg; try exact IHu;
  match goal with |- context [Pos.of_uint_acc u ?p] => pose proof (uint_digits u p) as Q end; exact Q.
Qed.
Lemma dig_first c r : dig c = true -> forall z b, digits (c :: r) z b = digits (c :: r) z true.
Proof.
  intros H z b. cbn [digits]. destruct (digit c) eqn:E; auto. exfalso. unfold dig in H. apply existsb_exists in H as (x & I & Ex). apply Ascii.eqb_eq in Ex. subst x. cbn in I. decompose [or] I; subst; try discriminate; auto.
Qed.
Lemma strip_plain s : (forall c, In c s -> is_space c = false) -> strip s = s.
Proof.
  assert (L : forall s, (forall c, In c s -> is_space c = false) -> lstrip s = s) by (intros [|c r] H; auto; cbn [lstrip]; rewrite H by (left; auto); auto).
  intros H. unfold strip. rewrite (L s) by auto. rewrite L; [apply rev_involutive|]. intros c I. apply H. apply in_rev. auto.
Qed.
Definition digm (c : ascii) : bool := existsb (Ascii.eqb c) (T "-0123456789").
Lemma nilzero_uint u : exists u', NilZero.string_of_uint u = NilEmpty.string_of_uint u' /\ Z.of_uint u' = Z.of_uint u /\ u' <> Decimal.Nil.
Proof. destruct u; [exists (Decimal.D0 Decimal.Nil)|..]; cbn [NilZero.string_of_uint]; eauto; repeat split; try discriminate; try reflexivity; eexists; repeat split; discriminate. Qed.
Lemma uint_first u : u <> Decimal.Nil -> exists c r, T (NilEmpty.string_of_uint u) = c :: r /\ dig c = true.
Proof. intros H. destruct u; [congruence|..]; cbn [NilEmpty.string_of_uint T list_ascii_of_string]; eauto. Qed.
Lemma dig_in c : dig c = true -> In c (T "0123456789").
Proof. unfold dig. intros H. apply existsb_exists in H as (x & I & E). apply Ascii.eqb_eq in E. subst. auto. Qed.
Lemma dig_space c : dig c = true -> is_space c = false /\ c <> "-"%char /\ c <> "+"%char.
Proof. intros H. apply dig_in in H. cbn in H. decompose [or] H; subst; try contradiction; repeat split; try discriminate; auto. Qed.
Lemma zstr_chars z : forallb digm (zstr z) = true.
Proof.
  unfold zstr. assert (U : forall u, forallb digm (T (NilZero.string_of_uint u)) = true).
  { intros u. destruct (nilzero_uint u) as (u' & -> & _ & _). pose proof (uint_chars u') as H. rewrite forallb_forall in *. intros c I. specialize (H c I). unfold dig, digm in *. change (T "-0123456789") with ("-"%char :: T "0123456789"). cbn [existsb]. rewrite H. apply orb_true_r. }
  destruct (Z.to_int z) as [u|u]; cbn [NilZero.string_of_int]; auto. cbn [T list_ascii_of_string forallb]. apply U.
Qed.
Lemma zstr_int z : py_int (zstr z) = Ok z.
Proof.
  assert (S1 : strip (zstr z) = zstr z).
  { apply strip_plain. intros c I. pose proof (zstr_chars z) as H. rewrite forallb_forall in H. specialize (H c I). unfold digm in H. change (T "-0123456789") with ("-"%char :: T "0123456789") in H. cbn [existsb] in H. apply orb_true_iff in H as [H|H]; [apply Ascii.eqb_eq in H; subst; auto|]. apply dig_space. auto. }
  unfold py_int. rewrite S1. pose proof (DecimalZ.of_to z) as E. unfold zstr. destruct (Z.to_int z) as [u|u]; cbn [NilZero.string_of_int]; destruct (nilzero_uint u) as (u' & -> & V & N).
  - destruct (uint_first u' N) as (c & r & Q & D). rewrite Q. destruct (dig_space c D) as (_ & N1 & N2). destruct (Ascii.eqb_spec c "-"%char); [congruence|]. destruct (Ascii.eqb_spec c "+"%char); [congruence|]. rewrite (dig_first c r D), <- Q, uint_digits0, V. cbn in E. rewrite <- E. auto.
  - cbn [T list_ascii_of_string]. rewrite Ascii.eqb_refl. fold (T (NilEmpty.string_of_uint u')). destruct (uint_first u' N) as (c & r & Q & D). rewrite Q, (dig_first c r D), <- Q, uint_digits0, V. cbn in *. rewrite <- E. auto.
Qed.
Lemma zstr_ne z : zstr z <> [].
Proof. unfold zstr. destruct (Z.to_int z) as [u|u]; cbn [NilZero.string_of_int]; [destruct (nilzero_uint u) as (u' & -> & V & N); destruct (uint_first u' N) as (c & r & -> & _)|]; discriminate. Qed.
