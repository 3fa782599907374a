(** Names of parameters: how many there are, and when they differ. *)
From Coq Require Import Reals List Arith ZArith Bool String Ascii Lia Lra DecimalString.
From Verif Require Session_Proof.
From Verif Require Import RBase PyList PyDict ListUtil Shape Order Writer_Model Yields_Model Init_Model Param_Model Param_Spec Param_Comp Param_Mix Param_Axis Param_Sat Param_Region Param_Abcd Param_Smooth Param_SmoothModel.
Import ListNotations.
Local Open Scope nat_scope.

(** ** strings as lists of characters *)
Definition chars := list_ascii_of_string.
Lemma chars_app a b : chars (a ++ b) = chars a ++ chars b.
Proof. unfold chars. induction a as [|c a IH]; auto. cbn [String.append list_ascii_of_string app]. rewrite IH. auto. Qed.
Lemma chars_inj a b : chars a = chars b -> a = b.
Proof. apply list_ascii_inj. Qed.
Lemma app_inj_l (a b c : string) : (a ++ b)%string = (a ++ c)%string -> b = c.
Proof. intros H. apply (f_equal chars) in H. rewrite !chars_app in H. apply app_inv_head in H. apply chars_inj; auto. Qed.
Definition is_digit (c : ascii) : bool := let n := nat_of_ascii c in Nat.leb 48 n && Nat.leb n 57.
Fixpoint lead (l : list ascii) : nat := match l with c :: r => if is_digit c then S (lead r) else 0 | [] => 0 end.
Lemma lead_stop a b : existsb (fun c => negb (is_digit c)) a = true -> lead (a ++ b) = lead a.
Proof. induction a as [|c a IH]; intros H; [discriminate|]. cbn [existsb] in H. cbn [app lead]. destruct (is_digit c); cbn [negb orb] in H; auto. Qed.
Lemma lead_digits a b : forallb is_digit a = true -> lead (a ++ b) = List.length a + lead b.
Proof. induction a as [|c a IH]; intros H; auto. cbn [forallb] in H. apply andb_true_iff in H as (D & H). cbn [app lead List.length]. rewrite D, IH by auto. lia. Qed.
Lemma uint_digits u : forallb is_digit (chars (NilEmpty.string_of_uint u)) = true.
Proof. induction u; auto. Qed.
Lemma nat_str_digits n : forallb is_digit (chars (nat_str n)) = true.
Proof. unfold nat_str, NilZero.string_of_uint. destruct (Nat.to_uint n) as [|u|u|u|u|u|u|u|u|u|u]; try reflexivity; [exact (uint_digits (Decimal.D0 u))|exact (uint_digits (Decimal.D1 u))|exact (uint_digits (Decimal.D2 u))|exact (uint_digits (Decimal.D3 u))|exact (uint_digits (Decimal.D4 u))|exact (uint_digits (Decimal.D5 u))|exact (uint_digits (Decimal.D6 u))|exact (uint_digits (Decimal.D7 u))|exact (uint_digits (Decimal.D8 u))|exact (uint_digits (Decimal.D9 u))]. Qed.
Lemma forallb_rev {A} (f : A -> bool) l : forallb f (rev l) = forallb f l.
Proof. apply eq_true_iff_eq. rewrite !forallb_forall. split; intros H x I; apply H; [apply -> in_rev; auto|apply in_rev; auto]. Qed.
Lemma existsb_rev {A} (f : A -> bool) l : existsb f (rev l) = existsb f l.
Proof. apply eq_true_iff_eq. rewrite !existsb_exists. split; intros (x & I & H); exists x; split; auto; [apply in_rev; auto|apply -> in_rev; auto]. Qed.
Lemma app_split {A} (a b c d : list A) : a ++ b = c ++ d -> List.length b <= List.length d -> exists e, d = e ++ b /\ a = c ++ e.
Proof.
  revert c. induction a as [|x a IH]; intros [|y c] E L; cbn [app] in E.
  - exists []. auto.
  - exfalso. subst b. cbn [List.length] in L. rewrite app_length in L. lia.
  - exists (x :: a). auto.
  - injection E as -> E. destruct (IH c E L) as (e & -> & ->). exists e. auto.
Qed.
(** a number at the end of a text whose part before it contains something else than digits *)
Lemma trailing (P Q m : list ascii) (d e : list ascii) : existsb (fun c => negb (is_digit c)) m = true -> forallb is_digit d = true -> forallb is_digit e = true ->
  P ++ m ++ d = Q ++ m ++ e -> P = Q /\ d = e.
Proof.
  assert (W : forall P Q d e, existsb (fun c => negb (is_digit c)) m = true -> forallb is_digit d = true -> forallb is_digit e = true -> P ++ m ++ d = Q ++ m ++ e -> List.length d <= List.length e -> P = Q /\ d = e).
  { clear. intros P Q d e M D E H L. rewrite !app_assoc in H. destruct (app_split _ _ _ _ H L) as (f & -> & F).
    rewrite forallb_app in E. apply andb_true_iff in E as (Ef & _).
    apply (f_equal (@rev ascii)) in F. assert (G := f_equal lead F). rewrite !rev_app_distr in G. rewrite lead_stop in G by (rewrite existsb_rev; auto).
    rewrite lead_digits in G by (rewrite forallb_rev; auto). rewrite lead_stop in G by (rewrite existsb_rev; auto). rewrite rev_length in G.
    assert (f = []) by (apply length_zero_iff_nil; lia). subst f. cbn [rev app] in *. split; auto. apply (f_equal (@rev ascii)) in F. rewrite !rev_involutive in F. rewrite app_nil_r in F. apply app_inv_tail in F. auto. }
  intros M D E H. destruct (le_ge_dec (List.length d) (List.length e)) as [L|L]; [apply W; auto|]. destruct (W Q P e d) as (A & B); auto.
Qed.
Lemma nat_str_inj' i j : chars (nat_str i) = chars (nat_str j) -> i = j.
Proof. intros H. apply Session_Proof.nat_str_inj. apply chars_inj. auto. Qed.
(** ** a process (or any text) followed by the label of a bin determines both *)
Definition lab (axes : list axis) (idx : list nat) : list ascii := flat_map (fun ai : axis * nat => "_"%char :: chars (ax_name (fst ai)) ++ chars (nat_str (snd ai))) (combine axes idx).
Lemma chars_concat (l : list string) : l <> [] -> "_"%char :: chars (String.concat "_" l) = flat_map (fun s => "_"%char :: chars s) l.
Proof.
  induction l as [|a l IH]; intros H; [contradiction|]. destruct l as [|b l].
  - cbn [flat_map String.concat]. rewrite app_nil_r. auto.
  - change (String.concat "_" (a :: b :: l)) with (a ++ "_" ++ String.concat "_" (b :: l))%string. rewrite !chars_app. cbn [flat_map]. cbn [flat_map] in IH. rewrite <- IH by discriminate. reflexivity.
Qed.
Lemma lab_eq axes idx : combine axes idx <> [] -> "_"%char :: chars (bin_label axes idx) = lab axes idx.
Proof.
  intros H. unfold bin_label, join_names. rewrite chars_concat by (destruct (combine axes idx); [congruence|discriminate]). unfold lab. rewrite flat_map_concat_map, map_map, flat_map_concat_map. f_equal. apply map_ext. intros [a i]. cbn [fst snd]. rewrite chars_app. auto.
Qed.
Lemma lab_inj axes : forall P Q idx idx', List.length idx = List.length axes -> List.length idx' = List.length axes -> P ++ lab axes idx = Q ++ lab axes idx' -> P = Q /\ idx = idx'.
Proof.
  induction axes as [|a axes IH] using rev_ind; intros P Q idx idx' L L' H.
  - apply length_zero_iff_nil in L, L'. subst. unfold lab in H. cbn in H. rewrite !app_nil_r in H. auto.
  - rewrite app_length in L, L'. cbn [List.length] in L, L'.
    destruct (@exists_last _ idx) as (i & x & ->); [intros ->; cbn in L; lia|]. destruct (@exists_last _ idx') as (i' & x' & ->); [intros ->; cbn in L'; lia|].
    rewrite app_length in L, L'. cbn [List.length] in L, L'. unfold lab in H. rewrite !combine_app in H by lia. rewrite !flat_map_app in H. cbn [combine flat_map fst snd] in H. rewrite !app_nil_r in H.
    assert (T : (P ++ lab axes i) ++ ("_"%char :: chars (ax_name a)) ++ chars (nat_str x) = (Q ++ lab axes i') ++ ("_"%char :: chars (ax_name a)) ++ chars (nat_str x')) by (rewrite <- !app_assoc; exact H).
    apply trailing in T as (T & D); [|reflexivity|apply nat_str_digits|apply nat_str_digits]. apply nat_str_inj' in D. subst x'. destruct (IH P Q i i') as (-> & ->); auto; lia.
Qed.
Lemma named_inj (pre : string) axes p q idx idx' : List.length idx = List.length axes -> List.length idx' = List.length axes ->
  (pre ++ "_" ++ p ++ "_" ++ bin_label axes idx)%string = (pre ++ "_" ++ q ++ "_" ++ bin_label axes idx')%string -> p = q /\ idx = idx'.
Proof.
  intros L L' H. apply app_inj_l, app_inj_l in H. apply (f_equal chars) in H. rewrite !chars_app in H. cbn [chars list_ascii_of_string app] in H.
  destruct axes as [|a axes].
  - apply length_zero_iff_nil in L, L'. subst. split; auto. apply app_inv_tail in H. apply chars_inj. auto.
  - destruct idx as [|x idx]; [discriminate|]. destruct idx' as [|x' idx']; [discriminate|]. rewrite !lab_eq in H by discriminate. apply lab_inj in H as (E & ->); auto. split; auto. apply chars_inj. auto.
Qed.
(** ** counts *)
Lemma flat_map_const {A B} (f : A -> list B) n l : (forall x, In x l -> List.length (f x) = n) -> List.length (flat_map f l) = List.length l * n.
Proof. apply flat_map_len. Qed.
Lemma set_defaults_len params : forall sig (dft d' : list R), set_defaults params sig dft = Ok d' -> List.length d' = List.length dft.
Proof.
  assert (U : forall i (v : R) l, List.length (upd_nth i v l) = List.length l) by (induction i; intros v [|a l]; simpl; auto).
  induction sig as [|[s v] sig IH]; intros dft d' H; cbn [set_defaults] in H; [congruence|]. destruct (index_of s params); [|discriminate]. apply IH in H. rewrite H. apply U.
Qed.
Lemma simple_sized n params dft an lin f : List.length params = n -> List.length dft = n -> sized_model (simple_model n params dft an lin f).
Proof. intros H1 H2. unfold sized_model, simple_model, nparams. cbn [m_params m_npoi m_npou m_default m_sigmas m_means]. rewrite Nat.add_0_r. split; auto. split; auto. split; discriminate. Qed.
Lemma pou_sized n params dft f : List.length params = n -> List.length dft = n -> sized_model (mkModel 0 n params dft false false None None [] f).
Proof. intros H1 H2. unfold sized_model, nparams. cbn [m_params m_npoi m_npou m_default m_sigmas m_means Nat.add]. split; auto. split; auto. split; discriminate. Qed.
Theorem ones_sized : sized_model ones_model.
Proof. apply simple_sized; auto. Qed.
Theorem mu_sized d e an m : mu_model d e an = Ok m -> sized_model m /\ m_params m = pd_signals d.
Proof.
  unfold mu_model. destruct (set_param_default (pd_signals d) _ e an) as [dft|] eqn:D; [|discriminate]. cbn [rbind]. intros E. injection E as <-. apply set_default_len in D. split; auto. apply simple_sized; auto.
Qed.
Theorem mixture_sized d ps cs e an m : mixture_model d ps cs e an = Ok m -> sized_model m.
Proof.
  unfold mixture_model. destruct (Nat.eqb_spec (List.length ps) (List.length cs)) as [L|]; [|discriminate]. cbn [negb].
  destruct (negb (forallb (fun p => smem p (pd_procs d)) ps)); [discriminate|]. destruct (negb (forallb (fun p => smem p (pd_procs d)) cs)); [discriminate|].
  destruct (set_param_default (mixture_names ps cs) (List.length ps) e an) as [dft|] eqn:D; [|discriminate]. cbn [rbind]. intros E. injection E as <-. apply set_default_len in D.
  assert (Ln : List.length (mixture_names ps cs) = List.length ps) by (unfold mixture_names; rewrite map_length, combine_length; lia). apply simple_sized; congruence.
Qed.
Theorem axis_norm_names d ch spec names e m : axis_norm d ch spec names e = Ok m ->
  sized_model m /\ let procs := match spec with None => pd_procs d | Some l => l end in
  exists axes, map ax_name axes = names /\ m_params m = flat_map (fun p => poly_names "norm" p axes) procs.
Proof.
  unfold axis_norm. destruct (dget ch (pd_channels d)) as [c|]; [|discriminate]. destruct (rmap (get_axis (cn_axes c)) names) as [axes|] eqn:Ax; [|discriminate]. cbn [rbind].
  destruct (target_procs d spec) as [procs|] eqn:T; [|discriminate]. cbn [rbind]. apply target_ok in T as (-> & _). set (procs := match spec with None => pd_procs d | Some l => l end).
  destruct (set_defaults _ _ _) as [dft|] eqn:D; [|discriminate]. cbn [rbind]. intros E. injection E as <-. apply set_defaults_len in D. rewrite repeat_length in D.
  split.
  - apply simple_sized; [|rewrite map_length; auto]. rewrite norm_names_poly. rewrite map_length. apply flat_map_len. intros. apply poly_names_len.
  - exists axes. split; [|apply norm_names_poly]. apply rmap_ok in Ax. clear -Ax. induction Ax as [|n a names axes E Ax IH]; auto. cbn [map]. f_equal; auto. unfold get_axis in E. destruct (find_axis n (cn_axes c)) eqn:F; [|discriminate]. injection E as <-. apply find_axis_name in F. tauto.
Qed.
Theorem axis_exp_names d ch spec sn cells slopes m : axis_exp d ch spec sn cells slopes = Ok m ->
  sized_model m /\ let procs := match spec with None => pd_procs d | Some l => l end in
  exists ca sl, m_params m = flat_map (fun p => poly_names "lnAmpl" p ca ++ poly_names "slope" p sl) procs.
Proof.
  unfold axis_exp. destruct (dget ch (pd_channels d)) as [c|]; [|discriminate]. destruct (shape_axis_ok (cn_axes c) sn cells) as [sc|]; [|discriminate]. cbn [rbind].
  destruct (negb (forallb _ _)); [discriminate|]. destruct (rmap (get_axis (cn_axes c)) _) as [sl|]; [|discriminate]. cbn [rbind].
  destruct (target_procs d spec) as [procs|] eqn:T; [|discriminate]. cbn [rbind]. apply target_ok in T as (-> & _). set (procs := match spec with None => pd_procs d | Some l => l end). intros E. injection E as <-.
  split; [|exists (snd sc), sl; reflexivity]. apply simple_sized; [|apply repeat_length]. rewrite map_length. apply flat_map_len. intros p _. rewrite app_length, !poly_names_len. auto.
Qed.
Theorem axis_bernstein_names d ch spec sn cells e m : axis_bernstein d ch spec sn cells e = Ok m ->
  sized_model m /\ let procs := match spec with None => pd_procs d | Some l => l end in
  exists ca, m_params m = flat_map (fun p => poly_names "c0" p ca ++ poly_names "c1" p ca) procs.
Proof.
  unfold axis_bernstein. destruct (dget ch (pd_channels d)) as [c|]; [|discriminate]. destruct (shape_axis_ok (cn_axes c) sn cells) as [sc|]; [|discriminate]. cbn [rbind].
  destruct (target_procs d spec) as [procs|] eqn:T; [|discriminate]. cbn [rbind]. apply target_ok in T as (-> & _). set (procs := match spec with None => pd_procs d | Some l => l end). destruct e; [discriminate|]. intros E. injection E as <-.
  split; [|exists (snd sc); reflexivity]. apply simple_sized; [|apply repeat_length]. rewrite map_length. rewrite (flat_map_len _ (prodn (sizes (snd sc)) + prodn (sizes (snd sc)))); [lia|]. intros p _. rewrite app_length, !poly_names_len. auto.
Qed.
Theorem saturated_sized d mp an m : saturated_model d mp an = Ok m -> sized_model m /\ m_params m = sat_names mp.
Proof.
  unfold saturated_model. destruct (set_param_default _ _ None an) as [dft|] eqn:D; [|discriminate]. cbn [rbind]. intros E. injection E as <-. split; auto. apply set_default_len in D. rewrite repeat_length in D. apply simple_sized; auto.
  unfold sat_names. clear. induction mp as [|[k axes] mp IH]; auto. cbn [flat_map map fst snd]. rewrite app_length, IH, map_length, all_idx_len. auto.
Qed.
Definition nonneg (r : region) : Prop := Forall (fun s => 0 <= snd s)%Z (rg_sel r).
(** the names of a region, bin by bin *)
Lemma region_names_bins process d r c fixed : dget (rg_chan r) (pd_channels d) = Some c -> resolve_sel (cn_axes c) (rg_sel r) = Ok fixed -> nonneg r ->
  region_names process d r = map (fun idx => (process ++ "_" ++ rg_chan r ++ "_" ++ bin_label (cn_axes c) idx)%string) (sel_bins (cn_axes c) fixed).
Proof.
  intros Ec Rs N. unfold region_names, sel_bins. rewrite Ec. f_equal. apply filter_ext. intros idx. apply resolve_ok in Rs. unfold nonneg in N. revert N Rs. generalize (rg_sel r). intros sel N H. revert N. induction H as [|s f sel fixed' (P & Q) H IH]; intros N; auto.
  inversion N as [|? ? N1 N2]; subst. cbn [forallb]. rewrite P, (IH N2). f_equal. apply np_index_ok in Q as (_ & Q). destruct (Z.ltb_spec (snd s) 0); [lia|].
  destruct (Nat.eqb_spec (nth (fst f) idx 0) (snd f)) as [E|E]; [apply Z.eqb_eq; lia|apply Z.eqb_neq; lia].
Qed.
Lemma region_names_len process d r idx : global_indices d r = Ok idx -> nonneg r -> List.length (region_names process d r) = List.length idx.
Proof.
  unfold global_indices. destruct (dget (rg_chan r) (pd_channels d)) as [c|] eqn:Ec; [|discriminate]. destruct (resolve_sel (cn_axes c) (rg_sel r)) as [fixed|] eqn:Rs; [|discriminate]. cbn [rbind]. intros E N. injection E as <-.
  rewrite (region_names_bins process d r c fixed) by auto. rewrite !map_length. auto.
Qed.
Lemma region_names_at process d r idx c i : global_indices d r = Ok idx -> region_ok d r -> nonneg r -> dget (rg_chan r) (pd_channels d) = Some c -> in_shape (shape_of c) i -> selected c r i ->
  nth_error (region_names process d r) (ravel (free_shape d r) (on_free c r i)) = Some (process ++ "_" ++ rg_chan r ++ "_" ++ label (map ax_name (cn_axes c)) i)%string.
Proof.
  intros G O N Ec I S. destruct (global_indices_spec d r idx G O) as (_ & A & _). destruct (A (cn_start c + ravel (shape_of c) i) (on_free c r i)) as (_ & E); [exists c, i; auto|].
  unfold global_indices in G. rewrite Ec in G. destruct (resolve_sel (cn_axes c) (rg_sel r)) as [fixed|] eqn:Rs; [|discriminate]. cbn [rbind] in G. injection G as <-.
  rewrite (region_names_bins process d r c fixed) by auto. rewrite nth_error_map' in E. rewrite nth_error_map'. destruct (nth_error (sel_bins (cn_axes c) fixed) (ravel (free_shape d r) (on_free c r i))) as [i'|] eqn:E'; [|discriminate]. cbn [option_map] in E |- *. injection E as E.
  apply nth_error_In in E'. unfold sel_bins in E'. apply filter_In in E' as (I' & _). apply all_idx_In in I'. assert (i' = i) by (apply (ravel_inj (shape_of c)); auto; unfold shape_of in *; unfold sizes in *; lia). subst i'. rewrite label_eq. auto.
Qed.
Theorem abcd_sized d process rA rB rC rD corr m : abcd_model d process rA rB rC rD corr = Ok m -> Forall nonneg [rA; rB; rC] -> sized_model m.
Proof.
  unfold abcd_model. destruct (negb (smem process (pd_procs d))); [discriminate|].
  destruct (global_indices d rA) as [iA|] eqn:GA; [|discriminate]. destruct (global_indices d rB) as [iB|] eqn:GB; [|discriminate].
  destruct (global_indices d rC) as [iC|] eqn:GC; [|discriminate]. destruct (global_indices d rD) as [iD|] eqn:GD; [|discriminate]. cbn [rbind].
  destruct (same_len (List.length iA) [iB; iC; iD]) eqn:SL; [|discriminate]. cbn [negb]. intros E NN. injection E as <-. apply pou_sized; [|apply repeat_length].
  unfold same_len in SL. rewrite forallb_forall in SL. inversion NN as [|? ? NA NN1]; subst. inversion NN1 as [|? ? NB NN2]; subst. inversion NN2 as [|? ? NC _]; subst.
  cbn [flat_map]. rewrite !app_length. rewrite (region_names_len _ _ _ _ GA), (region_names_len _ _ _ _ GB), (region_names_len _ _ _ _ GC) by auto.
  assert (List.length iB = List.length iA) by (apply Nat.eqb_eq, SL; simpl; auto). assert (List.length iC = List.length iA) by (apply Nat.eqb_eq, SL; simpl; auto). cbn [List.length]. lia.
Qed.
Theorem ext_abcd_sized d process rA rB rC rD rAx rBx corr m : ext_abcd_model d process rA rB rC rD rAx rBx corr = Ok m -> Forall nonneg [rA; rB; rC; rAx; rBx] -> sized_model m.
Proof.
  unfold ext_abcd_model. destruct (negb (smem process (pd_procs d))); [discriminate|].
  destruct (global_indices d rA) as [iA|] eqn:GA; [|discriminate]. destruct (global_indices d rB) as [iB|] eqn:GB; [|discriminate].
  destruct (global_indices d rC) as [iC|] eqn:GC; [|discriminate]. destruct (global_indices d rD) as [iD|] eqn:GD; [|discriminate].
  destruct (global_indices d rAx) as [iAx|] eqn:GAx; [|discriminate]. destruct (global_indices d rBx) as [iBx|] eqn:GBx; [|discriminate]. cbn [rbind].
  destruct (same_len (List.length iA) [iB; iC; iD; iAx; iBx]) eqn:SL; [|discriminate]. cbn [negb]. intros E NN. injection E as <-. apply pou_sized; [|apply repeat_length].
  unfold same_len in SL. rewrite forallb_forall in SL. inversion NN as [|? ? NA NN1]; subst. inversion NN1 as [|? ? NB NN2]; subst. inversion NN2 as [|? ? NC NN3]; subst. inversion NN3 as [|? ? NAx NN4]; subst. inversion NN4 as [|? ? NBx _]; subst.
  cbn [flat_map]. rewrite !app_length. rewrite (region_names_len _ _ _ _ GA), (region_names_len _ _ _ _ GB), (region_names_len _ _ _ _ GC), (region_names_len _ _ _ _ GAx), (region_names_len _ _ _ _ GBx) by auto.
  assert (List.length iB = List.length iA) by (apply Nat.eqb_eq, SL; simpl; auto). assert (List.length iC = List.length iA) by (apply Nat.eqb_eq, SL; simpl; auto).
  assert (List.length iAx = List.length iA) by (apply Nat.eqb_eq, SL; simpl; auto 8). assert (List.length iBx = List.length iA) by (apply Nat.eqb_eq, SL; simpl; auto 8). cbn [List.length]. lia.
Qed.
Lemma ok_inj {A} (a b : A) : Ok a = Ok b -> a = b.
Proof. congruence. Qed.
Lemma smooth_names_len process order (rs : list (string * (region * list axis))) no : (forall t, In t rs -> prodn (sizes (snd (snd t))) = no) -> List.length (smooth_names process order rs) = List.length rs * no * (order + 1).
Proof.
  intros H. unfold smooth_names. rewrite (flat_map_len _ (no * (order + 1))); [lia|]. intros t I. rewrite (flat_map_len _ (order + 1)); [rewrite all_idx_len, (H t I); auto|]. intros. rewrite map_length, seq_length. auto.
Qed.
Lemma smooth_outer_len d ax r s : smooth_region d ax r = Ok s -> prodn (sizes (fst (fst s))) = List.length (snd s).
Proof.
  unfold smooth_region. destruct (dget (rg_chan r) (pd_channels d)) as [c|]; [|discriminate]. destruct (find_axis ax _); [|discriminate]. destruct (rmap _ _) as [bs|] eqn:Rb; [|discriminate]. cbn [rbind]. intros E. injection E as <-. cbn [fst snd].
  apply rmap_ok in Rb. apply Forall2_len in Rb. rewrite all_idx_len in Rb. auto.
Qed.
Theorem smooth_abcd_sized d ax process rA rB rC rD order corr m : smooth_abcd_model d ax process rA rB rC rD order corr = Ok m -> sized_model m.
Proof.
  unfold smooth_abcd_model. destruct (negb (smem process (pd_procs d))); [discriminate|].
  destruct (smooth_region d ax rA) as [sA|] eqn:GA; [|discriminate]. destruct (smooth_region d ax rB) as [sB|] eqn:GB; [|discriminate].
  destruct (smooth_region d ax rC) as [sC|] eqn:GC; [|discriminate]. destruct (smooth_region d ax rD) as [sD|] eqn:GD; [|discriminate]. cbn [rbind].
  destruct (negb (forallb (fun s => Nat.eqb (snd (fst s)) (snd (fst sA))) [sB; sC; sD])); [discriminate|].
  destruct (forallb (fun s => Nat.eqb (List.length (snd s)) (List.length (snd sA))) [sB; sC; sD]) eqn:F2; [|discriminate]. cbn [negb]. intros E. apply ok_inj in E. subst m. apply pou_sized; [|apply repeat_length].
  rewrite forallb_forall in F2. assert (List.length (snd sB) = List.length (snd sA)) by (apply Nat.eqb_eq, F2; simpl; auto). assert (List.length (snd sC) = List.length (snd sA)) by (apply Nat.eqb_eq, F2; simpl; auto).
  rewrite (smooth_names_len process order _ (List.length (snd sA))); [reflexivity|]. intros t I. cbn [In] in I. repeat (destruct I as [I|I]; [subst t; cbn [fst snd]; erewrite smooth_outer_len by eauto; auto|]). destruct I.
Qed.
Theorem smooth_ext_sized d ax process rA rB rC rD rAx rBx order init corr m : smooth_ext_model d ax process rA rB rC rD rAx rBx order init corr = Ok m -> sized_model m.
Proof.
  unfold smooth_ext_model. destruct (negb (smem process (pd_procs d))); [discriminate|].
  destruct (smooth_region d ax rA) as [sA|] eqn:GA; [|discriminate]. destruct (smooth_region d ax rB) as [sB|] eqn:GB; [|discriminate].
  destruct (smooth_region d ax rC) as [sC|] eqn:GC; [|discriminate]. destruct (smooth_region d ax rD) as [sD|] eqn:GD; [|discriminate].
  destruct (smooth_region d ax rAx) as [sAx|] eqn:GAx; [|discriminate]. destruct (smooth_region d ax rBx) as [sBx|] eqn:GBx; [|discriminate]. cbn [rbind].
  destruct (negb (forallb (fun s => Nat.eqb (snd (fst s)) (snd (fst sA))) [sB; sC; sD; sAx; sBx])); [discriminate|].
  destruct (forallb (fun s => Nat.eqb (List.length (snd s)) (List.length (snd sA))) [sB; sC; sD; sAx; sBx]) eqn:F2; [|discriminate]. cbn [negb].
  match goal with |- rbind ?q _ = _ -> _ => destruct q as [dft|] eqn:Ini; [|discriminate] end. cbn [rbind]. intros E. apply ok_inj in E. subst m. apply pou_sized.
  - rewrite forallb_forall in F2. assert (List.length (snd sB) = List.length (snd sA)) by (apply Nat.eqb_eq, F2; simpl; auto). assert (List.length (snd sC) = List.length (snd sA)) by (apply Nat.eqb_eq, F2; simpl; auto).
    assert (List.length (snd sAx) = List.length (snd sA)) by (apply Nat.eqb_eq, F2; simpl; auto 8). assert (List.length (snd sBx) = List.length (snd sA)) by (apply Nat.eqb_eq, F2; simpl; auto 8).
    rewrite (smooth_names_len process order _ (List.length (snd sA))); [reflexivity|]. intros t I. cbn [In] in I. repeat (destruct I as [I|I]; [subst t; cbn [fst snd]; erewrite smooth_outer_len by eauto; auto|]). destruct I.
  - destruct init as [l|]; [|injection Ini as <-; apply repeat_length]. destruct (Nat.eqb_spec (List.length l) (5 * List.length (snd sA) * (order + 1))); [|discriminate]. injection Ini as <-. auto.
Qed.
(** ** distinct names *)
Lemma NoDup_flat_map {A B} (f : A -> list B) l : NoDup l -> (forall x, In x l -> NoDup (f x)) -> (forall x y s, In x l -> In y l -> In s (f x) -> In s (f y) -> x = y) -> NoDup (flat_map f l).
Proof.
  induction 1 as [|a l N ND IH]; intros H D; [constructor|]. cbn [flat_map]. apply NoDup_app'; [apply H; simpl; auto|apply IH; [intros; apply H; simpl; auto|intros; eapply D; simpl; eauto]|].
  intros s I J. apply in_flat_map in J as (b & Ib & J). assert (a = b) by (eapply D; simpl; eauto). subst. auto.
Qed.
Lemma NoDup_map_inj {A B} (f : A -> B) l : NoDup l -> (forall x y, In x l -> In y l -> f x = f y -> x = y) -> NoDup (map f l).
Proof.
  induction 1 as [|a l N ND IH]; intros H; cbn [map]; constructor.
  - intros I. apply in_map_iff in I as (b & E & I). assert (b = a) by (apply H; simpl; auto). subst. auto.
  - apply IH. intros; apply H; simpl; auto.
Qed.
Lemma cell_len axes idx : In idx (all_idx (sizes axes)) -> List.length idx = List.length axes.
Proof. intros I. apply all_idx_In, in_shape_len in I. rewrite I. apply map_length. Qed.
Lemma poly_names_NoDup pre p axes : NoDup (poly_names pre p axes).
Proof. apply NoDup_map_inj; [apply all_idx_NoDup|]. intros x y Ix Iy E. apply named_inj in E; [tauto| |]; apply cell_len; auto. Qed.
Lemma poly_names_same pre p q axes s : In s (poly_names pre p axes) -> In s (poly_names pre q axes) -> p = q.
Proof.
  intros I J. apply in_map_iff in I as (x & <- & I). apply in_map_iff in J as (y & E & J). symmetry. apply named_inj in E; [tauto| |]; apply cell_len; auto.
Qed.
Lemma norm_NoDup procs axes : NoDup procs -> NoDup (flat_map (fun p => poly_names "norm" p axes) procs).
Proof. intros H. apply NoDup_flat_map; auto; intros; [apply poly_names_NoDup|eapply poly_names_same; eauto]. Qed.
Lemma two_NoDup pre pre' procs axes axes' : NoDup procs -> (forall x y, (pre ++ x)%string <> (pre' ++ y)%string) -> NoDup (flat_map (fun p => poly_names pre p axes ++ poly_names pre' p axes') procs).
Proof.
  intros H D. assert (X : forall p q s, In s (poly_names pre p axes) -> In s (poly_names pre' q axes') -> False).
  { intros p q s I J. apply in_map_iff in I as (x & <- & _). apply in_map_iff in J as (y & E & _). symmetry in E. apply D in E. auto. }
  apply NoDup_flat_map; auto.
  - intros p _. apply NoDup_app'; try apply poly_names_NoDup. intros s I J. eapply X; eauto.
  - intros p q s _ _ I J. apply in_app_or in I, J. destruct I as [I|I], J as [J|J]; try (exfalso; eapply X; eauto; fail); eapply poly_names_same; eauto.
Qed.
(** regions of one channel without common bins *)
Lemma region_names_In process d r s : In s (region_names process d r) -> exists c idx, dget (rg_chan r) (pd_channels d) = Some c /\ in_shape (shape_of c) idx /\
  (forall n z, In (n, z) (rg_sel r) -> exists i, axis_pos (cn_axes c) n = Some i /\ Z.of_nat (nth i idx 0) = z) /\ s = (process ++ "_" ++ rg_chan r ++ "_" ++ bin_label (cn_axes c) idx)%string.
Proof.
  unfold region_names. destruct (dget (rg_chan r) (pd_channels d)) as [c|] eqn:Ec; [|intros []]. intros I. apply in_map_iff in I as (idx & <- & I). apply filter_In in I as (I & F). apply all_idx_In in I.
  exists c, idx. split; auto. split; auto. split; auto. intros n z J. rewrite forallb_forall in F. apply F in J. cbn [fst snd] in J. destruct (axis_pos (cn_axes c) n) as [i|]; [|discriminate]. apply Z.eqb_eq in J. eauto.
Qed.
Lemma region_names_in_region process d r s : In s (region_names process d r) -> exists c idx, dget (rg_chan r) (pd_channels d) = Some c /\ in_shape (shape_of c) idx /\
  (exists l, in_region d r (cn_start c + ravel (shape_of c) idx) l) /\ s = (process ++ "_" ++ rg_chan r ++ "_" ++ bin_label (cn_axes c) idx)%string.
Proof.
  intros I. apply region_names_In in I as (c & idx & Ec & I & S & ->). exists c, idx. split; auto. split; auto. split; auto. exists (on_free c r idx), c, idx. split; auto. split; auto. split; auto.
  intros n z J. destruct (S n z J) as (i & P & V). apply axis_pos_Some in P as (a & A & Na). exists i, a. split; auto. split; auto. destruct (Z.ltb_spec z 0); lia.
Qed.
Lemma region_names_NoDup process d ch rs : Forall (fun r => rg_chan r = ch) rs -> disjoint (map (in_region d) rs) -> NoDup (flat_map (region_names process d) rs).
Proof.
  intros C D. rewrite flat_map_concat_map. apply NoDup_concat.
  - intros l I. apply in_map_iff in I as (r & <- & I). unfold region_names. destruct (dget (rg_chan r) (pd_channels d)) as [c|]; [|constructor].
    apply NoDup_map_inj; [apply NoDup_filter', all_idx_NoDup|]. intros x y Ix Iy E. apply filter_In in Ix as (Ix & _), Iy as (Iy & _). apply named_inj in E; [tauto| |]; apply cell_len; auto.
  - intros i j l l' s A B I J. rewrite nth_error_map' in A, B. destruct (nth_error rs i) as [r|] eqn:Ri; [|discriminate]. destruct (nth_error rs j) as [r'|] eqn:Rj; [|discriminate]. cbn [option_map] in A, B. injection A as <-. injection B as <-.
    rewrite Forall_forall in C. pose proof (C r (nth_error_In _ _ Ri)) as Cr. pose proof (C r' (nth_error_In _ _ Rj)) as Cr'.
    apply region_names_in_region in I as (c & x & Ec & Sx & (lx & Ux) & ->). apply region_names_in_region in J as (c' & y & Ec' & Sy & (ly & Uy) & E).
    rewrite Cr in *. rewrite Cr' in *. rewrite Ec in Ec'. injection Ec' as <-.
    apply named_inj in E; [|rewrite (in_shape_len _ _ Sx); apply map_length|rewrite (in_shape_len _ _ Sy); apply map_length]. destruct E as (_ & ->).
    refine (D i j (in_region d r) (in_region d r') (cn_start c + ravel (shape_of c) y) lx ly _ _ Ux Uy); rewrite nth_error_map'; [rewrite Ri|rewrite Rj]; auto.
Qed.
Theorem abcd_names_distinct d process rA rB rC rD corr m ch : abcd_model d process rA rB rC rD corr = Ok m -> Forall (fun r => rg_chan r = ch) [rA; rB; rC] -> disjoint (map (in_region d) [rA; rB; rC]) -> NoDup (m_params m).
Proof.
  intros H C D. assert (E : m_params m = flat_map (region_names process d) [rA; rB; rC]).
  { unfold abcd_model in H. destruct (negb (smem process (pd_procs d))); [discriminate|].
    destruct (global_indices d rA); [|discriminate]. destruct (global_indices d rB); [|discriminate]. destruct (global_indices d rC); [|discriminate]. destruct (global_indices d rD); [|discriminate]. cbn [rbind] in H.
    destruct (negb (same_len _ _)); [discriminate|]. injection H as <-. auto. }
  rewrite E. eapply region_names_NoDup; eauto.
Qed.
Theorem ext_abcd_names_distinct d process rA rB rC rD rAx rBx corr m ch : ext_abcd_model d process rA rB rC rD rAx rBx corr = Ok m -> Forall (fun r => rg_chan r = ch) [rA; rB; rC; rAx; rBx] ->
  disjoint (map (in_region d) [rA; rB; rC; rAx; rBx]) -> NoDup (m_params m).
Proof.
  intros H C D. assert (E : m_params m = flat_map (region_names process d) [rA; rB; rC; rAx; rBx]).
  { unfold ext_abcd_model in H. destruct (negb (smem process (pd_procs d))); [discriminate|].
    destruct (global_indices d rA); [|discriminate]. destruct (global_indices d rB); [|discriminate]. destruct (global_indices d rC); [|discriminate]. destruct (global_indices d rD); [|discriminate].
    destruct (global_indices d rAx); [|discriminate]. destruct (global_indices d rBx); [|discriminate]. cbn [rbind] in H.
    destruct (negb (same_len _ _)); [discriminate|]. injection H as <-. auto. }
  rewrite E. eapply region_names_NoDup; eauto.
Qed.
