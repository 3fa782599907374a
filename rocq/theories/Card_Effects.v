(** Size of the effects in a converted datacard, over the reals. *)
From Coq Require Import List Arith Bool String Ascii ZArith Lia Reals Lra.
From Verif Require Import PyList PyDict ListUtil Num RBase Names_Model Writer_Model Writer_Spec Writer_Layout Writer_Meta Writer_Inv
  Writer_State Writer_Tensor Writer_Hist Writer_Denote Writer_Master Writer_Effects Writer_Props Card_Model Card_Spec Card_Parse Card_Convert Card_Proof.
Import ListNotations.
Local Open Scope nat_scope.
Local Open Scope string_scope.
Local Open Scope list_scope.

Section Sizes.
  Variable pyfloat : string -> option R.
  Variable exists_file : string -> bool.
  Variable files : string -> string -> option (thist R).
  Variable mass : string.
  Variable k101 : R.
  Variable symm : symmode.
  Variables (cfg : config) (A : acard) (c : card R) (ops : list (op R)) (w : workspace R).
  Hypothesis W : wf_card pyfloat exists_file A.
  Hypothesis P : parsed_as pyfloat A c.
  Hypothesis T : tidy A.
  Hypothesis FV : forall f n h, files f n = Some h -> List.length (th_vars h) = List.length (th_vals h).
  Hypothesis CV : convert pyfloat files mass k101 symm c = (ops, None).
  Hypothesis Wr : written cfg ops w.
  Notation tmpl := (template pyfloat files mass A).
  Notation up s b p := (varied files mass A b p (sl_name s ++ "Up")).
  Notation down s b p := (varied files mass A b p (sl_name s ++ "Down")).
  Notation Cl := (cleaned pyfloat exists_file files mass k101 symm A c ops W P T FV CV).

  Lemma entry_key s b p e : entry A s b p e -> exists k, In k (ac_cols A) /\ co_key k = (b, p).
  Proof. intros [H _]. eapply entry_col; eauto. Qed.

  Definition norm_like (s : sline) (b p : string) : Prop := norm_type (sl_type s) \/ shape_type (sl_type s) /\ up s b p = None.
  Lemma norm_call s b p e : In s (ac_systs A) -> entry A s b p e -> norm_like s b p ->
    exists u, factor pyfloat e u /\ last_booking (op_avg b p (sl_name s)) ops (AddNormSystematic (sl_name s) [p] b [u] Average kw_plain).
  Proof.
    intros S E N. assert (M : modelled (sl_type s)) by (destruct N as [N|[N _]]; [left|right]; auto).
    destruct (with_entry pyfloat exists_file files mass k101 symm A c ops W P T CV b p s e S M E) as (o & (_ & _ & NE & C) & L).
    specialize (L _ (or_introl eq_refl)). unfold one_entry in C. rewrite NE in C. destruct N as [N|[N NU]].
    - assert (S1 : smem (sl_type s) ["shape"; "shapeN"; "shape?"; "shapeU"] = false /\ smem (sl_type s) ["lnN"; "lnU"] = true) by (destruct N as [-> | ->]; auto).
      destruct S1 as [S1 S2]. rewrite S1, S2 in C. destruct C as (u & F & C). injection C as ->. eauto.
    - assert (S1 : smem (sl_type s) ["shape"; "shapeN"; "shape?"; "shapeU"] = true) by (destruct N as [->|[->|[->| ->]]]; auto).
      rewrite S1, NU in C. destruct (down s b p); [contradiction|]. destruct C as (_ & u & F & C). injection C as ->. eauto.
  Qed.
  Lemma shape_call s b p e u d : In s (ac_systs A) -> entry A s b p e -> shape_type (sl_type s) -> up s b p = Some u -> down s b p = Some d ->
    exists kf, pyfloat e = Some kf /\ forall n, nuisance_of s n -> last_booking (op_avg b p n) ops
      (AddSystematic (SPair (HDense (th_vals u) (th_vars u)) (HDense (th_vals d) (th_vars d))) (sl_name s) p b kf true symm false
                 (mkKw false (negb (String.eqb (sl_type s) "shapeU")) None)).
  Proof.
    intros S E N U D. destruct (with_entry pyfloat exists_file files mass k101 symm A c ops W P T CV b p s e S (or_intror N) E) as (o & (_ & _ & NE & C) & L).
    unfold one_entry in C. rewrite NE in C.
    assert (S1 : smem (sl_type s) ["shape"; "shapeN"; "shape?"; "shapeU"] = true) by (destruct N as [->|[->|[->| ->]]]; auto).
    rewrite S1, U, D in C. destruct C as (kf & F & C). injection C as ->. eauto.
  Qed.

  Variables (b p : string) (i r ip : nat).
  Hypothesis AP : at_point w b p i r ip.
  Variable h : thist R.
  Hypothesis TP : tmpl b p = Some h.
  Notation nom := (spec_clip (c_allowneg cfg) (nth i (th_vals h) 0%R)).
  Hypothesis NZ : nom <> 0%R.

  Lemma nom_eq (K : exists k, In k (ac_cols A) /\ co_key k = (b, p)) : spec_norm (c_allowneg cfg) ops b p i = nom.
  Proof. apply (nominal_at pyfloat exists_file files mass k101 symm cfg A c ops W P CV b p h i K TP). Qed.

  (** kappa *)
  Theorem ws_norm s e k x : In s (ac_systs A) -> entry A s b p e -> norm_like s b p -> nth_error (w_systs w) k = Some (sl_name s) ->
    factor pyfloat e (UScalar x) -> (0 < x)%R ->
    view_logk (w_tensors w) r ip k = match c_type cfg with LogNormal => ln x | Normal => (nom * (x - 1))%R end.
  Proof.
    intros S E N K F X. destruct (norm_call s b p e S E N) as (u & F' & L).
    assert (u = UScalar x). { unfold factor in *. destruct (Parse_Model.splitc _ _) as [|? [|? [|? ?]]]; try contradiction.
      - destruct F as (y & Y & Y'), F' as (z & Z & Z'). congruence.
      - destruct F as (? & ? & ? & ? & ?). discriminate. }
    subst u. rewrite <- (nom_eq (entry_key _ _ _ _ E)).
    apply (C12_scalar cfg ops w Wr Cl b p i r ip AP) with (ps := [p]) (us := [UScalar x]) (j := 0) (n := sl_name s) (m := Average) (kw := kw_plain); auto.
    - rewrite (nom_eq (entry_key _ _ _ _ E)). exact NZ.
    - constructor; auto. constructor.
  Qed.
  (** kappa down/kappa up *)
  Theorem ws_norm_pair s e k x y : In s (ac_systs A) -> entry A s b p e -> norm_like s b p -> nth_error (w_systs w) k = Some (sl_name s) ->
    factor pyfloat e (UPair x y) -> (0 < x)%R -> (0 < y)%R ->
    view_logk (w_tensors w) r ip k = match c_type cfg with LogNormal => ((ln x - ln y) / 2)%R | Normal => (nom * (x - y) / 2)%R end.
  Proof.
    intros S E N K F X Y. destruct (norm_call s b p e S E N) as (u & F' & L).
    assert (u = UPair x y). { unfold factor in *. destruct (Parse_Model.splitc _ _) as [|? [|? [|? ?]]]; try contradiction.
      - destruct F as (? & ? & ?). discriminate.
      - destruct F as (a & a' & Q1 & Q2 & Q3), F' as (z & z' & Q4 & Q5 & Q6). congruence. }
    subst u. rewrite <- (nom_eq (entry_key _ _ _ _ E)).
    apply (C12_pair cfg ops w Wr Cl b p i r ip AP) with (ps := [p]) (us := [UPair x y]) (j := 0) (n := sl_name s) (m := Average) (kw := kw_plain); auto.
    - rewrite (nom_eq (entry_key _ _ _ _ E)). exact NZ.
    - constructor; auto. constructor.
    - discriminate.
  Qed.

  (** templates *)
  Theorem ws_shape s e kf u d : In s (ac_systs A) -> entry A s b p e -> shape_type (sl_type s) -> up s b p = Some u -> down s b p = Some d ->
    pyfloat e = Some kf ->
    let U := spec_logk (c_type cfg) kf (nth i (th_vals u) 0%R) nom in
    let D := spec_logk (c_type cfg) kf (nth i (th_vals d) 0%R) nom in
    let at_ k := view_logk (w_tensors w) r ip k in
    match symm with
    | NoSym => forall k, nth_error (w_systs w) k = Some (sl_name s) ->
        let h := at_ (List.length (w_systs w) + k) in w_symmetric w = false /\ (at_ k + h = U)%R /\ (h - at_ k = D)%R
    | Average => forall k, nth_error (w_systs w) k = Some (sl_name s) -> at_ k = ((U - D) / 2)%R
    | Conservative => forall k, nth_error (w_systs w) k = Some (sl_name s) ->
        (at_ k = U \/ at_ k = (- D)%R) /\ (Rabs U <= Rabs (at_ k))%R /\ (Rabs D <= Rabs (at_ k))%R
    | Linear => forall k1 k2, nth_error (w_systs w) k1 = Some (sl_name s ++ "SymAvg")%string -> nth_error (w_systs w) k2 = Some (sl_name s ++ "SymDiff")%string ->
        (at_ k1 + at_ k2 = U /\ at_ k2 - at_ k1 = D)%R
    | Quadratic => forall k1 k2, nth_error (w_systs w) k1 = Some (sl_name s ++ "SymAvg")%string -> nth_error (w_systs w) k2 = Some (sl_name s ++ "SymDiff")%string ->
        (at_ k1 + at_ k2 / sqrt 3 = U /\ at_ k2 / sqrt 3 - at_ k1 = D)%R
    end.
  Proof.
    intros S E N U D Q U' D' at_. destruct (shape_call s b p e u d S E N U D) as (kf' & Q' & L).
    assert (kf' = kf) by congruence. subst kf'. pose proof (nom_eq (entry_key _ _ _ _ E)) as NE. pose proof NZ as NZ'. rewrite <- NE in NZ'.
    pose proof (C07_average cfg ops w Wr Cl b p i r ip AP NZ' (HDense (th_vals u) (th_vars u)) (HDense (th_vals d) (th_vars d)) (sl_name s) kf true false
                 (mkKw false (negb (String.eqb (sl_type s) "shapeU")) None)) as M1.
    pose proof (C07_conservative cfg ops w Wr Cl b p i r ip AP NZ' (HDense (th_vals u) (th_vars u)) (HDense (th_vals d) (th_vars d)) (sl_name s) kf true false
                 (mkKw false (negb (String.eqb (sl_type s) "shapeU")) None)) as M2.
    pose proof (C07_linear cfg ops w Wr Cl b p i r ip AP NZ' (HDense (th_vals u) (th_vars u)) (HDense (th_vals d) (th_vars d)) (sl_name s) kf true false
                 (mkKw false (negb (String.eqb (sl_type s) "shapeU")) None)) as M3.
    pose proof (C07_quadratic cfg ops w Wr Cl b p i r ip AP NZ' (HDense (th_vals u) (th_vars u)) (HDense (th_vals d) (th_vars d)) (sl_name s) kf true false
                 (mkKw false (negb (String.eqb (sl_type s) "shapeU")) None)) as M4.
    pose proof (C07_asymmetric cfg ops w Wr Cl b p i r ip AP NZ' (HDense (th_vals u) (th_vars u)) (HDense (th_vals d) (th_vars d)) (sl_name s) kf true false
                 (mkKw false (negb (String.eqb (sl_type s) "shapeU")) None)) as M5.
    unfold tmpl_eff in *. rewrite NE in *. cbn [hist_at] in *. change (@n0 R Num_R) with 0%R in *.
    subst at_ U' D'. cbv beta zeta. destruct symm.
    - intros k K. apply (M2 k K). apply L. left. auto.
    - intros k K. rewrite (M1 k K); [reflexivity|]. apply L. left. auto.
    - intros k1 k2 K1 K2. apply (M3 k1 k2 K1 K2); apply L; right; auto.
    - intros k1 k2 K1 K2. apply (M4 k1 k2 K1 K2); apply L; right; auto.
    - intros k K. apply (M5 k K). apply L. left. auto.
  Qed.

  (** rate parameters *)
  Theorem ws_rate n k : (exists r, In r (ac_rates A) /\ rl_name r = n) -> nth_error (w_systs w) k = Some n -> (0 < k101)%R ->
    (exists kc, In kc (ac_cols A) /\ co_key kc = (b, p)) ->
    ((exists r, In r (ac_rates A) /\ rl_name r = n /\ reaches A r b p) ->
       view_logk (w_tensors w) r ip k = match c_type cfg with LogNormal => ln k101 | Normal => (nom * (k101 - 1))%R end) /\
    (~ (exists r, In r (ac_rates A) /\ rl_name r = n /\ reaches A r b p) -> view_logk (w_tensors w) r ip k = 0%R).
  Proof.
    intros (r0 & R0 & RN) K K1 KC.
    assert (NS : forall s, In s (ac_systs A) -> ~ nuisance_of s n).
    { intros s S [N|[N|N]]; rewrite <- RN in N.
      - apply (td_rates _ T s r0 S R0). auto.
      - apply (proj1 (td_suffix' _ T r0 s R0 S)). auto.
      - apply (proj2 (td_suffix' _ T r0 s R0 S)). auto. }
    pose proof (rate_effect pyfloat exists_file files mass k101 symm cfg A c ops w W P CV Wr b p n NS) as [E1 E2].
    destruct (view_point cfg ops w b p i r ip Wr Cl AP) as (_ & _ & _ & H). destruct (H k n K) as [H1 _].
    pose proof (nom_eq KC) as NE. pose proof NZ as NZ'. rewrite <- NE in NZ'.
    split; intros X; rewrite H1; unfold spec_avg.
    - rewrite (E1 X), stored_nz by exact NZ'. rewrite <- NE. cbn [eval_effect]. unfold norm_eff, spec_logk. cbn. destruct (c_type cfg).
      + rewrite Rltb_true.
        * replace (spec_norm (c_allowneg cfg) ops b p i * k101 / spec_norm (c_allowneg cfg) ops b p i)%R with k101 by (field; exact NZ'). ring.
        * replace (spec_norm (c_allowneg cfg) ops b p i * (spec_norm (c_allowneg cfg) ops b p i * k101))%R
            with ((spec_norm (c_allowneg cfg) ops b p i)² * k101)%R by (unfold Rsqr; ring).
          apply Rmult_lt_0_compat; auto. apply Rlt_0_sqr. exact NZ'.
      + ring.
    - rewrite (E2 X). auto.
  Qed.
End Sizes.
