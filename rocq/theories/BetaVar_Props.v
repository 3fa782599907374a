(** C93: variations of a masked channel tied to the statistical fluctuations of another channel. *)
From Coq Require Import Reals List Arith Bool String Lia Lra.
From Verif Require Import RBase PyList PyDict Mat_Model Mat_Proof BetaVar_Model BetaVar_Spec BetaVar_Proof.
Import ListNotations.
Open Scope R_scope.

(** a request is kept as it is and replaces only an earlier one for the same channels and process *)
Theorem C93_requested : forall w h proc src dest, bwriter_ok w -> forall s d, find_chan w src = Some s -> find_chan w dest = Some d -> bw_sparse w = false -> bc_masked d = true -> In proc (bc_procs d) ->
  (forall a, In a (bc_axes s ++ bc_axes d) -> In (fst a) (bh_axes h)) -> NoDup (map fst (bc_axes d) ++ map fst (bc_axes s)) ->
  exists w', add_beta_variations w h proc src dest = Ok w' /\ requested w' dest src proc = Some (mkV dest src proc (prod_sizes (bc_flow d) (bc_axes s)) (bh_val h (bc_flow d))) /\
    (forall d' s' p', (d', s', p') <> (dest, src, proc) -> requested w' d' s' p' = requested w d' s' p') /\ bw_chans w' = bw_chans w /\ bw_procs w' = bw_procs w /\
    (bc_masked s = false -> bc_flow s = false -> bc_flow d = false -> bwriter_ok w').
Proof. exact add_ok. Qed.
(** the file holds each request at the bins of its two channels and its process, zero elsewhere: for any number and order of channels and requests *)
Theorem C93_written : forall w, bwriter_ok w -> bw_vars w <> [] -> exists A, write_beta w = Ok (Some A) /\ forall I J k, A I J k = wanted w I J k.
Proof. exact write_beta_ok. Qed.
(** nothing is scaled in the channels of the fit *)
Theorem C93_fit_channels : forall w I k c i f norm beta, bwriter_ok w -> bw_vars w <> [] -> locate (layout w) I = Some (c, i) -> bc_masked c = false ->
  (exists A, write_beta w = Ok (Some A) /\ f_betavar f = Some A) -> scaled f norm beta I k = norm I k.
Proof.
  intros w I k c i f norm beta OK NE L M (A & E & F). destruct (write_beta_ok w OK NE) as (A' & E' & Q). rewrite E in E'. injection E' as <-.
  apply (scaled_zero f A F). intros j _. rewrite Q. apply (wanted_fit w OK I j k c i); auto.
Qed.
(** mode full, multiplicative nuisances: a fluctuation of t_j standard deviations in bin j changes the nominal yield by t_j times the variation; yields moved by other nuisances in proportion *)
Theorem C93_sigma : forall f bv i k t norm beta, f_betavar f = Some bv -> 0 < f_n0 f i k ->
  (forall j, (j < f_nbins f)%nat -> if f_mask f j k then t j = 0 else 0 < f_kstat f j k /\ beta j k = 1 + t j * / sqrt (f_kstat f j k)) ->
  scaled f norm beta i k = norm i k * (f_n0 f i k + sm (f_nbins f) (fun j => bv i j k * t j)) / f_n0 f i k.
Proof. intros f bv i k t norm beta HB. exact (scaled_sigma f bv HB i k t norm beta). Qed.
Theorem C93_sigma_nominal : forall f bv i k t norm beta sb, f_betavar f = Some bv -> 0 < f_n0 f i k -> norm i k = f_n0 f i k -> f_mask f i k = true ->
  (forall j, (j < f_nbins f)%nat -> if f_mask f j k then t j = 0 else 0 < f_kstat f j k /\ beta j k = 1 + t j * / sqrt (f_kstat f j k)) ->
  with_beta f Full Multiplicative sb norm beta i k = norm i k + sm (f_nbins f) (fun j => bv i j k * t j).
Proof. intros f bv i k t norm beta sb HB N0 E M H. unfold with_beta. rewrite M, (scaled_sigma f bv HB i k t norm beta N0 H), E. field. lra. Qed.
(** the nuisances at their nominal value *)
Theorem C93_nominal : forall f i k norm beta sb, (forall j, (j < f_nbins f)%nat -> f_mask f j k = false -> beta j k = 1) -> beta i k = 1 -> with_beta f Full Multiplicative sb norm beta i k = norm i k.
Proof.
  intros f i k norm beta sb H B. assert (E : scaled f norm beta i k = norm i k).
  { unfold scaled. destruct (f_betavar f) as [bv|]; auto. destruct (Rltb_spec 0 (f_n0 f i k)); auto. rewrite (sm_0 (f_nbins f)); [field; lra|]. intros j Hj. unfold dbeta. destruct (f_mask f j k) eqn:M; [ring|]. rewrite H by auto. ring. }
  unfold with_beta. rewrite E, B. destruct (f_mask f i k); ring.
Qed.
(** requests that are rejected at once *)
Theorem C93_rejected : forall w h proc src dest,
  (bw_sparse w = true -> add_beta_variations w h proc src dest = Raise NotImplementedError) /\
  (bw_sparse w = false -> find_chan w src = None \/ find_chan w dest = None -> add_beta_variations w h proc src dest = Raise RuntimeError) /\
  (forall d, bw_sparse w = false -> find_chan w dest = Some d -> bc_masked d = false -> add_beta_variations w h proc src dest = Raise RuntimeError) /\
  (forall s d, bw_sparse w = false -> find_chan w src = Some s -> find_chan w dest = Some d -> bc_masked d = true -> ~ In proc (bc_procs d) -> add_beta_variations w h proc src dest = Raise KeyError) /\
  (forall s d a, bw_sparse w = false -> find_chan w src = Some s -> find_chan w dest = Some d -> bc_masked d = true -> In proc (bc_procs d) -> In a (bc_axes s ++ bc_axes d) -> ~ In (fst a) (bh_axes h) ->
     add_beta_variations w h proc src dest = Raise RuntimeError).
Proof.
  intros w h proc src dest. unfold add_beta_variations. split; [intros ->; auto|]. split; [intros -> [-> | ->]; auto; destruct (find_chan w src); auto|].
  split; [intros d -> -> ->; destruct (find_chan w src); auto|]. split.
  - intros s d -> -> -> -> H. cbn [negb]. destruct (smem proc (bc_procs d)) eqn:S; auto. apply smem_In in S. contradiction.
  - intros s d a -> -> -> -> H HA NA. cbn [negb]. apply smem_In in H. rewrite H. cbn [negb].
    assert (X : forall l, In a l -> forallb (fun x => smem (fst x) (bh_axes h)) l = false).
    { intros l Hl. destruct (forallb _ l) eqn:E; auto. rewrite forallb_forall in E. specialize (E a Hl). apply smem_In in E. contradiction. }
    apply in_app_or in HA. destruct HA as [HA|HA].
    + rewrite (X _ HA). auto.
    + rewrite (X _ HA). destruct (forallb _ (bc_axes s)); auto.
Qed.

(** *** an example: a masked generator-level channel declared between two channels of the fit *)
Definition ex_h (x : R) : bhist := mkH ["x"%string; "g"%string] (fun _ i j => x * INR (10 * S i + S j)).
Definition ex_w0 : bwriter := mkBW false [mkB "a" [("y"%string, (2, 4))] false false ["s"%string]; mkB "m" [("g"%string, (1, 3))] true false ["b"%string; "s"%string];
  mkB "c" [("x"%string, (2, 4))] false false ["b"%string; "s"%string]]%nat ["b"%string; "s"%string] [].
Lemma ex_w0_ok : bwriter_ok ex_w0.
Proof. split; [repeat constructor; cbn; intuition discriminate|]. split; [repeat constructor; cbn; intuition discriminate|]. split; [constructor|intros v []]. Qed.
Definition ex_w1 : bwriter := mkBW false (bw_chans ex_w0) (bw_procs ex_w0) [mkV "m" "c" "s" 2 (bh_val (ex_h 2) false)].
Example C93_ex : exists w, add_beta_variations ex_w0 (ex_h 1) "s" "c" "m" = Ok w /\ add_beta_variations w (ex_h 2) "s" "c" "m" = Ok ex_w1 /\
  exists A, write_beta ex_w1 = Ok (Some A) /\ A 4%nat 3%nat 1%nat = 24 /\ A 4%nat 2%nat 1%nat = 22 /\ A 4%nat 1%nat 1%nat = 0 /\ A 4%nat 3%nat 0%nat = 0 /\ A 3%nat 3%nat 1%nat = 0.
Proof.
  destruct (C93_requested ex_w0 (ex_h 1) "s" "c" "m" ex_w0_ok _ _ eq_refl eq_refl) as (w & E & _ & _ & _ & _ & OK); auto.
  - right; left; reflexivity.
  - cbn. intuition (subst; auto).
  - repeat constructor; cbn; intuition discriminate.
  - exists w. split; auto. assert (E' := E). vm_compute in E'. injection E' as <-. split; [reflexivity|].
    assert (OK1 : bwriter_ok ex_w1).
    { split; [apply ex_w0_ok|]. split; [apply ex_w0_ok|]. split; [repeat constructor; intros []|]. intros v [<-|[]]. split; [exists (mkB "m" [("g"%string, (1, 3)%nat)] true false ["b"%string; "s"%string])|exists (mkB "c" [("x"%string, (2, 4)%nat)] false false ["b"%string; "s"%string])]; cbn; auto 10. }
    destruct (C93_written ex_w1 OK1) as (A & EA & Q); [discriminate|]. exists A. split; auto. rewrite !Q. unfold wanted. cbn. repeat split; lra.
Qed.
(** a source with two axes *)
Example C93_ex_axes : exists w A, add_beta_variations (mkBW false [mkB "m" [("g"%string, (1, 3))] true false ["s"%string]; mkB "c" [("x"%string, (2, 4)); ("y"%string, (3, 5))] false false ["s"%string]]%nat ["s"%string] [])
  (mkH ["x"%string; "y"%string; "g"%string] (fun _ i j => INR (10 * S i + S j))) "s" "c" "m" = Ok w /\ write_beta w = Ok (Some A) /\ A 6%nat 5%nat 0%nat = 16 /\ A 6%nat 6%nat 0%nat = 0 /\ A 5%nat 5%nat 0%nat = 0.
Proof. do 2 eexists. split; [reflexivity|]. split; [reflexivity|]. cbn. repeat split; lra. Qed.
(** one standard deviation up in one bin with 4 effective events *)
Definition ex_f : bfit := mkF 1 1 (fun _ _ => 10) (fun _ _ => 4) (fun j _ => Nat.eqb j 1) (Some (fun i _ _ => if Nat.eqb i 1 then 3 else 0)).
Example C93_sigma_ex : with_beta ex_f Full Multiplicative (fun _ _ => 0) (fun _ _ => 10) (fun _ _ => 3 / 2) 1 0 = 13.
Proof.
  rewrite (C93_sigma_nominal ex_f (fun i _ _ => if Nat.eqb i 1 then 3 else 0) 1 0 (fun _ => 1)); auto; try (cbn; lra).
  intros j Hj. change (f_nbins ex_f) with 1%nat in Hj. replace j with 0%nat by lia. cbn. split; [lra|]. replace 4 with (2 * 2) by lra. rewrite sqrt_square by lra. field.
Qed.

(** *** refuted *)
(** the default mode of the fit and additive nuisances ignore the variations *)
Theorem C93_lite_refuted : exists f bv norm sb, f_betavar f = Some bv /\ bv 1%nat 0%nat 0%nat <> 0 /\ forall beta, beta 1%nat 0%nat = 1 -> with_beta f Lite Multiplicative sb norm beta 1 0 = norm 1%nat 0%nat.
Proof. exists ex_f, (fun i _ _ => if Nat.eqb i 1 then 3 else 0), (fun _ _ => 10), (fun _ _ => 0). split; [reflexivity|]. split; [cbn; lra|]. intros beta B. cbn. auto. Qed.
Theorem C93_additive_refuted : exists f bv norm sb, f_betavar f = Some bv /\ bv 1%nat 0%nat 0%nat <> 0 /\ forall beta, beta 1%nat 0%nat = 0 -> with_beta f Full Additive sb norm beta 1 0 = norm 1%nat 0%nat.
Proof. exists ex_f, (fun i _ _ => if Nat.eqb i 1 then 3 else 0), (fun _ _ => 10), (fun _ _ => 1). split; [reflexivity|]. split; [cbn; lra|]. intros beta B. cbn. rewrite B. ring. Qed.
(** a bin without nominal yield gets none *)
Theorem C93_empty_refuted : exists f bv norm sb, f_betavar f = Some bv /\ bv 1%nat 0%nat 0%nat <> 0 /\ forall beta, with_beta f Full Multiplicative sb norm beta 1 0 = norm 1%nat 0%nat.
Proof.
  exists (mkF 1 1 (fun _ _ => 0) (fun _ _ => 4) (fun j _ => Nat.eqb j 1) (Some (fun i _ _ => if Nat.eqb i 1 then 3 else 0))), (fun i _ _ => if Nat.eqb i 1 then 3 else 0), (fun _ _ => 0), (fun _ _ => 0).
  split; [reflexivity|]. split; [cbn; lra|]. intros beta. cbn. rewrite Rltb_false by lra. auto.
Qed.
(** with flow bins in the masked channel only, and with a masked source, the request is accepted and write raises *)
Theorem C93_flow_refuted : exists w h w', bwriter_ok w /\ add_beta_variations w h "s" "c" "m" = Ok w' /\ write_beta w' = Raise ValueError.
Proof.
  exists (mkBW false [mkB "m" [("g"%string, (1, 3))] true true ["s"%string]; mkB "c" [("x"%string, (2, 4))] false false ["s"%string]]%nat ["s"%string] []), (ex_h 1). eexists.
  split; [|split; reflexivity]. split; [repeat constructor; cbn; intuition discriminate|]. split; [repeat constructor; cbn; intuition discriminate|]. split; [constructor|intros v []].
Qed.
Theorem C93_masked_source_refuted : exists w h w', bwriter_ok w /\ add_beta_variations w h "s" "c" "m" = Ok w' /\ write_beta w' = Raise RuntimeError.
Proof.
  exists (mkBW false [mkB "m" [("g"%string, (1, 3))] true false ["s"%string]; mkB "c" [("x"%string, (2, 4))] true false ["s"%string]]%nat ["s"%string] []), (ex_h 1). eexists.
  split; [|split; reflexivity]. split; [repeat constructor; cbn; intuition discriminate|]. split; [repeat constructor; cbn; intuition discriminate|]. split; [constructor|intros v []].
Qed.
(** a source with one bin: the values of its flow bins or not, the first one is taken for a source channel of several bins *)
Theorem C93_broadcast_refuted : exists w h w' A, bwriter_ok w /\ add_beta_variations w h "s" "c" "m" = Ok w' /\ write_beta w' = Ok (Some A) /\ A 3%nat 0%nat 0%nat = A 3%nat 1%nat 0%nat /\ A 3%nat 0%nat 0%nat <> 0.
Proof.
  exists (mkBW false [mkB "m" [("g"%string, (1, 3))] true false ["s"%string]; mkB "c" [("x"%string, (1, 3))] false true ["s"%string]]%nat ["s"%string] []), (ex_h 1). do 2 eexists.
  split; [|split; [reflexivity|split; [reflexivity|]]]; [|cbn; lra]. split; [repeat constructor; cbn; intuition discriminate|]. split; [repeat constructor; cbn; intuition discriminate|]. split; [constructor|intros v []].
Qed.
(** channels that share an axis, as a detector and a generator channel in the same variable *)
Theorem C93_shared_axis_refuted : exists w s d, bwriter_ok w /\ bw_sparse w = false /\ find_chan w "c" = Some s /\ find_chan w "m" = Some d /\ bc_masked d = true /\ bc_masked s = false /\ In "s"%string (bc_procs d) /\
  forall h, (forall a, In a (bc_axes s ++ bc_axes d) -> In (fst a) (bh_axes h)) -> add_beta_variations w h "s" "c" "m" = Raise ValueError.
Proof.
  exists (mkBW false [mkB "m" [("x"%string, (2, 4))] true false ["s"%string]; mkB "c" [("x"%string, (2, 4))] false false ["s"%string]]%nat ["s"%string] []). do 2 eexists.
  split; [|split; [reflexivity|split; [reflexivity|split; [reflexivity|split; [reflexivity|split; [reflexivity|split; [left; reflexivity|]]]]]]].
  - split; [repeat constructor; cbn; intuition discriminate|]. split; [repeat constructor; cbn; intuition discriminate|]. split; [constructor|intros v []].
  - intros h H. unfold add_beta_variations. cbn. assert (X : smem "x" (bh_axes h) = true) by (apply smem_In; apply (H ("x"%string, (2, 4)%nat)); left; reflexivity). rewrite X. reflexivity.
Qed.

Print Assumptions C93_written.
Print Assumptions C93_requested.
Print Assumptions C93_sigma_nominal.
Print Assumptions C93_flow_refuted.
