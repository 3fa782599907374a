(** C14: selection of pseudodata; C83: data and pseudodata in the written file. *)
From Coq Require Import List Arith Bool String Lia ZArith.
From Verif Require Import PyList PyDict Order Num Names_Model Writer_Model Writer_Spec Writer_Layout Pseudo_Model Pseudo_Spec Pseudo_Proof.
Import ListNotations.
Local Open Scope nat_scope.
Local Open Scope string_scope.
Local Open Scope list_scope.

(** ** C14 *)
(** the fitted data sets are, in the order of the file, exactly the stored columns with a
    requested name, each under its own name; repetitions and the order of the request do not
    matter *)
Theorem C14_selection : forall (V : Type) (f : pfile V) names obs req,
  consistent f names obs -> req <> [] -> (forall n, In n req -> In n names) ->
  exists l, fitted f req = Ok l /\
    map (fun x => (fst x, fst (snd x))) l = filter (fun nv => smem (fst nv) req) (combine names (columns obs)).
Proof. exact @fitted_named. Qed.
(** each requested name: present, with the stored column, and nothing else *)
Theorem C14_each : forall (V : Type) (f : pfile V) names obs req l,
  consistent f names obs -> req <> [] -> (forall n, In n req -> In n names) -> fitted f req = Ok l ->
  (forall n d, In (n, d) l -> In n req /\ stored_as names obs n (fst d)) /\
  (forall n v, In n req -> stored_as names obs n v -> exists d, In (n, d) l /\ fst d = v) /\
  (NoDup names -> NoDup (map fst l)).
Proof.
  intros V f names obs req l C R I F. destruct (fitted_named f names obs req C R I) as (l' & F' & E). assert (l' = l) by congruence. subst l'. clear F'.
  destruct C as (_ & _ & C & _).
  assert (ST : forall n v, In (n, v) (combine names (columns obs)) <-> stored_as names obs n v).
  { intros n v. unfold stored_as. rewrite columns_eq, C. clear.
    assert (G : forall l a, In (n, v) (combine l (map (column obs) (seq a (List.length l)))) <-> exists k, nth_error l k = Some n /\ v = column obs (a + k)).
    { induction l as [|x l IH]; intros a; cbn [List.length seq map combine In].
      - split; [intros []|]. intros ([|k] & H & _); discriminate.
      - rewrite IH. split.
        + intros [H|(k & H & ->)]; [injection H as -> <-; exists 0; rewrite Nat.add_0_r; auto|]. exists (S k). split; auto. f_equal. lia.
        + intros ([|k] & H & ->); [left; injection H as ->; rewrite Nat.add_0_r; auto|]. right. exists k. split; auto. f_equal. lia. }
    apply (G names 0). }
  split; [|split].
  - intros n d H. apply (in_map (fun x => (fst x, fst (snd x)))) in H. rewrite E in H. cbn [fst snd] in H. apply filter_In in H. cbn [fst] in H.
    destruct H as [H1 H2]. apply smem_In in H2. split; auto. apply ST. auto.
  - intros n v Hn Hv. assert (H : In (n, v) (map (fun x => (fst x, fst (snd x))) l)). { rewrite E. apply filter_In. split; [apply ST; auto|]. apply smem_In. auto. }
    apply in_map_iff in H. destruct H as ([n' d] & H & Hl). cbn [fst snd] in H. injection H as -> <-. eauto.
  - intros N. assert (M : map fst l = map fst (filter (fun nv => smem (fst nv) req) (combine names (columns obs)))) by (rewrite <- E, map_map; auto).
    rewrite M. clear - N. revert N. generalize (columns obs). induction names as [|n ns IH]; intros [|c cs] N; cbn [combine filter map]; try constructor.
    inversion N; subst. cbn [fst]. destruct (smem n req); cbn [map fst]; auto. constructor; auto.
    intros H. apply in_map_iff in H. destruct H as ([x y] & Q & H). cbn [fst] in Q. subst x. apply filter_In in H. destruct H as [H _]. apply in_combine_l in H. contradiction.
Qed.
Theorem C14_unknown : forall (V : Type) (f : pfile V) names obs req n,
  pf_names f = Some names -> pf_obs f = Some obs -> In n req -> ~ In n names ->
  load_pseudo f (Some req) = Raise ValueError /\ fitted f req = Raise ValueError.
Proof. exact @fitted_unknown. Qed.
(** the empty request means all of them *)
Theorem C14_all : forall (V : Type) (f : pfile V) names obs, consistent f names obs ->
  exists l, fitted f [] = Ok l /\ map (fun x => (fst x, fst (snd x))) l = combine names (columns obs).
Proof. exact @fitted_all. Qed.
(** from the calls of add_pseudodata to the data set that is fitted *)
Theorem C14_written : forall (V : Type) (NV : Num V) cfg (ops : list (op V)) st w req,
  run cfg init_state ops = Ok st -> write cfg st = Ok w -> flags_stable (chan_decls [] ops) ->
  (forall n, In n req -> exists c v, In (c, n, v) (pseudo_log [] ops)) ->
  exists l, fitted (file_of w) req = Ok l /\ NoDup (map fst l) /\
    (forall n, In n (map fst l) <-> (exists c v, In (c, n, v) (pseudo_log [] ops)) /\ (req = [] \/ In n req)) /\
    forall n d, In (n, d) l -> List.length (fst d) = w_nbins w /\
      forall c s e info, In (c, (s, e)) (reader_ranges 0 (w_channels w)) -> dget c (w_channels w) = Some info -> ch_masked info = false ->
        exists v, In (c, n, v) (pseudo_log [] ops) /\ forall i, i < e - s -> nth (s + i) (fst d) n0 = nth i v n0.
Proof. exact @written_fitted. Qed.
(** variances: none where the file has none (the writer stores none) *)
Theorem C14_variances_partial : forall (V : Type) (f : pfile V) req l,
  pf_var f = None -> fitted f req = Ok l -> Forall (fun x => snd (snd x) = None) l.
Proof. exact @fitted_var_none. Qed.

Definition two_sets : pfile Z :=
  mkPf (Some ["a"; "b"; "c"]) (Some (mkMat 2 3 (fun b j => Z.of_nat (10 * b + j)))) (Some (mkMat 2 3 (fun b j => Z.of_nat (100 + 10 * b + j)))).
Example ex_consistent : consistent two_sets ["a"; "b"; "c"] (mkMat 2 3 (fun b j => Z.of_nat (10 * b + j))).
Proof. repeat split. Qed.
Example ex_select : exists l, fitted two_sets ["c"; "b"; "c"] = Ok l /\ map (fun x => (fst x, fst (snd x))) l = [("b", [1; 11]%Z); ("c", [2; 12]%Z)].
Proof. eexists. split; [vm_compute; reflexivity|]. reflexivity. Qed.
Example ex_unknown : fitted two_sets ["a"; "d"] = Raise ValueError.
Proof. reflexivity. Qed.
(** the variances are not selected with the values: the set b is fitted with those of a *)
Theorem C14_variances_refuted : exists (f : pfile Z) names obs vars req l n d,
  consistent f names obs /\ pf_var f = Some vars /\ NoDup names /\ fitted f req = Ok l /\ In (n, d) l /\
  stored_as names obs n (fst d) /\ ~ (exists v, snd d = Some v /\ stored_as names vars n v).
Proof.
  exists two_sets, ["a"; "b"; "c"], (mkMat 2 3 (fun b j => Z.of_nat (10 * b + j))), (mkMat 2 3 (fun b j => Z.of_nat (100 + 10 * b + j))), ["b"].
  eexists _, "b", ([1; 11]%Z, Some [100; 110]%Z). split; [apply ex_consistent|]. split; [reflexivity|]. split; [repeat constructor; cbn; intuition discriminate|].
  split; [vm_compute; reflexivity|]. split; [left; reflexivity|]. split; [exists 1; split; reflexivity|].
  intros (v & H & k & K & E). injection H as <-. destruct k as [|[|[|k]]]; try discriminate K. vm_compute in E. discriminate E. cbn in K. destruct k; discriminate.
Qed.

(** ** C83: observed data and pseudodata sit in the ranges of their channels *)
Theorem C83_data : forall (V : Type) (NV : Num V) cfg (ops : list (op V)) st w,
  run cfg init_state ops = Ok st -> write cfg st = Ok w -> flags_stable (chan_decls [] ops) ->
  forall c s e info, In (c, (s, e)) (reader_ranges 0 (w_channels w)) -> dget c (w_channels w) = Some info -> ch_masked info = false ->
  e <= w_nbins w /\
  exists v, In (c, v) (map (fun x => (fst x, fst (snd x))) (data_log ops)) /\ forall i, i < e - s -> w_data_obs w (s + i) = nth i v n0.
Proof. intros. split; [eapply range_bound; eauto|eapply written_data; eauto]. Qed.
Theorem C83_pseudodata : forall (V : Type) (NV : Num V) cfg (ops : list (op V)) st w,
  run cfg init_state ops = Ok st -> write cfg st = Ok w -> flags_stable (chan_decls [] ops) ->
  NoDup (w_pseudonames w) /\ (forall n, In n (w_pseudonames w) <-> exists c v, In (c, n, v) (pseudo_log [] ops)) /\
  forall c s e info k n, In (c, (s, e)) (reader_ranges 0 (w_channels w)) -> dget c (w_channels w) = Some info -> ch_masked info = false ->
  nth_error (w_pseudonames w) k = Some n ->
  exists v, In (c, n, v) (pseudo_log [] ops) /\ forall i, i < e - s -> w_pseudo w (s + i) k = nth i v n0.
Proof.
  intros V NV cfg ops st w R W F. destruct (write_fields cfg st w W) as (_ & _ & _ & _ & _ & _ & _ & _ & _ & _ & _ & _ & _ & _ & _ & _ & EN & _).
  split; [rewrite EN; eapply pseudonames_NoDup; eauto|]. split; [rewrite EN; eapply pseudonames_In; eauto|]. eapply written_pseudo; eauto.
Qed.
(** data for a channel cannot be set twice, nor pseudodata of one name *)
Theorem C83_once : forall (V : Type) (NV : Num V) cfg (ops : list (op V)) st,
  run cfg init_state ops = Ok st ->
  (forall c v w, In (c, v) (map (fun x => (fst x, fst (snd x))) (data_log ops)) -> In (c, w) (map (fun x => (fst x, fst (snd x))) (data_log ops)) -> v = w) /\
  (forall c n v w, In (c, n, v) (pseudo_log [] ops) -> In (c, n, w) (pseudo_log [] ops) -> v = w).
Proof.
  intros V NV cfg ops st R. split.
  - intros c v w A B. pose proof (run_data cfg ops _ _ R c) as D. assert (st_data_obs st c = Some v) by (apply D; auto). assert (st_data_obs st c = Some w) by (apply D; auto). congruence.
  - intros c n v w A B. pose proof (proj2 (run_pseudo cfg ops _ _ R) c n) as D.
    assert (st_pseudodata st c n = Some v) by (apply D; auto). assert (st_pseudodata st c n = Some w) by (apply D; auto). congruence.
Qed.

#[local] Existing Instance Num_Z.
Definition pops : list (op Z) :=
  [ AddChannel (Some "gen") [(1, 1)] true false; AddChannel (Some "mu") [(2, 4)] false false; AddChannel (Some "el") [(1, 1)] false false;
    AddProcess (HDense [10; 20]%Z [1; 1]%Z) "sig" "mu" true None; AddProcess (HDense [5]%Z [1]%Z) "sig" "el" true None;
    AddData "el" [7]%Z [7]%Z; AddData "mu" [9; 22]%Z [9; 22]%Z;
    AddPseudodata (Some "alt") "el" [70]%Z; AddPseudodata (Some "nom") "mu" [1; 2]%Z;
    AddPseudodata (Some "alt") "mu" [90; 91]%Z; AddPseudodata (Some "nom") "el" [3]%Z ].
Definition pfile_of cfg ops : result (workspace Z) := st <- run cfg init_state ops ;; write cfg st.
Example ex_written : match pfile_of (mkCfg false LogNormal false) pops with
  | Ok w => (w_nbins w, map (w_data_obs w) [0; 1; 2], w_pseudonames w, map (fun k => map (fun b => w_pseudo w b k) [0; 1; 2]) [0; 1],
             fitted (file_of w) ["nom"]) =
            (3, [9; 22; 7]%Z, ["alt"; "nom"], [[90; 91; 70]%Z; [1; 2; 3]%Z], Ok [("nom", ([1; 2; 3]%Z, None))])
  | Raise _ => False end.
Proof. vm_compute. reflexivity. Qed.
Example ex_stable : flags_stable (chan_decls [] pops).
Proof. intros n i j A B. cbn in A, B. intuition congruence. Qed.
(** pseudodata without a name: the default depends on the number of names so far, so the second
    channel gets another name and the file cannot be written *)
Theorem C83_default_names_refuted : exists (ops : list (op Z)) st,
  ops = [ AddChannel (Some "mu") [(1, 1)] false false; AddChannel (Some "el") [(1, 1)] false false;
          AddProcess (HDense [10]%Z [1]%Z) "sig" "mu" true None; AddProcess (HDense [5]%Z [1]%Z) "sig" "el" true None;
          AddData "mu" [9]%Z [9]%Z; AddData "el" [7]%Z [7]%Z; AddPseudodata None "mu" [8]%Z; AddPseudodata None "el" [6]%Z ] /\
  run (mkCfg false LogNormal false) init_state ops = Ok st /\ st_pseudonames st = ["pseudodata_0"; "pseudodata_1"] /\
  write (mkCfg false LogNormal false) st = Raise KeyError.
Proof. eexists _, _. split; [reflexivity|]. split; [vm_compute; reflexivity|]. split; vm_compute; reflexivity. Qed.
Print Assumptions C14_selection.
Print Assumptions C14_each.
Print Assumptions C14_unknown.
Print Assumptions C14_all.
Print Assumptions C14_written.
Print Assumptions C14_variances_partial.
Print Assumptions C14_variances_refuted.
Print Assumptions C83_data.
Print Assumptions C83_pseudodata.
Print Assumptions C83_once.
Print Assumptions C83_default_names_refuted.
