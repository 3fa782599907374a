(** C111: what asymmetric impacts are computed for *)
From Coq Require Import List Arith Bool String Reals Lra Lia Sorted.
From Verif Require Import PyList PyDict ListUtil RBase Num Writer_Model Writer_Spec Writer_Layout Writer_Meta Writer_Inv Writer_Tensor Writer_Hist Writer_Denote Writer_Master Writer_Effects Yields_Model Yields_Spec Yields_Proof
  Freeze_Model Freeze_Spec Freeze_Proof Asel_Model Asel_Spec Asel_Proof.
Import ListNotations.
Local Open Scope string_scope.
Local Open Scope list_scope.
Local Open Scope R_scope.

(** tensors as they are read from a file *)
Definition well_formed (d : indata) : Prop :=
  canon (in_tens d) (in_nbinsfull d) (in_nproc d) ((if in_sym d then 1 else 2) * in_nsyst d) /\
  (match in_tens d with TSparse sp => sp_ncol sp = ((if in_sym d then 1 else 2) * in_nsyst d)%nat | _ => True end) /\
  (in_nbins d <= in_nbinsfull d)%nat.
Theorem C111_files : forall cfg ops w, written cfg ops w -> clean ops -> well_formed (indata_of w).
Proof.
  intros cfg ops w W C. split; [apply (written_canon cfg ops w W C)|]. split; [|apply (written_bins cfg ops w W C)].
  cbn [indata_of in_tens in_sym in_nsyst]. destruct (w_tensors w) as [n k|sp] eqn:T; auto.
  destruct W as (st & R & W). destruct C as (C1 & C2 & C3 & C4).
  destruct (sparse_canonical cfg ops st w sp R W T C1 (once_stable _ C3) C4) as (_ & _ & _ & NC & _). rewrite NC. destruct (w_symmetric w); lia.
Qed.

(** a nuisance is marked exactly if a half-difference above the tolerance is stored for some bin and process, in both layouts *)
Theorem C111_mask : forall d atol, 0 <= atol -> well_formed d ->
  exists m, asym_mask d atol = Ok m /\ List.length m = in_nsyst d /\
    forall s, (s < in_nsyst d)%nat ->
      (nth s m false = true <-> in_sym d = false /\ exists b p, (b < in_nbinsfull d)%nat /\ (p < in_nproc d)%nat /\
         atol < Rabs (view_logk (in_tens d) b p (in_nsyst d + s))).
Proof. intros d atol A (C & _). apply mask_spec; auto. Qed.
Theorem C111_layouts_agree : forall d1 d2 atol, 0 <= atol -> well_formed d1 -> well_formed d2 ->
  in_sym d1 = in_sym d2 -> in_nsyst d1 = in_nsyst d2 -> in_nproc d1 = in_nproc d2 -> in_nbinsfull d1 = in_nbinsfull d2 ->
  (forall b p c, (b < in_nbinsfull d1)%nat -> (p < in_nproc d1)%nat -> view_logk (in_tens d1) b p c = view_logk (in_tens d2) b p c) ->
  asym_mask d1 atol = asym_mask d2 atol.
Proof.
  intros d1 d2 atol A W1 W2 E1 E2 E3 E4 V.
  destruct (C111_mask d1 atol A W1) as (m1 & -> & L1 & S1). destruct (C111_mask d2 atol A W2) as (m2 & -> & L2 & S2).
  f_equal. apply (nth_ext _ _ false false); [congruence|]. intros s Hs. rewrite L1 in Hs. specialize (S1 s Hs). rewrite E2 in Hs. specialize (S2 s Hs).
  assert (Q : nth s m1 false = true <-> nth s m2 false = true).
  { rewrite S1, S2. rewrite E1, <- E2, <- E3, <- E4. split; intros (X & b & p & Hb & Hp & P); split; auto; exists b, p; (split; [auto|split; [auto|]]).
    - rewrite <- V by auto. auto.
    - rewrite V by auto. auto. }
  destruct (nth s m1 false), (nth s m2 false); auto; [symmetry|]; apply Q; auto.
Qed.

(** moving any of the skipped nuisances up or down changes every bin and process by the same factor (or difference), with opposite sign *)
Theorem C111_skipped_mirrored : forall d np rinit r t m th full n1 n2 n3 c1 c2 c3, well_formed d -> scale_logk d np rinit = Ok t ->
  asym_mask d 0 = Ok m -> List.length th = in_nsyst d ->
  yields d t r th full = Ok (n1, c1) -> yields d t r (map Ropp th) full = Ok (n2, c2) -> yields d t r (map (fun _ => 0) th) full = Ok (n3, c3) ->
  (forall s, (s < in_nsyst d)%nat -> nth s th 0 <> 0 -> nth s m false = false) ->
  forall b p, (b < if full then in_nbinsfull d else in_nbins d)%nat -> (p < in_nproc d)%nat ->
    mirrored (in_type d) (c1 b p) (c2 b p) (c3 b p).
Proof. intros d np rinit r t m th full n1 n2 n3 c1 c2 c3 (C & NC & LB). intros. eapply unmarked_mirrored; eauto. Qed.
(** moving a marked one does not, by however little, unless the prediction there is zero *)
Theorem C111_marked_not_mirrored : forall d np rinit t m s x, well_formed d -> scale_logk d np rinit = Ok t ->
  asym_mask d 0 = Ok m -> nth s m false = true -> x <> 0 ->
  exists b p, (b < in_nbinsfull d)%nat /\ (p < in_nproc d)%nat /\
    forall r n1 c1 n2 c2 n3 c3,
    (match in_type d with LogNormal => rn_bcast r b p * view_norm (in_tens d) b p <> 0 | Normal => np = 0%nat \/ rn_bcast rinit b p <> 0 end) ->
    yields d t r (only (in_nsyst d) s x) true = Ok (n1, c1) ->
    yields d t r (only (in_nsyst d) s (- x)) true = Ok (n2, c2) ->
    yields d t r (repeat 0 (in_nsyst d)) true = Ok (n3, c3) ->
    ~ mirrored (in_type d) (c1 b p) (c2 b p) (c3 b p).
Proof. intros d np rinit t m s x (C & NC & LB). intros. eapply marked_not_mirrored; eauto. Qed.

(** the nuisances scanned are those that pass the options, in order, each under its own name *)
Theorem C111_selection : forall rx names mask skip inc exc, names <> [] -> legal rx inc -> legal rx exc ->
  (forall e, skip = true -> mask <> Raise e) -> (forall m, mask = Ok m -> List.length m = List.length names) ->
  exists idx, asym_select rx names mask skip inc exc = Ok (idx, map (fun i => nth i names EmptyString) idx) /\ ascending idx /\
    forall i, In i idx <-> exists n, nth_error names i = Some n /\ passes rx inc exc n /\
      (skip = true -> exists m, mask = Ok m /\ nth i m false = true).
Proof. exact asym_select_spec. Qed.
(** the constraints shifted are those of constrained nuisances and of parameters with a prior that pass the options *)
Theorem C111_global_selection : forall rx nparams parms systs cw priored inc exc,
  systs <> [] -> List.length cw = List.length systs -> legal rx inc -> legal rx exc ->
  exists xs names, ga_select rx nparams parms systs cw priored inc exc = Ok (xs, names) /\ List.length names = List.length xs /\
    (forall x n, In (x, n) (combine xs names) <->
       (exists i, x = (nparams + i)%nat /\ nth_error systs i = Some n /\ 0 < nth i cw 0 /\ passes rx inc exc n) \/
       (exists q, In x priored /\ nth x parms EmptyString = q /\ n = append q "_prior" /\ passes rx inc exc q)).
Proof. exact ga_select_spec. Qed.
(** the columns filled for groups are those of the parameters and the nuisances of interest *)
Theorem C111_columns : forall params systs npoi noi, NoDup (params ++ systs) -> (npoi <= List.length params)%nat ->
  (forall i, In i noi -> (i < List.length systs)%nat) ->
  target_cols (params ++ systs) (targets params systs npoi noi) = Ok (seq 0 npoi ++ map (fun i => List.length params + i)%nat noi).
Proof. exact target_cols_spec. Qed.

(** without nuisances, giving either option ends in a TypeError, whatever the expressions *)
Theorem C111_no_nuisances_refuted : forall rx mask skip e, valid rx e -> (forall x, skip = true -> mask <> Raise x) ->
  asym_select rx [] mask skip (Some e) None = Raise TypeError /\ asym_select rx [] mask skip None (Some e) = Raise TypeError /\
  forall nparams parms priored, ga_select rx nparams parms [] [] priored (Some e) None = Raise TypeError.
Proof.
  intros rx mask skip e V MK. destruct (match_params_spec rx e []) as [OK _]. destruct (OK V) as [k K].
  assert (S0 : exists s, (if skip then (m <- mask ;; Ok (map (fun p => fst p && snd p) (combine (repeat true (@List.length string [])) m)))
    else Ok (repeat true (@List.length string []))) = Ok s).
  { destruct skip; eauto. destruct mask; [cbn [rbind]; eauto|]. exfalso. eapply MK; eauto. }
  destruct S0 as [s S0]. unfold asym_select, ga_select. rewrite S0. cbn [rbind]. unfold restrict, apply_include, apply_exclude.
  rewrite K. cbn [rbind map and_list]. auto.
Qed.

(** *** concrete cases *)
(** two nuisances and two bins of one process; the second nuisance is asymmetric in the second bin only *)
Definition ex_k (b p c : nat) : R := match b, c with 0%nat, 0%nat => / 10 | 1%nat, 1%nat => / 5 | 1%nat, 3%nat => - / 20 | _, _ => 0 end.
Definition ex_dense : indata := mkIn (TDense (fun _ _ => 100) ex_k) false LogNormal 1 2 2 2.
Definition ex_sp : sparse_tensors R := mkSp [(0%nat, 0%nat, 100); (1%nat, 0%nat, 100)] [(0%nat, 0%nat, / 10); (1%nat, 1%nat, / 5); (1%nat, 3%nat, - / 20)] 4.
Definition ex_sparse : indata := mkIn (TSparse ex_sp) false LogNormal 1 2 2 2.
Lemma abs_twentieth : Rabs (- / 20) = / 20.
Proof. rewrite Rabs_Ropp. apply Rabs_right. lra. Qed.
Example C111_ex_mask : asym_mask ex_dense 0 = Ok [false; true] /\ asym_mask ex_sparse 0 = Ok [false; true] /\
  asym_mask ex_dense (/ 20) = Ok [false; false] /\ asym_mask ex_sparse (/ 20) = Ok [false; false].
Proof.
  unfold asym_mask. cbn -[Rabs Rltb IZR Rinv Ropp]. rewrite abs_twentieth, Rabs_R0, !(Rltb_false 0 0), !(Rltb_false (/ 20) 0), (Rltb_false (/ 20) (/ 20)), !(Rltb_true 0 (/ 20)) by lra.
  cbn. auto.
Qed.
Example C111_ex_well_formed : well_formed ex_dense /\ well_formed ex_sparse.
Proof.
  split; (split; [|split; [cbn; auto|cbn; lia]]); cbn; auto. split; [|split; [|split]].
  - repeat constructor; cbn; intuition discriminate.
  - repeat constructor; cbn; intuition discriminate.
  - intros b p v [H|[H|[]]]; injection H as <- <- _; lia.
  - intros j k v [H|[H|[H|[]]]]; injection H as <- <- _; lia.
Qed.
Definition ex_rx : regex := fun e => if String.eqb e "(" then None else Some (fun n => if String.eqb e ".*" then true else prefix "jes" n && String.eqb e "jes.*").
Example C111_ex_select :
  asym_select ex_rx ["jes1"; "lumi"; "jes2"; "pdf"] (Ok [true; true; true; false]) false (Some ["jes.*"; "pdf"]) None = Ok ([0; 2; 3]%nat, ["jes1"; "jes2"; "pdf"]) /\
  asym_select ex_rx ["jes1"; "lumi"; "jes2"; "pdf"] (Ok [true; true; true; false]) true (Some ["jes.*"; "pdf"]) (Some ["jes1"]) = Ok ([2]%nat, ["jes2"]) /\
  asym_select ex_rx ["jes1"; "lumi"] (Ok [true; true]) false (Some []) None = Ok ([], []) /\
  asym_select ex_rx ["jes1"; "lumi"] (Ok [true; true]) false (Some ["("]) None = Raise GenericException /\
  asym_select ex_rx [] (Ok []) false (Some [".*"]) None = Raise TypeError.
Proof. repeat split. Qed.
Example C111_ex_global : ga_select ex_rx 2 ["mu"; "k"; "jes1"; "free"; "jes2"] ["jes1"; "free"; "jes2"] [1; 0; 1] [1%nat] None (Some ["jes2"]) =
  Ok ([2; 1]%nat, ["jes1"; "k_prior"]).
Proof.
  unfold ga_select. cbn [map]. rewrite (Rltb_true 0 1), (Rltb_false 0 0) by lra. reflexivity.
Qed.
Example C111_ex_columns : target_cols ["mu"; "nu"; "jes"; "mass"] (targets ["mu"; "nu"] ["jes"; "mass"] 1 [1%nat]) = Ok [0; 3]%nat.
Proof. reflexivity. Qed.

(** additive variations of a process that is switched off by default are marked, but move nothing *)
Theorem C111_scaled_refuted : exists d np rinit r t m s, well_formed d /\ scale_logk d np rinit = Ok t /\ asym_mask d 0 = Ok m /\ nth s m false = true /\
  forall x, exists n1 c1 n2 c2 n3 c3, yields d t r (only (in_nsyst d) s x) true = Ok (n1, c1) /\
    yields d t r (only (in_nsyst d) s (- x)) true = Ok (n2, c2) /\ yields d t r (repeat 0 (in_nsyst d)) true = Ok (n3, c3) /\
    forall b p, (b < in_nbinsfull d)%nat -> c1 b p = c3 b p /\ c2 b p = c3 b p.
Proof.
  pose (d := mkIn (TDense (fun _ _ => 100) ex_k) false Normal 1 2 2 2).
  assert (W : well_formed d) by (split; [exact I|split; [exact I|cbn; lia]]).
  exists d, 1%nat, (RBroadcast (fun _ => 0)), (RBroadcast (fun _ => 1)). eexists. exists [false; true], 1%nat. split; auto. split; [reflexivity|].
  split. { apply (proj1 C111_ex_mask). } split; [reflexivity|]. intros x.
  do 6 eexists. split; [reflexivity|]. split; [reflexivity|]. split; [reflexivity|].
  intros b p Hb. cbv beta. cbn [in_type d]. unfold dense_logsnorm. rewrite !sum_n_0; auto; intros i _; cbn; ring.
Qed.

Print Assumptions C111_files.
Print Assumptions C111_mask.
Print Assumptions C111_layouts_agree.
Print Assumptions C111_skipped_mirrored.
Print Assumptions C111_marked_not_mirrored.
Print Assumptions C111_selection.
Print Assumptions C111_global_selection.
Print Assumptions C111_columns.
Print Assumptions C111_no_nuisances_refuted.
Print Assumptions C111_scaled_refuted.
