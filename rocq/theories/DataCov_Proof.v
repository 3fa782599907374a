(** Proofs about the covariance of the data. *)
From Coq Require Import Reals List Arith Bool String Lia Lra.
From Verif Require Import RBase PyList PyDict Mat_Model Mat_Proof Impacts_Model Impacts_Solve Impacts_Proof Gof_Proof DataCov_Model DataCov_Spec.
Import ListNotations.
Open Scope R_scope.

Lemma map2_length {A B C} (f : A -> B -> C) l : forall m, List.length l = List.length m -> List.length (map2 f l m) = List.length l.
Proof. induction l; destruct m; cbn; intros H; try discriminate; [reflexivity|]. rewrite IHl by lia. reflexivity. Qed.
Lemma map2_nth (f : R -> R -> R) l : forall m b, List.length l = List.length m -> (b < List.length l)%nat -> nth b (map2 f l m) 0 = f (nth b l 0) (nth b m 0).
Proof. induction l; destruct m; cbn; intros b H Hb; try discriminate; try lia. destruct b; auto. apply IHl; lia. Qed.
Lemma dget_some_in {V} k (d : dict V) v : dget k d = Some v -> In (k, v) d.
Proof. induction d as [|(a, x) d IH]; cbn; [discriminate|]. destruct (String.eqb_spec k a); intros H; [injection H as ->; subst; auto|right; auto]. Qed.
Lemma dget_none_keys {V} k (d : dict V) : ~ In k (dkeys d) -> dget k d = None.
Proof. induction d as [|(a, x) d IH]; cbn; auto. intros H. destruct (String.eqb_spec k a); [subst; elim H; auto|apply IH; auto]. Qed.
Lemma sum_keys {V} (f : V -> R) (d : dict V) l : NoDup l -> NoDup (dkeys d) -> (forall p, In p (dkeys d) -> In p l) ->
  sumR (map (fun p => match dget p d with Some e => f e | None => 0 end) l) = sumR (map (fun pe => f (snd pe)) d).
Proof.
  intros NL. induction d as [|(k, e) d IH]; intros ND I.
  - cbn. clear. induction l; cbn; auto. unfold sumR in IHl. rewrite IHl. ring.
  - cbn [map]. inversion ND as [|? ? NI ND']; subst. transitivity (sumR (map (fun p => (if String.eqb p k then f e else 0) + match dget p d with Some x => f x | None => 0 end) l)).
    + apply sumR_map_ext. intros p _. cbn [dget]. destruct (String.eqb_spec p k); [|ring]. subst. rewrite dget_none_keys by auto. ring.
    + rewrite sumR_map_plus. rewrite IH; auto; [|intros p Hp; apply I; right; auto]. cbn [sumR fold_right snd]. f_equal.
      assert (Ik : In k l) by (apply I; left; auto). clear - NL Ik. induction l as [|a l IHl]; [elim Ik|]. inversion NL; subst. cbn [map sumR fold_right].
      destruct (String.eqb_spec a k).
      * subst. fold (sumR (map (fun p => if String.eqb p k then f e else 0) l)). rewrite (sumR_map_ext _ (fun _ => 0)).
        { assert (Z : sumR (map (fun _ : string => 0) l) = 0) by (clear; induction l; cbn; auto; fold (sumR (map (fun _ : string => 0) l)); lra). rewrite Z. ring. }
        intros p Hp. destruct (String.eqb_spec p k); auto. subst. contradiction.
      * destruct Ik as [->|Ik]; [contradiction|]. fold (sumR (map (fun p => if String.eqb p k then f e else 0) l)). rewrite IHl by auto. ring.
Qed.

Section Chan.
Variables (c : chan) (s : string).
Hypothesis OKC : chan_ok c.
Definition pshift (b : nat) (p : string) : R := match dget p (ch_procs c) with Some e => process_shift s b e | None => 0 end.
Lemma chan_shift_ok procs : forall v, List.length v = ch_n c ->
  exists v', chan_shift procs c s v = Ok v' /\ List.length v' = ch_n c /\ forall b, (b < ch_n c)%nat -> nth b v' 0 = nth b v 0 + sumR (map (pshift b) procs).
Proof.
  induction procs as [|p r IH]; intros v L; cbn [chan_shift].
  - exists v. split; auto. split; auto. intros. cbn. ring.
  - cbn [map sumR fold_right]. destruct (dget p (ch_procs c)) as [e|] eqn:E.
    + destruct (dget s (pe_logk e)) as [k|] eqn:K.
      * assert (Lk : List.length k = ch_n c). { destruct OKC as (_ & _ & OE). destruct (OE p e (dget_some_in _ _ _ E)) as (_ & _ & OL). exact (OL s k K). }
        unfold badd. rewrite L, Lk, Nat.eqb_refl. cbn [rbind]. destruct (IH (map2 Rplus v k)) as (v' & E' & L' & N').
        { rewrite map2_length; lia. }
        exists v'. split; auto. split; auto. intros b Hb. rewrite N', map2_nth by lia. unfold pshift at 2. rewrite E. unfold process_shift. rewrite K. unfold sumR. ring.
      * destruct (IH v L) as (v' & E' & L' & N'). exists v'. split; auto. split; auto. intros b Hb. rewrite N' by auto. unfold pshift at 2. rewrite E. unfold process_shift. rewrite K. unfold sumR. ring.
    + destruct (IH v L) as (v' & E' & L' & N'). exists v'. split; auto. split; auto. intros b Hb. rewrite N' by auto. unfold pshift at 2. rewrite E. unfold sumR. ring.
Qed.
End Chan.
Lemma systv_ok procs l s : NoDup procs -> Forall chan_ok l -> (forall c p, In c l -> In p (dkeys (ch_procs c)) -> In p procs) ->
  exists v, systv procs l s = Ok v /\ List.length v = nbins_of l /\ forall b, (b < nbins_of l)%nat -> nth b v 0 = total_shift l s b.
Proof.
  intros ND. induction l as [|c r IH]; intros F I; cbn [systv].
  - exists []. split; auto. split; auto. intros b Hb. cbn in Hb. lia.
  - inversion F as [|? ? OC F']; subst. destruct (chan_shift_ok c s OC procs (repeat 0 (ch_n c)) (repeat_length _ _)) as (v & E & L & N). rewrite E. cbn [rbind].
    destruct IH as (v' & E' & L' & N'); auto; [intros c0 p H; apply I; right; auto|]. rewrite E'. cbn [rbind]. exists (v ++ v'). split; auto.
    unfold nbins_of in *. cbn [map list_sum fold_right]. unfold list_sum in *. split; [rewrite app_length; lia|]. intros b Hb. cbn [total_shift].
    destruct (Nat.ltb_spec b (ch_n c)).
    + rewrite app_nth1, N by lia. rewrite nth_repeat. rewrite Rplus_0_l. unfold pshift.
      rewrite (sum_keys (process_shift s b) (ch_procs c) procs); auto; [apply OC|intros p; apply I; left; auto].
    + rewrite app_nth2 by lia. rewrite L. apply N'. lia.
Qed.
Lemma add_systs_ok procs l : NoDup procs -> Forall chan_ok l -> (forall c p, In c l -> In p (dkeys (ch_procs c)) -> In p procs) ->
  forall ss M, exists M', add_systs procs l ss (nbins_of l, M) = Ok (nbins_of l, M') /\
    forall a b, (a < nbins_of l)%nat -> (b < nbins_of l)%nat -> M' a b = M a b + sumR (map (fun s => total_shift l s a * total_shift l s b) ss).
Proof.
  intros ND F I. induction ss as [|s r IH]; intros M; cbn [add_systs].
  - exists M. split; auto. intros. cbn. ring.
  - destruct (systv_ok procs l s ND F I) as (v & -> & L & N). cbn [rbind]. unfold add_outer. rewrite L, Nat.eqb_refl. cbn [rbind].
    destruct (IH (fun a b => M a b + nth a v 0 * nth b v 0)) as (M' & E & Q). exists M'. split; auto. intros a b Ha Hb. rewrite Q by auto. rewrite !N by auto.
    cbn [map sumR fold_right]. unfold sumR. ring.
Qed.
Lemma fill_var_ok l : (forall c, In c l -> ch_masked c = false) -> forall ib nb a, (ib + nbins_of l <= nb)%nat ->
  exists v, fill_var l ib nb a = Ok v /\ forall b, v b = if (Nat.leb ib b && Nat.ltb b (ib + nbins_of l))%bool then data_variance l (b - ib) else a b.
Proof.
  induction l as [|c r IH]; intros M ib nb a H; cbn [fill_var].
  - exists a. split; auto. intros b. replace (nbins_of []) with O by reflexivity. rewrite Nat.add_0_r. destruct (Nat.leb_spec ib b); cbn [andb]; auto. destruct (Nat.ltb_spec b ib); [lia|reflexivity].
  - rewrite M by (left; auto). unfold nbins_of in *. cbn [map list_sum fold_right] in *. unfold list_sum in *. destruct (Nat.leb_spec (ib + ch_n c) nb); [|lia]. cbn [orb].
    match goal with |- context [fill_var r _ _ ?a'] => destruct (IH (fun c H => M c (or_intror H)) (ib + ch_n c)%nat nb a') as (v & E & N) end; [lia|].
    exists v. split; auto. intros b. rewrite N. cbn [data_variance]. destruct (Nat.leb_spec (ib + ch_n c) b).
    + destruct (Nat.leb_spec ib b); [|lia]. cbn [andb]. destruct (Nat.ltb_spec b (ib + ch_n c)%nat); [lia|]. destruct (Nat.ltb_spec (b - ib) (ch_n c)); [lia|].
      replace (b - (ib + ch_n c))%nat with (b - ib - ch_n c)%nat by lia. rewrite Nat.add_assoc. reflexivity.
    + cbn [andb]. destruct (Nat.leb_spec ib b); cbn [andb]; auto. destruct (Nat.ltb_spec b (ib + ch_n c)%nat); [|lia]. destruct (Nat.ltb_spec b (ib + (ch_n c + fold_right Nat.add 0%nat (map ch_n r)))%nat); [|lia].
      destruct (Nat.ltb_spec (b - ib) (ch_n c)); [|lia]. reflexivity.
Qed.
Lemma nbins_nomask w : no_masked w -> nbins w = nbinsfull w.
Proof.
  unfold nbins, nbinsfull, no_masked. induction (chans w) as [|c r IH]; auto. intros H. cbn [filter]. rewrite (H c) by (left; auto). cbn [negb]. unfold nbins_of in *. cbn [map list_sum fold_right].
  unfold list_sum in *. f_equal. apply IH. intros; apply H; right; auto.
Qed.
Lemma quad_sm n A x : quad n A x = sm n (fun a => sm n (fun b => x a * A a b * x b)).
Proof. unfold quad, mv. apply sm_ext. intros a _. rewrite <- sm_scal. apply sm_ext. intros; ring. Qed.
Lemma sm_sumR {A} n (f : nat -> A -> R) l : sm n (fun a => sumR (map (f a) l)) = sumR (map (fun s => sm n (fun a => f a s)) l).
Proof.
  induction l as [|s l IH]; cbn [map sumR fold_right]; [apply sm_0; auto|]. fold (sumR (map (fun s => sm n (fun a => f a s)) l)). rewrite <- IH, <- sm_plus. apply sm_ext. reflexivity.
Qed.
Lemma sumR_scal_r {A} c (f : A -> R) l : sumR (map (fun x => f x * c) l) = sumR (map f l) * c.
Proof. rewrite (sumR_map_ext _ (fun x => c * f x)) by (intros; ring). rewrite sumR_map_scal. ring. Qed.
Lemma sumR_nonneg' {A} (f : A -> R) l : (forall x, 0 <= f x) -> 0 <= sumR (map f l).
Proof. intros H. induction l; cbn; [lra|]. fold (sumR (map f l)). specialize (H a). lra. Qed.

(** V + sum of outer products *)
Section Fold.
Variables (n : nat) (V : nat -> nat -> R) (ss : list string) (T : string -> nat -> R).
Definition folded (a b : nat) : R := V a b + sumR (map (fun s => T s a * T s b) ss).
Hypothesis SV : sym n V.
Hypothesis PV : posdef n V.
Lemma mv_folded x a : mv n folded x a = mv n V x a + sumR (map (fun s => T s a * sm n (fun b => T s b * x b)) ss).
Proof.
  unfold mv, folded. rewrite (sm_ext n _ (fun j => V a j * x j + sumR (map (fun s => T s a * (T s j * x j)) ss))).
  - rewrite sm_plus. f_equal. rewrite (sm_sumR n (fun j s => T s a * (T s j * x j))). apply sumR_map_ext. intros s _. apply sm_scal.
  - intros j _. rewrite Rmult_plus_distr_r. f_equal. rewrite <- sumR_scal_r. apply sumR_map_ext. intros; ring.
Qed.
Lemma quad_folded x : quad n folded x = quad n V x + sumR (map (fun s => sm n (fun b => T s b * x b) * sm n (fun b => T s b * x b)) ss).
Proof.
  unfold quad. rewrite (sm_ext n _ (fun i => x i * mv n V x i + sumR (map (fun s => sm n (fun b => T s b * x b) * (T s i * x i)) ss))).
  - rewrite sm_plus. f_equal. rewrite (sm_sumR n (fun i s => sm n (fun b => T s b * x b) * (T s i * x i))). apply sumR_map_ext. intros s _. rewrite sm_scal. reflexivity.
  - intros i _. rewrite mv_folded, Rmult_plus_distr_l. f_equal. rewrite <- sumR_map_scal. apply sumR_map_ext. intros; ring.
Qed.
Lemma folded_sym : sym n folded.
Proof. intros a b Ha Hb. unfold folded. rewrite (SV a b) by auto. f_equal. apply sumR_map_ext. intros; ring. Qed.
Lemma folded_pos : posdef n folded.
Proof.
  intros x Hx. rewrite quad_folded. assert (P := PV x Hx). assert (Q := sumR_nonneg' (fun s => sm n (fun b => T s b * x b) * sm n (fun b => T s b * x b)) ss (fun s => Rle_0_sqr _)). lra.
Qed.
Variables (Vi W : nat -> nat -> R).
Hypothesis IV : forall a b, (a < n)%nat -> (b < n)%nat -> mm n V Vi a b = delta a b.
Hypothesis IW : forall a b, (a < n)%nat -> (b < n)%nat -> mm n folded W a b = delta a b.
Lemma quad_as_mv (M : nat -> nat -> R) x : sm n (fun a => sm n (fun b => x a * M a b * x b)) = sm n (fun a => x a * mv n M x a).
Proof. apply sm_ext. intros a _. unfold mv. rewrite <- sm_scal. apply sm_ext. intros; ring. Qed.
(** the explicit nuisances minimise to the folded chi2 *)
Definition res_with (r : nat -> R) (th : string -> R) (a : nat) : R := r a + sumR (map (fun s => th s * T s a) ss).
Definition loss (r : nat -> R) (th : string -> R) : R := sm n (fun a => res_with r th a * mv n Vi (res_with r th) a) + sumR (map (fun s => th s * th s) ss).
Lemma dot_res r th z : sm n (fun a => res_with r th a * z a) = sm n (fun a => r a * z a) + sumR (map (fun s => th s * sm n (fun a => T s a * z a)) ss).
Proof.
  unfold res_with. rewrite (sm_ext n _ (fun a => r a * z a + sumR (map (fun s => th s * (T s a * z a)) ss))).
  - rewrite sm_plus. f_equal. rewrite (sm_sumR n (fun a s => th s * (T s a * z a))). apply sumR_map_ext. intros; apply sm_scal.
  - intros a _. rewrite Rmult_plus_distr_r, <- sumR_scal_r. f_equal. apply sumR_map_ext. intros; ring.
Qed.
Lemma inv_bound u y : 2 * sm n (fun a => u a * y a) - quad n V y <= sm n (fun a => u a * mv n Vi u a).
Proof.
  assert (PVi := inv_pos n V Vi SV PV IV). set (d := fun a => mv n Vi u a - y a).
  assert (Q : 0 <= quad n V d). { destruct (nonzero_dec n d) as [D|D]; [left; apply PV; auto|rewrite quad_zero; auto; lra]. }
  assert (E : quad n V d = sm n (fun a => u a * mv n Vi u a) - 2 * sm n (fun a => u a * y a) + quad n V y); [|lra].
  unfold quad at 1. rewrite (sm_ext n _ (fun a => mv n Vi u a * u a - mv n Vi u a * mv n V y a - y a * u a + y a * mv n V y a)).
  - rewrite sm_plus, !sm_minus. fold (quad n V y).
    assert (E1 : sm n (fun a => mv n Vi u a * mv n V y a) = sm n (fun a => u a * y a)).
    { rewrite (symm_dot n V (mv n Vi u) y SV). apply sm_ext. intros a Ha. rewrite (inv_mv n V Vi IV) by auto. reflexivity. }
    rewrite E1. rewrite (sm_ext n (fun a => mv n Vi u a * u a) (fun a => u a * mv n Vi u a)) by (intros; ring). rewrite (sm_ext n (fun a => y a * u a) (fun a => u a * y a)) by (intros; ring). ring.
  - intros a Ha. unfold d at 2. rewrite mv_minus. rewrite (inv_mv n V Vi IV) by auto. unfold d. ring.
Qed.
Theorem fold_profile r : (exists th, loss r th = sm n (fun a => r a * mv n W r a)) /\ forall th, sm n (fun a => r a * mv n W r a) <= loss r th.
Proof.
  set (z := mv n W r). assert (FZ : forall a, (a < n)%nat -> mv n folded z a = r a) by (intros a Ha; apply (inv_mv n folded W IW); auto).
  assert (Q : quad n folded z = sm n (fun a => r a * z a)). { unfold quad. apply sm_ext. intros a Ha. rewrite FZ by auto. ring. }
  rewrite quad_folded in Q. split.
  - exists (fun s => - sm n (fun b => T s b * z b)). unfold loss.
    assert (RV : forall a, (a < n)%nat -> res_with r (fun s => - sm n (fun b => T s b * z b)) a = mv n V z a).
    { intros a Ha. unfold res_with. rewrite <- (FZ a Ha), mv_folded. rewrite (sumR_map_ext (fun s => - sm n (fun b => T s b * z b) * T s a) (fun s => (-1) * (T s a * sm n (fun b => T s b * z b)))) by (intros; ring).
      rewrite sumR_map_scal. ring. }
    rewrite (sm_ext n _ (fun a => mv n V z a * z a)).
    + rewrite <- Q. unfold quad. f_equal; [apply sm_ext; intros; ring|apply sumR_map_ext; intros; ring].
    + intros a Ha. rewrite RV by auto. f_equal. rewrite (mv_ext n Vi Vi _ (mv n V z)) by auto. apply (inv_mv' n V Vi PV IV). auto.
  - intros th. unfold loss. assert (B := inv_bound (res_with r th) z). rewrite dot_res in B.
    assert (S : 0 <= sumR (map (fun s => (th s + sm n (fun a => T s a * z a)) * (th s + sm n (fun a => T s a * z a))) ss)) by (apply sumR_nonneg'; intros; apply Rle_0_sqr).
    rewrite (sumR_map_ext _ (fun s => (th s * th s + 2 * (th s * sm n (fun a => T s a * z a))) + sm n (fun a => T s a * z a) * sm n (fun a => T s a * z a))) in S by (intros; ring).
    rewrite !sumR_map_plus, sumR_map_scal in S. lra.
Qed.
End Fold.

(** ** write *)
Lemma posdef_form n A : posdef n A <-> forall x, (exists i, (i < n)%nat /\ x i <> 0) -> 0 < sm n (fun a => sm n (fun b => x a * A a b * x b)).
Proof. split; intros H x Hx; [rewrite <- quad_sm; apply H; auto|rewrite quad_sm; apply H; auto]. Qed.
Lemma posdef_ext n A B : (forall a b, (a < n)%nat -> (b < n)%nat -> A a b = B a b) -> posdef n A -> posdef n B.
Proof. intros E P x Hx. assert (Q := P x Hx). replace (quad n B x) with (quad n A x); auto. unfold quad. apply sm_ext. intros i Hi. f_equal. apply mv_ext; auto. Qed.
Lemma total_folded w a b : total_cov w a b = folded (data_part w) (cw_covsysts w) (fun s => total_shift (chans w) s) a b.
Proof. reflexivity. Qed.
Lemma write_start w : no_masked w -> cw_sparse w = false -> has_cov w \/ cw_bbb w = true -> match cw_cov w with Some (n, _) => n = nbins w | None => True end ->
  exists M, (forall a b, (a < nbins w)%nat -> (b < nbins w)%nat -> M a b = data_part w a b) /\ write w =
    (c1 <- add_systs (cw_procs w) (chans w) (cw_covsysts w) (nbins w, M) ;; full <- (if cw_bbb w then add_row c1 (diag2 (cw_procs w) (chans w)) else Ok c1) ;;
     inv <- ginv (fst full) (snd full) ;; Ok (set_cov w c1, Some (fst full, inv))).
Proof.
  intros NM SP HC DC. unfold write. destruct (fill_var_ok (chans w) NM O (nbins w) (fun _ => 0)) as (v & E & N).
  { rewrite (nbins_nomask w NM). unfold nbinsfull. lia. }
  rewrite E. cbn [rbind]. rewrite SP. cbn [andb]. unfold data_part. destruct (cw_cov w) as [(n, M)|] eqn:C.
  - subst n. exists M. split; auto.
  - assert (T : (some_of (cw_covsysts w) || cw_bbb w)%bool = true).
    { destruct HC as [[H|H]|H]; [rewrite C in H; elim H; auto|destruct (cw_covsysts w); auto; elim H; auto|rewrite H; apply orb_true_r]. }
    rewrite T. eexists. split; [|reflexivity]. intros a b Ha Hb. cbv beta. destruct (Nat.eqb a b); auto. rewrite N. rewrite (nbins_nomask w NM) in Ha. unfold nbinsfull in Ha.
    destruct (Nat.ltb_spec a (0 + nbins_of (chans w))%nat); [|lia]. rewrite Nat.sub_0_r. reflexivity.
Qed.
Lemma data_pos_split w : data_pos w -> sym (nbins w) (data_part w) /\ posdef (nbins w) (data_part w).
Proof. intros (S & P). split; [exact S|apply posdef_form; exact P]. Qed.
Lemma total_pos w : data_pos w -> sym (nbins w) (total_cov w) /\ posdef (nbins w) (total_cov w).
Proof.
  intros D. destruct (data_pos_split w D) as (S & P). split; [exact (folded_sym _ _ _ _ S)|exact (folded_pos _ _ _ _ P)].
Qed.
Lemma inverse_exists n A M : posdef n A -> (forall a b, (a < n)%nat -> (b < n)%nat -> M a b = A a b) -> exists W, ginv n M = Ok W /\ inverse_of n A W.
Proof.
  intros P E. assert (PM : posdef n M) by (apply (posdef_ext n A); auto; intros; symmetry; auto).
  destruct (ginv_spec n M (posdef_regular n M PM)) as (W & G & I). exists W. split; auto. intros a b Ha Hb.
  rewrite <- (sm_ext n (fun c => M a c * W c b)) by (intros; rewrite E; auto). exact (I a b Ha Hb).
Qed.
Theorem write_ok w : writer_ok w -> no_masked w -> cw_sparse w = false -> cw_bbb w = false -> has_cov w -> data_pos w ->
  exists M W, write w = Ok (set_cov w (nbins w, M), Some (nbins w, W)) /\ inverse_of (nbins w) (total_cov w) W /\
    forall a b, (a < nbins w)%nat -> (b < nbins w)%nat -> M a b = total_cov w a b.
Proof.
  intros (ND & F & I & DC) NM SP BB HC DP. destruct (write_start w NM SP (or_introl HC) DC) as (M & HM & ->).
  destruct (add_systs_ok (cw_procs w) (chans w) ND F I (cw_covsysts w) M) as (M' & E & Q).
  rewrite (nbins_nomask w NM) in *. unfold nbinsfull in *. rewrite E. cbn [rbind]. rewrite BB. cbn [rbind fst snd].
  assert (QT : forall a b, (a < nbins_of (chans w))%nat -> (b < nbins_of (chans w))%nat -> M' a b = total_cov w a b) by (intros a b Ha Hb; rewrite Q, HM by auto; reflexivity).
  destruct (total_pos w DP) as (_ & PT). rewrite (nbins_nomask w NM) in PT. unfold nbinsfull in PT.
  destruct (inverse_exists _ _ _ PT QT) as (W & G & IW). rewrite G. cbn [rbind]. exists M', W. auto.
Qed.
Lemma chi2_mv n W r : chi2 n W r = sm n (fun a => r a * mv n W r a).
Proof. unfold chi2, mv. apply sm_ext. intros a _. rewrite <- sm_scal. apply sm_ext. intros; ring. Qed.
Theorem write_profile w : writer_ok w -> no_masked w -> cw_sparse w = false -> cw_bbb w = false -> has_cov w -> data_pos w ->
  exists w' W, write w = Ok (w', Some (nbins w, W)) /\ forall Vi, inverse_of (nbins w) (data_part w) Vi -> forall r,
    (exists theta, chi2_explicit w Vi r theta = chi2 (nbins w) W r) /\ forall theta, chi2 (nbins w) W r <= chi2_explicit w Vi r theta.
Proof.
  intros OKW NM SP BB HC DP. destruct (write_ok w OKW NM SP BB HC DP) as (M & W & E & IW & _). exists (set_cov w (nbins w, M)), W. split; auto.
  intros Vi IV r. destruct (data_pos_split w DP) as (S & P).
  destruct (fold_profile (nbins w) (data_part w) (cw_covsysts w) (fun s => total_shift (chans w) s) S P Vi W IV IW r) as ((th & Eth) & L).
  assert (X : forall theta, chi2_explicit w Vi r theta = loss (nbins w) (cw_covsysts w) (fun s => total_shift (chans w) s) Vi r theta).
  { intros theta. unfold chi2_explicit, loss. rewrite chi2_mv. reflexivity. }
  rewrite chi2_mv. split; [exists th; rewrite X; auto|intros theta; rewrite X; auto].
Qed.
(** written again: the attribute already holds the sum *)
Theorem write_again w : writer_ok w -> no_masked w -> cw_sparse w = false -> cw_bbb w = false -> has_cov w -> data_pos w ->
  exists w' W w'' W', write w = Ok (w', Some (nbins w, W)) /\ write w' = Ok (w'', Some (nbins w, W')) /\ inverse_of (nbins w) (fun a b => data_part w a b + 2 * syst_part w a b) W'.
Proof.
  intros OKW NM SP BB HC DP. destruct (write_ok w OKW NM SP BB HC DP) as (M & W & E & IW & EM). set (w' := set_cov w (nbins w, M)) in *.
  assert (DPw' : data_pos w').
  { destruct (total_pos w DP) as (S & P). split.
    - intros a b Ha Hb. change (M a b = M b a). change (nbins w') with (nbins w) in *. rewrite !EM by auto. apply S; auto.
    - apply posdef_form. change (nbins w') with (nbins w). apply (posdef_ext _ (total_cov w)); auto. intros a b Ha Hb. symmetry. apply EM; auto. }
  destruct (write_ok w') as (M' & W' & E' & IW' & EM'); auto.
  { destruct OKW as (A & B & C & D). repeat split; auto. }
  { left. discriminate. }
  exists w', W, (set_cov w' (nbins w', M')), W'. split; auto. split; [exact E'|]. change (nbins w') with (nbins w) in IW'. intros a b Ha Hb. rewrite <- (IW' a b Ha Hb). apply sm_ext. intros c Hc. f_equal.
  unfold total_cov. change (syst_part w') with (syst_part w). change (data_part w' a c) with (M a c). rewrite EM by auto. unfold total_cov. ring.
Qed.
(** statistical uncertainty of the prediction, one process *)
Theorem write_bbb_one w p : writer_ok w -> no_masked w -> cw_sparse w = false -> cw_bbb w = true -> data_pos w -> cw_procs w = [p] -> (0 < nbins w)%nat ->
  0 <= sumw2_at (chans w) p 0 ->
  exists w' W, write w = Ok (w', Some (nbins w, W)) /\ inverse_of (nbins w) (fun a b => total_cov w a b + sumw2_at (chans w) p 0) W.
Proof.
  intros (ND & F & I & DC) NM SP BB DP PR NB S0. destruct (write_start w NM SP (or_intror BB) DC) as (M & HM & ->).
  destruct (add_systs_ok (cw_procs w) (chans w) ND F I (cw_covsysts w) M) as (M' & E & Q).
  rewrite (nbins_nomask w NM) in *. unfold nbinsfull in *. rewrite E. cbn [rbind]. rewrite BB. rewrite PR.
  assert (QT : forall a b, (a < nbins_of (chans w))%nat -> (b < nbins_of (chans w))%nat -> M' a b = total_cov w a b) by (intros a b Ha Hb; rewrite Q, HM by auto; reflexivity).
  assert (D2 : diag2 [p] (chans w) = [sumw2_at (chans w) p 0]).
  { unfold diag2. cbn [List.length]. replace (Nat.min (nbins_of (chans w)) 1) with 1%nat by lia. reflexivity. }
  rewrite D2. unfold add_row. cbn [List.length].
  destruct (total_pos w DP) as (_ & PT). rewrite (nbins_nomask w NM) in PT. unfold nbinsfull in PT.
  set (x := sumw2_at (chans w) p 0) in *.
  assert (PX : posdef (nbins_of (chans w)) (fun a b => total_cov w a b + x)).
  { apply (posdef_ext _ (folded (total_cov w) [p] (fun _ _ => sqrt x))); [|apply folded_pos; auto].
    intros a b _ _. unfold folded. cbn [map sumR fold_right]. rewrite sqrt_sqrt by auto. ring. }
  destruct (Nat.eqb_spec 1 (nbins_of (chans w))) as [N1|N1].
  - cbn [rbind fst snd].
    destruct (inverse_exists _ _ (fun a b => M' a b + nth b [x] 0) PX) as (W & G & IW); [|rewrite G; cbn [rbind]; eexists; eexists; split; [reflexivity|auto]].
    intros a b Ha Hb. rewrite QT by auto. rewrite <- N1 in Hb. replace b with O by lia. reflexivity.
  - cbn [rbind fst snd].
    destruct (inverse_exists _ _ (fun a b => M' a b + x) PX) as (W & G & IW); [|rewrite G; cbn [rbind]; eexists; eexists; split; [reflexivity|auto]].
    intros a b Ha Hb. rewrite QT by auto. reflexivity.
Qed.
(** several processes, fewer than bins *)
Theorem write_bbb_many w : writer_ok w -> no_masked w -> cw_sparse w = false -> cw_bbb w = true -> (1 < List.length (cw_procs w) < nbins w)%nat -> write w = Raise ValueError.
Proof.
  intros (ND & F & I & DC) NM SP BB L. destruct (write_start w NM SP (or_intror BB) DC) as (M & HM & ->).
  destruct (add_systs_ok (cw_procs w) (chans w) ND F I (cw_covsysts w) M) as (M' & E & Q).
  rewrite (nbins_nomask w NM) in *. unfold nbinsfull in *. rewrite E. cbn [rbind]. rewrite BB.
  assert (LD : List.length (diag2 (cw_procs w) (chans w)) = List.length (cw_procs w)) by (unfold diag2; rewrite map_length, seq_length; lia).
  unfold add_row. rewrite LD. destruct (Nat.eqb_spec (List.length (cw_procs w)) (nbins_of (chans w))); [lia|].
  destruct (diag2 (cw_procs w) (chans w)) as [|x [|y r]]; cbn [List.length] in LD; try lia. destruct (Nat.eqb_spec (nbins_of (chans w)) 1); [lia|]. reflexivity.
Qed.
(** masked channels *)
Lemma fill_var_exc l : forall ib nb a e, fill_var l ib nb a = Raise e -> e = ValueError.
Proof.
  induction l as [|c r IH]; intros ib nb a e; cbn [fill_var]; [discriminate|]. destruct (ch_masked c); [apply IH|]. destruct (_ || _)%bool; [apply IH|]. intros H. injection H. auto.
Qed.
Lemma nbins_lt l c : In c l -> ch_masked c = true -> (0 < ch_n c)%nat -> (nbins_of (filter (fun c => negb (ch_masked c)) l) < nbins_of l)%nat.
Proof.
  assert (LE : forall l, (nbins_of (filter (fun c => negb (ch_masked c)) l) <= nbins_of l)%nat).
  { clear. induction l as [|d r IH]; auto. cbn [filter]. unfold nbins_of in *. destruct (negb (ch_masked d)); cbn [map list_sum fold_right]; unfold list_sum in *; lia. }
  induction l as [|d r IH]; [intros []|]. intros [->|H] M P.
  - cbn [filter]. rewrite M. cbn [negb]. specialize (LE r). unfold nbins_of in *. cbn [map list_sum fold_right]. unfold list_sum in *. lia.
  - specialize (IH H M P). cbn [filter]. unfold nbins_of in *. destruct (negb (ch_masked d)); cbn [map list_sum fold_right]; unfold list_sum in *; lia.
Qed.
Theorem write_masked w c : writer_ok w -> cw_sparse w = false -> In c (chans w) -> ch_masked c = true -> (0 < ch_n c)%nat -> (0 < nbins w)%nat -> cw_covsysts w <> [] ->
  write w = Raise ValueError.
Proof.
  intros (ND & F & I & DC) SP IC MC PC NB HC. unfold write. destruct (fill_var (chans w) 0 (nbins w) (fun _ => 0)) as [v|e] eqn:FV; cbn [rbind]; [|apply fill_var_exc in FV; subst; auto].
  rewrite SP. cbn [andb].
  assert (X : forall M, add_systs (cw_procs w) (chans w) (cw_covsysts w) (nbins w, M) = Raise ValueError).
  { intros M. destruct (cw_covsysts w) as [|s r]; [elim HC; auto|]. cbn [add_systs]. destruct (systv_ok (cw_procs w) (chans w) s ND F I) as (sv & -> & L & _). cbn [rbind].
    assert (LT := nbins_lt (chans w) c IC MC PC). fold (nbins w) in LT. unfold add_outer. rewrite L. destruct (Nat.eqb_spec (nbins_of (chans w)) (nbins w)); [lia|].
    destruct sv as [|x [|y q]]; cbn [List.length] in L; try lia; reflexivity. }
  destruct (cw_cov w) as [(n, M)|].
  - subst n. rewrite X. reflexivity.
  - destruct (cw_covsysts w) eqn:CS; [elim HC; auto|]. cbn [some_of orb]. rewrite <- CS in *. rewrite X. reflexivity.
Qed.
(** the sparse mode *)
Lemma list_sum_le {A} (f g : A -> nat) l : (forall x, In x l -> f x <= g x)%nat -> (list_sum (map f l) <= list_sum (map g l))%nat.
Proof. induction l as [|a l IH]; intros H; auto. cbn [map list_sum fold_right]. unfold list_sum in *. assert (A1 := H a (or_introl eq_refl)). assert (A2 : (forall x, In x l -> f x <= g x)%nat) by (intros; apply H; right; auto). specialize (IH A2). lia. Qed.
Lemma list_sum_lt {A} (f g : A -> nat) l x : (forall x, In x l -> f x <= g x)%nat -> In x l -> (f x < g x)%nat -> (list_sum (map f l) < list_sum (map g l))%nat.
Proof.
  induction l as [|a l IH]; intros H I L; [elim I|]. cbn [map list_sum fold_right]. unfold list_sum in *. assert (A1 := H a (or_introl eq_refl)). assert (A2 : (forall x, In x l -> f x <= g x)%nat) by (intros; apply H; right; auto).
  destruct I as [->|I].
  - assert (Q := list_sum_le f g l A2). unfold list_sum in Q. lia.
  - specialize (IH A2 I L). lia.
Qed.
Lemma logk_size_lt procs keep l c p e s k : In c l -> In p procs -> dget p (ch_procs c) = Some e -> In (s, k) (pe_logk e) -> keep s = false -> k <> [] ->
  (logk_size procs keep l < logk_size procs (fun _ => true) l)%nat.
Proof.
  intros IC IP E IS K NE.
  assert (L1 : forall (d : dict (list R)), (list_sum (map (fun sv => if keep (fst sv) then List.length (snd sv) else 0%nat) d) <= list_sum (map (fun sv : string * list R => List.length (snd sv)) d))%nat).
  { intros d. apply list_sum_le. intros (a, b) _. cbn. destruct (keep a); lia. }
  assert (L2 : forall c0 p0, (match dget p0 (ch_procs c0) with Some e0 => list_sum (map (fun sv => if keep (fst sv) then List.length (snd sv) else 0%nat) (pe_logk e0)) | None => 0%nat end
    <= match dget p0 (ch_procs c0) with Some e0 => list_sum (map (fun sv : string * list R => List.length (snd sv)) (pe_logk e0)) | None => 0%nat end)%nat).
  { intros c0 p0. destruct (dget p0 (ch_procs c0)); auto. }
  unfold logk_size. apply (list_sum_lt _ _ l c); auto.
  - intros c0 _. apply list_sum_le. intros p0 _. apply L2.
  - apply (list_sum_lt _ _ procs p); auto.
    rewrite E. apply (list_sum_lt _ _ (pe_logk e) (s, k)); auto.
    + intros (a, b) _. cbn. destruct (keep a); lia.
    + cbn. rewrite K. destruct k; [elim NE; auto|cbn; lia].
Qed.
Theorem write_sparse w c p e s k : no_masked w -> cw_sparse w = true -> In c (chans w) -> In p (cw_procs w) -> dget p (ch_procs c) = Some e -> In (s, k) (pe_logk e) ->
  smem s (cw_systs w) = false -> k <> [] -> write w = Raise AssertionError.
Proof.
  intros NM SP IC IP E IS K NE. unfold write. destruct (fill_var_ok (chans w) NM O (nbins w) (fun _ => 0)) as (v & -> & N).
  { rewrite (nbins_nomask w NM). unfold nbinsfull. lia. }
  cbn [rbind]. rewrite SP. assert (L := logk_size_lt (cw_procs w) (fun s => smem s (cw_systs w)) (chans w) c p e s k IC IP E IS K NE).
  destruct (Nat.eqb_spec (logk_size (cw_procs w) (fun _ => true) (chans w)) (logk_size (cw_procs w) (fun s => smem s (cw_systs w)) (chans w))); [lia|]. reflexivity.
Qed.

(** ** booking *)
Lemma map_snd_dset {V} k (v : V) d x : In x (map snd (dset k v d)) -> x = v \/ In x (map snd d).
Proof. induction d as [|(a, b) d IH]; cbn [dset map snd]; [intros [H|[]]; auto|]. destruct (String.eqb k a); cbn [map snd]; intros [H|H]; cbn; auto. destruct (IH H); auto. Qed.
Lemma in_dset {V} k (v : V) d k' v' : In (k', v') (dset k v d) -> (k' = k /\ v' = v) \/ In (k', v') d.
Proof.
  induction d as [|(a, b) d IH]; cbn [dset]; [intros [H|[]]; injection H; auto|]. destruct (String.eqb_spec k a) as [->|]; intros [H|H].
  - injection H as -> ->. auto.
  - right; right; auto.
  - right; left; auto.
  - destruct (IH H); auto. right; right; auto.
Qed.
Lemma nbins_dset_proc (d : dict chan) c ch x : dget c d = Some ch -> ch_n x = ch_n ch -> ch_masked x = ch_masked ch ->
  nbins_of (filter (fun c => negb (ch_masked c)) (map snd (dset c x d))) = nbins_of (filter (fun c => negb (ch_masked c)) (map snd d)).
Proof.
  induction d as [|(a, b) d IH]; cbn [dset dget]; [discriminate|]. destruct (String.eqb_spec c a) as [->|]; intros H N M.
  - injection H as ->. cbn [map filter snd]. rewrite M. destruct (negb (ch_masked ch)); auto. unfold nbins_of. cbn [map]. rewrite N. auto.
  - cbn [map filter snd]. specialize (IH H N M). destruct (negb (ch_masked b)); auto. unfold nbins_of in *. cbn [map list_sum fold_right]. unfold list_sum in *. rewrite IH. auto.
Qed.
Lemma stored_length norm k : List.length norm = List.length k -> List.length (stored false norm k) = List.length norm.
Proof. intros H. unfold stored. apply map2_length. auto. Qed.
Lemma stored_nth norm k b : List.length norm = List.length k -> (b < List.length norm)%nat -> nth b (stored false norm k) 0 = if Reqb (nth b norm 0) 0 then 0 else nth b k 0.
Proof. intros H Hb. unfold stored. rewrite map2_nth by auto. reflexivity. Qed.
Lemma book_logk_ok w k c p s e ch : dget c (cw_chans w) = Some ch -> dget p (ch_procs ch) = Some e -> cw_sparse w = false -> writer_ok w -> List.length k = ch_n ch ->
  exists w', book_logk w k c p s = Ok w' /\ writer_ok w' /\ cw_sparse w' = false /\ cw_covsysts w' = cw_covsysts w /\ cw_systs w' = cw_systs w /\ same_but w w' c p s /\
    (exists ch' e', dget c (cw_chans w') = Some ch' /\ ch_n ch' = ch_n ch /\ dget p (ch_procs ch') = Some e' /\ pe_norm e' = pe_norm e) /\
    forall b, (b < ch_n ch)%nat -> shift_of w' c p s b = if Reqb (nth b (pe_norm e) 0) 0 then 0 else nth b k 0.
Proof.
  intros C P SP (ND & F & I & DC) LK. unfold book_logk, set_entry. rewrite C, P. eexists. split; [reflexivity|].
  assert (OC : chan_ok ch). { rewrite Forall_forall in F. apply F. unfold chans. apply dget_some_in in C. apply (in_map snd) in C. auto. }
  destruct OC as (OV & OD & OE). destruct (OE p e (dget_some_in _ _ _ P)) as (ON & OS & OL). rewrite SP.
  set (e' := mkP (pe_norm e) (pe_sumw2 e) (dset s (stored false (pe_norm e) k) (pe_logk e))). set (ch' := mkC (ch_n ch) (ch_masked ch) (ch_var ch) (dset p e' (ch_procs ch))).
  split; [|split; [auto|split; [auto|split; [auto|split; [|split]]]]].
  - split; [auto|]. split; [|split].
    + unfold chans. cbn [cw_chans]. apply Forall_forall. intros x Hx. apply map_snd_dset in Hx. destruct Hx as [->|Hx]; [|rewrite Forall_forall in F; apply F; auto].
      split; [auto|]. split; [apply dkeys_dset_NoDup; auto|]. intros q f Hf. cbn [ch_procs ch' ch_n] in *. apply in_dset in Hf. destruct Hf as [(-> & ->)|Hf]; [|apply (OE q f Hf)].
      split; [auto|]. split; [auto|]. intros s' k' G. cbn [pe_logk e'] in G. rewrite dget_dset in G. destruct (String.eqb s s'); [|apply (OL _ _ G)]. injection G as G. rewrite <- G. rewrite map2_length; [exact ON|lia].
    + unfold chans. cbn [cw_chans cw_procs]. intros x q Hx Hq. apply map_snd_dset in Hx. destruct Hx as [->|Hx]; [|apply (I x q Hx Hq)]. cbn [ch_procs ch'] in Hq. apply dkeys_dset in Hq.
      assert (Hch : In ch (chans w)). { unfold chans. apply dget_some_in in C. apply (in_map snd) in C. auto. }
      destruct Hq as [->|Hq]; apply (I ch); auto. apply dget_some_in in P. apply (in_map fst) in P. auto.
    + cbn [cw_cov]. destruct (cw_cov w) as [(n, M)|]; auto. rewrite DC. unfold nbins, chans. cbn [cw_chans]. symmetry. apply (nbins_dset_proc _ c ch); auto.
  - intros c' p' s' b NE. unfold shift_of, entry_of. cbn [cw_chans]. rewrite dget_dset. destruct (String.eqb_spec c c') as [<-|]; [|auto]. cbn [ch_procs]. rewrite C. unfold ch'. cbn [ch_procs]. rewrite dget_dset.
    destruct (String.eqb_spec p p') as [<-|]; [|auto]. rewrite P. unfold process_shift, e'. cbn [pe_logk]. rewrite dget_dset. destruct (String.eqb_spec s s') as [<-|]; auto. elim NE. auto.
  - exists ch', e'. cbn [cw_chans]. rewrite dget_dset, String.eqb_refl. split; auto. split; auto. unfold ch'. cbn [ch_procs]. rewrite dget_dset, String.eqb_refl. auto.
  - intros b Hb. unfold shift_of, entry_of. cbn [cw_chans]. rewrite dget_dset, String.eqb_refl. unfold ch'. cbn [ch_procs]. rewrite dget_dset, String.eqb_refl.
    unfold process_shift, e'. cbn [pe_logk]. rewrite dget_dset, String.eqb_refl. apply stored_nth; lia.
Qed.
Lemma checked_ok n h : List.length h = n -> checked n h = Ok h.
Proof. intros <-. unfold checked. rewrite Nat.eqb_refl. auto. Qed.
Lemma shifted_length asdiff norm h : List.length h = List.length norm -> List.length (shifted asdiff norm h) = List.length norm.
Proof. intros H. unfold shifted. destruct asdiff; auto. apply map2_length. auto. Qed.
Lemma logk_length kf asdiff norm h : List.length h = List.length norm -> List.length (logk_normal kf (shifted asdiff norm h) norm) = List.length norm.
Proof. intros H. unfold logk_normal. rewrite map2_length; rewrite shifted_length; auto. Qed.
Lemma logk_nth kf asdiff norm h b : List.length h = List.length norm -> (b < List.length norm)%nat ->
  nth b (logk_normal kf (shifted asdiff norm h) norm) 0 = kf * (if asdiff then nth b h 0 else nth b h 0 - nth b norm 0).
Proof.
  intros H Hb. unfold logk_normal. rewrite map2_nth by (rewrite shifted_length; auto). unfold shifted. destruct asdiff; auto. rewrite map2_nth by auto. f_equal. ring.
Qed.
Lemma writer_ok_covsysts w ss : writer_ok w -> writer_ok (mkW (cw_sparse w) (cw_bbb w) (cw_procs w) (cw_chans w) (cw_systs w) ss (cw_cov w)).
Proof. intros H. exact H. Qed.
Section Book.
Variables (w : cwriter) (c p s : string) (ch : chan) (e : pentry).
Hypothesis C : dget c (cw_chans w) = Some ch.
Hypothesis P : dget p (ch_procs ch) = Some e.
Hypothesis SP : cw_sparse w = false.
Hypothesis OKW : writer_ok w.
Lemma norm_length : List.length (pe_norm e) = ch_n ch.
Proof.
  destruct OKW as (_ & F & _). rewrite Forall_forall in F. destruct (F ch) as (_ & _ & OE); [unfold chans; apply dget_some_in in C; apply (in_map snd) in C; auto|].
  apply (OE p e (dget_some_in _ _ _ P)).
Qed.
Theorem add_one h kf m asdiff con : List.length h = ch_n ch ->
  exists w', add_cov_syst w (One h) s p c kf true m asdiff false con = Ok w' /\ booked w w' c p s (fun b => wanted_one kf asdiff (nth b (pe_norm e) 0) (nth b h 0)) (ch_n ch).
Proof.
  intros LH. assert (LN := norm_length). unfold add_cov_syst. rewrite C, P, checked_ok by auto. cbn [rbind].
  destruct (book_logk_ok w (logk_normal kf (shifted asdiff (pe_norm e) h) (pe_norm e)) c p s e ch C P SP OKW) as (w1 & -> & O1 & S1 & K1 & Y1 & B1 & _ & V1); [rewrite logk_length; lia|].
  cbn [rbind]. eexists. split; [reflexivity|]. split; [exact O1|]. cbn [cw_sparse cw_covsysts cw_systs]. split; [auto|]. split; [rewrite K1; auto|]. split; [auto|]. split; [exact B1|].
  intros b Hb. change (shift_of w1 c p s b = wanted_one kf asdiff (nth b (pe_norm e) 0) (nth b h 0)). rewrite V1 by auto. unfold wanted_one. rewrite logk_nth by lia. reflexivity.
Qed.
Lemma opp_nth l b : nth b (map Ropp l) 0 = - nth b l 0.
Proof. rewrite <- (map_nth Ropp l 0 b). f_equal. lra. Qed.
Section Pair.
Variables (hu hd : list R) (kf : R).
Hypothesis LU : List.length hu = ch_n ch.
Hypothesis LD : List.length hd = ch_n ch.
Let up := logk_normal kf (shifted false (pe_norm e) hu) (pe_norm e).
Let dn := map Ropp (logk_normal kf (shifted false (pe_norm e) hd) (pe_norm e)).
Lemma up_length : List.length up = ch_n ch. Proof. assert (LN := norm_length). unfold up. rewrite logk_length; lia. Qed.
Lemma dn_length : List.length dn = ch_n ch. Proof. assert (LN := norm_length). unfold dn. rewrite map_length, logk_length; lia. Qed.
Lemma up_nth b : (b < ch_n ch)%nat -> nth b up 0 = kf * (nth b hu 0 - nth b (pe_norm e) 0).
Proof. assert (LN := norm_length). intros Hb. unfold up. rewrite logk_nth by lia. auto. Qed.
Lemma dn_nth b : (b < ch_n ch)%nat -> nth b dn 0 = - (kf * (nth b hd 0 - nth b (pe_norm e) 0)).
Proof. assert (LN := norm_length). intros Hb. unfold dn. rewrite opp_nth, logk_nth by lia. auto. Qed.
Theorem add_two con : exists w', add_cov_syst w (Two hu hd) s p c kf true Average false false con = Ok w' /\
  booked w w' c p s (fun b => wanted_avg kf (nth b (pe_norm e) 0) (nth b hu 0) (nth b hd 0)) (ch_n ch).
Proof.
  unfold add_cov_syst. rewrite C, P, !checked_ok by auto. cbn [rbind]. cbv zeta. fold up dn.
  destruct (book_logk_ok w (map2 (avg1 Average) up dn) c p s e ch C P SP OKW) as (w1 & -> & O1 & S1 & K1 & Y1 & B1 & _ & V1); [rewrite map2_length; rewrite ?up_length, ?dn_length; auto|].
  cbn [rbind]. eexists. split; [reflexivity|]. split; [exact O1|]. cbn [cw_sparse cw_covsysts cw_systs]. split; [auto|]. split; [rewrite K1; auto|]. split; [auto|]. split; [exact B1|].
  intros b Hb. change (shift_of w1 c p s b = wanted_avg kf (nth b (pe_norm e) 0) (nth b hu 0) (nth b hd 0)). rewrite V1 by auto. unfold wanted_avg. destruct (Reqb _ 0); auto.
  rewrite map2_nth by (rewrite ?up_length, ?dn_length; auto). unfold avg1. rewrite up_nth, dn_nth by auto. field.
Qed.
Theorem add_conservative con : exists w' v, add_cov_syst w (Two hu hd) s p c kf true Conservative false false con = Ok w' /\ booked w w' c p s v (ch_n ch) /\
  forall b, (b < ch_n ch)%nat -> let u := kf * (nth b hu 0 - nth b (pe_norm e) 0) in let d := kf * (nth b (pe_norm e) 0 - nth b hd 0) in
    if Reqb (nth b (pe_norm e) 0) 0 then v b = 0 else (v b = u \/ v b = d) /\ Rabs (v b) = Rmax (Rabs u) (Rabs d).
Proof.
  unfold add_cov_syst. rewrite C, P, !checked_ok by auto. cbn [rbind]. cbv zeta. fold up dn.
  destruct (book_logk_ok w (map2 (avg1 Conservative) up dn) c p s e ch C P SP OKW) as (w1 & -> & O1 & S1 & K1 & Y1 & B1 & _ & V1); [rewrite map2_length; rewrite ?up_length, ?dn_length; auto|].
  cbn [rbind]. eexists. eexists. split; [reflexivity|]. split.
  - split; [exact O1|]. cbn [cw_sparse cw_covsysts cw_systs]. split; [auto|]. split; [rewrite K1; auto|]. split; [auto|]. split; [exact B1|]. exact V1.
  - intros b Hb. cbv beta. destruct (Reqb _ 0); auto. rewrite map2_nth by (rewrite ?up_length, ?dn_length; auto). unfold avg1. rewrite up_nth, dn_nth by auto.
    replace (- (kf * (nth b hd 0 - nth b (pe_norm e) 0))) with (kf * (nth b (pe_norm e) 0 - nth b hd 0)) by ring.
    destruct (Rltb_spec (Rabs (kf * (nth b (pe_norm e) 0 - nth b hd 0))) (Rabs (kf * (nth b hu 0 - nth b (pe_norm e) 0)))).
    + split; auto. rewrite Rmax_left; auto. lra.
    + split; auto. rewrite Rmax_right; auto. lra.
Qed.
Theorem add_split m con : m = Linear \/ m = Quadratic -> exists w1 w', add_cov_syst w (Two hu hd) s p c kf true m false false con = Ok w' /\
  booked w w1 c p (s ++ "SymDiff") (fun b => (if match m with Quadratic => true | _ => false end then sqrt 3 else 1) * wanted_diff kf (nth b (pe_norm e) 0) (nth b hu 0) (nth b hd 0)) (ch_n ch) /\
  booked w1 w' c p (s ++ "SymAvg") (fun b => wanted_avg kf (nth b (pe_norm e) 0) (nth b hu 0) (nth b hd 0)) (ch_n ch).
Proof.
  intros HM. unfold add_cov_syst. rewrite C, P, !checked_ok by auto. cbn [rbind]. cbv zeta. fold up dn.
  destruct (book_logk_ok w (map2 (diff1 m) up dn) c p (s ++ "SymDiff") e ch C P SP OKW) as (w1 & E1 & O1 & S1 & K1 & Y1 & B1 & (ch1 & e1 & C1 & N1 & P1 & NE1) & V1); [rewrite map2_length; rewrite ?up_length, ?dn_length; auto|].
  set (w2 := mkW (cw_sparse w1) (cw_bbb w1) (cw_procs w1) (cw_chans w1) (cw_systs w1) (set_add (s ++ "SymDiff") (cw_covsysts w1)) (cw_cov w1)).
  destruct (book_logk_ok w2 (map2 (avg1 m) up dn) c p (s ++ "SymAvg") e1 ch1 C1 P1 S1 O1) as (w3 & E3 & O3 & S3 & K3 & Y3 & B3 & _ & V3); [rewrite map2_length; rewrite ?up_length, ?dn_length; auto|].
  exists w2. eexists. split; [|split].
  - destruct HM as [-> | ->]; rewrite E1; cbn [rbind]; unfold book_systematic at 1; cbn [rbind]; fold w2; rewrite E3; cbn [rbind]; unfold book_systematic; reflexivity.
  - split; [exact O1|]. split; [exact S1|]. split; [unfold w2; cbn [cw_covsysts]; rewrite K1; auto|]. split; [exact Y1|]. split; [exact B1|].
    intros b Hb. change (shift_of w2 c p (s ++ "SymDiff") b) with (shift_of w1 c p (s ++ "SymDiff") b). rewrite V1 by auto. unfold wanted_diff.
    assert (X : nth b (map2 (diff1 m) up dn) 0 = diff1 m (nth b up 0) (nth b dn 0)) by (apply map2_nth; rewrite ?up_length, ?dn_length; auto).
    rewrite X, up_nth, dn_nth by auto. destruct (Reqb _ 0); destruct HM as [-> | ->]; unfold diff1; field.
  - split; [exact O3|]. cbn [cw_sparse cw_covsysts cw_systs]. split; [exact S3|]. split; [rewrite K3; auto|]. split; [rewrite Y3; auto|]. split; [exact B3|].
    intros b Hb. match goal with |- shift_of ?W c p ?S b = _ => change (shift_of W c p S b) with (shift_of w3 c p S b) end. rewrite V3 by lia. rewrite NE1. unfold wanted_avg.
    assert (X : nth b (map2 (avg1 m) up dn) 0 = avg1 m (nth b up 0) (nth b dn 0)) by (apply map2_nth; rewrite ?up_length, ?dn_length; auto).
    rewrite X, up_nth, dn_nth by auto. destruct (Reqb _ 0); destruct HM as [-> | ->]; unfold avg1; field.
Qed.
End Pair.
Theorem add_rejected h hu hd kf m asdiff con : List.length h = ch_n ch -> List.length hu = ch_n ch -> List.length hd = ch_n ch ->
  add_cov_syst w (One h) s p c kf true m asdiff true con = Raise ValueError /\ add_cov_syst w (One h) s p c kf false m asdiff false con = Raise RuntimeError /\
  add_cov_syst w (Two hu hd) s p c kf true NoSym asdiff false con = Raise RuntimeError.
Proof.
  intros LH LU LD. assert (LN := norm_length). unfold add_cov_syst. rewrite C, P, !checked_ok by auto. cbn [rbind].
  destruct (book_logk_ok w (logk_normal kf (shifted asdiff (pe_norm e) h) (pe_norm e)) c p s e ch C P SP OKW) as (w1 & -> & _); [rewrite logk_length; lia|]. auto.
Qed.
End Book.

(** at least as many processes as bins *)
Lemma sumw2_at_concat l p b : Forall chan_ok l -> sumw2_at l p b = mc_variance_of l p b.
Proof.
  intros F. revert b. unfold mc_variance_of. induction l as [|c r IH]; intros b; [destruct b; auto|]. inversion F as [|? ? C F']; subst. cbn [sumw2_at flat_map].
  assert (L : List.length (match dget p (ch_procs c) with Some e => pe_sumw2 e | None => repeat 0 (ch_n c) end) = ch_n c).
  { destruct (dget p (ch_procs c)) as [e|] eqn:E; [|apply repeat_length]. apply dget_In in E. apply (proj2 (proj2 C)) in E. tauto. }
  destruct (Nat.ltb_spec b (ch_n c)).
  - rewrite app_nth1 by lia. destruct (dget p (ch_procs c)); auto. rewrite nth_repeat. auto.
  - rewrite app_nth2 by lia. rewrite L. apply IH. auto.
Qed.
Theorem write_bbb_square w : writer_ok w -> no_masked w -> cw_sparse w = false -> cw_bbb w = true -> (nbins w <= List.length (cw_procs w))%nat ->
  regular (nbins w) (fun a b => total_cov w a b + mc_variance_of (chans w) (nth b (cw_procs w) EmptyString) b) ->
  exists w' W, write w = Ok (w', Some (nbins w, W)) /\ inverse_of (nbins w) (fun a b => total_cov w a b + mc_variance_of (chans w) (nth b (cw_procs w) EmptyString) b) W.
Proof.
  intros (ND & F & I & DC) NM SP BB L RG. destruct (write_start w NM SP (or_intror BB) DC) as (M & HM & ->).
  destruct (add_systs_ok (cw_procs w) (chans w) ND F I (cw_covsysts w) M) as (M' & E & Q).
  rewrite (nbins_nomask w NM) in *. unfold nbinsfull in *. rewrite E. cbn [rbind]. rewrite BB. set (n := nbins_of (chans w)) in *.
  assert (LD : List.length (diag2 (cw_procs w) (chans w)) = n) by (unfold diag2; rewrite map_length, seq_length; fold n; lia).
  assert (ND2 : forall b, (b < n)%nat -> nth b (diag2 (cw_procs w) (chans w)) 0 = mc_variance_of (chans w) (nth b (cw_procs w) EmptyString) b).
  { intros b Hb. unfold diag2. fold n. rewrite Nat.min_l by lia. rewrite (nth_indep _ 0 (sumw2_at (chans w) (nth 0 (cw_procs w) EmptyString) 0)) by (rewrite map_length, seq_length; auto).
    rewrite (map_nth (fun i => sumw2_at (chans w) (nth i (cw_procs w) EmptyString) i)). rewrite seq_nth by auto. rewrite Nat.add_0_l. apply sumw2_at_concat. auto. }
  unfold add_row. rewrite LD, Nat.eqb_refl. cbn [rbind fst snd].
  set (A := fun a b => total_cov w a b + mc_variance_of (chans w) (nth b (cw_procs w) EmptyString) b) in *.
  set (B := fun a b => M' a b + nth b (diag2 (cw_procs w) (chans w)) 0).
  assert (AB : forall a b, (a < n)%nat -> (b < n)%nat -> B a b = A a b). { intros a b Ha Hb. unfold A, B. rewrite ND2 by auto. rewrite Q, HM by auto. reflexivity. }
  assert (RB : regular n B). { intros x Hx. apply RG. intros i Hi. rewrite <- (Hx i Hi). unfold mv. apply sm_ext. intros c Hc. rewrite AB; auto. }
  destruct (ginv_spec n B RB) as (W & -> & IW). cbn [rbind]. eexists. exists W. split; [reflexivity|]. intros a b Ha Hb. rewrite <- (sm_ext n (fun c => B a c * W c b)) by (intros; rewrite AB; auto). exact (IW a b Ha Hb).
Qed.
