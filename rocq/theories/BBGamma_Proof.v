From Coq Require Import Reals List Bool Lra Lia Psatz Ranalysis5.
From Verif Require Import RBase BBStat_Model BBStat_Spec BBStat_Proof BBStatFull_Proof BBGamma_Model BBGamma_Spec.
Import ListNotations.
Open Scope R_scope.

Lemma dl_sum {A} (f : A -> R -> R) (d : A -> R) l x : (forall a, In a l -> derivable_pt_lim (f a) x (d a)) -> derivable_pt_lim (fun h => sumR (map (fun a => f a h) l)) x (sumR (map d l)).
Proof.
  induction l as [|a l IH]; intros H; cbn.
  - apply derivable_pt_lim_const.
  - apply (derivable_pt_lim_plus (f a) (fun h => sumR (map (fun a => f a h) l))); [apply H; left; auto|]. apply IH. intros b I. apply H. right. auto.
Qed.
(** equal near the point *)
Lemma dl_near f g x l a : a < x -> (forall y, a < y -> g y = f y) -> derivable_pt_lim f x l -> derivable_pt_lim g x l.
Proof.
  intros Ha E D eps He. destruct (D eps He) as (del & Hd).
  assert (P : 0 < Rmin del (x - a)) by (apply Rmin_pos; [apply cond_pos|lra]).
  exists (mkposreal _ P). intros h Hh Hl. cbn in Hl. pose proof (Rmin_l del (x - a)). pose proof (Rmin_r del (x - a)).
  assert (a < x + h) by (unfold Rabs in Hl; destruct (Rcase_abs h); lra). rewrite !E by lra. apply Hd; [auto|lra].
Qed.
Lemma dl_val f x l l' : l = l' -> derivable_pt_lim f x l -> derivable_pt_lim f x l'. Proof. intros ->. auto. Qed.

Lemma sum_one {A} (f : A -> R) (r : list A) e : In e r -> (forall a, In a r -> 0 <= f a) -> f e <= sumR (map f r).
Proof.
  intros I H. induction r as [|a r IH]; [destruct I|]. cbn [map]. change (sumR (?a :: ?b)) with (a + sumR b).
  assert (0 <= sumR (map f r)) by (apply sumR_nonneg; intros y Y; apply in_map_iff in Y; destruct Y as (z & <- & Z); apply H; right; auto).
  destruct I as [->|I]; [lra|]. pose proof (H a (or_introl eq_refl)). assert (f e <= sumR (map f r)) by (apply IH; auto; intros; apply H; right; auto). lra.
Qed.
Section Gamma.
  Variables (l : lik) (es : list fentry) (nobs varnobs : R).
  Hypothesis ok : Forall (fun e => 0 < bi_kstat (fe_info e) /\ 0 <= fe_n e /\ (bi_mask (fe_info e) = false -> 0 < fe_b0 e) /\ (bi_mask (fe_info e) = true -> fe_b0 e = 1)) es.
  Hypothesis inputs : match l with Poisson => 0 <= nobs | Chisq => 0 < varnobs end.
  Notation k e := (bi_kstat (fe_info e)).
  Notation n e := (fe_n e).
  Notation b0 e := (fe_b0 e).
  Notation mask e := (bi_mask (fe_info e)).
  Lemma ok_in e : In e es -> 0 < k e /\ 0 <= n e /\ (mask e = false -> 0 < b0 e) /\ (mask e = true -> b0 e = 1).
  Proof. intros I. rewrite Forall_forall in ok. auto. Qed.

  Lemma f_min_le e f : In e es -> f_thresh l e = Some f -> exists m, f_min l es = Some m /\ m <= f.
  Proof.
    unfold f_min. clear ok inputs. induction es as [|a r IH]; intros I E; [destruct I|]. cbn [fold_right]. destruct I as [->|I].
    - rewrite E. destruct (fold_right _ None r) as [y|]; cbn; eexists; split; try reflexivity; [apply Rmin_l|lra].
    - destruct (IH I E) as (m & -> & L). destruct (f_thresh l a) as [x|]; cbn; eexists; split; try reflexivity; [|auto]. eapply Rle_trans; [apply Rmin_r|auto].
  Qed.
  Lemma f_min_in m : f_min l es = Some m -> exists e, In e es /\ f_thresh l e = Some m.
  Proof.
    unfold f_min. clear ok inputs. revert m. induction es as [|a r IH]; intros m E; [discriminate|]. cbn [fold_right] in E.
    destruct (f_thresh l a) as [x|] eqn:X; cbn [omin] in E.
    - destruct (fold_right _ None r) as [y|] eqn:Y; injection E as <-.
      + unfold Rmin. destruct (Rle_dec x y); [exists a; cbn; auto|]. destruct (IH y eq_refl) as (e & I & Q). exists e. cbn. auto.
      + exists a. cbn. auto.
    - destruct (IH m E) as (e & I & Q). exists e. cbn. auto.
  Qed.
  Lemma thresh_some e : In e es -> mask e = false -> n e <> 0 -> f_thresh l e = Some (match l with Chisq => k e / n e | Poisson => 1 + k e / n e end).
  Proof. intros I M N. unfold f_thresh. rewrite M, Reqb_false by auto. reflexivity. Qed.
  Lemma thresh_inv e f : f_thresh l e = Some f -> mask e = false /\ n e <> 0 /\ f = match l with Chisq => k e / n e | Poisson => 1 + k e / n e end.
  Proof. unfold f_thresh. destruct (mask e); [discriminate|]. cbn. destruct (Reqb_spec (n e) 0); [discriminate|]. intros [= <-]. auto. Qed.
  Lemma f_min_pos m : f_min l es = Some m -> 0 < m /\ (l = Poisson -> 1 < m).
  Proof.
    intros E. destruct (f_min_in m E) as (e & I & Q). destruct (ok_in e I) as (K & N & _). apply thresh_inv in Q. destruct Q as (_ & N0 & ->).
    assert (0 < k e / n e) by (apply Rdiv_lt_0_compat; lra). destruct l; split; intros; try lra. discriminate.
  Qed.

  Variable T : R.
  Hypothesis thr : threshold l es nobs varnobs = Some T.
  Lemma T_nonneg : l = Poisson -> 0 <= T.
  Proof.
    intros E0. pose proof f_min_pos as FP. unfold threshold in thr. destruct l; [|discriminate]. destruct (f_min Poisson es) as [m|] eqn:E; [|injection thr as <-; lra].
    destruct (FP m eq_refl) as (P & _). unfold tfdiv in thr. rewrite Reqb_false in thr by lra. injection thr as <-. apply Rdiv_nonneg; auto.
  Qed.
  Definition inside (x : R) : Prop := T < x.
  Lemma inside_pos x : l = Poisson -> inside x -> 0 < x. Proof. unfold inside. intros E X. pose proof (T_nonneg E). lra. Qed.

  Lemma den_pos x e : inside x -> In e es -> mask e = false -> 0 < den l nobs varnobs x e.
  Proof.
    intros X I M. destruct (ok_in e I) as (K & N & _). unfold den. destruct (Req_EM_T (n e) 0) as [Z|Z]; [rewrite Z; lra|].
    pose proof (thresh_some e I M Z) as F. destruct (f_min_le e _ I F) as (m & Em & Lm). destruct (f_min_pos m Em) as (Pm & Pm1).
    pose proof (inside_pos x) as XP. unfold threshold in thr. rewrite Em in thr. unfold slope, inside in *. destruct l.
    - specialize (XP eq_refl X). unfold tfdiv in thr. rewrite Reqb_false in thr by lra. injection thr as <-.
      assert (A : nobs / x < m). { apply Rmult_lt_reg_r with x; [lra|]. unfold Rdiv. rewrite Rmult_assoc, Rinv_l by lra. apply (Rmult_lt_compat_r m) in X; [|lra]. unfold Rdiv in X. rewrite Rmult_assoc, Rinv_l in X by lra. lra. }
      assert (B : (1 - nobs / x) * n e > (- (k e / n e)) * n e) by (apply Rmult_gt_compat_r; lra). replace (- (k e / n e) * n e) with (- k e) in B by (field; lra). lra.
    - injection thr as <-. assert (A : - m < (x - nobs) / varnobs). { apply Rmult_lt_reg_r with varnobs; [lra|]. unfold Rdiv. rewrite Rmult_assoc, Rinv_l by lra. lra. }
      assert (B : (x - nobs) / varnobs * n e > (- (k e / n e)) * n e) by (apply Rmult_gt_compat_r; lra). replace (- (k e / n e) * n e) with (- k e) in B by (field; lra). lra.
  Qed.
  Lemma gbeta_pos x e : inside x -> In e es -> 0 < gbeta l nobs varnobs x e.
  Proof.
    intros X I. destruct (ok_in e I) as (K & N & B & B1). unfold gbeta. destruct (mask e) eqn:M; [rewrite B1 by auto; lra|].
    apply Rdiv_lt_0_compat; [apply Rmult_lt_0_compat; auto|]. apply den_pos; auto.
  Qed.
  (** some process with uncertainty contributes *)
  Hypothesis some : exists e, In e es /\ mask e = false /\ 0 < n e.
  Notation nu := (new_nexp l es nobs varnobs).
  Notation s := (slope l nobs varnobs).
  Lemma sumR_pos {A} (f : A -> R) (r : list A) : (forall a, In a r -> 0 <= f a) -> (exists a, In a r /\ 0 < f a) -> 0 < sumR (map f r).
  Proof.
    intros H (a & I & P). induction r as [|b r IH]; [destruct I|]. change (sumR (map f (b :: r))) with (f b + sumR (map f r)). assert (0 <= sumR (map f r)) by (apply sumR_nonneg; intros y Y; apply in_map_iff in Y; destruct Y as (z & <- & Z); apply H; right; auto).
    destruct I as [->|I]; [lra|]. pose proof (H b (or_introl eq_refl)). assert (0 < sumR (map f r)) by (apply IH; auto; intros; apply H; right; auto). lra.
  Qed.
  Lemma nu_pos x : inside x -> 0 < nu x.
  Proof.
    intros X. unfold new_nexp. apply sumR_pos.
    - intros e I. destruct (ok_in e I) as (_ & N & _). pose proof (gbeta_pos x e X I). apply Rmult_le_pos; lra.
    - destruct some as (e & I & _ & N). exists e. split; [auto|]. apply Rmult_lt_0_compat; [apply gbeta_pos; auto|auto].
  Qed.
  Definition s' (x : R) : R := match l with Chisq => / varnobs | Poisson => nobs / (x * x) end.
  Lemma ds x : (l = Poisson -> 0 < x) -> derivable_pt_lim s x (s' x).
  Proof.
    intros P. unfold slope, s'. destruct l.
    - specialize (P eq_refl). apply (dl_val _ _ (0 - (0 * x - 1 * nobs) / Rsqr x)); [unfold Rsqr; field; lra|].
      apply (derivable_pt_lim_minus (fun _ => 1) (fun x => nobs / x)); [apply derivable_pt_lim_const|]. apply (derivable_pt_lim_div (fun _ => nobs) id); [apply derivable_pt_lim_const|apply derivable_pt_lim_id|unfold id; lra].
    - apply (dl_val _ _ (1 * / varnobs + (x - nobs) * 0)); [ring|]. apply (derivable_pt_lim_mult (fun x => x - nobs) (fun _ => / varnobs)); [|apply derivable_pt_lim_const].
      apply (dl_val _ _ (1 - 0)); [ring|]. apply (derivable_pt_lim_minus id (fun _ => nobs)); [apply derivable_pt_lim_id|apply derivable_pt_lim_const].
  Qed.
  Lemma s_mono x y : (l = Poisson -> 0 < x /\ 0 < nobs) -> x < y -> s x < s y.
  Proof.
    intros P L. unfold slope. destruct l.
    - destruct (P eq_refl) as (X & N). assert (nobs / y < nobs / x); [|lra]. unfold Rdiv. apply Rmult_lt_compat_l; auto. apply Rinv_lt_contravar; [apply Rmult_lt_0_compat; lra|auto].
    - unfold Rdiv. apply Rmult_lt_compat_r; [apply Rinv_0_lt_compat; auto|lra].
  Qed.
  Lemma s'_pos x : (l = Poisson -> 0 < x /\ 0 < nobs) -> 0 < s' x.
  Proof. intros P. unfold s'. destruct l; [|apply Rinv_0_lt_compat; auto]. destruct (P eq_refl). apply Rdiv_lt_0_compat; [auto|]. apply Rmult_lt_0_compat; auto. Qed.
  Lemma P1 x : inside x -> l = Poisson -> 0 < x. Proof. intros X E. apply inside_pos; auto. Qed.

  Definition gbeta' (x : R) (e : fentry) : R := if mask e then 0 else - (k e * b0 e * (s' x * n e)) / Rsqr (den l nobs varnobs x e).
  Lemma dden x e : inside x -> derivable_pt_lim (fun x => den l nobs varnobs x e) x (s' x * n e).
  Proof.
    intros X. apply (dl_val _ _ (0 + (s' x * n e + s x * 0))); [ring|]. apply (derivable_pt_lim_plus (fun _ => k e) (fun x => s x * n e)); [apply derivable_pt_lim_const|].
    apply (derivable_pt_lim_mult s (fun _ => n e)); [apply ds; apply P1; auto|apply derivable_pt_lim_const].
  Qed.
  Lemma dgbeta x e : inside x -> In e es -> derivable_pt_lim (fun x => gbeta l nobs varnobs x e) x (gbeta' x e).
  Proof.
    intros X I. unfold gbeta, gbeta'. destruct (mask e) eqn:M; [apply derivable_pt_lim_const|]. pose proof (den_pos x e X I M) as D.
    apply (dl_val _ _ ((0 * den l nobs varnobs x e - (s' x * n e) * (k e * b0 e)) / Rsqr (den l nobs varnobs x e))); [unfold Rsqr; field; lra|].
    apply (derivable_pt_lim_div (fun _ => k e * b0 e) (fun x => den l nobs varnobs x e)); [apply derivable_pt_lim_const|apply dden; auto|lra].
  Qed.
  Definition nu' (x : R) : R := sumR (map (fun e => gbeta' x e * n e) es).
  Lemma dnu x : inside x -> derivable_pt_lim nu x (nu' x).
  Proof.
    intros X. unfold new_nexp, nu'. apply (dl_sum (fun e x => gbeta l nobs varnobs x e * n e)). intros e I.
    apply (dl_val _ _ (gbeta' x e * n e + gbeta l nobs varnobs x e * 0)); [ring|]. apply (derivable_pt_lim_mult (fun x => gbeta l nobs varnobs x e) (fun _ => n e)); [apply dgbeta; auto|apply derivable_pt_lim_const].
  Qed.
  Lemma dlbeta x e : inside x -> In e es -> derivable_pt_lim (fun x => lbeta_g l nobs varnobs x e) x (- s x * (gbeta' x e * n e)).
  Proof.
    intros X I. destruct (ok_in e I) as (K & N & B & B1). assert (P0 : 0 < b0 e) by (destruct (mask e); [rewrite B1 by auto; lra|auto]). pose proof (gbeta_pos x e X I) as GP.
    unfold lbeta_g. rewrite Reqb_false by lra. set (c := logbeta0_of (b0 e)).
    apply (dl_val _ _ (k e * (gbeta' x e - 0) - k e * b0 e * (/ gbeta l nobs varnobs x e * gbeta' x e - 0))).
    - unfold gbeta, gbeta'. destruct (mask e) eqn:M; [field; lra|]. pose proof (den_pos x e X I M) as D. unfold den in *. unfold Rsqr. field. repeat split; lra.
    - apply (derivable_pt_lim_minus (fun x => k e * (gbeta l nobs varnobs x e - b0 e)) (fun x => k e * b0 e * (ln (gbeta l nobs varnobs x e) - c))).
      + apply (derivable_pt_lim_scal (fun x => gbeta l nobs varnobs x e - b0 e)). apply (derivable_pt_lim_minus (fun x => gbeta l nobs varnobs x e) (fun _ => b0 e)); [apply dgbeta; auto|apply derivable_pt_lim_const].
      + apply (derivable_pt_lim_scal (fun x => ln (gbeta l nobs varnobs x e) - c)). apply (derivable_pt_lim_minus (fun x => ln (gbeta l nobs varnobs x e)) (fun _ => c)); [|apply derivable_pt_lim_const].
        apply (derivable_pt_lim_comp (fun x => gbeta l nobs varnobs x e) ln); [apply dgbeta; auto|]. apply derivable_pt_lim_ln. auto.
  Qed.
  Definition nll' (x : R) : R := (s (nu x) - s x) * nu' x.
  Lemma dnll x : inside x -> derivable_pt_lim (nll_at l es nobs varnobs) x (nll' x).
  Proof.
    intros X. pose proof (nu_pos x X) as NP. unfold nll_at. apply (dl_val _ _ (s (nu x) * nu' x + sumR (map (fun e => - s x * (gbeta' x e * n e)) es))).
    { rewrite sumR_map_scal. unfold nll', nu'. ring. }
    apply (derivable_pt_lim_plus (fun x => match l with Chisq => 1 / 2 * (nu x - nobs) * (nu x - nobs) / varnobs | Poisson => nu x - nobs - nobs * (ln (if Reqb nobs 0 then 1 else nu x) - lognobs_of nobs) end) (fun x => sumR (map (lbeta_g l nobs varnobs x) es))).
    2: { apply (dl_sum (fun e x => lbeta_g l nobs varnobs x e)). intros e I. apply dlbeta; auto. }
    pose proof (dnu x X) as D. clear - D NP inputs. revert D NP. generalize (nu' x). generalize (new_nexp l es nobs varnobs). intros f f' D NP. unfold slope. destruct l.
    - set (c := lognobs_of nobs). destruct (Reqb_spec nobs 0) as [Z|Z].
      + apply (dl_val _ _ (f' - 0 - nobs * 0)); [rewrite Z; field; lra|].
        apply (derivable_pt_lim_minus (fun x => f x - nobs) (fun _ => nobs * (ln 1 - c))); [apply (derivable_pt_lim_minus f (fun _ => nobs)); [auto|apply derivable_pt_lim_const]|].
        apply (derivable_pt_lim_scal (fun _ => ln 1 - c)). apply derivable_pt_lim_const.
      + apply (dl_val _ _ (f' - 0 - nobs * (/ f x * f' - 0))); [field; lra|].
        apply (derivable_pt_lim_minus (fun x => f x - nobs) (fun x => nobs * (ln (f x) - c))); [apply (derivable_pt_lim_minus f (fun _ => nobs)); [auto|apply derivable_pt_lim_const]|].
        apply (derivable_pt_lim_scal (fun x => ln (f x) - c)). apply (derivable_pt_lim_minus (fun x => ln (f x)) (fun _ => c)); [|apply derivable_pt_lim_const].
        apply (derivable_pt_lim_comp f ln); [auto|]. apply derivable_pt_lim_ln. auto.
    - assert (D1 : derivable_pt_lim (fun x => f x - nobs) x (f' - 0)) by (apply (derivable_pt_lim_minus f (fun _ => nobs)); [auto|apply derivable_pt_lim_const]).
      apply (dl_val _ _ ((1 / 2 * (f' - 0) * (f x - nobs) + 1 / 2 * (f x - nobs) * (f' - 0)) * / varnobs + 1 / 2 * (f x - nobs) * (f x - nobs) * 0)); [field; lra|].
      apply (derivable_pt_lim_mult (fun x => 1 / 2 * (f x - nobs) * (f x - nobs)) (fun _ => / varnobs)); [|apply derivable_pt_lim_const].
      apply (derivable_pt_lim_mult (fun x => 1 / 2 * (f x - nobs)) (fun x => f x - nobs)); [|auto]. apply (derivable_pt_lim_scal (fun x => f x - nobs)). auto.
  Qed.
  (** the sign of the derivative *)
  Hypothesis data : l = Poisson -> 0 < nobs.
  Lemma nu'_neg x : inside x -> nu' x < 0.
  Proof.
    intros X. assert (SP : 0 < s' x) by (apply s'_pos; intros E; split; [apply inside_pos; auto|auto]).
    assert (P : 0 < sumR (map (fun e => - (gbeta' x e * n e)) es)).
    { assert (F : forall e, In e es -> mask e = false -> - (gbeta' x e * n e) = k e * b0 e * s' x * (n e * n e) / Rsqr (den l nobs varnobs x e)).
      { intros e I M. unfold gbeta'. rewrite M. pose proof (den_pos x e X I M). unfold Rsqr. field. lra. }
      apply sumR_pos.
      - intros e I. destruct (ok_in e I) as (K & N & B & _). destruct (mask e) eqn:M; [unfold gbeta'; rewrite M; lra|]. rewrite (F e I M). pose proof (den_pos x e X I M).
        apply Rdiv_nonneg; [|apply Rsqr_pos_lt; lra]. apply Rmult_le_pos; [|nra]. apply Rmult_le_pos; [|lra]. apply Rmult_le_pos; [lra|]. specialize (B eq_refl). lra.
      - destruct some as (e & I & M & N). exists e. split; [auto|]. rewrite (F e I M). destruct (ok_in e I) as (K & _ & B & _). pose proof (den_pos x e X I M).
        apply Rdiv_lt_0_compat; [|apply Rsqr_pos_lt; lra]. repeat apply Rmult_lt_0_compat; auto. }
    unfold nu'. replace (sumR (map (fun e => - (gbeta' x e * n e)) es)) with (- sumR (map (fun e => gbeta' x e * n e) es)) in P; [lra|].
    clear. induction es as [|a r IH]; [cbn; lra|]. cbn [map]. change (sumR (?a :: ?b)) with (a + sumR b). lra.
  Qed.
  Lemma nu_decr x y : inside x -> x < y -> nu y < nu x.
  Proof.
    intros X L. destruct (MVT_cor2 nu nu' x y L) as (c & E & C). { intros c C. apply dnu. unfold inside in *. lra. }
    pose proof (nu'_neg c). unfold inside in *. assert (nu' c < 0) by (apply H; lra). nra.
  Qed.
  Lemma sgn x : inside x -> (nll' x < 0 <-> x < nu x) /\ (0 < nll' x <-> nu x < x) /\ (nll' x = 0 <-> nu x = x).
  Proof.
    intros X. pose proof (nu'_neg x X) as N. pose proof (nu_pos x X) as NP. unfold nll'.
    assert (A : x < nu x -> nll' x < 0). { intros L. unfold nll'. assert (s x < s (nu x)) by (apply s_mono; auto; intros E; split; [apply inside_pos; auto|auto]). nra. }
    assert (B : nu x < x -> 0 < nll' x). { intros L. unfold nll'. assert (s (nu x) < s x) by (apply s_mono; auto). nra. }
    assert (C : nu x = x -> nll' x = 0). { intros E. unfold nll'. rewrite E. ring. }
    unfold nll' in *. destruct (Rtotal_order x (nu x)) as [L|[E|G]].
    - specialize (A L). repeat split; intros; try lra.
    - symmetry in E. specialize (C E). repeat split; intros; try lra.
    - specialize (B G). repeat split; intros; try lra.
  Qed.
  (** a crossing exists *)
  Lemma crossing : exists x, inside x /\ nu x = x.
  Proof.
    destruct some as (e1 & I1 & M1 & N1). pose proof (thresh_some e1 I1 M1 ltac:(lra)) as F1. destruct (f_min_le e1 _ I1 F1) as (m & Em & _).
    destruct (f_min_pos m Em) as (Pm & Pm1). destruct (f_min_in m Em) as (e & I & Q). apply thresh_inv in Q. destruct Q as (M & NZ & Mf). destruct (ok_in e I) as (K & N & B & _). specialize (B M). assert (NP : 0 < n e) by lra.
    assert (One : forall x, inside x -> gbeta l nobs varnobs x e * n e <= nu x).
    { intros x X. unfold new_nexp. clear - I X ok inputs thr. assert (H : forall a, In a es -> 0 <= gbeta l nobs varnobs x a * n a). { intros a Ia. destruct (ok_in a Ia) as (_ & Na & _). pose proof (gbeta_pos x a X Ia). apply Rmult_le_pos; lra. }
      apply (sum_one (fun e => gbeta l nobs varnobs x e * n e) es e); auto. }
    assert (Low : exists x1, inside x1 /\ x1 < nu x1).
    { unfold threshold in thr. rewrite Em in thr. destruct l.
      - specialize (data eq_refl). specialize (Pm1 eq_refl). unfold tfdiv in thr. rewrite Reqb_false in thr by lra. injection thr as TT. assert (TP : 0 < T) by (rewrite <- TT; apply Rdiv_lt_0_compat; lra).
        set (dl := k e * b0 e * T / (2 * nobs)). assert (DP : 0 < dl) by (apply Rdiv_lt_0_compat; [repeat apply Rmult_lt_0_compat; auto|lra]).
        exists (T + dl). assert (X : inside (T + dl)) by (unfold inside; lra). split; [auto|]. eapply Rlt_le_trans; [|apply One; auto]. unfold gbeta. rewrite M.
        assert (D : den Poisson nobs varnobs (T + dl) e = n e * nobs * dl / ((T + dl) * T)).
        { unfold den, slope. assert (KE : k e = (m - 1) * n e) by (rewrite Mf; field; lra). rewrite KE. assert (ME : m = nobs / T) by (rewrite <- TT; field; lra). rewrite ME. field. lra. }
        rewrite D. replace (k e * b0 e / (n e * nobs * dl / ((T + dl) * T)) * n e) with ((T + dl) * (k e * b0 e * T / (nobs * dl))) by (field; lra).
        replace (k e * b0 e * T / (nobs * dl)) with 2 by (unfold dl; field; repeat split; lra). lra.
      - injection thr as TT. set (c := k e * b0 e * varnobs). assert (CP : 0 < c) by (unfold c; repeat apply Rmult_lt_0_compat; auto). pose proof (Rabs_pos T) as AP. pose proof (Rle_abs T) as AT.
        set (dl := c / (Rabs T + 1 + c)). assert (DP : 0 < dl) by (apply Rdiv_lt_0_compat; lra). assert (D1 : dl < 1). { unfold dl. apply Rmult_lt_reg_r with (Rabs T + 1 + c); [lra|]. unfold Rdiv. rewrite Rmult_assoc, Rinv_l by lra. lra. }
        exists (T + dl). assert (X : inside (T + dl)) by (unfold inside; lra). split; [auto|]. eapply Rlt_le_trans; [|apply One; auto]. unfold gbeta. rewrite M.
        assert (D : den Chisq nobs varnobs (T + dl) e = n e * dl / varnobs). { unfold den, slope. assert (KE : k e = m * n e) by (rewrite Mf; field; lra). rewrite KE, <- TT. field. lra. }
        rewrite D. replace (k e * b0 e / (n e * dl / varnobs) * n e) with (c / dl) by (unfold c; field; lra). replace (c / dl) with (Rabs T + 1 + c) by (unfold dl; field; lra). lra. }
    destruct Low as (x1 & X1 & L1).
    set (x2 := nu x1 + 1). assert (X12 : x1 < x2) by (unfold x2; lra). assert (X2 : inside x2) by (unfold inside in *; lra).
    assert (L2 : nu x2 < x2) by (pose proof (nu_decr x1 x2 X1 X12); unfold x2 in *; lra).
    destruct (IVT_interv (fun x => x - nu x) x1 x2) as (z & Z & E); [| auto | lra | lra |].
    - intros a A. apply derivable_continuous_pt. exists (1 - nu' a). apply (derivable_pt_lim_minus id nu); [apply derivable_pt_lim_id|apply dnu; unfold inside in *; lra].
    - exists z. split; [unfold inside in *; lra|lra].
  Qed.
  Lemma crossing_unique x y : inside x -> inside y -> nu x = x -> nu y = y -> x = y.
  Proof. intros X Y EX EY. destruct (Rtotal_order x y) as [L|[E|L]]; [|auto|]; [pose proof (nu_decr x y X L)|pose proof (nu_decr y x Y L)]; lra. Qed.

  (** in the variable of the iteration *)
  Notation f := (fnll l es nobs varnobs T).
  Definition f' (u : R) : R := nll' (T + exp u) * exp u.
  Lemma in_u u : inside (T + exp u). Proof. unfold inside. pose proof (exp_pos u). lra. Qed.
  Lemma df u : derivable_pt_lim f u (f' u).
  Proof.
    unfold f', fnll. apply (derivable_pt_lim_comp (fun u => T + exp u) (nll_at l es nobs varnobs)); [|apply dnll; apply in_u].
    apply (dl_val _ _ (0 + exp u)); [ring|]. apply (derivable_pt_lim_plus (fun _ => T) exp); [apply derivable_pt_lim_const|apply derivable_pt_lim_exp].
  Qed.
  Lemma fsgn u : (f' u < 0 <-> T + exp u < nu (T + exp u)) /\ (0 < f' u <-> nu (T + exp u) < T + exp u) /\ (f' u = 0 <-> nu (T + exp u) = T + exp u).
  Proof.
    destruct (sgn (T + exp u) (in_u u)) as (A & B & C). pose proof (exp_pos u) as E. unfold f'. set (a := nll' (T + exp u)) in *. rewrite <- A, <- B, <- C. repeat split; intros; nra.
  Qed.
  Lemma stationary_iff u : stationary f u <-> nu (T + exp u) = T + exp u.
  Proof.
    rewrite <- (proj2 (proj2 (fsgn u))). unfold stationary. split; intros H.
    - eapply uniqueness_limite; [apply df|auto].
    - rewrite <- H. apply df.
  Qed.
  Lemma exists_u : exists m, stationary f m /\ valley f m /\ forall u, stationary f u -> u = m.
  Proof.
    destruct crossing as (x & X & E). exists (ln (x - T)). unfold inside in X. assert (EX : T + exp (ln (x - T)) = x) by (rewrite exp_ln by lra; ring).
    assert (ST : stationary f (ln (x - T))) by (apply stationary_iff; rewrite EX; auto). split; [auto|].
    assert (MO : forall u v, u < v -> T + exp u < T + exp v) by (intros u v L; pose proof (exp_increasing u v L); lra).
    assert (LO : forall u, u < ln (x - T) -> f' u < 0). { intros u L. apply fsgn. specialize (MO u _ L). rewrite EX in MO. pose proof (nu_decr (T + exp u) x (in_u u) MO). lra. }
    assert (HI : forall u, ln (x - T) < u -> 0 < f' u). { intros u L. apply fsgn. specialize (MO _ u L). rewrite EX in MO. pose proof (nu_decr x (T + exp u) X MO). lra. }
    split; [split|].
    - intros a b L B. destruct (MVT_cor2 f f' a b L (fun c _ => df c)) as (c & Q & C). assert (f' c < 0) by (apply LO; lra). nra.
    - intros a b A L. destruct (MVT_cor2 f f' a b L (fun c _ => df c)) as (c & Q & C). assert (0 < f' c) by (apply HI; lra). nra.
    - intros u S. apply stationary_iff in S. pose proof (crossing_unique _ _ (in_u u) X S E) as Q. apply exp_inv. lra.
  Qed.
  (** a Newton step goes towards the minimum and stops there *)
  Variables grad hess : R -> R.
  Hypothesis grad_ok : forall u, derivable_pt_lim f u (grad u).
  Lemma grad_f' u : grad u = f' u. Proof. eapply uniqueness_limite; [apply grad_ok|apply df]. Qed.
  Lemma safe_pos' h : 0 < safe_hess h. Proof. unfold safe_hess. pose proof (Rmax_r h (1 / 100000000)). lra. Qed.
  Lemma clip_sgn x : (0 < x -> 0 < clip (-1) 1 x <= 1) /\ (x < 0 -> -1 <= clip (-1) 1 x < 0) /\ clip (-1) 1 0 = 0.
  Proof. unfold clip, Rmax, Rmin. repeat split; intros; repeat destruct (Rle_dec _ _); lra. Qed.
  Lemma step_dir m u : stationary f m -> (u < m -> u < newton_step grad hess u <= u + 1 /\ u < last_step grad hess u) /\ (m < u -> u - 1 <= newton_step grad hess u < u /\ last_step grad hess u < u) /\ newton_step grad hess m = m /\ last_step grad hess m = m.
  Proof.
    intros S. destruct exists_u as (m' & S' & (VL & VH) & U). assert (m' = m) by (symmetry; auto). subst m'.
    assert (G0 : grad m = 0) by (eapply uniqueness_limite; [apply grad_ok|exact S]).
    assert (SG : (u < m -> grad u < 0) /\ (m < u -> 0 < grad u)).
    { pose proof S as SQ. apply stationary_iff in SQ. rewrite grad_f'. destruct (fsgn u) as (A & B & C). split; intros L.
      - apply A. pose proof (exp_increasing u m L) as EI. pose proof (nu_decr (T + exp u) (T + exp m) (in_u u) ltac:(lra)). lra.
      - apply B. pose proof (exp_increasing m u L) as EI. pose proof (nu_decr (T + exp m) (T + exp u) (in_u m) ltac:(lra)). lra. }
    pose proof (safe_pos' (hess u)) as HP. destruct (clip_sgn (grad u / safe_hess (hess u))) as (CP & CN & _). destruct (clip_sgn 0) as (_ & _ & CZ). unfold newton_step, last_step. split; [|split].
    - intros L. assert (grad u / safe_hess (hess u) < 0). { unfold Rdiv. apply Rmult_lt_reg_r with (safe_hess (hess u)); [auto|]. rewrite Rmult_assoc, Rinv_l by lra. pose proof (proj1 SG L). lra. } specialize (CN H). lra.
    - intros L. assert (0 < grad u / safe_hess (hess u)) by (apply Rdiv_lt_0_compat; [apply SG; auto|auto]). specialize (CP H). lra.
    - rewrite G0. unfold Rdiv. rewrite Rmult_0_l, CZ. split; ring.
  Qed.
End Gamma.

(** ** the joint objective *)
Section Joint.
  Variables (minstat : R) (active : proc -> bool).
  Hypothesis active_ok : forall p, active p = true <-> usable1 minstat p.
  Definition lik_ok (l : lik) (nobs varnobs : R) : Prop := match l with Poisson => 0 <= nobs | Chisq => 0 < varnobs end.
  Lemma entries_ok (es : list (proc * R)) : Forall (gamma_entry active) es ->
    Forall (fun e => 0 < bi_kstat (fe_info e) /\ 0 <= fe_n e /\ (bi_mask (fe_info e) = false -> 0 < fe_b0 e) /\ (bi_mask (fe_info e) = true -> fe_b0 e = 1)) (map (fe minstat) es).
  Proof.
    intros H. apply Forall_map. eapply Forall_impl; [|exact H]. intros (p, b) (S & Y & A & I). cbn [fst snd] in *. cbn [fe fe_info fe_n fe_b0 fst snd].
    pose proof (mask_active minstat active active_ok p) as M. split; [|split; [auto|split]].
    - destruct (active p) eqn:E; cbn in M.
      + rewrite full_kstat by auto. apply (stat1_pos minstat); auto. apply active_ok; auto.
      + unfold full_info, mkinfo in *. cbn in *. rewrite M. lra.
    - rewrite M. destruct (active p); [auto|discriminate].
    - rewrite M. destruct (active p); [discriminate|auto].
  Qed.
  Definition betas_at (l : lik) (nobs varnobs x : R) (es : list (proc * R)) : list R := map (fun e => gbeta l nobs varnobs x (fe minstat e)) es.
  Lemma expectation_betas l nobs varnobs x es : Forall (gamma_entry active) es -> expectation_full Gamma active es (betas_at l nobs varnobs x es) = new_nexp l (map (fe minstat) es) nobs varnobs x.
  Proof.
    unfold new_nexp, betas_at. induction es as [|(p, b) r IH]; intros H; [reflexivity|]. inversion H as [|? ? (S & Y & A & I) H']; subst. cbn [map]. change (sumR (?a :: ?b)) with (a + sumR b).
    cbn [expectation_full]. rewrite IH by auto. f_equal. cbn [fe fe_n fst snd] in *. destruct (active p) eqn:E; [ring|]. unfold gbeta. cbn [fe fe_info fe_b0 fst snd]. rewrite (mask_active minstat active active_ok), E. cbn. rewrite I by auto. ring.
  Qed.
  Lemma constraints_betas l nobs varnobs x es : Forall (gamma_entry active) es -> (forall e, In e es -> 0 < gbeta l nobs varnobs x (fe minstat e)) -> gamma_constraints active es (betas_at l nobs varnobs x es) = sumR (map (lbeta_g l nobs varnobs x) (map (fe minstat) es)).
  Proof.
    unfold betas_at. induction es as [|(p, b) r IH]; intros H P; [reflexivity|]. inversion H as [|? ? (S & Y & A & I) H']; subst. cbn [map]. change (sumR (?a :: ?b)) with (a + sumR b).
    cbn [gamma_constraints]. rewrite IH; [|auto|intros; apply P; right; auto]. f_equal. specialize (P (p, b) (or_introl eq_refl)). cbn [fst snd] in *. unfold lbeta_g. cbn [fe fe_info fe_b0 fst snd] in *.
    destruct (active p) eqn:E.
    - specialize (A eq_refl). rewrite Reqb_false by lra. unfold gamma_constraint. destruct (Req_EM_T b 0); [lra|]. rewrite full_kstat by (rewrite (mask_active minstat active active_ok), E; auto). unfold logbeta0_of. rewrite Reqb_false by lra. rewrite ln_div' by auto. reflexivity.
    - unfold gbeta. cbn [fe fe_info fe_b0 fst snd]. rewrite (mask_active minstat active active_ok), E. cbn [negb]. rewrite I by auto. rewrite Reqb_false by lra. unfold logbeta0_of. rewrite Reqb_false by lra. ring.
  Qed.
  Lemma nll_objective l nobs varnobs x es : lik_ok l nobs varnobs -> Forall (gamma_entry active) es -> (forall e, In e es -> 0 < gbeta l nobs varnobs x (fe minstat e)) -> 0 < new_nexp l (map (fe minstat) es) nobs varnobs x ->
    nll_at l (map (fe minstat) es) nobs varnobs x = gamma_objective active l es nobs varnobs (betas_at l nobs varnobs x es).
  Proof.
    intros L H P N. unfold nll_at, gamma_objective. rewrite expectation_betas, constraints_betas by auto. f_equal. unfold dev. destruct l.
    - unfold poisson_dev, lognobs_of. cbn in L. destruct (Reqb_spec nobs 0) as [Z|Z]; destruct (Req_EM_T nobs 0); try contradiction.
      + subst. rewrite ln_1. ring.
      + rewrite ln_div' by lra. ring.
    - unfold chisq_dev. cbn in L. field. lra.
  Qed.
  Lemma constraints_tangent l nobs varnobs x es bs : Forall (gamma_entry active) es -> (forall e, In e es -> 0 < gbeta l nobs varnobs x (fe minstat e)) -> (forall e, In e es -> active (fst e) = true -> 0 < den l nobs varnobs x (fe minstat e)) -> gamma_doms active es bs ->
    gamma_constraints active es bs - gamma_constraints active es (betas_at l nobs varnobs x es) >= - slope l nobs varnobs x * (expectation_full Gamma active es bs - expectation_full Gamma active es (betas_at l nobs varnobs x es)).
  Proof.
    unfold betas_at. revert bs. induction es as [|(p, b) r IH]; intros bs H P D G; [cbn; lra|]. destruct bs as [|c bs]; [destruct G|]. destruct G as (G & G'). inversion H as [|? ? (S & Y & A & I) H']; subst.
    cbn [map]. cbn [gamma_constraints expectation_full]. pose proof (P (p, b) (or_introl eq_refl)) as P0. pose proof (D (p, b) (or_introl eq_refl)) as D0. specialize (IH bs H' (fun e Ie => P e (or_intror Ie)) (fun e Ie => D e (or_intror Ie)) G').
    cbn [fst snd] in *. destruct (active p) eqn:E; [|lra]. specialize (A eq_refl). specialize (G eq_refl). specialize (D0 eq_refl).
    assert (K : 0 < stat1 p) by (apply (stat1_pos minstat); auto; apply active_ok; auto).
    pose proof (gamma_tangent (stat1 p) b c _ (Rlt_le _ _ K) (Rlt_le _ _ A) G P0) as TG.
    assert (Q : stat1 p - stat1 p * b / gbeta l nobs varnobs x (fe minstat (p, b)) = - slope l nobs varnobs x * p_yield p).
    { assert (MK : bi_mask (full_info minstat (raw p)) = false) by (rewrite (mask_active minstat active active_ok), E; auto). unfold gbeta, den in *. cbn [fe fe_info fe_n fe_b0 fst snd] in *. rewrite MK in *. rewrite full_kstat in * by auto. field. repeat split; lra. }
    rewrite Q in TG. set (g := gbeta l nobs varnobs x (fe minstat (p, b))) in *. clearbody g.
    replace (- slope l nobs varnobs x * (p_yield p * c + expectation_full Gamma active r bs - (p_yield p * g + expectation_full Gamma active r (map (fun e => gbeta l nobs varnobs x (fe minstat e)) r))))
      with (- slope l nobs varnobs x * p_yield p * (c - g) + - slope l nobs varnobs x * (expectation_full Gamma active r bs - expectation_full Gamma active r (map (fun e => gbeta l nobs varnobs x (fe minstat e)) r))) by ring. lra.
  Qed.
  Lemma dev_tangent l nobs varnobs y ys : lik_ok l nobs varnobs -> dev_dom l nobs y -> (l = Poisson -> 0 < ys) -> dev l varnobs nobs y - dev l varnobs nobs ys >= slope l nobs varnobs ys * (y - ys).
  Proof. intros L D P. unfold dev, slope. destruct l; [apply poisson_dev_tangent; auto|apply chisq_tangent; auto]. Qed.

  Variables (l : lik) (es : list (proc * R)) (nobs varnobs T : R).
  Hypothesis lok : lik_ok l nobs varnobs.
  Hypothesis eok : Forall (gamma_entry active) es.
  Hypothesis thr : threshold l (map (fe minstat) es) nobs varnobs = Some T.
  Lemma betas_pos x : T < x -> Forall (fun b => 0 < b) (betas_at l nobs varnobs x es).
  Proof. intros X. apply Forall_map. apply Forall_forall. intros e I. apply (gbeta_pos l (map (fe minstat) es) nobs varnobs (entries_ok es eok) lok T thr); auto. apply in_map. auto. Qed.
  Lemma doms_betas x : T < x -> gamma_doms active es (betas_at l nobs varnobs x es).
  Proof.
    intros X. pose proof (betas_pos x X) as P. unfold betas_at in *. revert P. generalize es. intros r. induction r as [|(p, b) r IH]; intros P; [cbn; auto|]. cbn [map] in *. inversion P; subst. cbn [gamma_doms]. split; [|auto]. intros _. unfold gamma_dom. split; intros; lra.
  Qed.
  Hypothesis some : exists e, In e es /\ active (fst e) = true /\ 0 < p_yield (fst e).
  Lemma some' : exists e, In e (map (fe minstat) es) /\ bi_mask (fe_info e) = false /\ 0 < fe_n e.
  Proof. destruct some as (e & I & A & Y). exists (fe minstat e). split; [apply in_map; auto|]. split; [cbn [fe fe_info]; rewrite (mask_active minstat active active_ok), A; auto|auto]. Qed.
  Lemma value_betas x : T < x -> nll_at l (map (fe minstat) es) nobs varnobs x = gamma_objective active l es nobs varnobs (betas_at l nobs varnobs x es).
  Proof.
    intros X. apply nll_objective; auto.
    - intros e I. pose proof (betas_pos x X) as P. rewrite Forall_forall in P. apply P. unfold betas_at. apply (in_map (fun e => gbeta l nobs varnobs x (fe minstat e))). auto.
    - apply (nu_pos l _ nobs varnobs (entries_ok es eok) lok T thr some'). auto.
  Qed.
  Lemma admissible_betas x : T < x -> gamma_admissible active l es nobs (betas_at l nobs varnobs x es).
  Proof.
    intros X. split; [apply doms_betas; auto|]. rewrite expectation_betas by auto. pose proof (nu_pos l _ nobs varnobs (entries_ok es eok) lok T thr some' x X). unfold dev_dom. destruct l; [|auto]. unfold poisson_dom. split; intros; lra.
  Qed.
  Lemma minimum x bs : T < x -> new_nexp l (map (fe minstat) es) nobs varnobs x = x -> gamma_admissible active l es nobs bs -> gamma_objective active l es nobs varnobs (betas_at l nobs varnobs x es) <= gamma_objective active l es nobs varnobs bs.
  Proof.
    intros X E (G & D). unfold gamma_objective. pose proof (nu_pos l _ nobs varnobs (entries_ok es eok) lok T thr some' x X) as NP.
    assert (IN : forall e, In e es -> 0 < gbeta l nobs varnobs x (fe minstat e)). { intros e I. pose proof (betas_pos x X) as P. rewrite Forall_forall in P. apply P. unfold betas_at. apply (in_map (fun e => gbeta l nobs varnobs x (fe minstat e))). auto. }
    assert (DP : forall e, In e es -> active (fst e) = true -> 0 < den l nobs varnobs x (fe minstat e)). { intros e I A. apply (den_pos l (map (fe minstat) es) nobs varnobs (entries_ok es eok) lok T thr); auto; [apply in_map; auto|]. cbn [fe fe_info]. rewrite (mask_active minstat active active_ok), A. auto. }
    pose proof (constraints_tangent l nobs varnobs x es bs eok IN DP G) as C. pose proof (dev_tangent l nobs varnobs (expectation_full Gamma active es bs) (expectation_full Gamma active es (betas_at l nobs varnobs x es)) lok D) as DV.
    rewrite expectation_betas in * by auto. rewrite E in *. specialize (DV ltac:(intros; lra)). lra.
  Qed.
End Joint.

(** ** nothing else attains the minimum *)
Lemma ln_strict x : 0 < x -> x <> 1 -> ln x < x - 1.
Proof. intros P N. assert (ln x <> 0). { intros E. apply N. rewrite <- (exp_ln x P), E. apply exp_0. } pose proof (exp_ineq1 (ln x) H). rewrite exp_ln in H0 by auto. lra. Qed.
Lemma gamma_tangent_strict k b0 b bs : 0 < k -> 0 < b0 -> gamma_dom b0 b -> 0 < bs -> b <> bs -> gamma_constraint k b0 b - gamma_constraint k b0 bs > (k - k * b0 / bs) * (b - bs).
Proof.
  intros K B (Hb & Hb') S N. assert (0 < b) by (apply Hb'; lra). unfold gamma_constraint. destruct (Req_EM_T b0 0); [lra|].
  rewrite !ln_div' by auto. assert (Q : ln (b / bs) < b / bs - 1). { apply ln_strict; [apply Rdiv_lt_0_compat; auto|]. intros E. apply N. apply (Rmult_eq_compat_r bs) in E. unfold Rdiv in E. rewrite Rmult_assoc, Rinv_l in E by lra. lra. }
  rewrite ln_div' in Q by auto. assert (KB : 0 < k * b0) by (apply Rmult_lt_0_compat; auto). apply (Rmult_lt_compat_l _ _ _ KB) in Q.
  replace ((k - k * b0 / bs) * (b - bs)) with (k * (b - bs) - k * b0 * (b / bs - 1)) by (field; lra). lra.
Qed.
Section Unique.
  Variables (minstat : R) (active : proc -> bool).
  Hypothesis active_ok : forall p, active p = true <-> usable1 minstat p.
  Lemma tangent_eq l nobs varnobs x es bs : Forall (gamma_entry active) es -> (forall e, In e es -> 0 < gbeta l nobs varnobs x (fe minstat e)) -> (forall e, In e es -> active (fst e) = true -> 0 < den l nobs varnobs x (fe minstat e)) -> gamma_doms active es bs ->
    gamma_constraints active es bs - gamma_constraints active es (betas_at minstat l nobs varnobs x es) <= - slope l nobs varnobs x * (expectation_full Gamma active es bs - expectation_full Gamma active es (betas_at minstat l nobs varnobs x es)) ->
    agree active es bs (betas_at minstat l nobs varnobs x es).
  Proof.
    unfold betas_at. revert bs. induction es as [|(p, b) r IH]; intros bs H P D G Le; [destruct bs; [cbn; auto|destruct G]|]. destruct bs as [|c bs]; [destruct G|]. destruct G as (G & G'). inversion H as [|? ? (S & Y & A & I) H']; subst.
    cbn [map] in *. cbn [gamma_constraints expectation_full] in Le. pose proof (P (p, b) (or_introl eq_refl)) as P0. pose proof (D (p, b) (or_introl eq_refl)) as D0.
    pose proof (constraints_tangent minstat active active_ok l nobs varnobs x r bs H' (fun e Ie => P e (or_intror Ie)) (fun e Ie => D e (or_intror Ie)) G') as CT. unfold betas_at in CT.
    specialize (IH bs H' (fun e Ie => P e (or_intror Ie)) (fun e Ie => D e (or_intror Ie)) G'). cbn [agree].
    cbn [fst snd] in *. destruct (active p) eqn:E.
    2: { split; [discriminate|]. apply IH. eapply Rle_trans; [|eapply Rle_trans; [exact Le|]]; [lra|apply Req_le; ring]. }
    specialize (A eq_refl). specialize (G eq_refl). specialize (D0 eq_refl).
    assert (K : 0 < stat1 p) by (apply (stat1_pos minstat); auto; apply active_ok; auto).
    assert (Q : stat1 p - stat1 p * b / gbeta l nobs varnobs x (fe minstat (p, b)) = - slope l nobs varnobs x * p_yield p).
    { assert (MK : bi_mask (full_info minstat (raw p)) = false) by (rewrite (mask_active minstat active active_ok), E; auto). unfold gbeta, den in *. cbn [fe fe_info fe_n fe_b0 fst snd] in *. rewrite MK in *. rewrite full_kstat in * by auto. field. repeat split; lra. }
    pose proof (gamma_tangent (stat1 p) b c _ (Rlt_le _ _ K) (Rlt_le _ _ A) G P0) as TG.
    pose proof (gamma_tangent_strict (stat1 p) b c _ K A G P0) as TS.
    rewrite Q in TG, TS. set (g := gbeta l nobs varnobs x (fe minstat (p, b))) in *. clearbody g. set (er := expectation_full Gamma active r bs) in *. set (eg := expectation_full Gamma active r (map (fun e => gbeta l nobs varnobs x (fe minstat e)) r)) in *.
    replace (- slope l nobs varnobs x * (p_yield p * c + er - (p_yield p * g + eg))) with (- slope l nobs varnobs x * p_yield p * (c - g) + - slope l nobs varnobs x * (er - eg)) in Le by ring.
    split; [|apply IH; lra]. intros _. destruct (Req_EM_T c g) as [Z|Z]; [auto|]. specialize (TS Z). lra.
  Qed.
  Variables (l : lik) (es : list (proc * R)) (nobs varnobs T : R).
  Hypothesis lok : lik_ok l nobs varnobs.
  Hypothesis eok : Forall (gamma_entry active) es.
  Hypothesis thr : threshold l (map (fe minstat) es) nobs varnobs = Some T.
  Hypothesis some : exists e, In e es /\ active (fst e) = true /\ 0 < p_yield (fst e).
  Lemma unique_minimum x bs : T < x -> slope l nobs varnobs (new_nexp l (map (fe minstat) es) nobs varnobs x) = slope l nobs varnobs x -> gamma_admissible active l es nobs bs ->
    gamma_objective active l es nobs varnobs (betas_at minstat l nobs varnobs x es) <= gamma_objective active l es nobs varnobs bs /\
    (gamma_objective active l es nobs varnobs bs <= gamma_objective active l es nobs varnobs (betas_at minstat l nobs varnobs x es) -> agree active es bs (betas_at minstat l nobs varnobs x es)).
  Proof.
    intros X E (G & D). unfold gamma_objective. pose proof (nu_pos l _ nobs varnobs (entries_ok minstat active active_ok es eok) lok T thr (some' minstat active active_ok es some) x X) as NP.
    assert (IN : forall e, In e es -> 0 < gbeta l nobs varnobs x (fe minstat e)). { intros e I. pose proof (betas_pos minstat active active_ok l es nobs varnobs T lok eok thr x X) as P. rewrite Forall_forall in P. apply P. unfold betas_at. apply (in_map (fun e => gbeta l nobs varnobs x (fe minstat e))). auto. }
    assert (DP : forall e, In e es -> active (fst e) = true -> 0 < den l nobs varnobs x (fe minstat e)). { intros e I A. apply (den_pos l (map (fe minstat) es) nobs varnobs (entries_ok minstat active active_ok es eok) lok T thr); auto; [apply in_map; auto|]. cbn [fe fe_info]. rewrite (mask_active minstat active active_ok), A. auto. }
    pose proof (constraints_tangent minstat active active_ok l nobs varnobs x es bs eok IN DP G) as C. pose proof (dev_tangent l nobs varnobs (expectation_full Gamma active es bs) (expectation_full Gamma active es (betas_at minstat l nobs varnobs x es)) lok D) as DV.
    rewrite (expectation_betas minstat active active_ok) in DV by auto. rewrite E in DV. rewrite <- (expectation_betas minstat active active_ok) in DV by auto. specialize (DV ltac:(rewrite (expectation_betas minstat active active_ok) by auto; auto)). split; [lra|].
    intros Le. apply tangent_eq; auto. lra.
  Qed.
  Lemma threshold_defined : exists T, threshold l (map (fe minstat) es) nobs varnobs = Some T.
  Proof.
    clear thr T. pose proof (entries_ok minstat active active_ok es eok) as OK. destruct (some' minstat active active_ok es some) as (e & I & M & N).
    destruct (f_min_le l (map (fe minstat) es) e _ I (thresh_some l (map (fe minstat) es) e I M ltac:(lra))) as (m & Em & _).
    destruct (f_min_pos l (map (fe minstat) es) nobs varnobs OK lok m Em) as (P & _). unfold threshold. rewrite Em. destruct l; [|eauto]. unfold tfdiv. rewrite Reqb_false by lra. eauto.
  Qed.
End Unique.

(** ** the loop *)
Lemma loop_fixed fuel (bins : list bin) us : (forall (b : bin) u, In (b, u) (combine bins us) -> exists g h v, b = Some (g, h) /\ u = Some v /\ newton_step g h v = v) -> length bins = length us -> newton_loop fuel bins us = us.
Proof.
  revert us. induction fuel as [|n IH]; intros us H L; [reflexivity|]. cbn [newton_loop]; cbv zeta.
  assert (E : map bin_step (combine bins us) = us).
  { clear IH. revert us H L. induction bins as [|b bins IHb]; intros [|u us] H L; try discriminate; [reflexivity|]. cbn [combine map]. destruct (H b u (or_introl eq_refl)) as (g & h & v & -> & -> & Q). cbn [bin_step]. rewrite Q. f_equal. apply IHb; [|injection L; auto]. intros b' u' I. apply H. right. auto. }
  rewrite E. destruct (_ && _); auto.
Qed.
Lemma loop_nan fuel (bins : list bin) us : In None bins -> length bins = length us -> newton_loop (S fuel) bins us = map bin_step (combine bins us).
Proof.
  intros I L. cbn [newton_loop]; cbv zeta. assert (E : forallb defined (map bin_edm (combine bins us)) = false); [|rewrite E; auto].
  revert us L. induction bins as [|b bins IH]; intros [|u us] L; try discriminate; [destruct I|]. cbn [combine map forallb]. destruct I as [->|I]; [reflexivity|]. rewrite IH; auto. apply andb_false_r.
Qed.
Lemma clip_bound x : -1 <= clip (-1) 1 x <= 1. Proof. unfold clip, Rmax, Rmin. repeat destruct (Rle_dec _ _); lra. Qed.
Lemma combine_nth_snd {A B} (l1 : list A) (l2 : list B) i a b v : nth_error l2 i = Some v -> nth_error (combine l1 l2) i = Some (a, b) -> b = v.
Proof. revert l1 l2. induction i as [|i IH]; intros [|x l1] [|y l2] E C; cbn in *; try discriminate; [congruence|eauto]. Qed.
Lemma loop_len m (bins : list bin) : forall vs, (length (newton_loop m bins vs) <= length vs)%nat.
Proof.
  induction m as [|m IH]; intros vs; [auto|]. cbn [newton_loop]; cbv zeta. assert (length (map bin_step (combine bins vs)) <= length vs)%nat by (rewrite map_length, combine_length; apply Nat.le_min_r).
  destruct (_ && _); [|auto]. eapply Nat.le_trans; [apply IH|auto].
Qed.
Lemma loop_none m (bins : list bin) i : forall vs w, nth_error vs i = Some None -> nth_error (newton_loop m bins vs) i <> Some (Some w).
Proof.
  induction m as [|m IH]; intros vs w A; [cbn; congruence|]. cbn [newton_loop]; cbv zeta.
  assert (S1 : nth_error (map bin_step (combine bins vs)) i = Some None \/ nth_error (map bin_step (combine bins vs)) i = None).
  { rewrite nth_error_map. destruct (nth_error (combine bins vs) i) as [(b, u)|] eqn:C; [|right; auto]. rewrite (combine_nth_snd _ _ _ _ _ _ A C). left. cbn. destruct b as [(g, h)|]; auto. }
  destruct (_ && _); [|destruct S1 as [S1|S1]; rewrite S1; discriminate]. destruct S1 as [S1|S1]; [auto|].
  apply nth_error_None in S1. assert (nth_error (newton_loop m bins (map bin_step (combine bins vs))) i = None) by (apply nth_error_None; eapply Nat.le_trans; [apply loop_len|auto]). congruence.
Qed.
Lemma loop_reach fuel (bins : list bin) us i v w : nth_error us i = Some (Some v) -> nth_error (newton_loop fuel bins us) i = Some (Some w) -> Rabs (w - v) <= INR fuel.
Proof.
  revert us v. induction fuel as [|n IH]; intros us v A B.
  - cbn in B. rewrite A in B. injection B as <-. rewrite Rminus_diag_eq, Rabs_R0 by auto. cbn. lra.
  - cbn [newton_loop] in B; cbv zeta in B. rewrite S_INR.
    assert (ST : forall z, nth_error (map bin_step (combine bins us)) i = Some (Some z) -> Rabs (z - v) <= 1).
    { intros z Z. rewrite nth_error_map in Z. destruct (nth_error (combine bins us) i) as [(b, u)|] eqn:C; [|discriminate]. cbn in Z. rewrite (combine_nth_snd _ _ _ _ _ _ A C) in Z.
      destruct b as [(g, h)|]; [|discriminate]. cbn in Z. injection Z as <-. unfold newton_step. pose proof (clip_bound (g v / safe_hess (h v))). unfold Rabs. destruct (Rcase_abs _); lra. }
    pose proof (pos_INR n).
    destruct (forallb _ _ && existsb _ _); [|specialize (ST w B); lra].
    destruct (nth_error (map bin_step (combine bins us)) i) as [[z|]|] eqn:Z.
    + specialize (ST z eq_refl). specialize (IH _ z Z B). replace (w - v) with ((w - z) + (z - v)) by ring. eapply Rle_trans; [apply Rabs_triang|]. lra.
    + exfalso. eapply loop_none; eauto.
    + exfalso. apply nth_error_None in Z. assert (nth_error (newton_loop n bins (map bin_step (combine bins us))) i = None) by (apply nth_error_None; eapply Nat.le_trans; [apply loop_len|auto]). congruence.
Qed.
