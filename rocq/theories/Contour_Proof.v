From Coq Require Import Reals List Arith Bool String Lra Lia.
From Verif Require Import RBase PyList Mat_Model Mat_Proof Impacts_Model Impacts_Solve Impacts_Proof Contour_Model Contour_Spec.
Import ListNotations.
Open Scope R_scope.

Lemma vec_eqb_true a : forall b, vec_eqb a b = true -> a = b.
Proof.
  induction a as [|x a IH]; intros [|y b] E; cbn [vec_eqb] in E; try discriminate; auto.
  apply andb_prop in E. destruct E as (E1 & E2). destruct (Reqb_spec x y); [|discriminate]. subst. f_equal. auto.
Qed.
Lemma vec_eqb_refl a : vec_eqb a a = true.
Proof. induction a; cbn [vec_eqb]; auto. rewrite Reqb_true by auto. auto. Qed.

(** the caches hold what the likelihood gives at their key *)
Definition cache_ok (L : clik) (nll q : R) (st : cstate) : Prop :=
  (forall x v g, cs_lg st = Some (x, v, g) -> v = cl_loss L x - (nll + / 2 * q) /\ g = cl_grad L x) /\
  (forall x h, cs_h st = Some (x, h) -> h = cl_hess L x).
Lemma assign_ok L nll q x st : cache_ok L nll q st -> cache_ok L nll q (assign x st).
Proof. intros K. exact K. Qed.
Lemma ensure_lg_ok L nll q x st : cache_ok L nll q st ->
  cache_ok L nll q (ensure_lg L nll q x st) /\ lg_val (ensure_lg L nll q x st) = cl_loss L x - (nll + / 2 * q) /\ lg_grad (ensure_lg L nll q x st) = cl_grad L x.
Proof.
  intros K. unfold ensure_lg. destruct (hits _ (cs_lg st) x) eqn:E.
  - unfold hits in E. destruct (cs_lg st) as [[[y v] g]|] eqn:Ec; [|discriminate]. cbn [fst] in E. apply vec_eqb_true in E. subst y.
    destruct K as (K & Kh). destruct (K _ _ _ Ec) as (-> & ->). split; [split; auto|]. unfold lg_val, lg_grad. rewrite Ec. auto.
  - cbv zeta. unfold assign. cbn [cs_x cs_h]. split; [split|].
    + intros y v g Ey. cbn [cs_lg] in Ey. injection Ey as <- <- <-. split; [ring|auto].
    + cbn [cs_h]. apply K.
    + unfold lg_val, lg_grad. cbn [cs_lg]. split; [ring|auto].
Qed.
Lemma ensure_hess_ok L nll q x st : cache_ok L nll q st ->
  cache_ok L nll q (ensure_hess L nll q x st) /\ h_hess (ensure_hess L nll q x st) = cl_hess L x.
Proof.
  intros K. unfold ensure_hess. destruct (hits _ (cs_h st) x) eqn:E.
  - split; auto. unfold hits in E. unfold h_hess. destruct (cs_h st) as [[y h]|] eqn:Ec; [|discriminate]. cbn [fst] in E. apply vec_eqb_true in E. subst y.
    destruct K as (_ & K). apply K. auto.
  - cbv zeta. unfold assign. cbn [cs_x]. split; [split|].
    + intros y v g Ey. cbn [cs_lg] in Ey. injection Ey as <- <- <-. split; [ring|auto].
    + intros y h Ey. cbn [cs_h] in Ey. injection Ey as <- <-. auto.
    + reflexivity.
Qed.
Lemma one_hot_length n idx v : List.length (one_hot n idx v) = n.
Proof. unfold one_hot. rewrite map_length, seq_length. auto. Qed.
Lemma one_hot_nth n idx v i : (i < n)%nat -> nth i (one_hot n idx v) 0 = if Nat.eqb i idx then v else 0.
Proof.
  intros H. unfold one_hot. rewrite (nth_indep _ 0 (if Nat.eqb O idx then v else 0)) by (rewrite map_length, seq_length; auto).
  rewrite (map_nth (fun i => if Nat.eqb i idx then v else 0) (seq 0 n) O i), seq_nth by auto. reflexivity.
Qed.
(** every question is answered correctly, whatever was asked before *)
Lemma serve_ok L nll q hm ph fn idx x0 sign qu st r st' : cache_ok L nll q st -> serve L nll q hm ph fn idx x0 sign qu st = (r, st') ->
  cache_ok L nll q st' /\ answer L (nll + / 2 * q) hm ph fn idx x0 sign qu r.
Proof.
  intros K E. destruct qu as [x|x|x v|x v p|x|x p]; cbn [serve] in E; cbv zeta in E.
  - injection E as <- <-. destruct (ensure_lg_ok L nll q x st K) as (K' & V & _). split; auto.
  - injection E as <- <-. destruct (ensure_lg_ok L nll q x st K) as (K' & _ & V). split; auto.
  - unfold ask_hess in E. destruct hm; cbv zeta in E; injection E as <- <-; cbn [answer].
    + destruct (ensure_hess_ok L nll q x st K) as (K' & V). rewrite V. split; auto. rewrite map_length. split; auto. split; auto.
      intros i row Hr. rewrite nth_error_map, Hr. reflexivity.
    + split; [apply (ensure_lg_ok L nll q x st K)|]. split; discriminate.
    + split; auto. rewrite map_length. split; auto. split; auto. intros i row Hr. rewrite nth_error_map, Hr. reflexivity.
    + split; auto. split; discriminate.
    + split; auto. split; discriminate.
    + split; auto. split; discriminate.
  - injection E as <- <-. split; [apply assign_ok; auto|]. reflexivity.
  - unfold objective in E. destruct fn as [o|]; injection E as <- <-; (split; [apply assign_ok; auto|]); cbn [answer].
    + split; [|reflexivity]. exists (co_val o x). split; auto. cbn [cs_x assign]. ring.
    + split; [eexists; split; [reflexivity|ring]|]. split; [apply one_hot_length|]. intros i Hi. apply one_hot_nth. auto.
  - unfold objective_hess in E. destruct fn as [o|]; injection E as <- <-; (split; [first [apply assign_ok; auto|auto]|]); cbn [answer]; [reflexivity|].
    clear. induction p; cbn [map List.length repeat]; auto. f_equal; auto.
Qed.
Lemma minimize_ok L nll q hm ph fn idx x0 sign : forall s st ok rx st', cache_ok L nll q st ->
  minimize (serve L nll q hm ph fn idx x0 sign) s st = (ok, rx, st') ->
  cache_ok L nll q st' /\ truthful (answer L (nll + / 2 * q) hm ph fn idx x0 sign) s ok rx.
Proof.
  induction s as [ok0 x|qu k IH]; intros st ok rx st' K E; cbn [minimize] in E.
  - injection E as <- <- <-. split; auto. constructor.
  - destruct (serve L nll q hm ph fn idx x0 sign qu st) as (r, st1) eqn:Es. destruct (serve_ok _ _ _ _ _ _ _ _ _ _ _ _ _ K Es) as (K1 & A).
    destruct (IH r st1 ok rx st' K1 E) as (K2 & T). split; auto. econstructor; eauto.
Qed.
Lemma vminus_length a b : List.length (vminus a b) = Nat.min (List.length a) (List.length b).
Proof. unfold vminus. rewrite map_length, combine_length. auto. Qed.
Lemma vminus_nth a : forall b i, (i < List.length (vminus a b))%nat -> nth i (vminus a b) 0 = nth i a 0 - nth i b 0.
Proof.
  induction a as [|x a IH]; intros [|y b] i H; cbn in H; try lia. destruct i; cbn [vminus combine map nth fst snd]; auto. apply IH. unfold vminus. lia.
Qed.
Lemma sides_ok L cov frozen nll q hm ph fn idx xval opt : forall signs st iv pv st', cache_ok L nll q st -> cs_x st = xval ->
  sides L cov frozen nll q hm ph fn idx xval opt signs st = (iv, pv, st') ->
  cs_x st' = xval /\ List.length iv = List.length signs /\ List.length pv = List.length signs /\
  forall i sign, nth_error signs i = Some sign ->
    side_of (scan_answer L nll q hm ph fn idx xval) fn idx xval (fun s => opt (warm_start cov frozen q idx s xval)) sign (nth i iv None) (nth i pv None).
Proof.
  induction signs as [|sign rest IH]; intros st iv pv st' K X E; cbn [sides] in E.
  - injection E as <- <- <-. repeat split; auto. intros [|i] sign Hi; discriminate.
  - cbv zeta in E. destruct (minimize _ _ st) as [[ok rx] st1] eqn:Em. destruct (minimize_ok _ _ _ _ _ _ _ _ _ _ _ _ _ _ K Em) as (K1 & T).
    set (st2 := if ok then match fn with None => st1 | Some _ => assign rx st1 end else st1) in *.
    assert (K2 : cache_ok L nll q st2) by (unfold st2; destruct ok, fn; auto; apply assign_ok; auto).
    destruct (sides L cov frozen nll q hm ph fn idx xval opt rest (assign xval st2)) as [[iv1 pv1] st3] eqn:Es. injection E as <- <- <-.
    destruct (IH _ _ _ _ (assign_ok _ _ _ _ _ K2) eq_refl Es) as (X3 & L1 & L2 & S). split; auto. cbn [List.length]. split; [lia|]. split; [lia|].
    intros [|i] s Hi; cbn [nth_error nth] in *; [|apply S; auto]. injection Hi as ->. exists ok, rx. split; [exact T|]. destruct ok; auto. split.
    + eexists. split; [reflexivity|]. unfold st2. destruct fn; reflexivity.
    + eexists. split; [reflexivity|]. split; [apply vminus_length|apply vminus_nth].
Qed.

(** ** answers determine the run *)
Lemma answer_det L level hm prec fn idx x0 sign qu r r' : answer L level hm prec fn idx x0 sign qu r -> answer L level hm prec fn idx x0 sign qu r' -> r = r'.
Proof.
  destruct qu as [x|x|x v|x v p|x|x p], r, r'; cbn [answer]; intros A B; try contradiction; try (destruct A as (? & [?|?] & ?); destruct B; congruence).
  all: try (destruct B as (? & [?|?] & ?); destruct A; congruence).
  - congruence.
  - congruence.
  - destruct A as (L1 & Hm & A), B as (L2 & _ & B). f_equal. set (M := match hm with HExact => cl_hess L x | _ => prec end) in *.
    apply nth_ext with (d := []) (d' := []); [lia|]. intros i Hi. rewrite L1 in Hi.
    destruct (nth_error M i) as [row|] eqn:En; [|apply nth_error_None in En; lia].
    rewrite (nth_error_nth _ _ _ (A i row En)), (nth_error_nth _ _ _ (B i row En)). auto.
  - auto.
  - congruence.
  - destruct A as ((f & F & ->) & A), B as ((f' & F' & ->) & B). destruct fn as [o|]; [congruence|]. destruct A as (L1 & A), B as (L2 & B). f_equal; [congruence|].
    apply nth_ext with (d := 0) (d' := 0); [lia|]. intros i Hi. rewrite L1 in Hi. rewrite A, B by auto. auto.
  - destruct fn; congruence.
Qed.
Lemma truthful_det (ans : cquery -> creply -> Prop) s ok x : (forall qu r r', ans qu r -> ans qu r' -> r = r') -> truthful ans s ok x -> forall ok' x', truthful ans s ok' x' -> ok = ok' /\ x = x'.
Proof.
  intros D T. induction T as [ok x|qu k r ok x A T IH]; intros ok' x' T'; inversion T'; subst; auto.
  match goal with H : ans qu ?r' |- _ => assert (r = r') by (apply (D qu); auto) end. subst. auto.
Qed.
Lemma side_det L level hm prec fn idx xval start sign iv pv iv' pv' :
  side_of (fun s => answer L level hm prec fn idx (nth idx xval 0) s) fn idx xval start sign iv pv ->
  side_of (fun s => answer L level hm prec fn idx (nth idx xval 0) s) fn idx xval start sign iv' pv' -> iv = iv' /\ pv = pv'.
Proof.
  intros (ok & rx & T & A) (ok' & rx' & T' & A'). destruct (truthful_det _ _ _ _ (fun qu r r' => answer_det _ _ _ _ _ _ _ _ qu r r') T _ _ T') as (<- & <-).
  destruct ok; [|destruct A, A'; split; congruence]. destruct A as ((v & -> & V) & (d & -> & L1 & D1)), A' as ((v' & -> & V') & (d' & -> & L2 & D2)).
  split; [destruct fn; congruence|]. f_equal. apply nth_ext with (d := 0) (d' := 0); [lia|]. intros i Hi. rewrite D1 by auto. rewrite D2 by lia. auto.
Qed.

(** ** the whole scan *)
Lemma find_param_spec param parms : match find_param param parms with
  | Some i => nth_error parms i = Some param /\ forall k, (k < i)%nat -> nth_error parms k <> Some param
  | None => ~ In param parms end.
Proof.
  induction parms as [|p r IH]; cbn [find_param]; [intros []|]. destruct (String.eqb_spec p param) as [->|N]; [split; [reflexivity|intros; lia]|].
  destruct (find_param param r) as [i|]; cbn [option_map].
  - destruct IH as (E & F). split; auto. intros [|k] Hk; cbn [nth_error]; [congruence|]. apply F. lia.
  - intros [E|H]; auto.
Qed.
Lemma cache_empty L nll q x : cache_ok L nll q {| cs_x := x; cs_lg := None; cs_h := None |}.
Proof. split; intros; discriminate. Qed.
Theorem contour_scan_ok L cov parms frozen param nll q signs fn hm opt x : In param parms -> hm = HExact \/ hm = HHvp \/ hm = HBfgs \/ hm = HSr1 ->
  exists iv pv idx, contour_scan L cov parms frozen param nll q signs fn hm opt x = Ok (iv, pv, x) /\ nth_error parms idx = Some param /\
    List.length iv = List.length signs /\ List.length pv = List.length signs /\
    forall i sign, nth_error signs i = Some sign ->
      side_of (scan_answer L nll q hm [] fn idx x) fn idx x (fun s => opt (warm_start cov frozen q idx s x)) sign (nth i iv None) (nth i pv None).
Proof.
  intros HI HM. unfold contour_scan. assert (Ep : match hm with
     | HFrozen => ci <- ginv (List.length x) cov;; Ok (map (fun i : nat => map (ci i) (seq 0 (List.length x))) (seq 0 (List.length x)))
     | HOther => Raise ValueError | _ => Ok [] end = Ok []) by (destruct HM as [->|[->|[->| ->]]]; reflexivity).
  rewrite Ep. cbn [rbind]. assert (F := find_param_spec param parms). destruct (find_param param parms) as [idx|]; [|contradiction].
  destruct (sides _ _ _ _ _ _ _ _ _ _ _ _ _) as [[iv pv] st] eqn:Es. destruct (sides_ok _ _ _ _ _ _ _ _ _ _ _ _ _ _ _ _ (cache_empty L nll q x) eq_refl Es) as (X & L1 & L2 & S).
  exists iv, pv, idx. rewrite X. split; auto. split; [apply F|]. auto.
Qed.
(** mode "frozen": the precision matrix, an error if the covariance is singular *)
Theorem contour_scan_frozen L cov parms frozen param nll q signs fn opt x : In param parms -> regular (List.length x) cov ->
  exists iv pv idx ph, contour_scan L cov parms frozen param nll q signs fn HFrozen opt x = Ok (iv, pv, x) /\ nth_error parms idx = Some param /\
    (forall i j, (i < List.length x)%nat -> (j < List.length x)%nat -> sm (List.length x) (fun l => cov i l * nth j (nth l ph []) 0) = if Nat.eqb i j then 1 else 0) /\
    List.length iv = List.length signs /\ List.length pv = List.length signs /\
    forall i sign, nth_error signs i = Some sign ->
      side_of (scan_answer L nll q HFrozen ph fn idx x) fn idx x (fun s => opt (warm_start cov frozen q idx s x)) sign (nth i iv None) (nth i pv None).
Proof.
  intros HI RG. unfold contour_scan. destruct (ginv_spec (List.length x) cov RG) as (Ci & E & I). rewrite E. cbn [rbind].
  set (n := List.length x) in *. set (ph := map (fun i => map (Ci i) (seq 0 n)) (seq 0 n)).
  assert (F := find_param_spec param parms). destruct (find_param param parms) as [idx|]; [|contradiction].
  destruct (sides _ _ _ _ _ _ _ _ _ _ _ _ _) as [[iv pv] st] eqn:Es. destruct (sides_ok _ _ _ _ _ _ _ _ _ _ _ _ _ _ _ _ (cache_empty L nll q x) eq_refl Es) as (X & L1 & L2 & S).
  exists iv, pv, idx, ph. rewrite X. split; auto. split; [apply F|]. split; [|auto].
  intros i j Hi Hj. rewrite <- (I i j Hi Hj : _ = if Nat.eqb i j then 1 else 0). unfold mm. apply sm_ext. intros l Hl. f_equal. unfold ph.
  rewrite (nth_indep _ [] (map (Ci O) (seq 0 n))) by (rewrite map_length, seq_length; auto).
  rewrite (map_nth (fun i => map (Ci i) (seq 0 n)) (seq 0 n) O l), seq_nth by auto.
  rewrite (nth_indep _ 0 (Ci (0 + l)%nat O)) by (rewrite map_length, seq_length; auto). rewrite map_nth, seq_nth by auto. reflexivity.
Qed.
(** a covariance with a row of zeros, as that of a frozen parameter, ends the scan *)
Theorem contour_scan_frozen_raises L cov parms frozen param nll q signs fn opt x k : (k < List.length x)%nat -> (forall j, (j < List.length x)%nat -> cov k j = 0) ->
  contour_scan L cov parms frozen param nll q signs fn HFrozen opt x = Raise GenericException.
Proof. intros Hk Z. unfold contour_scan, ginv. rewrite (gsolve_zero_row _ _ _ k) by auto. reflexivity. Qed.

(** ** warm start *)
Lemma form_quad n H z : form n H z = quad n H z.
Proof. unfold form, quad, mv. apply sm_ext. intros i Hi. rewrite <- sm_scal. apply sm_ext. intros; ring. Qed.
Section Warm.
  Variables (n : nat) (H C : nat -> nat -> R) (frozen : nat -> bool) (j : nat).
  Hypothesis (FM : floating_min n H frozen) (FC : floating_cov n H frozen C) (Hj : (j < n)%nat) (Fj : frozen j = false).
  Lemma col_move : floating_move n frozen (fun k => C k j).
  Proof. intros i Hi F. assert (E := FC i j Hi Hj). rewrite F in E. exact E. Qed.
  Lemma col_dot z : floating_move n frozen z -> sm n (fun i => z i * mv n H (fun k => C k j) i) = z j.
  Proof.
    intros Z. rewrite (sm_ext n _ (fun i => z i * delta i j)); [apply (sm_delta' n j z Hj)|]. intros i Hi. destruct (frozen i) eqn:F.
    - rewrite (Z i Hi F). ring.
    - assert (E := FC i j Hi Hj). rewrite F, Fj in E. cbn [orb] in E. unfold mv, delta. rewrite E. auto.
  Qed.
  Lemma col_pos : 0 < C j j.
  Proof.
    rewrite <- (col_dot (fun k => C k j) col_move). change (0 < quad n H (fun k => C k j)). rewrite <- form_quad. apply FM; [apply col_move|].
    exists j. split; auto. intros E. assert (D := FC j j Hj Hj). rewrite Fj, Nat.eqb_refl in D. cbn [orb] in D.
    assert (D' := col_dot (fun k => C k j) col_move). cbn beta in D'. rewrite E in D'.
    assert (Q : ~ (exists i, (i < n)%nat /\ C i j <> 0)).
    { intros N. assert (P := proj2 FM _ col_move N). rewrite form_quad in P. unfold quad in P. lra. }
    rewrite sm_0 in D; [lra|]. intros l Hl. destruct (Req_dec (C l j) 0) as [->|N]; [ring|]. exfalso. apply Q. exists l. auto.
  Qed.
  (** z = t times the column plus the rest *)
  Lemma col_split z t : floating_move n frozen z -> form n H (fun k => z k - t * C k j) = form n H z - 2 * t * z j + t * t * C j j.
  Proof.
    intros Z. rewrite !form_quad. assert (S := proj1 FM).
    assert (E : quad n H (fun k => z k - t * C k j) = quad n H z - 2 * sm n (fun i => z i * mv n H (fun k => t * C k j) i) + quad n H (fun k => t * C k j)) by (apply quad_minus; exact S).
    assert (M : forall i, mv n H (fun k => t * C k j) i = t * mv n H (fun k => C k j) i) by (intros i; unfold mv; rewrite <- sm_scal; apply sm_ext; intros; ring).
    rewrite E. unfold quad at 2. rewrite (sm_ext n (fun i => t * C i j * mv n H (fun k => t * C k j) i) (fun i => t * t * (C i j * mv n H (fun k => C k j) i))) by (intros; rewrite M; ring).
    rewrite (sm_scal n (t * t)), (col_dot (fun k => C k j) col_move).
    rewrite (sm_ext n (fun i => z i * mv n H (fun k => t * C k j) i) (fun i => t * (z i * mv n H (fun k => C k j) i))) by (intros; rewrite M; ring).
    rewrite sm_scal, (col_dot z Z). ring.
  Qed.
End Warm.
Lemma form_ext n H z w : (forall i, (i < n)%nat -> z i = w i) -> form n H z = form n H w.
Proof. intros E. unfold form. apply sm_ext. intros i Hi. apply sm_ext. intros k Hk. rewrite !E by auto. auto. Qed.
Lemma form_zero n H z : (forall i, (i < n)%nat -> z i = 0) -> form n H z = 0.
Proof. intros E. unfold form. apply sm_0. intros i Hi. apply sm_0. intros k Hk. rewrite !E by auto. ring. Qed.
(** the warm start: on the contour, and farther than any other point of it *)
Section Start.
  Variables (n : nat) (H C : nat -> nat -> R) (frozen : nat -> bool) (j : nat) (q sign : R).
  Hypothesis (FM : floating_min n H frozen) (FC : floating_cov n H frozen C) (Hj : (j < n)%nat) (Fj : frozen j = false) (Hq : 0 <= q) (Hs : sign * sign = 1).
  Let t := sign * (sqrt q / sqrt (C j j)).
  Lemma start_dx k : (k < n)%nat -> gauss_dx C n frozen q j k = Some (sqrt q / sqrt (C j j) * C k j).
  Proof.
    intros Hk. assert (P := col_pos n H C frozen j FM FC Hj Fj). assert (S := sqrt_lt_R0 _ P). unfold gauss_dx. destruct (frozen k) eqn:F.
    - rewrite (col_move n H C frozen j FC Hj k Hk F). f_equal. ring.
    - unfold tsqrt. rewrite !Rltb_false by lra. unfold odiv. rewrite Reqb_false by lra. f_equal. field. lra.
  Qed.
  Lemma start_t2 : t * t * C j j = q.
  Proof.
    assert (P := col_pos n H C frozen j FM FC Hj Fj). assert (S := sqrt_lt_R0 _ P). assert (S2 := sqrt_sqrt _ (Rlt_le _ _ P)). assert (Q2 := sqrt_sqrt _ Hq). unfold t.
    set (c := C j j) in *. rewrite <- S2 at 3. replace (sign * (sqrt q / sqrt c) * (sign * (sqrt q / sqrt c)) * (sqrt c * sqrt c)) with ((sign * sign) * (sqrt q * sqrt q)) by (field; lra). rewrite Hs, Q2. ring.
  Qed.
  Lemma start_width : sign * (t * C j j) = sqrt q * sqrt (C j j).
  Proof.
    assert (P := col_pos n H C frozen j FM FC Hj Fj). assert (S := sqrt_lt_R0 _ P). assert (S2 := sqrt_sqrt _ (Rlt_le _ _ P)). unfold t. set (c := C j j) in *.
    rewrite <- S2 at 2. replace (sign * (sign * (sqrt q / sqrt c) * (sqrt c * sqrt c))) with ((sign * sign) * (sqrt q * sqrt c)) by (field; lra). rewrite Hs. ring.
  Qed.
  Lemma start_move : floating_move n frozen (fun k => t * C k j).
  Proof. intros i Hi F. rewrite (col_move n H C frozen j FC Hj i Hi F). ring. Qed.
  Lemma start_form : form n H (fun k => t * C k j) = q.
  Proof.
    assert (E := col_split n H C frozen j FM FC Hj Fj (fun k => t * C k j) t start_move). rewrite form_zero in E by (intros; ring). assert (T := start_t2).
    replace (2 * t * (t * C j j)) with (2 * (t * t * C j j)) in E by ring. rewrite T in E. lra.
  Qed.
  Lemma start_best z : floating_move n frozen z -> form n H z = q ->
    sign * z j <= sqrt q * sqrt (C j j) /\ (sign * z j = sqrt q * sqrt (C j j) -> forall k, (k < n)%nat -> z k = t * C k j).
  Proof.
    intros Z E. assert (D := col_split n H C frozen j FM FC Hj Fj z t Z). rewrite E, start_t2 in D.
    assert (P := col_pos n H C frozen j FM FC Hj Fj). assert (S := sqrt_lt_R0 _ P). assert (S2 := sqrt_sqrt _ (Rlt_le _ _ P)). assert (Q2 := sqrt_sqrt _ Hq). assert (Qp := sqrt_pos q).
    assert (M : floating_move n frozen (fun k => z k - t * C k j)) by (intros i Hi F; rewrite (Z i Hi F), (start_move i Hi F); ring).
    assert (TZ : t * z j * sqrt (C j j) = sqrt q * (sign * z j)) by (unfold t; field; lra).
    assert (Eqz : (forall k, (k < n)%nat -> z k = t * C k j) \/ 0 < form n H (fun k => z k - t * C k j)).
    { destruct (nonzero_dec n (fun k => z k - t * C k j)) as [N|N]; [right; apply (proj2 FM); auto|left]. intros k Hk. assert (N' := N k Hk). cbn beta in N'. lra. }
    destruct Eqz as [Eq|Pos].
    - split; [|auto]. rewrite (Eq j Hj), start_width. lra.
    - destruct (Req_dec q 0) as [Z0|Nq].
      + exfalso. rewrite Z0 in E. assert (N0 : forall k, (k < n)%nat -> z k = 0).
        { destruct (nonzero_dec n z) as [N|N]; auto. assert (Pz := proj2 FM z Z N). lra. }
        rewrite form_zero in Pos; [lra|]. intros i Hi. rewrite N0 by auto. unfold t. rewrite Z0, sqrt_0. unfold Rdiv. ring.
      + assert (Sq : 0 < sqrt q) by (apply sqrt_lt_R0; lra). assert (LT : t * z j < q) by lra.
        assert (sqrt q * (sign * z j) < sqrt q * (sqrt q * sqrt (C j j))).
        { rewrite <- TZ, <- Rmult_assoc, Q2. apply Rmult_lt_compat_r; auto. }
        assert (sign * z j < sqrt q * sqrt (C j j)) by (apply (Rmult_lt_reg_l (sqrt q)); auto). split; [lra|]. intros; exfalso; lra.
  Qed.
End Start.
Lemma nth_map_seq {A} (f : nat -> A) n i d : (i < n)%nat -> nth i (map f (seq 0 n)) d = f i.
Proof. intros Hi. rewrite (nth_indep _ d (f O)) by (rewrite map_length, seq_length; auto). rewrite map_nth, seq_nth by auto. reflexivity. Qed.
Theorem warm_start_spec L H C frozen q j sign xval : gaussian L H xval -> floating_min (List.length xval) H frozen -> floating_cov (List.length xval) H frozen C ->
  (j < List.length xval)%nat -> frozen j = false -> 0 <= q -> sign = 1 \/ sign = -1 ->
  exists x1, warm_start C frozen q j sign xval = map Some x1 /\ List.length x1 = List.length xval /\
    nth j x1 0 = nth j xval 0 + sign * (sqrt q * sqrt (C j j)) /\
    farthest (fun x => floating_move (List.length xval) frozen (fun i => x i - nth i xval 0)) (fun x => cl_loss L (listed (List.length xval) x)) (cl_loss L xval + / 2 * q) j sign (fun i => nth i x1 0) /\
    forall y, farthest (fun x => floating_move (List.length xval) frozen (fun i => x i - nth i xval 0)) (fun x => cl_loss L (listed (List.length xval) x)) (cl_loss L xval + / 2 * q) j sign y ->
      listed (List.length xval) y = x1.
Proof.
  intros G FM FC Hj Fj Hq Hs. set (n := List.length xval) in *. assert (Hs2 : sign * sign = 1) by (destruct Hs as [->| ->]; ring).
  set (t := sign * (sqrt q / sqrt (C j j))). set (f := fun k => nth k xval 0 + t * C k j).
  assert (LL : forall x : nat -> R, cl_loss L (listed n x) = cl_loss L xval + / 2 * form n H (fun i => x i - nth i xval 0)).
  { intros x. rewrite G by (unfold listed; rewrite map_length, seq_length; auto). fold n. f_equal. f_equal. apply form_ext. intros i Hi. unfold listed. rewrite nth_map_seq by auto. auto. }
  assert (W : sign * (t * C j j) = sqrt q * sqrt (C j j)) by (apply (start_width n H C frozen j q sign); auto).
  assert (FX : farthest (fun x => floating_move n frozen (fun i => x i - nth i xval 0)) (fun x => cl_loss L (listed n x)) (cl_loss L xval + / 2 * q) j sign (fun i => nth i (map f (seq 0 n)) 0)).
  { split; [|split].
    - intros i Hi F. rewrite nth_map_seq by auto. unfold f. assert (M := start_move n H C frozen j q sign FC Hj i Hi F). cbn beta in M. fold t in M. rewrite M. ring.
    - cbv beta. rewrite LL. f_equal. f_equal. rewrite <- (start_form n H C frozen j q sign FM FC Hj Fj Hq Hs2). fold t. apply form_ext. intros i Hi. rewrite nth_map_seq by auto. unfold f. ring.
    - intros y My Ly. cbv beta in Ly. rewrite LL in Ly. rewrite nth_map_seq by auto. unfold f.
      destruct (start_best n H C frozen j q sign FM FC Hj Fj Hq Hs2 _ My ltac:(lra)) as (B & _). cbv beta in B. rewrite Rmult_plus_distr_l, W. lra. }
  exists (map f (seq 0 n)). split; [|split; [rewrite map_length, seq_length; auto|split; [|split; [exact FX|]]]].
  - unfold warm_start. fold n. rewrite map_map. apply map_ext_in. intros k Hk. apply in_seq in Hk. rewrite (start_dx n H C frozen j q FM FC Hj Fj Hq k) by lia. unfold f, t. f_equal. ring.
  - rewrite nth_map_seq by auto. unfold f. f_equal. rewrite <- W. replace (sign * (sign * (t * C j j))) with (sign * sign * (t * C j j)) by ring. rewrite Hs2. ring.
  - intros y (My & Ly & By). cbv beta in Ly. rewrite LL in Ly. destruct (start_best n H C frozen j q sign FM FC Hj Fj Hq Hs2 _ My ltac:(lra)) as (B1 & B2). cbv beta in B1, B2.
    destruct FX as (M1 & L1 & _). assert (B3 := By _ M1 L1). cbv beta in B3. rewrite nth_map_seq in B3 by auto. unfold f in B3. rewrite Rmult_plus_distr_l, W in B3.
    unfold listed. apply map_ext_in. intros k Hk. apply in_seq in Hk. unfold f. fold t in B2. rewrite <- B2; [ring|lra|lia].
Qed.
(** frozen parameters are not displaced, whatever the covariance *)
Lemma warm_start_frozen C frozen q j sign xval k : (k < List.length xval)%nat -> frozen k = true -> nth k (warm_start C frozen q j sign xval) None = Some (nth k xval 0).
Proof. intros Hk F. unfold warm_start. rewrite nth_map_seq by auto. unfold gauss_dx. rewrite F. f_equal. ring. Qed.

Lemma Rmult_le_0_l' a b : 0 <= a -> b <= 0 -> a * b <= 0.
Proof. intros A B. assert (X := Rmult_le_pos a (- b) A ltac:(lra)). lra. Qed.
(** ** the farthest point of the contour is where the profile likelihood has the level *)
Theorem farthest_profile (F : (nat -> R) -> Prop) (L : (nat -> R) -> R) level idx sign x : sign = 1 \/ sign = -1 ->
  (forall y z, (forall i, y i = z i) -> L y = L z) -> (forall y t, F y -> F (along idx y t)) ->
  (forall y, F y -> continuity (fun t => L (along idx y t))) ->
  (forall y, F y -> exists t, sign * y idx <= sign * t /\ level <= L (along idx y t)) ->
  farthest F L level idx sign x -> profile_at F L idx (x idx) level.
Proof.
  intros Hs Ext Cl Ct Out (Fx & Lx & Best). split; [exists x; auto|]. intros y Fy Ey. apply Rnot_lt_le. intros Lt.
  destruct (Out y Fy) as (t & Ht & Lt'). set (g := fun t => L (along idx y t) - level).
  assert (Cg : continuity g) by (unfold g; apply continuity_minus; [apply Ct; auto|apply continuity_const; intros a b; auto]).
  assert (G0 : g (y idx) < 0).
  { unfold g. rewrite (Ext _ y); [lra|]. intros i. unfold along. destruct (Nat.eqb_spec i idx); subst; auto. }
  assert (Gt : 0 <= g t) by (unfold g; lra).
  assert (exists z, sign * y idx <= sign * z /\ g z = 0) as (z & Hz & Gz).
  { destruct Hs as [->| ->].
    - destruct (IVT_cor g (y idx) t Cg ltac:(lra) ltac:(rewrite Rmult_comm; apply Rmult_le_0_l'; lra)) as (z & Hz & Gz). exists z. split; [lra|auto].
    - destruct (IVT_cor g t (y idx) Cg ltac:(lra) ltac:(apply Rmult_le_0_l'; lra)) as (z & Hz & Gz). exists z. split; [lra|auto]. }
  assert (B := Best (along idx y z) (Cl _ _ Fy)). unfold g in Gz. assert (Lz : L (along idx y z) = level) by lra. specialize (B Lz).
  unfold along in B. rewrite Nat.eqb_refl in B. cbv iota in B. assert (z = y idx) by (destruct Hs as [->| ->]; lra). subst z. unfold g in G0. lra.
Qed.

(** ** the table of contours *)
Lemma scan_levels_ok L cov parms frozen opt x p : In p parms -> forall levels, exists t,
  scan_levels (fun p q x' => contour_scan L cov parms frozen p (cl_loss L x) q [-1; 1] None HExact opt x') p levels x = Ok (t, x) /\
  Forall2 (contour_entry L cov parms frozen opt x p) levels t.
Proof.
  intros HI. induction levels as [|cl r (t & E & F)]; [exists []; split; [reflexivity|constructor]|]. cbn [scan_levels].
  destruct (contour_scan_ok L cov parms frozen p (cl_loss L x) (cl * cl) [-1; 1] None HExact opt x HI (or_introl eq_refl)) as (iv & pv & idx & Es & Hi & L1 & L2 & S).
  rewrite Es. cbn [rbind]. rewrite E. cbn [rbind fst snd]. exists (pv :: t). split; auto. constructor; auto.
  destruct pv as [|down [|up [|? ?]]]; try discriminate L2. exists idx, down, up, (nth 0 iv None), (nth 1 iv None). split; auto. split; auto.
  split; [apply (S 0%nat (-1)); auto|apply (S 1%nat 1); auto].
Qed.
Theorem contours_ok L cov parms frozen requested levels opt x : (forall p, In p requested -> In p parms) ->
  exists t, contours L cov parms frozen requested levels opt x = Ok (t, x) /\
    Forall2 (fun p row => Forall2 (contour_entry L cov parms frozen opt x p) levels row) (match requested with [] => parms | _ => requested end) t.
Proof.
  intros HR. unfold contours. cbv zeta. set (ps := match requested with [] => parms | _ => requested end).
  assert (HP : forall p, In p ps -> In p parms) by (unfold ps; destruct requested; auto). clearbody ps. clear HR.
  induction ps as [|p r IH]; [exists []; split; [reflexivity|constructor]|]. cbn [scan_params].
  destruct (scan_levels_ok L cov parms frozen opt x p (HP p (or_introl eq_refl)) levels) as (t1 & E1 & F1). rewrite E1. cbn [rbind fst snd].
  destruct (IH (fun a Ha => HP a (or_intror Ha))) as (t2 & E2 & F2). rewrite E2. cbn [rbind fst snd]. exists (t1 :: t2). split; auto.
Qed.
