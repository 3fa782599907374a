From Coq Require Import Reals List Arith Bool String Permutation Sorted Lia Lra.
From Verif Require Import RBase PyList PyDict ListUtil Order Shape Impacts_Model Init_Proof Ws_Proof Read_Model Read_Spec.
Import ListNotations.
Local Open Scope nat_scope.
Local Open Scope string_scope.

(** ** stored histograms *)
Section Items.
  Variables (parms : list string) (npoi nparams : nat) (noi : list nat).
  Notation rows := (row_labels parms npoi nparams noi "").
  Definition pair_hists (b : string) (h g : result hist) : result (list (string * hist)) := h <- h ;; g <- g ;; Ok [(b, h); ((b ++ "_grouped")%string, g)].
  Definition sym_hists b i l g := pair_hists b (make_hist [("parms", rows); ("impacts", parms)] (List.concat i) (List.concat i)) (make_hist [("parms", rows); ("impacts", l)] (List.concat g) (List.concat g)).
  Definition asym_hists b n i l g := pair_hists b (make_hist [("impacts", n); ("downUpVar", down_up); ("parms", parms)] (flat3 i) (flat3 i)) (make_hist [("impacts", l); ("downUpVar", down_up); ("parms", parms)] (flat3 g) (flat3 g)).
  Definition item_hists (i : item) : result (list (string * hist)) :=
    match i with
    | Prefit x v => h <- make_hist [("parms", parms)] x v ;; Ok [("parms_prefit", h)]
    | Postfit x v => h <- make_hist [("parms", parms)] x v ;; Ok [("parms", h)]
    | Trad i l g => sym_hists "impacts" i l g
    | Glob i l g => sym_hists "global_impacts" i l g
    | GaussGlob i l g => sym_hists "gaussian_global_impacts" i l g
    | NonProf n i l g => asym_hists "nonprofiled_impacts_asym" n i l g
    | TradAsym n i l g => asym_hists "impacts_asym" n i l g
    | GlobAsym n i l g => asym_hists "global_impacts_asym" n i l g
    | Contours n ls c => h <- make_hist [("impacts", n); ("confidence_level", ls); ("downUpVar", down_up); ("parms", parms)] (flat3 (List.concat c)) (flat3 (List.concat c)) ;; Ok [("contour_scan", h)]
    end.
  Definition put_all (hs : list (string * hist)) (d : dict hist) : dict hist := fold_left (fun d kh => dset (fst kh) (snd kh) d) hs d.
  Lemma store_item_hists i d : store_item parms npoi nparams noi i d = (hs <- item_hists i ;; Ok (put_all hs d)).
  Proof.
    destruct i; cbn [store_item item_hists]; unfold add_parms, add_impacts, add_impacts_asym, add_contours, sym_hists, asym_hists, pair_hists;
      repeat match goal with |- context [make_hist ?a ?b ?c] => destruct (make_hist a b c); cbn [rbind]; try reflexivity end.
  Qed.
  Definition base_keys (k : nat) : list string :=
    match k with
    | 0 => ["parms_prefit"] | 1 => ["parms"] | 2 => ["impacts"; "impacts_grouped"] | 3 => ["global_impacts"; "global_impacts_grouped"]
    | 4 => ["gaussian_global_impacts"; "gaussian_global_impacts_grouped"] | 5 => ["nonprofiled_impacts_asym"; "nonprofiled_impacts_asym_grouped"]
    | 6 => ["impacts_asym"; "impacts_asym_grouped"] | 7 => ["global_impacts_asym"; "global_impacts_asym_grouped"] | _ => ["contour_scan"] end.
  Lemma item_keys i hs : item_hists i = Ok hs -> map fst hs = base_keys (kind i).
  Proof.
    destruct i; cbn [item_hists kind base_keys]; unfold sym_hists, asym_hists, pair_hists;
      repeat match goal with |- context [make_hist ?a ?b ?c] => destruct (make_hist a b c); cbn [rbind]; try discriminate end; intros [= <-]; reflexivity.
  Qed.
  Lemma kind_lt i : kind i < 9. Proof. destruct i; cbn; lia. Qed.
  Lemma keys_apart a b k : a < 9 -> b < 9 -> In k (base_keys a) -> In k (base_keys b) -> a = b.
  Proof.
    intros A B I J. do 9 (destruct a as [|a]; [do 9 (destruct b as [|b]; [first [reflexivity | exfalso; cbn in I, J; repeat match goal with H : _ \/ _ |- _ => destruct H | H : False |- _ => contradiction end; subst; discriminate]|]); lia|]). lia.
  Qed.
  Lemma put_all_other hs : forall d k, ~ In k (map fst hs) -> dget k (put_all hs d) = dget k d.
  Proof.
    induction hs as [|(n, h) hs IH]; intros d k N; [reflexivity|]. cbn [put_all fold_left fst snd]. cbn [map fst In] in N. change (fold_left _ hs ?x) with (put_all hs x). rewrite IH by tauto. apply dget_dset_other. tauto.
  Qed.
  Lemma put_all_in hs : forall d k h, NoDup (map fst hs) -> In (k, h) hs -> dget k (put_all hs d) = Some h.
  Proof.
    induction hs as [|(n, g) hs IH]; intros d k h N I; [contradiction|]; destruct I as [I|I]; cbn [map fst] in N; inversion N; subst; cbn [put_all fold_left fst snd]; change (fold_left _ hs ?x) with (put_all hs x).
    - injection I as -> ->. rewrite put_all_other by auto. apply dget_dset_same.
    - apply IH; auto.
  Qed.
  Lemma base_NoDup k : NoDup (base_keys k).
  Proof. do 9 (destruct k as [|k]; [cbn; repeat constructor; cbn; intuition discriminate|]). cbn. repeat constructor. cbn. tauto. Qed.
  Lemma stored is : forall d d' i, store_all parms npoi nparams noi is d = Ok d' -> fit_items is -> In i is ->
    exists hs, item_hists i = Ok hs /\ forall k h, In (k, h) hs -> dget k d' = Some h.
  Proof.
    assert (O : forall is d d' k, store_all parms npoi nparams noi is d = Ok d' -> (forall i, In i is -> ~ In k (base_keys (kind i))) -> dget k d' = dget k d).
    { induction is0 as [|i is0 IH]; intros d d' k E N; cbn [store_all] in E; [injection E as ->; reflexivity|]. rewrite store_item_hists in E. destruct (item_hists i) as [hs|] eqn:H; cbn [rbind] in E; [|discriminate].
      rewrite (IH _ _ k E) by (intros j J; apply N; right; auto). apply put_all_other. rewrite (item_keys i hs H). apply N. left. auto. }
    induction is as [|i is IH]; intros d d' j E F I; [contradiction|]. cbn [store_all] in E. rewrite store_item_hists in E. destruct (item_hists i) as [hs|] eqn:H; cbn [rbind] in E; [|discriminate].
    unfold fit_items in *. cbn [map] in F. inversion F; subst. destruct I as [<-|I]; [|eapply IH; eauto].
    exists hs. split; [auto|]. intros k h K. rewrite (O _ _ _ k E).
    - apply put_all_in; [rewrite (item_keys i hs H); apply base_NoDup|auto].
    - intros j J C. apply H2. apply in_map_iff. exists j. split; [|auto]. apply (keys_apart _ _ k); [apply kind_lt|apply kind_lt|auto|]. rewrite <- (item_keys i hs H). apply (in_map fst) in K. exact K.
  Qed.
  (** only these names are ever used *)
  Lemma not_stored is : forall d d' k, store_all parms npoi nparams noi is d = Ok d' -> (forall i, In i is -> ~ In k (base_keys (kind i))) -> dget k d' = dget k d.
  Proof.
    induction is as [|i is IH]; intros d d' k E N; cbn [store_all] in E; [injection E as ->; reflexivity|]. rewrite store_item_hists in E. destruct (item_hists i) as [hs|] eqn:H; cbn [rbind] in E; [|discriminate].
    rewrite (IH _ _ k E) by (intros j J; apply N; right; auto). apply put_all_other. rewrite (item_keys i hs H). apply N. left. auto.
  Qed.
End Items.
Lemma make_hist_inv axes a b h : make_hist axes a b = Ok h -> h = mkH axes (fun i => nth (ravel (shape_of axes) i) a 0%R) (fun i => nth (ravel (shape_of axes) i) b 0%R) /\ List.length a = prodn (shape_of axes) /\ List.length b = prodn (shape_of axes).
Proof. unfold make_hist. destruct (Nat.eqb_spec (List.length a) (prodn (shape_of axes))), (Nat.eqb_spec (List.length b) (prodn (shape_of axes))); cbn; try discriminate. intros [= <-]. auto. Qed.
Lemma no_contour_scans parms npoi nparams noi is d : store_all parms npoi nparams noi is [] = Ok d -> dget "contour_scans" d = None.
Proof.
  intros E. rewrite (not_stored _ _ _ _ _ _ _ "contour_scans" E); [reflexivity|]. intros i _ C. pose proof (kind_lt i) as L. revert C. generalize dependent (kind i). intros k L C.
  do 9 (destruct k as [|k]; [cbn in C; intuition discriminate|]). lia.
Qed.

(** ** impacts *)
Lemma nth_rect L (t : list (list R)) r : rect L t -> (r < List.length t \/ L = 0) -> List.length (nth r t []) = L.
Proof.
  intros H [K | ->]; [eapply (proj1 (Forall_forall _ _) H); apply nth_In; auto|]. destruct (Nat.lt_ge_cases r (List.length t)) as [K|K]; [apply (proj1 (Forall_forall _ _) H); apply nth_In; auto|rewrite nth_overflow by auto; reflexivity].
Qed.
Lemma map_nth_seq {A} (d : A) l : map (fun i => nth i l d) (seq 0 (List.length l)) = l.
Proof. induction l as [|x l IH]; [reflexivity|]. cbn [List.length seq map nth]. f_equal. rewrite <- seq_shift, map_map. exact IH. Qed.
Section Read.
  Variables (parms : list string) (npoi nparams : nat) (noi : list nat) (is : list item) (d : dict hist).
  Hypothesis st : store_all parms npoi nparams noi is [] = Ok d.
  Hypothesis one : fit_items is.
  Notation rows := (row_labels parms npoi nparams noi "").
  Lemma get_item i : In i is -> exists hs, item_hists parms npoi nparams noi i = Ok hs /\ forall k h, In (k, h) hs -> dget k d = Some h.
  Proof. apply (stored _ _ _ _ _ _ _ _ st one). Qed.
  Lemma get_parms (prefit : bool) x v : In (if prefit then Prefit x v else Postfit x v) is ->
    dget (if prefit then "parms_prefit" else "parms") d = Some (mkH [("parms", parms)] (fun i => nth (ravel [List.length parms] i) x 0%R) (fun i => nth (ravel [List.length parms] i) v 0%R)) /\ List.length x = List.length parms /\ List.length v = List.length parms.
  Proof.
    intros I. destruct (get_item _ I) as (hs & E & G). destruct prefit; cbn [item_hists] in E; destruct (make_hist _ _ _) as [h|] eqn:H; cbn [rbind] in E; try discriminate; injection E as <-; apply make_hist_inv in H; destruct H as (-> & L1 & L2); cbn [shape_of map snd] in *; rewrite prodn_cons in L1, L2; cbn [prodn fold_right] in L1, L2; (split; [|lia]).
    - apply G. left. reflexivity.
    - apply G. left. reflexivity.
  Qed.
  Lemma get_sym it typ grouped vals labels : In it is -> sym_table parms typ grouped it = Some (vals, labels) ->
    dget (impact_name typ false grouped) d = Some (mkH [("parms", rows); ("impacts", labels)] (fun i => nth (ravel [List.length rows; List.length labels] i) (List.concat vals) 0%R) (fun i => nth (ravel [List.length rows; List.length labels] i) (List.concat vals) 0%R)) /\
    List.length (List.concat vals) = List.length rows * List.length labels.
  Proof.
    intros I T. destruct (get_item it I) as (hs & E & G). unfold sym_table in T.
    assert (Q : forall b i l g, item_hists parms npoi nparams noi it = sym_hists parms npoi nparams noi b i l g -> impact_name typ false grouped = (b ++ (if grouped then "_grouped" else ""))%string -> (if grouped then (g, l) else (i, parms)) = (vals, labels) ->
      dget (impact_name typ false grouped) d = Some (mkH [("parms", rows); ("impacts", labels)] (fun i => nth (ravel [List.length rows; List.length labels] i) (List.concat vals) 0%R) (fun i => nth (ravel [List.length rows; List.length labels] i) (List.concat vals) 0%R)) /\
      List.length (List.concat vals) = List.length rows * List.length labels).
    { intros b i l g A B C. rewrite A in E. unfold sym_hists, pair_hists in E. destruct (make_hist _ (List.concat i) _) as [h|] eqn:H1; cbn [rbind] in E; [|discriminate]. destruct (make_hist _ (List.concat g) _) as [h'|] eqn:H2; cbn [rbind] in E; [|discriminate]. injection E as <-.
      apply make_hist_inv in H1, H2. destruct H1 as (-> & L1 & _), H2 as (-> & L2 & _). cbn [shape_of map snd] in *. rewrite !prodn_cons in L1, L2. cbn [prodn fold_right] in L1, L2. rewrite B. destruct grouped; injection C as <- <-.
      - split; [|lia]. apply G. right. left. reflexivity.
      - split; [|lia]. apply G. left. f_equal. clear. induction b; cbn; congruence. }
    destruct it; try discriminate T; cbv zeta in T.
    - destruct (String.eqb_spec typ "traditional") as [->|]; [|discriminate]. eapply Q; [reflexivity|reflexivity|congruence].
    - destruct (String.eqb_spec typ "global") as [->|]; [|discriminate]. eapply Q; [reflexivity|reflexivity|congruence].
    - destruct (String.eqb_spec typ "gaussian_global") as [->|]; [|discriminate]. eapply Q; [reflexivity|reflexivity|congruence].
  Qed.
  Lemma get_asym it typ grouped vals labels : In it is -> asym_table typ grouped it = Some (vals, labels) ->
    dget (impact_name typ true grouped) d = Some (mkH [("impacts", labels); ("downUpVar", down_up); ("parms", parms)] (fun i => nth (ravel [List.length labels; 2; List.length parms] i) (flat3 vals) 0%R) (fun i => nth (ravel [List.length labels; 2; List.length parms] i) (flat3 vals) 0%R)) /\
    List.length (flat3 vals) = List.length labels * (2 * List.length parms) /\ (typ = "traditional" -> smem "impacts_asym" (dkeys d) = true).
  Proof.
    intros I T. destruct (get_item it I) as (hs & E & G). unfold asym_table in T.
    assert (Q : forall b n i l g, item_hists parms npoi nparams noi it = asym_hists parms b n i l g -> impact_name typ true grouped = (b ++ (if grouped then "_grouped" else ""))%string -> (typ = "traditional" -> b = "impacts_asym") -> (if grouped then (g, l) else (i, n)) = (vals, labels) ->
      dget (impact_name typ true grouped) d = Some (mkH [("impacts", labels); ("downUpVar", down_up); ("parms", parms)] (fun i => nth (ravel [List.length labels; 2; List.length parms] i) (flat3 vals) 0%R) (fun i => nth (ravel [List.length labels; 2; List.length parms] i) (flat3 vals) 0%R)) /\
      List.length (flat3 vals) = List.length labels * (2 * List.length parms) /\ (typ = "traditional" -> smem "impacts_asym" (dkeys d) = true)).
    { intros b n i l g A B TR C. rewrite A in E. unfold asym_hists, pair_hists in E. destruct (make_hist _ (flat3 i) _) as [h|] eqn:H1; cbn [rbind] in E; [|discriminate]. destruct (make_hist _ (flat3 g) _) as [h'|] eqn:H2; cbn [rbind] in E; [|discriminate]. injection E as <-.
      apply make_hist_inv in H1, H2. destruct H1 as (-> & L1 & _), H2 as (-> & L2 & _). cbn [shape_of map snd] in *. rewrite !prodn_cons in L1, L2. cbn [prodn fold_right down_up List.length] in L1, L2. rewrite B.
      assert (S : typ = "traditional" -> smem "impacts_asym" (dkeys d) = true). { intros K. apply smem_In. rewrite <- (TR K). assert (X := G b _ (or_introl eq_refl)). apply dget_In in X. apply (in_map fst) in X. exact X. }
      destruct grouped; injection C as <- <-.
      - split; [|split; [lia|exact S]]. apply G. right. left. reflexivity.
      - split; [|split; [lia|exact S]]. apply G. left. f_equal. clear. induction b; cbn; congruence. }
    destruct it; try discriminate T; cbv zeta in T.
    - destruct (String.eqb_spec typ "nonprofiled") as [->|]; [|discriminate]. eapply Q; [reflexivity|reflexivity|discriminate|congruence].
    - destruct (String.eqb_spec typ "traditional") as [->|]; [|discriminate]. eapply Q; [reflexivity|reflexivity|reflexivity|congruence].
    - destruct (String.eqb_spec typ "global") as [->|]; [|discriminate]. eapply Q; [reflexivity|reflexivity|discriminate|congruence].
  Qed.
  Lemma total_read (x v : list R) poi p : In (Postfit x v) is -> NoDup parms -> nth_error parms p = Some poi ->
    (q <- lookup "parms" d ;; t <- select "parms" poi q ;; Ok (sqrt (h_var t []))) = Ok (sqrt (nth p v 0%R)).
  Proof.
    intros I N P. destruct (get_parms false x v I) as (E & _ & _). unfold lookup. rewrite E. cbn [rbind]. unfold select, axis. cbn [h_axes map fst index_of]. cbn. rewrite (index_of_NoDup _ N _ _ P). cbn. rewrite Nat.mul_1_r, Nat.add_0_r. reflexivity.
  Qed.
  Lemma read_sym it typ grouped vals labels poi r : In it is -> sym_table parms typ grouped it = Some (vals, labels) -> rect (List.length labels) vals -> NoDup rows -> nth_error rows r = Some poi ->
    read_impacts d poi grouped typ false false = Ok (A1 (nth r vals []), labels).
  Proof.
    intros I T Rc N P. destruct (get_sym it typ grouped vals labels I T) as (E & L). unfold read_impacts. cbn [andb negb]. unfold lookup. rewrite E. cbn [rbind]. unfold select, axis. cbn [h_axes map fst index_of String.eqb]. cbn.
    rewrite (index_of_NoDup _ N _ _ P). cbn. unfold values, arr_of. cbn. f_equal. f_equal. f_equal.
    assert (K : r < List.length rows) by (apply nth_error_Some; congruence). rewrite (concat_len _ _ Rc) in L.
    assert (RL : r < List.length vals \/ List.length labels = 0). { destruct (Nat.eq_dec (List.length labels) 0); [auto|left]. apply Nat.mul_cancel_r in L; lia. }
    rewrite <- (map_nth_seq 0%R (nth r vals [])), (nth_rect _ _ _ Rc RL). apply map_ext_in. intros i Hi. apply in_seq in Hi. rewrite !Nat.mul_1_r, !Nat.add_0_r.
    apply concat_nth; [exact Rc| |lia]. destruct RL; lia.
  Qed.
  Lemma read_total il (x v : list R) poi p grouped typ asym : In (Postfit x v) is -> NoDup parms -> nth_error parms p = Some poi -> read_impacts d poi grouped typ false asym = Ok il ->
    read_impacts d poi grouped typ true asym = Ok (append (fst il) (sqrt (nth p v 0%R)), (snd il ++ ["Total"])%list).
  Proof.
    intros I N P. unfold read_impacts. destruct (if asym && _ && _ then _ else _) as [h|]; cbn [rbind]; [|discriminate]. destruct (select "parms" poi h) as [h'|]; cbn [rbind]; [|discriminate]. destruct (values h') as [a|]; cbn [rbind]; [|discriminate]. destruct (axis "impacts" h') as [b|]; cbn [rbind]; [|discriminate]. intros [= <-].
    pose proof (total_read x v poi p I N P) as Q. destruct (lookup "parms" d) as [q|]; cbn [rbind] in *; [|discriminate]. destruct (select "parms" poi q) as [t|]; cbn [rbind] in *; [|discriminate]. injection Q as ->. reflexivity.
  Qed.
  Lemma flat3_at n t i s p : rect3 n t -> i < List.length t -> s < 2 -> p < n -> nth (i * (2 * n) + (s * n + p)) (flat3 t) 0%R = at3 t i s p.
  Proof.
    intros H Hi Hs Hp. unfold flat3, at3. assert (A : rect n (List.concat t)). { apply Forall_forall. intros r Ir. apply in_concat in Ir. destruct Ir as (b & Ib & Ir). pose proof (proj1 (Forall_forall _ _) H b Ib) as (_ & Q). apply (proj1 (Forall_forall _ _) Q r Ir). }
    assert (B : Forall (fun b : list (list R) => List.length b = 2) t) by (eapply Forall_impl; [|exact H]; intros b (Q & _); exact Q).
    replace (i * (2 * n) + (s * n + p)) with ((i * 2 + s) * n + p) by lia. rewrite (concat_nth 0%R n (List.concat t) (i * 2 + s) p A); [|rewrite (concat_len 2 t B); lia|exact Hp]. rewrite (concat_nth [] 2 t i s B Hi Hs). reflexivity.
  Qed.
  Lemma read_asym it typ grouped vals labels poi p : In it is -> asym_table typ grouped it = Some (vals, labels) -> rect3 (List.length parms) vals -> NoDup parms -> nth_error parms p = Some poi ->
    read_impacts d poi grouped typ false true = Ok (A2 (map (fun i => [at3 vals i 0 p; at3 vals i 1 p]) (seq 0 (List.length labels))), labels).
  Proof.
    intros I T Rc N P. destruct (get_asym it typ grouped vals labels I T) as (E & L & TR). unfold read_impacts. cbn [andb negb].
    assert (C : (if String.eqb typ "traditional" && negb (smem "impacts_asym" (dkeys d)) then s <- lookup "contour_scans" d ;; select "confidence_level" "1.0" s else lookup (impact_name typ true grouped) d) = lookup (impact_name typ true grouped) d).
    { destruct (String.eqb_spec typ "traditional") as [Q|Q]; [rewrite (TR Q)|]; reflexivity. }
    rewrite C. unfold lookup. rewrite E. cbn [rbind]. unfold select, axis. cbn [h_axes map fst index_of String.eqb]. cbn.
    rewrite (index_of_NoDup _ N _ _ P). cbn. unfold values, arr_of. cbn. f_equal. f_equal. f_equal.
    assert (K : p < List.length parms) by (apply nth_error_Some; congruence).
    assert (LV : List.length vals = List.length labels).
    { unfold flat3 in L. assert (A : rect (List.length parms) (List.concat vals)). { apply Forall_forall. intros r Ir. apply in_concat in Ir. destruct Ir as (b & Ib & Ir). pose proof (proj1 (Forall_forall _ _) Rc b Ib) as (_ & Q). apply (proj1 (Forall_forall _ _) Q r Ir). }
      assert (B : Forall (fun b : list (list R) => List.length b = 2) vals) by (eapply Forall_impl; [|exact Rc]; intros b (Q & _); exact Q).
      rewrite (concat_len _ _ A), (concat_len 2 vals B) in L. rewrite <- Nat.mul_assoc in L. apply Nat.mul_cancel_r in L; lia. }
    apply map_ext_in. intros i Hi. apply in_seq in Hi. rewrite <- !(flat3_at (List.length parms) vals i) by (auto; lia). f_equal; [|f_equal]; f_equal; lia.
  Qed.
End Read.
