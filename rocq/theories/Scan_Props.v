(** Parameter selection, freezing and likelihood scans (C15-C19). *)
From Coq Require Import List Arith Bool String ZArith Reals Lra Lia.
From Verif Require Import PyList ListUtil PyDict Freeze_Model Freeze_Spec Freeze_Proof Scan_Model Scan_Spiral Scan_Proof.
Import ListNotations.
Local Open Scope string_scope.
Local Open Scope list_scope.

(** ** C15 *)
Theorem C15_selection : forall rx exprs names,
  (valid rx exprs -> exists r, match_params rx exprs names = Ok r) /\
  forall r, match_params rx exprs names = Ok r ->
    valid rx exprs /\ NoDup r /\ subseq r names /\ forall p, In p r <-> In p names /\ selects rx exprs p.
Proof. exact match_params_spec. Qed.
Print Assumptions C15_selection.
(** a small engine: "(" does not compile, "pdf.*" matches by prefix, anything else literally *)
Definition rx_ex : regex := fun e =>
  if String.eqb e "(" then None
  else if String.eqb e "pdf.*" then Some (fun s => String.prefix "pdf" s) else Some (String.eqb e).
Example C15_example :
  match_params rx_ex ["pdf.*"; "mu"; "pdf1"] ["mu"; "lumi"; "pdf2"; "pdf1"; "mu2"; "pdf2"] = Ok ["mu"; "pdf2"; "pdf1"].
Proof. reflexivity. Qed.
(** two lists of expressions selecting the same names give the same result *)
Lemma match_loop_ext e1 e2 f1 f2 names : (forall s, (smem s e1 || existsb (fun f => f s) f1)%bool = (smem s e2 || existsb (fun f => f s) f2)%bool) ->
  forall m s, match_loop e1 f1 names m s = match_loop e2 f2 names m s.
Proof.
  intros H. induction names as [|x r IH]; intros m s; cbn [match_loop]; auto. rewrite H.
  destruct (smem x e2 || existsb (fun f => f x) f2)%bool; auto. destruct (smem x s); auto.
Qed.
Theorem C15_expression_order_irrelevant : forall rx e1 e2 names r1 r2,
  (forall p, selects rx e1 p <-> selects rx e2 p) ->
  match_params rx e1 names = Ok r1 -> match_params rx e2 names = Ok r2 -> r1 = r2.
Proof.
  intros rx e1 e2 names r1 r2 H. unfold match_params.
  destruct (compile_all rx e1) as [f1|] eqn:C1; simpl; [|discriminate].
  destruct (compile_all rx e2) as [f2|] eqn:C2; simpl; [|discriminate].
  intros A B. injection A as <-. injection B as <-. apply match_loop_ext. intros s.
  apply eq_true_iff_eq. rewrite (compile_match rx e1 f1 s C1), (compile_match rx e2 f2 s C2). auto.
Qed.
Print Assumptions C15_expression_order_irrelevant.
(** an exact name that is not a valid regular expression cannot be selected: re.compile raises first *)
Theorem C15_exact_name_refuted : exists rx names exprs p,
  In p names /\ In p exprs /\ match_params rx exprs names = Raise GenericException.
Proof. exists rx_ex, ["mu"; "("], ["("], "(". simpl. auto. Qed.
Print Assumptions C15_exact_name_refuted.

(** ** C16 *)
Theorem C16_freeze_history : forall rx parms ops i p, nth_error parms i = Some p ->
  let st := frun rx parms (finit parms) ops in
  (nth_error (fz_mask st) i = Some true <-> is_frozen rx ops p) /\
  (In i (fz_idx st) <-> is_frozen rx ops p) /\ (In i (fz_float st) <-> ~ is_frozen rx ops p).
Proof. exact frun_mask. Qed.
Print Assumptions C16_freeze_history.
Theorem C16_mask_length : forall rx parms ops,
  List.length (fz_mask (frun rx parms (finit parms) ops)) = List.length parms.
Proof. exact mask_length. Qed.
Print Assumptions C16_mask_length.
Theorem C16_idempotent : forall rx parms st e st1 st2,
  freeze_params rx parms st e = Ok st1 -> freeze_params rx parms st1 e = Ok st2 ->
  fz_mask st2 = fz_mask st1 /\ fz_idx st2 = fz_idx st1 /\ fz_float st2 = fz_float st1.
Proof.
  intros rx parms st e st1 st2. unfold freeze_params. destruct (match_params rx e parms) as [m|] eqn:M; simpl; [|discriminate].
  intros A B. injection A as <-. injection B as <-. simpl.
  assert (E : map (fun p => smem p ((fz_list st ++ m) ++ m)) parms = map (fun p => smem p (fz_list st ++ m)) parms).
  { apply map_ext. intros p. apply eq_true_iff_eq. rewrite !smem_In, !in_app_iff. tauto. }
  rewrite E. auto.
Qed.
Print Assumptions C16_idempotent.
(** a parameter is listed exactly once as frozen or floating, in increasing order *)
Lemma where_true_sorted m : forall s, let l := map fst (filter (fun p => snd p) (combine (seq s (List.length m)) m)) in
  NoDup l /\ Forall (fun i => s <= i) l.
Proof.
  induction m as [|b m IH]; intros s; simpl; [split; constructor|].
  destruct (IH (S s)) as [A B]. assert (B' : Forall (fun i => s <= i) (map fst (filter (fun p => snd p) (combine (seq (S s) (List.length m)) m)))).
  { eapply Forall_impl; [|exact B]. simpl. intros; lia. }
  destruct b; simpl; split; auto. constructor; auto. intros H. rewrite Forall_forall in B. apply B in H. simpl in H. lia.
Qed.
Theorem C16_partition : forall rx parms ops i, i < List.length parms ->
  let st := frun rx parms (finit parms) ops in
  NoDup (fz_idx st) /\ NoDup (fz_float st) /\ (In i (fz_idx st) \/ In i (fz_float st)) /\
  ~ (In i (fz_idx st) /\ In i (fz_float st)).
Proof.
  intros rx parms ops i H st. destruct (coherent_run rx parms ops _ (coherent_init parms)) as [E _]. fold st in E.
  split. { rewrite E. apply (where_true_sorted _ 0). } split. { rewrite E. apply (where_true_sorted _ 0). }
  rewrite E. cbn [fz_idx fz_float update_frozen]. rewrite !where_true_spec, !nth_error_map'.
  destruct (nth_error parms i) as [p|] eqn:P; [|apply nth_error_None in P; lia]. simpl.
  destruct (smem p (fz_list st)); simpl; intuition discriminate.
Qed.
Print Assumptions C16_partition.
Example C16_example :
  let st := frun rx_ex ["mu"; "lumi"; "pdf1"; "pdf2"] (finit ["mu"; "lumi"; "pdf1"; "pdf2"])
    [Freeze ["pdf.*"; "mu"]; Defreeze ["pdf1"]; Freeze ["mu"]] in
  fz_mask st = [true; false; false; true] /\ fz_idx st = [0; 3] /\ fz_float st = [1; 2].
Proof. repeat split. Qed.

(** ** C17 *)
Section C17.
  Variables (rx : regex) (parms : list string).
  Variable fit : nat -> list R -> freeze_st -> list R.
  Variable nll : list R -> R.
  Hypothesis fit_len : forall k x fz, List.length (fit k x fz) = List.length x.
  Theorem C17_scan_restores' param range points sigma st ops out vals dn idx :
    sc_fz st = frun rx parms (finit parms) ops ->
    (forall p, In p parms -> selects rx [param] p -> ~ is_frozen rx ops p) ->
    index_of param parms = Some idx -> idx < List.length (sc_x st) ->
    nll_scan rx parms fit nll param range points sigma st = Ok (out, vals, dn) ->
    sc_x out = sc_x st /\ sc_fz out = sc_fz st.
  Proof.
    intros F NF I L E. destruct (match_params rx [param] parms) as [m|] eqn:M.
    2:{ unfold nll_scan, freeze_params in E. rewrite M in E. discriminate. }
    destruct (nll_scan_spec rx parms fit nll fit_len param range points sigma st idx m M I L)
      as (st' & v & d & E' & _ & _ & X & Fz & (l & U) & _).
    rewrite E in E'. injection E' as <- <- <-. split; auto.
    destruct (coherent_run rx parms ops _ (coherent_init parms)) as [C1 C2]. rewrite <- F in C1, C2.
    rewrite U in *. cbn [fz_list update_frozen] in Fz. subst l. rewrite C1. f_equal.
    apply match_params_spec in M. destruct M as (_ & _ & _ & M).
    apply filter_all. intros p Hp Hm. apply M in Hm. destruct Hm as [P S]. apply (NF p P S).
    apply (frun_frozen rx parms); auto. rewrite <- F. auto.
  Qed.
  Theorem C17_scan2D_restores' p0 p1 range points prefit s0 s1 fuel st ops out xs ys g i0 i1 :
    sc_fz st = frun rx parms (finit parms) ops ->
    (forall p, In p parms -> selects rx [p0; p1] p -> ~ is_frozen rx ops p) ->
    index_of p0 parms = Some i0 -> index_of p1 parms = Some i1 ->
    i0 < List.length (sc_x st) -> i1 < List.length (sc_x st) -> 1 <= points -> points * points <= fuel ->
    nll_scan2D rx parms fit nll p0 p1 range points prefit s0 s1 fuel st = Some (Ok (out, xs, ys, g)) ->
    sc_x out = sc_x st /\ sc_fz out = sc_fz st.
  Proof.
    intros F NF I0 I1 L0 L1 P FU E. destruct (match_params rx [p0; p1] parms) as [m|] eqn:M.
    2:{ unfold nll_scan2D, freeze_params in E. rewrite M in E. discriminate. }
    destruct (nll_scan2D_spec rx parms fit nll fit_len p0 p1 range points prefit s0 s1 fuel st i0 i1 m M I0 I1 L0 L1 P FU)
      as (st' & v & d & g' & E' & _ & _ & X & Fz & (l & U) & _).
    rewrite E in E'. injection E' as <- <- <- <-. split; auto.
    destruct (coherent_run rx parms ops _ (coherent_init parms)) as [C1 C2]. rewrite <- F in C1, C2.
    rewrite U in *. cbn [fz_list update_frozen] in Fz. subst l. rewrite C1. f_equal.
    apply match_params_spec in M. destruct M as (_ & _ & _ & M).
    apply filter_all. intros p Hp Hm. apply M in Hm. destruct Hm as [Q S]. apply (NF p Q S).
    apply (frun_frozen rx parms); auto. rewrite <- F. auto.
  Qed.
End C17.
Theorem C17_scan_restores : forall rx parms fit nll param range points sigma st ops out vals dn idx,
  (forall k x fz, List.length (fit k x fz) = List.length x) ->
  sc_fz st = frun rx parms (finit parms) ops ->
  (forall p, In p parms -> selects rx [param] p -> ~ is_frozen rx ops p) ->
  index_of param parms = Some idx -> idx < List.length (sc_x st) ->
  nll_scan rx parms fit nll param range points sigma st = Ok (out, vals, dn) ->
  sc_x out = sc_x st /\ sc_fz out = sc_fz st.
Proof. intros; eapply C17_scan_restores'; eauto. Qed.
Print Assumptions C17_scan_restores.
Theorem C17_scan2D_restores : forall rx parms fit nll p0 p1 range points prefit s0 s1 fuel st ops out xs ys g i0 i1,
  (forall k x fz, List.length (fit k x fz) = List.length x) ->
  sc_fz st = frun rx parms (finit parms) ops ->
  (forall p, In p parms -> selects rx [p0; p1] p -> ~ is_frozen rx ops p) ->
  index_of p0 parms = Some i0 -> index_of p1 parms = Some i1 ->
  i0 < List.length (sc_x st) -> i1 < List.length (sc_x st) -> 1 <= points -> points * points <= fuel ->
  nll_scan2D rx parms fit nll p0 p1 range points prefit s0 s1 fuel st = Some (Ok (out, xs, ys, g)) ->
  sc_x out = sc_x st /\ sc_fz out = sc_fz st.
Proof. intros; eapply C17_scan2D_restores'; eauto. Qed.
Print Assumptions C17_scan2D_restores.

(** a parameter frozen by the user is released by scanning it *)
Definition ex_parms := ["mu"; "lumi"; "pdf1"].
Definition ex_st (ops : list fop) : scan_st := mkSc [1; 0; 0]%R (frun rx_ex ex_parms (finit ex_parms) ops) 0.
Definition ex_fit (k : nat) (x : list R) (fz : freeze_st) : list R := map (fun v => (v + 1)%R) x.
Lemma ex_fit_len : forall k x fz, List.length (ex_fit k x fz) = List.length x.
Proof. intros. apply map_length. Qed.
Theorem C17_user_frozen_refuted : exists rx parms fit nll param range points sigma st out vals dn,
  (forall k x fz, List.length (fit k x fz) = List.length x) /\
  nll_scan rx parms fit nll param range points sigma st = Ok (out, vals, dn) /\
  sc_fz st = frun rx parms (finit parms) [Freeze [param]] /\
  nth_error (fz_mask (sc_fz st)) 0 = Some true /\ nth_error (fz_mask (sc_fz out)) 0 = Some false.
Proof.
  destruct (nll_scan_spec rx_ex ex_parms ex_fit (fun _ => 0%R) ex_fit_len "mu" 2 3 1 (ex_st [Freeze ["mu"]]) 0 ["mu"])
    as (out & vals & dn & E & _ & _ & _ & F & (l & U) & _); [reflexivity|reflexivity|simpl; lia|].
  exists rx_ex, ex_parms, ex_fit, (fun _ => 0%R), "mu", 2%R, 3, 1%R, (ex_st [Freeze ["mu"]]), out, vals, dn.
  split; [exact ex_fit_len|]. split; [exact E|]. split; [reflexivity|]. split; [reflexivity|].
  rewrite U in F |- *. simpl in F. subst l. reflexivity.
Qed.
Print Assumptions C17_user_frozen_refuted.
(** non-vacuous: the minimiser of the example moves every parameter *)
Example C17_example : exists out vals dn,
  nll_scan rx_ex ex_parms ex_fit (fun x => nth 0 x 0%R) "mu" 2 5 1 (ex_st [Freeze ["pdf.*"]]) = Ok (out, vals, dn) /\
  sc_x out = [1; 0; 0]%R /\ fz_mask (sc_fz out) = [false; false; true].
Proof.
  destruct (nll_scan_spec rx_ex ex_parms ex_fit (fun x => nth 0 x 0%R) ex_fit_len "mu" 2 5 1 (ex_st [Freeze ["pdf.*"]]) 0 ["mu"])
    as (out & vals & dn & E & _ & _ & X & F & (l & U) & _); [reflexivity|reflexivity|simpl; lia|].
  exists out, vals, dn. split; auto. split; auto. rewrite U in F |- *. simpl in F. subst l. reflexivity.
Qed.

(** ** C18 *)
Theorem C18_grid : forall rx parms fit nll param range points sigma st out vals dn idx,
  (forall k x fz, List.length (fit k x fz) = List.length x) ->
  index_of param parms = Some idx -> idx < List.length (sc_x st) -> 2 <= points -> (0 < range)%R -> (0 < sigma)%R ->
  nll_scan rx parms fit nll param range points sigma st = Ok (out, vals, dn) ->
  let h := points / 2 in
  let x0 := nth idx (sc_x st) 0%R in
  List.length vals = 2 * h + 1 /\ List.length dn = 2 * h + 1 /\
  nth h vals 0%R = x0 /\ nth h dn Unset = Val 0 /\
  (forall i, i <= h -> (nth (h + i) vals 0 - x0 = x0 - nth (h - i) vals 0)%R) /\
  (forall k, k < 2 * h -> (nth k vals 0 < nth (S k) vals 0)%R) /\
  (nth 0 vals 0 = x0 - range * sigma)%R /\ (nth (2 * h) vals 0 = x0 + range * sigma)%R /\
  (forall k, k < 2 * h -> (nth (S k) vals 0 - nth k vals 0 = range * sigma / INR h)%R) /\
  (forall k, k < 2 * h + 1 -> nth k dn Unset <> Unset).
Proof.
  intros rx parms fit nll param range points sigma st out vals dn idx FL I L P RP SP E.
  destruct (match_params rx [param] parms) as [m|] eqn:M.
  2:{ unfold nll_scan, freeze_params in E. rewrite M in E. discriminate. }
  destruct (nll_scan_spec rx parms fit nll FL param range points sigma st idx m M I L)
    as (st' & v & d & E' & LV & LD & _ & _ & _ & C1 & C2 & V & S).
  rewrite E in E'. injection E' as <- <- <-. cbv zeta. set (h := points / 2) in *. set (x0 := nth idx (sc_x st) 0%R) in *.
  assert (H : 1 <= h) by (apply Nat.div_le_lower_bound; lia).
  assert (HP : (0 < INR h)%R) by (apply lt_0_INR; lia).
  assert (A : forall k, k < 2 * h + 1 -> (nth k vals 0 = x0 + (INR k - INR h) * (range / INR h) * sigma)%R).
  { intros k K. destruct (lt_eq_lt_dec k h) as [[LT|EQ]|GT].
    - destruct (V (h - k)) as [V1 _]; [lia|]. replace (h - (h - k)) with k in V1 by lia. rewrite V1, minus_INR by lia. ring.
    - subst k. rewrite C1. ring.
    - destruct (V (k - h)) as [_ V1]; [lia|]. replace (h + (k - h)) with k in V1 by lia. rewrite V1, minus_INR by lia. ring. }
  split; auto. split; auto. split; auto. split; auto.
  split. { intros i Hi. rewrite !A by lia. rewrite plus_INR, minus_INR by lia. ring. }
  assert (ST : forall k, k < 2 * h -> (nth (Datatypes.S k) vals 0 - nth k vals 0 = range * sigma / INR h)%R).
  { intros k K. rewrite !A by lia. rewrite S_INR. field. lra. }
  split.
  { intros k K. specialize (ST k K). assert (0 < range * sigma / INR h)%R; [|lra].
    apply Rdiv_lt_0_compat; auto. apply Rmult_lt_0_compat; auto. }
  split. { rewrite A by lia. simpl (INR 0). field. lra. }
  split. { rewrite A by lia. rewrite mult_INR. simpl (INR 2). field. lra. }
  split; auto.
  intros k K. destruct (Nat.eq_dec k h) as [->|N]. { rewrite C2. discriminate. }
  destruct (S k K N) as (j & x1 & _ & _ & ->). discriminate.
Qed.
Print Assumptions C18_grid.
(** a minimiser that keeps frozen parameters makes every point lie on the grid *)
Theorem C18_points_profile_the_parameter : forall rx parms fit nll param range points sigma st out vals dn idx,
  (forall k x fz, List.length (fit k x fz) = List.length x) ->
  (forall k x fz i, In i (fz_idx fz) -> nth i (fit k x fz) 0%R = nth i x 0%R) ->
  index_of param parms = Some idx -> idx < List.length (sc_x st) ->
  nll_scan rx parms fit nll param range points sigma st = Ok (out, vals, dn) ->
  forall k, k < List.length vals -> exists y, nth idx y 0%R = nth k vals 0%R /\ nth k dn Unset = Val (nll y - nll (sc_x st)).
Proof.
  intros rx parms fit nll param range points sigma st out vals dn idx FL FF I L E k K.
  destruct (match_params rx [param] parms) as [m|] eqn:M.
  2:{ unfold nll_scan, freeze_params in E. rewrite M in E. discriminate. }
  destruct (nll_scan_spec rx parms fit nll FL param range points sigma st idx m M I L)
    as (st' & v & d & E' & LV & LD & _ & _ & _ & C1 & C2 & V & S).
  rewrite E in E'. injection E' as <- <- <-. rewrite LV in K.
  destruct (Nat.eq_dec k (points / 2)) as [->|N].
  - exists (sc_x st). rewrite C1, C2. split; auto. f_equal. ring.
  - destruct (S k K N) as (j & x1 & L1 & Q & ->). exists (fit j x1 (update_frozen parms (fz_list (sc_fz st) ++ m))).
    split; auto. rewrite FF; auto. cbn [fz_idx update_frozen]. apply where_true_spec.
    apply index_of_Some in I. rewrite nth_error_map', I. simpl. f_equal. apply smem_In. apply in_app_iff. right.
    apply match_params_spec in M. destruct M as (_ & _ & _ & M). apply M. split.
    + eapply nth_error_In; eauto.
    + exists param. simpl. auto.
Qed.
Print Assumptions C18_points_profile_the_parameter.
Example C18_example : exists out vals dn,
  nll_scan rx_ex ex_parms ex_fit (fun x => nth 0 x 0%R) "mu" 2 5 3 (ex_st []) = Ok (out, vals, dn) /\
  vals = [-5; -2; 1; 4; 7]%R /\ nth 4 dn Unset <> Unset.
Proof.
  destruct (nll_scan_spec rx_ex ex_parms ex_fit (fun x => nth 0 x 0%R) ex_fit_len "mu" 2 5 3 (ex_st []) 0 ["mu"])
    as (out & vals & dn & E & LV & LD & X & F & U & C & D & V & S); [reflexivity|reflexivity|simpl; lia|].
  exists out, vals, dn. split; auto. split.
  - simpl in LV. do 5 (destruct vals as [|? vals]; [discriminate|]). destruct vals; [|discriminate].
    destruct (V 1) as [A1 A2]; [simpl; lia|]. destruct (V 2) as [B1 B2]; [simpl; lia|]. simpl in *.
    repeat f_equal; lra.
  - destruct (S 4) as (k & x1 & _ & _ & ->); simpl; try lia. discriminate.
Qed.
(** fewer than two points give only the centre *)
Example C18_degenerate : exists out vals dn,
  nll_scan rx_ex ex_parms ex_fit (fun x => nth 0 x 0%R) "mu" 2 1 3 (ex_st []) = Ok (out, vals, dn) /\ List.length vals = 1.
Proof.
  destruct (nll_scan_spec rx_ex ex_parms ex_fit (fun x => nth 0 x 0%R) ex_fit_len "mu" 2 1 3 (ex_st []) 0 ["mu"])
    as (out & vals & dn & E & LV & _); [reflexivity|reflexivity|simpl; lia|].
  exists out, vals, dn. auto.
Qed.

(** ** C19 *)
(** what the loop visits, in order, as grid indices *)
Definition record_body (ix iy : Z) (l : list (Z * Z)) : result (list (Z * Z)) := Ok (l ++ [(ix, iy)]).
Lemma visit_record bf cells : forall l, visit record_body bf cells l = Ok (l ++ map (fun c => (bf - fst c, bf + snd c)%Z) cells).
Proof.
  induction cells as [|[i j] r IH]; intros l; simpl; [rewrite app_nil_r; auto|].
  rewrite IH, <- app_assoc. auto.
Qed.
Lemma chain_map bf cells : forall p, chain p cells ->
  chain (bf - fst p, bf + snd p)%Z (map (fun c => (bf - fst c, bf + snd c)%Z) cells).
Proof.
  induction cells as [|c r IH]; intros p; simpl; auto. intros [A B]. split; auto.
  unfold neighbour in *. cbn [fst snd]. lia.
Qed.
Theorem C19_spiral : forall (bf : nat) fuel, (2 * bf + 1) * (2 * bf + 1) <= fuel ->
  exists path, spiral_loop record_body (Z.of_nat bf) fuel spiral0 [] = Some (Ok path) /\
    NoDup path /\ chain (Z.of_nat bf, Z.of_nat bf) path /\
    (forall a b, In (a, b) path <->
       (0 <= a <= 2 * Z.of_nat bf)%Z /\ (0 <= b <= 2 * Z.of_nat bf)%Z /\ (a, b) <> (Z.of_nat bf, Z.of_nat bf)).
Proof.
  intros bf fuel F. eexists. rewrite spiral_terminates by auto. rewrite visit_record. split; [reflexivity|].
  cbn [app]. set (z := Z.of_nat bf).
  split.
  { apply FinFun.Injective_map_NoDup; [|apply rings_NoDup; lia].
    intros [a b] [c d] E. cbn [fst snd] in E. injection E as E1 E2. f_equal; lia. }
  split.
  { pose proof (chain_map z _ _ (chain_rings bf 1 ltac:(lia))) as C. cbn [cellof ring] in C. 
    change (z - fst (cellof (ring 1 0)))%Z with (z - 0)%Z in C. change (z + snd (cellof (ring 1 0)))%Z with (z + 0)%Z in C.
    rewrite Z.sub_0_r, Z.add_0_r in C. exact C. }
  intros a b. rewrite in_map_iff. split.
  - intros ([i j] & E & H). cbn [fst snd] in E. injection E as <- <-. apply rings_In in H; [|lia]. cbn [fst snd] in H.
    fold z in H. split; [lia|]. split; [lia|]. intros Q. injection Q as Q1 Q2. lia.
  - intros (A & B & N). exists (z - a, b - z)%Z. split. { cbn [fst snd]. f_equal; lia. }
    apply rings_In; [lia|]. cbn [fst snd]. fold z.
    assert (a <> z \/ b <> z) by (destruct (Z.eq_dec a z); auto; destruct (Z.eq_dec b z); auto; exfalso; apply N; congruence). lia.
Qed.
Print Assumptions C19_spiral.
Theorem C19_every_cell : forall rx parms fit nll p0 p1 range points prefit s0 s1 fuel st out xs ys g i0 i1,
  (forall k x fz, List.length (fit k x fz) = List.length x) ->
  index_of p0 parms = Some i0 -> index_of p1 parms = Some i1 ->
  i0 < List.length (sc_x st) -> i1 < List.length (sc_x st) -> Nat.Odd points -> points * points <= fuel ->
  nll_scan2D rx parms fit nll p0 p1 range points prefit s0 s1 fuel st = Some (Ok (out, xs, ys, g)) ->
  List.length xs = points /\ List.length ys = points /\
  (forall a b, a < points -> b < points -> g a b <> Unset) /\
  (forall a b, points <= a \/ points <= b -> g a b = Unset) /\
  g (points / 2) (points / 2) = Val 0.
Proof.
  intros rx parms fit nll p0 p1 range points prefit s0 s1 fuel st out xs ys g i0 i1 FL I0 I1 L0 L1 [q Q] F E.
  destruct (match_params rx [p0; p1] parms) as [m|] eqn:M.
  2:{ unfold nll_scan2D, freeze_params in E. rewrite M in E. discriminate. }
  destruct (nll_scan2D_spec rx parms fit nll FL p0 p1 range points prefit s0 s1 fuel st i0 i1 m M I0 I1 L0 L1 ltac:(lia) F)
    as (st' & v & d & g' & E' & LX & LY & _ & _ & _ & C & S & U & _).
  rewrite E in E'. injection E' as <- <- <- <-.
  assert (B : (points + 1) / 2 - 1 = q) by (subst points; replace (2 * q + 1 + 1) with ((q + 1) * 2) by lia; rewrite Nat.div_mul; lia).
  assert (B2 : points / 2 = q) by (subst points; replace (2 * q + 1) with (1 + q * 2) by lia; rewrite Nat.div_add by lia; simpl; auto).
  rewrite B in *. rewrite B2. split; auto. split; auto. split; [|split; auto].
  - intros a b Ha Hb. destruct (Nat.eq_dec a q) as [->|Na].
    + destruct (Nat.eq_dec b q) as [->|Nb]. { rewrite C. discriminate. }
      destruct (S q b) as (k & x1 & _ & _ & _ & ->); try lia; [|discriminate]. intros X. injection X. auto.
    + destruct (S a b) as (k & x1 & _ & _ & _ & ->); try lia; [|discriminate]. intros X. injection X. auto.
  - intros a b H. apply U. lia.
Qed.
Print Assumptions C19_every_cell.
(** an even number of points leaves the last row and column unfilled (two points: only one cell) *)
Theorem C19_even_unfilled : forall rx parms fit nll p0 p1 range points prefit s0 s1 fuel st out xs ys g i0 i1,
  (forall k x fz, List.length (fit k x fz) = List.length x) ->
  index_of p0 parms = Some i0 -> index_of p1 parms = Some i1 ->
  i0 < List.length (sc_x st) -> i1 < List.length (sc_x st) -> Nat.Even points -> 2 <= points -> points * points <= fuel ->
  nll_scan2D rx parms fit nll p0 p1 range points prefit s0 s1 fuel st = Some (Ok (out, xs, ys, g)) ->
  List.length xs = points /\ forall b, g (points - 1) b = Unset /\ g b (points - 1) = Unset.
Proof.
  intros rx parms fit nll p0 p1 range points prefit s0 s1 fuel st out xs ys g i0 i1 FL I0 I1 L0 L1 [q Q] P F E.
  destruct (match_params rx [p0; p1] parms) as [m|] eqn:M.
  2:{ unfold nll_scan2D, freeze_params in E. rewrite M in E. discriminate. }
  destruct (nll_scan2D_spec rx parms fit nll FL p0 p1 range points prefit s0 s1 fuel st i0 i1 m M I0 I1 L0 L1 ltac:(lia) F)
    as (st' & v & d & g' & E' & LX & LY & _ & _ & _ & C & S & U & _).
  rewrite E in E'. injection E' as <- <- <- <-.
  assert (B : (points + 1) / 2 - 1 = q - 1) by (subst points; replace (2 * q + 1) with (1 + q * 2) by lia; rewrite Nat.div_add by lia; simpl; lia).
  rewrite B in U. split; auto. intros b. split; apply U; lia.
Qed.
Print Assumptions C19_even_unfilled.
Theorem C19_even_refuted : exists rx parms fit nll p0 p1 range points st out xs ys g,
  nll_scan2D rx parms fit nll p0 p1 range points false 1 1 (points * points) st = Some (Ok (out, xs, ys, g)) /\
  List.length xs = points /\ exists a b, a < points /\ b < points /\ g a b = Unset.
Proof.
  destruct (nll_scan2D_spec rx_ex ex_parms ex_fit (fun x => nth 0 x 0%R) ex_fit_len "mu" "lumi" 2 4 false 1 1 16 (ex_st []) 0 1 ["mu"; "lumi"])
    as (out & xs & ys & g & E & LX & LY & _ & _ & _ & C & _ & U & _); try reflexivity; simpl; try lia.
  exists rx_ex, ex_parms, ex_fit, (fun x => nth 0 x 0%R), "mu", "lumi", 2%R, 4, (ex_st []), out, xs, ys, g.
  split; [exact E|]. split; [exact LX|]. exists 3, 0. split; [lia|]. split; [lia|]. apply U. simpl. lia.
Qed.
Print Assumptions C19_even_refuted.
Example C19_example : exists out xs ys g,
  nll_scan2D rx_ex ex_parms ex_fit (fun x => nth 0 x 0%R) "mu" "lumi" 2 3 false 1 1 9 (ex_st []) = Some (Ok (out, xs, ys, g)) /\
  xs = [-1; 1; 3]%R /\ ys = [-2; 0; 2]%R /\ g 1 1 = Val 0 /\ g 0 2 <> Unset.
Proof.
  destruct (nll_scan2D_spec rx_ex ex_parms ex_fit (fun x => nth 0 x 0%R) ex_fit_len "mu" "lumi" 2 3 false 1 1 9 (ex_st []) 0 1 ["mu"; "lumi"])
    as (out & xs & ys & g & E & LX & LY & _ & _ & _ & C & S & U & G); try reflexivity; simpl; try lia.
  exists out, xs, ys, g. split; auto. specialize (G eq_refl).
  split; [|split; [|split; auto]].
  - do 3 (destruct xs as [|? xs]; [discriminate|]). destruct xs; [|discriminate].
    pose proof (G 0 ltac:(lia)) as A. pose proof (G 1 ltac:(lia)) as B. pose proof (G 2 ltac:(lia)) as D. simpl in A, B, D.
    repeat f_equal; lra.
  - do 3 (destruct ys as [|? ys]; [discriminate|]). destruct ys; [|discriminate].
    pose proof (G 0 ltac:(lia)) as A. pose proof (G 1 ltac:(lia)) as B. pose proof (G 2 ltac:(lia)) as D. simpl in A, B, D.
    repeat f_equal; lra.
  - destruct (S 0 2) as (k & x1 & _ & _ & _ & ->); simpl; try lia; discriminate.
Qed.
(** with use_prefit the 2D grid is centred at zero, not at the current values, although the
    centre entry is declared to be the current point *)
Theorem C19_prefit_centre_refuted : exists rx parms fit nll p0 p1 range points st out xs ys g,
  nll_scan2D rx parms fit nll p0 p1 range points true 1 1 (points * points) st = Some (Ok (out, xs, ys, g)) /\
  Nat.Odd points /\ index_of p0 parms = Some 0 /\
  g (points / 2) (points / 2) = Val 0 /\ nth (points / 2) xs 0%R <> nth 0 (sc_x st) 0%R.
Proof.
  destruct (nll_scan2D_spec rx_ex ex_parms ex_fit (fun x => nth 0 x 0%R) ex_fit_len "mu" "lumi" 2 3 true 1 1 9 (ex_st []) 0 1 ["mu"; "lumi"])
    as (out & xs & ys & g & E & LX & LY & _ & _ & _ & C & _); try reflexivity; simpl; try lia.
  exists rx_ex, ex_parms, ex_fit, (fun x => nth 0 x 0%R), "mu", "lumi", 2%R, 3, (ex_st []), out, xs, ys, g.
  split; [exact E|]. split; [exists 1; auto|]. split; [reflexivity|]. split; [exact C|].
  unfold nll_scan2D in E. cbn -[linspace spiral_loop] in E.
  destruct (pyidx _ _); try discriminate.
  match type of E with context [spiral_loop ?a ?b ?c ?d ?e] => destruct (spiral_loop a b c d e) as [[[s g']|]|] end; try discriminate.
  injection E as _ <- _ _.
  change (3 / 2) with 1. cbn [linspace]. rewrite (linspace_nth _ _ 3 1) by auto with arith. simpl. lra.
Qed.
Print Assumptions C19_prefit_centre_refuted.
