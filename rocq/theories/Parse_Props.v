(** Properties of the command line specifications of mappings. *)
From Coq Require Import Reals List Arith ZArith Bool String Ascii Lia Lra.
From Verif Require Import RBase PyList PyDict Map_Model Parse_Model Parse_Spec Parse_Proof Parse_Round.
Import ListNotations.
Local Open Scope nat_scope.

(** ** C51 *)
Theorem C51_join s : join comma (resplit s) = s.
Proof. exact (resplit_join s). Qed.
(** exactly the commas that are not followed by a closing parenthesis before an opening one *)
Theorem C51_cut_iff s i : In i (cuts (resplit s)) <->
  nth_error s i = Some comma /\ ~ exists u v, skipn (S i) s = u ++ rpar :: v /\ ~ In lpar u /\ ~ In rpar u.
Proof.
  rewrite cut_iff. rewrite <- (closes_true (skipn (S i) s)). split; intros (A & B); split; auto; [rewrite B; discriminate|]. destruct (closes _); auto. congruence.
Qed.
(** no comma outside all parentheses is missed *)
Theorem C51_outer_commas s i : balanced s -> nth_error s i = Some comma -> height (firstn i s) = 0%Z -> In i (cuts (resplit s)).
Proof. exact (top_level_cut s i). Qed.
(** missing for the full claim: parentheses within parentheses, where it is false *)
Theorem C51_inner_commas_partial s i : balanced s -> (forall n, (height (firstn n s) <= 1)%Z) -> In i (cuts (resplit s)) -> nth_error s i = Some comma /\ height (firstn i s) = 0%Z.
Proof. exact (cut_top_level s i). Qed.
Theorem C51_nested_refuted : exists s, balanced s /\ resplit s = [T "a:f(b"; T "(c))"].
Proof.
  exists (T "a:f(b,(c))"). split; [|reflexivity]. split; [|reflexivity]. intros n. do 11 (destruct n as [|n]; [vm_compute; discriminate|]). vm_compute. destruct n; discriminate.
Qed.
Example C51_example : resplit (T "pt:slice(0,2,2),eta:sum,m:rebin(1,2)") = [T "pt:slice(0,2,2)"; T "eta:sum"; T "m:rebin(1,2)"].
Proof. reflexivity. Qed.

(** ** C74: the parsed selection is the one written *)
Theorem C74_meaning cplx floats items m0 ms : Forall2 (item_is cplx floats) items (ms ++ [m0]) -> forallb ok_item items = true -> NoDup (map fst items) -> show items <> T "None:None" ->
  parse_axis_selection cplx floats (show items) =
  Ok (mkParsed (flat_map sel_of (ms ++ [m0]) ++ match me_slice m0 with Some _ => [] | None => [(S_ (me_name m0), full)] end) (flat_map rebin_of (ms ++ [m0])) (flat_map sum_of (ms ++ [m0]))).
Proof. exact (parse_show cplx floats items m0 ms). Qed.
Definition no_cplx (t : text) : result (R * R) := Raise ValueError.
Definition no_floats (t : text) : result (list R) := Raise ValueError.
Example C74_example : parse_axis_selection no_cplx no_floats (T "pt:slice(0,None,2),q:-3,eta:sum") =
  Ok (mkParsed [("pt"%string, mkSl (Some (BInt 0)) None (Some (BInt 2))); ("q"%string, mkSl (Some (BInt (-3))) (Some (BInt (-2))) None); ("eta"%string, full)] [] ["q"%string; "eta"%string]).
Proof. vm_compute. reflexivity. Qed.
Example C74_written : show [(T "pt", CSlice [Some (NInt 0); None; Some (NInt 2)]); (T "q", CIndex (NInt (-3))); (T "eta", CSum)] = T "pt:slice(0,None,2),q:-3,eta:sum".
Proof. reflexivity. Qed.
(** every part has exactly one colon *)
Theorem C74_colon cplx floats s p : parse_axis_selection cplx floats s = Ok p -> forall q, In q (resplit s) -> exists k v, q = k ++ colon :: v /\ ~ In colon k /\ ~ In colon v.
Proof.
  assert (SC : forall t, List.length (splitc colon t) = S (count_occ ascii_dec t colon)).
  { induction t as [|c t IH]; auto. cbn [splitc count_occ]. destruct (Ascii.eqb_spec c colon) as [->|N]; destruct (ascii_dec _ colon); try congruence; [cbn; congruence|]. destruct (splitc colon t) eqn:E; [exfalso; apply (splitc_ne colon t); auto|]. cbn in *. auto. }
  assert (TWO : forall t k v, splitc colon t = [k; v] -> t = k ++ colon :: v /\ ~ In colon k /\ ~ In colon v).
  { induction t as [|c t IH]; intros k v E; [discriminate|]. pose proof (SC (c :: t)) as Q. rewrite E in Q. cbn [splitc] in E. destruct (Ascii.eqb_spec c colon) as [->|N].
    - injection E as <- E. cbn [count_occ] in Q. destruct (ascii_dec colon colon); [|congruence]. cbn in Q. assert (Z : count_occ ascii_dec t colon = 0) by lia. apply count_occ_not_In in Z. rewrite splitc_one in E by auto. injection E as <-. repeat split; auto.
    - destruct (splitc colon t) as [|k' r] eqn:F; [discriminate|]. cbn [put] in E. injection E as <- ->. destruct (IH k' v eq_refl) as (-> & A & B). repeat split; auto. intros [X|X]; auto. }
  assert (PC : forall p t r, piece cplx floats p t = Ok r -> exists k v, splitc colon t = [k; v]).
  { intros p' t r E. unfold piece in E. destruct (splitc colon t) as [|k [|v [|? ?]]]; try discriminate. eauto. }
  assert (PS : forall l k p r, pieces cplx floats k p l = Ok r -> forall q, In q l -> exists k v, splitc colon q = [k; v]).
  { induction l as [|t l IH]; intros k p' r E q I; [destruct I|]. cbn [pieces] in E. destruct (piece cplx floats p' t) as [x|] eqn:X; [|discriminate]. cbn [rbind] in E. destruct I as [<-|I]; [eapply PC; eauto|eapply IH; eauto]. }
  intros E q I. unfold parse_axis_selection in E. destruct (teq s (T "None:None")) eqn:TQ.
  - apply teq_true in TQ. subst. vm_compute in I. destruct I as [<-|[]]. exists (T "None"), (T "None"). split; [reflexivity|]. split; intros X; vm_compute in X; decompose [or] X; try discriminate; contradiction.
  - destruct (pieces cplx floats EmptyString _ (resplit s)) as [x|] eqn:X; [|discriminate]. destruct (PS _ _ _ _ X q I) as (k & v & H). exists k, v. apply TWO. auto.
Qed.
(** bins kept by a[lo:hi] on an axis of n bins *)
Definition wrap (n z : Z) : Z := (if z <? 0 then Z.max 0 (z + n) else Z.min z n)%Z.
Definition kept_bin (n lo hi j : Z) : Prop := (wrap n lo <= j < wrap n hi)%Z.
(** an index selects its bin, counted from the end if negative ... *)
Theorem C74_index_partial n z j : (- n <= z < n)%Z -> z <> (-1)%Z -> (kept_bin n z (z + 1) j <-> j = (if z <? 0 then z + n else z)%Z).
Proof. intros H N. unfold kept_bin, wrap. destruct (Z.ltb_spec z 0); destruct (Z.ltb_spec (z + 1) 0); lia. Qed.
(** ... except the last one *)
Theorem C74_last_bin_refuted : exists p, parse_axis_selection no_cplx no_floats (T "eta:-1") = Ok p /\ ps_sel p = [("eta"%string, mkSl (Some (BInt (-1))) (Some (BInt 0)) None)] /\ forall n j, (0 < n)%Z -> ~ kept_bin n (-1) 0 j.
Proof. eexists. split; [vm_compute; reflexivity|]. split; [reflexivity|]. intros n j N. unfold kept_bin, wrap. cbn [Z.ltb Z.compare]. lia. Qed.

(** an unknown axis is an error if it comes last and is ignored otherwise *)
Definition to_nat_bound (b : option bound) : option nat := match b with Some (BInt z) => Some (Z.to_nat z) | _ => None end.
Definition to_selection (s : string * pslice) : string * selection := (fst s, Sl (to_nat_bound (p_lo (snd s))) (to_nat_bound (p_hi (snd s))) (to_nat_bound (p_step (snd s)))).
Definition term_of (c : cinfo) (s : text) : result term := p <- parse_axis_selection no_cplx no_floats s ;; term_init [] c [] (map to_selection (ps_sel p)) (ps_rebin p) (ps_sum p).
Theorem C74_unknown_axis_refuted : exists c, ~ In "foo"%string (map ha_name (ci_axes c)) /\ (exists t, term_of c (T "foo:sum,eta:0") = Ok t) /\ term_of c (T "eta:0,foo:sum") = Raise RuntimeError.
Proof.
  exists (mkCinfo 0 2 [mkHaxis "eta" 2 2 [0%R; 1%R; 2%R]] false false). split; [cbn; intuition discriminate|]. split; [|reflexivity].
  unfold term_of. assert (E : parse_axis_selection no_cplx no_floats (T "foo:sum,eta:0") = Ok (mkParsed [("eta"%string, mkSl (Some (BInt 0)) (Some (BInt 1)) None)] [] ["foo"%string; "eta"%string])) by (vm_compute; reflexivity). rewrite E. cbn [rbind]. eexists. reflexivity.
Qed.

(** ** C75: keys of results *)
Theorem C75_key_injective cls args cls' args' : (forall a, In a (cls :: args) -> ~ In space a) -> (forall a, In a (cls' :: args') -> ~ In space a) -> key_plain cls args = key_plain cls' args' -> cls = cls' /\ args = args'.
Proof.
  intros A B E. unfold key_plain in E. apply (f_equal (splitc space)) in E. rewrite !splitc_join in E by (auto; discriminate). injection E. auto.
Qed.
Theorem C75_ratio_key cplx floats cls args r : ratio_parse_args cplx floats cls args = Ok r -> ra_key r = key_plain cls args.
Proof.
  unfold ratio_parse_args. repeat match goal with |- context [rbind ?x _] => destruct x; cbn [rbind]; try discriminate end. destruct args as [|x [|y l]]; try discriminate. intros [= <-]. auto.
Qed.
Theorem C75_angular_key cplx floats cls args r : angular_parse_args cplx floats cls args = Ok r -> sa_key r = key_plain cls args.
Proof.
  unfold angular_parse_args. destruct (match filter has_colon args with [] => _ | _ :: _ => _ end); cbn [rbind]; try discriminate. destruct args; try discriminate. intros [= <-]. auto.
Qed.
(** the channel is missing in the key of Select *)
Theorem C75_select_key cplx floats cls channel args r : select_parse_args cplx floats cls (channel :: args) = Ok r -> sa_key r = key_plain cls args /\ sa_channel r = channel.
Proof. unfold select_parse_args. destruct (parse_axis_selection _ _ _); cbn [rbind]; try discriminate. intros [= <-]. auto. Qed.
Theorem C75_select_key_refuted : exists a b ra rb, a <> b /\ select_parse_args no_cplx no_floats (T "Select") [a] = Ok ra /\ select_parse_args no_cplx no_floats (T "Select") [b] = Ok rb /\ sa_channel ra <> sa_channel rb /\ sa_key ra = sa_key rb.
Proof. exists (T "ch0"), (T "ch1"). do 2 eexists. split; [discriminate|]. split; [vm_compute; reflexivity|]. split; [vm_compute; reflexivity|]. split; [discriminate|reflexivity]. Qed.

(** ** C76: process lists of the arguments *)
Theorem C76_select_procs cplx floats cls channel a args r : select_parse_args cplx floats cls (channel :: a :: args) = Ok r -> ~ In colon a -> sa_procs r = filter (fun p => negb (teq p (T "None"))) (splitc comma a).
Proof.
  unfold select_parse_args. destruct (parse_axis_selection _ _ _); cbn [rbind]; try discriminate. intros [= <-] N. cbn [sa_procs]. unfold has_colon. rewrite contains_no by auto. auto.
Qed.
Theorem C76_ratio_procs cplx floats cls n d a b args r : ratio_parse_args cplx floats cls (n :: d :: a :: b :: args) = Ok r -> ~ In colon a ->
  ra_num r = n /\ ra_den r = d /\ ra_nprocs r = filter (fun p => negb (teq p (T "None"))) (splitc comma a) /\ ra_dprocs r = filter (fun p => negb (teq p (T "None"))) (splitc comma b).
Proof.
  intros H N. unfold ratio_parse_args in H. unfold has_colon at 1 in H. rewrite contains_no in H by auto. cbn [negb rbind fst snd] in H. revert H. repeat match goal with |- context [rbind ?x _] => destruct x; cbn [rbind]; try discriminate end. intros [= <-]. auto.
Qed.
(** the first selection is the numerator's, the second the denominator's *)
Theorem C76_ratio_selections cplx floats cls n d pre sn sd rest r : (forall a, In a (n :: d :: pre) -> ~ In colon a) -> In colon sn -> In colon sd ->
  ratio_parse_args cplx floats cls (n :: d :: pre ++ sn :: sd :: rest) = Ok r ->
  ra_num r = n /\ ra_den r = d /\ parse_axis_selection cplx floats sn = Ok (ra_nsel r) /\ parse_axis_selection cplx floats sd = Ok (ra_dsel r).
Proof.
  intros P Sn Sd H. assert (F : filter has_colon (n :: d :: pre ++ sn :: sd :: rest) = sn :: sd :: filter has_colon rest).
  { assert (X : forall t, In colon t -> has_colon t = true) by (intros t I; unfold has_colon; rewrite contains_one; apply existsb_exists; exists colon; split; [exact I|reflexivity]).
    assert (N : forall l, (forall a, In a l -> ~ In colon a) -> filter has_colon l = []).
    { clear. induction l as [|x l IH]; [auto|]. intros P. cbn [filter]. unfold has_colon at 1. rewrite contains_no by (apply P; left; auto). apply IH. intros a I. apply P. right. auto. }
    transitivity (filter has_colon (n :: d :: pre) ++ filter has_colon (sn :: sd :: rest)); [apply (filter_app has_colon (n :: d :: pre))|]. rewrite (N _ P). cbn [app filter]. rewrite (X sn Sn), (X sd Sd). reflexivity. }
  unfold ratio_parse_args in H. rewrite F in H. revert H. generalize (pre ++ sn :: sd :: rest). intros l H. match type of H with rbind ?x _ = _ => destruct x as [pr|]; [|discriminate] end. cbn [rbind] in H.
  destruct (parse_axis_selection cplx floats sn) as [x|]; [|discriminate]. cbn [rbind] in H. destruct (parse_axis_selection cplx floats sd) as [y|]; [|discriminate]. cbn [rbind] in H. injection H as <-. auto.
Qed.
(** missing for the full claim: no axis selection *)
Theorem C76_angular_procs_partial cplx floats cls c a s args r : angular_parse_args cplx floats cls (c :: a :: s :: args) = Ok r -> ~ In colon a -> sa_procs r = filter (fun p => negb (teq p (T "None"))) (splitc comma a).
Proof.
  unfold angular_parse_args. destruct (match filter has_colon _ with [] => _ | _ :: _ => _ end); cbn [rbind]; try discriminate. intros [= <-] N. cbn [sa_procs]. unfold has_colon. rewrite contains_no by auto. auto.
Qed.
(** the documented form with processes and without an axis selection loses the processes *)
Theorem C76_angular_procs_refuted : exists r, angular_parse_args no_cplx no_floats (T "AngularCoefficients") [T "ch0"; T "Zmumu,Wmunu"] = Ok r /\ sa_procs r = [].
Proof. eexists. split; [vm_compute; reflexivity|reflexivity]. Qed.
Example C76_example : exists r, select_parse_args no_cplx no_floats (T "Select") [T "ch0"; T "Zmumu,None"; T "pt:0"] = Ok r /\ sa_procs r = [T "Zmumu"] /\ sa_key r = T "Select Zmumu,None pt:0".
Proof. eexists. split; [vm_compute; reflexivity|split; reflexivity]. Qed.
Print Assumptions C51_join.
Print Assumptions C51_cut_iff.
Print Assumptions C51_outer_commas.
Print Assumptions C51_inner_commas_partial.
Print Assumptions C51_nested_refuted.
Print Assumptions C74_meaning.
Print Assumptions C74_colon.
Print Assumptions C74_index_partial.
Print Assumptions C74_last_bin_refuted.
Print Assumptions C74_unknown_axis_refuted.
Print Assumptions C75_key_injective.
Print Assumptions C75_ratio_key.
Print Assumptions C75_angular_key.
Print Assumptions C75_select_key.
Print Assumptions C75_select_key_refuted.
Print Assumptions C76_select_procs.
Print Assumptions C76_ratio_procs.
Print Assumptions C76_angular_procs_partial.
Print Assumptions C76_angular_procs_refuted.
Print Assumptions C76_ratio_selections.
