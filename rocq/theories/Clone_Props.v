(** C106: a copy of the fitter is a working fitter of its own. *)
From Coq Require Import List Arith Bool String Lia.
From Verif Require Import PyList PyDict Clone_Model Clone_Spec Clone_Proof.
Import ListNotations.
Local Open Scope string_scope.
Local Open Scope list_scope.

(** ** independence: two programs in turns, one on the copy and one on the original. The copy always shows what the original would show if it had
    run the program of the copy alone, and the original what it would show without the other. *)
Theorem C106_independent limit h self h' new prog p k : wf h -> is_fitter h self -> bound h self -> deepcopy limit h self = Ok (h', new) ->
  read (run2 h' new self prog) new p k = read (run h self (steps_of true prog)) self p k /\
  read (run2 h' new self prog) self p k = read (run h self (steps_of false prog)) self p k.
Proof.
  intros W F B E. destruct (copy_sim _ _ _ _ _ W F B E) as (f & Sf & Fn & Fd & S).
  pose proof (self_sim h h' W S) as Sg. destruct F as (o & No & _).
  destruct (run2_sim prog f (fun x y => x = y /\ x < List.length h) h' h h new self self self) as (f' & g' & S1 & S2 & F1 & G1); auto.
  - intros x y z A [_ C]. specialize (Fd x y A). lia.
  - split; [reflexivity|apply (nth_lt _ _ _ No)].
  - split; [apply (sim_read f' _ _ new self p k S1 F1)|apply (sim_read g' _ _ self self p k S2 G1)].
Qed.
(** directly after the copy nothing has changed *)
Theorem C106_untouched limit h self h' new : wf h -> deepcopy limit h self = Ok (h', new) ->
  ~ (new < List.length h) /\ forall i, i < List.length h -> nth_error h' i = nth_error h i.
Proof.
  intros W E. destruct (deepcopy_shape _ _ _ _ _ W E) as (o & m & d2 & jit & hvp & sparse & No & Enew & L & S & _). split; [lia|exact S].
Qed.

(** ** when it works *)
Lemma nodup_kept (d : dict value) : NoDup (dkeys d) -> NoDup (dkeys (filter (fun kv => negb (skipped (fst kv))) d)).
Proof.
  unfold dkeys. induction d as [|[k v] d IH]; cbn; [constructor|]. intros Wd. inversion Wd; subst. destruct (negb (skipped k)); cbn; [constructor|]; auto.
  intros J. apply H1. apply in_map_iff in J. destruct J as ([k' v'] & <- & J). apply filter_In in J. apply (in_map fst _ _ (proj1 J)).
Qed.
Lemma visited_lt h self a : wf h -> self < List.length h -> visited h self a -> a < List.length h.
Proof. intros W L V. induction V as [|a o k v b V IH N J K T]; [exact L|]. destruct (W o (nth_error_In _ _ N)) as [_ Wt]. apply (Wt k v b J T). Qed.
Theorem C106_copyable limit h self : wf h -> (exists jit hvp sparse, options h self jit hvp sparse) -> List.length h < limit ->
  ((exists r, deepcopy limit h self = Ok r) <-> copyable h self).
Proof.
  intros W (jit & hvp & sparse & J & V & i & Ei & Si) L. assert (exists o, nth_error h self = Some o) as [o No].
  { unfold look, attr in J. destruct (nth_error h self) as [o|]; [eauto|discriminate J]. }
  pose proof (nth_lt _ _ _ No) as Ls. destruct (W o (nth_error_In _ _ No)) as [Wd Wt]. split.
  - intros [[h' new] E]. destruct (deepcopy_shape _ _ _ _ _ W E) as (o' & m & d2 & j' & v' & s' & No' & Enew & L' & S & Im & N1 & N2 & K & Fin & F2 & _).
    rewrite No in No'. injection No' as <-.
    assert (forall d d', Forall2 (kvr m) d d' -> forall k v, In (k, v) d -> (match v with Graph _ _ _ => False | _ => True end) /\ forall b, target v = Some b -> In b (map fst m)) as Vt.
    { intros d d'. induction 1 as [|[k1 v1] [k2 v2] d d' [A B] H IH]; intros k v C; [contradiction C|]. destruct C as [C|C].
      - injection C as -> ->. cbn in B. destruct v as [x|x|g x|g q x], v2 as [y|y|g' y|g' q' y]; try contradiction; split; try exact I; intros b T; cbn in T; try discriminate T; injection T as <-; [apply (in_map fst _ _ B)|apply (in_map fst _ _ (proj2 B))].
      - apply (IH k v C). }
    assert (forall a, visited h self a -> In a (map fst m)) as Vm.
    { induction 1 as [|a oa k v b Va IH Na Jk Sk T]; [apply (in_map fst _ _ Im)|]. apply in_map_iff in IH. destruct IH as ([a' b'] & Ea & Ja). cbn in Ea. subst a'.
      destruct (Nat.eq_dec a self) as [->|Ns].
      - rewrite No in Na. injection Na as <-. apply (proj2 (Vt _ _ F2 k v ltac:(apply filter_In; cbn; rewrite (Sk eq_refl); auto)) b T).
      - destruct (Fin a b' Ja Ns) as (o1 & o2 & A1 & A2 & A3 & A4). rewrite Na in A1. injection A1 as <-. apply (proj2 (Vt _ _ A4 k v Jk) b T). }
    intros a oa k v Va Na Jk Sk. specialize (Vm a Va). apply in_map_iff in Vm. destruct Vm as ([a' b'] & Ea & Ja). cbn in Ea. subst a'. destruct (Nat.eq_dec a self) as [->|Ns].
    + rewrite No in Na. injection Na as <-. apply (Vt _ _ F2 k v). apply filter_In. cbn. rewrite (Sk eq_refl). auto.
    + destruct (Fin a b' Ja Ns) as (o1 & o2 & A1 & A2 & A3 & A4). rewrite Na in A1. injection A1 as <-. apply (Vt _ _ A4 k v Jk).
  - intros C. assert (forall x ox k v, visited h self x -> x <> self -> nth_error h x = Some ox -> In (k, v) (o_dict ox) ->
      match v with Graph _ _ _ => False | _ => True end /\ forall t, target v = Some t -> visited h self t) as PC.
    { intros x ox k v Vx Nx Ex Jx. split; [apply (C x ox k); auto; congruence|]. intros t T. apply (v_step h self x ox k v t); auto. congruence. }
    assert (inv h (h ++ [mkO (o_cls o) []]) [(self, List.length h)]) as I0.
    { apply inv_new; [|exact Ls|intros []]. split; [lia|]. split; [reflexivity|]. split; [intros a b []|]. split; constructor. }
    destruct (copy_attrs_can h W (visited h self) self (fun x => visited_lt h self x W Ls) limit
               (copy_ref_can h W (visited h self) self (fun x => visited_lt h self x W Ls) PC limit)
               (filter (fun kv => negb (skipped (fst kv))) (o_dict o)) (h ++ [mkO (o_cls o) []]) [(self, List.length h)] (List.length h) (o_cls o) []) as [[h1 m1] E1].
    + exact I0.
    + left. reflexivity.
    + cbn [List.length]. lia.
    + lia.
    + apply nth_app_new.
    + apply nodup_kept, Wd.
    + intros k v Jk. apply filter_In in Jk. destruct Jk as [Jk Sk]. cbn in Sk. apply negb_true_iff in Sk. split; [apply (C self o k); auto; constructor|]. intros t T. apply (v_step h self self o k v t); auto. constructor.
    + unfold deepcopy. rewrite No.
      match goal with |- context [copy_attrs ?a ?b ?c ?d] => assert (copy_attrs a b c d = Ok (h1, m1)) as X by exact E1 end. rewrite X. cbn [rbind fst].
      destruct (copy_attrs_good h _ (copy_ref_good h W limit) (filter (fun kv => negb (skipped (fst kv))) (o_dict o)) (h ++ [mkO (o_cls o) []]) [(self, List.length h)] (List.length h) h1 m1 (o_cls o) [])
        as [G (d2 & N2 & F2)]; [exact I0|lia|apply nth_app_new|apply nodup_kept, Wd|intros k v l Jk; apply filter_In in Jk; apply (Wt k), Jk|exact E1|].
      cbn [app] in N2. destruct G as (I1 & L1 & S1 & e & Ee & Fe).
      assert (forall k, skipped k = false -> match attr h self k, attr h1 (List.length h) k with Some v, Some v' => vtr m1 v v' | None, None => True | _, _ => False end) as Tr.
      { intros k Sk. unfold attr. rewrite No, N2. cbn [o_dict]. rewrite <- (dget_kept k _ Sk). apply kvr_get, F2. }
      assert (exists h2, make_tf_functions h1 (List.length h) = Ok h2) as [h2 E2]; [|rewrite E2; cbn; eauto].
      pose proof (Tr "jit_compile" eq_refl) as T1. pose proof (Tr "hvp_method" eq_refl) as T2. pose proof (Tr "indata" eq_refl) as T3. rewrite Ei in T3. unfold look in J, V.
      destruct (attr h self "jit_compile") as [[a| | |]|]; try discriminate J. destruct (attr h self "hvp_method") as [[b| | |]|]; try discriminate V.
      destruct (attr h1 (List.length h) "jit_compile") as [[a'| | |]|] eqn:A1; try contradiction. destruct (attr h1 (List.length h) "hvp_method") as [[b'| | |]|] eqn:A2; try contradiction.
      destruct (attr h1 (List.length h) "indata") as [[ |x'| |]|] eqn:A3; try contradiction. cbn in T1, T2, T3.
      apply (make_tf_ok h1 (List.length h) a' b' sparse); [|apply (nth_lt _ _ _ N2)].
      split; [unfold look; rewrite A1; reflexivity|]. split; [unfold look; rewrite A2; reflexivity|]. exists x'. split; [exact A3|].
      destruct (Nat.eq_dec i self) as [->|Ni].
      * rewrite Ee in T3. assert (x' = List.length h) as ->. { apply (nodup_fst_fun m1 self); [apply I1|rewrite Ee; exact T3|rewrite Ee; apply in_or_app; right; left; reflexivity]. }
        pose proof (Tr "sparse" eq_refl) as T4. unfold look in *. destruct (attr h self "sparse") as [[c| | |]|]; try discriminate Si. destruct (attr h1 (List.length h) "sparse") as [[c'| | |]|]; try contradiction. cbn in T4. subst. exact Si.
      * assert (fin h h1 m1 i x') as (o1 & o2 & B1 & B2 & B3 & B4).
        { rewrite Ee in T3. apply in_app_or in T3. destruct T3 as [T3|[T3|[]]]; [apply (Fe _ _ T3)|congruence]. }
        pose proof (kvr_get _ _ _ "sparse" B4) as T4. unfold look, attr in *. rewrite B1 in Si. rewrite B2. destruct (dget "sparse" (o_dict o1)) as [[c| | |]|]; try discriminate Si.
        destruct (dget "sparse" (o_dict o2)) as [[c'| | |]|]; try contradiction. cbn in T4. subst. exact Si.
Qed.

(** ** the functions *)
Theorem C106_functions limit h self h' new : wf h -> is_fitter h self -> deepcopy limit h self = Ok (h', new) ->
  wired h' new /\ bound h' new /\ forall jit hvp sparse, options h self jit hvp sparse -> options h' new jit hvp sparse.
Proof.
  intros W (o0 & No0 & Cl) E. destruct (deepcopy_shape _ _ _ _ _ W E) as (o & m & d2 & jit & hvp & sparse & No & Enew & L & S & Im & N1 & N2 & K & Fin & F2 & h1 & Nn & Eh & EJ & EV & ES).
  rewrite No in No0. injection No0 as <-. pose proof (nth_lt _ _ _ Nn) as Ln.
  assert (forall k, ~ In k dynamic -> attr h' new k = attr h1 new k) as Keep. { intros k Nk. rewrite Eh. apply chain_attr_no. rewrite table_dynamic. exact Nk. }
  assert (forall f, In f tf_methods -> call h' new f = Some (f, false, new)) as Cm.
  { intros f J. assert (attr h' new f = None) as A.
    { rewrite Keep by apply method_not_dynamic, J. unfold attr. rewrite Nn. cbn. pose proof (kvr_get _ _ _ f F2) as V. rewrite dget_gone in V by (apply skipped_spec; auto). destruct (dget f d2); [contradiction|reflexivity]. }
    pose proof (chain_cls (table jit hvp sparse new) h1 new new) as CC. rewrite <- Eh, Nn in CC. unfold attr in A. unfold call. destruct (nth_error h' new) as [o'|]; [|discriminate CC]. injection CC as CC.
    rewrite A, CC, Cl. replace (class_methods "Fitter") with tf_methods by reflexivity. rewrite (proj2 (smem_In f tf_methods) J). reflexivity. }
  assert (forall f, In f dynamic -> call h' new f = Some (fst (function_of jit hvp sparse f), snd (function_of jit hvp sparse f), new)) as Cd.
  { intros f J. apply call_attr. rewrite Eh. apply chain_attr; [exact Ln|apply table_nodup|apply table_in, J]. }
  split; [|split].
  - intros j v s (OJ & OV & x & Ox & Os) f J. apply in_app_or in J. destruct J as [J|J]; [rewrite (method_fun _ _ _ _ J); apply Cm, J|]. rewrite (Cd f J).
    unfold look in OJ, OV, EJ, EV. rewrite Keep in OJ, OV, Ox by (cbn; unfold hessp, fwdrev, revrev; intuition discriminate).
    assert (jit = j) as -> by congruence. assert (hvp = v) as -> by congruence.
    assert (v = "fwdrev" -> s = sparse) as Sp.
    { intros Fv. destruct (ES Fv) as (y & Oy & Ys). rewrite Ox in Oy. injection Oy as <-. destruct (Nat.eq_dec x new) as [->|Nx].
      - unfold look in Os, Ys. rewrite Keep in Os by (cbn; unfold hessp, fwdrev, revrev; intuition discriminate). congruence.
      - unfold look, attr in Os, Ys. rewrite Eh, chain_other in Os by exact Nx. congruence. }
    unfold function_of. destruct (String.eqb_spec v "fwdrev") as [->|]; [rewrite (Sp eq_refl); reflexivity|reflexivity].
  - intros f J. apply in_app_or in J. destruct J as [J|J]; [rewrite (Cm f J); eauto|rewrite (Cd f J); eauto].
  - assert (forall k, skipped k = false -> match attr h self k, attr h' new k with Some v, Some v' => vtr m v v' | None, None => True | _, _ => False end) as Tr.
    { intros k Sk. rewrite Keep by (intros Jk; assert (skipped k = true) by (apply skipped_spec; auto); congruence). unfold attr. rewrite No, Nn. cbn [o_dict]. rewrite <- (dget_kept k _ Sk). apply kvr_get, F2. }
    intros j v s (OJ & OV & x & Ox & Os). pose proof (Tr "jit_compile" eq_refl) as T1. pose proof (Tr "hvp_method" eq_refl) as T2. pose proof (Tr "indata" eq_refl) as T3. rewrite Ox in T3. unfold look in OJ, OV.
    destruct (attr h self "jit_compile") as [[a| | |]|]; try discriminate OJ. destruct (attr h self "hvp_method") as [[b| | |]|]; try discriminate OV.
    destruct (attr h' new "jit_compile") as [[a'| | |]|] eqn:A1; try contradiction. destruct (attr h' new "hvp_method") as [[b'| | |]|] eqn:A2; try contradiction.
    destruct (attr h' new "indata") as [[ |x'| |]|] eqn:A3; try contradiction. cbn in T1, T2, T3.
    split; [unfold look; rewrite A1; congruence|]. split; [unfold look; rewrite A2; congruence|]. exists x'. split; [exact A3|].
    destruct (Nat.eq_dec x self) as [->|Nx].
    + assert (x' = new) as -> by (apply (nodup_fst_fun m self); assumption). pose proof (Tr "sparse" eq_refl) as T4. unfold look in *.
      destruct (attr h self "sparse") as [[c| | |]|]; try discriminate Os. destruct (attr h' new "sparse") as [[c'| | |]|]; try contradiction. cbn in T4. subst. exact Os.
    + destruct (Fin x x' T3 Nx) as (o1 & o2 & B1 & B2 & B3 & B4). pose proof (kvr_get _ _ _ "sparse" B4) as T4. unfold look, attr in *. rewrite B1 in Os. rewrite B2.
      destruct (dget "sparse" (o_dict o1)) as [[c| | |]|]; try discriminate Os. destruct (dget "sparse" (o_dict o2)) as [[c'| | |]|]; try contradiction. cbn in T4. subst. exact Os.
Qed.

(** ** when the fitter is copied: after init_fit_parms and any use of it *)
Definition ready (h : heap) (self : loc) : Prop :=
  wf h /\ is_fitter h self /\ bound h self /\ copyable h self /\ exists jit hvp sparse, options h self jit hvp sparse.
(** a step which does not replace the functions or the options they are made of *)
Definition harmless (o : op) : Prop := skipped (op_key o) = false /\ ~ In (op_key o) ["jit_compile"; "hvp_method"; "indata"; "sparse"].

Lemma in_dset (k k' : string) (v v' : value) d : In (k, v) (dset k' v' d) -> (k = k' /\ v = v') \/ In (k, v) d.
Proof.
  induction d as [|[k1 v1] d IH]; cbn; [intros [E|[]]; injection E as <- <-; auto|]. destruct (String.eqb_spec k' k1) as [->|N]; cbn.
  - intros [E|J]; [injection E as <- <-; auto|auto].
  - intros [E|J]; [auto|]. destruct (IH J); auto.
Qed.
Lemma wf_set h l k v : wf h -> (forall x, target v = Some x -> x < List.length h) -> wf (setattr h l k v).
Proof.
  intros W T o J. rewrite setattr_len. apply In_nth_error in J. destruct J as [i J]. destruct (Nat.eq_dec i l) as [->|N].
  - destruct (nth_error h l) as [o1|] eqn:E.
    + rewrite (setattr_same _ _ _ _ _ E) in J. injection J as <-. cbn. destruct (W o1 (nth_error_In _ _ E)) as [Wd Wt]. split; [apply dkeys_dset_NoDup, Wd|].
      intros k' v' x I. apply in_dset in I. destruct I as [[-> ->]|I]; [apply T|apply (Wt k' v' x I)].
    + apply nth_lt in J. rewrite setattr_len in J. apply nth_error_None in E. lia.
  - rewrite setattr_other in J by exact N. apply (W o (nth_error_In _ _ J)).
Qed.
Lemma wf_new h c : wf h -> wf (h ++ [mkO c []]).
Proof.
  intros W o J. rewrite app_length. apply in_app_or in J. destruct J as [J|[<-|[]]]; [|split; [constructor|intros k v l []]]. destruct (W o J) as [A B]. split; [exact A|]. intros k v l I T.
  specialize (B k v l I T). lia.
Qed.
Lemma fitter_set h l k v j : is_fitter h j -> is_fitter (setattr h l k v) j.
Proof.
  intros (o & N & C). pose proof (cls_set h l k v j) as E. rewrite N in E. destruct (nth_error (setattr h l k v) j) as [o'|] eqn:Eo; [|discriminate E]. exists o'. split; [exact Eo|]. cbn in E. congruence.
Qed.
Lemma call_set h l k v j f : (j = l -> f <> k) -> call (setattr h l k v) j f = call h j f.
Proof.
  intros N. unfold call. destruct (Nat.eq_dec j l) as [->|Nj]; [|rewrite setattr_other by exact Nj; reflexivity].
  destruct (nth_error h l) as [o|] eqn:E.
  - rewrite (setattr_same _ _ _ _ _ E). cbn. rewrite dget_dset_other by (intros X; apply (N eq_refl); congruence). reflexivity.
  - rewrite (proj2 (nth_error_None _ _)); [reflexivity|]. rewrite setattr_len. apply nth_error_None, E.
Qed.
Lemma attr_keep h l k v j f : f <> k -> attr (setattr h l k v) j f = attr h j f.
Proof. intros N. destruct (Nat.eq_dec j l) as [->|Nj]; [apply attr_set; congruence|apply attr_set_other, Nj]. Qed.
Lemma options_set h l k v j a b c : ~ In k ["jit_compile"; "hvp_method"; "indata"; "sparse"] -> options h j a b c -> options (setattr h l k v) j a b c.
Proof.
  intros N (A & B & x & X & S). cbn in N. unfold options, look. rewrite !attr_keep by (intros <-; tauto). split; [exact A|]. split; [exact B|]. exists x. rewrite X.
  rewrite attr_keep by (intros <-; tauto). auto.
Qed.
Lemma ready_set h self l k v : ready h self -> visited h self l -> skipped k = false -> ~ In k ["jit_compile"; "hvp_method"; "indata"; "sparse"] ->
  (match v with Atom _ => True | Ref x => visited h self x \/ exists c, nth_error h x = Some (mkO c []) | _ => False end) -> ready (setattr h l k v) self.
Proof.
  intros (W & F & B & C & j & q & s & O) Vl Sk Nk Hv. pose proof F as (of & Nf & _). pose proof (nth_lt _ _ _ Nf) as Lf.
  assert (forall a, visited (setattr h l k v) self a -> visited h self a \/ exists c, nth_error h a = Some (mkO c [])) as VV.
  { intros a V. induction V as [|a o k0 v0 b V IH N J Sa T]; [left; constructor|]. destruct (Nat.eq_dec a l) as [->|Nl].
    - destruct (nth_error h l) as [o1|] eqn:E; [|apply nth_lt in N; rewrite setattr_len in N; apply nth_error_None in E; lia].
      rewrite (setattr_same _ _ _ _ _ E) in N. injection N as <-. cbn in J. apply in_dset in J. destruct J as [[-> ->]|J].
      + destruct v as [x|x|g x|g y x]; try contradiction; [discriminate T|]. injection T as <-. exact Hv.
      + left. apply (v_step h self l o1 k0 v0 b); auto.
    - rewrite setattr_other in N by exact Nl. destruct IH as [IH|[c Ec]]; [left; apply (v_step h self a o k0 v0 b); auto|]. rewrite Ec in N. injection N as <-. contradiction J. }
  split; [|split; [apply fitter_set, F|split; [|split]]].
  - apply wf_set; [exact W|]. intros x T. destruct v as [y|y|g y|g z y]; try contradiction; [discriminate T|]. injection T as <-. destruct Hv as [Hv|[c Hv]]; [apply (visited_lt h self _ W Lf Hv)|apply (nth_lt _ _ _ Hv)].
  - intros f J. rewrite call_set; [apply B, J|]. intros _ ->. apply in_app_or in J. assert (skipped k = true) by (apply skipped_spec, J). congruence.
  - intros a o k0 v0 V N J Sa. destruct (Nat.eq_dec a l) as [->|Nl].
    + destruct (nth_error h l) as [o1|] eqn:E; [|apply nth_lt in N; rewrite setattr_len in N; apply nth_error_None in E; lia].
      rewrite (setattr_same _ _ _ _ _ E) in N. injection N as <-. cbn in J. apply in_dset in J. destruct J as [[-> ->]|J]; [destruct v; try contradiction; exact I|]. apply (C l o1 k0 v0); auto.
    + rewrite setattr_other in N by exact Nl. destruct (VV a V) as [V'|[c Ec]]; [apply (C a o k0 v0); auto|]. rewrite Ec in N. injection N as <-. contradiction J.
  - exists j, q, s. apply options_set; assumption.
Qed.
Lemma ready_new h self c : ready h self -> ready (h ++ [mkO c []]) self /\ forall a, visited h self a -> visited (h ++ [mkO c []]) self a.
Proof.
  intros (W & F & B & C & j & q & s & O). pose proof F as (of & Nf & Cf). pose proof (nth_lt _ _ _ Nf) as Lf.
  assert (forall a, visited (h ++ [mkO c []]) self a -> visited h self a) as VV.
  { intros a V. induction V as [|a o k0 v0 b V IH N J Sa T]; [constructor|]. rewrite nth_app_l in N by apply (visited_lt h self a W Lf IH). apply (v_step h self a o k0 v0 b); auto. }
  split; [|intros a V; induction V as [|a o k0 v0 b V IH N J Sa T]; [constructor|]; apply (v_step _ self a o k0 v0 b); auto; rewrite nth_app_l by apply (nth_lt _ _ _ N); exact N].
  split; [apply wf_new, W|]. split; [exists of; rewrite nth_app_l by exact Lf; auto|]. split; [|split].
  - intros f J. destruct (B f J) as (g & y & E). exists g, y. unfold call in *. rewrite nth_app_l by exact Lf. exact E.
  - intros a o k0 v0 V N J Sa. apply VV in V. rewrite nth_app_l in N by apply (visited_lt h self a W Lf V). apply (C a o k0 v0); auto.
  - exists j, q, s. destruct O as (A & D & x & X & S). unfold options, look, attr in *. rewrite nth_app_l by exact Lf. split; [exact A|]. split; [exact D|]. exists x. split; [exact X|].
    destruct (nth_error h x) as [ox|] eqn:Ex; [|discriminate S]. rewrite nth_app_l by apply (nth_lt _ _ _ Ex). rewrite Ex. exact S.
Qed.
Lemma walk_visited h self p : ready h self -> forall a x, visited h self a -> walk h a p = Some x -> visited h self x.
Proof.
  intros (W & F & B & C & _). induction p as [|k p IH]; intros a x V E; cbn [walk] in E; [injection E as <-; exact V|].
  destruct (step h a k) as [y|] eqn:St; [|discriminate E]. apply (IH y); [|exact E]. clear IH E.
  destruct (Nat.eq_dec a self) as [->|Na].
  - destruct (skipped k) eqn:Sk.
    + destruct (B k) as (g & j & Ck); [apply in_or_app, skipped_spec, Sk|]. unfold step in St. rewrite Ck in St. unfold call, attr in *. destruct (nth_error h self) as [o|]; [|discriminate Ck].
      destruct (dget k (o_dict o)) as [[z|z|g' z|g' j' z]|]; try discriminate Ck; injection St as <-; exact V.
    + unfold step, call, attr in St. destruct (nth_error h self) as [o|] eqn:No; [|discriminate St]. destruct (dget k (o_dict o)) as [v|] eqn:D.
      * apply dget_In in D. apply (v_step h self self o k v y); auto. destruct v; try discriminate St; exact St.
      * destruct (smem k _); [injection St as <-; exact V|discriminate St].
  - unfold step, call, attr in St. destruct (nth_error h a) as [o|] eqn:No; [|discriminate St]. destruct (dget k (o_dict o)) as [v|] eqn:D.
    + apply dget_In in D. apply (v_step h self a o k v y); auto; [congruence|]. destruct v; try discriminate St; exact St.
    + destruct (smem k _); [injection St as <-; exact V|discriminate St].
Qed.
Theorem C106_used h self prog : ready h self -> (forall o, In o prog -> harmless o) -> ready (run h self prog) self.
Proof.
  revert h. induction prog as [|o prog IH]; intros h Rd Hm; [exact Rd|]. unfold run. cbn [fold_left]. apply IH; [|intros o' J; apply Hm; right; exact J].
  destruct (Hm o (or_introl eq_refl)) as [H1 H2]. unfold exec. destruct (walk h self (op_path o)) as [l|] eqn:E; [|exact Rd].
  pose proof (walk_visited h self _ Rd self l (v_self _ _) E) as Vl. destruct (op_src o) as [v|p|c].
  - apply ready_set; auto.
  - destruct (walk h self p) as [x|] eqn:Ex; [|exact Rd]. apply ready_set; auto. left. apply (walk_visited h self p Rd self x (v_self _ _) Ex).
  - destruct (ready_new h self c Rd) as [Rn Vn]. apply ready_set; auto. right. exists c. apply nth_app_new.
Qed.
Lemma methods_chain h self : fold_left (fun h f => setattr h self f (Graph f false self)) tf_methods h = chain (map (fun f => (f, Graph f false self)) tf_methods) h self.
Proof. unfold chain. generalize tf_methods. intros l. revert h. induction l as [|f l IH]; intros h; [reflexivity|]. cbn [fold_left map fst snd]. apply IH. Qed.
Lemma wf_chain l h x : wf h -> (forall k v y, In (k, v) l -> target v = Some y -> y < List.length h) -> wf (chain l h x).
Proof.
  revert h. induction l as [|[k v] l IH]; intros h W T; [exact W|]. unfold chain. cbn [fold_left fst snd]. apply (IH (setattr h x k v)).
  - apply wf_set; [exact W|]. intros y. apply (T k v). left. reflexivity.
  - intros k' v' y J. rewrite setattr_len. apply (T k' v'). right. exact J.
Qed.
Lemma chain_in l h x a o k v : nth_error (chain l h x) a = Some o -> In (k, v) (o_dict o) -> (a = x -> ~ In k (map fst l)) -> exists o', nth_error h a = Some o' /\ In (k, v) (o_dict o').
Proof.
  revert h o. induction l as [|[k' v'] l IH]; intros h o N J K; [exists o; auto|]. unfold chain in N. cbn [fold_left fst snd] in N. destruct (IH (setattr h x k' v') o N J) as (o1 & N1 & J1); [intros E X; apply (K E); right; exact X|].
  destruct (Nat.eq_dec a x) as [->|Na]; [|rewrite setattr_other in N1 by exact Na; exists o1; auto].
  destruct (nth_error h x) as [o2|] eqn:E; [|apply nth_lt in N1; rewrite setattr_len in N1; apply nth_error_None in E; lia]. rewrite (setattr_same _ _ _ _ _ E) in N1. injection N1 as <-. cbn in J1. exists o2. split; [reflexivity|].
  apply in_dset in J1. destruct J1 as [[-> ->]|J1]; [exfalso; apply (K eq_refl); left; reflexivity|exact J1].
Qed.
Lemma chain_options l h x j a b c : (forall k, In k (map fst l) -> ~ In k ["jit_compile"; "hvp_method"; "indata"; "sparse"]) -> options h j a b c -> options (chain l h x) j a b c.
Proof. revert h. induction l as [|[k v] l IH]; intros h K O; [exact O|]. unfold chain. cbn [fold_left fst snd]. apply IH; [intros k' J; apply K; right; exact J|]. apply options_set; [apply K; left; reflexivity|exact O]. Qed.
Theorem C106_made h self : wf h -> is_fitter h self -> copyable h self -> (exists jit hvp sparse, options h self jit hvp sparse) ->
  exists h', make_functions h self = Ok h' /\ ready h' self /\ wired h' self /\ forall a b c, options h self a b c -> options h' self a b c.
Proof.
  intros W F C (j & q & s & O). pose proof F as (of & Nf & Cf). pose proof (nth_lt _ _ _ Nf) as Lf. unfold make_functions. rewrite methods_chain.
  set (l1 := map (fun f => (f, Graph f false self)) tf_methods). set (h1 := chain l1 h self).
  assert (map fst l1 = tf_methods) as K1 by reflexivity.
  assert (forall a b c, options h self a b c -> options h1 self a b c) as O1.
  { intros a b c. apply chain_options. rewrite K1. intros k J. cbn in J. repeat (destruct J as [<-|J]; [cbn; intuition discriminate|]). contradiction. }
  destruct (make_tf_ok h1 self j q s (O1 _ _ _ O)) as [h' E]; [unfold h1; rewrite chain_len; exact Lf|]. exists h'. split; [exact E|].
  destruct (make_tf_shape _ _ _ E) as (jit & hvp & sparse & EJ & EV & ES & Eh).
  assert (forall a b c, options h self a b c -> options h' self a b c) as O2.
  { intros a b c Oa. rewrite Eh. apply chain_options; [|apply O1, Oa]. intros k J. rewrite table_dynamic in J. cbn in J. unfold hessp, fwdrev, revrev in J. repeat (destruct J as [<-|J]; [cbn; intuition discriminate|]). contradiction. }
  assert (forall f, In f tf_methods -> call h' self f = Some (f, false, self)) as Cm.
  { intros f J. apply call_attr. rewrite Eh, chain_attr_no by (rewrite table_dynamic; apply method_not_dynamic, J). unfold h1. apply chain_attr; [exact Lf|rewrite K1; repeat constructor; cbn; intuition discriminate|].
    apply (in_map (fun f => (f, Graph f false self))), J. }
  assert (forall f, In f dynamic -> call h' self f = Some (fst (function_of jit hvp sparse f), snd (function_of jit hvp sparse f), self)) as Cd.
  { intros f J. apply call_attr. rewrite Eh. apply chain_attr; [unfold h1; rewrite chain_len; exact Lf|apply table_nodup|apply table_in, J]. }
  assert (forall a o k v, nth_error h' a = Some o -> In (k, v) (o_dict o) -> (a = self -> skipped k = false) -> exists o', nth_error h a = Some o' /\ In (k, v) (o_dict o')) as Back.
  { intros a o k v N J K. rewrite Eh in N. destruct (chain_in _ _ _ _ _ _ _ N J) as (o1 & N1 & J1).
    - intros Ea X. rewrite table_dynamic in X. assert (skipped k = true) by (apply skipped_spec; auto). rewrite (K Ea) in H. discriminate H.
    - apply (chain_in _ _ _ _ _ _ _ N1 J1). intros Ea X. rewrite K1 in X. assert (skipped k = true) by (apply skipped_spec; auto). rewrite (K Ea) in H. discriminate H. }
  assert (forall a, visited h' self a -> visited h self a) as VV.
  { intros a V. induction V as [|a o k0 v0 b V IH N J Sa T]; [constructor|]. destruct (Back a o k0 v0 N J Sa) as (o' & N' & J'). apply (v_step h self a o' k0 v0 b); auto. }
  split; [|split; [|exact O2]].
  - split; [|split; [|split; [|split]]].
    + rewrite Eh. apply wf_chain; [apply wf_chain; [exact W|]|].
      * intros k v y J T. apply in_map_iff in J. destruct J as (f & Ef & _). injection Ef as <- <-. cbn in T. injection T as <-. exact Lf.
      * intros k v y J T. apply in_map_iff in J. destruct J as (f & Ef & _). injection Ef as <- <-. cbn in T. injection T as <-. unfold h1. rewrite chain_len. exact Lf.
    + pose proof (chain_cls (table jit hvp sparse self) h1 self self) as CC. rewrite <- Eh in CC. unfold h1 in CC. rewrite chain_cls, Nf in CC. destruct (nth_error h' self) as [o'|] eqn:No'; [|discriminate CC]. exists o'. split; [exact No'|]. cbn in CC. congruence.
    + intros f J. apply in_app_or in J. destruct J as [J|J]; [rewrite (Cm f J); eauto|rewrite (Cd f J); eauto].
    + intros a o k v V N J Sa. destruct (Back a o k v N J Sa) as (o' & N' & J'). apply (C a o' k v); auto.
    + exists j, q, s. apply O2, O.
  - intros a b c Oa f J. apply in_app_or in J. destruct J as [J|J]; [rewrite (method_fun _ _ _ _ J); apply Cm, J|]. rewrite (Cd f J).
    assert (options h' self j q s) as O' by apply O2, O. destruct Oa as (A1 & A2 & x & A3 & A4). destruct O' as (B1 & B2 & y & B3 & B4). pose proof (O1 _ _ _ O) as (D1 & D2 & z & D3 & D4).
    assert (a = jit /\ b = hvp) as [-> ->] by (split; congruence). rewrite A3 in B3. injection B3 as <-.
    assert (hvp = "fwdrev" -> c = sparse) as Sp. { intros Fv. destruct (ES Fv) as (u & U1 & U2). congruence. }
    unfold function_of. destruct (String.eqb_spec hvp "fwdrev") as [->|]; [rewrite (Sp eq_refl); reflexivity|reflexivity].
Qed.
(** all together: a fitter which was set up and used can be copied, and from then on both are independent *)
Theorem C106_fitter h self h1 prog0 limit prog p k : wf h -> is_fitter h self -> copyable h self -> (exists jit hvp sparse, options h self jit hvp sparse) ->
  make_functions h self = Ok h1 -> (forall o, In o prog0 -> harmless o) -> let h2 := run h1 self prog0 in List.length h2 < limit ->
  exists h' new, deepcopy limit h2 self = Ok (h', new) /\ wired h' new /\
    read (run2 h' new self prog) new p k = read (run h2 self (steps_of true prog)) self p k /\
    read (run2 h' new self prog) self p k = read (run h2 self (steps_of false prog)) self p k.
Proof.
  intros W F C O E Hm h2 L. destruct (C106_made h self W F C O) as (h1' & E' & Rd & _). rewrite E in E'. injection E' as <-.
  pose proof (C106_used h1 self prog0 Rd Hm) as (W2 & F2 & B2 & C2 & O2). fold h2 in W2, F2, B2, C2, O2.
  destruct (proj2 (C106_copyable limit h2 self W2 O2 L) C2) as [[h' new] Ec]. exists h', new. split; [exact Ec|]. split; [apply (C106_functions limit h2 self h' new W2 F2 Ec)|].
  apply (C106_independent limit h2 self h' new prog p k); assumption.
Qed.
(** without the skipped functions no fitter could be copied *)
Theorem C106_plain_copy_fails h self h1 limit r : wf h -> is_fitter h self -> copyable h self -> (exists jit hvp sparse, options h self jit hvp sparse) ->
  make_functions h self = Ok h1 -> copy_ref limit (h1, []) self <> Ok r.
Proof.
  intros W F C O E X. destruct (C106_made h self W F C O) as (h1' & E' & (W1 & (o & No & _) & B & _) & _). rewrite E in E'. injection E' as <-.
  destruct r as [[h' m'] l']. assert (inv h1 h1 []) as I0. { split; [lia|]. split; [reflexivity|]. split; [intros a b []|]. split; constructor. }
  destruct (copy_ref_good h1 W1 limit h1 [] self h' m' l' I0 (nth_lt _ _ _ No) X) as [(I1 & L1 & S1 & e & Ee & Fe) J].
  rewrite app_nil_r in Ee. subst e. destruct (Fe self l' J) as [_ (o1 & o2 & N1 & N2 & Cl & D)]. rewrite No in N1. injection N1 as <-.
  assert (exists g j, dget "loss_val" (o_dict o) = Some (Graph g j self)) as (g & j & Dg).
  { unfold make_functions in E. destruct (make_tf_shape _ _ _ E) as (jit & hvp & sparse & _ & _ & _ & Eh).
    assert (attr h1 self "loss_val" = Some (Graph (fst (function_of jit hvp sparse "loss_val")) (snd (function_of jit hvp sparse "loss_val")) self)) as A.
    { rewrite Eh. apply chain_attr; [rewrite methods_chain, chain_len; destruct F as (of & Nf & _); apply (nth_lt _ _ _ Nf)|apply table_nodup|apply table_in; left; reflexivity]. }
    unfold attr in A. rewrite No in A. eauto. }
  pose proof (kvr_get _ _ _ "loss_val" D) as V. rewrite Dg in V. destruct (dget "loss_val" (o_dict o2)) as [[| | |]|]; contradiction.
Qed.

(** ** examples *)
(** a fitter with its parameters, input data shared by several objects, a callback bound to the fitter itself *)
Definition ex_heap : heap :=
  [mkO "Fitter" [("indata", Ref 2); ("x", Ref 1); ("bbstat", Ref 3); ("param_model", Ref 4); ("jit_compile", Atom "True"); ("hvp_method", Atom "fwdrev"); ("callback", Method "log" 0)];
   mkO "Variable" [("value", Atom "1.0")];
   mkO "FitInputData" [("sparse", Atom "False"); ("nbins", Atom "7")];
   mkO "BinByBinStat" [("indata", Ref 2); ("beta", Ref 5)];
   mkO "Mu" [("indata", Ref 2); ("npoi", Atom "1")];
   mkO "Variable" [("value", Atom "0.9")]].
Definition ex_made : heap := match make_functions ex_heap 0 with Ok h => h | Raise _ => [] end.
Definition ex_copy : heap * loc := match deepcopy 10 ex_made 0 with Ok r => r | Raise _ => ([], 0) end.
Example C106_ex_copy : snd ex_copy = 6 /\ List.length (fst ex_copy) = 12 /\
  walk (fst ex_copy) 6 ["indata"] = walk (fst ex_copy) 6 ["bbstat"; "indata"] /\ walk (fst ex_copy) 6 ["indata"] <> Some 2 /\
  walk (fst ex_copy) 6 ["callback"] = Some 6 /\ read (fst ex_copy) 6 ["bbstat"; "beta"] "value" = Some "0.9".
Proof. repeat split; vm_compute; congruence. Qed.
Example C106_ex_turns : let prog := [(true, mkOp ["x"] "value" (SAtom "5.0")); (false, mkOp ["x"] "value" (SAtom "2.0")); (true, mkOp [] "theta" (SNew "Variable")); (true, mkOp ["theta"] "value" (SAtom "3.0"));
    (true, mkOp ["loss_val"; "bbstat"] "beta" (SPath ["x"]))] in
  let h := run2 (fst ex_copy) 6 0 prog in
  read h 6 ["x"] "value" = Some "5.0" /\ read h 0 ["x"] "value" = Some "2.0" /\ read h 6 ["theta"] "value" = Some "3.0" /\ read h 0 ["theta"] "value" = None /\
  read h 6 ["bbstat"; "beta"] "value" = Some "5.0" /\ read h 0 ["bbstat"; "beta"] "value" = Some "0.9".
Proof. repeat split; reflexivity. Qed.
Example C106_ex_calls : call ex_made 0 "loss_val" = Some ("loss_val", true, 0) /\ call (fst ex_copy) 6 "loss_val" = Some ("loss_val", true, 6) /\
  call ex_made 0 hessp = Some (fwdrev, false, 0) /\ call (fst ex_copy) 6 hessp = Some (fwdrev, false, 6) /\ call (fst ex_copy) 6 "chi2" = Some ("chi2", false, 6) /\
  call (fst ex_copy) 8 "chi2" = None.
Proof. repeat split; reflexivity. Qed.
Example C106_ex_sparse : let h := update 2 (fun o => mkO (o_cls o) (dset "sparse" (Atom "True") (o_dict o))) (update 0 (fun o => mkO (o_cls o) (dset "jit_compile" (Atom "False") (o_dict o))) ex_heap) in
  match make_functions h 0 with Ok h => call h 0 hessp = Some (revrev, false, 0) /\ call h 0 "loss_val_grad" = Some ("loss_val_grad", false, 0) | Raise _ => False end.
Proof. split; reflexivity. Qed.
Example C106_ex_limit : deepcopy 1 ex_made 0 = Raise RuntimeError /\ copy_ref 100 (ex_made, []) 0 = Raise TypeError.
Proof. split; reflexivity. Qed.
Example C106_ex_missing : make_functions [mkO "Fitter" [("jit_compile", Atom "True")]] 0 = Raise GenericException /\ make_functions [mkO "Fitter" [("hvp_method", Atom "revrev")]] 0 = Raise GenericException /\
  deepcopy 5 ex_made 77 = Raise KeyError.
Proof. repeat split; reflexivity. Qed.
Example C106_ex_ready : wf ex_heap /\ is_fitter ex_heap 0 /\ copyable ex_heap 0 /\ options ex_heap 0 "True" "fwdrev" "False".
Proof.
  split; [|split; [eexists; split; reflexivity|split]].
  - intros o J. cbn in J. repeat (destruct J as [<-|J]; [split; [repeat constructor; cbn; intuition discriminate|intros k v l I T; cbn in I; repeat (destruct I as [I|I]; [injection I as <- <-; cbn in T; try discriminate T; injection T as <-; cbn; lia|]); contradiction]|]). contradiction.
  - intros a o k v _ N J _. apply nth_error_In in N. cbn in N. repeat (destruct N as [<-|N]; [cbn in J; repeat (destruct J as [J|J]; [injection J as <- <-; exact I|]); contradiction|]). contradiction.
  - repeat split. exists 2. split; reflexivity.
Qed.
(** an object of the original which is put into the copy is shared: this is so for the parameter model of the fitter inside the composite model
    of the saturated fit (bin/rabbit_fit.py:403-425), so that the fit relies on parameter models never being changed *)
Theorem C106_shared_refuted : exists limit h self h' new x o, wf h /\ is_fitter h self /\ bound h self /\ deepcopy limit h self = Ok (h', new) /\ attr h self "param_model" = Some (Ref x) /\
  let h2 := setattr h' new "param_model" (Ref x) in read (exec h2 new o) self ["param_model"] "npoi" <> read h2 self ["param_model"] "npoi".
Proof.
  assert (wf ex_heap /\ is_fitter ex_heap 0 /\ copyable ex_heap 0 /\ options ex_heap 0 "True" "fwdrev" "False") as (W & F & C & O) by apply C106_ex_ready.
  destruct (C106_made ex_heap 0 W F C) as (h' & E & (W' & F' & B' & _) & _); [exists "True", "fwdrev", "False"; exact O|].
  assert (h' = ex_made) as -> by (unfold ex_made; rewrite E; reflexivity).
  exists 10, ex_made, 0, (fst ex_copy), 6, 4, (mkOp ["param_model"] "npoi" (SAtom "2")). split; [exact W'|]. split; [exact F'|]. split; [exact B'|].
  split; [vm_compute; reflexivity|]. split; [reflexivity|]. vm_compute. discriminate.
Qed.

Print Assumptions C106_independent.
Print Assumptions C106_untouched.
Print Assumptions C106_copyable.
Print Assumptions C106_functions.
Print Assumptions C106_used.
Print Assumptions C106_made.
Print Assumptions C106_fitter.
Print Assumptions C106_plain_copy_fails.
Print Assumptions C106_shared_refuted.
