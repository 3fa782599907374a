(** Proofs on copies of the fitter. *)
From Coq Require Import List Arith Bool String Lia.
From Verif Require Import PyList PyDict Clone_Model Clone_Spec.
Import ListNotations.
Local Open Scope string_scope.
Local Open Scope list_scope.

(** ** heaps *)
Lemma update_len {A} i (f : A -> A) l : List.length (update i f l) = List.length l.
Proof. revert i. induction l as [|a l IH]; intros [|i]; cbn; congruence. Qed.
Lemma update_nth {A} i (f : A -> A) l j : nth_error (update i f l) j = if Nat.eqb i j then option_map f (nth_error l j) else nth_error l j.
Proof. revert i j. induction l as [|a l IH]; intros [|i] [|j]; cbn; try reflexivity; try apply IH. destruct (Nat.eqb i j); reflexivity. Qed.
Lemma setattr_len h l k v : List.length (setattr h l k v) = List.length h.
Proof. apply update_len. Qed.
Lemma setattr_other h l k v j : j <> l -> nth_error (setattr h l k v) j = nth_error h j.
Proof. intros N. unfold setattr. rewrite update_nth. destruct (Nat.eqb_spec l j); [congruence|reflexivity]. Qed.
Lemma setattr_same h l k v o : nth_error h l = Some o -> nth_error (setattr h l k v) l = Some (mkO (o_cls o) (dset k v (o_dict o))).
Proof. intros N. unfold setattr. rewrite update_nth, Nat.eqb_refl, N. reflexivity. Qed.
Lemma nth_lt {A} (l : list A) i x : nth_error l i = Some x -> i < List.length l.
Proof. intros E. apply nth_error_Some. congruence. Qed.
Lemma nth_app_l {A} (l m : list A) i : i < List.length l -> nth_error (l ++ m) i = nth_error l i.
Proof. apply nth_error_app1. Qed.
Lemma nth_app_new {A} (l : list A) x : nth_error (l ++ [x]) (List.length l) = Some x.
Proof. rewrite nth_error_app2, Nat.sub_diag by lia. reflexivity. Qed.
Lemma mget_in l m x : mget l m = Some x -> In (l, x) m.
Proof. induction m as [|[a b] m IH]; cbn; [discriminate|]. destruct (Nat.eqb_spec l a); intros E; [injection E as <-; subst; auto|auto]. Qed.
Lemma mget_none l m : mget l m = None -> ~ In l (map fst m).
Proof. induction m as [|[a b] m IH]; cbn; [auto|]. destruct (Nat.eqb_spec l a); [discriminate|]. intros E [F|F]; [congruence|apply (IH E F)]. Qed.

(** ** copying *)
Definition vtr (m : memo) (v v' : value) : Prop :=
  match v, v' with Atom a, Atom b => a = b | Ref x, Ref y => In (x, y) m | Method f x, Method g y => f = g /\ In (x, y) m | _, _ => False end.
Definition kvr (m : memo) (p q : string * value) : Prop := fst p = fst q /\ vtr m (snd p) (snd q).
Lemma vtr_mono m e v v' : vtr m v v' -> vtr (e ++ m) v v'.
Proof. destruct v, v'; cbn; auto; [intros; apply in_or_app; auto|intros [A B]; split; [exact A|apply in_or_app; auto]]. Qed.
Lemma kvr_mono m e d d' : Forall2 (kvr m) d d' -> Forall2 (kvr (e ++ m)) d d'.
Proof. induction 1 as [|p q d d' [A B] H IH]; constructor; [split; [exact A|apply vtr_mono, B]|exact IH]. Qed.

Section Copying.
  Variable h0 : heap.
  Hypothesis W0 : wf h0.
  Definition inv (h : heap) (m : memo) : Prop :=
    List.length h0 <= List.length h /\ (forall i, i < List.length h0 -> nth_error h i = nth_error h0 i) /\
    (forall a b, In (a, b) m -> a < List.length h0 /\ List.length h0 <= b /\ b < List.length h) /\ NoDup (map fst m) /\ NoDup (map snd m).
  Definition fin (h : heap) (m : memo) (a b : loc) : Prop :=
    exists o o', nth_error h0 a = Some o /\ nth_error h b = Some o' /\ o_cls o' = o_cls o /\ Forall2 (kvr m) (o_dict o) (o_dict o').
  Lemma fin_mono h h' m e a b : fin h m a b -> nth_error h' b = nth_error h b -> fin h' (e ++ m) a b.
  Proof. intros (o & o' & A & B & C & D) E. exists o, o'. rewrite E. repeat split; auto. apply kvr_mono, D. Qed.
  Definition grown (h : heap) (m : memo) (h' : heap) (m' : memo) (except : option loc) : Prop :=
    inv h' m' /\ List.length h <= List.length h' /\ (forall i, i < List.length h -> except <> Some i -> nth_error h' i = nth_error h i) /\
    exists e, m' = e ++ m /\ forall a b, In (a, b) e -> List.length h <= b /\ fin h' m' a b.
  Lemma grown_refl h m x : inv h m -> grown h m h m x.
  Proof. intros I. split; [exact I|]. split; [lia|]. split; [reflexivity|]. exists []. split; [reflexivity|]. intros a b []. Qed.
  Lemma grown_trans h m h1 m1 h2 m2 x : (forall i, x = Some i -> i < List.length h) -> grown h m h1 m1 x -> grown h1 m1 h2 m2 x -> grown h m h2 m2 x.
  Proof.
    intros X (I1 & L1 & S1 & e1 & E1 & F1) (I2 & L2 & S2 & e2 & E2 & F2). split; [exact I2|]. split; [lia|]. split; [intros i L N; rewrite S2, S1; auto; lia|].
    exists (e2 ++ e1). split; [rewrite E2, E1; apply app_assoc|]. intros a b J. apply in_app_or in J. destruct J as [J|J].
    - destruct (F2 a b J). split; [lia|assumption].
    - destruct (F1 a b J) as [A B]. split; [exact A|]. rewrite E2. apply (fin_mono h1); [exact B|].
      assert (b < List.length h1) as Lb. { destruct I1 as (_ & _ & K & _). destruct (K a b) as (_ & _ & K'); [rewrite E1; apply in_or_app; auto|exact K']. }
      apply S2; [exact Lb|]. intros C. specialize (X b C). lia.
  Qed.
  Definition good (cr : heap * memo -> loc -> result (heap * memo * loc)) : Prop :=
    forall h m l h' m' l', inv h m -> l < List.length h0 -> cr (h, m) l = Ok (h', m', l') -> grown h m h' m' None /\ In (l, l') m'.
  Lemma copy_val_good cr h m v h' m' v' : good cr -> inv h m -> (forall l, target v = Some l -> l < List.length h0) -> copy_val cr (h, m) v = Ok (h', m', v') ->
    grown h m h' m' None /\ vtr m' v v'.
  Proof.
    intros G I T E. destruct v as [a|l|f l|f j l]; cbn [copy_val] in E.
    - injection E as <- <- <-. split; [apply grown_refl, I|reflexivity].
    - destruct (cr (h, m) l) as [[[h1 m1] l1]|] eqn:C; [|discriminate E]. cbn in E. injection E as <- <- <-. apply G in C; [|exact I|apply T; reflexivity]. exact C.
    - destruct (cr (h, m) l) as [[[h1 m1] l1]|] eqn:C; [|discriminate E]. cbn in E. injection E as <- <- <-. apply G in C; [|exact I|apply T; reflexivity]. split; [apply C|]. split; [reflexivity|apply C].
    - discriminate E.
  Qed.
  Lemma inv_set h m b k v : inv h m -> List.length h0 <= b -> inv (setattr h b k v) m.
  Proof.
    intros (L & S & K & N1 & N2) B. split; [rewrite setattr_len; exact L|]. split; [intros i J; rewrite setattr_other by lia; auto|].
    split; [rewrite setattr_len; exact K|]. auto.
  Qed.
  Lemma grown_set h m h1 m1 b k v : grown h m h1 m1 (Some b) -> List.length h0 <= b -> b < List.length h -> grown h m (setattr h1 b k v) m1 (Some b).
  Proof.
    intros (I & L & S & e & E & F) B Bh. split; [apply inv_set; assumption|]. split; [rewrite setattr_len; exact L|].
    split; [intros i J N; rewrite setattr_other by (intros ->; apply N; reflexivity); auto|]. exists e. split; [exact E|]. intros a c J. destruct (F a c J) as [A C]. split; [exact A|].
    replace m1 with ([] ++ m1) by reflexivity. apply (fin_mono h1); [exact C|]. apply setattr_other. lia.
  Qed.
  Lemma grown_weaken h m h' m' x : grown h m h' m' None -> grown h m h' m' x.
  Proof. intros (I & L & S & E). split; [exact I|]. split; [exact L|]. split; [|exact E]. intros i J _. apply S; [exact J|discriminate]. Qed.
  Lemma copy_attrs_good cr : good cr -> forall attrs h m b h' m' cls d, inv h m -> List.length h0 <= b -> nth_error h b = Some (mkO cls d) ->
    NoDup (dkeys d ++ dkeys attrs) -> (forall k v l, In (k, v) attrs -> target v = Some l -> l < List.length h0) -> copy_attrs cr (h, m) b attrs = Ok (h', m') ->
    grown h m h' m' (Some b) /\ exists d2, nth_error h' b = Some (mkO cls (d ++ d2)) /\ Forall2 (kvr m') attrs d2.
  Proof.
    intros G. induction attrs as [|[k v] attrs IH]; intros h m b h' m' cls d I B N D T E; cbn [copy_attrs] in E.
    - injection E as <- <-. split; [apply grown_refl, I|]. exists []. rewrite app_nil_r. split; [exact N|constructor].
    - destruct (copy_val cr (h, m) v) as [[[h1 m1] v1]|] eqn:C; [|discriminate E]. cbn [rbind fst snd] in E.
      destruct (copy_val_good cr h m v h1 m1 v1 G I) as [G1 V1]; [intros l; apply T with k; left; reflexivity|exact C|].
      assert (b < List.length h) as Bh by apply (nth_lt _ _ _ N).
      assert (nth_error h1 b = Some (mkO cls d)) as N1. { destruct G1 as (_ & _ & S & _). rewrite S; [exact N|exact Bh|discriminate]. }
      assert (~ In k (dkeys d)) as Kd. { cbn in D. apply NoDup_remove_2 in D. intros J. apply D, in_or_app. auto. }
      destruct (IH (setattr h1 b k v1) m1 b h' m' cls (d ++ [(k, v1)])) as [G2 (d2 & N2 & F2)].
      + apply inv_set; [apply G1|exact B].
      + exact B.
      + rewrite (setattr_same _ _ _ _ _ N1). cbn. rewrite dset_new by exact Kd. reflexivity.
      + unfold dkeys in *. rewrite map_app, <- app_assoc. exact D.
      + intros k' v' l J. apply (T k'). right. exact J.
      + exact E.
      + split.
        * apply (grown_trans _ _ (setattr h1 b k v1) m1); [intros i Ei; injection Ei as <-; exact Bh| |exact G2]. apply grown_set; [apply grown_weaken, G1|exact B|exact Bh].
        * exists ((k, v1) :: d2). split; [rewrite N2, <- app_assoc; reflexivity|]. constructor; [|exact F2]. split; [reflexivity|].
          destruct G2 as (_ & _ & _ & e & Ee & _). rewrite Ee. apply vtr_mono, V1.
  Qed.
  Lemma inv_new h m l cls : inv h m -> l < List.length h0 -> ~ In l (map fst m) -> inv (h ++ [mkO cls []]) ((l, List.length h) :: m).
  Proof.
    intros (L & S & K & N1 & N2) Hl Nl. split; [rewrite app_length; lia|]. split.
    - intros i J. rewrite nth_app_l by lia. auto.
    - split.
      + intros a b [E|J]; [injection E as <- <-; rewrite app_length; cbn; lia|]. destruct (K a b J) as (A & B & C). rewrite app_length. lia.
      + split; cbn; constructor; auto. intros J. apply in_map_iff in J. destruct J as ([a b] & E & J). cbn in E. destruct (K a b J). lia.
  Qed.
  Lemma copy_ref_good n : good (copy_ref n).
  Proof.
    induction n as [|n IH]; intros h m l h' m' l' I Hl E; cbn [copy_ref fst snd] in E; [discriminate E|].
    destruct (mget l m) as [x|] eqn:M.
    - injection E as <- <- <-. split; [apply grown_refl, I|apply mget_in, M].
    - destruct (nth_error h l) as [o|] eqn:N; [|discriminate E].
      destruct (copy_attrs _ _ _ _) as [[h1 m1]|] eqn:C; [|discriminate E].
      cbn in E. injection E as <- <- <-.
      assert (nth_error h0 l = Some o) as N0. { destruct I as (_ & S & _). rewrite <- S by exact Hl. exact N. }
      destruct (W0 o (nth_error_In _ _ N0)) as [Wd Wt].
      destruct (copy_attrs_good _ IH (o_dict o) (h ++ [mkO (o_cls o) []]) ((l, List.length h) :: m) (List.length h) h1 m1 (o_cls o) []) as [G (d2 & Nd & Fd)];
        [apply inv_new; auto; apply mget_none, M|destruct I; assumption|apply nth_app_new|exact Wd|exact Wt|exact C|].
      destruct G as (I1 & L1 & S1 & e & Ee & Fe). rewrite app_length in L1. cbn in L1. split.
      + split; [exact I1|]. split; [lia|]. split; [intros i J _; rewrite S1; [apply nth_app_l, J|rewrite app_length; lia|intros X; injection X; lia]|].
        exists (e ++ [(l, List.length h)]). split; [rewrite <- app_assoc; exact Ee|]. intros a b J. apply in_app_or in J. destruct J as [J|[J|[]]].
        * destruct (Fe a b J) as [A B]. rewrite app_length in A. split; [lia|exact B].
        * injection J as <- <-. split; [lia|]. exists o, (mkO (o_cls o) d2). repeat split; auto.
      + rewrite Ee. apply in_or_app. right. left. reflexivity.
  Qed.

  (** *** when it succeeds *)
  Variable P : loc -> Prop.
  Variable root : loc.
  Hypothesis PL : forall x, P x -> x < List.length h0.
  Hypothesis PC : forall x o k v, P x -> x <> root -> nth_error h0 x = Some o -> In (k, v) (o_dict o) ->
    match v with Graph _ _ _ => False | _ => True end /\ forall t, target v = Some t -> P t.
  Lemma memo_short h m : inv h m -> List.length m <= List.length h0.
  Proof.
    intros (_ & _ & K & N & _). rewrite <- (map_length fst), <- (seq_length (List.length h0) 0). apply NoDup_incl_length; [exact N|].
    intros x J. apply in_map_iff in J. destruct J as ([a b] & <- & J). apply in_seq. destruct (K a b J). cbn. lia.
  Qed.
  Definition can (n : nat) : Prop := forall h m l, inv h m -> In root (map fst m) -> P l -> List.length h0 < n + List.length m -> exists r, copy_ref n (h, m) l = Ok r.
  Lemma copy_attrs_can n : can n -> forall attrs h m b cls d, inv h m -> In root (map fst m) -> List.length h0 < n + List.length m -> List.length h0 <= b ->
    nth_error h b = Some (mkO cls d) -> NoDup (dkeys d ++ dkeys attrs) ->
    (forall k v, In (k, v) attrs -> match v with Graph _ _ _ => False | _ => True end /\ forall t, target v = Some t -> P t) ->
    exists r, copy_attrs (copy_ref n) (h, m) b attrs = Ok r.
  Proof.
    intros G. induction attrs as [|[k v] attrs IH]; intros h m b cls d I Rm Ln B N D T; cbn [copy_attrs]; [eauto|].
    destruct (T k v) as [Tg Tt]; [left; reflexivity|].
    assert (exists h1 m1 v1, copy_val (copy_ref n) (h, m) v = Ok (h1, m1, v1)) as (h1 & m1 & v1 & C).
    { destruct v as [a|l|f l|f j l]; cbn [copy_val]; [eauto| | |contradiction];
        (destruct (G h m l I Rm (Tt l eq_refl) Ln) as [[[h1 m1] l1] E]; rewrite E; cbn; eauto). }
    rewrite C. cbn [rbind fst snd].
    destruct (copy_val_good (copy_ref n) h m v h1 m1 v1 (copy_ref_good n) I) as [G1 V1]; [intros l Hl; apply PL, Tt, Hl|exact C|].
    assert (b < List.length h) as Bh by apply (nth_lt _ _ _ N).
    assert (nth_error h1 b = Some (mkO cls d)) as N1. { destruct G1 as (_ & _ & S & _). rewrite S; [exact N|exact Bh|discriminate]. }
    assert (~ In k (dkeys d)) as Kd. { cbn in D. apply NoDup_remove_2 in D. intros J. apply D, in_or_app. auto. }
    destruct G1 as (I1 & _ & _ & e & Ee & _).
    apply (IH (setattr h1 b k v1) m1 b cls (d ++ [(k, v1)])).
    - apply inv_set; assumption.
    - rewrite Ee, map_app. apply in_or_app. auto.
    - rewrite Ee, app_length. lia.
    - exact B.
    - rewrite (setattr_same _ _ _ _ _ N1). cbn. rewrite dset_new by exact Kd. reflexivity.
    - unfold dkeys in *. rewrite map_app, <- app_assoc. exact D.
    - intros k' v' J. apply (T k'). right. exact J.
  Qed.
  Lemma copy_ref_can n : can n.
  Proof.
    induction n as [|n IH]; intros h m l I Rm Pl Ln; cbn [copy_ref fst snd].
    - pose proof (memo_short h m I). lia.
    - destruct (mget l m) as [x|] eqn:M; [eauto|].
      assert (nth_error h l = nth_error h0 l) as Eq. { destruct I as (_ & S & _). apply S, PL, Pl. }
      destruct (nth_error h l) as [o|] eqn:N; [|symmetry in Eq; apply nth_error_None in Eq; specialize (PL l Pl); lia].
      symmetry in Eq. destruct (W0 o (nth_error_In _ _ Eq)) as [Wd Wt].
      destruct (copy_attrs_can n IH (o_dict o) (h ++ [mkO (o_cls o) []]) ((l, List.length h) :: m) (List.length h) (o_cls o) []) as [r E].
      + apply inv_new; auto. apply mget_none, M.
      + right. exact Rm.
      + cbn [List.length]. lia.
      + destruct I; assumption.
      + apply nth_app_new.
      + exact Wd.
      + intros k v J. apply (PC l o k); auto. intros ->. apply (mget_none _ _ M Rm).
      + match goal with |- context [copy_attrs ?a ?b ?c ?d] => assert (copy_attrs a b c d = Ok r) as X by exact E end. rewrite X. cbn. eauto.
  Qed.
End Copying.

(** ** the functions of the copy *)
Lemma eqb_no a b : a <> b -> String.eqb a b = false.
Proof. apply String.eqb_neq. Qed.
Lemma look_set h l k v k' : k <> k' -> look (setattr h l k v) l k' = look h l k'.
Proof.
  intros N. unfold look, attr. destruct (nth_error h l) as [o|] eqn:E.
  - rewrite (setattr_same _ _ _ _ _ E). cbn. rewrite dget_dset_other by exact N. reflexivity.
  - rewrite (proj2 (nth_error_None _ _)); [reflexivity|]. rewrite setattr_len. apply nth_error_None, E.
Qed.
Lemma attr_set h l k v k' : k <> k' -> attr (setattr h l k v) l k' = attr h l k'.
Proof.
  intros N. unfold attr. destruct (nth_error h l) as [o|] eqn:E.
  - rewrite (setattr_same _ _ _ _ _ E). cbn. rewrite dget_dset_other by exact N. reflexivity.
  - rewrite (proj2 (nth_error_None _ _)); [reflexivity|]. rewrite setattr_len. apply nth_error_None, E.
Qed.
Lemma attr_set_same h l k v : l < List.length h -> attr (setattr h l k v) l k = Some v.
Proof. intros L. unfold attr. destruct (nth_error h l) as [o|] eqn:E; [|apply nth_error_None in E; lia]. rewrite (setattr_same _ _ _ _ _ E). cbn. apply dget_dset_same. Qed.
Lemma attr_set_other h l k v j k' : j <> l -> attr (setattr h l k v) j k' = attr h j k'.
Proof. intros N. unfold attr. rewrite setattr_other by exact N. reflexivity. Qed.
Lemma cls_set h l k v j : option_map o_cls (nth_error (setattr h l k v) j) = option_map o_cls (nth_error h j).
Proof.
  destruct (Nat.eq_dec j l) as [->|N]; [|rewrite setattr_other by exact N; reflexivity].
  destruct (nth_error h l) as [o|] eqn:E; [rewrite (setattr_same _ _ _ _ _ E); reflexivity|].
  rewrite (proj2 (nth_error_None _ _)); [reflexivity|]. rewrite setattr_len. apply nth_error_None, E.
Qed.
Definition chain (l : list (string * value)) (h : heap) (x : loc) : heap := fold_left (fun h kv => setattr h x (fst kv) (snd kv)) l h.
Lemma chain_len l h x : List.length (chain l h x) = List.length h.
Proof. unfold chain. revert h. induction l as [|p l IH]; intros h; cbn; [reflexivity|]. rewrite IH. apply setattr_len. Qed.
Lemma chain_other l h x j : j <> x -> nth_error (chain l h x) j = nth_error h j.
Proof. intros N. unfold chain. revert h. induction l as [|p l IH]; intros h; cbn; [reflexivity|]. rewrite IH. apply setattr_other, N. Qed.
Lemma chain_cls l h x j : option_map o_cls (nth_error (chain l h x) j) = option_map o_cls (nth_error h j).
Proof. unfold chain. revert h. induction l as [|p l IH]; intros h; cbn; [reflexivity|]. rewrite IH. apply cls_set. Qed.
Lemma chain_attr_no l h x k : ~ In k (map fst l) -> attr (chain l h x) x k = attr h x k.
Proof. unfold chain. revert h. induction l as [|p l IH]; intros h N; cbn; [reflexivity|]. rewrite IH by (intros J; apply N; right; exact J). apply attr_set. intros E. apply N. left. exact E. Qed.
Lemma chain_attr l h x k v : x < List.length h -> NoDup (map fst l) -> In (k, v) l -> attr (chain l h x) x k = Some v.
Proof.
  unfold chain. revert h. induction l as [|p l IH]; intros h L N J; cbn; [contradiction|]. inversion N; subst. destruct J as [->|J].
  - change (attr (chain l (setattr h x k v) x) x k = Some v). cbn [fst snd] in *. rewrite chain_attr_no by assumption. apply attr_set_same, L.
  - apply IH; [rewrite setattr_len; exact L|assumption|exact J].
Qed.
Definition table (jit hvp sparse : string) (x : loc) : list (string * value) :=
  map (fun f => (f, Graph (fst (function_of jit hvp sparse f)) (snd (function_of jit hvp sparse f)) x)) ["loss_val"; "loss_val_grad"; fwdrev; revrev; hessp].
(** the outcome of _make_tf_functions *)
Lemma make_tf_shape h x h' : make_tf_functions h x = Ok h' ->
  exists jit hvp sparse, look h x "jit_compile" = Some jit /\ look h x "hvp_method" = Some hvp /\
    (hvp = "fwdrev" -> exists i, attr h x "indata" = Some (Ref i) /\ look h i "sparse" = Some sparse) /\ h' = chain (table jit hvp sparse x) h x.
Proof.
  unfold make_tf_functions. intros E. unfold atom_of at 1 in E. destruct (attr h x "jit_compile") as [[jit| | |]|] eqn:EJ; try discriminate E. cbn [rbind] in E.
  set (h4 := setattr _ x revrev _) in E. exists jit.
  assert (h4 = chain (firstn 4 (table jit "" "" x)) h x) as E4 by reflexivity.
  assert (attr h4 x "hvp_method" = attr h x "hvp_method") as EH. { rewrite E4. apply chain_attr_no. cbn. unfold fwdrev, revrev. intuition discriminate. }
  assert (attr h4 x "indata" = attr h x "indata") as EI. { rewrite E4. apply chain_attr_no. cbn. unfold fwdrev, revrev. intuition discriminate. }
  unfold atom_of at 1 in E. rewrite EH in E. destruct (attr h x "hvp_method") as [[hvp| | |]|] eqn:EV; try discriminate E. cbn [rbind] in E. exists hvp.
  destruct (String.eqb_spec hvp "fwdrev") as [->|Nv].
  - unfold object_of in E. rewrite EI in E. destruct (attr h x "indata") as [[ |i| |]|] eqn:EN; try discriminate E. cbn [rbind] in E.
    unfold atom_of in E. destruct (attr h4 i "sparse") as [[sp| | |]|] eqn:ES; try discriminate E. cbn [rbind] in E. injection E as <-. exists sp.
    split; [unfold look; rewrite EJ; reflexivity|]. split; [unfold look; rewrite EV; reflexivity|]. split.
    + intros _. exists i. split; [reflexivity|]. unfold look. destruct (Nat.eq_dec i x) as [->|Ni].
      * assert (attr h4 x "sparse" = attr h x "sparse") as EX. { rewrite E4. apply chain_attr_no. cbn. unfold fwdrev, revrev. intuition discriminate. } rewrite <- EX, ES. reflexivity.
      * assert (attr h4 i "sparse" = attr h i "sparse") as EX. { unfold attr. rewrite E4, chain_other by exact Ni. reflexivity. } rewrite <- EX, ES. reflexivity.
    + subst h4. unfold table, chain. cbn [map fold_left fst snd function_of]. unfold function_of. cbn. destruct (String.eqb sp "True"); reflexivity.
  - injection E as <-. exists "". split; [unfold look; rewrite EJ; reflexivity|]. split; [unfold look; rewrite EV; reflexivity|]. split; [congruence|].
    subst h4. unfold table, chain, function_of. apply String.eqb_neq in Nv. cbn. rewrite Nv. reflexivity.
Qed.
Lemma make_tf_ok h x jit hvp sparse : options h x jit hvp sparse -> x < List.length h -> exists h', make_tf_functions h x = Ok h'.
Proof.
  intros (J & V & i & I & S) L. unfold look in J, V. destruct (attr h x "jit_compile") as [[a| | |]|] eqn:EJ; try discriminate J. destruct (attr h x "hvp_method") as [[b| | |]|] eqn:EV; try discriminate V.
  unfold make_tf_functions. unfold atom_of at 1. rewrite EJ. cbn [rbind]. set (h4 := setattr _ x revrev _). assert (h4 = chain (firstn 4 (table a "" "" x)) h x) as E4 by reflexivity.
  assert (attr h4 x "hvp_method" = attr h x "hvp_method") as EH. { rewrite E4. apply chain_attr_no. cbn. unfold fwdrev, revrev. intuition discriminate. }
  assert (attr h4 x "indata" = attr h x "indata") as EI. { rewrite E4. apply chain_attr_no. cbn. unfold fwdrev, revrev. intuition discriminate. }
  unfold atom_of at 1. rewrite EH, EV. cbn [rbind]. destruct (String.eqb b "fwdrev"); [|eauto]. unfold object_of. rewrite EI, I. cbn [rbind].
  assert (attr h4 i "sparse" = attr h i "sparse") as EX.
  { destruct (Nat.eq_dec i x) as [->|Ni]; [rewrite E4; apply chain_attr_no; cbn; unfold fwdrev, revrev; intuition discriminate|unfold attr; rewrite E4, chain_other by exact Ni; reflexivity]. }
  unfold atom_of. rewrite EX. unfold look in S. destruct (attr h i "sparse") as [[c| | |]|]; try discriminate S. cbn. eauto.
Qed.
Lemma table_keys jit hvp sparse x : map fst (table jit hvp sparse x) = ["loss_val"; "loss_val_grad"; fwdrev; revrev; hessp].
Proof. reflexivity. Qed.
Lemma table_nodup jit hvp sparse x : NoDup (map fst (table jit hvp sparse x)).
Proof. rewrite table_keys. repeat constructor; cbn; unfold fwdrev, revrev, hessp; intuition discriminate. Qed.
Lemma table_dynamic jit hvp sparse x f : In f (map fst (table jit hvp sparse x)) <-> In f dynamic.
Proof. rewrite table_keys. cbn. tauto. Qed.
Lemma table_in jit hvp sparse x f : In f dynamic -> In (f, Graph (fst (function_of jit hvp sparse f)) (snd (function_of jit hvp sparse f)) x) (table jit hvp sparse x).
Proof. intros I. unfold table. apply (in_map (fun f => (f, Graph (fst (function_of jit hvp sparse f)) (snd (function_of jit hvp sparse f)) x))). cbn in *. tauto. Qed.
Lemma call_attr h x f g j y : attr h x f = Some (Graph g j y) -> call h x f = Some (g, j, y).
Proof. unfold attr, call. destruct (nth_error h x); [|discriminate]. intros ->. reflexivity. Qed.
Lemma method_fun jit hvp sparse f : In f tf_methods -> function_of jit hvp sparse f = (f, false).
Proof. intros I. cbn in I. repeat (destruct I as [<-|I]; [reflexivity|]). contradiction. Qed.
Lemma method_not_dynamic f : In f tf_methods -> ~ In f dynamic.
Proof. intros I J. cbn in I. repeat (destruct I as [<-|I]; [cbn in J; unfold hessp, fwdrev, revrev in J; intuition discriminate|]). contradiction. Qed.
Lemma skipped_spec k : skipped k = true <-> In k tf_methods \/ In k dynamic.
Proof. unfold skipped. rewrite orb_true_iff, !smem_In. tauto. Qed.

(** ** the structure of a copy *)
Lemma deepcopy_shape limit h self h' new : wf h -> deepcopy limit h self = Ok (h', new) ->
  exists o m d2 jit hvp sparse,
    nth_error h self = Some o /\ new = List.length h /\ List.length h < List.length h' /\
    (forall i, i < List.length h -> nth_error h' i = nth_error h i) /\
    In (self, new) m /\ NoDup (map fst m) /\ NoDup (map snd m) /\
    (forall a b, In (a, b) m -> a < List.length h /\ List.length h <= b /\ b < List.length h') /\
    (forall a b, In (a, b) m -> a <> self -> fin h h' m a b) /\
    Forall2 (kvr m) (filter (fun kv => negb (skipped (fst kv))) (o_dict o)) d2 /\
    (exists h1, nth_error h1 new = Some (mkO (o_cls o) d2) /\ h' = chain (table jit hvp sparse new) h1 new /\
       look h1 new "jit_compile" = Some jit /\ look h1 new "hvp_method" = Some hvp /\
       (hvp = "fwdrev" -> exists i, attr h1 new "indata" = Some (Ref i) /\ look h1 i "sparse" = Some sparse)).
Proof.
  intros W E. unfold deepcopy in E. destruct (nth_error h self) as [o|] eqn:N; [|discriminate E].
  destruct (copy_attrs _ _ _ _) as [[h1 m1]|] eqn:C; [|discriminate E]. cbn [rbind fst] in E.
  destruct (make_tf_functions h1 (List.length h)) as [h2|] eqn:M; [|discriminate E]. cbn in E. injection E as <- <-.
  destruct (W o (nth_error_In _ _ N)) as [Wd Wt]. pose proof (nth_lt _ _ _ N) as L.
  assert (inv h (h ++ [mkO (o_cls o) []]) [(self, List.length h)]) as I0.
  { apply inv_new; [|exact L|intros []]. split; [lia|]. split; [reflexivity|]. split; [intros a b []|]. split; constructor. }
  destruct (copy_attrs_good h _ (copy_ref_good h W limit) (filter (fun kv => negb (skipped (fst kv))) (o_dict o)) (h ++ [mkO (o_cls o) []]) [(self, List.length h)] (List.length h) h1 m1 (o_cls o) [])
    as [G (d2 & N2 & F2)].
  - exact I0.
  - lia.
  - apply nth_app_new.
  - cbn [dkeys map app]. unfold dkeys in *. clear -Wd. induction (o_dict o) as [|[k v] d IH]; cbn; [constructor|]. inversion Wd; subst. destruct (negb (skipped k)); cbn; [constructor|]; auto.
    intros J. apply H1. apply in_map_iff in J. destruct J as ([k' v'] & <- & J). apply filter_In in J. apply (in_map fst _ _ (proj1 J)).
  - intros k v l J. apply filter_In in J. apply (Wt k), J.
  - exact C.
  - destruct G as (I1 & L1 & S1 & e & Ee & Fe). rewrite app_length in L1. cbn in L1. cbn [app] in N2.
    destruct (make_tf_shape _ _ _ M) as (jit & hvp & sparse & EJ & EV & ES & ->).
    exists o, m1, d2, jit, hvp, sparse. rewrite chain_len. split; [reflexivity|]. split; [reflexivity|]. split; [lia|].
    split; [intros i J; rewrite chain_other by lia; destruct I1 as (_ & S & _); apply S, J|].
    split; [rewrite Ee; apply in_or_app; right; left; reflexivity|]. split; [apply I1|]. split; [apply I1|]. split; [apply I1|].
    split.
    { intros a b J Na. rewrite Ee in J. apply in_app_or in J. destruct J as [J|[J|[]]]; [|congruence]. destruct (Fe a b J) as [B F].
      replace m1 with ([] ++ m1) by reflexivity. apply (fin_mono h h1); [exact F|]. apply chain_other. rewrite app_length in B. cbn in B. lia. }
    split; [exact F2|]. exists h1. repeat split; auto.
Qed.

(** ** corresponding heaps *)
Definition orel (f : loc -> loc -> Prop) (a b : option loc) : Prop := match a, b with Some x, Some y => f x y | None, None => True | _, _ => False end.
Definition same_obj (f : loc -> loc -> Prop) (H h : heap) (a b : loc) : Prop :=
  (exists o o', nth_error H a = Some o /\ nth_error h b = Some o' /\ o_cls o = o_cls o') /\ forall k, look H a k = look h b k /\ orel f (step H a k) (step h b k).
Definition sim (f : loc -> loc -> Prop) (H h : heap) : Prop :=
  (forall a b b', f a b -> f a b' -> b = b') /\ (forall a a' b, f a b -> f a' b -> a = a') /\ forall a b, f a b -> same_obj f H h a b.
Lemma sim_walk f H h p : sim f H h -> forall a b, f a b -> orel f (walk H a p) (walk h b p).
Proof.
  intros S. induction p as [|k p IH]; intros a b F; cbn [walk]; [exact F|]. destruct S as (_ & _ & S). destruct (S a b F) as [_ K]. destruct (K k) as [_ K'].
  destruct (step H a k), (step h b k); cbn in K'; try contradiction; [apply IH, K'|exact I].
Qed.
Lemma sim_read f H h a b p k : sim f H h -> f a b -> read H a p k = read h b p k.
Proof.
  intros S F. pose proof (sim_walk f H h p S a b F) as K. unfold read. destruct (walk H a p), (walk h b p); cbn in K; try contradiction; [|reflexivity].
  destruct S as (_ & _ & S). apply (S _ _ K).
Qed.
Lemma sim_dom f H h a b : sim f H h -> f a b -> a < List.length H /\ b < List.length h.
Proof. intros (_ & _ & S) F. destruct (S a b F) as [(o & o' & A & B & _) _]. split; eapply nth_lt; eassumption. Qed.
(** what is seen of an object *)
Lemma step_set h l k v k' : l < List.length h -> step (setattr h l k v) l k' =
  if String.eqb k k' then match target v with Some x => Some x | None => None end else step h l k'.
Proof.
  intros L. destruct (nth_error h l) as [o|] eqn:E; [|apply nth_error_None in E; lia]. unfold step, attr, call. rewrite (setattr_same _ _ _ _ _ E), E. cbn [o_dict o_cls].
  rewrite dget_dset. destruct (String.eqb k k'); [destruct v; reflexivity|reflexivity].
Qed.
Lemma look_set_all h l k v k' : l < List.length h -> look (setattr h l k v) l k' = if String.eqb k k' then match v with Atom a => Some a | _ => None end else look h l k'.
Proof.
  intros L. destruct (nth_error h l) as [o|] eqn:E; [|apply nth_error_None in E; lia]. unfold look, attr. rewrite (setattr_same _ _ _ _ _ E), E. cbn [o_dict]. rewrite dget_dset.
  destruct (String.eqb k k'); [destruct v; reflexivity|reflexivity].
Qed.
Lemma step_set_other h l k v j k' : j <> l -> step (setattr h l k v) j k' = step h j k' /\ look (setattr h l k v) j k' = look h j k'.
Proof. intros N. unfold step, look, attr, call. rewrite setattr_other by exact N. split; reflexivity. Qed.
Lemma step_app h o j k : j < List.length h -> step (h ++ [o]) j k = step h j k /\ look (h ++ [o]) j k = look h j k.
Proof. intros L. unfold step, look, attr, call. rewrite nth_app_l by exact L. split; reflexivity. Qed.
Lemma orel_mono (f g : loc -> loc -> Prop) a b : (forall x y, f x y -> g x y) -> orel f a b -> orel g a b.
Proof. intros M. destruct a, b; cbn; auto. Qed.
(** a write of the same value on both sides *)
Lemma sim_set f H h a b k v v' : sim f H h -> f a b -> (match v, v' with Atom x, Atom y => x = y | Ref x, Ref y => f x y | _, _ => False end) ->
  sim f (setattr H a k v) (setattr h b k v').
Proof.
  intros S F V. pose proof (sim_dom _ _ _ _ _ S F) as [La Lb]. destruct S as (S1 & S2 & S3). split; [exact S1|]. split; [exact S2|]. intros a' b' F'.
  destruct (S3 a' b' F') as [(o & o' & A & B & Cl) K].
  destruct (Nat.eq_dec a' a) as [->|Na].
  - assert (b' = b) as -> by (apply (S1 a); assumption). split.
    + exists (mkO (o_cls o) (dset k v (o_dict o))), (mkO (o_cls o') (dset k v' (o_dict o'))). rewrite (setattr_same _ _ _ _ _ A), (setattr_same _ _ _ _ _ B). auto.
    + intros k'. rewrite !step_set, !look_set_all by assumption. destruct (String.eqb k k'); [|apply K]. destruct v, v'; try contradiction; subst; cbn; auto.
  - assert (b' <> b) as Nb by (intros ->; apply Na, (S2 a' a b); assumption). split.
    + exists o, o'. rewrite !setattr_other by assumption. auto.
    + intros k'. destruct (step_set_other H a k v a' k' Na) as [-> ->], (step_set_other h b k v' b' k' Nb) as [-> ->]. apply K.
Qed.
Definition plus_new (f : loc -> loc -> Prop) (H h : heap) (a b : loc) : Prop := f a b \/ a = List.length H /\ b = List.length h.
Lemma sim_new f H h c : sim f H h -> sim (plus_new f H h) (H ++ [mkO c []]) (h ++ [mkO c []]).
Proof.
  intros S. pose proof (sim_dom f H h) as D. destruct S as (S1 & S2 & S3). assert (S' := conj S1 (conj S2 S3)). split.
  { intros a b b' [F|[-> ->]] [F'|[E ->]]; [apply (S1 a); assumption|subst; destruct (D _ _ S' F); lia|destruct (D _ _ S' F'); lia|reflexivity]. }
  split.
  { intros a a' b [F|[-> ->]] [F'|[-> E]]; [apply (S2 a a' b); assumption|subst; destruct (D _ _ S' F); lia|destruct (D _ _ S' F'); lia|reflexivity]. }
  intros a b [F|[-> ->]].
  - destruct (D _ _ S' F) as [La Lb]. destruct (S3 a b F) as [(o & o' & A & B & Cl) K]. split.
    + exists o, o'. rewrite !nth_app_l by assumption. auto.
    + intros k. destruct (step_app H (mkO c []) a k La) as [-> ->], (step_app h (mkO c []) b k Lb) as [-> ->]. destruct (K k) as [K1 K2]. split; [exact K1|].
      apply (orel_mono f); [left; assumption|exact K2].
  - split; [exists (mkO c []), (mkO c []); rewrite !nth_app_new; auto|]. intros k. unfold look, step, attr, call. rewrite !nth_app_new. cbn [o_dict o_cls dget]. split; [reflexivity|].
    destruct (smem k (class_methods c)); cbn; [right; split; reflexivity|exact I].
Qed.
Lemma sim_exec f H h a b o : sim f H h -> f a b -> exists g, sim g (exec H a o) (exec h b o) /\ (forall x y, f x y -> g x y) /\ (forall x y, g x y -> f x y \/ List.length H <= x).
Proof.
  intros S F. pose proof (sim_walk f H h (op_path o) S a b F) as W. unfold exec. destruct (walk H a (op_path o)) as [x|], (walk h b (op_path o)) as [y|]; cbn in W; try contradiction; [|exists f; auto].
  destruct (op_src o) as [v|p|c].
  - exists f. split; [apply sim_set; auto; reflexivity|auto].
  - pose proof (sim_walk f H h p S a b F) as Wp. destruct (walk H a p) as [x'|], (walk h b p) as [y'|]; cbn in Wp; try contradiction; exists f; auto. split; [apply sim_set; auto|auto].
  - exists (plus_new f H h). split; [apply sim_set; [apply sim_new, S|left; exact W|right; split; reflexivity]|]. split; [intros; left; assumption|]. intros u v [K|[-> _]]; [auto|right; lia].
Qed.
(** a step of another object which shares nothing *)
Lemma exec_len h a o : List.length h <= List.length (exec h a o).
Proof.
  unfold exec. destruct (walk h a (op_path o)); [|lia]. destruct (op_src o) as [v|p|c]; [rewrite setattr_len; lia|destruct (walk h a p); rewrite ?setattr_len; lia|rewrite setattr_len, app_length; lia].
Qed.
Lemma exec_frame h a o x : x < List.length h -> walk h a (op_path o) <> Some x -> nth_error (exec h a o) x = nth_error h x.
Proof.
  intros L N. unfold exec. destruct (walk h a (op_path o)) as [l|]; [|reflexivity]. assert (x <> l) by (intros ->; apply N; reflexivity).
  destruct (op_src o) as [v|p|c]; [apply setattr_other; assumption|destruct (walk h a p); [apply setattr_other; assumption|reflexivity]|rewrite setattr_other by assumption; apply nth_app_l, L].
Qed.
Lemma sim_frame f H H' h : sim f H h -> (forall a b, f a b -> nth_error H' a = nth_error H a) -> sim f H' h.
Proof.
  intros (S1 & S2 & S3) E. split; [exact S1|]. split; [exact S2|]. intros a b F. destruct (S3 a b F) as [K1 K2]. split.
  - destruct K1 as (o & o' & A & B). exists o, o'. rewrite (E a b F). auto.
  - intros k. unfold look, step, attr, call in *. rewrite (E a b F). apply K2.
Qed.
Lemma walk_rel f H h p a b x : sim f H h -> f a b -> walk H a p = Some x -> exists y, f x y.
Proof. intros S F E. pose proof (sim_walk f H h p S a b F) as W. rewrite E in W. destruct (walk h b p) as [y|]; [exists y; exact W|contradiction]. Qed.
Lemma run2_sim prog : forall f g H h1 h2 a b c d, sim f H h1 -> sim g H h2 -> (forall x y z, f x y -> g x z -> False) -> f a b -> g c d ->
  exists f' g', sim f' (run2 H a c prog) (run h1 b (steps_of true prog)) /\ sim g' (run2 H a c prog) (run h2 d (steps_of false prog)) /\ f' a b /\ g' c d.
Proof.
  induction prog as [|[w o] prog IH]; intros f g H h1 h2 a b c d Sf Sg D Fa Gc; [exists f, g; auto|].
  unfold run2, run, steps_of in *. cbn [fold_left fst snd filter map Bool.eqb]. destruct w; cbn [Bool.eqb map fold_left snd].
  - destruct (sim_exec f H h1 a b o Sf Fa) as (f' & S' & M1 & M2). apply (IH f' g); auto.
    + apply (sim_frame g H); [exact Sg|]. intros x y G. apply exec_frame; [apply (sim_dom g H h2 x y Sg G)|]. intros E. destruct (walk_rel f H h1 _ _ _ _ Sf Fa E) as [z Z]. apply (D x z y Z G).
    + intros x y z F' G. destruct (M2 x y F') as [F|L]; [apply (D x y z F G)|]. destruct (sim_dom g H h2 x z Sg G). lia.
  - destruct (sim_exec g H h2 c d o Sg Gc) as (g' & S' & M1 & M2). apply (IH f g'); auto.
    + apply (sim_frame f H); [exact Sf|]. intros x y F. apply exec_frame; [apply (sim_dom f H h1 x y Sf F)|]. intros E. destruct (walk_rel g H h2 _ _ _ _ Sg Gc E) as [z Z]. apply (D x y z F Z).
    + intros x y z F G'. destruct (M2 x z G') as [G|L]; [apply (D x y z F G)|]. destruct (sim_dom f H h1 x y Sf F). lia.
Qed.

(** ** the copy corresponds to the original *)
Lemma kvr_get m d d' k : Forall2 (kvr m) d d' -> match dget k d, dget k d' with Some v, Some v' => vtr m v v' | None, None => True | _, _ => False end.
Proof. induction 1 as [|[k1 v1] [k2 v2] d d' [A B] H IH]; cbn; [exact I|]. cbn in A. subst k2. destruct (String.eqb k k1); [exact B|exact IH]. Qed.
Lemma dget_kept k (d : dict value) : skipped k = false -> dget k (filter (fun kv => negb (skipped (fst kv))) d) = dget k d.
Proof.
  intros E. induction d as [|[k' v] d IH]; cbn; [reflexivity|]. destruct (String.eqb_spec k k') as [<-|N].
  - rewrite E. cbn. rewrite String.eqb_refl. reflexivity.
  - destruct (negb (skipped k')); cbn; [rewrite (eqb_no _ _ N)|]; exact IH.
Qed.
Lemma dget_gone k (d : dict value) : skipped k = true -> dget k (filter (fun kv => negb (skipped (fst kv))) d) = None.
Proof.
  intros E. induction d as [|[k' v] d IH]; cbn; [reflexivity|]. destruct (String.eqb_spec k k') as [<-|N].
  - rewrite E. cbn. exact IH.
  - destruct (negb (skipped k')); cbn; [rewrite (eqb_no _ _ N)|]; exact IH.
Qed.
Lemma nodup_fst_fun (m : memo) a b b' : NoDup (map fst m) -> In (a, b) m -> In (a, b') m -> b = b'.
Proof.
  induction m as [|[x y] m IH]; cbn; [contradiction|]. intros N [E|I1] [E'|I2]; inversion N; subst.
  - congruence.
  - injection E as -> ->. exfalso. apply H1. apply (in_map fst _ _ I2).
  - injection E' as -> ->. exfalso. apply H1. apply (in_map fst _ _ I1).
  - apply IH; assumption.
Qed.
Lemma nodup_snd_inj (m : memo) a a' b : NoDup (map snd m) -> In (a, b) m -> In (a', b) m -> a = a'.
Proof.
  induction m as [|[x y] m IH]; cbn; [contradiction|]. intros N [E|I1] [E'|I2]; inversion N; subst.
  - congruence.
  - injection E as -> ->. exfalso. apply H1. apply (in_map snd _ _ I2).
  - injection E' as -> ->. exfalso. apply H1. apply (in_map snd _ _ I1).
  - apply IH; assumption.
Qed.
Lemma views m (h H : heap) a b o o' k : nth_error h a = Some o -> nth_error H b = Some o' -> o_cls o' = o_cls o -> In (a, b) m ->
  match dget k (o_dict o), dget k (o_dict o') with Some v, Some v' => vtr m v v' | None, None => True | _, _ => False end ->
  look H b k = look h a k /\ orel (fun x y => In (y, x) m) (step H b k) (step h a k).
Proof.
  intros A B C J V. unfold look, step, attr, call. rewrite A, B, C. destruct (dget k (o_dict o)) as [[x|x|g x|g j x]|], (dget k (o_dict o')) as [[y|y|g' y|g' j' y]|]; cbn in V; try contradiction.
  - subst. split; [reflexivity|exact I].
  - split; [reflexivity|exact V].
  - split; [reflexivity|apply V].
  - split; [reflexivity|]. destruct (smem k (class_methods (o_cls o))); cbn; [exact J|exact I].
Qed.
Lemma copy_sim limit h self h' new : wf h -> is_fitter h self -> bound h self -> deepcopy limit h self = Ok (h', new) ->
  exists f, sim f h' h /\ f new self /\ (forall x y, f x y -> List.length h <= x) /\ (forall i, i < List.length h -> nth_error h' i = nth_error h i).
Proof.
  intros W (o0 & No0 & Cl) Bd E. destruct (deepcopy_shape _ _ _ _ _ W E) as (o & m & d2 & jit & hvp & sparse & No & Enew & L & S & Im & N1 & N2 & K & Fin & F2 & h1 & Nn & Eh & _).
  rewrite No in No0. injection No0 as <-.
  exists (fun x y => In (y, x) m). split.
  - split; [intros a b b' A B; apply (nodup_snd_inj m b b' a); assumption|]. split; [intros a a' b A B; apply (nodup_fst_fun m b); assumption|].
    intros b a J. destruct (Nat.eq_dec a self) as [->|Na].
    + assert (b = new) as -> by (apply (nodup_fst_fun m self); assumption). clear J.
      assert (exists o', nth_error h' new = Some o' /\ o_cls o' = o_cls o) as (o' & No' & Co').
      { pose proof (chain_cls (table jit hvp sparse new) h1 new new) as CC. rewrite <- Eh, Nn in CC. destruct (nth_error h' new) as [o'|]; [|discriminate CC]. exists o'. injection CC as CC. auto. }
      split; [exists o', o; auto|]. intros k. destruct (skipped k) eqn:Sk.
      * assert (In k (tf_methods ++ dynamic)) as Jk by (apply in_or_app, skipped_spec, Sk). destruct (Bd k Jk) as (g & j & Ck).
        assert (look h self k = None /\ step h self k = Some self) as [-> ->].
        { unfold look, step. unfold call in *. unfold attr. rewrite No in *. destruct (dget k (o_dict o)) as [[x|x|g' x|g' j' x]|]; try discriminate Ck; split; try reflexivity; try (injection Ck as _ _ ->; reflexivity). rewrite Ck. reflexivity. }
        assert (look h' new k = None /\ step h' new k = Some new) as [-> ->]; [|split; [reflexivity|exact Im]].
        apply in_app_or in Jk. destruct Jk as [Jk|Jk].
        -- assert (attr h' new k = None) as A.
           { rewrite Eh, chain_attr_no by (rewrite table_dynamic; apply method_not_dynamic, Jk). unfold attr. rewrite Nn. cbn.
             pose proof (kvr_get _ _ _ k F2) as V. rewrite (dget_gone k _ Sk) in V. destruct (dget k d2); [contradiction|reflexivity]. }
           unfold look, step, call. rewrite A. unfold attr in A. rewrite No' in *. rewrite A, Co', Cl. cbn [class_methods String.eqb]. replace (class_methods "Fitter") with tf_methods by reflexivity.
           rewrite (proj2 (smem_In k tf_methods) Jk). auto.
        -- assert (attr h' new k = Some (Graph (fst (function_of jit hvp sparse k)) (snd (function_of jit hvp sparse k)) new)) as A.
           { rewrite Eh. apply chain_attr; [apply (nth_lt _ _ _ Nn)|apply table_nodup|apply table_in, Jk]. }
           unfold look, step. rewrite (call_attr _ _ _ _ _ _ A), A. auto.
      * apply (views m h h' self new o o' k); auto. pose proof (kvr_get _ _ _ k F2) as V. rewrite (dget_kept k _ Sk) in V.
        assert (attr h' new k = dget k d2) as A.
        { rewrite Eh, chain_attr_no; [unfold attr; rewrite Nn; reflexivity|]. rewrite table_dynamic. intros J. assert (skipped k = true) by (apply skipped_spec; auto). congruence. }
        unfold attr in A. rewrite No' in A. rewrite A. exact V.
    + destruct (Fin a b J Na) as (oa & ob & A & B & C & D). split; [exists ob, oa; auto|]. intros k. apply (views m h h' a b oa ob k); auto. apply kvr_get, D.
  - split; [exact Im|]. split; [intros x y J; apply (K y x J)|exact S].
Qed.
Lemma self_sim h h' : wf h -> (forall i, i < List.length h -> nth_error h' i = nth_error h i) -> sim (fun x y => x = y /\ x < List.length h) h' h.
Proof.
  intros W S. split; [intros a b b' [-> _] [-> _]; reflexivity|]. split; [intros a a' b [-> _] [-> _]; reflexivity|]. intros a b [-> L].
  destruct (nth_error h b) as [o|] eqn:N; [|apply nth_error_None in N; lia]. split; [exists o, o; rewrite S by exact L; auto|].
  intros k. unfold look, step, attr, call. rewrite (S b L), N. split; [reflexivity|]. destruct (W o (nth_error_In _ _ N)) as [_ T].
  destruct (dget k (o_dict o)) as [v|] eqn:D.
  - apply dget_In in D. specialize (T k v). destruct v as [x|x|g x|g j x]; cbn; try exact I; (split; [reflexivity|apply (T x D eq_refl)]).
  - destruct (smem k (class_methods (o_cls o))); cbn; [split; [reflexivity|exact L]|exact I].
Qed.
