(** Histograms are found where they are, if they are deep enough. *)
From Coq Require Import List Arith Bool String Ascii Lia.
From Verif Require Import PyList PyDict Card_Model Rfile_Model Rfile_Spec.
Import ListNotations.
Local Open Scope list_scope.

Section Proof.
  Context {H : Type}.
  Notation rdir := (rdir H). Notation rnode := (rnode H). Notation vnode := (vnode H).

  Lemma In_dget' {V} k (v : V) (d : list (string * V)) : NoDup (map fst d) -> In (k, v) d <-> dget k d = Some v.
  Proof. intros N. split; [apply In_dget; auto|apply dget_In]. Qed.

  Lemma root_get_cons (l : rdir) p q r : root_get l (p :: q :: r) = match dget p l with Some (RDir l') => root_get l' (q :: r) | _ => None end.
  Proof. reflexivity. Qed.
  Lemma located_root ps : forall (l : rdir) n, unique (List.length ps) l -> located l ps n <-> root_get l ps = Some n.
  Proof.
    induction ps as [|p [|q r] IH]; intros l n U.
    - split; [intros X; inversion X|discriminate].
    - destruct U as [U _]. cbn [root_get]. rewrite <- In_dget' by auto. split.
      + intros X. inversion X; subst; auto. inversion H5.
      + intros X. constructor. auto.
    - rewrite root_get_cons. destruct U as [U U2]. split.
      + intros X. inversion X; subst. apply (In_dget' p) in H3; auto. rewrite H3. apply IH; auto. eapply U2. apply dget_In. eauto.
      + intros X. destruct (dget p l) as [[c h|l']|] eqn:E; try discriminate. apply (loc_below l p l').
        * apply dget_In. auto.
        * apply IH; auto. eapply U2. apply dget_In. eauto.
  Qed.

  Lemma walk_empty ps : walk ps (VDict [] : vnode) = Ok (VDict []).
  Proof. induction ps; simpl; auto. Qed.
  Lemma walk_cons p r (v : vnode) : walk (p :: r) v = (w <- vget p v ;; walk r w).
  Proof. reflexivity. Qed.

  Lemma walk_dir ps : forall (l : rdir) c h, ps <> [] -> walk ps (VDir l) = Ok (VObj c h) <-> root_get l ps = Some (RObj c h).
  Proof.
    induction ps as [|p [|q r] IH]; intros l c h NE; [contradiction| |].
    - cbn [walk vget rbind root_get]. destruct (dget p l) as [[c' h'|l']|]; cbn [to_v]; split; intros X; congruence.
    - rewrite root_get_cons, walk_cons. cbn [vget rbind]. destruct (dget p l) as [[c' h'|l']|]; cbn [to_v].
      + split; discriminate.
      + apply IH. discriminate.
      + rewrite walk_empty. split; discriminate.
  Qed.

  Lemma dget_map {A B} (f : A -> B) p (l : list (string * A)) : dget p (map (fun e => (fst e, f (snd e))) l) = option_map f (dget p l).
  Proof. induction l as [|[k v] l IH]; simpl; auto. destruct (String.eqb p k); auto. Qed.
  Lemma dget_dirs p (l : rdir) : NoDup (map fst l) ->
    dget p (filter is_dir l) = match dget p l with Some (RDir l') => Some (RDir l') | _ => None end.
  Proof.
    induction l as [|[k v] l IH]; intros N; simpl; auto. inversion N; subst. specialize (IH H3).
    destruct v as [c h|l'].
    - unfold is_dir at 1. simpl. rewrite IH. destruct (String.eqb_spec p k); auto. subst k.
      destruct (dget p l) as [[c' h'|l']|] eqn:E; auto. exfalso. apply H2. apply dget_In in E. apply (in_map fst) in E. auto.
    - unfold is_dir at 1. simpl. destruct (String.eqb p k); auto.
  Qed.
  Lemma no_dirs (l : rdir) : filter is_dir l = [] <-> forall q l', ~ In (q, RDir l') l.
  Proof.
    split.
    - intros E q l' I. assert (X : In (q, RDir l') (filter is_dir l)) by (apply filter_In; auto). rewrite E in X. destruct X.
    - intros E. destruct (filter is_dir l) as [|[q [c h|l']] t] eqn:F; auto.
      + assert (X : In (q, RObj c h) (filter is_dir l)) by (rewrite F; simpl; auto). apply filter_In in X. destruct X; discriminate.
      + exfalso. apply (E q l'). assert (X : In (q, RDir l') (filter is_dir l)) by (rewrite F; simpl; auto). apply filter_In in X. tauto.
  Qed.
  Lemma dirs_not_obj k (l : rdir) c h : get_directories k l <> VObj c h.
  Proof. destruct k; cbn [get_directories]; destruct (filter is_dir l); discriminate. Qed.

  (** one step below the top of a file with directories *)
  Definition below (k : nat) (l' : rdir) : vnode := match k with O => VDir l' | S k => get_directories k l' end.
  Definition entry (k : nat) (n : rnode) : vnode := match n with RDir l' => below k l' | RObj c h => VObj c h end.
  Lemma gd_step k (l : rdir) p : NoDup (map fst l) -> filter is_dir l <> [] ->
    vget p (get_directories k l) = Ok (match dget p l with Some (RDir l') => below k l' | _ => VDict [] end).
  Proof.
    intros N NE.
    assert (E : get_directories k l = VDict (map (fun e => (fst e, entry k (snd e))) (filter is_dir l))).
    { destruct k; cbn [get_directories]; destruct (filter is_dir l) as [|e t] eqn:F; try contradiction; f_equal; apply map_ext; intros [q [c h|l']]; auto. }
    rewrite E. cbn [vget].
    rewrite (dget_map (entry k)), dget_dirs by auto.
    destruct (dget p l) as [[c h|l']|]; auto.
  Qed.

  Lemma flat_cons (l : rdir) p q r : NoDup (map fst l) ->
    flat l (p :: q :: r) <-> exists l', dget p l = Some (RDir l') /\ flat l' (q :: r).
  Proof.
    intros N. split.
    - intros X. inversion X; subst. exists l'. split; auto. apply In_dget'; auto.
    - intros (l' & D & F). apply (flat_below l p l'); auto. apply dget_In. auto.
  Qed.

  Lemma walk_dirs k : forall (l : rdir) ps c h, ps <> [] -> unique (List.length ps) l ->
    walk ps (get_directories k l) = Ok (VObj c h) <->
    root_get l ps = Some (RObj c h) /\ (S k < List.length ps \/ flat l ps).
  Proof.
    induction k as [k IH] using lt_wf_ind. intros l ps c h NE U.
    destruct (filter is_dir l) as [|e t] eqn:F.
    - assert (G : get_directories k l = VDir l) by (destruct k; cbn [get_directories]; rewrite F; auto).
      rewrite G, walk_dir by auto. split; [|tauto]. intros R. split; auto. right.
      assert (F' := proj1 (no_dirs l) F). clear F. rename F' into F. destruct ps as [|p [|q r]]; [contradiction| |].
      + constructor. auto.
      + exfalso. rewrite root_get_cons in R. destruct (dget p l) as [[c' h'|l']|] eqn:D; try discriminate.
        apply dget_In in D. eapply F; eauto.
    - assert (FN : filter is_dir l <> []) by congruence. clear e t F.
      destruct ps as [|p ps]; [contradiction|]. rewrite walk_cons.
      assert (N : NoDup (map fst l)) by (destruct U; auto).
      rewrite gd_step by auto. cbn [rbind]. destruct ps as [|q r].
      + cbn [walk root_get List.length]. split.
        * intros X. exfalso. destruct (dget p l) as [[c' h'|l']|]; try discriminate.
          destruct k; cbn [below] in X; [discriminate|]. injection X as X. apply (dirs_not_obj _ _ _ _ X).
        * intros [_ [L|Fl]]; [lia|]. exfalso. inversion Fl; subst. { apply FN. apply no_dirs. auto. } match goal with X : flat _ [] |- _ => inversion X end.
      + rewrite root_get_cons. rewrite flat_cons by auto.
        destruct (dget p l) as [[c' h'|l']|] eqn:D.
        * rewrite walk_empty. split; [discriminate|]. intros [X _]. discriminate.
        * assert (U' : unique (List.length (q :: r)) l').
          { destruct U as [_ U]. eapply U. apply dget_In. eauto. }
          destruct k as [|k].
          { cbn [below]. rewrite walk_dir by discriminate. cbn [List.length]. split; [|tauto]. intros X. split; auto. left. lia. }
          cbn [below]. rewrite (IH k) by (try lia; auto; discriminate). cbn [List.length].
          split; intros [A B]; (split; [auto|]).
          { destruct B as [B|B]; [left; lia|right; exists l'; auto]. }
          { destruct B as [B|(l'' & B1 & B2)]; [left; lia|]. right. injection B1 as <-. auto. }
        * rewrite walk_empty. split; [discriminate|]. intros [X _]. discriminate.
  Qed.

  (** what uproot finds *)
  Theorem up_find_spec m (l : rdir) ps h : ps <> [] -> unique (List.length ps) l ->
    up_find m l ps = Ok (Some h) <-> located l ps (RObj TH1 h) /\ (m < List.length ps \/ flat l ps).
  Proof.
    intros NE U. unfold up_find.
    assert (W : (v <- walk ps (load m l) ;; match v with VObj TH1 h => Ok (Some h) | VDict [] => Ok None | VDict _ => Raise GenericException | _ => Ok None end) = Ok (Some h)
      <-> walk ps (load m l) = Ok (VObj TH1 h)).
    { destruct (walk ps (load m l)) as [[[| |] h'|d|[|e t]]|x]; cbn [rbind]; split; intros X; try discriminate; congruence. }
    rewrite W, located_root by auto. destruct m as [|k]; cbn [load].
    - rewrite walk_dir by auto. split; [|tauto]. intros X. split; auto. left. destruct ps; [contradiction|simpl; lia].
    - apply walk_dirs; auto.
  Qed.
  (** what ROOT finds *)
  Theorem root_find_spec (l : rdir) ps h : unique (List.length ps) l ->
    root_find l ps = Some h <-> located l ps (RObj TH1 h) \/ located l ps (RObj THn h).
  Proof.
    intros U. rewrite !located_root by auto. unfold root_find. destruct (root_get l ps) as [[[| |] h'|d]|]; split; intros X;
      try discriminate; try (destruct X; discriminate); try (destruct X as [X|X]; congruence); [left|right]; congruence.
  Qed.

  (** no exceptions: nothing on the way is an object *)
  Definition plain (v : vnode) : Prop := match v with VDict (_ :: _) => False | _ => True end.
  Definition open_way (l : rdir) (ps : list string) : Prop := forall a b c h, ps = a ++ b -> a <> [] -> b <> [] -> ~ located l a (RObj c h).
  Lemma open_below (l : rdir) p l' ps : In (p, RDir l') l -> open_way l (p :: ps) -> open_way l' ps.
  Proof.
    intros I O a b c h E A B L. apply (O (p :: a) b c h); auto. { simpl. congruence. } { discriminate. } eapply loc_below; eauto.
  Qed.
  Lemma walk_dir_plain ps : forall (l : rdir), open_way l ps -> exists v, walk ps (VDir l) = Ok v /\ plain v.
  Proof.
    induction ps as [|p r IH]; intros l O. { exists (VDir l). split; [reflexivity|exact I]. }
    rewrite walk_cons. cbn [vget rbind]. destruct (dget p l) as [[c h|l']|] eqn:D; cbn [to_v].
    - destruct r as [|q r]. { exists (VObj c h). split; [reflexivity|exact I]. }
      exfalso. apply (O [p] (q :: r) c h); auto; try discriminate. constructor. apply dget_In. auto.
    - apply IH. eapply open_below; eauto. apply dget_In. auto.
    - rewrite walk_empty. eexists. split; [reflexivity|exact I].
  Qed.
  Lemma walk_dirs_plain k : forall (l : rdir) ps, unique (List.length ps) l -> open_way l ps -> S k < List.length ps ->
    exists v, walk ps (get_directories k l) = Ok v /\ plain v.
  Proof.
    induction k as [|k IH]; intros l ps U O L; (destruct (filter is_dir l) as [|e t] eqn:F; [cbn [get_directories]; rewrite F; apply walk_dir_plain; auto|]);
      (assert (FN : filter is_dir l <> []) by congruence); clear e t F; (destruct ps as [|p ps]; [simpl in L; lia|]); rewrite walk_cons;
      (assert (N : NoDup (map fst l)) by (destruct U; auto)); rewrite gd_step by auto; cbn [rbind];
      (destruct (dget p l) as [[c' h'|l']|] eqn:D; [rewrite walk_empty; eexists; split; [reflexivity|exact I]| |rewrite walk_empty; eexists; split; [reflexivity|exact I]]);
      apply dget_In in D; cbn [below].
    - apply walk_dir_plain. eapply open_below; eauto.
    - apply IH. { destruct U as [_ U]. eapply U; eauto. } { eapply open_below; eauto. } { simpl in L. lia. }
  Qed.
  Theorem up_find_total m (l : rdir) ps : unique (List.length ps) l -> open_way l ps -> m < List.length ps ->
    exists r, up_find m l ps = Ok r.
  Proof.
    intros U O L. unfold up_find.
    assert (W : exists v, walk ps (load m l) = Ok v /\ plain v).
    { destruct m; cbn [load]; [apply walk_dir_plain|apply walk_dirs_plain]; auto. }
    destruct W as (v & -> & P). cbn [rbind]. destruct v as [[| |] h|d|[|e t]]; eauto. destruct P.
  Qed.
End Proof.

(** *** depth of the names *)
Lemma split_len s : List.length (split_at_slash s) = S (count_slash s).
Proof.
  induction s as [|c s IH]; auto. cbn [split_at_slash count_slash]. destruct (Ascii.eqb c "/").
  - cbn [List.length]. rewrite IH. auto.
  - destruct (split_at_slash s) as [|w ws] eqn:E; cbn [List.length] in *; [lia|]. rewrite IH. auto.
Qed.
Lemma split_nonempty s : split_at_slash s <> [].
Proof. intros E. assert (L := split_len s). rewrite E in L. discriminate. Qed.
Lemma count_app a b : count_slash (a ++ b) = count_slash a + count_slash b.
Proof. induction a as [|c a IH]; auto. cbn [append count_slash]. rewrite IH. lia. Qed.
(** the first [k] characters are no slashes *)
Fixpoint clear_for (k : nat) (s : string) : Prop :=
  match k, s with S k, String c r => Ascii.eqb c "/" = false /\ clear_for k r | _, _ => True end.
Lemma prefix_clear old s : no_slash old -> String.prefix old s = true -> clear_for (String.length old) s.
Proof.
  unfold no_slash. revert s. induction old as [|c o IH]; intros s N P; [exact I|].
  destruct s as [|c' s]; [discriminate|]. cbn [String.prefix] in P. destruct (ascii_dec c c') as [<-|]; [|discriminate].
  cbn [count_slash] in N. cbn [String.length clear_for]. destruct (Ascii.eqb c "/"); [lia|]. auto.
Qed.
Lemma count_replace old new : old <> EmptyString -> no_slash old -> no_slash new ->
  forall s k, clear_for k s -> count_slash (replace old new k s) = count_slash s.
Proof.
  intros NE No Nn. induction s as [|c s IH]; intros k C; [destruct k; reflexivity|].
  destruct k as [|k].
  - cbn [replace]. destruct (String.prefix old (String c s)) eqn:P.
    + assert (Q := prefix_clear old (String c s) No P). rewrite count_app, Nn. destruct old as [|o old]; [contradiction|].
      cbn [String.length] in *. cbn [clear_for] in Q. destruct Q as [Q1 Q2]. replace (S (String.length old) - 1) with (String.length old) by lia.
      rewrite IH by auto. cbn [count_slash]. rewrite Q1. auto.
    + cbn [count_slash]. rewrite IH by (destruct s; exact I). auto.
  - cbn [clear_for] in C. destruct C as [C1 C2]. cbn [replace count_slash]. rewrite C1, IH by auto. auto.
Qed.
(** the pattern a name is made from *)
Definition pattern_of (s : shape) (sys : option string) : string :=
  match sys, sh_syst s with Some _, Some pat => pat | _, _ => sh_pat s end.
Lemma clear_0 s : clear_for 0 s. Proof. destruct s; exact I. Qed.
Lemma name_depth mass s p b sys : no_slash mass -> no_slash p -> no_slash b -> (forall y, sys = Some y -> no_slash y) ->
  count_slash (hist_name mass s p b sys) = count_slash (pattern_of s sys).
Proof.
  intros Nm Np Nb Ns. unfold hist_name, pattern_of. destruct sys as [y|]; [destruct (sh_syst s) as [pat|]|]; cbv zeta;
    rewrite ?count_app; rewrite !count_replace; try discriminate; try reflexivity; auto; try apply clear_0.
  cbn. rewrite (Ns y eq_refl). lia.
Qed.
Lemma max_depth_ge shapes : forall m s, In s shapes \/ count_slash (sh_pat s) <= m -> count_slash (sh_pat s) <= fold_left (fun m s => Nat.max m (count_slash (sh_pat s))) shapes m.
Proof.
  induction shapes as [|a l IH]; intros m s [I|L]; simpl in *; auto; try contradiction.
  - destruct I as [<-|I]; apply IH; [right; lia|left; auto].
  - apply IH. right. lia.
Qed.

(** *** opening the files *)
Section Files.
  Context {H : Type}.
  Variable disk : string -> option (rdir H).
  Variable dir : string.
  Hypothesis AD : isabs dir = true.
  Lemma resolve_abs p : isabs (resolve dir p) = true.
  Proof.
    unfold resolve. destruct (isabs p) eqn:E; auto. unfold join. revert AD. unfold isabs. destruct dir as [|c d]; [discriminate|].
    cbn [String.prefix append]. destruct (ascii_dec "/" c); auto. destruct (d ++ _)%string; auto.
  Qed.
  Definition good (m : nat) (cache : list (string * vnode H)) : Prop := forall q v, dget q cache = Some v -> exists l, disk q = Some l /\ v = load m l.
  Lemma load_files_spec m ps : forall cache, good m cache -> (forall p, In p ps -> isabs p = true /\ disk p <> None) ->
    exists c, load_files disk dir m cache ps = Ok c /\ good m c /\ (forall q v, dget q cache = Some v -> dget q c = Some v) /\
      forall p, In p ps -> dget p c <> None.
  Proof.
    induction ps as [|p r IH]; intros cache G E; cbn [load_files].
    - exists cache. repeat (split; auto).
    - destruct (E p) as [A D]; [simpl; auto|].
      assert (S : exists c, load_file disk dir m cache p = Ok c /\ good m c /\ (forall q v, dget q cache = Some v -> dget q c = Some v) /\ dget p c <> None).
      { unfold load_file. destruct (dget p cache) as [v|] eqn:C.
        - exists cache. split; auto. split; auto. split; auto. congruence.
        - assert (R : resolve dir p = p) by (unfold resolve; rewrite A; auto). rewrite R. destruct (disk p) as [l|] eqn:DP; [|contradiction].
          exists (dset p (load m l) cache). split; auto. split; [|split].
          + intros q v. rewrite dget_dset. destruct (String.eqb_spec p q) as [<-|]; auto. intros X. injection X as <-. eauto.
          + intros q v Q. rewrite dget_dset. destruct (String.eqb_spec p q) as [<-|]; auto. congruence.
          + rewrite dget_dset_same. discriminate. }
      destruct S as (c1 & -> & G1 & K1 & P1). cbn [rbind].
      destruct (IH c1 G1) as (c2 & E2 & G2 & K2 & P2). { intros q Hq. apply E. simpl. auto. }
      exists c2. split; auto. split; auto. split; auto. intros q [<-|Hq]; auto.
      destruct (dget p c1) as [v|] eqn:X; [|contradiction]. rewrite (K2 _ _ X). discriminate.
  Qed.
  Theorem files_spec m raw ps : Forall2 (fun r p => shape_path disk dir r = Ok p) raw ps ->
    exists c, load_files disk dir m [] ps = Ok c /\
      forall r p, In (r, p) (combine raw ps) -> exists l, disk (resolve dir r) = Some l /\ opened p c = Ok (load m l).
  Proof.
    intros F.
    assert (P : forall r p, In (r, p) (combine raw ps) -> p = resolve dir r /\ disk p <> None).
    { intros r p I. induction F as [|a b la lb E F IH]; [destruct I|]. destruct I as [I|I]; auto. injection I as -> ->.
      unfold shape_path in E. destruct (disk (resolve dir r)) eqn:D; [|discriminate]. injection E as <-. split; auto. congruence. }
    assert (Q : forall p, In p ps -> exists r, In (r, p) (combine raw ps)).
    { clear P. intros p I. induction F as [|a b la lb E F IH]; [destruct I|]. destruct I as [<-|I]; [exists a; simpl; auto|].
      destruct (IH I) as [r R]. exists r. simpl. auto. }
    destruct (load_files_spec m ps []) as (c & E & G & _ & D). { intros q v X. discriminate. }
    { intros p I. destruct (Q p I) as [r R]. destruct (P r p R) as [-> X]. split; auto. apply resolve_abs. }
    exists c. split; auto. intros r p I. destruct (P r p I) as [-> X].
    assert (Ip : In (resolve dir r) ps) by (apply in_combine_r in I; auto). specialize (D _ Ip). unfold opened.
    destruct (dget (resolve dir r) c) as [v|] eqn:V; [|contradiction]. destruct (G _ _ V) as (l & L & ->). exists l. auto.
  Qed.
End Files.
