(** Proofs about bundles of arrays. *)
From Coq Require Import List Arith ZArith Bool String Ascii Lia Permutation.
From Verif Require Import PyList PyDict Storage_Model Storage_Spec Storage_Proof Bundle_Model Bundle_Spec.
Import ListNotations.
Open Scope string_scope.

(** ** names *)
Lemma sapp_nil s : s ++ "" = s. Proof. induction s as [|c s IH]; auto. cbn. rewrite IH. auto. Qed.
Lemma sapp_assoc a b c : (a ++ b) ++ c = a ++ (b ++ c). Proof. induction a as [|x a IH]; auto. cbn. rewrite IH. auto. Qed.
Lemma split_plain s : forall cur, (forall a b, s <> a ++ "/" ++ b) -> split_slash s cur = [cur ++ s].
Proof.
  induction s as [|c r IH]; intros cur H; cbn [split_slash]; [rewrite sapp_nil; auto|].
  destruct (Ascii.eqb_spec c "/") as [->|N]; [elim (H "" r); reflexivity|]. rewrite IH; [rewrite sapp_assoc; reflexivity|]. intros a b E. apply (H (String c a) b). rewrite E. reflexivity.
Qed.
Lemma plain_components s : plain s -> components s = [s].
Proof.
  intros (N1 & N2 & H). unfold components. rewrite split_plain by auto. cbn [filter append]. destruct (String.eqb_spec s ""); [contradiction|]. destruct (String.eqb_spec s "."); [contradiction|]. reflexivity.
Qed.
Lemma plain_absolute s : plain s -> absolute s = false.
Proof. intros (_ & _ & H). destruct s as [|c r]; auto. cbn. destruct (Ascii.eqb_spec c "/") as [->|]; auto. elim (H "" r). reflexivity. Qed.
Lemma plain_path base s : plain s -> path_of base s = (base ++ [s])%list.
Proof. intros P. unfold path_of. rewrite plain_absolute, plain_components; auto. Qed.
Lemma clean_tail c s : clean (String c s) -> clean s /\ c <> Ascii.zero.
Proof. intros H. split; [intros a b E; apply (H (String c a) b); rewrite E; reflexivity|]. intros ->. apply (H "" s). reflexivity. Qed.
Lemma clean_nul s : clean s -> has_nul s = false.
Proof. induction s as [|c r IH]; auto. intros H. apply clean_tail in H. destruct H as (H & N). cbn. rewrite IH by auto. destruct (Ascii.eqb_spec c nul); auto. contradiction. Qed.
Lemma clean_strip s : clean s -> strip s = s.
Proof. induction s as [|c r IH]; auto. intros H. apply clean_tail in H. destruct H as (H & N). cbn. rewrite IH by auto. destruct (Ascii.eqb_spec c nul); auto. contradiction. Qed.
Lemma path_eqb_eq p : forall q, path_eqb p q = true <-> p = q.
Proof.
  induction p as [|a p IH]; intros [|b q]; cbn; try (split; congruence). rewrite andb_true_iff, String.eqb_eq, IH. split; [intros (-> & ->); auto|intros E; injection E; auto].
Qed.
Lemma child_eq p : forall q x, child p q = Some x <-> q = (p ++ [x])%list.
Proof.
  induction p as [|a p IH]; intros [|b q] x; cbn; try (split; congruence).
  - destruct q; split; congruence.
  - destruct (String.eqb_spec a b) as [->|N]; [rewrite IH; split; [intros ->; auto|intros E; injection E; auto]|split; congruence].
Qed.
Lemma by_name_perm {A} (x : string * A) l : Permutation (by_name x l) (x :: l).
Proof. induction l as [|y r IH]; cbn [by_name]; auto. destruct (String.leb (fst x) (fst y)); auto. rewrite IH. apply perm_swap. Qed.
Lemma sort_perm {A} (l : list (string * A)) : Permutation (sort_names l) l.
Proof. induction l as [|x r IH]; cbn; auto. rewrite by_name_perm. auto. Qed.
Lemma dget_perm {A} (l m : dict A) k : NoDup (dkeys l) -> Permutation l m -> dget k m = dget k l.
Proof.
  intros ND P. assert (ND' : NoDup (dkeys m)) by (apply (Permutation_NoDup (Permutation_map fst P)); auto).
  destruct (dget k l) as [v|] eqn:E.
  - apply dget_In in E. apply In_dget; auto. apply (Permutation_in _ P); auto.
  - apply dget_None. apply dget_None in E. intros H. apply E. apply (Permutation_in _ (Permutation_sym (Permutation_map fst P))); auto.
Qed.
Lemma flat_map_nil {A B} (f : A -> list B) l : (forall x, In x l -> f x = []) -> flat_map f l = [].
Proof. induction l as [|a l IH]; auto. intros H. cbn. rewrite (H a) by (left; auto). apply IH. intros x Hx. apply H. right; auto. Qed.
Lemma dget_map {A B} (g : A -> B) (l : dict A) k : dget k (map (fun kv => (fst kv, g (snd kv))) l) = option_map g (dget k l).
Proof. induction l as [|(a, v) r IH]; auto. cbn. destruct (String.eqb k a); auto. Qed.
Lemma dkeys_map {A B} (g : A -> B) (l : dict A) : dkeys (map (fun kv => (fst kv, g (snd kv))) l) = dkeys l.
Proof. unfold dkeys. rewrite map_map. apply map_ext. auto. Qed.

Section Bundle.
  Local Open Scope list_scope.
  Context {V DT : Type}.
  Variables (zero : DT -> V) (iszero : V -> bool) (itemsize : DT -> Z) (float64 : DT) (maxbytes : Z).
  Notation obj := (@obj V DT). Notation h5 := (h5 V DT). Notation value := (value V DT). Notation rvalue := (rvalue V DT). Notation bundle := (bundle V DT).
  Definition absent (f : h5) (p : list string) : Prop := forall o, ~ In (p, o) f.
  Lemma flook_absent f p : absent f p -> flook f p = None.
  Proof.
    induction f as [|(q, o) r IH]; auto. intros H. cbn. destruct (path_eqb p q) eqn:E; [apply path_eqb_eq in E; subst; elim (H o); left; auto|]. apply IH. intros o' Ho. apply (H o'). right; auto.
  Qed.
  Lemma flook_app f g p : absent f p -> flook (f ++ g) p = flook g p.
  Proof.
    induction f as [|(q, o) r IH]; auto. intros H. cbn. destruct (path_eqb p q) eqn:E; [apply path_eqb_eq in E; subst; elim (H o); left; auto|]. apply IH. intros o' Ho. apply (H o'). right; auto.
  Qed.
  Lemma flook_keep (f g : h5) p o : flook f p = Some o -> flook (f ++ g) p = Some o.
  Proof. induction f as [|(q, x) r IH]; [discriminate|]. cbn. destruct (path_eqb p q); auto. Qed.
  (** the object of a value *)
  Definition obj_of (v : value) : obj :=
    match asarray float64 v with
    | VNum dt a => Num dt (writeFlatInChunks (zero dt) iszero a (itemsize dt) maxbytes)
    | VText _ l => Txt (map shown l)
    | VList l => Txt l
    end.
  Lemma write_value_ok f g key v : storable v -> write_value zero iszero itemsize float64 maxbytes f g key v = create f g key (obj_of v).
  Proof.
    unfold write_value, obj_of. destruct v as [dt a|sh l|l]; cbn [storable asarray]; auto.
    - intros H. destruct (existsb (fun e => has_nul (shown e)) l) eqn:E; auto. apply existsb_exists in E. destruct E as (e & He & E). rewrite Forall_forall in H. rewrite clean_nul in E by auto. discriminate.
    - intros (NE & H). destruct l as [|s r]; [elim NE; auto|]. set (l := s :: r) in *. clearbody l. destruct (existsb _ (map _ l)) eqn:E; auto. apply existsb_exists in E. destruct E as (e & He & E).
      apply in_map_iff in He. destruct He as (x & <- & Hx). rewrite Forall_forall in H. cbn in E. rewrite clean_strip in E by auto. rewrite clean_nul in E by auto. discriminate.
  Qed.
  Definition entries (n : string) (d : dict value) : h5 := map (fun kv => (["auxiliary"; n; fst kv], obj_of (snd kv))) d.
  Lemma write_values_ok n d : plain n -> NoDup (dkeys d) -> (forall k v, In (k, v) d -> plain k /\ storable v) -> forall f,
    flook f ["auxiliary"] = Some Grp -> flook f ["auxiliary"; n] = Some Grp -> (forall k, In k (dkeys d) -> absent f ["auxiliary"; n; k]) ->
    write_values zero iszero itemsize float64 maxbytes f ["auxiliary"; n] d = Ok (f ++ entries n d)%list.
  Proof.
    intros PN. induction d as [|(k, v) r IH]; intros ND H f F1 F2 AB; cbn [write_values entries map]; [rewrite app_nil_r; auto|].
    cbn in ND. inversion ND as [|? ? NI ND']; subst. destruct (H k v (or_introl eq_refl)) as (PK & SV). rewrite write_value_ok by auto. unfold create. rewrite plain_path by auto. cbn [make app].
    rewrite F1, F2, flook_absent by (apply AB; left; auto). cbn [rbind]. rewrite IH; auto.
    - rewrite <- app_assoc. reflexivity.
    - intros x y Hx. apply H. right; auto.
    - apply flook_keep; auto.
    - apply flook_keep; auto.
    - intros k' Hk' o Ho. apply in_app_or in Ho. destruct Ho as [Ho|[E|[]]]; [apply (AB k' (or_intror Hk') o Ho)|]. injection E as -> _. contradiction.
  Qed.
  Definition image (l : list bundle) : h5 := flat_map (fun b => (["auxiliary"; bd_name b], Grp) :: entries (bd_name b) (bd_data b)) l.
  Definition bundles_ok (l : list bundle) : Prop := NoDup (map bd_name l) /\ forall b, In b l -> plain (bd_name b) /\ NoDup (dkeys (bd_data b)) /\ forall k v, In (k, v) (bd_data b) -> plain k /\ storable v.
  Lemma write_bundles_ok l : bundles_ok l -> forall f, flook f ["auxiliary"] = Some Grp ->
    (forall n p o, In n (map bd_name l) -> In ("auxiliary" :: n :: p, o) f -> False) ->
    write_bundles zero iszero itemsize float64 maxbytes f l = Ok (f ++ image l)%list.
  Proof.
    induction l as [|b r IH]; intros (ND & H) f F1 AB; cbn [write_bundles image flat_map]; [rewrite app_nil_r; auto|].
    cbn in ND. inversion ND as [|? ? NI ND']; subst. destruct (H b (or_introl eq_refl)) as (PN & NK & SV). unfold create. rewrite plain_path by auto. cbn [make app]. rewrite F1.
    assert (N0 : absent f ["auxiliary"; bd_name b]) by (intros o Ho; apply (AB (bd_name b) [] o); auto; left; auto).
    rewrite flook_absent by auto. cbn [rbind]. rewrite write_values_ok; auto.
    - cbn [rbind]. rewrite IH; auto.
      + rewrite <- !app_assoc. reflexivity.
      + split; auto. intros x Hx. apply H. right; auto.
      + apply flook_keep. apply flook_keep. auto.
      + intros n p o Hn Ho. apply in_app_or in Ho. destruct Ho as [Ho|Ho]; [apply in_app_or in Ho; destruct Ho as [Ho|[E|[]]]|].
        * apply (AB n p o); auto. right; auto.
        * injection E as <- _ _. contradiction.
        * unfold entries in Ho. apply in_map_iff in Ho. destruct Ho as (kv & E & _). injection E as <- _ _. contradiction.
    - apply flook_keep; auto.
    - rewrite flook_app by auto. cbn. rewrite String.eqb_refl. auto.
    - intros k Hk o Ho. apply in_app_or in Ho. destruct Ho as [Ho|[E|[]]]; [|discriminate]. apply (AB (bd_name b) [k] o); auto. left; auto.
  Qed.
  Definition rd (o : obj) : rvalue := match o with Grp => RList [] | Num dt x => RNum dt (maketensor (zero dt) x) | Txt s => RList s end.
  Lemma read_values_ok l : NoDup (dkeys l) -> (forall k o, In (k, o) l -> o <> Grp) -> forall d,
    exists d', read_values zero l d = Ok d' /\ forall k, dget k d' = match dget k l with Some o => Some (rd o) | None => dget k d end.
  Proof.
    induction l as [|(k, o) r IH]; intros ND H d; [exists d; split; auto|]. cbn in ND. inversion ND as [|? ? NI ND']; subst.
    assert (X : forall r0, rd o = r0 -> exists d', read_values zero r (dset k r0 d) = Ok d' /\ forall k0, dget k0 d' = match dget k0 ((k, o) :: r) with Some o => Some (rd o) | None => dget k0 d end).
    { intros r0 <-. destruct (IH ND' (fun x y Hx => H x y (or_intror Hx)) (dset k (rd o) d)) as (d' & E & Q). exists d'. split; auto. intros k0. rewrite Q. cbn [dget]. rewrite dget_dset.
      destruct (String.eqb_spec k0 k) as [->|N].
      - apply dget_None in NI. rewrite NI. rewrite String.eqb_refl. auto.
      - destruct (dget k0 r); auto. destruct (String.eqb_spec k k0); [congruence|auto]. }
    destruct o as [|dt x|s]; [elim (H k Grp); auto; left; auto| |]; cbn [read_values]; apply X; reflexivity.
  Qed.
  Lemma read_groups_ok (f : h5) (l : list (string * obj)) : NoDup (dkeys l) -> (forall k o, In (k, o) l -> o = Grp) ->
    (forall n, In n (dkeys l) -> NoDup (dkeys (items f ["auxiliary"; n])) /\ forall k o, In (k, o) (items f ["auxiliary"; n]) -> o <> Grp) -> forall d,
    exists d', read_groups zero f l d = Ok d' /\ forall n, match dget n l with None => dget n d' = dget n d | Some _ => exists b, dget n d' = Some b /\ forall k, dget k b = option_map rd (dget k (items f ["auxiliary"; n])) end.
  Proof.
    induction l as [|(n, o) r IH]; intros ND H HI d; [exists d; split; [auto|intros n; cbn; auto]|]. cbn in ND. inversion ND as [|? ? NI ND']; subst.
    assert (o = Grp) by (apply (H n); left; auto). subst o. cbn [read_groups]. destruct (HI n (or_introl eq_refl)) as (N1 & N2). destruct (read_values_ok _ N1 N2 []) as (b & -> & Q). cbn [rbind].
    destruct (IH ND' (fun x y Hx => H x y (or_intror Hx)) (fun x Hx => HI x (or_intror Hx)) (dset n b d)) as (d' & E & Q'). exists d'. split; auto. intros n'. specialize (Q' n'). cbn [dget].
    destruct (String.eqb_spec n' n) as [->|N].
    - apply dget_None in NI. rewrite NI in Q'. exists b. rewrite Q', dget_dset, String.eqb_refl. split; auto.
    - destruct (dget n' r); auto. rewrite Q', dget_dset. destruct (String.eqb_spec n n'); congruence.
  Qed.
  Lemma rd_back v : storable v -> came_back zero iszero v (rd (obj_of v)).
  Proof.
    destruct v as [dt a|sh l|l]; cbn [storable]; intros H.
    - cbn. split; auto. exact (roundtrip (zero dt) iszero a (itemsize dt) maxbytes H).
    - cbn. auto.
    - destruct H as (NE & H). destruct l as [|s r]; [elim NE; auto|]. unfold obj_of. cbn [asarray]. cbn [rd came_back]. rewrite map_map. rewrite <- (map_id (s :: r)) at 2. apply map_ext_in. intros x Hx. cbn. apply clean_strip. rewrite Forall_forall in H. auto.
  Qed.
  Variable f0 : h5.
  Hypothesis NA : forall p o, ~ In ("auxiliary" :: p, o) f0.
  Definition pick (p : list string) (e : list string * obj) : list (string * obj) := match child p (fst e) with Some x => [(x, snd e)] | None => [] end.
  Lemma pick_f0 p : flat_map (pick ("auxiliary" :: p)) f0 = [].
  Proof. apply flat_map_nil. intros (q, o) Hq. unfold pick. cbn [fst snd]. destruct (child ("auxiliary" :: p) q) eqn:E; auto. apply child_eq in E. subst. elim (NA _ _ Hq). Qed.
  Lemma pick_other n m d : n <> m -> flat_map (pick ["auxiliary"; n]) (entries m d) = [].
  Proof. intros N. apply flat_map_nil. intros (q, o) Hq. unfold entries in Hq. apply in_map_iff in Hq. destruct Hq as (kv & E & _). injection E as <- _. unfold pick. cbn. destruct (String.eqb_spec n m); congruence. Qed.
  Lemma pick_same n d : flat_map (pick ["auxiliary"; n]) (entries n d) = map (fun kv => (fst kv, obj_of (snd kv))) d.
  Proof. induction d as [|(k, v) r IH]; auto. cbn [entries map flat_map]. unfold entries in IH. rewrite IH. unfold pick. cbn. rewrite String.eqb_refl. auto. Qed.
  Lemma pick_group n l : NoDup (map bd_name l) -> flat_map (pick ["auxiliary"; n]) (image l) = match find (fun b => String.eqb n (bd_name b)) l with Some b => map (fun kv => (fst kv, obj_of (snd kv))) (bd_data b) | None => [] end.
  Proof.
    assert (Z : forall l, ~ In n (map bd_name l) -> flat_map (pick ["auxiliary"; n]) (image l) = []).
    { clear. induction l as [|b r IH]; auto. intros H. cbn [image flat_map app]. rewrite flat_map_app. fold (image r). rewrite IH by (intros X; apply H; right; auto). rewrite pick_other by (intros ->; apply H; left; auto).
      unfold pick. cbn. destruct (String.eqb n (bd_name b)); auto. }
    induction l as [|b r IH]; auto. intros ND. cbn in ND. inversion ND as [|? ? NI ND']; subst. cbn [image flat_map app find]. rewrite flat_map_app. fold (image r).
    assert (P0 : pick ["auxiliary"; n] (["auxiliary"; bd_name b], Grp) = []) by (unfold pick; cbn; destruct (String.eqb n (bd_name b)); auto). rewrite P0. cbn [app].
    destruct (String.eqb_spec n (bd_name b)) as [->|N]; [rewrite pick_same, Z by auto; apply app_nil_r|]. rewrite pick_other, IH by auto. auto.
  Qed.
  Lemma pick_top l : flat_map (pick ["auxiliary"]) (image l) = map (fun b => (bd_name b, Grp)) l.
  Proof.
    induction l as [|b r IH]; auto. cbn [image flat_map app map]. rewrite flat_map_app. fold (image r). rewrite IH. unfold pick at 1. cbn [fst snd child String.eqb]. cbn. f_equal.
    rewrite (flat_map_nil _ (entries _ _)); auto. intros (q, o) Hq. unfold entries in Hq. apply in_map_iff in Hq. destruct Hq as (kv & E & _). injection E as <- _. reflexivity.
  Qed.
  Lemma dget_bundles n (l : list bundle) : match find (fun b => String.eqb n (bd_name b)) l with Some b => dget n (map (fun b => (bd_name b, bd_data b)) l) = Some (bd_data b) | None => dget n (map (fun b => (bd_name b, bd_data b)) l) = None end.
  Proof. induction l as [|b r IH]; [reflexivity|]. cbn [find map dget]. destruct (String.eqb n (bd_name b)); auto. Qed.
  Theorem bundles_back l : bundles_ok l -> exists f d, write_auxiliary zero iszero itemsize float64 maxbytes f0 l = Ok f /\ read_auxiliary zero f = Ok d /\
    same_dict (same_dict (came_back zero iszero)) (map (fun b => (bd_name b, bd_data b)) l) d /\ (forall p o, hd_error p <> Some "auxiliary" -> In (p, o) f <-> In (p, o) f0).
  Proof.
    intros BO. assert (A0 : absent f0 ["auxiliary"]) by (intros o Ho; apply (NA [] o Ho)).
    destruct l as [|b0 r0] eqn:EL.
    { exists f0, []. cbn [write_auxiliary]. unfold read_auxiliary. rewrite flook_absent by auto. split; auto. split; auto. split; [intros k; exact I|tauto]. }
    rewrite <- EL in *. assert (NE : l <> []) by (rewrite EL; discriminate). clear EL b0 r0. set (f1 := (f0 ++ [(["auxiliary"], Grp)])%list).
    assert (F1 : flook f1 ["auxiliary"] = Some Grp) by (unfold f1; rewrite flook_app by auto; reflexivity).
    assert (W : write_auxiliary zero iszero itemsize float64 maxbytes f0 l = Ok (f1 ++ image l)%list).
    { unfold write_auxiliary. destruct l as [|b r]; [elim NE; auto|]. set (l := b :: r) in *. unfold create. rewrite plain_path by (split; [discriminate|split; [discriminate|]]; intros x y E; clear -E; do 9 (destruct x as [|? x]; [discriminate E|injection E as _ E]); destruct x; discriminate E).
      cbn [make app]. rewrite flook_absent by auto. cbn [rbind]. fold f1. apply write_bundles_ok; auto. intros n p o _ Ho. apply in_app_or in Ho. destruct Ho as [Ho|[E|[]]]; [apply (NA _ _ Ho)|discriminate]. }
    exists (f1 ++ image l)%list. destruct BO as (ND & BO).
    assert (ITOP : items (f1 ++ image l) ["auxiliary"] = sort_names (map (fun b => (bd_name b, Grp)) l)).
    { unfold items. fold (pick ["auxiliary"]). change (fun e : list string * obj => match child ["auxiliary"] (fst e) with Some x => [(x, snd e)] | None => [] end) with (pick ["auxiliary"]). unfold f1. rewrite !flat_map_app, pick_f0, pick_top. reflexivity. }
    assert (IG : forall n, items (f1 ++ image l) ["auxiliary"; n] = sort_names match find (fun b => String.eqb n (bd_name b)) l with Some b => map (fun kv => (fst kv, obj_of (snd kv))) (bd_data b) | None => [] end).
    { intros n. unfold items. change (fun e : list string * obj => match child ["auxiliary"; n] (fst e) with Some x => [(x, snd e)] | None => [] end) with (pick ["auxiliary"; n]). unfold f1. rewrite !flat_map_app, pick_f0, pick_group by auto. reflexivity. }
    assert (FB : forall n b, find (fun b => String.eqb n (bd_name b)) l = Some b -> In b l /\ n = bd_name b) by (intros n b E; apply find_some in E; rewrite String.eqb_eq in E; auto).
    assert (NDI : forall n, NoDup (dkeys match find (fun b => String.eqb n (bd_name b)) l with Some b => map (fun kv => (fst kv, obj_of (snd kv))) (bd_data b) | None => [] end)).
    { intros n. destruct (find _ l) as [b|] eqn:E; [|constructor]. rewrite dkeys_map. apply (BO b). apply (FB n b E). }
    assert (NDT : NoDup (dkeys (map (fun b : bundle => (bd_name b, @Grp V DT)) l))) by (unfold dkeys; rewrite map_map; exact ND).
    destruct (read_groups_ok (f1 ++ image l) (items (f1 ++ image l) ["auxiliary"])) with (d := @nil (string * dict rvalue)) as (d & RD & Q).
    - rewrite ITOP. apply (Permutation_NoDup (Permutation_map fst (Permutation_sym (sort_perm _)))). exact NDT.
    - intros k o H. rewrite ITOP in H. apply (Permutation_in _ (sort_perm _)) in H. apply in_map_iff in H. destruct H as (b & E & _). injection E. auto.
    - intros n _. rewrite IG. split; [apply (Permutation_NoDup (Permutation_map fst (Permutation_sym (sort_perm _)))); apply NDI|].
      intros k o H. apply (Permutation_in _ (sort_perm _)) in H. destruct (find _ l) as [b|] eqn:E; [|elim H]. apply in_map_iff in H. destruct H as ((k', v) & EQ & Hv). injection EQ as _ <-.
      unfold obj_of. cbn [snd]. destruct v as [dt a|sh t|[|s t]]; discriminate.
    - exists d. split; auto. split.
      + unfold read_auxiliary. rewrite (flook_keep _ _ _ _ F1). exact RD.
      + split.
        * intros n. specialize (Q n). rewrite ITOP in Q. rewrite (dget_perm _ _ n NDT (Permutation_sym (sort_perm _))) in Q.
          assert (DB := dget_bundles n l). assert (DG : dget n (map (fun b : bundle => (bd_name b, @Grp V DT)) l) = match find (fun b => String.eqb n (bd_name b)) l with Some _ => Some Grp | None => None end).
          { clear. induction l as [|b r IH]; auto. cbn. destruct (String.eqb n (bd_name b)); auto. }
          rewrite DG in Q. destruct (find (fun b => String.eqb n (bd_name b)) l) as [b|] eqn:E; rewrite DB; [|rewrite Q; exact I].
          destruct Q as (x & -> & Q). intros k. rewrite Q, IG, E. assert (NDn := NDI n). rewrite E in NDn. rewrite (dget_perm _ _ k NDn (Permutation_sym (sort_perm _))), dget_map.
          destruct (dget k (bd_data b)) as [v|] eqn:DK; [|exact I]. cbn [option_map]. apply rd_back. apply dget_In in DK. destruct (FB n b E) as (Hb & _). apply (proj2 (proj2 (BO b Hb)) k v DK).
        * intros p o HP. unfold f1. rewrite !in_app_iff. split; [|tauto]. intros [[H|[E|[]]]|H]; auto; exfalso; apply HP.
          -- injection E as <- _. reflexivity.
          -- unfold image in H. apply in_flat_map in H. destruct H as (b & _ & [E|H]); [injection E as <- _; reflexivity|]. unfold entries in H. apply in_map_iff in H. destruct H as (kv & E & _). injection E as <- _. reflexivity.
  Qed.
  (** the calls *)
  Lemma add_all_ok calls : forall l : list bundle, NoDup (map bd_name l ++ map fst calls) -> add_all l calls = Ok (l ++ map (fun c => mkBd (fst c) (snd c)) calls)%list.
  Proof.
    induction calls as [|(n, d) r IH]; intros l ND; cbn [add_all map]; [rewrite app_nil_r; auto|]. unfold add_auxiliary. cbn [map fst] in ND.
    destruct (existsb (fun b : bundle => String.eqb (bd_name b) n) l) eqn:E.
    - exfalso. apply existsb_exists in E. destruct E as (b & Hb & E). apply String.eqb_eq in E. apply NoDup_remove_2 in ND. apply ND. apply in_or_app. left. rewrite <- E. apply in_map. auto.
    - cbn [rbind]. rewrite IH; [rewrite <- app_assoc; reflexivity|]. rewrite map_app, <- app_assoc. exact ND.
  Qed.
  Lemma add_all_dup (calls : list (string * dict value)) : forall l, ~ NoDup (map fst calls) -> add_all l calls = Raise RuntimeError.
  Proof.
    assert (X : forall (calls : list (string * dict value)) l, (exists n, In n (map fst calls) /\ In n (map bd_name l)) -> add_all l calls = Raise RuntimeError).
    { clear calls. induction calls as [|(n, d) r IH]; intros l (m & Hm & Hl); [elim Hm|]. cbn [add_all]. unfold add_auxiliary. destruct (existsb (fun b : bundle => String.eqb (bd_name b) n) l) eqn:E; auto. cbn [rbind].
      apply IH. destruct Hm as [<-|Hm]; [|exists m; split; auto; rewrite map_app; apply in_or_app; auto]. cbn [fst] in Hl. exfalso. apply in_map_iff in Hl. destruct Hl as (b & Eb & Hb).
      assert (existsb (fun b : bundle => String.eqb (bd_name b) n) l = true); [|congruence]. apply existsb_exists. exists b. split; auto. apply String.eqb_eq. auto. }
    induction calls as [|(n, d) r IH]; intros l ND; [elim ND; constructor|]. cbn [add_all]. unfold add_auxiliary. destruct (existsb _ l); auto. cbn [rbind].
    destruct (in_dec string_dec n (map fst r)) as [H|H].
    - apply X. exists n. split; auto. rewrite map_app. apply in_or_app. right. left. auto.
    - apply IH. intros N. apply ND. constructor; auto.
  Qed.
  Theorem calls_back calls : NoDup (map fst calls) -> calls_ok calls -> exists l f d, add_all [] calls = Ok l /\ write_auxiliary zero iszero itemsize float64 maxbytes f0 l = Ok f /\ read_auxiliary zero f = Ok d /\
    same_dict (same_dict (came_back zero iszero)) calls d /\ (forall p o, hd_error p <> Some "auxiliary" -> In (p, o) f <-> In (p, o) f0).
  Proof.
    intros ND CO. exists (map (fun c => mkBd (fst c) (snd c)) calls).
    destruct (bundles_back (map (fun c => mkBd (fst c) (snd c)) calls)) as (f & d & W & RD & SD & O).
    - split; [rewrite map_map; exact ND|]. intros b Hb. apply in_map_iff in Hb. destruct Hb as ((n, x) & <- & Hn). exact (CO n x Hn).
    - exists f, d. split; [apply (add_all_ok calls []); exact ND|]. split; auto. split; auto. split; auto.
      rewrite map_map in SD. erewrite map_ext in SD; [rewrite map_id in SD; exact SD|]. intros (n, x). reflexivity.
  Qed.
End Bundle.
