(** Proofs about the options of a fit. *)
From Coq Require Import Reals List Bool String.
From Verif Require Import PyList PyDict Setup_Model Setup_Spec.
Import ListNotations.
Local Open Scope string_scope.

Lemma jit_ok j sparse : (exists b, resolve_jit j sparse = Ok b) <-> jit_allowed j.
Proof.
  unfold resolve_jit, jit_allowed, jit_name, orelse. destruct j as [[| |s]|]; cbn [smem String.eqb].
  - split; [intros _; tauto|intros _]. eexists. reflexivity.
  - split; [intros _; tauto|intros _]. eexists. reflexivity.
  - cbn [smem existsb]. destruct (String.eqb_spec s "auto") as [->|N1]; [split; [tauto|eexists; reflexivity]|].
    destruct (String.eqb_spec s "on") as [->|N2]; [split; [tauto|eexists; reflexivity]|].
    destruct (String.eqb_spec s "off") as [->|N3]; [split; [tauto|eexists; reflexivity]|].
    split; [intros (b & E); discriminate|]. intros [<-|[<-|<-]]; congruence.
  - split; [intros _; tauto|intros _]. eexists. reflexivity.
Qed.
Lemma jit_meant j sparse b : resolve_jit j sparse = Ok b -> meant_jit j sparse b.
Proof.
  unfold resolve_jit, meant_jit, jit_name, orelse. destruct j as [[| |s]|].
  - cbn. intros [= <-]. destruct sparse; split; try discriminate; try tauto. intros (_ & H). discriminate.
  - cbn. intros [= <-]. split; [discriminate|]. intros ([H|H] & _); discriminate.
  - cbn [smem existsb]. destruct (String.eqb_spec s "auto") as [->|N1].
    { cbn. intros [= <-]. destruct sparse; cbn; split; try discriminate; try tauto. intros (_ & H). discriminate. }
    destruct (String.eqb_spec s "on") as [->|N2].
    { cbn. intros [= <-]. destruct sparse; split; try discriminate; try tauto. intros (_ & H). discriminate. }
    destruct (String.eqb_spec s "off") as [->|N3]; cbn; [|discriminate]. intros [= <-]. split; [discriminate|]. intros ([H|H] & _); discriminate.
  - cbn. intros [= <-]. destruct sparse; cbn; split; try discriminate; try tauto. intros (_ & H). discriminate.
Qed.
Lemma mode_smem m : smem m ["full"; "lite"] = true <-> m = "full" \/ m = "lite".
Proof.
  cbn [smem existsb]. destruct (String.eqb_spec m "full") as [->|N]; [tauto|]. destruct (String.eqb_spec m "lite") as [->|N2]; cbn; [tauto|]. split; [discriminate|tauto].
Qed.
Lemma syst_smem m : smem m valid_systematic_types = true <-> m = "log_normal" \/ m = "normal".
Proof.
  unfold valid_systematic_types. cbn [smem existsb]. destruct (String.eqb_spec m "log_normal") as [->|N]; [tauto|]. destruct (String.eqb_spec m "normal") as [->|N2]; cbn; [tauto|]. split; [discriminate|tauto].
Qed.
Definition name_of (o : options) : string :=
  if String.eqb (o_type o) "automatic" then if o_cov o then "normal-additive" else if String.eqb (o_mode o) "full" then "normal-multiplicative" else "gamma" else o_type o.
Lemma name_meant o : meant_type o (name_of o).
Proof.
  unfold meant_type, name_of. destruct (String.eqb_spec (o_type o) "automatic") as [E|N]; split; intros H; try congruence; destruct (o_cov o), (String.eqb (o_mode o) "full"); try reflexivity; congruence.
Qed.
Lemma type_ok o : (exists t, bbb_type o = Ok t) <-> type_allowed o /\ (o_mode o = "full" \/ o_mode o = "lite").
Proof.
  unfold bbb_type. fold (name_of o). rewrite <- mode_smem. unfold type_allowed, name_of.
  destruct (String.eqb_spec (o_type o) "automatic") as [E|N].
  { destruct (o_cov o), (o_nobbb o), (String.eqb (o_mode o) "full"), (smem (o_mode o) ["full"; "lite"]); cbn; split; try (intros (t & H); discriminate); intros H; try (eexists; reflexivity); try tauto; destruct H; discriminate. }
  destruct (String.eqb_spec (o_type o) "normal-additive") as [E|N1].
  { rewrite E. destruct (o_cov o), (o_nobbb o), (smem (o_mode o) ["full"; "lite"]); cbn; split; try (intros (t & H); discriminate); intros H; try (eexists; reflexivity); try tauto; destruct H; discriminate. }
  destruct (String.eqb_spec (o_type o) "normal-multiplicative") as [E|N2].
  { rewrite E. destruct (o_cov o), (o_nobbb o), (smem (o_mode o) ["full"; "lite"]); cbn; split; try (intros (t & H); discriminate); intros H; try (eexists; reflexivity); try tauto; destruct H; discriminate. }
  destruct (String.eqb_spec (o_type o) "gamma") as [E|N3].
  { rewrite E. destruct (o_cov o), (o_nobbb o), (smem (o_mode o) ["full"; "lite"]); cbn; split; try (intros (t & H); discriminate); intros H; try (eexists; reflexivity); try (destruct H as [H _]; intuition discriminate); try tauto; try (destruct H; discriminate); intuition discriminate. }
  assert (S : smem (o_type o) valid_bbb_types = false).
  { unfold valid_bbb_types. cbn [smem existsb]. apply String.eqb_neq in N1, N2, N3. rewrite N1, N2, N3. reflexivity. }
  rewrite S. split; [|intros (H & _); intuition congruence]. destruct (o_cov o && negb (o_nobbb o) && negb (prefix "normal" (o_type o))); intros (t & H); discriminate.
Qed.
Lemma type_name o t : bbb_type o = Ok t -> t = name_of o.
Proof.
  unfold bbb_type. fold (name_of o). destruct (o_cov o && negb (o_nobbb o) && negb (prefix "normal" (name_of o))); [discriminate|]. destruct (negb _); [discriminate|]. destruct (smem _ _); [|discriminate]. intros [= <-]. reflexivity.
Qed.
Lemma terms_ok o d : ~ (o_cov o = true /\ o_chisq o = true) -> ((exists t, data_terms o d = Ok t) <-> (o_cov o = true -> i_covinv d <> None)).
Proof.
  unfold data_terms. intros X. destruct (o_chisq o), (o_cov o); try tauto.
  - split; [discriminate|eexists; reflexivity].
  - destruct (i_covinv d) as [w|]; split; try discriminate; try (eexists; reflexivity); [intros (t & H); discriminate|intros H; exfalso; apply H; reflexivity].
  - split; [discriminate|eexists; reflexivity].
Qed.
(** what a started fit consists of *)
Lemma setup_ok o d l f : setup o d l = Ok f ->
  smem (i_syst d) valid_systematic_types = true /\ resolve_jit (o_jit o) (i_sparse d) = Ok (f_jit f) /\ ~ (o_cov o = true /\ o_chisq o = true) /\
  data_terms o d = Ok (f_varnobs f, f_covinv f) /\ bbb_type o = Ok (f_type f) /\
  f = mkFit (f_jit f) (orelse "revrev" (o_hvp o)) (negb (orelse false (o_nohess o))) (o_chisq o) (o_cov o) (f_varnobs f) (f_covinv f) (negb (o_nobbb o)) (o_mode o) (f_type f)
        (orelse false (o_force o) || ((o_chisq o || o_cov o) && l && i_sym d && String.eqb (i_syst d) "normal" && bbb_linear (negb (o_nobbb o)) (f_type f)))
        (compiled (f_jit f)) (hessp (orelse "revrev" (o_hvp o)) (i_sparse d)).
Proof.
  unfold setup. destruct (smem (i_syst d) valid_systematic_types); [|discriminate]. cbn [negb]. destruct (resolve_jit _ _) as [j|]; [|discriminate]. cbn [rbind].
  destruct (o_cov o && o_chisq o) eqn:X; [discriminate|]. destruct (data_terms o d) as [[v w]|]; [|discriminate]. cbn [rbind]. destruct (bbb_type o) as [t|]; [|discriminate]. cbn [rbind fst snd].
  intros [= <-]. cbn [f_jit f_varnobs f_covinv f_type]. repeat split. intros (A & B). rewrite A, B in X. discriminate.
Qed.
