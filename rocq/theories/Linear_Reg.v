(** Which regularisers keep the likelihood of a linear problem quadratic. *)
From Coq Require Import List Arith Bool String Reals Lra Lia.
From Verif Require Import RBase PyList ListUtil Shape Nll_Model Mat_Model Mat_Proof Map_Model Map_Spec Map_Collect Map_Project Map_Data Svd_Model Svd_Proof Svd_Props Linear_Prob.
Import ListNotations.
Local Open Scope R_scope.

Section Affine2.
  Variables (X Y : nat).
  Lemma affine2_ext f g : (forall x y, List.length x = X -> List.length y = Y -> f x y = g x y) -> affine2 X Y g -> affine2 X Y f.
  Proof. intros E (c & u & v & H). exists c, u, v. intros x y Lx Ly. rewrite E by auto. auto. Qed.
  Lemma sum_zero {A} (l : list A) (g : A -> R) : sumR (map (fun i => 0 * g i) l) = 0.
  Proof. rewrite (sumR_map_scal 0 g l). lra. Qed.
  Lemma affine2_const a : affine2 X Y (fun _ _ => a).
  Proof. exists a, (fun _ => 0), (fun _ => 0). intros x y _ _. rewrite (sum_zero (seq 0 X) (fun i => nth i x 0)), (sum_zero (seq 0 Y) (fun i => nth i y 0)). lra. Qed.
  Lemma affine2_plus f g : affine2 X Y f -> affine2 X Y g -> affine2 X Y (fun x y => f x y + g x y).
  Proof.
    intros (c & u & v & F) (c' & u' & v' & G). exists (c + c'), (fun i => u i + u' i), (fun j => v j + v' j). intros x y Lx Ly. rewrite F, G by auto.
    rewrite (sumR_map_ext (fun i => (u i + u' i) * nth i x 0) (fun i => u i * nth i x 0 + u' i * nth i x 0) (seq 0 X)) by (intros; ring).
    rewrite (sumR_map_ext (fun i => (v i + v' i) * nth i y 0) (fun i => v i * nth i y 0 + v' i * nth i y 0) (seq 0 Y)) by (intros; ring).
    rewrite !sumR_map_plus. ring.
  Qed.
  Lemma affine2_scal a f : affine2 X Y f -> affine2 X Y (fun x y => a * f x y).
  Proof.
    intros (c & u & v & F). exists (a * c), (fun i => a * u i), (fun j => a * v j). intros x y Lx Ly. rewrite F by auto.
    rewrite (sumR_map_ext (fun i => a * u i * nth i x 0) (fun i => a * (u i * nth i x 0)) (seq 0 X)) by (intros; ring).
    rewrite (sumR_map_ext (fun i => a * v i * nth i y 0) (fun i => a * (v i * nth i y 0)) (seq 0 Y)) by (intros; ring).
    rewrite !sumR_map_scal. ring.
  Qed.
  Lemma affine2_sum {A} (l : list A) (g : A -> list R -> list R -> R) : (forall a, In a l -> affine2 X Y (g a)) -> affine2 X Y (fun x y => sumR (map (fun a => g a x y) l)).
  Proof.
    induction l as [|a l IH]; intros H; [apply (affine2_const 0)|]. apply affine2_ext with (g := fun x y => g a x y + sumR (map (fun a => g a x y) l)); [intros; reflexivity|].
    apply affine2_plus; [apply H; left; reflexivity|apply IH; intros b I; apply H; right; exact I].
  Qed.
  Lemma sum_delta (y : list R) j m : forall s, sumR (map (fun i => (if Nat.eqb i j then 1 else 0) * nth i y 0) (seq s m)) = if (s <=? j)%nat && (j <? s + m)%nat then nth j y 0 else 0.
  Proof.
    induction m as [|m IH]; intros s.
    - cbn [seq map]. destruct (Nat.leb_spec s j), (Nat.ltb_spec j (s + 0)); cbn [andb]; try reflexivity; lia.
    - cbn [seq map]. change (sumR (?a :: ?l)) with (a + sumR l). rewrite IH. destruct (Nat.eqb_spec s j) as [->|N].
      + destruct (Nat.leb_spec (S j) j); [lia|]. destruct (Nat.leb_spec j j); [|lia]. destruct (Nat.ltb_spec j (j + S m)); [|lia]. cbn [andb]. lra.
      + destruct (Nat.leb_spec (S s) j), (Nat.leb_spec s j), (Nat.ltb_spec j (S s + m)), (Nat.ltb_spec j (s + S m)); cbn [andb]; try lia; lra.
  Qed.
  Lemma affine2_yield j : affine2 X Y (fun _ y => nth j y 0).
  Proof.
    exists 0, (fun _ => 0), (fun i => if Nat.eqb i j then 1 else 0). intros x y _ Ly. rewrite (sum_zero (seq 0 X) (fun i => nth i x 0)), sum_delta. cbn [Nat.leb andb Nat.add].
    destruct (Nat.ltb_spec j Y); [lra|]. rewrite nth_overflow by lia. lra.
  Qed.

  (** the curvature penalty of a mapping whose bins are affine *)
  Lemma svd_quadratic flat_of shape init g reg : (1 <= List.length shape <= 3)%nat ->
    (exists a, flat_of init = Ok a /\ List.length a = prodn shape) ->
    (forall x y, List.length x = X -> List.length y = Y -> flat_of (of_list y) = Ok (map (fun k => g k x y) (seq 0 (prodn shape)))) -> (forall k, affine2 X Y (g k)) ->
    (forall x y, List.length x = X -> List.length y = Y -> svd_penalty flat_of shape init (of_list y) = Ok (reg x y)) ->
    penalty_quadratic X Y reg.
  Proof.
    intros D (a & A & La) F G E.
    set (rel := fun (i : list nat) x y => if Reqb (nth (ravel shape i) a 0) 0 then 1 else / nth (ravel shape i) a 0 * (if Nat.ltb (ravel shape i) (prodn shape) then g (ravel shape i) x y else 0)).
    assert (RA : forall i, affine2 X Y (rel i)).
    { intros i. unfold rel. destruct (Reqb _ _); [apply affine2_const|]. apply affine2_scal. destruct (Nat.ltb _ _); [apply G|apply affine2_const]. }
    exists (map (fun i x y => laplace shape (fun j => rel j x y) i) (all_idx shape)). split.
    - intros f I. apply in_map_iff in I as (i & <- & _). unfold laplace. apply affine2_sum. intros k _.
      apply affine2_ext with (g := fun x y => rel (up shape k i) x y + rel (down k i) x y + -2 * rel i x y); [intros; ring|].
      apply affine2_plus; [apply affine2_plus; apply RA|apply affine2_scal, RA].
    - intros x y Lx Ly. specialize (E x y Lx Ly). specialize (F x y Lx Ly).
      destruct (svd_of_mapping flat_of shape init (of_list y) a _ A F La) as (v & V & S & _); [rewrite map_length, seq_length; reflexivity|exact D|].
      rewrite V in E. injection E as <-. rewrite S, map_map. apply sumR_map_ext. intros i I.
      assert (Q : forall j, relative_at shape a (map (fun k => g k x y) (seq 0 (prodn shape))) j = rel j x y).
      { intros j. unfold relative_at, rel. destruct (Reqb _ _); [reflexivity|]. unfold Rdiv. rewrite Rmult_comm. f_equal. destruct (Nat.ltb_spec (ravel shape j) (prodn shape)) as [L|L].
        - apply (nth_mapseq (fun k => g k x y)). exact L.
        - rewrite nth_overflow by (rewrite map_length, seq_length; exact L). reflexivity. }
      unfold laplace. f_equal; apply sumR_map_ext; intros k _; rewrite !Q; reflexivity.
  Qed.
End Affine2.

(** the curvature of a channel, or of its projection on some axes *)
Lemma project_svd_quadratic X Y procs c keep m init reg : filled c -> NoDup keep -> (forall a, In a keep -> In a (map ha_name (ci_axes c))) ->
  (ci_stop c <= Y)%nat -> (1 <= List.length keep <= 3)%nat -> project_mapping procs c keep false = Ok m -> List.length init = Y ->
  (forall x y, List.length x = X -> List.length y = Y -> svd_penalty (mp_flat m) (map (shape_of c) keep) (of_list init) (of_list y) = Ok (reg x y)) ->
  penalty_quadratic X Y reg.
Proof.
  intros F N K S D M Li E. set (shape := map (shape_of c) keep) in *.
  set (place := fun i => Some (projected (ci_axes c) keep i)).
  set (g := fun (k : nat) (x y : list R) => collected (fun i => nth (ci_start c + ravel (chan_shape c) i)%nat y 0) (chan_shape c) place (nth k (all_idx shape) [])).
  assert (FL : forall x y, List.length y = Y -> mp_flat m (of_list y) = Ok (map (fun k => g k x y) (seq 0 (prodn shape)))).
  { intros x y Ly. destruct (project_flat procs c keep F N K (of_list y) Y) as (m' & M' & _ & V); [unfold of_list; cbn [t_shape]; rewrite Ly; reflexivity|exact S|].
    rewrite M in M'. injection M' as <-. rewrite V. f_equal. fold shape. fold place. cbn [of_list t_at hd].
    rewrite (all_idx_seq shape) at 1. rewrite map_map. reflexivity. }
  apply (svd_quadratic X Y (mp_flat m) shape (of_list init) g reg).
  - unfold shape. rewrite map_length. exact D.
  - eexists. split; [apply (FL [] init Li)|]. rewrite map_length, seq_length. reflexivity.
  - intros x y _ Ly. apply FL. exact Ly.
  - intros k. unfold g, collected. apply affine2_sum. intros i _. apply affine2_yield.
  - exact E.
Qed.
