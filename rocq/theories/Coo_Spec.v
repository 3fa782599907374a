(** The content of a sparse array, histograms with the same content, and scripts that differ in the representation of their
    histograms only. *)
From Coq Require Import Reals List Arith Bool String Lia.
From Verif Require Import RBase PyList PyDict Num Shape Names_Model Writer_Model Writer_Spec Writer_Hist Coo_Model.
Import ListNotations.

(** the sum of everything stored at these coordinates *)
Definition content (h : raw R) (idx : list nat) : R :=
  sumR (map snd (filter (fun e => if list_eq_dec Nat.eq_dec (fst e) idx then true else false) (r_ents h))).
(** coordinates inside the shape; no coordinates twice; no zero stored *)
Definition inside (h : raw R) : Prop := Forall (fun e => in_shape (r_shape h) (fst e)) (r_ents h).
Definition canonical (h : raw R) : Prop := NoDup (map fst (r_ents h)).
Definition no_zeros (h : raw R) : Prop := Forall (fun e => snd e <> 0%R) (r_ents h).

(** two histograms with the same bins and contents *)
Definition same_hist (h1 h2 : histo R) : Prop := hsize h1 = hsize h2 /\ forall i, hist_at h1 i = hist_at h2 i.
Definition same_input (s1 s2 : systinput R) : Prop :=
  match s1, s2 with
  | SSingle a, SSingle b => same_hist a b
  | SPair a b, SPair a' b' => same_hist a a' /\ same_hist b b'
  | _, _ => False
  end.
(** the same declaration, up to the representation of the histograms (and the variances) *)
Inductive same_op : op R -> op R -> Prop :=
| so_refl o : same_op o o
| so_proc h1 h2 n c s v1 v2 : same_hist h1 h2 -> same_op (AddProcess h1 n c s v1) (AddProcess h2 n c s v2)
| so_syst s1 s2 n p c kf mi m ad kw : same_input s1 s2 -> same_op (AddSystematic s1 n p c kf mi m ad kw) (AddSystematic s2 n p c kf mi m ad kw).
