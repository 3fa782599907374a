(** Numbers of the writer/fitter models: the operations numpy/tensorflow are used for.
    Structural theorems hold for any carrier with [NumLaws]; analytic ones use the reals. *)
From Coq Require Import List Bool Reals ZArith.
From Verif Require Import RBase.

Class Num (V : Type) := {
  n0 : V; n1 : V; nhalf : V; nsqrt3 : V;
  nadd : V -> V -> V; nsub : V -> V -> V; nmul : V -> V -> V; ndiv : V -> V -> V; nopp : V -> V;
  nabs : V -> V; nlt : V -> V -> bool;     (* a < b *)
  neq0 : V -> bool;                        (* v == 0.0 *)
  nfinite : V -> bool;                     (* np.isfinite *)
  nln : V -> V; nexp : V -> V;
  nlogeps : V                              (* math.log(1e-3), tensorwriter.py:83 *)
}.
(** the only law structural theorems use: zero test decides equality with zero *)
Class NumLaws (V : Type) `{Num V} := { neq0_spec : forall v, neq0 v = true <-> v = n0 }.

#[export] Instance Num_R : Num R := {|
  n0 := 0%R; n1 := 1%R; nhalf := (1/2)%R; nsqrt3 := sqrt 3;
  nadd := Rplus; nsub := Rminus; nmul := Rmult; ndiv := Rdiv; nopp := Ropp;
  nabs := Rabs; nlt := Rltb; neq0 := fun v => Reqb v 0; nfinite := fun _ => true;
  nln := ln; nexp := exp; nlogeps := ln (1/1000) |}.
#[export] Instance NumLaws_R : NumLaws R.
Proof. split. intros v. cbn. destruct (Reqb_spec v 0); split; congruence. Qed.

(** integer carrier for executable examples; [Z.log2]-free toy logarithm [ln x := x - 1] so
    that ratios show up, division exact where the examples need it; 999 plays the role of a
    non-finite number *)
Definition Num_Z : Num Z := {|
  n0 := 0%Z; n1 := 1%Z; nhalf := 1%Z; nsqrt3 := 1%Z;
  nadd := Z.add; nsub := Z.sub; nmul := Z.mul; ndiv := Z.div; nopp := Z.opp;
  nabs := Z.abs; nlt := Z.ltb; neq0 := Z.eqb 0; nfinite := fun v => negb (Z.eqb v 999);
  nln := fun x => (x - 1)%Z; nexp := fun x => (x + 1)%Z; nlogeps := (-7)%Z |}.
