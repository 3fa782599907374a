(** Specification of envelopes, quadrature differences and refits. *)
From Coq Require Import Reals List Arith Bool String.
From Verif Require Import PyList PyDict Freeze_Model Freeze_Spec Envelope_Model.
Import ListNotations.
Open Scope R_scope.

Definition fle (a b : fl) : Prop :=
  match a, b with
  | NaN, _ | _, NaN => False
  | NInf, _ | _, PInf => True
  | Fin r, Fin s => r <= s
  | _, _ => False
  end.
Definition has_nan (vs : list (fl * fl)) : Prop := exists v, In v vs /\ (fst v = NaN \/ snd v = NaN).
(** smallest (largest) of zero and the two shifts *)
Definition lowest (v : R * R) (e : R) : Prop := e <= 0 /\ e <= fst v /\ e <= snd v /\ (e = 0 \/ e = fst v \/ e = snd v).
Definition highest (v : R * R) (e : R) : Prop := 0 <= e /\ fst v <= e /\ snd v <= e /\ (e = 0 \/ e = fst v \/ e = snd v).
Definition fin2 (v : R * R) : fl * fl := (Fin (fst v), Fin (snd v)).
Definition sumsq (l : list R) : R := fold_right Rplus 0 (map (fun x => x * x) l).
Definition envelope_spec (vs : list (fl * fl)) (lu : fl * fl) : Prop :=
  (has_nan vs -> lu = (NaN, NaN)) /\
  (~ has_nan vs -> fle (fst lu) (Fin 0) /\ fle (Fin 0) (snd lu) /\
     ((exists v, In v vs /\ (fst v = NInf \/ snd v = NInf)) -> fst lu = NInf) /\
     ((exists v, In v vs /\ (fst v = PInf \/ snd v = PInf)) -> snd lu = PInf)) /\
  (forall rs, vs = map fin2 rs -> exists l u ls us, lu = (Fin l, Fin u) /\ l <= 0 <= u /\
     Forall2 lowest rs ls /\ Forall2 highest rs us /\ l * l = sumsq ls /\ u * u = sumsq us).
(** the interval explained by the frozen parameters *)
Definition difference_spec (neg : bool) (tot frozen : fl) (d : fl) : Prop :=
  match tot, frozen with
  | Fin t, Fin f => exists r, d = Fin r /\ (if neg then r <= 0 else 0 <= r) /\ (f * f <= t * t -> r * r + f * f = t * t) /\ (t * t <= f * f -> r = 0)
  | _, _ => d = NaN
  end.

(** [l'] is [l] with entry i replaced *)
Definition only_at {A} (l l' : list A) (i : nat) (v : A) : Prop :=
  List.length l' = List.length l /\ ((i < List.length l)%nat -> nth_error l' i = Some v) /\ forall k, k <> i -> nth_error l' k = nth_error l k.
Definition difference (a b : list fl) (d : list fl) : Prop :=
  List.length d = Nat.min (List.length a) (List.length b) /\
  forall k x y, nth_error a k = Some x -> nth_error b k = Some y -> nth_error d k = Some (fsub x y).
(** a fit with centre and value of parameter i moved to v returned y *)
Definition refit (fit : list R -> list fl -> result (list fl)) (x0 : list R) (x : list fl) (i : nat) (v : R) (y : list fl) : Prop :=
  exists c s, only_at x0 c i v /\ only_at x s i (Fin v) /\ fit c s = Ok y.
Definition prefit_sigma (cw : R) (u e : R) : Prop := (cw = 0 -> e = u) /\ (0 < cw -> 0 < e /\ e * e * cw = 1).
(** the two rows of a frozen parameter: the fit before minus the fit with the parameter moved up, and down *)
Definition nonprofiled_row (fit : list R -> list fl -> result (list fl)) (x0 : list R) (x : list fl) (cw : list R) (u : R) (i : nat) (row : list fl * list fl) : Prop :=
  exists e p m, prefit_sigma (nth i cw 0) u e /\ refit fit x0 x i (nth i x0 0 + e) p /\ refit fit x0 x i (nth i x0 0 - e) m /\
    difference x p (fst row) /\ difference x m (snd row).
(** the rows of the parameters that satisfy P, in order *)
Definition rows_of {A} (P : nat -> Prop) (frozen : list nat) (rows : list A) (sel : list A) : Prop :=
  exists ks, (forall a b, (a < b < List.length ks)%nat -> (nth a ks 0 < nth b ks 0)%nat) /\
    (forall k, In k ks <-> exists i, nth_error frozen k = Some i /\ P i) /\ Forall2 (fun k r => nth_error rows k = Some r) ks sel.
Definition envelope_of (n : nat) (sel : list (list fl * list fl)) (e : list fl * list fl) : Prop :=
  List.length (fst e) = n /\ List.length (snd e) = n /\ forall k, (k < n)%nat -> envelope_spec (map (column k) sel) (column k e).
Definition opt_list {A} (o : option A) : list A := match o with Some a => [a] | None => [] end.
(** groups without a member among the varied parameters are left out; the others are the envelopes of their members;
    group indices count from the first nuisance, which follows [nparams] model parameters *)
Definition groups_spec (nparams n : nat) (frozen : list nat) (groups : list (string * list nat)) (rows : list (list fl * list fl))
  (out : list (string * (list fl * list fl))) : Prop :=
  exists os, out = flat_map opt_list os /\
    Forall2 (fun g o => exists sel, rows_of (fun i => exists j, In j (snd g) /\ i = (nparams + j)%nat) frozen rows sel /\
        match o with None => sel = [] | Some (name, e) => name = fst g /\ sel <> [] /\ envelope_of n sel e end) groups os.

(** a source shifted by s: its centre moves, the others stay *)
Definition shifted_fit (fit : list R -> list fl -> result (list fl)) (x0 : list R) (i : nat) (s : R) (y : list fl) : Prop :=
  exists c start, only_at x0 c i (nth i x0 0 + s) /\ fit c start = Ok y.
Definition source_sigma (cw e : R) : Prop := (cw = 0 -> e = 0) /\ (0 < cw -> 0 < e /\ e * e * cw = 1).
Definition source_side (fit : list R -> list fl -> result (list fl)) (x0 : list R) (x : list fl) (i : nat) (s : R) (row : list fl) : Prop :=
  exists y, shifted_fit fit x0 i s y /\ difference y x row.
(** down and up: the fit with the centre moved minus the nominal one *)
Definition source_row (fit : list R -> list fl -> result (list fl)) (x0 : list R) (x : list fl) (cw : list R) (sigma : R) (i : nat) (row : list fl * list fl) : Prop :=
  exists e, source_sigma (nth i cw 0) e /\ source_side fit x0 x i (- (sigma * e)) (fst row) /\ source_side fit x0 x i (sigma * e) (snd row).
Definition source_groups (n : nat) (sources : list nat) (groups : list (string * list nat)) (row : nat -> list fl * list fl -> Prop)
  (out : list (string * (list fl * list fl))) : Prop :=
  exists os, out = flat_map opt_list os /\
    Forall2 (fun g o => exists ms sel, (forall i, In i ms <-> In i (snd g) /\ In i sources) /\ (NoDup (snd g) -> NoDup ms) /\ Forall2 row ms sel /\
        match o with None => ms = [] | Some (name, e) => name = fst g /\ ms <> [] /\ envelope_of n sel e end) groups os.
(** the name is a valid expression that matches no other parameter *)
Definition literal (rx : regex) (parms : list string) (m : string) : Prop :=
  exists f, rx m = Some f /\ forall p, In p parms -> f p = true -> p = m.
(** one column per group: the part of the interval of each target that goes away if the members are frozen too *)
Definition freeze_group_column (scan : string -> list string -> fl * fl) (parms frozen targets : list string) (members : list string) (col : list (fl * fl)) : Prop :=
  exists L, (forall p, In p L <-> In p frozen \/ (In p members /\ In p parms)) /\
    Forall2 (fun t c => if smem t members || smem t frozen then c = (NaN, NaN)
                        else difference_spec true (fst (scan t frozen)) (fst (scan t L)) (fst c) /\
                             difference_spec false (snd (scan t frozen)) (snd (scan t L)) (snd c)) targets col.
Definition frozen_column (scan : string -> list string -> fl * fl) (parms frozen targets : list string) (members : list string) (col : list (fl * fl)) : Prop :=
  exists L, (forall p, In p L <-> In p frozen \/ (In p members /\ In p parms)) /\
    col = map (fun t => if smem t members || smem t frozen then (NaN, NaN) else scan t L) targets.
