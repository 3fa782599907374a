(** Specification vocabulary for the iterative fit and for loading external results. *)
From Coq Require Import List Arith Bool String ZArith.
From Verif Require Import PyList Fit_Model.
Import ListNotations.

(** [ls] are the losses of the iterations in order *)
Definition no_gain {L} (leb : L -> L -> bool) (k : nat) (ls : list L) (i : nat) : Prop :=
  exists a b, (k <= i)%nat /\ nth_error ls (i - k) = Some a /\ nth_error ls i = Some b /\ leb a b = true.
(** iteration [i] (counted from 0) must stop the fit; the comparison starts after iteration [k] *)
Definition stops {L} (isnan : L -> bool) (leb : L -> L -> bool) (k : Z) (ls : list L) (i : nat) : Prop :=
  (exists b, nth_error ls i = Some b /\ isnan b = true) \/
  ((0 < k)%Z /\ (Z.to_nat k < i)%nat /\ no_gain leb (Z.to_nat k) ls i).

(** all calls of the callback on a list of (loss, point), stopping at the first exception *)
Fixpoint calls {L X} (isnan : L -> bool) (leb : L -> L -> bool) (k : Z) (c : @cbst L X) (its : list (L * X)) : @cbst L X * bool :=
  match its with
  | [] => (c, true)
  | (l, x) :: r => match cb_call isnan leb k c l x with Ok c' => calls isnan leb k c' r | Raise _ => (c, false) end
  end.

(** what a minimisation does, independently of the fitter: [acc] are the accepted iterations so far *)
Inductive exec {L X V} (isnan : L -> bool) (leb : L -> L -> bool) (k : Z) (ev : X -> option V) :
  @strat L X V -> list (L * X) -> list (L * X) -> @outcome X -> Prop :=
| ex_return acc x : exec isnan leb k ev (SReturn x) acc acc (Returned x)
| ex_raise acc : exec isnan leb k ev SRaise acc acc Failed
| ex_interrupt acc : exec isnan leb k ev SInterrupt acc acc Interrupted
| ex_eval acc acc' y v next o : ev y = Some v -> exec isnan leb k ev (next v) acc acc' o -> exec isnan leb k ev (SEval y next) acc acc' o
| ex_eval_fail acc y next : ev y = None -> exec isnan leb k ev (SEval y next) acc acc Failed
| ex_iter acc acc' l y next o : ~ stops isnan leb k (map fst acc ++ [l]) (List.length acc) ->
    exec isnan leb k ev next (acc ++ [(l, y)]) acc' o -> exec isnan leb k ev (SIter l y next) acc acc' o
| ex_iter_stop acc l y next : stops isnan leb k (map fst acc ++ [l]) (List.length acc) ->
    exec isnan leb k ev (SIter l y next) acc acc Failed.

(** [shared a b i j]: the same name at position i of a and position j of b *)
Definition shared (a b : list string) (i j : nat) : Prop := exists n, nth_error a i = Some n /\ nth_error b j = Some n.
