(** Model of the iterative fit: rabbit/fitter.py:62-104 (FitterCallback), 2236-2314 (Fitter.fit) and
    504-553 (load_fitresult).

    Losses are values of any type [L] with numpy's [isnan] and [<=]; parameter vectors are values of
    any type [X]. The minimiser (scipy) is any well-founded strategy that asks for the loss or the
    Hessian(-vector product) at points of its choice, reports iterations to the callback and finally
    returns or raises; [ev x = None] means that evaluating at [x] raises. *)
From Coq Require Import List Arith Bool String ZArith Lia.
From Verif Require Import PyList PyDict Order.
Import ListNotations.

Section Callback.
  Context {L X V : Type}.
  Variables (isnan : L -> bool) (leb : L -> L -> bool).
  (** fitter.py:63-72; the times are not modelled *)
  Record cbst := mkCb { cb_iter : nat; cb_x : X; cb_hist : list L }.
  Definition cb_init (x : X) : cbst := mkCb 0 x [].
  (** fitter.py:74-104; [hist[-k]] is only evaluated when there are more than [k] entries *)
  Definition cb_call (k : Z) (c : cbst) (loss : L) (x : X) : result cbst :=
    if isnan loss then Raise ValueError
    else
      let h := cb_hist c in
      if (0 <? k)%Z && (k <? Z.of_nat (List.length h))%Z &&
         leb (nth (List.length h - Z.to_nat k) h loss) loss
      then Raise ValueError
      else Ok (mkCb (cb_iter c + 1) x (h ++ [loss])).

  (** the minimiser *)
  Inductive strat :=
  | SReturn (x : X)
  | SRaise
  | SInterrupt (* KeyboardInterrupt: not an Exception *)
  | SEval (x : X) (next : V -> strat)   (* scipy_loss, scipy_hessp, scipy_hess *)
  | SIter (loss : L) (x : X) (next : strat).
  Inductive outcome := Returned (x : X) | Failed | Interrupted.

  Variable ev : X -> option V.
  (** what happens while scipy.optimize.minimize runs; the state is self.x and the callback *)
  Fixpoint run_min (k : Z) (s : strat) (x : X) (c : cbst) : X * cbst * outcome :=
    match s with
    | SReturn r => (x, c, Returned r)
    | SRaise => (x, c, Failed)
    | SInterrupt => (x, c, Interrupted)
    | SEval y next => match ev y with Some v => run_min k (next v) y c | None => (y, c, Failed) end
    | SIter l y next => match cb_call k c l y with Ok c' => run_min k next x c' | Raise _ => (x, c, Failed) end
    end.
  (** fitter.py:2236-2314: the new value of self.x, and the callback unless the interrupt propagates *)
  Definition fit (k : Z) (s : strat) (x : X) : X * option cbst :=
    let '(xc, c, o) := run_min k s x (cb_init x) in
    match o with
    | Returned r => (r, Some c)
    | Failed => (cb_x c, Some c)
    | Interrupted => (xc, None)
    end.
End Callback.

(** *** load_fitresult *)
Section Load.
  Context {A : Type}.
  (** np.argsort(kind="mergesort") of strings: a stable sort *)
  Definition ssort (l : list (string * nat)) : list (string * nat) := sort_k fst string_c l.
  Fixpoint adj_equal (l : list (string * nat)) : list (nat * nat) :=
    match l with
    | p :: ((q :: _) as r) => (if String.eqb (fst p) (fst q) then [(snd p, snd q)] else []) ++ adj_equal r
    | _ => []
    end.
  (** np.intersect1d(assume_unique=True, return_indices=True): positions in both arrays; the second
      position is the one in the concatenation minus the size of the first array, and may be negative *)
  Definition intersect1d (a b : list string) : list (nat * Z) :=
    map (fun p => (fst p, (Z.of_nat (snd p) - Z.of_nat (List.length a))%Z))
        (adj_equal (ssort (combine (a ++ b) (seq 0 (List.length (a ++ b)))))).
  (** numpy indexing with a possibly negative index *)
  Definition py_get {B} (l : list B) (z : Z) : result B :=
    let n := Z.of_nat (List.length l) in
    let z' := if (z <? 0)%Z then (z + n)%Z else z in
    if (0 <=? z')%Z && (z' <? n)%Z
    then match nth_error l (Z.to_nat z') with Some v => Ok v | None => Raise IndexError end
    else Raise IndexError.
  Definition py_set {B} (l : list B) (i : nat) (v : B) : result (list B) :=
    if i <? List.length l then Ok (firstn i l ++ v :: skipn (S i) l) else Raise IndexError.
  (** fitter.py:534: xvals[idxs] = x_ext[idxs_ext], entry by entry *)
  Fixpoint scatter (pairs : list (nat * Z)) (src dst : list A) : result (list A) :=
    match pairs with
    | [] => Ok dst
    | (i, j) :: r => v <- py_get src j ;; d <- py_set dst i v ;; scatter r src d
    end.
  (** fitter.py:547-548: the block of shared parameters *)
  Fixpoint scatter_block (pairs all : list (nat * Z)) (src dst : list (list A)) : result (list (list A)) :=
    match pairs with
    | [] => Ok dst
    | (i, j) :: r => row <- py_get src j ;; old <- py_get dst (Z.of_nat i) ;; new <- scatter all row old ;;
                     d <- py_set dst i new ;; scatter_block r all src d
    end.
  Record ext_result := mkExt { er_x : list A; er_parms : list string; er_cov : option (list (list A)) }.
  (** the values and the covariance of the fitter, the flag external_cov_loaded *)
  Record lstate := mkLs { ls_x : list A; ls_cov : option (list (list A)); ls_loaded : bool }.
  (** fitter.py:504-553: the new state and the exception raised, if any. The profiling of beta at the
      end changes neither, but without bin-by-bin parameters (bb = false) it assigns None to a
      tf.Variable *)
  Definition load_fitresult (profile bb : bool) (parms : list string) (e : ext_result) (s : lstate) : lstate * option pyexc :=
    let fin := if profile && negb bb then Some ValueError else None in
    let ps := intersect1d parms (er_parms e) in
    match scatter ps (er_x e) (ls_x s) with
    | Raise ex => (mkLs (ls_x s) (ls_cov s) false, Some ex)
    | Ok x' =>
      match er_cov e with
      | None => (mkLs x' (ls_cov s) false, fin)
      | Some ce =>
        match ls_cov s with
        | None => (mkLs x' None false, Some RuntimeError)
        | Some c => match scatter_block ps ps ce c with
                    | Raise ex => (mkLs x' (Some c) false, Some ex)
                    | Ok c' => (mkLs x' (Some c') true, fin)
                    end
        end
      end
    end.
End Load.
