(** The diagnostics of the fit (option --diagnostics): rabbit/fitter.py:2248-2258 (scipy_hess inside Fitter.fit),
    rabbit/tfhelpers.py:77-95 (tf_edmval, edmval), rabbit/scipyhelpers.py:51-55 (scipy_edmval) and
    rabbit/impacts/nonprofiled_impacts.py:66-82.

    Exact reals, vectors and matrices as in Mat_Model. np.linalg.solve and tf.linalg.solve are Gaussian elimination with
    row pivoting and raise on a zero pivot. The condition number is only printed and does not raise, it is left out. The
    minimiser is an arbitrary plan as in Fit_Model, with evaluations of loss and Hessian told apart. *)
From Coq Require Import List Reals ZArith Bool.
From Verif Require Import PyList RBase Mat_Model Fit_Model Linear_Model.
Import ListNotations.
Local Open Scope R_scope.

Notation vec := (nat -> R).
Notation mat := (nat -> nat -> R).

(** ** solving: a row is its coefficients and its right hand side *)
Definition row : Type := vec * R.
(** the row with the largest first coefficient and the other rows *)
Fixpoint pick (rows : list row) : option (row * list row) :=
  match rows with
  | [] => None
  | r :: t =>
    match pick t with
    | None => if Reqb (fst r O) 0 then None else Some (r, t)
    | Some (p, rest) => if Rleb (Rabs (fst p O)) (Rabs (fst r O)) then Some (r, t) else Some (p, r :: rest)
    end
  end.
Definition eliminate (p r : row) : row :=
  (fun j => fst r (S j) - fst r O / fst p O * fst p (S j), snd r - fst r O / fst p O * snd p).
Fixpoint gauss (m : nat) (rows : list row) : option vec :=
  match m with
  | O => Some (fun _ => 0)
  | S k =>
    match pick rows with
    | None => None
    | Some (p, rest) =>
      match gauss k (map (eliminate p) rest) with
      | None => None
      | Some x => Some (fun i => match i with
                                 | O => (snd p - sm k (fun j => fst p (S j) * x j)) / fst p O
                                 | S i' => x i'
                                 end)
      end
    end
  end.
Definition solve (n : nat) (A : mat) (b : vec) : option vec := gauss n (map (fun i => (A i, b i)) (seq 0 n)).

(** ** what is written to the log: a number or a python object *)
Inductive logged := Number (x : R) | Function.
(** scipyhelpers.py:51-55; np.linalg.LinAlgError is a ValueError *)
Definition scipy_edmval (n : nat) (grad : vec) (hess : mat) : result logged :=
  match solve n hess grad with
  | None => Raise ValueError
  | Some x => Ok (Number (1 / 2 * vdot n grad x))
  end.
(** tfhelpers.py:77-87: the value is assigned to [edm], [edmval] is the function of line 90 *)
Definition tf_edmval (n : nat) (grad : vec) (hess : mat) : result logged :=
  match solve n hess grad with
  | None => Raise ValueError
  | Some x => let edm := Number (1 / 2 * vdot n grad x) in Ok Function
  end.
(** tfhelpers.py:90-95 *)
Definition edmval (gpu : bool) := if gpu then tf_edmval else scipy_edmval.

(** ** the fit *)
Record values := mkVals { v_loss : R; v_grad : vec; v_hess : mat }.
(** fitter.py:2248-2258: what is logged and returned *)
Definition scipy_hess (diagnostics gpu : bool) (n : nat) (v : values) : result (list logged * mat) :=
  if diagnostics
  then e <- edmval gpu n (v_grad v) (v_hess v) ;; Ok ([e], v_hess v)
  else Ok ([], v_hess v).
(** scipy.optimize.minimize *)
Inductive plan :=
| PReturn (x : vec)
| PRaise
| PInterrupt
| PLoss (x : vec) (next : R * vec -> plan)
| PHess (x : vec) (next : mat -> plan)
| PIter (loss : R) (x : vec) (next : plan).
Fixpoint strategy (diagnostics gpu : bool) (n : nat) (p : plan) : @strat R vec values :=
  match p with
  | PReturn x => SReturn x
  | PRaise => SRaise
  | PInterrupt => SInterrupt
  | PLoss x next => SEval x (fun v => strategy diagnostics gpu n (next (v_loss v, v_grad v)))
  | PHess x next => SEval x (fun v => match scipy_hess diagnostics gpu n v with
                                      | Ok h => strategy diagnostics gpu n (next (snd h))
                                      | Raise _ => SRaise
                                      end)
  | PIter l x next => SIter l x (strategy diagnostics gpu n next)
  end.
(** fitter.py:2236-2314; [f] is the loss with its derivatives *)
Definition fit_with (diagnostics gpu : bool) (n : nat) (f : vec -> values) (k : Z) (p : plan) (x : vec) : vec * option (@cbst R vec) :=
  fit (fun _ => false) Rleb (fun y => Some (f y)) k (strategy diagnostics gpu n p) x.

(** ** nonprofiled_impacts.py:66-82: the refits of the frozen parameters; a refit is a function of the index, the sign and
    the parameters. The result are the logged values and the differences. *)
Definition refit_one (diagnostics gpu : bool) (n : nat) (f : vec -> values) (refit : nat -> bool -> vec -> vec) (x : vec) (i : nat) (s : bool)
  : result (list R * vec) :=
  let y := refit i s x in
  e <- (if diagnostics
        then r <- lib_edmval_cov gpu n (v_grad (f y)) (v_hess (f y)) ;; Ok [fst r]
        else Ok []) ;;
  Ok (e, fun j => x j - y j).
Fixpoint refits (diagnostics gpu : bool) (n : nat) (f : vec -> values) (refit : nat -> bool -> vec -> vec) (x : vec) (idx : list nat)
  : result (list (list R * vec)) :=
  match idx with
  | [] => Ok []
  | i :: r =>
    a <- refit_one diagnostics gpu n f refit x i true ;;
    b <- refit_one diagnostics gpu n f refit x i false ;;
    t <- refits diagnostics gpu n f refit x r ;;
    Ok (a :: b :: t)
  end.
