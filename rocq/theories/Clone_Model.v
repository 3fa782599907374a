(** Copies of the fitter: rabbit/fitter.py:459-472 (functions of the instance), 474-502 (__deepcopy__), 2129-2195
    (_make_tf_functions) and python's copy.deepcopy; used in bin/rabbit_fit.py:411 and bin/rabbit_limit.py:80.

    Objects live in a heap and are named by their position; an object is a class name with a dictionary of attributes. A list, an array
    or a tf.Variable is an object with its entries or its value as attributes. Values which cannot change (numbers, strings, tensors,
    plain functions) are atoms. Only the copied fitter has a __deepcopy__ of its own; other objects are copied attribute by
    attribute. A compiled function (tf.function) is named by the method it was made of, its jit flag and the object the method is bound
    to; copying one raises. [limit] is the recursion limit of python. *)
From Coq Require Import List Arith Bool String.
From Verif Require Import PyList PyDict.
Import ListNotations.
Local Open Scope string_scope.

Definition loc := nat.
Inductive value := Atom (a : string) | Ref (l : loc) | Method (f : string) (l : loc) | Graph (f : string) (jit : bool) (l : loc).
Record obj := mkO { o_cls : string; o_dict : dict value }.
Definition heap := list obj.
Definition memo := list (loc * loc).
Fixpoint mget (l : loc) (m : memo) : option loc := match m with [] => None | (a, b) :: m => if Nat.eqb l a then Some b else mget l m end.

Fixpoint update {A} (i : nat) (f : A -> A) (l : list A) : list A :=
  match l, i with [] , _ => [] | a :: l, 0 => f a :: l | a :: l, S i => a :: update i f l end.
Definition setattr (h : heap) (l : loc) (k : string) (v : value) : heap := update l (fun o => mkO (o_cls o) (dset k v (o_dict o))) h.
Definition attr (h : heap) (l : loc) (k : string) : option value := match nth_error h l with Some o => dget k (o_dict o) | None => None end.

(** ** copy.deepcopy *)
Section Copy.
  Variable copy_ref : heap * memo -> loc -> result (heap * memo * loc).
  Definition copy_val (s : heap * memo) (v : value) : result (heap * memo * value) :=
    match v with
    | Atom a => Ok (s, Atom a)
    | Ref l => r <- copy_ref s l ;; Ok (fst r, Ref (snd r))
    | Method f l => r <- copy_ref s l ;; Ok (fst r, Method f (snd r))
    | Graph _ _ _ => Raise TypeError
    end.
  Fixpoint copy_attrs (s : heap * memo) (new : loc) (attrs : dict value) : result (heap * memo) :=
    match attrs with
    | [] => Ok s
    | (k, v) :: attrs => r <- copy_val s v ;; copy_attrs (setattr (fst (fst r)) new k (snd r), snd (fst r)) new attrs
    end.
End Copy.
Fixpoint copy_ref (limit : nat) (s : heap * memo) (l : loc) : result (heap * memo * loc) :=
  match limit with
  | 0 => Raise RuntimeError
  | S limit =>
    match mget l (snd s) with
    | Some new => Ok (s, new)
    | None =>
      match nth_error (fst s) l with
      | None => Raise KeyError
      | Some o =>
        let new := List.length (fst s) in
        s' <- copy_attrs (copy_ref limit) ((fst s ++ [mkO (o_cls o) []])%list, (l, new) :: snd s) new (o_dict o) ;;
        Ok (s', new)
      end
    end
  end.

(** ** lines 2129-2195; an attribute which is not there raises (an AttributeError in python) *)
Definition atom_of (h : heap) (l : loc) (k : string) : result string := match attr h l k with Some (Atom a) => Ok a | _ => Raise GenericException end.
Definition object_of (h : heap) (l : loc) (k : string) : result loc := match attr h l k with Some (Ref x) => Ok x | _ => Raise GenericException end.
Definition fwdrev := "loss_val_grad_hessp_fwdrev".
Definition revrev := "loss_val_grad_hessp_revrev".
Definition hessp := "loss_val_grad_hessp".
Definition make_tf_functions (h : heap) (l : loc) : result heap :=
  jit <- atom_of h l "jit_compile" ;;
  let jit := String.eqb jit "True" in
  let h := setattr h l "loss_val" (Graph "loss_val" jit l) in
  let h := setattr h l "loss_val_grad" (Graph "loss_val_grad" jit l) in
  let h := setattr h l fwdrev (Graph fwdrev false l) in
  let h := setattr h l revrev (Graph revrev jit l) in
  hvp <- atom_of h l "hvp_method" ;;
  if String.eqb hvp "fwdrev" then
    indata <- object_of h l "indata" ;;
    sparse <- atom_of h indata "sparse" ;;
    Ok (setattr h l hessp (if String.eqb sparse "True" then Graph revrev jit l else Graph fwdrev false l))
  else Ok (setattr h l hessp (Graph revrev jit l)).
Definition dynamic := ["loss_val"; "loss_val_grad"; hessp; fwdrev; revrev].

(** the methods of the class with the decorator @tf.function *)
Definition tf_methods := ["val_jac"; "impacts_parms"; "global_impacts_parms"; "gaussian_global_impacts_parms"; "_profile_beta"; "expected_with_variance";
  "expected_variations"; "chi2"; "expected_yield"; "_expected_yield_noBBB"; "full_nll"; "reduced_nll"; "loss_val_grad_hess"; "loss_val_valfull_grad_hess";
  "loss_val_grad_hess_beta"].
(** lines 459-472, the end of init_fit_parms *)
Definition make_functions (h : heap) (l : loc) : result heap :=
  make_tf_functions (fold_left (fun h f => setattr h l f (Graph f false l)) tf_methods h) l.

(** ** lines 474-502 *)
Definition skipped (k : string) : bool := smem k tf_methods || smem k dynamic.
Definition deepcopy (limit : nat) (h : heap) (self : loc) : result (heap * loc) :=
  match nth_error h self with
  | None => Raise KeyError
  | Some o =>
    let state := filter (fun kv => negb (skipped (fst kv))) (o_dict o) in
    let new := List.length h in
    s <- copy_attrs (copy_ref limit) ((h ++ [mkO (o_cls o) []])%list, [(self, new)]) new state ;;
    h' <- make_tf_functions (fst s) new ;;
    Ok (h', new)
  end.

(** ** use of a fitter: which function runs on which object, an attribute of the instance before one of the class *)
Definition class_methods (c : string) : list string := if String.eqb c "Fitter" then tf_methods else [].
Definition call (h : heap) (l : loc) (f : string) : option (string * bool * loc) :=
  match nth_error h l with
  | None => None
  | Some o =>
    match dget f (o_dict o) with
    | Some (Graph g jit x) => Some (g, jit, x)
    | Some (Method g x) => Some (g, false, x)
    | Some _ => None
    | None => if smem f (class_methods (o_cls o)) then Some (f, false, l) else None
    end
  end.
