(** What an external term means, by parameter name. *)
From Coq Require Import List Arith Bool String Reals.
From Verif Require Import RBase Ext_Model.
Import ListNotations.
Local Open Scope R_scope.

(** [X] gives every named parameter its value at the point [x] *)
Definition reads (parms : list string) (x : list R) (X : string -> R) : Prop :=
  forall i p, nth_error parms i = Some p -> nth_error x i = Some (X p).
(** entry (i,j) of a user Hessian; [ov] tells whether the axes have an overflow bin *)
Definition hess_entry (n : nat) (ov : bool) (h : hess_in) (i j : nat) : R :=
  match h with
  | HDense _ _ v => nth j (nth i v []) 0
  | HSparse _ _ flat =>
    sumR (map snd (filter (fun e => Nat.eqb (fst e) (i * (if ov then n + 1 else n) + j)) flat))
  end.
Definition ssum (n : nat) (f : nat -> R) : R := sumR (map f (seq 0 n)).
(** g.x + 1/2 x.H.x over the labels *)
Definition meaning (ov : bool) (grad : option (list string * list R)) (hess : option hess_in) (X : string -> R) : R :=
  match grad with
  | Some (l, v) => ssum (List.length l) (fun i => nth i v 0 * X (nth i l ""%string))
  | None => 0
  end
  + match hess with
    | Some h => let l := fst (hess_labels h) in let n := List.length l in
        1 / 2 * ssum n (fun i => ssum n (fun j => X (nth i l ""%string) * hess_entry n ov h i j * X (nth j l ""%string)))
    | None => 0
    end.
(** all entries of a sparse Hessian lie inside the label range *)
Definition in_range (h : hess_in) : Prop :=
  match h with
  | HSparse l _ flat => forall e, In e flat -> (fst e < List.length l * List.length l)%nat
  | HDense _ _ _ => True
  end.
Record ext_call := mkCall { ca_grad : option (list string * list R); ca_hess : option hess_in; ca_name : option string }.
Fixpoint ext_calls (ts : list ext_term) (cs : list ext_call) : PyList.result (list ext_term) :=
  match cs with
  | [] => PyList.Ok ts
  | c :: r => PyList.rbind (add_ext ts (ca_grad c) (ca_hess c) (ca_name c)) (fun ts' => ext_calls ts' r)
  end.
