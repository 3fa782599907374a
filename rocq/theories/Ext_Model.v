(** Model of the external likelihood terms: rabbit/tensorwriter.py:1331-1448
    (add_external_likelihood_term), 2171-2240 (writing), rabbit/external_likelihood.py
    (reading, resolution, evaluation), over the reals. Inputs are typed: a gradient has one
    string axis, a Hessian two. The storage round trip of the arrays is the identity (C01).
    A SparseHist keeps flat indices in the layout that includes an overflow bin if the axis has
    one. *)
From Coq Require Import List Arith Bool String Reals.
From Verif Require Import PyList RBase Order PyDict Writer_Model.
Import ListNotations.

Local Open Scope nat_scope.

Inductive hess_in :=
| HDense (l0 l1 : list string) (v : list (list R))
| HSparse (l0 l1 : list string) (flat : list (nat * R)).
Inductive hess_st := SDense (v : list (list R)) | SSparse (e : list (nat * nat * R)).
Record ext_term := mkExt { et_name : string; et_params : list string; et_grad : option (list R); et_hess : option hess_st }.

Definition strs_eqb (a b : list string) : bool := if list_eq_dec string_dec a b then true else false.
(** tensorwriter.py:1389-1438 *)
Definition hess_labels (h : hess_in) : list string * list string :=
  match h with HDense a b _ => (a, b) | HSparse a b _ => (a, b) end.
Definition hess_store (n : nat) (h : hess_in) : result hess_st :=
  match h with
  | HSparse _ _ flat => Ok (SSparse (map (fun e => (fst e / n, fst e mod n, snd e)) flat))
  | HDense _ _ v =>
    if Nat.eqb (List.length v) n && forallb (fun r => Nat.eqb (List.length r) n) v then Ok (SDense v)
    else Raise RuntimeError
  end.
Definition add_ext (terms : list ext_term) (grad : option (list string * list R)) (hess : option hess_in)
    (name : option string) : result (list ext_term) :=
  match grad, hess with
  | None, None => Raise ValueError
  | _, _ =>
    let nm := match name with Some s => s | None => ("ext" ++ nat_str (List.length terms))%string end in
    if existsb (fun t => String.eqb (et_name t) nm) terms then Raise RuntimeError
    else
      pg <- match grad with
            | None => Ok (None, None)
            | Some (l, v) => if Nat.eqb (List.length v) (List.length l) then Ok (Some l, Some v) else Raise RuntimeError
            end ;;
      ph <- match hess with
            | None => Ok (match fst pg with Some l => l | None => [] end, None)
            | Some h =>
              let '(l0, l1) := hess_labels h in
              if negb (strs_eqb l0 l1) then Raise ValueError
              else if match fst pg with Some l => negb (strs_eqb l l0) | None => false end then Raise ValueError
              else s <- hess_store (List.length l0) h ;; Ok (l0, Some s)
            end ;;
      Ok (terms ++ [mkExt nm (fst ph) (snd pg) (snd ph)])
  end.

(** tensorwriter.py:2200-2236: canonical row-major order *)
Definition cell_key (n : nat) (e : nat * nat * R) : nat := fst (fst e) * n + snd (fst e).
Fixpoint canonical (l : list (nat * nat * R)) : bool :=
  match l with
  | a :: (b :: _) as r =>
    (Nat.ltb (fst (fst a)) (fst (fst b)) || (Nat.eqb (fst (fst a)) (fst (fst b)) && Nat.leb (snd (fst a)) (snd (fst b)))) && canonical r
  | _ => true
  end.
Definition write_hess (n : nat) (h : hess_st) : hess_st :=
  match h with
  | SSparse e => SSparse (if canonical e then e else sort_k (cell_key n) Nat.compare e)
  | SDense v => SDense v
  end.
Definition write_term (t : ext_term) : ext_term :=
  mkExt (et_name t) (et_params t) (et_grad t)
    (match et_hess t with Some h => Some (write_hess (List.length (et_params t)) h) | None => None end).
(** h5py iterates a group in the order of the names *)
Definition read_terms (ts : list ext_term) : list ext_term := sort_k et_name string_c (map write_term ts).

(** external_likelihood.py:92-164; the CSR builder rejects indices outside the shape *)
Record ext_tf := mkTf { tf_idx : list nat; tf_grad : option (list R); tf_hess : option hess_st }.
Fixpoint resolve (parms names : list string) : result (list nat) :=
  match names with
  | [] => Ok []
  | p :: r => match last_index p parms with
              | None => Raise RuntimeError
              | Some j => is <- resolve parms r ;; Ok (j :: is)
              end
  end.
Definition hess_fits (n : nat) (h : hess_st) : bool :=
  match h with
  | SDense v => true
  | SSparse e => forallb (fun c => Nat.ltb (fst (fst c)) n && Nat.ltb (snd (fst c)) n) e
  end.
Definition build_term (parms : list string) (t : ext_term) : result ext_tf :=
  is <- resolve parms (et_params t) ;;
  match et_hess t with
  | Some h => if hess_fits (List.length (et_params t)) h then Ok (mkTf is (et_grad t) (Some h)) else Raise GenericException
  | None => Ok (mkTf is (et_grad t) None)
  end.
Fixpoint build_terms (parms : list string) (ts : list ext_term) : result (list ext_tf) :=
  match ts with
  | [] => Ok []
  | t :: r => a <- build_term parms t ;; b <- build_terms parms r ;; Ok (a :: b)
  end.
(** len(dict of names) == len(names) *)
Fixpoint nodupb (l : list string) : bool :=
  match l with [] => true | x :: r => negb (smem x r) && nodupb r end.
Definition build_ext (parms : list string) (ts : list ext_term) : result (list ext_tf) :=
  if nodupb parms then build_terms parms ts else Raise RuntimeError.

(** external_likelihood.py:167-221 *)
Local Open Scope R_scope.
Definition dot (a b : list R) : R := sumR (map (fun p => fst p * snd p) (combine a b)).
Definition hess_mv (h : hess_st) (x : list R) : list R :=
  match h with
  | SDense v => map (fun row => dot row x) v
  | SSparse e => map (fun i => sumR (map (fun c => snd c * nth (snd (fst c)) x 0)
                                      (filter (fun c => Nat.eqb (fst (fst c)) i) e))) (seq 0 (List.length x))
  end.
Definition term_value (t : ext_tf) (x : list R) : R :=
  let xs := map (fun i => nth i x 0) (tf_idx t) in
  (match tf_grad t with Some g => dot g xs | None => 0 end)
  + (match tf_hess t with Some h => 1 / 2 * dot xs (hess_mv h xs) | None => 0 end).
Definition ext_nll (ts : list ext_tf) (x : list R) : R := sumR (map (fun t => term_value t x) ts).
