(** Model of reading pseudodata, rabbit/inputdata.py:29-72, and of the data sets a fit runs over,
    bin/rabbit_fit.py:915-957.  Writing them is part of Writer_Model.v (add_data,
    add_pseudodata, fill_data, fill_pseudo).
    Simplifications: a tensor of shape (rows, columns) is a function with its shape; names are
    text (inputdata.py:30 converts them). *)
From Coq Require Import List Arith Bool String.
From Verif Require Import PyList PyDict.
Import ListNotations.
Local Open Scope string_scope.
Local Open Scope list_scope.

Section Pseudo.
  Context {V : Type}.
  Record mat := mkMat { m_rows : nat; m_cols : nat; m_at : nat -> nat -> V }.
  (** tf.gather(m, idx, axis=1) *)
  Definition gather1 (idx : list nat) (m : mat) : mat :=
    mkMat (m_rows m) (List.length idx) (fun b j => m_at m b (nth j idx 0)).
  (** iterating over tf.transpose(m) *)
  Definition columns (m : mat) : list (list V) :=
    map (fun j => map (fun b => m_at m b j) (seq 0 (m_rows m))) (seq 0 (m_cols m)).

  (** the datasets of the file that matter *)
  Record pfile := mkPf { pf_names : option (list string); pf_obs : option mat; pf_var : option mat }.
  Record loaded := mkLd { l_names : list string; l_obs : mat; l_var : option mat }.

  (** np.where(mask)[0] *)
  Definition where_ (mask : list bool) : list nat :=
    map fst (filter (fun kb => snd kb) (combine (seq 0 (List.length mask)) mask)).
  (** inputdata.py:29-72; [None]: pseudodata not requested *)
  Definition load_pseudo (f : pfile) (req : option (list string)) : result (option loaded) :=
    let names := match pf_names f with Some l => l | None => [] end in
    match req with
    | None => Ok None
    | Some l =>
      match pf_obs f with
      | None => Raise KeyError
      | Some obs =>
        match l with
        | [] => Ok (Some (mkLd names obs (pf_var f)))
        | _ :: _ =>
          if negb (forallb (fun n => smem n names) l) then Raise ValueError
          else
            let indices := where_ (map (fun n => smem n l) names) in
            match indices with
            | [] => Raise ValueError
            | _ :: _ => Ok (Some (mkLd (map (fun k => nth k names "") indices) (gather1 indices obs) (pf_var f)))
            end
        end
      end
    end.

  (** rabbit_fit.py:920-929: the (values, variances) of the loop over data sets *)
  Definition datasets (d : loaded) : list (list V * option (list V)) :=
    combine (columns (l_obs d))
      (match l_var d with Some v => map Some (columns v) | None => repeat None (m_cols (l_obs d)) end).
  (** rabbit_fit.py:932-957: the name under which the j-th one is stored *)
  Fixpoint label_from (names : list string) (j : nat) (l : list (list V * option (list V)))
    : result (list (string * (list V * option (list V)))) :=
    match l with
    | [] => Ok []
    | d :: r =>
        match nth_error names j with
        | None => Raise IndexError
        | Some n => rest <- label_from names (S j) r ;; Ok ((n, d) :: rest)
        end
    end.
  Definition fitted (f : pfile) (req : list string) : result (list (string * (list V * option (list V)))) :=
    o <- load_pseudo f (Some req) ;;
    match o with None => Ok [] | Some d => label_from (l_names d) 0 (datasets d) end.
End Pseudo.
Arguments mat : clear implicits.
Arguments pfile : clear implicits.
Arguments loaded : clear implicits.
