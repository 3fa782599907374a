(** What a command line of a parameter model says, independently of how it is parsed: the lines are described from left to right
    as in the help texts, together with what they stand for. *)
From Coq Require Import Reals List Arith ZArith Bool String Ascii.
From Verif Require Import RBase PyList PyDict Parse_Model Param_Model Pcmd_Model.
Import ListNotations.
Local Open Scope nat_scope.

(** axis:number *)
Record pick := mkPick { p_axis : text; p_text : text; p_val : Z }.
Definition pick_ok (p : pick) : Prop := ~ In colon (p_axis p) /\ py_int (p_text p) = Ok (p_val p).
Definition pick_token (p : pick) : text := p_axis p ++ colon :: p_text p.
(** the last value given for an axis *)
Fixpoint last_pick (a : string) (ps : list pick) : option Z :=
  match ps with
  | [] => None
  | p :: r => match last_pick a r with Some z => Some z | None => if String.eqb a (S_ (p_axis p)) then Some (p_val p) else None end
  end.
(** the first occurrences *)
Fixpoint firsts (l : list string) : list string :=
  match l with [] => [] | a :: r => a :: filter (fun b => negb (String.eqb a b)) (firsts r) end.
Definition meant_sel (ps : list pick) : list (string * Z) :=
  map (fun a => (a, match last_pick a ps with Some z => z | None => 0%Z end)) (firsts (map (fun p => S_ (p_axis p)) ps)).
(** <channel> [axis:number ...] *)
Definition region_line (toks : list text) (r : region) : Prop :=
  exists ch ps, toks = ch :: map pick_token ps /\ ~ In colon ch /\ Forall pick_ok ps /\ r = mkRegion (S_ ch) (meant_sel ps).
(** [word:number], where the number is any text that int() accepts *)
Inductive option_line (word : text) : list text -> option Z -> Prop :=
| Absent : option_line word [] None
| Given v z : py_int v = Ok z -> option_line word [word ++ v] (Some z).
(** [params:file] or [order:N] *)
Inductive start_line (read : text -> result (list R * Z)) : list text -> Z -> option (list R) -> Prop :=
| FromFile f po : read f = Ok po -> start_line read [t_params ++ f] (snd po) (Some (fst po))
| FromOrder l o : option_line t_order l o -> start_line read l (match o with Some z => z | None => 1%Z end) None.
Definition begins (word t : text) : Prop := exists v, t = word ++ v.
(** [yieldCorrection:0|1] <process> and n regions; the process cannot look like the option before it *)
Definition body_line (n : nat) (toks : list text) (corr : bool) (proc : string) (rs : list region) : Prop :=
  exists ct o p lines, toks = ct ++ p :: List.concat lines /\ option_line t_corr ct o /\ (ct = [] -> ~ begins t_corr p) /\
    corr = match o with Some z => negb (Z.eqb z 0) | None => false end /\ proc = S_ p /\ Forall2 region_line lines rs /\ List.length rs = n.
(** [yieldCorrection:0|1] <process> <channel> *)
Definition iso_line (toks : list text) (corr : bool) (proc : string) (ch : string) : Prop :=
  exists ct o p c, toks = ct ++ [p; c] /\ option_line t_corr ct o /\ (ct = [] -> ~ begins t_corr p) /\
    corr = match o with Some z => negb (Z.eqb z 0) | None => false end /\ proc = S_ p /\ ch = S_ c.
(** an option that is not given is not what follows *)
Definition not_next (word : text) (given toks : list text) : Prop := given = [] -> forall t r, toks = t :: r -> ~ begins word t.
