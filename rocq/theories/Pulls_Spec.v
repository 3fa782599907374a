(** What the plot should show, from tables of names and values. *)
From Coq Require Import Reals List Arith Bool String Permutation Sorted.
From Verif Require Import RBase PyList PyDict Read_Model Pulls_Model.
Import ListNotations.
Local Open Scope nat_scope.
Local Open Scope string_scope.

Definition kept (search : string -> string -> bool) (filters : option (list string)) (l : string) : Prop :=
  forall fs, filters = Some fs -> fs <> [] -> exists f, In f fs /\ search f l = true.
Definition grouped_in (grouping : option (list string)) (l : string) : Prop := forall g, grouping = Some g -> g <> [] -> In l g.
(** the value of an impact: relative to the total uncertainty, or scaled *)
Definition scaled (o : choice) (x : R) : R := if o_normalize o then x else if Req_EM_T (o_scale o) 0 then x else (x * o_scale o)%R.
Definition shown_impact (o : choice) (total : R) (label : string) (x : R) : R :=
  if andb (if Rlt_dec 0 (o_stat o) then true else false) (String.eqb label "stat") then scaled o (o_stat o)
  else scaled o (if o_normalize o then x / total else x)%R.
Definition sym_cells (imp : R) (r : row) : Prop :=
  dget "impact_up" (snd r) = Some imp /\ dget "impact_down" (snd r) = Some (- imp)%R /\ dget "absimpact" (snd r) = Some (Rabs imp).
Definition pull_cells (pull prefit unc : R) (r : row) : Prop :=
  dget "pull" (snd r) = Some pull /\ dget "pull_prefit" (snd r) = Some prefit /\ dget "abspull" (snd r) = Some (Rabs pull) /\ dget "constraint" (snd r) = Some unc /\
  ((unc * unc < 1)%R -> dget "newpull" (snd r) = Some (pull / sqrt (1 - unc * unc))%R) /\ ((1 <= unc * unc)%R -> dget "newpull" (snd r) = Some 999%R).
Definition pull_value (o : choice) (x x0 : R) : R := if o_diff o then (x - x0)%R else x.
(** positions of a list, in its order *)
Definition positions_where (n : nat) (P : nat -> Prop) (qs : list nat) : Prop := (exists f, qs = filter f (seq 0 n)) /\ forall q, In q qs <-> q < n /\ P q.
(** ** two tables *)
Definition cell_at (t : table) (name c : string) : option R := match dget name (t_rows t) with Some cs => dget c cs | None => None end.
Definition plain_names (t : table) : Prop := forall r c, In r (t_rows t) -> ~ In (ref_of c) (dkeys (snd r)).
(** ** the order of the rows and what is cut off *)
Definition ordered_by (le : R -> R -> Prop) (key : string) (rows : list row) : Prop := StronglySorted (fun a b => le (cell key a) (cell key b)) rows.
Definition cut_at (le : R -> R -> Prop) (key : string) (num : nat) (rows shown : list row) : Prop :=
  exists hidden, Permutation rows (hidden ++ shown) /\ (num <> 0 -> List.length shown = Nat.min num (List.length rows)) /\ (num = 0 -> hidden = []) /\
  ordered_by le key shown /\ forall h s, In h hidden -> In s shown -> le (cell key h) (cell key s).
(** ** what a figure shows of a label *)
Definition bars (name : string) (f : list trace) : list (string * option R) := flat_map (fun t => match t with Bar n l => if String.eqb n name then l else [] | _ => [] end) f.
