(** What a specification string means, independently of how it is parsed. *)
From Coq Require Import Reals List Arith ZArith Bool String Ascii DecimalString.
From Verif Require Import RBase PyList PyDict Parse_Model.
Import ListNotations.
Local Open Scope nat_scope.

(** ** splitting *)
(** open minus closed parentheses *)
Fixpoint height (s : text) : Z :=
  match s with [] => 0 | c :: r => (if Ascii.eqb c lpar then 1 else if Ascii.eqb c rpar then -1 else 0) + height r end%Z.
Definition balanced (s : text) : Prop := (forall n, (0 <= height (firstn n s))%Z) /\ height s = 0%Z.
(** the positions at which text was cut to get these pieces *)
Fixpoint cuts (ps : list text) : list nat :=
  match ps with
  | p :: r => match r with [] => [] | _ => List.length p :: map (fun i => S (List.length p) + i) (cuts r) end
  | [] => []
  end.

(** ** axis selections *)
Inductive number_text := NInt (z : Z) | NCplx (t : text).
Inductive choice := CAll | CSum | CIndex (n : number_text) | CSlice (args : list (option number_text)) | CRebin (edges : text).
Definition zstr (z : Z) : text := T (NilZero.string_of_int (Z.to_int z)).
Definition show_number (n : number_text) : text := match n with NInt z => zstr z | NCplx t => t end.
Definition show_arg (a : option number_text) : text := match a with None => T "None" | Some n => show_number n end.
Definition show_choice (c : choice) : text :=
  match c with
  | CAll => T "None"
  | CSum => T "sum"
  | CIndex n => show_number n
  | CSlice args => T "slice(" ++ join comma (map show_arg args) ++ [rpar]
  | CRebin t => T "rebin(" ++ t ++ [rpar]
  end.
(** axis:choice,axis:choice,... *)
Definition show (items : list (text * choice)) : text := join comma (map (fun i => fst i ++ colon :: show_choice (snd i)) items).

(** names without separators, complex numbers in their usual characters with a j, edges as a list of numbers *)
Definition name_char (c : ascii) : bool := negb (existsb (Ascii.eqb c) [comma; colon; lpar; rpar]).
Definition num_char (c : ascii) : bool := existsb (Ascii.eqb c) (T "0123456789.+-ej").
Definition edge_char (c : ascii) : bool := existsb (Ascii.eqb c) (T "0123456789.+-e, ").
Definition ok_number (n : number_text) : bool := match n with NInt _ => true | NCplx t => forallb num_char t && existsb (Ascii.eqb "j"%char) t end.
Definition ok_arg (a : option number_text) : bool := match a with None => true | Some n => ok_number n end.
Definition ok_choice (c : choice) : bool :=
  match c with
  | CAll | CSum => true
  | CIndex n => ok_number n
  | CSlice args => Nat.leb 1 (List.length args) && Nat.leb (List.length args) 3 && forallb ok_arg args
  | CRebin t => forallb edge_char t
  end.
Definition ok_item (i : text * choice) : bool := forallb name_char (fst i) && ok_choice (snd i).

Section Meaning.
Variable cplx : text -> result (R * R).
Variable floats : text -> result (list R).
Inductive number_is : number_text -> bound -> Prop :=
| is_int z : number_is (NInt z) (BInt z)
| is_cplx t c : cplx t = Ok c -> number_is (NCplx t) (BCplx (fst c) (snd c)).
Inductive arg_is : option number_text -> option bound -> Prop :=
| is_none : arg_is None None
| is_some n b : number_is n b -> arg_is (Some n) (Some b).
(** the bins selected, the new edges, whether the axis is summed *)
Inductive choice_is : choice -> option pslice -> option (list R) -> bool -> Prop :=
| is_all : choice_is CAll (Some full) None false
| is_sum : choice_is CSum None None true
| is_index n b : number_is n b -> choice_is (CIndex n) (Some (mkSl (Some b) (Some (bsucc b)) None)) None true
| is_slice1 n b : arg_is n b -> choice_is (CSlice [n]) (Some (mkSl None b None)) None false
| is_slice2 m a n b : arg_is m a -> arg_is n b -> choice_is (CSlice [m; n]) (Some (mkSl a b None)) None false
| is_slice3 m a n b o c : arg_is m a -> arg_is n b -> arg_is o c -> choice_is (CSlice [m; n; o]) (Some (mkSl a b c)) None false
| is_rebin t e : floats t = Ok e -> choice_is (CRebin t) None (Some e) false.
End Meaning.
(** one entry per axis *)
Record meaning := mkMeaning { me_name : text; me_slice : option pslice; me_edges : option (list R); me_sum : bool }.
Definition item_is cplx floats (i : text * choice) (m : meaning) : Prop := me_name m = fst i /\ choice_is cplx floats (snd i) (me_slice m) (me_edges m) (me_sum m).
Definition sel_of (m : meaning) : list (string * pslice) := match me_slice m with Some s => [(S_ (me_name m), s)] | None => [] end.
Definition rebin_of (m : meaning) : list (string * list R) := match me_edges m with Some e => [(S_ (me_name m), e)] | None => [] end.
Definition sum_of (m : meaning) : list string := if me_sum m then [S_ (me_name m)] else [].
