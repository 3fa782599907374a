(** Command line specifications of mappings: rabbit/mappings/helpers.py:32-81 and the parse_args of mapping.py,
    ratio.py and angular_coefficients.py.

    Text is a list of 8-bit characters. complex(x) and np.fromstring(x, sep=",") are passed in as functions of the
    text ([cplx], [floats]); they may raise. *)
From Coq Require Import Reals List Arith ZArith Bool String Ascii.
From Verif Require Import RBase PyList PyDict.
Import ListNotations.
Local Open Scope nat_scope.

Definition text := list ascii.
Definition T (s : string) : text := list_ascii_of_string s.
Definition S_ (t : text) : string := string_of_list_ascii t.
Definition teq (a b : text) : bool := if list_eq_dec ascii_dec a b then true else false.
Definition comma : ascii := ","%char.
Definition colon : ascii := ":"%char.
Definition lpar : ascii := "("%char.
Definition rpar : ascii := ")"%char.

(** the lookahead [^()]*\) *)
Fixpoint closes (s : text) : bool :=
  match s with
  | [] => false
  | c :: r => if Ascii.eqb c lpar then false else if Ascii.eqb c rpar then true else closes r
  end.
Definition put (c : ascii) (ps : list text) : list text := match ps with p :: r => (c :: p) :: r | [] => [[c]] end.
(** helpers.py:45: re.split(r",(?![^()]*\))", s) *)
Fixpoint resplit (s : text) : list text :=
  match s with
  | [] => [[]]
  | c :: r => if Ascii.eqb c comma && negb (closes r) then [] :: resplit r else put c (resplit r)
  end.
(** s.split(d), one character *)
Fixpoint splitc (d : ascii) (s : text) : list text :=
  match s with
  | [] => [[]]
  | c :: r => if Ascii.eqb c d then [] :: splitc d r else put c (splitc d r)
  end.
Fixpoint starts (p s : text) : bool :=
  match p, s with [], _ => true | a :: p', b :: s' => Ascii.eqb a b && starts p' s' | _ :: _, [] => false end.
(** p in s *)
Fixpoint contains (p s : text) : bool := starts p s || match s with [] => false | _ :: r => contains p r end.

(** int(x) of a string: surrounding white space, a sign, decimal digits with single underscores between them *)
Definition is_space (c : ascii) : bool :=
  let n := nat_of_ascii c in (Nat.leb 9 n && Nat.leb n 13) || (Nat.leb 28 n && Nat.leb n 32) || Nat.eqb n 133 || Nat.eqb n 160.
Fixpoint lstrip (s : text) : text := match s with c :: r => if is_space c then lstrip r else s | [] => [] end.
Definition strip (s : text) : text := rev (lstrip (rev (lstrip s))).
Definition digit (c : ascii) : option Z :=
  let n := nat_of_ascii c in if Nat.leb 48 n && Nat.leb n 57 then Some (Z.of_nat (n - 48)) else None.
Fixpoint digits (s : text) (acc : Z) (after_digit : bool) : option Z :=
  match s with
  | [] => if after_digit then Some acc else None
  | c :: r =>
    match digit c with
    | Some d => digits r (10 * acc + d)%Z true
    | None => if Ascii.eqb c "_"%char && after_digit then digits r acc false else None
    end
  end.
Definition py_int (s : text) : result Z :=
  let r := match strip s with
           | c :: t => if Ascii.eqb c "-"%char then option_map Z.opp (digits t 0 false)
                       else if Ascii.eqb c "+"%char then digits t 0 false else digits (c :: t) 0 false
           | [] => None end in
  match r with Some z => Ok z | None => Raise ValueError end.

Inductive bound := BInt (z : Z) | BCplx (re im : R).
Record pslice := mkSl { p_lo : option bound; p_hi : option bound; p_step : option bound }.
Record parsed := mkParsed { ps_sel : list (string * pslice); ps_rebin : list (string * list R); ps_sum : list string }.
Definition full : pslice := mkSl None None None.
Definition bsucc (b : bound) : bound := match b with BInt z => BInt (z + 1) | BCplx r i => BCplx (r + 1) i end.
(** slice(args) *)
Definition mk_slice (args : list (option bound)) : result pslice :=
  match args with
  | [b] => Ok (mkSl None b None)
  | [a; b] => Ok (mkSl a b None)
  | [a; b; c] => Ok (mkSl a b c)
  | _ => Raise TypeError
  end.
Fixpoint mapr {A B} (f : A -> result B) (l : list A) : result (list B) :=
  match l with [] => Ok [] | x :: r => y <- f x ;; ys <- mapr f r ;; Ok (y :: ys) end.
(** helpers.py:52-57 and 68-71 *)
Definition number (cplx : text -> result (R * R)) (x : text) : result bound :=
  if contains (T "j") x then c <- cplx x ;; Ok (BCplx (fst c) (snd c)) else z <- py_int x ;; Ok (BInt z).
Definition slice_arg (cplx : text -> result (R * R)) (x : text) : result (option bound) :=
  if teq x (T "None") then Ok None else b <- number cplx x ;; Ok (Some b).
(** v[6:-1] *)
Definition inside (v : text) : text := pyslice 6 (List.length v - 1) v.
(** helpers.py:46-76: one piece; k and the state *)
Definition piece (cplx : text -> result (R * R)) (floats : text -> result (list R)) (p : parsed) (s : text) : result (string * parsed) :=
  match splitc colon s with
  | [k; v] =>
    let k := S_ k in
    if contains (T "slice") v then
      args <- mapr (slice_arg cplx) (splitc comma (inside v)) ;; sl <- mk_slice args ;;
      Ok (k, mkParsed (dset k sl (ps_sel p)) (ps_rebin p) (ps_sum p))
    else if teq v (T "sum") then Ok (k, mkParsed (ps_sel p) (ps_rebin p) (ps_sum p ++ [k]))
    else if starts (T "rebin") v then arr <- floats (inside v) ;; Ok (k, mkParsed (ps_sel p) (dset k arr (ps_rebin p)) (ps_sum p))
    else if teq v (T "None") then Ok (k, mkParsed (dset k full (ps_sel p)) (ps_rebin p) (ps_sum p))
    else x <- number cplx v ;; Ok (k, mkParsed (dset k (mkSl (Some x) (Some (bsucc x)) None) (ps_sel p)) (ps_rebin p) (ps_sum p ++ [k]))
  | _ => Raise ValueError
  end.
Fixpoint pieces cplx floats (k : string) (p : parsed) (l : list text) : result (string * parsed) :=
  match l with [] => Ok (k, p) | s :: r => q <- piece cplx floats p s ;; pieces cplx floats (fst q) (snd q) r end.
(** helpers.py:32-81; the loop at the end tests the k left over from the first loop *)
Definition parse_axis_selection (cplx : text -> result (R * R)) (floats : text -> result (list R)) (s : text) : result parsed :=
  if teq s (T "None:None") then Ok (mkParsed [] [] []) else
  q <- pieces cplx floats EmptyString (mkParsed [] [] []) (resplit s) ;;
  let k := fst q in let p := snd q in
  Ok (fold_left (fun p _ => match dget k (ps_sel p) with Some _ => p | None => mkParsed (dset k full (ps_sel p)) (ps_rebin p) (ps_sum p) end) (resplit s) p).

(** ** parse_args of the classes *)
Fixpoint join (sep : ascii) (l : list text) : text :=
  match l with [] => [] | x :: r => match r with [] => x | _ => x ++ sep :: join sep r end end.
Definition space : ascii := " "%char.
Definition has_colon (a : text) : bool := contains [colon] a.
Definition procs_of (a : text) : list text := filter (fun p => negb (teq p (T "None"))) (splitc comma a).
(** mapping.py:33-35, project.py *)
Definition key_plain (cls : text) (args : list text) : text := join space (cls :: args).
Record select_args := mkSel { sa_key : text; sa_channel : text; sa_procs : list text; sa_sel : parsed }.
(** mapping.py:218-253: the first argument is the channel *)
Definition select_parse_args cplx floats (cls : text) (all : list text) : result select_args :=
  match all with
  | [] => Raise TypeError
  | channel :: args =>
    let procs := match args with a :: _ => if negb (has_colon a) then procs_of a else [] | [] => [] end in
    let sel := match filter has_colon args with a :: _ => a | [] => T "None:None" end in
    p <- parse_axis_selection cplx floats sel ;; Ok (mkSel (key_plain cls args) channel procs p)
  end.
(** angular_coefficients.py:94-133 *)
Definition angular_parse_args cplx floats (cls : text) (args : list text) : result select_args :=
  let procs := match args with _ :: a :: _ :: _ => if negb (has_colon a) then procs_of a else [] | _ => [] end in
  p <- match filter has_colon args with a :: _ => parse_axis_selection cplx floats a | [] => Ok (mkParsed [] [] []) end ;;
  match args with [] => Raise IndexError | c :: _ => Ok (mkSel (key_plain cls args) c procs p) end.
(** ratio.py:110-161 *)
Record ratio_args := mkRat { ra_key : text; ra_num : text; ra_den : text; ra_nprocs : list text; ra_dprocs : list text; ra_nsel : parsed; ra_dsel : parsed }.
Definition ratio_parse_args cplx floats (cls : text) (args : list text) : result ratio_args :=
  pr <- match args with
        | _ :: _ :: a :: r => if negb (has_colon a) then match r with b :: _ => Ok (procs_of a, procs_of b) | [] => Raise IndexError end else Ok ([], [])
        | _ => Ok ([], []) end ;;
  let sel := match filter has_colon args with [] => [T "None:None"; T "None:None"] | l => l end in
  n <- match sel with a :: _ => parse_axis_selection cplx floats a | [] => Raise IndexError end ;;
  d <- match sel with _ :: b :: _ => parse_axis_selection cplx floats b | _ => Raise IndexError end ;;
  match args with
  | a :: b :: _ => Ok (mkRat (key_plain cls args) a b (fst pr) (snd pr) n d)
  | _ => Raise IndexError
  end.
