(** Bundles of arrays carried along with the fit: rabbit/auxiliary.py, rabbit/tensorwriter.py:1450-1470 (add_auxiliary), 2242-2245,
    and rabbit/inputdata.py:202-205.

    An HDF5 file is a list of objects with their paths, as lists of names; a path with "/" denotes nested groups, missing ones are
    created, and a group lists its members by name. Numbers are of an arbitrary type with a data type [dt] (np.dtype), stored by
    writeFlatInChunks (Storage_Model). Strings are sequences of bytes (UTF-8); HDF5 strings of variable length hold no zero byte, for
    which h5py raises ValueError; numpy drops zero bytes at the end of the strings of a list. The text of bytes objects is modelled for
    bytes that need no escape. AttributeError is [GenericException]. *)
From Coq Require Import List Arith ZArith Bool String Ascii.
From Verif Require Import PyList PyDict Storage_Model.
Import ListNotations.
Open Scope string_scope.

(** ** HDF5 *)
Fixpoint split_slash (s : string) (cur : string) : list string :=
  match s with
  | EmptyString => [cur]
  | String c r => if Ascii.eqb c "/" then cur :: split_slash r EmptyString else split_slash r (cur ++ String c EmptyString)
  end.
Definition components (s : string) : list string := filter (fun x => negb (String.eqb x "" || String.eqb x ".")) (split_slash s EmptyString).
Definition absolute (s : string) : bool := match s with String c _ => Ascii.eqb c "/" | _ => false end.
Definition path_of (base : list string) (s : string) : list string := if absolute s then components s else (base ++ components s)%list.
Fixpoint path_eqb (p q : list string) : bool :=
  match p, q with [], [] => true | a :: p', b :: q' => (String.eqb a b && path_eqb p' q')%bool | _, _ => false end.
(** name of the member q of the group p *)
Fixpoint child (p q : list string) : option string :=
  match p, q with [], [x] => Some x | a :: p', b :: q' => if String.eqb a b then child p' q' else None | _, _ => None end.
Fixpoint by_name {A} (x : string * A) (l : list (string * A)) : list (string * A) :=
  match l with [] => [x] | y :: r => if String.leb (fst x) (fst y) then x :: l else y :: by_name x r end.
Definition sort_names {A} (l : list (string * A)) : list (string * A) := fold_right by_name [] l.

Section Bundle.
  Context {V DT : Type}.
  Variables (zero : DT -> V) (iszero : V -> bool) (itemsize : DT -> Z) (float64 : DT).

  Inductive obj := Grp | Num (dt : DT) (d : @h5dset V) | Txt (l : list string).
  Definition h5 := list (list string * obj).
  Fixpoint flook (f : h5) (p : list string) : option obj :=
    match f with [] => None | (q, o) :: r => if path_eqb p q then Some o else flook r p end.
  Fixpoint make (f : h5) (done rest : list string) (o : obj) : result h5 :=
    match rest with
    | [] => Raise ValueError
    | [x] => match flook f (done ++ [x]) with Some _ => Raise ValueError | None => Ok (f ++ [((done ++ [x])%list, o)])%list end
    | x :: r => match flook f (done ++ [x]) with
                | Some Grp => make f (done ++ [x]) r o
                | Some _ => Raise ValueError
                | None => make (f ++ [((done ++ [x])%list, Grp)])%list (done ++ [x]) r o
                end
    end.
  Definition create (f : h5) (base : list string) (name : string) (o : obj) : result h5 := make f [] (path_of base name) o.
  Definition items (f : h5) (p : list string) : list (string * obj) :=
    sort_names (flat_map (fun e => match child p (fst e) with Some x => [(x, snd e)] | None => [] end) f).

  (** ** values *)
  Inductive elem := EStr (s : string) | EBytes (s : string) | EObj (text : string).
  Inductive value := VNum (dt : DT) (a : @ndarray V) | VText (shape : list nat) (l : list elem) | VList (l : list string).
  Definition shown (e : elem) : string := match e with EStr s => s | EBytes s => "b'" ++ s ++ "'" | EObj t => t end.
  Definition nul : ascii := Ascii.zero.
  Fixpoint strip (s : string) : string :=
    match s with
    | EmptyString => EmptyString
    | String c r => let r' := strip r in if (Ascii.eqb c nul && String.eqb r' "")%bool then EmptyString else String c r'
    end.
  Fixpoint has_nul (s : string) : bool := match s with EmptyString => false | String c r => (Ascii.eqb c nul || has_nul r)%bool end.
  (** np.asarray: numbers or text *)
  Definition asarray (v : value) : value :=
    match v with
    | VList [] => VNum float64 (mkArr [0%nat] [])
    | VList l => VText [List.length l] (map (fun s => EStr (strip s)) l)
    | _ => v
    end.
  (** auxiliary.py:57-76 *)
  Definition write_value (maxbytes : Z) (f : h5) (g : list string) (key : string) (v : value) : result h5 :=
    match asarray v with
    | VNum dt a => create f g key (Num dt (writeFlatInChunks (zero dt) iszero a (itemsize dt) maxbytes))
    | VText _ l => if existsb (fun e => has_nul (shown e)) l then Raise ValueError else create f g key (Txt (map shown l))
    | VList l => Raise TypeError (* not after asarray *)
    end.
  Record bundle := mkBd { bd_name : string; bd_data : dict value }.
  Fixpoint write_values (maxbytes : Z) (f : h5) (g : list string) (l : dict value) : result h5 :=
    match l with [] => Ok f | (k, v) :: r => f' <- write_value maxbytes f g k v ;; write_values maxbytes f' g r end.
  Fixpoint write_bundles (maxbytes : Z) (f : h5) (l : list bundle) : result h5 :=
    match l with
    | [] => Ok f
    | b :: r => f1 <- create f ["auxiliary"] (bd_name b) Grp ;;
                f2 <- write_values maxbytes f1 (path_of ["auxiliary"] (bd_name b)) (bd_data b) ;; write_bundles maxbytes f2 r
    end.
  Definition write_auxiliary (maxbytes : Z) (f : h5) (l : list bundle) : result h5 :=
    match l with [] => Ok f | _ => f1 <- create f [] "auxiliary" Grp ;; write_bundles maxbytes f1 l end.
  (** tensorwriter.py:1468-1470 *)
  Definition add_auxiliary (l : list bundle) (name : string) (d : dict value) : result (list bundle) :=
    if existsb (fun b => String.eqb (bd_name b) name) l then Raise RuntimeError else Ok (l ++ [mkBd name d])%list.
  Fixpoint add_all (l : list bundle) (calls : list (string * dict value)) : result (list bundle) :=
    match calls with [] => Ok l | (n, d) :: r => l' <- add_auxiliary l n d ;; add_all l' r end.

  (** ** reading: auxiliary.py:80-111 *)
  Inductive rvalue := RNum (dt : DT) (a : @ndarray V) | RList (l : list string).
  Fixpoint read_values (l : list (string * obj)) (d : dict rvalue) : result (dict rvalue) :=
    match l with
    | [] => Ok d
    | (k, Grp) :: _ => Raise GenericException
    | (k, Txt s) :: r => read_values r (dset k (RList s) d)
    | (k, Num dt x) :: r => read_values r (dset k (RNum dt (maketensor (zero dt) x)) d)
    end.
  Fixpoint read_groups (f : h5) (l : list (string * obj)) (d : dict (dict rvalue)) : result (dict (dict rvalue)) :=
    match l with
    | [] => Ok d
    | (n, Grp) :: r => b <- read_values (items f ["auxiliary"; n]) [] ;; read_groups f r (dset n b d)
    | _ => Raise GenericException
    end.
  Definition read_auxiliary (f : h5) : result (dict (dict rvalue)) :=
    match flook f ["auxiliary"] with None => Ok [] | Some Grp => read_groups f (items f ["auxiliary"]) [] | Some _ => Raise GenericException end.
End Bundle.
Arguments Grp {V DT}. Arguments Num {V DT}. Arguments Txt {V DT}. Arguments VNum {V DT}. Arguments VText {V DT}. Arguments VList {V DT}. Arguments RNum {V DT}. Arguments RList {V DT}.
Arguments mkBd {V DT}. Arguments bd_name {V DT}. Arguments bd_data {V DT}. Arguments bundle : clear implicits. Arguments value : clear implicits. Arguments rvalue : clear implicits. Arguments h5 : clear implicits.
