(** Finding histograms in ROOT files: rabbit/datacard_parser.py:169-188 (paths and depth of the shapes) and
    rabbit/datacard_converter.py:57-114, 150-189 (opening files, collecting directories, looking up a histogram), for both
    readers. A ROOT file is a tree of directories; cycles of keys are left out (the last one is read), a key is a name.
    Names of histograms are the ones of Card_Model.v. *)
From Coq Require Import List Arith Bool String Ascii.
From Verif Require Import PyList PyDict Card_Model.
Import ListNotations.
Local Open Scope string_scope.
Local Open Scope list_scope.

Section Reader.
  Variable H : Type.
  (** class of an object: TH1 (TH1D, TH1F ...), a histogram of more dimensions, anything else *)
  Inductive hclass := TH1 | THn | Other.
  Inductive rnode := RObj (c : hclass) (h : H) | RDir (l : list (string * rnode)).
  Definition rdir := list (string * rnode).
  (** python objects: a directory of uproot, a dictionary, or an object that was read *)
  Inductive vnode := VObj (c : hclass) (h : H) | VDir (l : rdir) | VDict (l : list (string * vnode)).

  Definition is_dir (e : string * rnode) : bool := match snd e with RDir _ => true | _ => false end.
  Definition to_v (n : rnode) : vnode := match n with RObj c h => VObj c h | RDir l => VDir l end.

  (** datacard_converter.py:90-106; [k] is search_depth - level *)
  Fixpoint get_directories (k : nat) (l : rdir) : vnode :=
    let dirs := filter is_dir l in
    match dirs with
    | [] => VDir l
    | _ => match k with
           | O => VDict (map (fun e => (fst e, to_v (snd e))) dirs)
           | S k => VDict (map (fun e => (fst e, match snd e with RDir l' => get_directories k l' | n => to_v n end)) dirs)
           end
    end.
  (** datacard_converter.py:87-110; search_depth is max_depth - 1 *)
  Definition load (max_depth : nat) (l : rdir) : vnode :=
    match max_depth with O => VDir l | S k => get_directories k l end.

  (** "a/b/c".split("/"), str.count("/") *)
  Fixpoint split_at_slash (s : string) : list string :=
    match s with
    | EmptyString => [EmptyString]
    | String c r => if Ascii.eqb c "/" then EmptyString :: split_at_slash r
                    else match split_at_slash r with w :: ws => String c w :: ws | [] => [String c EmptyString] end
    end.
  Fixpoint count_slash (s : string) : nat :=
    match s with EmptyString => 0 | String c r => (if Ascii.eqb c "/" then 1 else 0) + count_slash r end.

  (** histogram.get(p, {}); objects that are not directories have no such method *)
  Definition vget (p : string) (v : vnode) : result vnode :=
    match v with
    | VObj _ _ => Raise GenericException
    | VDir l => Ok (match dget p l with Some n => to_v n | None => VDict [] end)
    | VDict l => Ok (match dget p l with Some n => n | None => VDict [] end)
    end.
  Fixpoint walk (ps : list string) (v : vnode) : result vnode :=
    match ps with [] => Ok v | p :: r => w <- vget p v ;; walk r w end.
  (** datacard_converter.py:173-189 with uproot: None if there is no such histogram; a dictionary that is not empty has no classname *)
  Definition up_find (max_depth : nat) (l : rdir) (ps : list string) : result (option H) :=
    v <- walk ps (load max_depth l) ;;
    match v with
    | VObj TH1 h => Ok (Some h)
    | VObj _ _ => Ok None
    | VDir _ => Ok None
    | VDict [] => Ok None
    | VDict _ => Raise GenericException
    end.
  (** datacard_converter.py:170-189 with ROOT: TFile.Get, every histogram is a TH1 *)
  Fixpoint root_get (l : rdir) (ps : list string) : option rnode :=
    match ps with
    | [] => None
    | [p] => dget p l
    | p :: r => match dget p l with Some (RDir l') => root_get l' r | _ => None end
    end.
  Definition root_find (l : rdir) (ps : list string) : option H :=
    match root_get l ps with Some (RObj TH1 h) | Some (RObj THn h) => Some h | _ => None end.
  (** datacard_converter.py:179-189 *)
  Definition demanded (demand : bool) (r : option H) : result (option H) :=
    match r with Some h => Ok (Some h) | None => if demand then Raise ValueError else Ok None end.
  Definition up_histogram (max_depth : nat) (l : rdir) (name : string) (demand : bool) : result (option H) :=
    r <- up_find max_depth l (split_at_slash name) ;; demanded demand r.
  Definition root_histogram (l : rdir) (name : string) (demand : bool) : result (option H) :=
    demanded demand (root_find l (split_at_slash name)).

  (** datacard_parser.py:184 *)
  Definition max_depth (shapes : list shape) : nat := fold_left (fun m s => Nat.max m (count_slash (sh_pat s))) shapes 0.

  (** *** files: [disk] gives the content of the existing ones *)
  Variable disk : string -> option rdir.
  Definition isabs (p : string) : bool := String.prefix "/" p.
  (** os.path.join(dir, p) for a relative [p]; [dir] is os.path.dirname(os.path.abspath(datacard)) *)
  Definition join (dir p : string) : string := (dir ++ "/" ++ p)%string.
  Definition resolve (dir p : string) : string := if isabs p then p else join dir p.
  (** datacard_parser.py:169-177: the path stored for a shape *)
  Definition shape_path (dir p : string) : result string :=
    match disk (resolve dir p) with Some _ => Ok (resolve dir p) | None => Raise GenericException end.
  (** datacard_converter.py:73-110: root_directories *)
  Definition load_file (dir : string) (m : nat) (cache : list (string * vnode)) (p : string) : result (list (string * vnode)) :=
    if (match dget p cache with Some _ => true | None => false end) then Ok cache
    else match disk (resolve dir p) with
         | None => Raise GenericException
         | Some l => Ok (dset (resolve dir p) (load m l) cache)
         end.
  (** datacard_converter.py:236-237: for every shape *)
  Fixpoint load_files (dir : string) (m : nat) (cache : list (string * vnode)) (ps : list string) : result (list (string * vnode)) :=
    match ps with [] => Ok cache | p :: r => c <- load_file dir m cache p ;; load_files dir m c r end.
  (** datacard_converter.py:175: self.root_directories[file_path] *)
  Definition opened (p : string) (cache : list (string * vnode)) : result vnode :=
    match dget p cache with Some v => Ok v | None => Raise KeyError end.
End Reader.
Arguments RObj {H}. Arguments RDir {H}. Arguments VObj {H}. Arguments VDir {H}. Arguments VDict {H}.
Arguments is_dir {H}. Arguments to_v {H}. Arguments get_directories {H}. Arguments load {H}. Arguments vget {H}. Arguments walk {H}.
Arguments up_find {H}. Arguments root_get {H}. Arguments root_find {H}. Arguments up_histogram {H}. Arguments root_histogram {H}. Arguments demanded {H}.
Arguments shape_path {H}. Arguments load_file {H}. Arguments load_files {H}. Arguments opened {H}.
