(** What a copy of the fitter has to be, without reference to how it is made. *)
From Coq Require Import List Arith Bool String.
From Verif Require Import PyList PyDict Clone_Model.
Import ListNotations.
Local Open Scope string_scope.

Definition target (v : value) : option loc := match v with Atom _ => None | Ref l | Method _ l | Graph _ _ l => Some l end.
(** a heap without dangling references, whose dictionaries have each key once *)
Definition wf (h : heap) : Prop :=
  forall o, In o h -> NoDup (dkeys (o_dict o)) /\ forall k v l, In (k, v) (o_dict o) -> target v = Some l -> l < List.length h.
Definition is_fitter (h : heap) (l : loc) : Prop := exists o, nth_error h l = Some o /\ o_cls o = "Fitter".

(** ** programs: what code which holds only the object [self] can read and write *)
(** the object reached by an attribute: the object itself or the one a function acts on *)
Definition step (h : heap) (l : loc) (k : string) : option loc :=
  match attr h l k with Some (Ref x) => Some x | _ => match call h l k with Some (_, _, x) => Some x | None => None end end.
Fixpoint walk (h : heap) (l : loc) (p : list string) : option loc :=
  match p with [] => Some l | k :: p => match step h l k with Some x => walk h x p | None => None end end.
(** the number or name found at the end of a path *)
Definition look (h : heap) (l : loc) (k : string) : option string := match attr h l k with Some (Atom a) => Some a | _ => None end.
Definition read (h : heap) (self : loc) (p : list string) (k : string) : option string :=
  match walk h self p with Some l => look h l k | None => None end.
Inductive source := SAtom (a : string) | SPath (p : list string) | SNew (c : string).
Record op := mkOp { op_path : list string; op_key : string; op_src : source }.
Definition exec (h : heap) (self : loc) (o : op) : heap :=
  match walk h self (op_path o) with
  | None => h
  | Some l =>
    match op_src o with
    | SAtom a => setattr h l (op_key o) (Atom a)
    | SPath p => match walk h self p with Some x => setattr h l (op_key o) (Ref x) | None => h end
    | SNew c => setattr (h ++ [mkO c []])%list l (op_key o) (Ref (List.length h))
    end
  end.
Definition run (h : heap) (self : loc) (prog : list op) : heap := fold_left (fun h o => exec h self o) prog h.
(** two programs in turns: [true] is a step of the first object *)
Definition run2 (h : heap) (a b : loc) (prog : list (bool * op)) : heap :=
  fold_left (fun h o => exec h (if fst o : bool then a else b) (snd o)) prog h.
Definition steps_of (who : bool) (prog : list (bool * op)) : list op := map snd (filter (fun o => Bool.eqb (fst o) who) prog).

(** ** which objects can be copied *)
(** the objects reached from the fitter without the functions that are made again *)
Inductive visited (h : heap) (self : loc) : loc -> Prop :=
| v_self : visited h self self
| v_step a o k v b : visited h self a -> nth_error h a = Some o -> In (k, v) (o_dict o) -> (a = self -> skipped k = false) ->
    target v = Some b -> visited h self b.
Definition copyable (h : heap) (self : loc) : Prop :=
  forall a o k v, visited h self a -> nth_error h a = Some o -> In (k, v) (o_dict o) -> (a = self -> skipped k = false) ->
    match v with Graph _ _ _ => False | _ => True end.

(** ** the functions of a fitter *)
Definition options (h : heap) (self : loc) (jit hvp sparse : string) : Prop :=
  look h self "jit_compile" = Some jit /\ look h self "hvp_method" = Some hvp /\
  exists x, attr h self "indata" = Some (Ref x) /\ look h x "sparse" = Some sparse.
(** the function which is called under a name and whether it is compiled with XLA *)
Definition function_of (jit hvp sparse f : string) : string * bool :=
  let j := String.eqb jit "True" in
  if String.eqb f "loss_val" || String.eqb f "loss_val_grad" || String.eqb f revrev then (f, j)
  else if String.eqb f hessp then (if String.eqb hvp "fwdrev" && negb (String.eqb sparse "True") then (fwdrev, false) else (revrev, j))
  else (f, false).
Definition wired (h : heap) (self : loc) : Prop :=
  forall jit hvp sparse, options h self jit hvp sparse -> forall f, In f (tf_methods ++ dynamic)%list ->
    call h self f = Some (fst (function_of jit hvp sparse f), snd (function_of jit hvp sparse f), self).
(** every function acts on the fitter it is called on *)
Definition bound (h : heap) (self : loc) : Prop := forall f, In f (tf_methods ++ dynamic)%list -> exists g jit, call h self f = Some (g, jit, self).
