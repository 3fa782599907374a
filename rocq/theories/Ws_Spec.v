(** Where bins of a result are, independent of reshaping; the results as a finite map. *)
From Coq Require Import Reals List Arith Bool String Ascii.
From Verif Require Import RBase PyList PyDict Shape Map_Model Parse_Model Ws_Model.
Import ListNotations.
Local Open Scope nat_scope.

Definition bin_shape (c : wchan) : list nat := map (fun a => if wc_flow c then wa_extent a else wa_size a) (wc_axes c).
(** first row of channel k *)
Definition offset (cs : list wchan) (k : nat) : nat := sumn (map (fun c => prodn (bin_shape c)) (firstn k cs)).
(** a channel without axes is stored with one bin *)
Definition bin_idx (c : wchan) (i : list nat) : list nat := match wc_axes c with [] => [0] | _ => i end.
Definition extras (process_axis : bool) (c : wchan) (extra : list waxis) : list waxis := (if process_axis then [category "processes" (wc_procs c)] else []) ++ extra.
Definition good_axis (a : waxis) : Prop := if wa_cat a then wa_extent a = wa_size a + 1 else wa_size a <= wa_extent a.
(** an axis after the bins: categories, or bins without flow *)
Definition plain_axis (a : waxis) : Prop := if wa_cat a then wa_extent a = wa_size a + 1 else wa_size a = wa_extent a.
(** flow bins are kept only for channels without category axes *)
Definition flow_ok (c : wchan) : Prop := wc_flow c = true -> Forall (fun a => wa_cat a = false) (wc_axes c).
Definition unmasked (cs : list wchan) : list wchan := filter (fun c => negb (wc_masked c)) cs.

Definition key3 : Type := option string * option string * string.
Definition path3 (k : key3) : list string := path_of (fst (fst k)) (snd (fst k)) (snd k).
Fixpoint get_path (p : list string) (d : list (string * node)) : option node :=
  match p with
  | [] => None
  | k :: r => match r with [] => dget k d | _ => match dget k d with Some (Dict x) => get_path r x | _ => None end end
  end.
Definition key3_dec (a b : key3) : {a = b} + {a <> b}.
Proof. repeat decide equality. Defined.
(** the last write to a key *)
Definition last_write (k : key3) (ws : list (key3 * tensor)) : option tensor :=
  option_map snd (find (fun w => if key3_dec (fst w) k then true else false) (rev ws)).
Fixpoint writes (ws : list (key3 * tensor)) (d : list (string * node)) : result (list (string * node)) :=
  match ws with [] => Ok d | (k, t) :: r => d <- dump_obj (Leaf t) (snd k) (fst (fst k)) (snd (fst k)) d ;; writes r d end.
Definition good_name (s : string) : Prop := s <> "mappings"%string /\ s <> "channels"%string.
(** data: bins without flow, rows of the channels that are not masked *)
Definition obs_shape (c : wchan) : list nat := map wa_size (wc_axes c).
Definition obs_offset (cs : list wchan) (k : nat) : nat := sumn (map (fun c => prodn (obs_shape c)) (firstn k cs)).
(** file names *)
Definition no_slash (s : text) : Prop := ~ In slash s.
Definition suffix (postfix : option text) : text := match postfix with None => [] | Some x => "_"%char :: x end.
