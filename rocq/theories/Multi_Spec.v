(** What booking a systematic with extra axes should do: bins are addressed by axis name. *)
From Coq Require Import List Arith Bool String Permutation Sorted Lia.
From Verif Require Import PyList PyDict Order Num Shape Names_Model Writer_Model Writer_Spec Writer_Hist Multi_Model.
Import ListNotations.
Local Open Scope string_scope.
Local Open Scope list_scope.

(** the nuisance name of a bin of the extra axes: the labels are appended one by one *)
Definition label_of (a : maxis) (i : nat) : string :=
  match x_cats a with Some l => nth i l "" | None => nat_str i end.
Fixpoint spec_name (name : string) (ex : list maxis) (idx : list nat) : string :=
  match ex, idx with
  | a :: ex', i :: idx' => spec_name (name ++ "_" ++ label_of a i) ex' idx'
  | _, _ => name
  end.

Section MSpec.
  Context {V : Type} {NV : Num V}.

  (** content of the bin at a position with flow bins *)
  Definition mh_at (h : mhist V) (m : list nat) : V :=
    match h with
    | MDense _ f => f m
    | MSparse axes ents =>
        match find (fun x => Nat.eqb (ravel (map x_extent axes) m) (fst x)) ents with
        | Some x => snd x | None => n0 end
    end.
  (** content of the bin whose position along each axis is given by the name of the axis *)
  Definition named_at (h : mhist V) (c : string -> nat) : V :=
    mh_at h (map (fun a => c (x_name a)) (mh_axes h)).

  (** position along axis [n]: regular bin [i] of the extra axes [ex], bin [b] of the channel
      axes [ch] in the channel's layout *)
  Fixpoint lookup (l : list (string * nat)) (n : string) : nat :=
    match l with [] => 0 | (k, v) :: r => if String.eqb n k then v else lookup r n end.
  Definition position (flow : bool) (ex ch : list maxis) (i b : list nat) (n : string) : nat :=
    lookup (map (fun ai => (x_name (fst ai), x_under (fst ai) + snd ai)) (combine ex i)
         ++ map (fun ab => (x_name (fst ab), if flow then snd ab else x_under (fst ab) + snd ab)) (combine ch b)) n.

  (** [s] is the slice of [h] at bin [i] of the extra axes, laid out as the channel *)
  Definition slice_of (flow : bool) (ex ch : list maxis) (h : mhist V) (i : list nat) (s : histo V) : Prop :=
    hsize s = prodn (layout flow ch) /\
    forall b, in_shape (layout flow ch) b ->
      hist_at s (ravel (layout flow ch) b) = named_at h (position flow ex ch i b).

  (** [o] is the single booking of that slice *)
  Definition single_call (flow : bool) (ex ch : list maxis) (h : minput V) (name p c : string) (kf : V)
    (mirror : bool) (m : symmode) (ad : bool) (kw : kwargs) (i : list nat) (o : op V) : Prop :=
    match h with
    | ISingle h1 => exists s, slice_of flow ex ch h1 i s /\
        o = AddSystematic (SSingle s) (spec_name name ex i) p c kf mirror m ad kw
    | IPair u d => exists su sd, slice_of flow ex ch u i su /\ slice_of flow ex ch d i sd /\
        o = AddSystematic (SPair su sd) (spec_name name ex i) p c kf mirror m ad kw
    end.

  (** what hist and wums guarantee about their objects *)
  Definition wf_axes (axes : list maxis) : Prop := NoDup (x_names axes).
  Definition wf_mhist (h : mhist V) : Prop :=
    wf_axes (mh_axes h) /\
    match h with
    | MDense _ _ => True
    | MSparse axes ents => NoDup (map fst ents) /\ Forall (fun e => fst e < prodn (map x_extent axes)) ents
    end.
  (** same bins: size and flow bins *)
  Definition same_bins (a b : maxis) : Prop :=
    x_name a = x_name b /\ x_size a = x_size b /\ x_under a = x_under b /\ x_over a = x_over b.
  (** the axes of the histogram are the extra axes and those of the channel, in any order *)
  Record geom (axes : list maxis) (extra : list string) (chx : list maxis) : Prop := mkGeom {
    g_names : NoDup (x_names axes); g_extra : NoDup extra; g_ch : NoDup (x_names chx);
    g_cover : forall n, In n (x_names axes) <-> In n extra \/ In n (x_names chx);
    g_disj : forall n, In n extra -> ~ In n (x_names chx);
    g_same : forall a c, In a axes -> In c chx -> x_name a = x_name c -> same_bins a c }.
  (** the sorting np.argsort performs *)
  Definition a_sort (sorter : list (nat * (nat * V)) -> list (nat * (nat * V))) : Prop :=
    forall l, Permutation (sorter l) l /\ StronglySorted (fun x y => fst x <= fst y) (sorter l).
End MSpec.
