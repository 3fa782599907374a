(** Model of the booking of systematics with extra axes, rabbit/tensorwriter.py:574-1190.
    Simplifications:
    - every axis has a name (unnamed axes are rejected by 817-823 or cannot be looked up);
    - an axis is its name, its number of regular bins, its flow bins, a number standing for the
      class of its edges under np.allclose, and its category labels if it is a string axis;
    - a dense histogram is its content as a function of the multi-index with flow bins; a
      SparseHist (wums.sparse_hist, not part of the repository) is its list of flat indices in
      the layout with flow bins and values, in any order; [to_flat_csr] returns them sorted, and
      without flow bins drops the entries in flow bins and renumbers the others;
    - indexing a histogram with a dictionary selects regular bins by axis name;
    - add_to_data_covariance is False; clipSystVariations is off (as everywhere in the code). *)
From Coq Require Import List Arith Bool String Lia.
From Verif Require Import PyList PyDict Order Num Shape Names_Model Writer_Model.
Import ListNotations.
Local Open Scope string_scope.
Local Open Scope list_scope.

Record maxis := mkMx {
  x_name : string; x_size : nat; x_under : nat; x_over : nat; x_tag : nat;
  x_cats : option (list string) }.
(** a.extent *)
Definition x_extent (a : maxis) : nat := x_under a + x_size a + x_over a.
Definition x_names (l : list maxis) : list string := map x_name l.

(** np.unravel_index *)
Definition unravel (shape : list nat) (k : nat) : list nat := nth k (all_idx shape) [].

(** tensorwriter.py:574-580 _bin_label *)
Definition bin_label (a : maxis) (i : nat) : string :=
  match x_cats a with Some l => nth i l "" | None => nat_str i end.
(** tensorwriter.py:1063-1081 _axis_labels *)
Definition axis_labels (a : maxis) : list string :=
  match x_cats a with
  | Some l => map (fun i => nth i l "") (seq 0 (x_size a))
  | None => map nat_str (seq 0 (x_size a))
  end.
(** tensorwriter.py:759-762 and 771-772: "_".join([name, *labels]) *)
Definition sub_name (name : string) (extra : list maxis) (idx : list nat) : string :=
  String.concat "_" (name :: map2 bin_label extra idx).
(** tensorwriter.py:1083-1096 *)
Definition batch_names (name : string) (extra : list maxis) : list string :=
  let labels := map axis_labels extra in
  match extra with
  | [a] => map (fun i => (name ++ "_" ++ nth i (axis_labels a) "")%string) (seq 0 (x_size a))
  | _ => map (fun k => String.concat "_"
             (name :: map2 (fun l i => nth i l "") labels (unravel (map x_size extra) k)))
           (seq 0 (prodn (map x_size extra)))
  end.

(** the axes with the requested names, h.axes[n]; None: KeyError *)
Definition axis_by_name (axes : list maxis) (n : string) : option maxis :=
  find (fun a => String.eqb n (x_name a)) axes.
Definition axes_by_name (axes : list maxis) (ns : list string) : list maxis :=
  flat_map (fun n => match axis_by_name axes n with Some a => [a] | None => [] end) ns.
(** keep_axes_ref, tensorwriter.py:717 *)
Definition keep_axes (axes : list maxis) (extra : list string) : list maxis :=
  filter (fun a => negb (smem (x_name a) extra)) axes.

(** tensorwriter.py:785-840 _detect_extra_syst_axes: names of the systematic axes, if any *)
Definition detect_extra (chn hn : list string) (syst_axes : option (list string))
  : result (option (list string)) :=
  match syst_axes with
  | Some [] => Ok None
  | None =>
      if Nat.eqb (List.length hn) (List.length chn) then Ok None
      else match filter (fun n => negb (smem n chn)) hn with
           | [] => Ok None
           | l => Ok (Some l)
           end
  | Some l =>
      if forallb (fun n => smem n hn && negb (smem n chn)) l then Ok (Some l)
      else Raise RuntimeError
  end.

Section Multi.
  Context {V : Type} {NV : Num V}.

  Inductive mhist :=
  | MDense (axes : list maxis) (at_ : list nat -> V)
  | MSparse (axes : list maxis) (ents : list (nat * V)).
  Definition mh_axes (h : mhist) : list maxis :=
    match h with MDense a _ => a | MSparse a _ => a end.
  Definition is_sparsehist (h : mhist) : bool :=
    match h with MDense _ _ => false | MSparse _ _ => true end.

  (** *** flat content in the layout of a channel *)
  Definition layout (flow : bool) (axes : list maxis) : list nat :=
    map (fun a => if flow then x_extent a else x_size a) axes.
  (** position with flow bins of a position in the layout *)
  Definition to_flow (flow : bool) (axes : list maxis) (b : list nat) : list nat :=
    if flow then b else map2 (fun a i => x_under a + i) axes b.
  (** is the position a regular bin of the axis *)
  Definition regular (a : maxis) (i : nat) : bool :=
    Nat.leb (x_under a) i && Nat.ltb i (x_under a + x_size a).
  Definition all_regular (axes : list maxis) (m : list nat) : bool :=
    forallb (fun b => b) (map2 regular axes m).
  Definition off_under (axes : list maxis) (m : list nat) : list nat :=
    map2 (fun a i => i - x_under a) axes m.
  (** SparseHist.to_flat_csr *)
  Definition sort_flat (l : list (nat * V)) : list (nat * V) := sort_k fst Nat.compare l.
  Definition to_flat_csr (flow : bool) (axes : list maxis) (ents : list (nat * V)) : list (nat * V) :=
    let ext := map x_extent axes in
    if flow then sort_flat ents
    else sort_flat
      (map (fun e => (ravel (map x_size axes) (off_under axes (unravel ext (fst e))), snd e))
        (filter (fun e => all_regular axes (unravel ext (fst e))) ents)).
  (** tensorwriter.py:143-152 get_flat_values(h, flow) *)
  Definition to_histo (flow : bool) (h : mhist) : histo V :=
    match h with
    | MDense axes f =>
        let v := map (fun b => f (to_flow flow axes b)) (all_idx (layout flow axes)) in HDense v v
    | MSparse axes ents => HSparse (to_flat_csr flow axes ents) (prodn (layout flow axes))
    end.

  (** *** slices of a dense histogram, tensorwriter.py:766-783: h[{name: bin, ...}] *)
  Fixpoint merge_idx (axes : list maxis) (sel : dict nat) (i : list nat) : list nat :=
    match axes with
    | [] => []
    | a :: r =>
        match dget (x_name a) sel with
        | Some k => (x_under a + k) :: merge_idx r sel i
        | None => hd 0 i :: merge_idx r sel (tl i)
        end
    end.
  Definition slice_dense (axes : list maxis) (f : list nat -> V) (extra : list string) (idx : list nat) : mhist :=
    MDense (keep_axes axes extra) (fun i => f (merge_idx axes (combine extra idx) i)).

  (** *** slices of a SparseHist, tensorwriter.py:597-686 _sparse_per_syst_slices *)
  (** multi[h_axis_names.index(n)] for one entry *)
  Definition coord_of (names : list string) (m : list nat) (n : string) : nat :=
    match index_of n names with Some k => nth k m 0 | None => 0 end.
  Definition sparse_slices (axes : list maxis) (ents : list (nat * V)) (extra : list string)
    (keep : list maxis) : list mhist :=
    let names := x_names axes in
    let exax := axes_by_name axes extra in
    let kept := filter (fun n => negb (smem n extra)) names in
    let flat := to_flat_csr true axes ents in
    let multi := map (fun e => (unravel (map x_extent axes) (fst e), snd e)) flat in
    let valid := filter (fun e => all_regular exax (map (coord_of names (fst e)) extra)) multi in
    let lin := map (fun e => (ravel (map x_size exax) (off_under exax (map (coord_of names (fst e)) extra)), e)) valid in
    let sorted := sort_k fst Nat.compare lin in
    let keys := map fst sorted in
    map (fun k =>
      let run := pyslice (searchsorted keys k) (searchsorted keys (S k)) sorted in
      MSparse keep (sort_flat
        (map (fun e => (ravel (map x_extent keep) (map (coord_of names (fst (snd e))) kept), snd (snd e))) run)))
      (seq 0 (prodn (map x_size exax))).

  (** tensorwriter.py:688-783 _get_systematic_slices: names and slices of one histogram; [ref]
      is the histogram the axes are taken from (the first of a pair) *)
  Definition hist_slices (ref h : mhist) (extra : list string) : list mhist :=
    match h with
    | MDense axes f =>
        map (fun idx => slice_dense axes f extra idx)
          (all_idx (map x_size (axes_by_name (mh_axes ref) extra)))
    | MSparse axes ents => sparse_slices axes ents extra (keep_axes (mh_axes ref) extra)
    end.
  Definition slice_names (ref : mhist) (name : string) (extra : list string) : list string :=
    let ex := axes_by_name (mh_axes ref) extra in
    map (sub_name name ex) (all_idx (map x_size ex)).

  Inductive minput := ISingle (h : mhist) | IPair (up dn : mhist).
  Definition ref_of (h : minput) : mhist := match h with ISingle h => h | IPair u _ => u end.

  (** tensorwriter.py:290-299: np.allclose of the channel's axes with those of h, in order *)
  Fixpoint check_edges (ch axes : list maxis) : option pyexc :=
    match ch, axes with
    | [], _ => None
    | _ :: _, [] => Some IndexError
    | c :: cr, a :: ar => if Nat.eqb (x_tag c) (x_tag a) then check_edges cr ar else Some RuntimeError
    end.

  (** one recursive call, tensorwriter.py:1192-1262 *)
  Definition book_slice (cfg : config) (chx : list maxis) (flow : bool) (st : state V) (h : minput)
    (name p ch : string) (kf : V) (mirror : bool) (m : symmode) (ad : bool) (kw : kwargs) : result (state V) :=
    let go (input : systinput V) (edges : option pyexc) :=
      match st_norm st ch p with
      | None => Raise KeyError
      | Some _ =>
        match edges with
        | Some e => Raise e
        | None => match add_systematic cfg st input name p ch kf mirror m ad kw with
                  | (st1, None) => Ok st1
                  | (_, Some e) => Raise e
                  end
        end
      end in
    match h with
    | ISingle h1 => go (SSingle (to_histo flow h1)) (check_edges chx (mh_axes h1))
    | IPair u d => go (SPair (to_histo flow u) (to_histo flow d))
        (match check_edges chx (mh_axes u) with Some e => Some e | None => check_edges chx (mh_axes d) end)
    end.

  (** the list of (sub_name, sub_h), tensorwriter.py:715-783 *)
  Definition get_slices (h : minput) (name : string) (extra : list string) : result (list (string * minput)) :=
    let names := slice_names (ref_of h) name extra in
    match h with
    | ISingle h1 => Ok (combine names (map ISingle (hist_slices h1 h1 extra)))
    | IPair u d =>
        if is_sparsehist u && negb (is_sparsehist d) then Raise TypeError
        else Ok (combine names (map2 IPair (hist_slices u u extra) (hist_slices u d extra)))
    end.

  (** tensorwriter.py:1176-1189 *)
  Fixpoint book_slices (cfg : config) (chx : list maxis) (flow : bool) (st : state V)
    (l : list (string * minput)) (p ch : string) (kf : V) (mirror : bool) (m : symmode) (ad : bool)
    (kw : kwargs) : result (state V) :=
    match l with
    | [] => Ok st
    | (n, h) :: r =>
        st1 <- book_slice cfg chx flow st h n p ch kf mirror m ad kw ;;
        book_slices cfg chx flow st1 r p ch kf mirror m ad kw
    end.

  (** *** the batched path, tensorwriter.py:842-1116.
      [sorter] is np.argsort with its default (unstable) algorithm applied to the entries:
      any rearrangement that is sorted by the systematic index. *)
  Definition set_at (i : nat) (v : V) (l : list V) : list V :=
    if Nat.ltb i (List.length l) then firstn i l ++ v :: skipn (S i) l else l.
  (** logk_dense[idx] = vals *)
  Definition scatter (n : nat) (e : list (nat * V)) : list V :=
    fold_left (fun l x => set_at (fst x) (snd x) l) e (repeat n0 n).
  (** steps 1-4: (systematic index, (channel bin, value)) of the entries that are kept *)
  Definition batch_entries (axes : list maxis) (ents : list (nat * V)) (extra chn : list string)
    (flow : bool) : list (nat * (nat * V)) :=
    let names := x_names axes in
    let exax := axes_by_name axes extra in
    let kpax := axes_by_name axes chn in
    let multi := map (fun e => (unravel (map x_extent axes) (fst e), snd e)) ents in
    let valid := filter (fun e =>
        all_regular exax (map (coord_of names (fst e)) extra)
        && (flow || all_regular kpax (map (coord_of names (fst e)) chn))) multi in
    map (fun e =>
      let kp := map (coord_of names (fst e)) chn in
      (ravel (map x_size exax) (off_under exax (map (coord_of names (fst e)) extra)),
       (if flow then ravel (map x_extent kpax) kp else ravel (map x_size kpax) (off_under kpax kp), snd e)))
      valid.
  (** step 5: (systematic index, (channel bin, (value, nominal))) *)
  Definition batch_norm (nm : normarr V) (l : list (nat * (nat * V))) : result (list (nat * (nat * (V * V)))) :=
    match nm with
    | NSparse e _ =>
        let ind := map fst e in
        Ok (flat_map (fun x =>
              let pos := searchsorted ind (fst (snd x)) in
              if Nat.ltb pos (List.length ind) && Nat.eqb (nth pos ind 0) (fst (snd x))
              then [(fst x, (fst (snd x), (snd (snd x), nth pos (map snd e) n0)))] else []) l)
    | NDense n =>
        if forallb (fun x => Nat.ltb (fst (snd x)) (List.length n)) l
        then Ok (filter (fun x => negb (neq0 (snd (snd (snd x)))))
                  (map (fun x => (fst x, (fst (snd x), (snd (snd x), nth (fst (snd x)) n n0)))) l))
        else Raise IndexError
    end.
  (** steps 5-8 *)
  Definition batch_logk (cfg : config) (kf : V) (nm : normarr V) (l : list (nat * (nat * V)))
    : result (list (nat * (nat * V))) :=
    q <- batch_norm nm l ;;
    if negb (forallb (fun x => nfinite (fst (snd (snd x)))) q) then Raise RuntimeError
    else Ok (filter (fun x => nonzero (snd x))
           (map (fun x => let '(d, n) := snd (snd x) in
                          (fst x, (fst (snd x), logk1 (c_type cfg) kf (nadd n d) n))) q)).
  (** steps 9-11: the array stored for one systematic *)
  Definition batch_entry (cfg : config) (size : nat) (sorted : list (nat * (nat * V))) (k : nat) : lentry V :=
    let keys := map fst sorted in
    let run := map snd (pyslice (searchsorted keys k) (searchsorted keys (S k)) sorted) in
    if c_sparse cfg then LSparse run else LDense (scatter size run).
  Definition batch_insert (st : state V) (ch p s : string) (e : lentry V) (kw : kwargs) : state V :=
    book_systematic
      (set_logk st (upd2 (st_logkavg st) ch p (dset s e (st_logkavg st ch p))) (st_logkhalf st) (st_symmetric st))
      s kw.
  Definition add_batched (sorter : list (nat * (nat * V)) -> list (nat * (nat * V)))
    (cfg : config) (chx : list maxis) (flow : bool) (st : state V) (axes : list maxis)
    (ents : list (nat * V)) (name p ch : string) (kf : V) (extra : list string) (kw : kwargs) : result (state V) :=
    if negb (forallb (fun n => smem n (x_names axes)) (x_names chx)) then Raise RuntimeError
    else
      match st_norm st ch p with
      | None => Raise KeyError
      | Some nm =>
        let exax := axes_by_name axes extra in
        let kpax := axes_by_name axes (x_names chx) in
        l <- batch_logk cfg kf nm (batch_entries axes ents extra (x_names chx) flow) ;;
        let sorted := sorter l in
        Ok (fold_left (fun s kn => batch_insert s ch p (snd kn)
                          (batch_entry cfg (prodn (layout flow kpax)) sorted (fst kn)) kw)
             (combine (seq 0 (prodn (map x_size exax))) (batch_names name exax)) st)
      end.

  (** tensorwriter.py:1118-1262 add_systematic; [chx] are the axes of the channel *)
  Definition add_multi (sorter : list (nat * (nat * V)) -> list (nat * (nat * V)))
    (cfg : config) (chx : list maxis) (st : state V) (h : minput) (name p ch : string) (kf : V)
    (mirror : bool) (m : symmode) (ad : bool) (syst_axes : option (list string)) (kw : kwargs)
    : result (state V) :=
    match dget ch (st_channels st) with
    | None => Raise KeyError
    | Some info =>
      let flow := ch_flow info in
      ex <- detect_extra (x_names chx) (x_names (mh_axes (ref_of h))) syst_axes ;;
      match ex with
      | None => book_slice cfg chx flow st h name p ch kf mirror m ad kw
      | Some extra =>
          match h with
          | ISingle (MSparse axes ents) =>
              if mirror && ad
              then add_batched sorter cfg chx flow st axes ents name p ch kf extra kw
              else l <- get_slices h name extra ;; book_slices cfg chx flow st l p ch kf mirror m ad kw
          | _ => l <- get_slices h name extra ;; book_slices cfg chx flow st l p ch kf mirror m ad kw
          end
      end
    end.
End Multi.
Arguments mhist : clear implicits.
Arguments minput : clear implicits.
