(** Parameter models: rabbit/param_models/param_model.py, abcd_model.py, extended_abcd_model.py,
    smooth_abcd_model.py, smooth_extended_abcd_model.py, abcd_isomtmt_model.py.

    Numbers are reals. Names are strings; comma separated lists are already split. A scatter update with a
    repeated index keeps the last value (tensorflow leaves the order open). Tensors are index functions with
    the sizes the code relies on; tensorflow shape errors are [Raise ValueError]. *)
From Coq Require Import Reals List Arith ZArith Bool String.
From Verif Require Import RBase PyList PyDict Shape Writer_Model Yields_Model Init_Model.
Import ListNotations.
Open Scope R_scope.

Fixpoint rmap {A B} (f : A -> result B) (l : list A) : result (list B) :=
  match l with [] => Ok [] | a :: r => b <- f a ;; bs <- rmap f r ;; Ok (b :: bs) end.

(** ** models and their composition *)
(** a prior width that is not finite is None *)
Record model := mkModel { m_npoi : nat; m_npou : nat; m_params : list string; m_default : list R;
  m_allowneg : bool; m_linear : bool; m_sigmas : option (list (option R)); m_means : option (list R);
  m_groups : list (string * list string); m_compute : list R -> bool -> result rnorm }.
Definition nparams (m : model) : nat := (m_npoi m + m_npou m)%nat.

(** tensor product with broadcasting over the bins *)
Definition rn_mul (a b : rnorm) : result rnorm :=
  match a, b with
  | RBroadcast f, RBroadcast g => Ok (RBroadcast (fun p => f p * g p))
  | RBroadcast f, RBins n g => Ok (RBins n (fun i p => f p * g i p))
  | RBins n f, RBroadcast g => Ok (RBins n (fun i p => f i p * g p))
  | RBins n f, RBins k g => if Nat.eqb n k then Ok (RBins n (fun i p => f i p * g i p))
                            else if Nat.eqb n 1 then Ok (RBins k (fun i p => f O p * g i p))
                            else if Nat.eqb k 1 then Ok (RBins n (fun i p => f i p * g O p))
                            else Raise ValueError
  end.
(** functools.reduce *)
Fixpoint rn_reduce (acc : rnorm) (l : list rnorm) : result rnorm :=
  match l with [] => Ok acc | r :: l' => a <- rn_mul acc r ;; rn_reduce a l' end.

Definition poi_part {A} (m : model) (l : list A) : list A := firstn (m_npoi m) l.
Definition pou_part {A} (m : model) (l : list A) : list A := skipn (m_npoi m) l.
(** param_model.py:110-117: all POIs, then all POUs *)
Definition permuted {A} (f : model -> list A) (ms : list model) : list A :=
  flat_map (fun m => poi_part m (f m)) ms ++ flat_map (fun m => pou_part m (f m)) ms.
(** param_model.py:203-224 *)
Fixpoint split_params (ms : list model) (poi pou : nat) (x : list R) : list (model * list R) :=
  match ms with
  | [] => []
  | m :: r => (m, pyslice poi (poi + m_npoi m) x ++ pyslice pou (pou + m_npou m) x) ::
              split_params r (poi + m_npoi m) (pou + m_npou m) x
  end.
Definition composite_compute (ms : list model) (npoi : nat) (x : list R) (full : bool) : result rnorm :=
  rs <- rmap (fun mp => m_compute (fst mp) (snd mp) full) (split_params ms 0 npoi x) ;;
  match rs with [] => Raise TypeError | r :: l => rn_reduce r l end.
(** param_model.py:191-201 *)
Fixpoint group_extend (k : string) (v : list string) (d : list (string * list string)) : list (string * list string) :=
  match d with
  | [] => [(k, v)]
  | (k', v') :: r => if String.eqb k k' then (k', v' ++ v) :: r else (k', v') :: group_extend k v r
  end.
Definition merge_groups (ms : list model) : list (string * list string) :=
  fold_left (fun d g => group_extend (fst g) (snd g) d) (flat_map m_groups ms) [].
Definition sigmas_of (m : model) : list (option R) := match m_sigmas m with Some s => s | None => repeat None (nparams m) end.
Definition means_of (m : model) : list R := match m_means m with Some s => s | None => m_default m end.
(** param_model.py:97-201 *)
Definition composite (ms : list model) (allowneg : option bool) : result model :=
  let npoi := sumn (map m_npoi ms) in
  let npou := sumn (map m_npou ms) in
  let flags := map m_allowneg (filter (fun m => Nat.ltb 0 (m_npoi m)) ms) in
  let derived := match flags with [] => None | b :: _ => Some b end in
  if Nat.eqb (List.length ms) 0 then Raise ValueError else
  if existsb (fun b => b) flags && existsb negb flags then Raise ValueError else
  an <- match allowneg with
        | None => Ok (match derived with Some b => b | None => false end)
        | Some a => match derived with Some b => if Bool.eqb a b then Ok a else Raise ValueError | None => Ok a end
        end ;;
  let active := filter (fun m => Nat.ltb 0 (nparams m)) ms in
  let has_priors := existsb (fun m => match m_sigmas m with Some _ => true | None => false end) ms in
  Ok {| m_npoi := npoi; m_npou := npou; m_params := permuted m_params ms; m_default := permuted m_default ms;
        m_allowneg := an;
        m_linear := Nat.eqb (npoi + npou) 0 || (an && Nat.leb (List.length active) 1 && forallb m_linear active);
        m_sigmas := if has_priors then Some (permuted sigmas_of ms) else None;
        m_means := if has_priors then Some (permuted means_of ms) else None;
        m_groups := merge_groups ms; m_compute := composite_compute ms npoi |}.

(** ** input data *)
Record axis := mkAxis { ax_name : string; ax_size : nat; ax_centers : list R; ax_edges : list R }.
Record chan := mkChan { cn_axes : list axis; cn_masked : bool; cn_start : nat }.
Record pdata := mkPd { pd_procs : list string; pd_signals : list string; pd_channels : list (string * chan);
  pd_nbins : nat; pd_nbinsfull : nat; pd_norm : nat -> nat -> R }.
Definition nproc (d : pdata) : nat := List.length (pd_procs d).
Definition sizes (axes : list axis) : list nat := map ax_size axes.
Definition simple_model (npoi : nat) (params : list string) (dft : list R) (allowneg linear : bool)
  (f : list R -> bool -> result rnorm) : model :=
  mkModel npoi 0 params dft allowneg linear None None [] f.

(** param_model.py:226-244 *)
Definition ones_model : model := simple_model 0 [] [] false true (fun _ _ => Ok (RBroadcast (fun _ => 1))).
(** param_model.py:247-277: the parameters followed by ones; tf.ones fails on a negative size *)
Definition mu_compute (d : pdata) (x : list R) (full : bool) : result rnorm :=
  if Nat.ltb (nproc d) (List.length x) then Raise ValueError
  else Ok (RBroadcast (fun p => nth p (x ++ repeat 1 (nproc d - List.length x)) 1)).
Definition mu_model (d : pdata) (expect : option (list (string * R))) (allowneg : bool) : result model :=
  let npoi := List.length (pd_signals d) in
  dft <- set_param_default (pd_signals d) npoi expect allowneg ;;
  Ok (simple_model npoi (pd_signals d) dft allowneg (Nat.eqb npoi 0 || allowneg) (mu_compute d)).

(** tf.tensor_scatter_nd_update of a vector of ones *)
Definition scatter_ones (ups : list (nat * R)) (b : nat) : R :=
  fold_left (fun acc u => if Nat.eqb (fst u) b then snd u else acc) ups 1.
(** positions of the entries that are in a list: np.where(np.isin(..)) *)
Definition where_in (l sel : list string) : list nat :=
  map fst (filter (fun p => smem (snd p) sel) (combine (seq 0 (List.length l)) l)).
(** param_model.py:279-375 *)
Definition mixture_compute (d : pdata) (npoi : nat) (pidx cidx : list nat) (x : list R) (full : bool) : result rnorm :=
  let idx := pidx ++ cidx in
  let ups := x ++ map (fun v => 1 - v) x in
  if negb (Nat.eqb (List.length x) npoi) then Raise ValueError else
  if Nat.eqb (List.length idx) (List.length ups) then Ok (RBroadcast (scatter_ones (combine idx ups))) else Raise ValueError.
Definition mixture_names (ps cs : list string) : list string :=
  map (fun pc => (fst pc ++ "_" ++ snd pc ++ "_mixing")%string) (combine ps cs).
Definition mixture_model (d : pdata) (ps cs : list string) (expect : option (list (string * R))) (allowneg : bool) : result model :=
  if negb (Nat.eqb (List.length ps) (List.length cs)) then Raise ValueError else
  if negb (forallb (fun p => smem p (pd_procs d)) ps) then Raise ValueError else
  if negb (forallb (fun p => smem p (pd_procs d)) cs) then Raise ValueError else
  let names := mixture_names ps cs in
  dft <- set_param_default names (List.length ps) expect allowneg ;;
  Ok (simple_model (List.length ps) names dft allowneg false
        (mixture_compute d (List.length ps) (where_in (pd_procs d) ps) (where_in (pd_procs d) cs))).

(** ** models per bin *)
Definition join_names (l : list string) : string := String.concat "_" l.
Definition bin_label (axes : list axis) (idx : list nat) : string :=
  join_names (map (fun ai => (ax_name (fst ai) ++ nat_str (snd ai))%string) (combine axes idx)).
(** tf.reshape and tf.broadcast_to: entry of a broadcast array *)
Definition bidx (rshape idx : list nat) : list nat := map (fun ri => if Nat.eqb (fst ri) 1 then O else snd ri) (combine rshape idx).
Definition bcast_at (v : list R) (rshape idx : list nat) : R := nth (ravel rshape (bidx rshape idx)) v 0.
Definition reshape (v : list R) (rshape : list nat) : result (list R) :=
  if Nat.eqb (List.length v) (prodn rshape) then Ok v else Raise ValueError.
Definition kept_shape (axes : list axis) (names : list string) : list nat :=
  map (fun a => if smem (ax_name a) names then ax_size a else 1%nat) axes.
Definition included (full : bool) (c : chan) : bool := full || negb (cn_masked c).
(** the rows of all channels of the prediction *)
Definition all_rows (d : pdata) (full : bool) (f : string -> chan -> result (list (nat -> R))) : result rnorm :=
  rs <- rmap (fun nc => f (fst nc) (snd nc)) (filter (fun nc => included full (snd nc)) (pd_channels d)) ;;
  let rows := List.concat rs in
  Ok (RBins (List.length rows) (fun b p => nth b rows (fun _ => 0) p)).
Definition find_axis (name : string) (axes : list axis) : option axis := find (fun a => String.eqb (ax_name a) name) axes.
Definition get_axis (axes : list axis) (n : string) : result axis := match find_axis n axes with Some a => Ok a | None => Raise ValueError end.
(** param_model.py:507-520, 700-713, 870-883 *)
Definition target_procs (d : pdata) (spec : option (list string)) : result (list string) :=
  match spec with
  | None => Ok (pd_procs d)
  | Some l => if forallb (fun p => smem p (pd_procs d)) l then Ok l else Raise ValueError
  end.
Definition proc_idx (d : pdata) (p : string) : nat := match index_of p (pd_procs d) with Some i => i | None => O end.
(** 1 + sum over the targeted processes of (scaling - 1) times one-hot *)
Definition scaled_row (pidx : list nat) (scal : nat -> R) (p : nat) : R :=
  fold_left (fun acc ip => acc + (scal (fst ip) - 1) * (if Nat.eqb p (snd ip) then 1 else 0)) (combine (seq 0 (List.length pidx)) pidx) 1.
Definition unit_rows (c : chan) : list (nat -> R) := map (fun _ _ => 1) (all_idx (sizes (cn_axes c))).
(** [v i] the parameters of the i-th process after checking shapes; [scal] the scaling of a bin *)
Definition per_bin_compute {V} (d : pdata) (channel : string) (pidx : list nat) (v : nat -> result V) (scal : V -> list nat -> R) (full : bool) : result rnorm :=
  all_rows d full (fun k c =>
    if String.eqb k channel then
      vs <- rmap v (seq 0 (List.length pidx)) ;;
      Ok (map (fun idx => scaled_row pidx (fun i => match nth_error vs i with Some w => scal w idx | None => 1 end)) (all_idx (sizes (cn_axes c))))
    else Ok (unit_rows c)).

(** param_model.py:449-601 AxisNormModel *)
Definition norm_names (procs : list string) (axes : list axis) : list string :=
  flat_map (fun p => map (fun idx => ("norm_" ++ p ++ "_" ++ bin_label axes idx)%string) (all_idx (sizes axes))) procs.
Fixpoint set_defaults (params : list string) (sig : list (string * R)) (dft : list R) : result (list R) :=
  match sig with
  | [] => Ok dft
  | (s, v) :: r => match index_of s params with None => Raise ValueError | Some i => set_defaults params r (upd_nth i v dft) end
  end.
Definition axis_norm (d : pdata) (channel : string) (spec : option (list string)) (names : list string) (expect : option (list (string * R))) : result model :=
  match dget channel (pd_channels d) with
  | None => Raise ValueError
  | Some c =>
    axes <- rmap (get_axis (cn_axes c)) names ;;
    procs <- target_procs d spec ;;
    let pidx := map (proc_idx d) procs in
    let ncell := prodn (sizes axes) in
    let params := norm_names procs axes in
    let npoi := (List.length pidx * ncell)%nat in
    dft <- set_defaults params (match expect with Some l => l | None => [] end) (repeat 1 npoi) ;;
    let rs := kept_shape (cn_axes c) names in
    Ok (simple_model npoi params (map sqrt dft) true false (fun x full =>
      per_bin_compute d channel pidx (fun i => reshape (map (fun t => t * t) (pyslice (i * ncell) ((i + 1) * ncell) x)) rs)
        (fun v idx => bcast_at v rs idx) full))
  end.

(** normalised bin centres, param_model.py:735-738 *)
Definition norm_centers (a : axis) : list R :=
  let c := ax_centers a in
  let lo := hd 0 c in let span := Rmax (last c 0 - lo) (/ 1000000) in
  map (fun x => (x - lo) / span) c.
Definition poly_names (prefix : string) (p : string) (axes : list axis) : list string :=
  map (fun idx => (prefix ++ "_" ++ p ++ "_" ++ bin_label axes idx)%string) (all_idx (sizes axes)).
Definition shape_axis_ok (axes : list axis) (shape_axis : string) (cells : list string) : result (axis * list axis) :=
  sa <- get_axis axes shape_axis ;;
  ca <- rmap (fun n => a <- get_axis axes n ;; if String.eqb n shape_axis then Raise ValueError else Ok a) cells ;;
  Ok (sa, ca).
(** param_model.py:604-800 AxisExpModel *)
Definition axis_exp (d : pdata) (channel : string) (spec : option (list string)) (shape_axis : string) (cells : list string) (slopes : option (list string)) : result model :=
  match dget channel (pd_channels d) with
  | None => Raise ValueError
  | Some c =>
    sc <- shape_axis_ok (cn_axes c) shape_axis cells ;;
    let slope_names := match slopes with None => cells | Some l => l end in
    if negb (forallb (fun n => smem n cells) slope_names) then Raise ValueError else
    sl <- rmap (get_axis (cn_axes c)) slope_names ;;
    procs <- target_procs d spec ;;
    let pidx := map (proc_idx d) procs in
    let ncell := prodn (sizes (snd sc)) in
    let ngrp := prodn (sizes sl) in
    let stride := (ncell + ngrp)%nat in
    let npoi := (List.length pidx * stride)%nat in
    let params := flat_map (fun p => poly_names "lnAmpl" p (snd sc) ++ poly_names "slope" p sl) procs in
    let cr := kept_shape (cn_axes c) cells in
    let sr := kept_shape (cn_axes c) slope_names in
    let xr := kept_shape (cn_axes c) [shape_axis] in
    let xm := norm_centers (fst sc) in
    Ok (simple_model npoi params (repeat 0 npoi) true false (fun x full =>
      per_bin_compute d channel pidx (fun i =>
          a <- reshape (pyslice (i * stride) (i * stride + ncell) x) cr ;;
          b <- reshape (pyslice (i * stride + ncell) ((i + 1) * stride) x) sr ;;
          m <- reshape xm xr ;; Ok (a, b, m))
        (fun v idx => match v with (a, b, m) => exp (bcast_at a cr idx + bcast_at b sr idx * bcast_at m xr idx) end) full))
  end.
(** param_model.py:803-1010 AxisBernsteinModel *)
Definition softplus (x : R) : R := ln (1 + exp x).
Definition axis_bernstein (d : pdata) (channel : string) (spec : option (list string)) (shape_axis : string) (cells : list string)
  (expect : option (list (string * R))) : result model :=
  match dget channel (pd_channels d) with
  | None => Raise ValueError
  | Some c =>
    sc <- shape_axis_ok (cn_axes c) shape_axis cells ;;
    procs <- target_procs d spec ;;
    match expect with Some _ => Raise ValueError | None =>
    let pidx := map (proc_idx d) procs in
    let ncell := prodn (sizes (snd sc)) in
    let npoi := (List.length pidx * 2 * ncell)%nat in
    let params := flat_map (fun p => poly_names "c0" p (snd sc) ++ poly_names "c1" p (snd sc)) procs in
    let cr := kept_shape (cn_axes c) cells in
    let xr := kept_shape (cn_axes c) [shape_axis] in
    let xm := norm_centers (fst sc) in
    Ok (simple_model npoi params (repeat (ln (exp 1 - 1)) npoi) true false (fun x full =>
      per_bin_compute d channel pidx (fun i =>
          a <- reshape (map softplus (pyslice (i * 2 * ncell) (i * 2 * ncell + ncell) x)) cr ;;
          b <- reshape (map softplus (pyslice (i * 2 * ncell + ncell) ((i + 1) * 2 * ncell) x)) cr ;;
          m <- reshape xm xr ;; Ok (a, b, m))
        (fun v idx => match v with (a, b, m) => bcast_at a cr idx * (1 - bcast_at m xr idx) + bcast_at b cr idx * bcast_at m xr idx end) full))
    end
  end.

(** param_model.py:377-446 SaturatedProjectModel; [mp] the axes kept per channel, in the order of the mapping *)
Definition sat_names (mp : list (string * list axis)) : list string :=
  flat_map (fun ka => map (fun idx => ("saturated_" ++ fst ka ++ "_" ++ bin_label (snd ka) idx)%string) (all_idx (sizes (snd ka)))) mp.
Definition same_axis (a b : axis) : bool := String.eqb (ax_name a) (ax_name b) && Nat.eqb (ax_size a) (ax_size b).
(** a product over no axes is a float, which cannot be used as the end of a slice *)
Fixpoint sat_rows (mp : list (string * list axis)) (start : nat) (chs : list (string * chan)) (x : list R) : result (list (nat -> R)) :=
  match chs with
  | [] => Ok []
  | (k, c) :: r =>
    match dget k mp with
    | None => rest <- sat_rows mp start r x ;; Ok (unit_rows c ++ rest)
    | Some [] => Raise TypeError
    | Some axes =>
      let rs := map (fun a => if existsb (same_axis a) axes then ax_size a else 1%nat) (cn_axes c) in
      let n := prodn (sizes axes) in
      v <- reshape (pyslice start (start + n) x) rs ;;
      rest <- sat_rows mp (start + n) r x ;;
      Ok (map (fun idx _ => 1 * bcast_at v rs idx) (all_idx (sizes (cn_axes c))) ++ rest)
    end
  end.
Definition saturated_model (d : pdata) (mp : list (string * list axis)) (allowneg : bool) : result model :=
  let npoi := sumn (map (fun ka => prodn (sizes (snd ka))) mp) in
  let names := sat_names mp in
  dft <- set_param_default (repeat ""%string npoi) npoi None allowneg ;;
  Ok (simple_model npoi names dft allowneg (Nat.eqb npoi 0 || allowneg) (fun x full =>
    rows <- sat_rows mp 0 (filter (fun nc => included full (snd nc)) (pd_channels d)) x ;;
    Ok (RBins (List.length rows) (fun b p => nth b rows (fun _ => 0) p)))).

(** ** ABCD *)
Record region := mkRegion { rg_chan : string; rg_sel : list (string * Z) }.
Definition axis_pos (axes : list axis) (n : string) : option nat := index_of n (map ax_name axes).
(** abcd_model.py:46-57: numpy indexing, negative numbers count from the end *)
Definition np_index (z : Z) (size : nat) : result nat :=
  let w := (if z <? 0 then z + Z.of_nat size else z)%Z in
  if ((w <? 0) || (Z.of_nat size <=? w))%Z then Raise IndexError else Ok (Z.to_nat w).
Definition resolve_sel (axes : list axis) (sel : list (string * Z)) : result (list (nat * nat)) :=
  pos <- rmap (fun s => match axis_pos axes (fst s) with None => Raise ValueError | Some i => Ok (i, snd s) end) sel ;;
  rmap (fun iz => w <- np_index (snd iz) (nth (fst iz) (sizes axes) O) ;; Ok (fst iz, w)) pos.
Definition sel_bins (axes : list axis) (fixed : list (nat * nat)) : list (list nat) :=
  filter (fun idx => forallb (fun f => Nat.eqb (nth (fst f) idx O) (snd f)) fixed) (all_idx (sizes axes)).
(** abcd_model.py:19-59 *)
Definition global_indices (d : pdata) (r : region) : result (list nat) :=
  match dget (rg_chan r) (pd_channels d) with
  | None => Raise ValueError
  | Some c => fixed <- resolve_sel (cn_axes c) (rg_sel r) ;;
              Ok (map (fun idx => cn_start c + ravel (sizes (cn_axes c)) idx)%nat (sel_bins (cn_axes c) fixed))
  end.
(** abcd_model.py:62-82: an index is compared as it was given *)
Definition region_names (process : string) (d : pdata) (r : region) : list string :=
  match dget (rg_chan r) (pd_channels d) with
  | None => []
  | Some c =>
    map (fun idx => (process ++ "_" ++ rg_chan r ++ "_" ++ bin_label (cn_axes c) idx)%string)
      (filter (fun idx => forallb (fun s => match axis_pos (cn_axes c) (fst s) with
                                            | Some i => Z.eqb (Z.of_nat (nth i idx O)) (snd s)
                                            | None => false end) (rg_sel r)) (all_idx (sizes (cn_axes c))))
  end.
Definition safe0 (eps x : R) : R := if Reqb x 0 then eps else x.
Definition sq (x : R) : R := x * x.
(** a region is scaled if the full prediction is asked for or none of its bins is masked *)
Definition active (d : pdata) (full : bool) (idx : list nat) : bool := full || forallb (fun i => Nat.ltb i (pd_nbins d)) idx.
(** [val i] the scale factor of the i-th bin of a region *)
Definition abcd_rnorm (d : pdata) (pi : nat) (regions : list (list nat * (nat -> R))) (full : bool) : result rnorm :=
  let act := filter (fun r => active d full (fst r)) regions in
  let ups := flat_map (fun r => combine (fst r) (map (snd r) (seq 0 (List.length (fst r))))) act in
  let n := if full then pd_nbinsfull d else pd_nbins d in
  if forallb (fun u => Nat.ltb (fst u) n) ups
  then Ok (RBins n (fun b p => if Nat.eqb p pi then scatter_ones ups b else 1)) else Raise ValueError.
Definition mc_at (d : pdata) (pi : nat) (idx : list nat) (i : nat) : R := pd_norm d (nth i idx O) pi.
Definition eps10 : R := / 10000000000.
(** abcd_model.py:183-190, 297-302: dependent region from the scale factors and from the templates *)
Definition abcd_d (a b c : R) : R := a * c / safe0 eps10 b.
Definition abcd_mc (a b c d : R) : R := a * c / (safe0 1 b * safe0 1 d).
(** extended_abcd_model.py:134-142, 262-267 *)
Definition ext_d (a b c ax bx : R) : R := c * ax * sq b / (safe0 eps10 bx * sq (safe0 eps10 a)).
Definition ext_mc (a b c d ax bx : R) : R := c * ax * sq b / (safe0 1 bx * sq (safe0 1 a) * safe0 1 d).
Definition corrected (corr : bool) (f v : R) : R := if corr then v * f else v.
Definition sized (n : nat) (x : list R) (k : result rnorm) : result rnorm := if Nat.eqb (List.length x) n then k else Raise ValueError.
Definition same_len (n : nat) (l : list (list nat)) : bool := forallb (fun i => Nat.eqb (List.length i) n) l.
(** abcd_model.py:124-225, 282-323; a parameter vector of the wrong length is a shape error *)
Definition abcd_model (d : pdata) (process : string) (rA rB rC rD : region) (corr : bool) : result model :=
  if negb (smem process (pd_procs d)) then Raise ValueError else
  let pi := proc_idx d process in
  iA <- global_indices d rA ;; iB <- global_indices d rB ;; iC <- global_indices d rC ;; iD <- global_indices d rD ;;
  let n := List.length iA in
  if negb (same_len n [iB; iC; iD]) then Raise ValueError else
  let mc := fun i => abcd_mc (mc_at d pi iA i) (mc_at d pi iB i) (mc_at d pi iC i) (mc_at d pi iD i) in
  Ok (mkModel 0 (3 * n) (flat_map (region_names process d) [rA; rB; rC]) (repeat 1 (3 * n)) false false None None []
    (fun x full => sized (3 * n) x (
       let v := fun k i => sq (nth (k * n + i) x 0) in
       abcd_rnorm d pi [(iA, v 0%nat); (iB, v 1%nat); (iC, v 2%nat);
                        (iD, fun i => corrected corr (mc i) (abcd_d (v 0%nat i) (v 1%nat i) (v 2%nat i)))] full))).
(** extended_abcd_model.py:61-191, 246-300 *)
Definition ext_abcd_model (d : pdata) (process : string) (rA rB rC rD rAx rBx : region) (corr : bool) : result model :=
  if negb (smem process (pd_procs d)) then Raise ValueError else
  let pi := proc_idx d process in
  iA <- global_indices d rA ;; iB <- global_indices d rB ;; iC <- global_indices d rC ;; iD <- global_indices d rD ;;
  iAx <- global_indices d rAx ;; iBx <- global_indices d rBx ;;
  let n := List.length iA in
  if negb (same_len n [iB; iC; iD; iAx; iBx]) then Raise ValueError else
  let mc := fun i => ext_mc (mc_at d pi iA i) (mc_at d pi iB i) (mc_at d pi iC i) (mc_at d pi iD i) (mc_at d pi iAx i) (mc_at d pi iBx i) in
  Ok (mkModel 0 (5 * n) (flat_map (region_names process d) [rA; rB; rC; rAx; rBx]) (repeat 1 (5 * n)) false false None None []
    (fun x full => sized (5 * n) x (
       let v := fun k i => sq (nth (k * n + i) x 0) in
       abcd_rnorm d pi [(iA, v 0%nat); (iB, v 1%nat); (iC, v 2%nat);
                        (iD, fun i => corrected corr (mc i) (ext_d (v 0%nat i) (v 1%nat i) (v 2%nat i) (v 3%nat i) (v 4%nat i)));
                        (iAx, v 3%nat); (iBx, v 4%nat)] full))).

(** ** smooth variants *)
(** smooth_abcd_model.py:107-147: outer axes, size of the smoothed axis, bins in the order outer, smoothed *)
Definition smooth_region (d : pdata) (axis_name : string) (r : region) : result (list axis * nat * list (list nat)) :=
  match dget (rg_chan r) (pd_channels d) with
  | None => Raise KeyError
  | Some c =>
    let remaining := filter (fun a => negb (smem (ax_name a) (map fst (rg_sel r)))) (cn_axes c) in
    match find_axis axis_name remaining with
    | None => Raise ValueError
    | Some sm =>
      let outer := filter (fun a => negb (String.eqb (ax_name a) axis_name)) remaining in
      bins <- rmap (fun combo => global_indices d (mkRegion (rg_chan r)
                       (rg_sel r ++ map (fun ai => (ax_name (fst ai), Z.of_nat (snd ai))) (combine outer combo)))) (all_idx (sizes outer)) ;;
      Ok (outer, ax_size sm, bins)
    end
  end.
(** smooth_abcd_model.py:161-180 *)
Definition cheb_x (a : axis) (s : nat) : R :=
  let lo := hd 0 (ax_edges a) in let hi := last (ax_edges a) 0 in
  if Rltb lo hi then 2 * (nth s (ax_centers a) 0 - lo) / (hi - lo) - 1 else 0.
(** rows k-1 and k of the basis *)
Fixpoint cheb_pair (k : nat) (x : R) : R * R :=
  match k with
  | O => (x, 1)
  | S k' => match k' with O => (1, x) | S _ => let p := cheb_pair k' x in (snd p, 2 * x * snd p - fst p) end
  end.
Definition basis (k : nat) (x : R) : R := snd (cheb_pair k x).
(** smooth_abcd_model.py:292-308: value of the i-th bin of a region, k-th block of coefficients *)
Definition smooth_val (a : axis) (order nouter ns : nat) (x : list R) (k i : nat) : R :=
  exp (sumR (map (fun j => nth (k * (nouter * (order + 1)) + (i / ns) * (order + 1) + j) x 0 * basis j (cheb_x a (i mod ns))) (seq 0 (order + 1)))).
Definition smooth_names (process : string) (order : nat) (rs : list (string * (region * list axis))) : list string :=
  flat_map (fun t => flat_map (fun combo =>
      map (fun k => (process ++ "_" ++ rg_chan (fst (snd t)) ++ "_" ++ fst t ++ "_" ++
                     (match snd (snd t) with [] => "outer0" | _ => bin_label (snd (snd t)) combo end) ++ "_poly" ++ nat_str k)%string) (seq 0 (order + 1)))
    (all_idx (sizes (snd (snd t))))) rs.
Definition smooth_axis_of (d : pdata) (axis_name : string) (r : region) : axis :=
  match dget (rg_chan r) (pd_channels d) with
  | Some c => match find_axis axis_name (cn_axes c) with Some a => a | None => mkAxis axis_name 0 [] [] end
  | None => mkAxis axis_name 0 [] []
  end.
(** smooth_abcd_model.py:57-235, 292-340 *)
Definition smooth_abcd_model (d : pdata) (axis_name process : string) (rA rB rC rD : region) (order : nat) (corr : bool) : result model :=
  if negb (smem process (pd_procs d)) then Raise ValueError else
  let pi := proc_idx d process in
  sA <- smooth_region d axis_name rA ;; sB <- smooth_region d axis_name rB ;; sC <- smooth_region d axis_name rC ;; sD <- smooth_region d axis_name rD ;;
  let ns := snd (fst sA) in
  let no := List.length (snd sA) in
  if negb (forallb (fun s => Nat.eqb (snd (fst s)) ns) [sB; sC; sD]) then Raise ValueError else
  if negb (forallb (fun s => Nat.eqb (List.length (snd s)) no) [sB; sC; sD]) then Raise ValueError else
  let iA := List.concat (snd sA) in let iB := List.concat (snd sB) in let iC := List.concat (snd sC) in let iD := List.concat (snd sD) in
  let sa := smooth_axis_of d axis_name rA in
  let mc := fun i => abcd_mc (mc_at d pi iA i) (mc_at d pi iB i) (mc_at d pi iC i) (mc_at d pi iD i) in
  let np := (3 * no * (order + 1))%nat in
  Ok (mkModel 0 np (smooth_names process order [("A"%string, (rA, fst (fst sA))); ("B"%string, (rB, fst (fst sB))); ("C"%string, (rC, fst (fst sC)))])
    (repeat 0 np) false false None None []
    (fun x full => sized np x (
       let v := smooth_val sa order no ns x in
       abcd_rnorm d pi [(iA, v 0%nat); (iB, v 1%nat); (iC, v 2%nat);
                        (iD, fun i => corrected corr (mc i) (abcd_d (v 0%nat i) (v 1%nat i) (v 2%nat i)))] full))).
(** smooth_extended_abcd_model.py:65-300, 400-460 *)
Definition smooth_ext_model (d : pdata) (axis_name process : string) (rA rB rC rD rAx rBx : region) (order : nat) (init : option (list R)) (corr : bool) : result model :=
  if negb (smem process (pd_procs d)) then Raise ValueError else
  let pi := proc_idx d process in
  sA <- smooth_region d axis_name rA ;; sB <- smooth_region d axis_name rB ;; sC <- smooth_region d axis_name rC ;; sD <- smooth_region d axis_name rD ;;
  sAx <- smooth_region d axis_name rAx ;; sBx <- smooth_region d axis_name rBx ;;
  let ns := snd (fst sA) in
  let no := List.length (snd sA) in
  if negb (forallb (fun s => Nat.eqb (snd (fst s)) ns) [sB; sC; sD; sAx; sBx]) then Raise ValueError else
  if negb (forallb (fun s => Nat.eqb (List.length (snd s)) no) [sB; sC; sD; sAx; sBx]) then Raise ValueError else
  let iA := List.concat (snd sA) in let iB := List.concat (snd sB) in let iC := List.concat (snd sC) in let iD := List.concat (snd sD) in
  let iAx := List.concat (snd sAx) in let iBx := List.concat (snd sBx) in
  let sa := smooth_axis_of d axis_name rA in
  let mc := fun i => ext_mc (mc_at d pi iA i) (mc_at d pi iB i) (mc_at d pi iC i) (mc_at d pi iD i) (mc_at d pi iAx i) (mc_at d pi iBx i) in
  let np := (5 * no * (order + 1))%nat in
  dft <- match init with None => Ok (repeat 0 np) | Some l => if Nat.eqb (List.length l) np then Ok l else Raise ValueError end ;;
  Ok (mkModel 0 np (smooth_names process order [("A"%string, (rA, fst (fst sA))); ("B"%string, (rB, fst (fst sB))); ("C"%string, (rC, fst (fst sC)));
                                                ("Ax"%string, (rAx, fst (fst sAx))); ("Bx"%string, (rBx, fst (fst sBx)))])
    dft false false None None []
    (fun x full => sized np x (
       let v := smooth_val sa order no ns x in
       abcd_rnorm d pi [(iA, v 0%nat); (iB, v 1%nat); (iC, v 2%nat);
                        (iD, fun i => corrected corr (mc i) (ext_d (v 0%nat i) (v 1%nat i) (v 2%nat i) (v 3%nat i) (v 4%nat i)));
                        (iAx, v 3%nat); (iBx, v 4%nat)] full))).

(** abcd_isomtmt_model.py:41-57, 110-340: regions of one channel from the sizes of its axes "mt" and "relIso" *)
Definition isomt_region (channel : string) (iso : Z) (mt : Z) : region := mkRegion channel [("relIso"%string, iso); ("mt"%string, mt)].
Definition isomt_size (d : pdata) (channel : string) : result Z :=
  match dget channel (pd_channels d) with
  | None => Raise KeyError
  | Some c => match find_axis "mt" (cn_axes c), find_axis "relIso" (cn_axes c) with
              | Some a, Some _ => Ok (Z.of_nat (ax_size a))
              | _, _ => Raise ValueError
              end
  end.
Definition isomt_abcd (d : pdata) (process channel : string) (corr : bool) : result model :=
  n <- isomt_size d channel ;;
  if (n - 2 <? 0)%Z then Raise ValueError else
  let r := isomt_region channel in
  abcd_model d process (r 1 (n - 2))%Z (r 0 (n - 2))%Z (r 1 (n - 1))%Z (r 0 (n - 1))%Z corr.
Definition isomt_ext (d : pdata) (process channel : string) (corr : bool) : result model :=
  n <- isomt_size d channel ;;
  if (n - 3 <? 0)%Z then Raise ValueError else
  let r := isomt_region channel in
  ext_abcd_model d process (r 1 (n - 2))%Z (r 0 (n - 2))%Z (r 1 (n - 1))%Z (r 0 (n - 1))%Z (r 1 (n - 3))%Z (r 0 (n - 3))%Z corr.
Definition isomt_smooth (d : pdata) (process channel : string) (order : nat) (corr : bool) : result model :=
  n <- isomt_size d channel ;;
  if (n - 2 <? 0)%Z then Raise ValueError else
  let r := isomt_region channel in
  smooth_abcd_model d "pt" process (r 1 (n - 2))%Z (r 0 (n - 2))%Z (r 1 (n - 1))%Z (r 0 (n - 1))%Z order corr.
Definition isomt_smooth_ext (d : pdata) (process channel : string) (order : nat) (init : option (list R)) (corr : bool) : result model :=
  n <- isomt_size d channel ;;
  if (n - 3 <? 0)%Z then Raise ValueError else
  let r := isomt_region channel in
  smooth_ext_model d "pt" process (r 1 (n - 2))%Z (r 0 (n - 2))%Z (r 1 (n - 1))%Z (r 0 (n - 1))%Z (r 1 (n - 3))%Z (r 0 (n - 3))%Z order init corr.

(** ** the saturated fit, bin/rabbit_fit.py:404-440 *)
Definition saturated_setup (d : pdata) (m : model) (mp : list (string * list axis)) : result (model * model) :=
  s <- saturated_model d mp false ;;
  c <- composite [m; s] None ;; Ok (s, c).
(** constraint centres: [x0] those of the fit, [y0] the freshly initialised ones of the composite *)
Definition saturated_centres (m c : model) (x0 y0 : list R) : list R :=
  let y1 := firstn (nparams c) y0 ++ skipn (nparams m) x0 in
  let y2 := splice 0 (firstn (m_npoi m) x0) y1 in
  splice (m_npoi c) (pyslice (m_npoi m) (nparams m) x0) y2.
