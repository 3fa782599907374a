(** What the parameter models should do, said without the helper functions of the models. *)
From Coq Require Import Reals List Arith ZArith Bool String.
From Verif Require Import RBase PyList PyDict Shape Writer_Model Yields_Model Param_Model.
Import ListNotations.
Open Scope R_scope.

(** ** composite models *)
(** one line per parameter: is it a POI, name, default, prior width and mean *)
Definition row := (bool * (string * (R * option (R * R))))%type.
Definition flag (r : row) : bool := fst r.
Definition vflag (r : row * R) : bool := flag (fst r).
Definition prior_col (m : model) : list (option (R * R)) :=
  match m_sigmas m with
  | None => map (fun _ => None) (m_params m)
  | Some s => map (fun p => match fst p with None => None | Some v => Some (v, snd p) end)
                  (combine s (match m_means m with Some l => l | None => m_default m end))
  end.
Definition is_poi (m : model) : list bool := map (fun i => Nat.ltb i (m_npoi m)) (seq 0 (nparams m)).
Definition table (m : model) : list row := combine (is_poi m) (combine (m_params m) (combine (m_default m) (prior_col m))).
(** as many names, defaults and priors as parameters *)
Definition sized_model (m : model) : Prop :=
  List.length (m_params m) = nparams m /\ List.length (m_default m) = nparams m /\
  (forall s, m_sigmas m = Some s -> List.length s = nparams m) /\ (forall s, m_means m = Some s -> List.length s = nparams m).
(** [c] is made of the models [ls], in any nesting *)
Inductive built : model -> list model -> Prop :=
| built_leaf m : built m [m]
| built_comp ms an c ls : builts ms ls -> composite ms an = Ok c -> built c ls
with builts : list model -> list model -> Prop :=
| builts_nil : builts [] []
| builts_cons m l ms ls : built m l -> builts ms ls -> builts (m :: ms) (l ++ ls).
(** rows of several models together with a value per row, POIs first *)
Definition joined (l : list (list (row * R))) : list (row * R) :=
  flat_map (filter vflag) l ++ flat_map (filter (fun r => negb (vflag r))) l.
Definition joined_rows (l : list (list row)) : list row :=
  flat_map (filter flag) l ++ flat_map (filter (fun r => negb (flag r))) l.
(** [r] is the product of [rs] on the first [n] bins *)
Definition prodR (l : list R) : R := fold_right Rmult 1 l.
Definition product_of (n : nat) (rs : list rnorm) (r : rnorm) : Prop :=
  rn_fits r n = true /\ forall b p, (b < n)%nat -> rn_bcast r b p = prodR (map (fun q => rn_bcast q b p) rs).
(** the scale factors along a line in parameter space lie on a line *)
Definition along (x y : list R) (t : R) : list R := map (fun p => fst p + t * (snd p - fst p)) (combine x y).
Definition affine_model (n : nat) (m : model) (full : bool) : Prop :=
  forall x y t, List.length x = nparams m -> List.length y = nparams m -> forall rx ry rt,
  m_compute m x full = Ok rx -> m_compute m y full = Ok ry -> m_compute m (along x y t) full = Ok rt ->
  rn_fits rx n = true -> rn_fits ry n = true -> rn_fits rt n = true ->
  forall b p, (b < n)%nat -> rn_bcast rt b p = rn_bcast rx b p + t * (rn_bcast ry b p - rn_bcast rx b p).
(** all parameters listed for a group by any of the models *)
Definition group_members (q : string) (ms : list model) : list string :=
  flat_map (fun m => flat_map (fun g => if String.eqb (fst g) q then snd g else []) (m_groups m)) ms.

(** ** mixtures *)
Inductive subseq {A} : list A -> list A -> Prop :=
| ss_nil l : subseq [] l
| ss_take x a b : subseq a b -> subseq (x :: a) (x :: b)
| ss_skip x a b : subseq a b -> subseq a (x :: b).
(** the k-th parameter scales the k-th first process by v and its partner by 1 - v, everything else is left alone *)
Definition mixes (d : pdata) (ps cs : list string) (x : list R) (r : rnorm) : Prop :=
  (forall k p c v i j, nth_error ps k = Some p -> nth_error cs k = Some c -> nth_error x k = Some v ->
     nth_error (pd_procs d) i = Some p -> nth_error (pd_procs d) j = Some c -> forall b, rn_bcast r b i = v /\ rn_bcast r b j = 1 - v) /\
  (forall i p, nth_error (pd_procs d) i = Some p -> ~ In p ps -> ~ In p cs -> forall b, rn_bcast r b i = 1).

(** ** bins *)
(** text of a bin: names of the axes with the indices, joined by underscores *)
Definition label (names : list string) (cell : list nat) : string :=
  String.concat "_" (map (fun p => (fst p ++ nat_str (snd p))%string) (combine names cell)).
(** index on the axis of a given name *)
Definition coord (axes : list axis) (idx : list nat) (n : string) : nat :=
  match find (fun ai => String.eqb (ax_name (fst ai)) n) (combine axes idx) with Some ai => snd ai | None => O end.
Definition shape_of (c : chan) : list nat := map ax_size (cn_axes c).
(** channels follow one another, masked ones last; no bins outside the axes (no flow) *)
Fixpoint laid_out (start : nat) (chs : list (string * chan)) : Prop :=
  match chs with [] => True | (_, c) :: r => cn_start c = start /\ laid_out (start + prodn (shape_of c)) r end.
Definition total (chs : list (string * chan)) : nat := sumn (map (fun kc => prodn (shape_of (snd kc))) chs).
Definition layout (d : pdata) : Prop :=
  NoDup (map fst (pd_channels d)) /\ laid_out 0 (pd_channels d) /\ total (pd_channels d) = pd_nbinsfull d /\
  exists u m, pd_channels d = u ++ m /\ Forall (fun kc => cn_masked (snd kc) = false) u /\ Forall (fun kc => cn_masked (snd kc) = true) m /\ total u = pd_nbins d.
Definition nrows (d : pdata) (full : bool) : nat := if full then pd_nbinsfull d else pd_nbins d.
(** the scale factors of a model: [f k c idx p] for the bin idx of the channel k and the process p *)
Definition scales (d : pdata) (full : bool) (r : rnorm) (f : string -> chan -> list nat -> string -> R) : Prop :=
  rn_fits r (nrows d full) = true /\
  forall k c idx j p, In (k, c) (pd_channels d) -> full = true \/ cn_masked c = false -> in_shape (shape_of c) idx ->
    nth_error (pd_procs d) j = Some p -> rn_bcast r (cn_start c + ravel (shape_of c) idx) j = f k c idx p.
(** axes of a channel are told apart by name *)
Definition named_axes (c : chan) : Prop := NoDup (map ax_name (cn_axes c)).

(** ** regions *)
(** the axes a region leaves free, and the position of a bin on them *)
Definition free_axes (c : chan) (r : region) : list axis := filter (fun a => negb (smem (ax_name a) (map fst (rg_sel r)))) (cn_axes c).
Definition on_free (c : chan) (r : region) (idx : list nat) : list nat :=
  map snd (filter (fun ai : axis * nat => negb (smem (ax_name (fst ai)) (map fst (rg_sel r)))) (combine (cn_axes c) idx)).
(** [idx] has the selected index on every selected axis; negative ones count from the end *)
Definition selected (c : chan) (r : region) (idx : list nat) : Prop :=
  forall n z, In (n, z) (rg_sel r) -> exists i a, nth_error (cn_axes c) i = Some a /\ ax_name a = n /\
    Z.of_nat (nth i idx O) = (if z <? 0 then z + Z.of_nat (ax_size a) else z)%Z.
(** [b] is the bin of the region at the position [cell] of its free axes *)
Definition in_region (d : pdata) (r : region) (b : nat) (cell : list nat) : Prop :=
  exists c idx, dget (rg_chan r) (pd_channels d) = Some c /\ in_shape (shape_of c) idx /\ selected c r idx /\
    cell = on_free c r idx /\ b = (cn_start c + ravel (shape_of c) idx)%nat.
(** a selection is a dictionary, axes have different names *)
Definition region_ok (d : pdata) (r : region) : Prop :=
  NoDup (map fst (rg_sel r)) /\ forall c, dget (rg_chan r) (pd_channels d) = Some c -> named_axes c.
Definition free_shape (d : pdata) (r : region) : list nat :=
  match dget (rg_chan r) (pd_channels d) with Some c => map ax_size (free_axes c r) | None => [] end.
(** regions as relations between bins and places: no bin in two of them, and the scale factors of the bins *)
Definition disjoint {L} (rs : list (nat -> L -> Prop)) : Prop :=
  forall i j r r' b l l', nth_error rs i = Some r -> nth_error rs j = Some r' -> r b l -> r' b l' -> i = j.
Definition scaled_in {L} (d : pdata) (process : string) (full : bool) (rs : list ((nat -> L -> Prop) * (L -> R))) (r : rnorm) : Prop :=
  rn_fits r (nrows d full) = true /\
  forall j p b, nth_error (pd_procs d) j = Some p -> (b < nrows d full)%nat ->
    (p <> process -> rn_bcast r b j = 1) /\
    (p = process -> ((forall reg f l, In (reg, f) rs -> ~ reg b l) -> rn_bcast r b j = 1) /\
                    (forall reg f l, In (reg, f) rs -> reg b l -> rn_bcast r b j = f l)).
(** the same for a region smoothed along one of its free axes: the place is that on the other free axes and that on the smoothed one *)
Definition on_outer (c : chan) (r : region) (ax : string) (idx : list nat) : list nat :=
  map snd (filter (fun ai : axis * nat => negb (smem (ax_name (fst ai)) (map fst (rg_sel r))) && negb (String.eqb (ax_name (fst ai)) ax)) (combine (cn_axes c) idx)).
Definition in_smooth (d : pdata) (ax : string) (r : region) (b : nat) (l : list nat * nat) : Prop :=
  exists c idx i a, dget (rg_chan r) (pd_channels d) = Some c /\ in_shape (shape_of c) idx /\ selected c r idx /\
    nth_error (cn_axes c) i = Some a /\ ax_name a = ax /\ l = (on_outer c r ax idx, nth i idx O) /\ b = (cn_start c + ravel (shape_of c) idx)%nat.
Definition outer_shape (d : pdata) (ax : string) (r : region) : list nat :=
  match dget (rg_chan r) (pd_channels d) with
  | Some c => map ax_size (filter (fun a => negb (smem (ax_name a) (map fst (rg_sel r))) && negb (String.eqb (ax_name a) ax)) (cn_axes c))
  | None => []
  end.
(** scale factors a, b, c, ... and templates Na, Nb, ...: the prediction of D from those of the other regions. With the
    correction it is the yields that are related, without it the scale factors. *)
Definition abcd_relation (corr : bool) (a b c d Na Nb Nc Nd : R) : Prop :=
  b <> 0 -> if corr then Nb <> 0 -> Nd <> 0 -> (d * Nd) * (b * Nb) = (a * Na) * (c * Nc) else d * b = a * c.
Definition ext_relation (corr : bool) (a b c d ax bx Na Nb Nc Nd Nax Nbx : R) : Prop :=
  a <> 0 -> bx <> 0 ->
  if corr then Na <> 0 -> Nbx <> 0 -> Nd <> 0 -> (d * Nd) * (bx * Nbx) * (a * Na)² = (c * Nc) * (ax * Nax) * (b * Nb)²
  else d * bx * a² = c * ax * b².
(** Chebyshev polynomials; position of a bin centre between the first and the last edge, from -1 to 1 *)
Fixpoint chebyshev (k : nat) (u : R) : R :=
  match k with O => 1 | S k' => match k' with O => u | S k'' => 2 * u * chebyshev k' u - chebyshev k'' u end end.
Definition centred (a : axis) (s : nat) : R :=
  let lo := hd 0 (ax_edges a) in let hi := last (ax_edges a) 0 in 2 * ((nth s (ax_centers a) 0 - lo) / (hi - lo)) - 1.
Definition smooth_axis (d : pdata) (ax : string) (r : region) (a : axis) : Prop :=
  exists c, dget (rg_chan r) (pd_channels d) = Some c /\ In a (cn_axes c) /\ ax_name a = ax /\ hd 0 (ax_edges a) < last (ax_edges a) 0.
(** exponential of a polynomial of the given degree with coefficients [x] from position [p] on *)
Definition exp_poly (order p : nat) (x : list R) (u : R) : R := exp (sumR (map (fun j => nth (p + j) x 0 * chebyshev j u) (seq 0 (order + 1)))).
