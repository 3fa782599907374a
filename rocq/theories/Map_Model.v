(** Mappings: rabbit/mappings/helpers.py, mapping.py, project.py, ratio.py, angular_coefficients.py and
    tfhelpers.segment_sum_along_axis.

    Numbers are reals; a division by zero has no meaning here. Tensors are shapes with index functions. The bounds of
    a slice are natural numbers (negative and complex ones are left out). hist slicing is modelled for bounds within
    the axis, wums rebinHist as: every new edge is close to an old one and they increase, otherwise ValueError.
    tensorflow shape errors are [Raise ValueError]. *)
From Coq Require Import Reals List Arith ZArith Bool String.
From Verif Require Import RBase PyList PyDict Shape.
Import ListNotations.
Local Open Scope nat_scope.

(** ** tensors *)
Record tensor := mkT { t_shape : list nat; t_at : list nat -> R }.
Definition insert_at {A} (k : nat) (v : A) (l : list A) : list A := firstn k l ++ v :: skipn k l.
Definition remove_at {A} (k : nat) (l : list A) : list A := firstn k l ++ skipn (S k) l.
Definition set_at {A} (k : nat) (v : A) (l : list A) : list A := firstn k l ++ v :: skipn (S k) l.
Definition rank (t : tensor) : nat := List.length (t_shape t).
Definition flat (t : tensor) : list R := map (t_at t) (all_idx (t_shape t)).
Definition of_list (l : list R) : tensor := mkT [List.length l] (fun i => nth (hd 0 i) l 0%R).
(** tf.reshape to a known shape *)
Definition reshape_t (t : tensor) (shape : list nat) : result tensor :=
  if Nat.eqb (prodn (t_shape t)) (prodn shape)
  then Ok (mkT shape (fun i => t_at t (nth (ravel shape i) (all_idx (t_shape t)) []))) else Raise ValueError.
(** values[a:b] on the first axis *)
Definition slice0 (a b : nat) (t : tensor) : tensor :=
  match t_shape t with
  | [] => t
  | n :: r => mkT ((Nat.min b n - a) :: r) (fun i => match i with j :: q => t_at t (a + j :: q) | [] => 0%R end)
  end.
(** tf.gather on the last axis *)
Definition gather_last (idxs : list nat) (t : tensor) : tensor :=
  mkT (removelast (t_shape t) ++ [List.length idxs]) (fun i => t_at t (removelast i ++ [nth (last i 0) idxs 0])).
Definition sum_axis (k : nat) (t : tensor) : tensor :=
  mkT (remove_at k (t_shape t)) (fun i => sumR (map (fun j => t_at t (insert_at k j i)) (seq 0 (nth k (t_shape t) 0)))).
(** tf.reduce_sum(axis=ks), ks increasing *)
Definition reduce_sum (ks : list nat) (t : tensor) : tensor := fold_right sum_axis t ks.
Definition total (t : tensor) : R := sumR (flat t).
Definition map_t (f : R -> R) (t : tensor) : tensor := mkT (t_shape t) (fun i => f (t_at t i)).
Definition zip_t (f : R -> R -> R) (a b : tensor) : result tensor :=
  if list_eq_dec Nat.eq_dec (t_shape a) (t_shape b) then Ok (mkT (t_shape a) (fun i => f (t_at a i) (t_at b i))) else Raise ValueError.
(** tf.transpose: entry k of the new index is entry perm[k] of the old one *)
Definition pos_of (j : nat) (perm : list nat) : nat :=
  match find (fun p => Nat.eqb (snd p) j) (combine (seq 0 (List.length perm)) perm) with Some p => fst p | None => 0 end.
Definition is_perm (n : nat) (perm : list nat) : bool :=
  Nat.eqb (List.length perm) n && forallb (fun j => existsb (Nat.eqb j) perm) (seq 0 n).
Definition transpose (perm : list nat) (t : tensor) : result tensor :=
  if is_perm (rank t) perm
  then Ok (mkT (map (fun p => nth p (t_shape t) 0) perm) (fun i => t_at t (map (fun j => nth (pos_of j perm) i 0) (seq 0 (rank t))))) else Raise ValueError.

(** ** tfhelpers.py:105-140 *)
Fixpoint leading (ids : list Z) : nat := match ids with z :: r => if Z.eqb z (-1) then S (leading r) else 0 | [] => 0 end.
Fixpoint sorted_ids (ids : list Z) : bool :=
  match ids with a :: r => (0 <=? a)%Z && match r with b :: _ => (a <=? b)%Z | [] => true end && sorted_ids r | [] => true end.
Definition count_of (ids : list Z) : nat := match rev ids with z :: _ => Z.to_nat (z + 1) | [] => 0 end.
(** tf.math.segment_sum along the first axis: ids sorted and not negative *)
Definition segment_sum (t : tensor) (ids : list Z) : result tensor :=
  match t_shape t with
  | [] => Raise ValueError
  | n :: r =>
    if negb (Nat.eqb n (List.length ids)) then Raise ValueError else
    if negb (sorted_ids ids) then Raise ValueError else
    Ok (mkT (count_of ids :: r) (fun i => match i with
      | s :: q => sumR (map (fun j => t_at t (j :: q)) (filter (fun j => Z.eqb (nth j ids (-1)%Z) (Z.of_nat s)) (seq 0 n)))
      | [] => 0%R end))
  end.
Definition segment_sum_along_axis (x : tensor) (ids : list Z) (k num : nat) : result tensor :=
  let perm := k :: filter (fun i => negb (Nat.eqb i k)) (seq 0 (rank x)) in
  xt <- transpose perm x ;;
  let nl := leading ids in let nt := leading (rev ids) in
  let xs := slice0 nl (hd 0 (t_shape xt) - nt) xt in
  r <- segment_sum xs (pyslice nl (List.length ids - nt) ids) ;;
  if negb (Nat.eqb (hd 0 (t_shape r)) num) then Raise ValueError else
  transpose (map (fun i => pos_of i perm) (seq 0 (List.length perm))) r.

(** ** selections *)
Record haxis := mkHaxis { ha_name : string; ha_size : nat; ha_extent : nat; ha_edges : list R }.
Record cinfo := mkCinfo { ci_start : nat; ci_stop : nat; ci_axes : list haxis; ci_masked : bool; ci_flow : bool }.
(** slice(lo, hi, step), None is the end of the axis; an index *)
Inductive selection := Sl (lo hi step : option nat) | At (i : nat).
Definition sl_lo (o : option nat) : nat := match o with Some v => v | None => 0 end.
Definition sl_hi (n : nat) (o : option nat) : nat := match o with Some v => Nat.min v n | None => n end.
Definition sl_step (o : option nat) : nat := match o with Some v => v | None => 1 end.
(** indices kept by a slice of an array of length n *)
Definition kept_idx (n : nat) (lo hi step : option nat) : list nat :=
  let a := sl_lo lo in let b := sl_hi n hi in let s := sl_step step in
  map (fun k => a + k * s) (seq 0 ((b - a + (s - 1)) / s)).
(** values[tuple of slices and indices] *)
Inductive asel := APos (l : list nat) | AIdx (i : nat).
Fixpoint sel_shape (ss : list asel) (shape : list nat) : list nat :=
  match ss, shape with
  | APos l :: s, _ :: r => List.length l :: sel_shape s r
  | AIdx _ :: s, _ :: r => sel_shape s r
  | _, r => r
  end.
Fixpoint sel_idx (ss : list asel) (i : list nat) : list nat :=
  match ss, i with
  | APos l :: s, j :: r => nth j l 0 :: sel_idx s r
  | AIdx k :: s, r => k :: sel_idx s r
  | _, r => r
  end.
Definition asel_ok (p : asel * nat) : bool := match fst p with AIdx i => Nat.ltb i (snd p) | APos _ => true end.
Definition select_t (ss : list asel) (t : tensor) : result tensor :=
  if Nat.ltb (rank t) (List.length ss) then Raise ValueError else
  if forallb asel_ok (combine ss (t_shape t))
  then Ok (mkT (sel_shape ss (t_shape t)) (fun i => t_at t (sel_idx ss i))) else Raise IndexError.
Definition to_asel (n : nat) (s : selection) : asel := match s with Sl lo hi st => APos (kept_idx n lo hi st) | At i => AIdx i end.

(** the axis of the dummy histogram after the selection: a step merges bins *)
Fixpoint every {A} (n : nat) (s : nat) (l : list A) : list A :=
  match n with O => [] | S n' => match l with [] => [] | x :: _ => x :: every n' s (skipn s l) end end.
Definition slice_axis (a : haxis) (lo hi step : option nat) : haxis :=
  let b := sl_lo lo in let e := sl_hi (ha_size a) hi in let s := sl_step step in
  let n := (e - b) / s in
  mkHaxis (ha_name a) n (n + (ha_extent a - ha_size a)) (every (S n) s (skipn b (ha_edges a))).
Definition sel_axes (sel : list (string * selection)) (axes : list haxis) : list haxis :=
  flat_map (fun a => match dget (ha_name a) sel with
                     | None => [a] | Some (At _) => [] | Some (Sl lo hi st) => [slice_axis a lo hi st] end) axes.

(** np.isclose *)
Definition isclose (v x : R) : bool := Rleb (Rabs (v - x)) (/ 100000000 + / 100000 * Rabs x).
Fixpoint increasing (l : list R) : bool :=
  match l with a :: r => match r with b :: _ => Rltb a b | [] => true end && increasing r | [] => true end.
Definition rebin_ok (old new : list R) : bool :=
  forallb (fun x => existsb (fun e => isclose x e) old) new && increasing new && Nat.leb 2 (List.length new).
(** helpers.py:152-165 *)
Fixpoint seg_loop (new old : list R) (segment : Z) : list Z :=
  match old with
  | [] => []
  | v :: r => let s := if existsb (isclose v) new then (segment + 1)%Z else segment in s :: seg_loop new r s
  end.
Definition segments (new old : list R) : list Z :=
  let ids := seg_loop new (removelast old) (-1)%Z in
  let s := last ids (-1)%Z in
  if negb (isclose (last new 0%R) (last old 0%R)) then map (fun z => if Z.eqb z s then (-1)%Z else z) ids else ids.
Definition zmax (l : list Z) : Z := fold_right Z.max (-1)%Z l.
Fixpoint rebin_loop (rebin : list (string * list R)) (axes : list haxis) : result (list haxis * list (nat * (list Z * nat))) :=
  match rebin with
  | [] => Ok (axes, [])
  | (n, new) :: r =>
    match index_of n (map ha_name axes) with
    | None => Raise KeyError
    | Some k =>
      let a := nth k axes (mkHaxis n 0 0 []) in
      if negb (rebin_ok (ha_edges a) new) then Raise ValueError else
      let ids := segments new (ha_edges a) in
      let m := List.length new - 1 in
      rest <- rebin_loop r (set_at k (mkHaxis n m (m + (ha_extent a - ha_size a)) new) axes) ;;
      Ok (fst rest, (k, (ids, Z.to_nat (zmax ids + 1))) :: snd rest)
    end
  end.

(** helpers.py:84-173 *)
Record term := mkTerm { tm_start : nat; tm_stop : nat; tm_shape : list nat; tm_has_data : bool; tm_procs : list nat;
  tm_sel : list asel; tm_seg : list (nat * (list Z * nat)); tm_sum : list nat; tm_axes : list haxis }.
Definition chan_shape (c : cinfo) : list nat := map (fun a => if ci_flow c then ha_extent a else ha_size a) (ci_axes c).
Definition proc_positions (procs sel : list string) : list nat :=
  map fst (filter (fun p => smem (snd p) sel) (combine (seq 0 (List.length procs)) procs)).
Definition term_init (procs : list string) (c : cinfo) (sp : list string) (sel : list (string * selection))
  (rebin : list (string * list R)) (sums : list string) : result term :=
  let names := map ha_name (ci_axes c) in
  if negb (forallb (fun p => smem p procs) sp) then Raise RuntimeError else
  if negb (forallb (fun k => smem (fst k) names) sel) then Raise RuntimeError else
  let ss := map (fun p => match dget (ha_name (fst p)) sel with Some s => to_asel (snd p) s | None => APos (seq 0 (snd p)) end)
                (combine (ci_axes c) (chan_shape c)) in
  rb <- rebin_loop rebin (sel_axes sel (ci_axes c)) ;;
  let h := fst rb in
  Ok (mkTerm (ci_start c) (ci_stop c) (chan_shape c) (negb (ci_masked c) && Nat.eqb (List.length sp) 0) (proc_positions procs sp) ss (snd rb)
        (map fst (filter (fun p => smem (ha_name (snd p)) sums) (combine (seq 0 (List.length h)) h)))
        (filter (fun a => negb (smem (ha_name a) sums)) h)).
Fixpoint seg_steps (l : list (nat * (list Z * nat))) (t : tensor) : result tensor :=
  match l with [] => Ok t | (k, (ids, n)) :: r => t' <- segment_sum_along_axis t ids k n ;; seg_steps r t' end.
(** helpers.py:175-203 *)
Definition term_select (tm : term) (normalize inclusive : bool) (obs : tensor) : result tensor :=
  let v := slice0 (tm_start tm) (tm_stop tm) obs in
  v1 <- (if Nat.eqb (rank v) 1 then reshape_t v (tm_shape tm)
         else let g := match tm_procs tm with [] => v | idxs => gather_last idxs v end in
              g' <- reshape_t g (tm_shape tm ++ [nth 1 (t_shape g) 0]) ;;
              Ok (if inclusive then sum_axis (List.length (tm_shape tm)) g' else g')) ;;
  v2 <- select_t (tm_sel tm) v1 ;;
  v3 <- seg_steps (tm_seg tm) v2 ;;
  let v4 := reduce_sum (tm_sum tm) v3 in
  Ok (if normalize then map_t (fun x => x / total v4)%R v4 else v4).

(** ** mappings: what they compute from the observables *)
Record mapping := mkMap { mp_axes : list haxis; mp_needs_procs : bool; mp_has_data : bool; mp_flat : tensor -> result (list R) }.
Definition out_flat (r : result tensor) : result (list R) := t <- r ;; Ok (flat t).
(** mapping.py:146-202, 218-257 *)
Definition channel_mapping (c : cinfo) (tm : term) (f : tensor -> result tensor) : mapping :=
  mkMap (tm_axes tm) false (negb (ci_masked c)) (fun obs => out_flat (v <- term_select tm false true obs ;; f v)).
Definition select_mapping (procs : list string) (c : cinfo) (sp : list string) sel rebin sums : result mapping :=
  tm <- term_init procs c sp sel rebin sums ;; Ok (channel_mapping c tm (fun v => Ok v)).
(** per process: the last axis of the result *)
Definition select_per_process (tm : term) (obs : tensor) : result tensor := term_select tm false false obs.
(** mapping.py:170-177: names of the columns of the histogram per process *)
Definition select_columns (procs sp : list string) : list string := match sp with [] => procs | _ => sp end.
(** project.py:20-66 *)
Definition dropped (axes : list haxis) (keep : list string) : list nat :=
  map fst (filter (fun p => negb (smem (ha_name (snd p)) keep)) (combine (seq 0 (List.length axes)) axes)).
Definition project_perm (axes : list haxis) (keep : list string) : list nat :=
  map (fun n => match index_of n (filter (fun m => smem m keep) (map ha_name axes)) with Some i => i | None => 0 end) keep.
Definition project_t (axes : list haxis) (keep : list string) (v : tensor) : result tensor :=
  let e := reduce_sum (dropped axes keep) v in
  let perm := project_perm axes keep in
  transpose (if Nat.ltb (List.length perm) (rank e) then perm ++ seq (List.length perm) (rank e - List.length perm) else perm) e.
Definition normalize_t (axes : list haxis) (keep : list string) (v : tensor) : result tensor :=
  project_t axes keep (map_t (fun x => x / total v)%R v).
Definition pick_axes (axes : list haxis) (keep : list string) : list haxis :=
  flat_map (fun n => match find (fun a => String.eqb (ha_name a) n) axes with Some a => [a] | None => [] end) keep.
Definition project_mapping (procs : list string) (c : cinfo) (keep : list string) (norm : bool) : result mapping :=
  tm <- term_init procs c [] [] [] [] ;;
  if negb (forallb (fun n => smem n (map ha_name (ci_axes c))) keep) then Raise RuntimeError else
  Ok (mkMap (pick_axes (ci_axes c) keep) false (negb (ci_masked c))
        (fun obs => out_flat (v <- term_select tm false true obs ;; (if norm then normalize_t else project_t) (ci_axes c) keep v))).
Definition project_per_process (procs : list string) (c : cinfo) (keep : list string) (norm : bool) (obs : tensor) : result tensor :=
  tm <- term_init procs c [] [] [] [] ;;
  v <- term_select tm false false obs ;; (if norm then normalize_t else project_t) (ci_axes c) keep v.

(** ratio.py *)
Inductive ratio_kind := KRatio | KNormratio | KAsymmetry | KDifference.
Definition ratio_compute (k : ratio_kind) (num den : term) (obs : tensor) : result (list R) :=
  let n := match k with KNormratio | KDifference => true | _ => false end in
  a <- term_select num n true obs ;; b <- term_select den n true obs ;;
  out_flat (zip_t (match k with
    | KRatio | KNormratio => fun x y => (x / y)%R
    | KAsymmetry => fun x y => ((x - y) / (x + y))%R
    | KDifference => fun x y => (x - y)%R end) a b).
Definition ratio_mapping (k : ratio_kind) (procs : list string) (cn cd : cinfo) (spn spd : list string) seln seld rbn rbd sn sd : result mapping :=
  num <- term_init procs cn spn seln rbn sn ;; den <- term_init procs cd spd seld rbd sd ;;
  if negb (if list_eq_dec Nat.eq_dec (map ha_size (tm_axes num)) (map ha_size (tm_axes den)) then true else false) then Raise RuntimeError else
  Ok (mkMap (tm_axes num) (negb (Nat.eqb (List.length spn) 0) || negb (Nat.eqb (List.length spd) 0)) (tm_has_data num && tm_has_data den)
        (ratio_compute k num den)).

(** angular_coefficients.py:30-165; {axis: s, **selection}: an entry of the user replaces the first *)
Definition with_default (k : string) (s : selection) (sel : list (string * selection)) : list (string * selection) :=
  match dget k sel with
  | Some s' => (k, s') :: filter (fun p => negb (String.eqb (fst p) k)) sel
  | None => (k, s) :: sel
  end.
Definition helicity_axis (axes : list haxis) : result string :=
  let names := map ha_name axes in
  if smem "helicitySig"%string names then Ok "helicitySig"%string else if smem "helicity"%string names then Ok "helicity"%string else Raise RuntimeError.
Definition expand_dims (k : nat) (t : tensor) : tensor := mkT (insert_at k 1 (t_shape t)) (fun i => t_at t (remove_at k i)).
(** broadcasting: shapes aligned at the end, axes of size one repeated *)
Definition pad (n : nat) (s : list nat) : list nat := repeat 1 (n - List.length s) ++ s.
Definition bcast_shape (a b : list nat) : result (list nat) :=
  let n := Nat.max (List.length a) (List.length b) in
  let ps := combine (pad n a) (pad n b) in
  if forallb (fun p => Nat.eqb (fst p) (snd p) || Nat.eqb (fst p) 1 || Nat.eqb (snd p) 1) ps
  then Ok (map (fun p => if Nat.eqb (fst p) 1 then snd p else fst p) ps) else Raise ValueError.
Definition stretch (s i : list nat) : list nat := map (fun p => if Nat.eqb (fst p) 1 then 0 else snd p) (combine s (skipn (List.length i - List.length s) i)).
Definition div_t (a b : tensor) : result tensor :=
  s <- bcast_shape (t_shape a) (t_shape b) ;; Ok (mkT s (fun i => t_at a (stretch (t_shape a) i) / t_at b (stretch (t_shape b) i))%R).
Definition div_along (k : nat) (num den : tensor) : result tensor := div_t num (expand_dims k den).
Definition angular_terms (procs : list string) (c : cinfo) (sp : list string) sel rebin sums : result (term * term * nat) :=
  h <- helicity_axis (ci_axes c) ;;
  num <- term_init procs c sp (with_default h (Sl (Some 1) None None) sel) rebin sums ;;
  den <- term_init procs c sp (with_default h (At 0) sel) rebin sums ;;
  match index_of h (map ha_name (tm_axes num)) with None => Raise IndexError | Some k => Ok (num, den, k) end.
Definition angular_compute (tk : term * term * nat) (obs : tensor) : result tensor :=
  a <- term_select (fst (fst tk)) false true obs ;; b <- term_select (snd (fst tk)) false true obs ;; div_along (snd tk) a b.
Definition index_axis (k j : nat) (t : tensor) : result tensor :=
  if Nat.ltb j (nth k (t_shape t) 0) then Ok (mkT (remove_at k (t_shape t)) (fun i => t_at t (insert_at k j i))) else Raise IndexError.
Definition lamtung_compute (tk : term * term * nat) (obs : tensor) : result tensor :=
  a <- angular_compute tk obs ;; a0 <- index_axis (snd tk) 0 a ;; a2 <- index_axis (snd tk) 2 a ;; zip_t (fun x y => (x - y)%R) a0 a2.

(** mapping.py:85-141; the variable holding the observables is overwritten in the loop *)
Fixpoint composite_loop (needs : bool) (ms : list mapping) (obs : tensor) : result (list R) :=
  match ms with
  | [] => Ok []
  | m :: r =>
    obs' <- (if needs && negb (mp_needs_procs m) then if Nat.ltb 1 (rank obs) then Ok (sum_axis 1 obs) else Raise ValueError else Ok obs) ;;
    x <- mp_flat m obs' ;; rest <- composite_loop needs r obs' ;; Ok (x ++ rest)
  end.
Definition composite_mapping (ms : list mapping) : mapping :=
  let needs := existsb mp_needs_procs ms in
  mkMap (flat_map mp_axes ms) needs (forallb mp_has_data ms) (composite_loop needs ms).
(** fitter.py:1417-1430: the observables a mapping is given *)
Definition evaluate (m : mapping) (yields : tensor) : result (list R) :=
  mp_flat m (if mp_needs_procs m then yields else sum_axis 1 yields).

(** mapping.py:50-82: covariance of the mapped data from the jacobian of the mapping *)
Definition data_cov (jac : nat -> nat -> R) (var : list R) (i k : nat) : R :=
  sumR (map (fun j => jac i j * nth j var 0 * jac k j)%R (seq 0 (List.length var))).
