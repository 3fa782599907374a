(** Model of the likelihood scans: rabbit/fitter.py:2383-2502 (nll_scan, nll_scan2D), over the
    reals. [fit k x fz] is the parameter vector the k-th inner call of Fitter.fit leaves in
    self.x when started at [x] with frozen state [fz]: an arbitrary function, since fit()
    catches every exception of the minimiser. [nll] is reduced_nll. numpy.linspace is exact.
    Arrays initialised with NaN have entries [Unset]. *)
From Coq Require Import List Arith Bool String ZArith Reals.
From Verif Require Import PyList PyDict Freeze_Model.
Import ListNotations.
Local Open Scope R_scope.

Inductive entry := Unset | Val (v : R).
Definition setn {A} (i : nat) (v : A) (l : list A) : list A := firstn i l ++ v :: skipn (S i) l.
Definition linspace (a b : R) (n : nat) : list R :=
  map (fun i => a + INR i * ((b - a) / INR (n - 1))) (seq 0 n).

Record scan_st := mkSc { sc_x : list R; sc_fz : freeze_st; sc_calls : nat }.

Section Scan.
  Variables (rx : regex) (parms : list string).
  Variable fit : nat -> list R -> freeze_st -> list R.
  Variable nll : list R -> R.

  (** fitter.py:2413-2425: one side of the scan; [pos i], [val i] for the i-th offset *)
  Fixpoint side_loop (idx : nat) (best : R) (pos : nat -> nat) (val : nat -> R) (is : list nat)
      (st : scan_st) (vals : list R) (dn : list entry) : scan_st * list R * list entry :=
    match is with
    | [] => (st, vals, dn)
    | i :: r =>
      let x1 := setn idx (val i) (sc_x st) in
      let x2 := fit (sc_calls st) x1 (sc_fz st) in
      side_loop idx best pos val r (mkSc x2 (sc_fz st) (S (sc_calls st)))
        (setn (pos i) (val i) vals) (setn (pos i) (Val (nll x2 - best)) dn)
    end.

  (** fitter.py:2383-2430; [sigma] = sqrt(cov[idx,idx]), or 1 for use_prefit *)
  Definition nll_scan (param : string) (range : R) (points : nat) (sigma : R) (st : scan_st)
    : result (scan_st * list R * list entry) :=
    fz1 <- freeze_params rx parms (sc_fz st) [param] ;;
    match index_of param parms with
    | None => Raise IndexError
    | Some idx =>
      let x := sc_x st in
      let offsets := map (fun o => o * sigma) (linspace 0 range (points / 2 + 1)) in
      let nscans := (2 * List.length offsets - 1)%nat in
      let c := (nscans / 2)%nat in
      let best := nll x in
      let x0 := nth idx x 0 in
      let dn0 := setn c (Val 0) (repeat Unset nscans) in
      let v0 := setn c x0 (repeat 0 nscans) in
      let is := seq 1 (List.length offsets - 1) in
      let st0 := mkSc x fz1 (sc_calls st) in
      let '(st1, v1, dn1) := side_loop idx best (fun i => c - i)%nat (fun i => x0 + -1 * nth i offsets 0) is st0 v0 dn0 in
      let st1 := mkSc x fz1 (sc_calls st1) in
      let '(st2, v2, dn2) := side_loop idx best (fun i => c + i)%nat (fun i => x0 + 1 * nth i offsets 0) is st1 v1 dn1 in
      fz2 <- defreeze_params rx parms fz1 [param] ;;
      Ok (mkSc x fz2 (sc_calls st2), v2, dn2)
    end.

  (** *** spiral: fitter.py:2450-2481 *)
  Record spiral := mkSpi { s_i : Z; s_j : Z; s_drow : Z; s_dcol : Z; s_r : Z }.
  Definition spiral0 : spiral := mkSpi 0 0 0 (-1) 1.
  Definition spiral_step (s : spiral) : spiral :=
    let '(mkSpi i j drow dcol r) := s in
    let '(drow, dcol) := if (Z.eqb i r && Z.eqb drow 1)%bool then (0%Z, 1%Z) else (drow, dcol) in
    let '(drow, dcol) :=
      if (Z.eqb j r && Z.eqb dcol 1)%bool then ((-1)%Z, 0%Z)
      else if (Z.eqb i (- r) && Z.eqb drow (-1))%bool then (0%Z, (-1)%Z)
      else if (Z.eqb j (- r) && Z.eqb dcol (-1))%bool then (1%Z, 0%Z)
      else (drow, dcol) in
    let i := (i + drow)%Z in
    let j := (j + dcol)%Z in
    let r := if (Z.eqb i (- r) && Z.eqb j (- r))%bool then (r + 1)%Z else r in
    mkSpi i j drow dcol r.
  (** while r - 1 < best_fit; [None]: not finished within [fuel] iterations *)
  Fixpoint spiral_loop {S} (body : Z -> Z -> S -> result S) (bf : Z) (fuel : nat) (s : spiral) (st : S)
    : option (result S) :=
    match fuel with
    | O => None
    | Datatypes.S fuel =>
      if Z.ltb (s_r s - 1) bf then
        let s' := spiral_step s in
        match body (bf - s_i s')%Z (bf + s_j s')%Z st with
        | Ok st' => spiral_loop body bf fuel s' st'
        | Raise e => Some (Raise e)
        end
      else Some (Ok st)
    end.
  (** python index of an axis of length n *)
  Definition pyidx (n : nat) (z : Z) : option nat :=
    let z' := if Z.ltb z 0 then (z + Z.of_nat n)%Z else z in
    if (Z.leb 0 z' && Z.ltb z' (Z.of_nat n))%bool then Some (Z.to_nat z') else None.

  Definition grid := nat -> nat -> entry.
  Definition gset (g : grid) (a b : nat) (v : entry) : grid :=
    fun x y => if (Nat.eqb x a && Nat.eqb y b)%bool then v else g x y.
  (** fitter.py:2483-2495 *)
  Definition cell_body (idx0 idx1 : nat) (best : R) (xs ys : list R) (ix iy : Z) (sg : scan_st * grid)
    : result (scan_st * grid) :=
    let '(st, g) := sg in
    match pyidx (List.length xs) ix, pyidx (List.length ys) iy with
    | Some a, Some b =>
      let x1 := setn idx1 (nth b ys 0) (setn idx0 (nth a xs 0) (sc_x st)) in
      let x2 := fit (sc_calls st) x1 (sc_fz st) in
      Ok (mkSc x2 (sc_fz st) (S (sc_calls st)), gset g a b (Val (nll x2 - best)))
    | _, _ => Raise IndexError
    end.
  (** fitter.py:2432-2502; [sig0], [sig1] the two uncertainties, [prefit] use_prefit *)
  Definition nll_scan2D (p0 p1 : string) (range : R) (points : nat) (prefit : bool) (sig0 sig1 : R)
      (fuel : nat) (st : scan_st) : option (result (scan_st * list R * list R * grid)) :=
    match freeze_params rx parms (sc_fz st) [p0; p1] with
    | Raise e => Some (Raise e)
    | Ok fz1 =>
      match index_of p0 parms, index_of p1 parms with
      | Some idx0, Some idx1 =>
        let x := sc_x st in
        let dsigs := linspace (- range) range points in
        let xs := if prefit then dsigs else map (fun d => nth idx0 x 0 + d * sig0) dsigs in
        let ys := if prefit then dsigs else map (fun d => nth idx1 x 0 + d * sig1) dsigs in
        let bf := (Z.of_nat ((points + 1) / 2) - 1)%Z in
        let best := nll x in
        match pyidx (List.length xs) bf with
        | None => Some (Raise IndexError)
        | Some c =>
          match spiral_loop (cell_body idx0 idx1 best xs ys) bf fuel spiral0
                  (mkSc x fz1 (sc_calls st), gset (fun _ _ => Unset) c c (Val 0)) with
          | None => None
          | Some (Raise e) => Some (Raise e)
          | Some (Ok (st1, g)) =>
            match defreeze_params rx parms fz1 [p0; p1] with
            | Raise e => Some (Raise e)
            | Ok fz2 => Some (Ok (mkSc x fz2 (sc_calls st1), xs, ys, g))
            end
          end
        end
      | _, _ => Some (Raise IndexError)
      end
    end.
End Scan.
