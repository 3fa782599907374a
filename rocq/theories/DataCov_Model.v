(** The covariance of the data written by TensorWriter: rabbit/tensorwriter.py:179-180 (add_data_covariance), 315-386
    (_compute_asym_syst), 1118-1262 (add_systematic with add_to_data_covariance), 1583-1635 (book_logk, book_systematic),
    1640-1675 (bins, sumw2 and data_var), 1690-1720 and 1881-1882 (size of the sparse tensor), 1995-1999 and 2088-2124 (covariance).

    Values are real numbers. A channel is a name with its number of bins, whether it is masked, the variances of its data and its
    processes; a process has its nominal yields, the sum of squared weights and dict_logkavg. Nominal yields are dense here also in
    sparse mode, where only non-zero ones are stored: the stored values of a variation are the same. The attribute data_covariance is
    a square matrix with its size. Order and repetition of the names in the set systscovariance do not matter below. *)
From Coq Require Import Reals List Arith Bool String.
From Verif Require Import RBase PyList PyDict Mat_Model Impacts_Model.
Import ListNotations.
Open Scope R_scope.

Record pentry := mkP { pe_norm : list R; pe_sumw2 : list R; pe_logk : dict (list R) }.
Record chan := mkC { ch_n : nat; ch_masked : bool; ch_var : list R; ch_procs : dict pentry }.
Record cwriter := mkW { cw_sparse : bool; cw_bbb : bool; cw_procs : list string; cw_chans : dict chan; cw_systs : list string; cw_covsysts : list string;
  cw_cov : option (nat * (nat -> nat -> R)) }.

Fixpoint map2 {A B C} (f : A -> B -> C) (l : list A) (m : list B) : list C :=
  match l, m with a :: l', b :: m' => f a b :: map2 f l' m' | _, _ => [] end.

(** ** booking *)
Definition set_entry (w : cwriter) (c p : string) (f : pentry -> pentry) : result cwriter :=
  match dget c (cw_chans w) with
  | None => Raise KeyError
  | Some ch => match dget p (ch_procs ch) with
               | None => Raise KeyError
               | Some e => Ok (mkW (cw_sparse w) (cw_bbb w) (cw_procs w)
                             (dset c (mkC (ch_n ch) (ch_masked ch) (ch_var ch) (dset p (f e) (ch_procs ch))) (cw_chans w))
                             (cw_systs w) (cw_covsysts w) (cw_cov w))
               end
  end.
(** 1583-1602: zero where the nominal is; the sparse mode keeps the values different from zero (their positions in another dictionary) *)
Definition stored (sparse : bool) (norm k : list R) : list R :=
  let z := map2 (fun n x => if Reqb n 0 then 0 else x) norm k in
  if sparse then filter (fun x => negb (Reqb x 0)) z else z.
Definition book_logk (w : cwriter) (k : list R) (c p s : string) : result cwriter :=
  set_entry w c p (fun e => mkP (pe_norm e) (pe_sumw2 e) (dset s (stored (cw_sparse w) (pe_norm e) k) (pe_logk e))).
(** 1604-1635 *)
Definition book_systematic (w : cwriter) (s : string) (noi constrained add_to_cov : bool) : result cwriter :=
  if add_to_cov
  then if noi then Raise ValueError
       else Ok (mkW (cw_sparse w) (cw_bbb w) (cw_procs w) (cw_chans w) (cw_systs w) (set_add s (cw_covsysts w)) (cw_cov w))
  else Ok (mkW (cw_sparse w) (cw_bbb w) (cw_procs w) (cw_chans w) (set_add s (cw_systs w)) (cw_covsysts w) (cw_cov w)).
(** 1572-1574 *)
Definition logk_normal (kf : R) (syst norm : list R) : list R := map2 (fun s n => kf * (s - n)) syst norm.

Inductive symmode := Conservative | Average | Linear | Quadratic | NoSym.
Inductive sinput := One (h : list R) | Two (up dn : list R).
Definition avg1 (m : symmode) (up dn : R) : R :=
  match m with Conservative => if Rltb (Rabs dn) (Rabs up) then up else dn | _ => / 2 * (up + dn) end.
Definition diff1 (m : symmode) (up dn : R) : R :=
  match m with Quadratic => / 2 * sqrt 3 * (up - dn) | _ => / 2 * 1 * (up - dn) end.
Definition checked (n : nat) (h : list R) : result (list R) := if Nat.eqb (List.length h) n then Ok h else Raise RuntimeError.
Definition shifted (asdiff : bool) (norm h : list R) : list R := if asdiff then map2 Rplus norm h else h.
(** 1192-1262 with add_to_data_covariance=True, for which the type of the variation is "normal" *)
Definition add_cov_syst (w : cwriter) (inp : sinput) (s p c : string) (kf : R) (mirror : bool) (m : symmode) (asdiff noi constrained : bool) : result cwriter :=
  match dget c (cw_chans w) with
  | None => Raise KeyError
  | Some ch =>
    match dget p (ch_procs ch) with
    | None => Raise KeyError
    | Some e =>
      let norm := pe_norm e in
      match inp with
      | Two hu hd =>
        u <- checked (ch_n ch) hu ;; d <- checked (ch_n ch) hd ;;
        let up := logk_normal kf (shifted asdiff norm u) norm in
        let dn := map Ropp (logk_normal kf (shifted asdiff norm d) norm) in
        match m with
        | NoSym => Raise RuntimeError
        | Conservative | Average =>
          w1 <- book_logk w (map2 (avg1 m) up dn) c p s ;; book_systematic w1 s noi constrained true
        | Linear | Quadratic =>
          w1 <- book_logk w (map2 (diff1 m) up dn) c p (s ++ "SymDiff") ;; w2 <- book_systematic w1 (s ++ "SymDiff") noi constrained true ;;
          w3 <- book_logk w2 (map2 (avg1 m) up dn) c p (s ++ "SymAvg") ;; book_systematic w3 (s ++ "SymAvg") noi constrained true
        end
      | One h =>
        if mirror
        then v <- checked (ch_n ch) h ;;
             w1 <- book_logk w (logk_normal kf (shifted asdiff norm v) norm) c p s ;; book_systematic w1 s noi constrained true
        else Raise RuntimeError
      end
    end
  end.
(** an explicit systematic with its values of logk, whatever they are *)
Definition add_explicit (w : cwriter) (k : list R) (s p c : string) (noi constrained : bool) : result cwriter :=
  w1 <- book_logk w k c p s ;; book_systematic w1 s noi constrained false.

(** ** write *)
Definition chans (w : cwriter) : list chan := map snd (cw_chans w).
Definition nbins_of (l : list chan) : nat := list_sum (map ch_n l).
Definition nbins (w : cwriter) : nat := nbins_of (filter (fun c => negb (ch_masked c)) (chans w)).
Definition nbinsfull (w : cwriter) : nat := nbins_of (chans w).

(** data_var[ibin : ibin + n] = values, in an array of nb elements *)
Fixpoint fill_var (l : list chan) (ib nb : nat) (a : nat -> R) : result (nat -> R) :=
  match l with
  | [] => Ok a
  | c :: r =>
    if ch_masked c then fill_var r (ib + ch_n c) nb a
    else if (Nat.leb (ib + ch_n c) nb || Nat.eqb (ch_n c) 1)%bool
         then fill_var r (ib + ch_n c) nb (fun b => if (Nat.leb ib b && Nat.ltb b (ib + ch_n c))%bool then nth (b - ib) (ch_var c) 0 else a b)
         else Raise ValueError
  end.
(** sumw2[bin, process]; zero where the channel lacks the process *)
Fixpoint sumw2_at (l : list chan) (p : string) (b : nat) : R :=
  match l with
  | [] => 0
  | c :: r => if Nat.ltb b (ch_n c) then match dget p (ch_procs c) with Some e => nth b (pe_sumw2 e) 0 | None => 0 end
              else sumw2_at r p (b - ch_n c)
  end.
(** 1696-1720 and the filling loop over the explicit systematics: number of stored values *)
Definition logk_size (procs : list string) (keep : string -> bool) (l : list chan) : nat :=
  list_sum (map (fun c => list_sum (map (fun p => match dget p (ch_procs c) with
    | Some e => list_sum (map (fun sv => if keep (fst sv) then List.length (snd sv) else 0%nat) (pe_logk e)) | None => 0%nat end) procs)) l).

(** v += k for one-dimensional arrays *)
Definition badd (v k : list R) : result (list R) :=
  if Nat.eqb (List.length k) (List.length v) then Ok (map2 Rplus v k)
  else match k with [x] => Ok (map (fun a => a + x) v) | _ => Raise ValueError end.
(** 2095-2108 *)
Fixpoint chan_shift (procs : list string) (c : chan) (s : string) (v : list R) : result (list R) :=
  match procs with
  | [] => Ok v
  | p :: r => match dget p (ch_procs c) with
              | None => chan_shift r c s v
              | Some e => match dget s (pe_logk e) with
                          | None => chan_shift r c s v
                          | Some k => v' <- badd v k ;; chan_shift r c s v'
                          end
              end
  end.
Fixpoint systv (procs : list string) (l : list chan) (s : string) : result (list R) :=
  match l with
  | [] => Ok []
  | c :: r => a <- chan_shift procs c s (repeat 0 (ch_n c)) ;; b <- systv procs r s ;; Ok (a ++ b)
  end.
(** 2110: data_covariance[...] += systv @ systv.T *)
Definition add_outer (c : nat * (nat -> nat -> R)) (v : list R) : result (nat * (nat -> nat -> R)) :=
  let '(n, M) := c in
  if Nat.eqb (List.length v) n then Ok (n, fun a b => M a b + nth a v 0 * nth b v 0)
  else match v with [x] => Ok (n, fun a b => M a b + x * x) | _ => Raise ValueError end.
Fixpoint add_systs (procs : list string) (l : list chan) (ss : list string) (c : nat * (nat -> nat -> R)) : result (nat * (nat -> nat -> R)) :=
  match ss with
  | [] => Ok c
  | s :: r => v <- systv procs l s ;; c1 <- add_outer c v ;; add_systs procs l r c1
  end.
(** 2112-2116: np.add(data_covariance, np.diag(sumw2)); sumw2 has two axes, of which np.diag takes the elements [i, i] *)
Definition diag2 (procs : list string) (l : list chan) : list R :=
  map (fun i => sumw2_at l (nth i procs EmptyString) i) (seq 0 (Nat.min (nbins_of l) (List.length procs))).
Definition add_row (c : nat * (nat -> nat -> R)) (d : list R) : result (nat * (nat -> nat -> R)) :=
  let '(n, M) := c in
  if Nat.eqb (List.length d) n then Ok (n, fun a b => M a b + nth b d 0)
  else match d with
       | [x] => Ok (n, fun a b => M a b + x)
       | _ => if Nat.eqb n 1 then Raise GenericException (* a matrix of one row has no inverse *) else Raise ValueError
       end.
Definition set_cov (w : cwriter) (c : nat * (nat -> nat -> R)) : cwriter :=
  mkW (cw_sparse w) (cw_bbb w) (cw_procs w) (cw_chans w) (cw_systs w) (cw_covsysts w) (Some c).
Definition some_of {A} (l : list A) : bool := match l with [] => false | _ => true end.
(** the writer afterwards and hdata_cov_inv, with its size *)
Definition write (w : cwriter) : result (cwriter * option (nat * (nat -> nat -> R))) :=
  var <- fill_var (chans w) 0 (nbins w) (fun _ => 0) ;;
  if (cw_sparse w && negb (Nat.eqb (logk_size (cw_procs w) (fun _ => true) (chans w)) (logk_size (cw_procs w) (fun s => smem s (cw_systs w)) (chans w))))%bool
  then Raise AssertionError else
  match (match cw_cov w with
         | Some c => Some c
         | None => if (some_of (cw_covsysts w) || cw_bbb w)%bool then Some (nbins w, fun a b => if Nat.eqb a b then var a else 0) else None
         end) with
  | None => Ok (w, None)
  | Some c =>
    c1 <- add_systs (cw_procs w) (chans w) (cw_covsysts w) c ;;
    full <- (if cw_bbb w then add_row c1 (diag2 (cw_procs w) (chans w)) else Ok c1) ;;
    inv <- ginv (fst full) (snd full) ;;
    Ok (set_cov w c1, Some (fst full, inv))
  end.
(** 179-180 *)
Definition add_data_covariance (w : cwriter) (n : nat) (M : nat -> nat -> R) : cwriter := set_cov w (n, M).
(** the tensor of an explicit systematic: 1936-1975, dense *)
Definition explicit_logk (w : cwriter) (s p c : string) : option (list R) :=
  if smem s (cw_systs w)
  then match dget c (cw_chans w) with Some ch => match dget p (ch_procs ch) with Some e => dget s (pe_logk e) | None => None end | None => None end
  else None.
