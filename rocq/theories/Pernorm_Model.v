(** Applying the bin-by-bin nuisances to the yields of a bin, and when the yields of the single processes are computed at all:
    rabbit/bbstat/bbstat.py:423-435 and 841-905, rabbit/fitter.py:1796-1813.

    One bin. The values of the nuisances (profiled or not) are given, with the mask and the size [sbeta] of the effect. [None] for the
    yields of the processes is what the sparse implementation of _compute_yields_noBBB returns if they are not asked for; using it is a
    TypeError. Variations of nuisances (betavar) are left out, as is the broadcast over bins. Numbers are real. *)
From Coq Require Import List Reals Bool.
From Verif Require Import PyList RBase BBStat_Model.
Import ListNotations.
Local Open Scope R_scope.

Definition nuis := (bool * R * R)%type. (* masked, size, value *)
Record conf := mkConf { c_on : bool; c_full : bool; c_zero : option (list bool); c_one : nuis; c_each : list nuis }.
(** bbstat.py:423-435 *)
Definition needs (c : conf) : bool :=
  if negb (c_on c) then false else if c_full c then true else match c_zero c with Some _ => true | None => false end.

Definition get {A} (o : option A) : result A := match o with Some a => Ok a | None => Raise TypeError end.
(** bbstat.py:843-860 and 884-889, full mode *)
Definition each (t : bbtype) (ns : list nuis) (rows : list R) : list R :=
  map (fun nr : nuis * R => let '((m, s, b), r) := nr in
    match t with NormalAdd => r + s * b | _ => if m then r else b * r end) (combine ns rows).
(** bbstat.py:861-871 and 890-906, lite mode with processes without variance *)
Definition split (t : bbtype) (zs : list bool) (n : nuis) (rows : list R) : list R :=
  let '(m, s, b) := n in
  let active := map (fun zr : bool * R => if fst zr then 0 else snd zr) (combine zs rows) in
  let na := sumR active in
  let safe := if Rltb 0 na then na else 1 in
  match t with
  | NormalAdd => map (fun ra : R * R => fst ra + s * b * snd ra / safe) (combine rows active)
  | _ => map (fun zr : bool * R => snd zr * (if fst zr || m then 1 else b)) (combine zs rows)
  end.
(** bbstat.py:841-911 *)
Definition apply (t : bbtype) (c : conf) (compute_norm : bool) (nexp : R) (norm : option (list R)) : result (R * option (list R)) :=
  if negb (c_on c) then Ok (nexp, norm) else
  if c_full c then rows <- get norm ;; let r := each t (c_each c) rows in Ok (sumR r, Some r) else
  match c_zero c with
  | Some zs => rows <- get norm ;; let r := split t zs (c_one c) rows in Ok (sumR r, Some r)
  | None => let '(m, s, b) := c_one c in
    let nexp' := match t with NormalAdd => nexp + s * b | _ => if m then nexp else nexp * b end in
    if compute_norm then
      rows <- get norm ;;
      Ok (nexp', Some (map (fun r => match t with NormalAdd => r + s * b * r / nexp | _ => if m then r else b * r end) rows))
    else Ok (nexp', norm)
  end.
(** fitter.py:1796-1813 *)
Definition host (need : bool) (rows : list R) : R * option (list R) := (sumR rows, if need then Some rows else None).
Definition with_beta (t : bbtype) (c : conf) (compute_norm : bool) (rows : list R) : result (R * option (list R)) :=
  let '(nexp, norm) := host (compute_norm || needs c) rows in apply t c compute_norm nexp norm.
