(** What a history of declarations means: nominal templates and variations as functions of the
    declarations only (no writer state, no storage format). *)
From Coq Require Import List Arith Bool String Lia.
From Verif Require Import PyList PyDict Num Names_Model Writer_Model Writer_Spec.
Import ListNotations.
Local Open Scope string_scope.
Local Open Scope list_scope.

Section Hist.
  Context {V : Type} {NV : Num V}.

  (** content of bin [i] of a histogram (0 outside) *)
  Definition hist_at (h : histo V) (i : nat) : V :=
    match h with
    | HDense v _ => nth i v n0
    | HSparse e _ => match find (fun x => Nat.eqb i (fst x)) e with Some x => snd x | None => n0 end
    end.

  (** the last operation of interest wins *)
  Definition last_of {E} (f : op V -> option E) (ops : list (op V)) : option E :=
    fold_left (fun acc o => match f o with Some e => Some e | None => acc end) ops None.

  (** *** nominal *)
  Definition op_proc (c p : string) (o : op V) : option (histo V * option (list V)) :=
    match o with
    | AddProcess h p' c' _ vs => if String.eqb c c' && String.eqb p p' then Some (h, vs) else None
    | _ => None
    end.
  Definition booked (ops : list (op V)) (c p : string) : Prop := exists h sg vs, In (AddProcess h p c sg vs) ops.
  Definition spec_clip (allowneg : bool) (v : V) : V :=
    if allowneg then v else if nlt v n0 then n0 else v.
  Definition spec_norm (allowneg : bool) (ops : list (op V)) (c p : string) (i : nat) : V :=
    match last_of (op_proc c p) ops with
    | Some (h, _) => spec_clip allowneg (hist_at h i)
    | None => n0
    end.
  (** statistical variances: the explicit argument, the variances of the histogram, or (sparse
      histograms carry none) the values themselves *)
  Definition spec_sumw2 (ops : list (op V)) (c p : string) (i : nat) : V :=
    match last_of (op_proc c p) ops with
    | Some (_, Some l) => nth i l n0
    | Some (HDense _ w, None) => nth i w n0
    | Some (HSparse e n, None) => hist_at (HSparse e n) i
    | None => n0
    end.

  (** *** variations *)
  (** log-normal or normal effect of a varied yield *)
  Definition spec_logk (t : systype) (kf varied nom : V) : V :=
    match t with
    | LogNormal => if nlt n0 (nmul nom varied) then nmul kf (nln (ndiv varied nom)) else nlogeps
    | Normal => nmul kf (nsub varied nom)
    end.
  (** how an up and a down effect are combined into one stored number *)
  Inductive comb := CAvg | CMax | CHalf | CDiff (w : V).
  Definition combine_eff (cb : comb) (up down : V) : V :=
    match cb with
    | CAvg => nmul nhalf (nadd up (nopp down))
    | CMax => if nlt (nabs (nopp down)) (nabs up) then up else nopp down
    | CHalf => nmul nhalf (nsub up (nopp down))
    | CDiff w => nmul (nmul nhalf w) (nsub up (nopp down))
    end.
  Inductive effect :=
  | EOne (kf : V) (ad : bool) (h : histo V)
  | ETwo (cb : comb) (kf : V) (ad : bool) (up down : histo V)
  | ENormOne (x : V)
  | ENormTwo (cb : comb) (x y : V).
  Definition tmpl_eff (t : systype) (nom : nat -> V) (kf : V) (ad : bool) (h : histo V) (i : nat) : V :=
    spec_logk t kf (if ad then nadd (nom i) (hist_at h i) else hist_at h i) (nom i).
  Definition norm_eff (t : systype) (nom : nat -> V) (x : V) (i : nat) : V :=
    spec_logk t n1 (nmul (nom i) x) (nom i).
  Definition eval_effect (t : systype) (nom : nat -> V) (e : effect) (i : nat) : V :=
    match e with
    | EOne kf ad h => tmpl_eff t nom kf ad h i
    | ETwo cb kf ad u d => combine_eff cb (tmpl_eff t nom kf ad u i) (tmpl_eff t nom kf ad d i)
    | ENormOne x => norm_eff t nom x i
    | ENormTwo cb x y => combine_eff cb (norm_eff t nom x i) (norm_eff t nom y i)
    end.

  Definition last_pair {B} (p : string) (l : list (string * B)) : option B :=
    fold_left (fun acc x => if String.eqb p (fst x) then Some (snd x) else acc) l None.
  (** effect of an operation on nuisance [s], process [p], channel [c] *)
  Definition op_avg (c p s : string) (o : op V) : option effect :=
    match o with
    | AddSystematic h n p' c' kf _ m ad _ =>
        if String.eqb c c' && String.eqb p p' then
          match h, m with
          | SSingle h1, _ => if String.eqb s n then Some (EOne kf ad h1) else None
          | SPair u d, Conservative => if String.eqb s n then Some (ETwo CMax kf ad u d) else None
          | SPair u d, Average | SPair u d, NoSym => if String.eqb s n then Some (ETwo CAvg kf ad u d) else None
          | SPair u d, Linear =>
              if String.eqb s (n ++ "SymAvg") then Some (ETwo CAvg kf ad u d)
              else if String.eqb s (n ++ "SymDiff") then Some (ETwo (CDiff n1) kf ad u d) else None
          | SPair u d, Quadratic =>
              if String.eqb s (n ++ "SymAvg") then Some (ETwo CAvg kf ad u d)
              else if String.eqb s (n ++ "SymDiff") then Some (ETwo (CDiff nsqrt3) kf ad u d) else None
          end
        else None
    | AddNormSystematic n ps c' us m _ =>
        if String.eqb c c' && String.eqb s n then
          match last_pair p (combine ps us) with
          | Some (UScalar x) => Some (ENormOne x)
          | Some (UPair x y) => Some (ENormTwo (match m with Conservative => CMax | _ => CAvg end) x y)
          | _ => None
          end
        else None
    | _ => None
    end.
  Definition op_half (c p s : string) (o : op V) : option effect :=
    match o with
    | AddSystematic (SPair u d) n p' c' kf _ NoSym ad _ =>
        if String.eqb c c' && String.eqb p p' && String.eqb s n then Some (ETwo CHalf kf ad u d) else None
    | _ => None
    end.
  Definition is_asym (o : op V) : bool :=
    match o with AddSystematic (SPair _ _) _ _ _ _ _ NoSym _ _ => true | _ => false end.

  (** stored variation: zero where the nominal is zero *)
  Definition stored (t : systype) (nom : nat -> V) (e : option effect) (i : nat) : V :=
    match e with
    | None => n0
    | Some e => if neq0 (nom i) then n0 else eval_effect t nom e i
    end.
  Definition spec_avg cfg (ops : list (op V)) (c p s : string) : nat -> V :=
    stored (c_type cfg) (spec_norm (c_allowneg cfg) ops c p) (last_of (op_avg c p s) ops).
  Definition spec_half cfg (ops : list (op V)) (c p s : string) : nat -> V :=
    stored (c_type cfg) (spec_norm (c_allowneg cfg) ops c p) (last_of (op_half c p s) ops).

  (** every channel name is used once *)
  Definition channels_once (ops : list (op V)) : Prop := NoDup (map fst (chan_decls [] ops)).
  (** sparse nominal templates do not store explicit zeros *)
  Definition no_stored_zeros (o : op V) : Prop :=
    match o with
    | AddProcess (HSparse e _) _ _ _ _ => Forall (fun x => snd x <> n0) e
    | _ => True
    end.
End Hist.
Arguments effect : clear implicits.
Arguments comb : clear implicits.
