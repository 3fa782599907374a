(** Datacards as their authors mean them: channels with observations, columns with a process index
    and a rate, systematics with one entry per column; and which texts are such a card. *)
From Coq Require Import List Arith Bool String Ascii ZArith.
From Verif Require Import PyList PyDict Num Names_Model Writer_Model Card_Model.
From Verif Require Parse_Model.
Import ListNotations.
Local Open Scope string_scope.
Local Open Scope list_scope.

Record column := mkCol { co_bin : string; co_proc : string; co_idx : string; co_rate : string }.
(** [sl_n] is the number of events of a gamma systematic, absent otherwise *)
Record sline := mkSl { sl_name : string; sl_type : string; sl_n : list string; sl_entries : list string }.
Record rline := mkRl { rl_name : string; rl_chan : string; rl_proc : string; rl_val : string; rl_more : list string }.
Record acard := mkAc {
  ac_chans : list (string * string);   (* channel and observation *)
  ac_cols : list column; ac_shapes : list shape; ac_systs : list sline; ac_rates : list rline }.

Definition co_key (c : column) : key := (co_bin c, co_proc c).
Definition chans (A : acard) : list string := map fst (ac_chans A).

(** ** texts of a card *)
Definition block (A : acard) : list line :=
  [ "bin" :: map co_bin (ac_cols A); "process" :: map co_proc (ac_cols A);
    "process" :: map co_idx (ac_cols A); "rate" :: map co_rate (ac_cols A) ].
Definition syst_line (s : sline) : line := sl_name s :: sl_type s :: sl_n s ++ sl_entries s.
Definition shape_line (s : shape) : line :=
  "shapes" :: sh_proc s :: sh_chan s :: sh_file s :: sh_pat s :: match sh_syst s with Some x => [x] | None => [] end.
Definition rate_line (r : rline) : line :=
  rl_name r :: "rateParam" :: rl_chan r :: rl_proc r :: rl_val r :: rl_more r.

Definition in_words (ws : list string) (l : line) : bool := smem (nth 1 l "") ws.
(** [pre]: header, shapes, separators and the two lines of observations, in any order; then the
    four lines of the columns; [sy]: systematics (and lines that are neither directive nor
    systematic); [dirs]: directives, in any order *)
Definition laid_out (A : acard) (lines : list line) : Prop := exists pre sy dirs,
  lines = pre ++ block A ++ sy ++ dirs /\
  filter (starts "bin") pre = ["bin" :: map fst (ac_chans A)] /\
  filter (starts "observation") pre = ["observation" :: map snd (ac_chans A)] /\
  Forall (fun l => starts "process" l = false /\ starts "rate" l = false) pre /\
  Forall (fun l => in_words ["shapes"; "nuisance"; "param"; "rateParam"; "group"; "extArg"] l = false) sy /\
  filter (in_words ["lnN"; "shape"; "gmN"; "lnU"; "shapeN"; "shape?"; "shapeU"]) sy = map syst_line (ac_systs A) /\
  Forall (fun l => in_words ["lnN"; "shape"; "gmN"; "lnU"; "shapeN"; "shape?"; "shapeU"] l = false) dirs /\
  filter (starts "shapes") lines = map shape_line (ac_shapes A) /\
  filter (in_words ["rateParam"]) lines = map rate_line (ac_rates A) /\
  Forall (fun l => starts "imax" l = true \/ starts "jmax" l = true \/ starts "kmax" l = true -> 2 <= List.length l) lines.

(** ** meaning *)
Section Meaning.
  Context {V : Type} {NV : Num V}.
  Variable pyfloat : string -> option V.
  Definition pyint (s : string) : option Z :=
    match Parse_Model.py_int (Parse_Model.T s) with Ok z => Some z | Raise _ => None end.
  Variable exists_file : string -> bool.

  Record wf_card (A : acard) : Prop := {
    wf_chans : NoDup (chans A);
    wf_obs : forall b t, In (b, t) (ac_chans A) -> exists v, pyfloat t = Some v;
    wf_keys : NoDup (map co_key (ac_cols A));
    wf_rates : forall c, In c (ac_cols A) -> exists v, pyfloat (co_rate c) = Some v;
    wf_idx : forall c, In c (ac_cols A) -> exists z, pyint (co_idx c) = Some z;
    (** a process has one index *)
    wf_same : forall c c', In c (ac_cols A) -> In c' (ac_cols A) -> co_proc c = co_proc c' -> pyint (co_idx c) = pyint (co_idx c');
    wf_cover : forall b, In b (chans A) <-> exists c, In c (ac_cols A) /\ co_bin c = b;
    wf_plain : forall c, In c (ac_cols A) -> co_proc c <> "data_obs" /\ co_proc c <> "*" /\ co_bin c <> "*";
    wf_files : forall s, In s (ac_shapes A) -> exists_file (sh_file s) = true;
    wf_entries : forall s, In s (ac_systs A) -> List.length (sl_entries s) = List.length (ac_cols A) /\
                   (sl_type s = "gmN" -> exists t z, sl_n s = [t] /\ pyint t = Some z) /\
                   (sl_type s <> "gmN" -> sl_n s = []) }.

  (** the entry of a systematic in each column that has one *)
  Definition entries (A : acard) (s : sline) : list (key * string) :=
    filter (fun ke => negb (String.eqb (snd ke) "-")) (combine (map co_key (ac_cols A)) (sl_entries s)).

  (** the parser's view [c] of the card *)
  Record parsed_as (A : acard) (c : card V) : Prop := {
    pa_bins : cd_bins c = chans A;
    pa_obs : forall b t, In (b, t) (ac_chans A) -> dget b (cd_obs c) = pyfloat t;
    pa_rates : map fst (cd_rates c) = map co_key (ac_cols A) /\
               forall k, In k (ac_cols A) -> kget (co_key k) (cd_rates c) = pyfloat (co_rate k);
    pa_idx : forall k, In k (ac_cols A) -> dget (co_proc k) (cd_idx c) = pyint (co_idx k);
    pa_procs : NoDup (cd_procs c) /\ forall p, In p (cd_procs c) <-> exists k, In k (ac_cols A) /\ co_proc k = p;
    pa_first : hd_error (cd_procs c) = hd_error (map co_proc (ac_cols A));
    pa_map : forall b, In b (chans A) -> exists d, dget b (cd_map c) = Some d /\
               dkeys d = map co_proc (filter (fun k => String.eqb (co_bin k) b) (ac_cols A));
    pa_shapes : cd_shapes c = ac_shapes A;
    pa_systs : map (fun s => (sy_name s, sy_type s, sy_effects s)) (cd_systs c) =
               map (fun s => (sl_name s, sl_type s, entries A s)) (ac_systs A);
    pa_rparams : cd_rateparams c = map (fun r => rl_name r :: rl_chan r :: rl_proc r :: rl_val r :: rl_more r) (ac_rates A) }.
End Meaning.

(** ** what the conversion should produce *)
Section Content.
  Context {V : Type} {NV : Num V}.
  Variable pyfloat : string -> option V.
  Variable files : string -> string -> option (thist V).
  Variable mass : string.

  (** the last shapes directive that covers the process and the channel *)
  Definition covers (s : shape) (p b : string) : bool :=
    (String.eqb (sh_proc s) "*" || String.eqb (sh_proc s) p) && (String.eqb (sh_chan s) "*" || String.eqb (sh_chan s) b).
  Definition used_shape (A : acard) (p b : string) : option shape :=
    hd_error (rev (filter (fun s => covers s p b) (ac_shapes A))).
  (** the histogram in the file, or (what the converter takes instead) the observation *)
  Definition template (A : acard) (b p : string) : option (thist V) :=
    match used_shape A p b with
    | Some s => files (sh_file s) (hist_name mass s p b None)
    | None => match dget b (ac_chans A) with
              | Some t => match pyfloat t with Some v => Some (mkTH [(1, 1)] [v] [v]) | None => None end
              | None => None
              end
    end.
  (** templates of a variation in a column *)
  Definition varied (A : acard) (b p y : string) : option (thist V) :=
    match used_shape A p b with
    | Some s => files (sh_file s) (hist_name mass s p b (Some y))
    | None => None
    end.
  (** "x" and "down/up" *)
  Definition factor (e : string) (u : uncval V) : Prop :=
    match Parse_Model.splitc "/"%char (Parse_Model.T e) with
    | [_] => exists x, pyfloat e = Some x /\ u = UScalar x
    | [dn; up] => exists x y, pyfloat (Parse_Model.S_ up) = Some x /\ pyfloat (Parse_Model.S_ dn) = Some y /\ u = UPair x y
    | _ => False
    end.
  Definition nothing (e : string) : Prop := e = "-" \/ e = "0".
  Definition norm_type (t : string) : Prop := t = "lnN" \/ t = "lnU".
  Definition shape_type (t : string) : Prop := t = "shape" \/ t = "shapeN" \/ t = "shape?" \/ t = "shapeU".

  Definition modelled (t : string) : Prop := norm_type t \/ shape_type t.
  (** nuisances a column with an entry gets: two when up and down templates are decorrelated *)
  Definition booked_names (symm : symmode) (s : sline) (u d : option (thist V)) : list string :=
    match u, d with
    | Some _, Some _ =>
        if smem (sl_type s) ["lnN"; "lnU"] then [sl_name s] else
        match symm with
        | Linear | Quadratic => [(sl_name s ++ "SymAvg")%string; (sl_name s ++ "SymDiff")%string]
        | _ => [sl_name s]
        end
    | _, _ => [sl_name s]
    end.
  (** columns a rate parameter acts on; of "*" processes the first one only (see C58_star_refuted) *)
  Definition reaches (A : acard) (r : rline) (b p : string) : Prop :=
    (rl_chan r = "*" /\ In b (chans A) \/ rl_chan r <> "*" /\ b = rl_chan r) /\
    (rl_proc r = "*" /\ hd_error (map co_proc (ac_cols A)) = Some p \/ rl_proc r <> "*" /\ p = rl_proc r).

  (** the entry [e] of systematic [s] in column [(b, p)] *)
  Definition entry (A : acard) (s : sline) (b p e : string) : Prop := In ((b, p), e) (entries A s) /\ ~ nothing e.

  (** names that do not interfere *)
  Record tidy (A : acard) : Prop := {
    td_names : NoDup (map sl_name (ac_systs A));
    td_rates : forall s r, In s (ac_systs A) -> In r (ac_rates A) -> sl_name s <> rl_name r;
    td_suffix : forall s s', In s (ac_systs A) -> In s' (ac_systs A) ->
      sl_name s <> (sl_name s' ++ "SymAvg")%string /\ sl_name s <> (sl_name s' ++ "SymDiff")%string;
    td_suffix' : forall r s', In r (ac_rates A) -> In s' (ac_systs A) ->
      rl_name r <> (sl_name s' ++ "SymAvg")%string /\ rl_name r <> (sl_name s' ++ "SymDiff")%string;
    (** unconstrained shape systematics have templates wherever they have an entry *)
    td_free : forall s b p e, In s (ac_systs A) -> sl_type s = "shapeU" -> entry A s b p e -> used_shape A p b <> None }.
End Content.

(** ** texts *)
(** blanks, a word, and what follows it *)
Inductive spaced : Parse_Model.text -> list Parse_Model.text -> Prop :=
| sp_blank bl : Forall (fun x => Parse_Model.is_space x = true) bl -> spaced bl []
| sp_last bl w : Forall (fun x => Parse_Model.is_space x = true) bl -> w <> [] -> Forall (fun x => Parse_Model.is_space x = false) w -> spaced (bl ++ w) [w]
| sp_word bl w x t ws : Forall (fun x => Parse_Model.is_space x = true) bl -> w <> [] -> Forall (fun x => Parse_Model.is_space x = false) w ->
    Parse_Model.is_space x = true -> spaced t ws -> spaced (bl ++ w ++ x :: t) (w :: ws).

(** patterns of histogram names: literal text without '$' and placeholders *)
Inductive var := VProcess | VChannel | VSystematic | VMass.
Definition var_text (v : var) : string :=
  match v with VProcess => "$PROCESS" | VChannel => "$CHANNEL" | VSystematic => "$SYSTEMATIC" | VMass => "$MASS" end.
Inductive hpiece := Lit (t : string) | Var (v : var).
Definition dollar_free (t : string) : Prop := ~ In "$"%char (Parse_Model.T t).
Fixpoint pattern (l : list hpiece) : string :=
  match l with [] => "" | Lit t :: r => (t ++ pattern r)%string | Var v :: r => (var_text v ++ pattern r)%string end.
Fixpoint filled (val : var -> string) (l : list hpiece) : string :=
  match l with [] => "" | Lit t :: r => (t ++ filled val r)%string | Var v :: r => (val v ++ filled val r)%string end.
Definition literal (l : list hpiece) : Prop := forall t, In (Lit t) l -> dollar_free t.
