(** Command lines of the parameter models: the parse_args of rabbit/param_models/param_model.py:42-43, 344-359, 469-476,
    632-649, 830-837, abcd_model.py:224-280, extended_abcd_model.py:183-243, smooth_abcd_model.py:246-306,
    smooth_extended_abcd_model.py:282-373, abcd_isomtmt_model.py:59-104, 126-143, 172-189, 219-231, 281-301,
    rabbit/param_models/helpers.py:1-48, rabbit/common.py:24-47 and bin/rabbit_fit.py:835-836, bin/rabbit_limit.py:267-268.

    Text as in Parse_Model; the constructors are those of Param_Model. [h5] and [npz] read the entries params and order of a
    file in either format and may raise; [custom] is a class given by a dotted path. [expect] are the values of --expectSignal
    after float(value). *)
From Coq Require Import Reals List Arith ZArith Bool String Ascii.
From Verif Require Import RBase PyList PyDict Parse_Model Param_Model.
Import ListNotations.
Local Open Scope nat_scope.

(** s.split(":", 1) of a text with a colon *)
Fixpoint cut_colon (s : text) : option (text * text) :=
  match s with
  | [] => None
  | c :: r => if Ascii.eqb c colon then Some ([], r)
              else match cut_colon r with Some ab => Some (c :: fst ab, snd ab) | None => None end
  end.
Definition value_of (s : text) : result text := match cut_colon s with Some ab => Ok (snd ab) | None => Raise IndexError end.
(** an optional token with an integer at the front, e.g. abcd_model.py:246-247, abcd_isomtmt_model.py:59-63 *)
Definition pop_int (pre : text) (tk : list text) : result (option Z * list text) :=
  match tk with
  | t :: r => if starts pre t then v <- value_of t ;; z <- py_int v ;; Ok (Some z, r) else Ok (None, tk)
  | [] => Ok (None, [])
  end.
Definition t_order : text := T "order:".
Definition t_corr : text := T "yieldCorrection:".
Definition t_params : text := T "params:".
Definition pop_corr (tk : list text) : result (bool * list text) :=
  o <- pop_int t_corr tk ;; Ok (match fst o with Some z => negb (Z.eqb z 0) | None => false end, snd o).
Definition pop_order (tk : list text) : result (Z * list text) :=
  o <- pop_int t_order tk ;; Ok (match fst o with Some z => z | None => 1%Z end, snd o).

(** abcd_model.py:251-262: a channel and the selections after it; a repeated axis overwrites *)
Fixpoint axis_sels (tk : list text) (acc : list (string * Z)) : result (list (string * Z) * list text) :=
  match tk with
  | [] => Ok (acc, [])
  | t :: r =>
    if has_colon t then
      match cut_colon t with
      | Some av => z <- py_int (snd av) ;; axis_sels r (dset (S_ (fst av)) z acc)
      | None => Raise ValueError
      end
    else Ok (acc, tk)
  end.
Definition one_region (tk : list text) : result (region * list text) :=
  match tk with
  | [] => Raise ValueError
  | t :: r => if has_colon t then Raise ValueError else s <- axis_sels r [] ;; Ok (mkRegion (S_ t) (fst s), snd s)
  end.
Fixpoint regions (n : nat) (tk : list text) : result (list region * list text) :=
  match n with
  | O => Ok ([], tk)
  | S n' => a <- one_region tk ;; b <- regions n' (snd a) ;; Ok (fst a :: fst b, snd b)
  end.
Definition no_more {A} (tk : list text) (a : A) : result A := match tk with [] => Ok a | _ => Raise ValueError end.

Record cmd := mkCmd { k_axis : string; k_order : Z; k_init : option (list R); k_corr : bool; k_proc : string; k_regions : list region }.
(** the part after the options; [tokens.pop(0)] of nothing is an IndexError, the smooth classes test for it *)
Definition parse_rest (n : nat) (none : pyexc) (axis : string) (order : Z) (init : option (list R)) (tk : list text) : result cmd :=
  c <- pop_corr tk ;;
  match snd c with
  | [] => Raise none
  | p :: r => rg <- regions n r ;; no_more (snd rg) (mkCmd axis order init (fst c) (S_ p) (fst rg))
  end.
(** abcd_model.py:224-266 with n = 4, extended_abcd_model.py:183-230 with n = 6 *)
Definition parse_plain (n : nat) (args : list text) : result cmd :=
  if Nat.ltb (List.length args) (n + 1) then Raise ValueError else parse_rest n IndexError ""%string 1%Z None args.
(** smooth_abcd_model.py:246-293 *)
Definition parse_smooth (args : list text) : result cmd :=
  if Nat.ltb (List.length args) 6 then Raise ValueError else
  match args with
  | [] => Raise IndexError
  | ax :: r => o <- pop_order r ;; parse_rest 4 ValueError (S_ ax) (fst o) None (snd o)
  end.

Section Files.
Variable h5 npz : text -> result (list R * Z).
Definition ends (p s : text) : bool := starts (rev p) (rev s).
(** smooth_extended_abcd_model.py:309-322 *)
Definition read_params (f : text) : result (list R * Z) := if ends (T ".hdf5") f || ends (T ".h5") f then h5 f else npz f.
(** smooth_extended_abcd_model.py:305-324, abcd_isomtmt_model.py:85-95: a file or an order *)
Definition pop_params (read : text -> result (list R * Z)) (tk : list text) : result (Z * option (list R) * list text) :=
  match tk with
  | t :: r => if starts t_params t then f <- value_of t ;; po <- read f ;; Ok (snd po, Some (fst po), r)
              else o <- pop_order tk ;; Ok (fst o, None, snd o)
  | [] => Ok (1%Z, None, [])
  end.
(** smooth_extended_abcd_model.py:282-357 *)
Definition parse_smooth_ext (args : list text) : result cmd :=
  if Nat.ltb (List.length args) 8 then Raise ValueError else
  match args with
  | [] => Raise IndexError
  | ax :: r => o <- pop_params read_params r ;; parse_rest 6 ValueError (S_ ax) (fst (fst o)) (snd (fst o)) (snd o)
  end.

(** abcd_isomtmt_model.py: a process and a channel, which is the one region here *)
Definition iso_rest (order : Z) (init : option (list R)) (tk : list text) : result cmd :=
  c <- pop_corr tk ;;
  match snd c with
  | p :: ch :: r => no_more r (mkCmd ""%string order init (fst c) (S_ p) [mkRegion (S_ ch) []])
  | _ => Raise ValueError
  end.
(** 127-143, 173-189 *)
Definition parse_iso (tk : list text) : result cmd := iso_rest 1%Z None tk.
(** 66-78 *)
Definition parse_iso_order (tk : list text) : result cmd := o <- pop_order tk ;; iso_rest (fst o) None (snd o).
(** 81-104 *)
Definition parse_iso_params (tk : list text) : result cmd := o <- pop_params h5 tk ;; iso_rest (fst (fst o)) (snd (fst o)) (snd o).

(** ** the models *)
Variable custom : text -> list text -> result model.
Variable d : pdata.
Variable expect : option (list (string * R)).
Variable allowneg : bool.

(** smooth_abcd_model.py:170-171: no basis of a negative order *)
Definition order_ok (order : Z) : result unit :=
  if (order =? -1)%Z then Raise IndexError else if (order <? 0)%Z then Raise ValueError else Ok tt.
Definition with_order (order : Z) (mk : nat -> option (list R) -> result model) (init : option (list R)) : result model :=
  _ <- mk (Z.to_nat order) None ;; _ <- order_ok order ;; mk (Z.to_nat order) init.
Definition build_abcd (c : cmd) : result model :=
  match k_regions c with [a; b; e; f] => abcd_model d (k_proc c) a b e f (k_corr c) | _ => Raise TypeError end.
(** the sidebands come first on the command line and last in the constructor *)
Definition build_ext (c : cmd) : result model :=
  match k_regions c with [ax; bx; a; b; e; f] => ext_abcd_model d (k_proc c) a b e f ax bx (k_corr c) | _ => Raise TypeError end.
Definition build_smooth (c : cmd) : result model :=
  match k_regions c with
  | [a; b; e; f] => with_order (k_order c) (fun o _ => smooth_abcd_model d (k_axis c) (k_proc c) a b e f o (k_corr c)) None
  | _ => Raise TypeError end.
Definition build_smooth_ext (c : cmd) : result model :=
  match k_regions c with
  | [ax; bx; a; b; e; f] => with_order (k_order c) (fun o i => smooth_ext_model d (k_axis c) (k_proc c) a b e f ax bx o i (k_corr c)) (k_init c)
  | _ => Raise TypeError end.
Definition iso_channel (c : cmd) : string := match k_regions c with r :: _ => rg_chan r | [] => ""%string end.
Definition build_iso_smooth (c : cmd) : result model :=
  with_order (k_order c) (fun o _ => isomt_smooth d (k_proc c) (iso_channel c) o (k_corr c)) None.
Definition build_iso_smooth_ext (c : cmd) : result model :=
  with_order (k_order c) (fun o i => isomt_smooth_ext d (k_proc c) (iso_channel c) o i (k_corr c)) (k_init c).

Definition names_of (csv : text) : list string := map (fun t => S_ (strip t)) (splitc comma csv).
Definition spec_of (t : text) : option (list string) := if teq t (T "all") then None else Some (names_of t).
(** what a class does with the arguments after its name; a positional argument besides the keywords of the program is a TypeError *)
Definition construct (cls : string) (args : list text) : option (result model) :=
  let is := String.eqb cls in
  if is "Ones"%string then Some (match args with [] => Ok ones_model | _ => Raise TypeError end)
  else if is "Mu"%string then Some (match args with [] => mu_model d expect allowneg | _ => Raise TypeError end)
  else if is "Mixture"%string then Some (match args with
    | [a; b] => mixture_model d (map S_ (splitc comma a)) (map S_ (splitc comma b)) expect allowneg
    | _ => Raise ValueError end)
  else if is "AxisNormModel"%string then Some (match args with
    | [ch; ps; axes] => axis_norm d (S_ ch) (spec_of ps) (names_of axes) expect
    | _ => Raise ValueError end)
  else if is "AxisExpModel"%string then Some (match args with
    | [ch; ps; sa; cells] => axis_exp d (S_ ch) (spec_of ps) (S_ sa) (names_of cells) None
    | [ch; ps; sa; cells; slopes] => axis_exp d (S_ ch) (spec_of ps) (S_ sa) (names_of cells) (Some (names_of slopes))
    | _ => Raise ValueError end)
  else if is "AxisBernsteinModel"%string then Some (match args with
    | [ch; ps; sa; cells] => axis_bernstein d (S_ ch) (spec_of ps) (S_ sa) (names_of cells) expect
    | _ => Raise ValueError end)
  else if is "ABCD"%string then Some (c <- parse_plain 4 args ;; build_abcd c)
  else if is "ExtendedABCD"%string then Some (c <- parse_plain 6 args ;; build_ext c)
  else if is "SmoothABCD"%string then Some (c <- parse_smooth args ;; build_smooth c)
  else if is "SmoothExtendedABCD"%string then Some (c <- parse_smooth_ext args ;; build_smooth_ext c)
  else if is "ABCDIsoMT"%string then Some (c <- parse_iso args ;; isomt_abcd d (k_proc c) (iso_channel c) (k_corr c))
  else if is "ExtendedABCDIsoMT"%string then Some (c <- parse_iso args ;; isomt_ext d (k_proc c) (iso_channel c) (k_corr c))
  else if is "SmoothABCDIsoMT"%string then Some (c <- parse_iso_order args ;; build_iso_smooth c)
  else if is "SmoothExtendedABCDIsoMT"%string then Some (c <- parse_iso_params args ;; build_iso_smooth_ext c)
  else None.
(** common.py:24-47, helpers.py:21-25 *)
Definition load_model (cls : text) (args : list text) : result model :=
  if contains (T ".") cls then custom cls args
  else match construct (S_ cls) args with Some r => r | None => Raise ValueError end.
(** helpers.py:28-48 *)
Definition load_models (specs : list (list text)) : result model :=
  ms <- rmap (fun s => match s with [] => Raise IndexError | c :: r => load_model c r end) specs ;;
  match ms with [m] => Ok m | _ => composite ms None end.
(** rabbit_fit.py:835-836, rabbit_limit.py:267-268: no option is an empty list here *)
Definition param_model (specs : list (list text)) : result model := load_models (match specs with [] => [[T "Mu"]] | _ => specs end).
End Files.
