(** Options of a fit: rabbit/fitter.py:107-238 (Fitter.__init__), 443-452 (is_linear), 2129-2195 (which functions are compiled) and
    rabbit/bbstat/bbstat.py:38-115, 254-262. Options are strings and flags as left by argparse or set by a program; an option
    missing in the namespace is [None] where the code has a default for it. Tensors are reduced to what decides: which of them exist.
    AttributeError is [GenericException]. Warnings and the values of the tensors are left out. *)
From Coq Require Import Reals List Bool String.
From Verif Require Import PyList PyDict.
Import ListNotations.
Local Open Scope string_scope.

Inductive jitopt := JTrue | JFalse | JStr (s : string).
Record options := mkOpt { o_jit : option jitopt; o_hvp : option string; o_nohess : option bool; o_chisq : bool; o_cov : bool;
  o_force : option bool; o_nobbb : bool; o_mode : string; o_type : string }.
(** the input: systematic_type, sparse, symmetric_tensor, data_cov_inv *)
Record input := mkInp { i_syst : string; i_sparse : bool; i_sym : bool; i_covinv : option (list (list R)) }.
Record fitter := mkFit { f_jit : bool; f_hvp : string; f_compute_cov : bool; f_chisq : bool; f_cov : bool; f_varnobs : bool;
  f_covinv : option (list (list R)); f_bbb : bool; f_mode : string; f_type : string; f_linear : bool;
  f_compiled : list (string * bool); f_hessp : string }.

Definition orelse {A} (d : A) (o : option A) : A := match o with Some v => v | None => d end.
Definition valid_systematic_types := ["log_normal"; "normal"].
Definition valid_bbb_types := ["gamma"; "normal-additive"; "normal-multiplicative"].
(** fitter.py:137-160 *)
Definition resolve_jit (o : option jitopt) (sparse : bool) : result bool :=
  let s := match orelse (JStr "auto") o with JTrue => "on" | JFalse => "off" | JStr s => s end in
  if negb (smem s ["auto"; "on"; "off"]) then Raise ValueError
  else if String.eqb s "off" then Ok false
  else if String.eqb s "on" then Ok (if sparse then false else true)
  else Ok (negb sparse).
(** fitter.py:195-212: varnobs and data_cov_inv; the input data have no method getattr *)
Definition data_terms (o : options) (d : input) : result (bool * option (list (list R))) :=
  if o_chisq o then Ok (true, None)
  else if o_cov o then match i_covinv d with None => Raise GenericException | Some w => Ok (false, Some w) end
  else Ok (false, None).
(** bbstat.py:76-115: the type; a mode other than full or lite leaves beta_shape undefined *)
Definition bbb_type (o : options) : result string :=
  let t := if String.eqb (o_type o) "automatic" then
             if o_cov o then "normal-additive" else if String.eqb (o_mode o) "full" then "normal-multiplicative" else "gamma"
           else o_type o in
  if o_cov o && negb (o_nobbb o) && negb (prefix "normal" t) then Raise GenericException
  else if negb (smem t valid_bbb_types) then Raise RuntimeError
  else if smem (o_mode o) ["full"; "lite"] then Ok t else Raise GenericException.
(** bbstat.py:254-262 *)
Definition bbb_linear (enabled : bool) (t : string) : bool := negb enabled || String.eqb t "normal-additive".
(** fitter.py:2165-2195 *)
Definition fwdrev := "loss_val_grad_hessp_fwdrev".
Definition revrev := "loss_val_grad_hessp_revrev".
Definition compiled (jit : bool) : list (string * bool) := [("loss_val", jit); ("loss_val_grad", jit); (fwdrev, false); (revrev, jit)].
Definition hessp (hvp : string) (sparse : bool) : string :=
  if String.eqb hvp "fwdrev" && sparse then revrev else if String.eqb hvp "fwdrev" then fwdrev else revrev.

(** the constructor; [linear] is param_model.is_linear *)
Definition setup (o : options) (d : input) (linear : bool) : result fitter :=
  if negb (smem (i_syst d) valid_systematic_types) then Raise RuntimeError else
  jit <- resolve_jit (o_jit o) (i_sparse d) ;;
  if o_cov o && o_chisq o then Raise GenericException else
  dt <- data_terms o d ;;
  t <- bbb_type o ;;
  let hvp := orelse "revrev" (o_hvp o) in
  let enabled := negb (o_nobbb o) in
  Ok (mkFit jit hvp (negb (orelse false (o_nohess o))) (o_chisq o) (o_cov o) (fst dt) (snd dt) enabled (o_mode o) t
        (orelse false (o_force o) || ((o_chisq o || o_cov o) && linear && i_sym d && String.eqb (i_syst d) "normal" && bbb_linear enabled t))
        (compiled jit) (hessp hvp (i_sparse d))).
