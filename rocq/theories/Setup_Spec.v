(** What the options of a fit mean, after their help texts. *)
From Coq Require Import Reals List Bool String.
From Verif Require Import PyList BBStat_Model Writer_Model Yields_Model Nll_Model Setup_Model.
Import ListNotations.
Local Open Scope string_scope.

(** the options a fit can be started with *)
Definition jit_name (j : option jitopt) (s : string) : Prop :=
  match j with None => s = "auto" | Some JTrue => s = "on" | Some JFalse => s = "off" | Some (JStr t) => s = t end.
Definition jit_allowed (j : option jitopt) : Prop := jit_name j "auto" \/ jit_name j "on" \/ jit_name j "off".
Definition type_allowed (o : options) : Prop :=
  o_type o = "automatic" \/ o_type o = "normal-additive" \/ o_type o = "normal-multiplicative" \/ (o_type o = "gamma" /\ (o_cov o = true -> o_nobbb o = true)).
Definition allowed (o : options) (d : input) : Prop :=
  (i_syst d = "log_normal" \/ i_syst d = "normal") /\ jit_allowed (o_jit o) /\ ~ (o_cov o = true /\ o_chisq o = true) /\
  (o_cov o = true -> i_covinv d <> None) /\ type_allowed o /\ (o_mode o = "full" \/ o_mode o = "lite").
(** constraint of the bin-by-bin parameters *)
Definition meant_type (o : options) (t : string) : Prop :=
  (o_type o <> "automatic" -> t = o_type o) /\
  (o_type o = "automatic" -> t = match o_cov o, String.eqb (o_mode o) "full" with true, _ => "normal-additive" | false, true => "normal-multiplicative" | false, false => "gamma" end).
(** the help text of --binByBinStatType: 'automatic' is 'gamma' except for data covariance where it is 'normal' *)
Definition documented_type (o : options) (t : string) : Prop := o_type o = "automatic" -> o_cov o = false -> t = "gamma".
(** compiled for the accelerator: on request or automatically, never with sparse input *)
Definition meant_jit (j : option jitopt) (sparse jit : bool) : Prop := jit = true <-> (jit_name j "auto" \/ jit_name j "on") /\ sparse = false.
(** what has to hold for a quadratic likelihood *)
Definition looks_linear (o : options) (d : input) (linear : bool) (t : string) : Prop :=
  (o_chisq o = true \/ o_cov o = true) /\ linear = true /\ i_sym d = true /\ i_syst d = "normal" /\ (o_nobbb o = false -> t = "normal-additive").
(** the fit described by the options, as a problem *)
Definition type_of (t : string) (b : bbtype) : Prop := t = match b with Gamma => "gamma" | NormalMult => "normal-multiplicative" | NormalAdd => "normal-additive" end.
Definition likelihood_of (f : fitter) : likelihood :=
  match f_covinv f with Some w => Cov w | None => Sep (if f_varnobs f then Chisq else Poisson) end.
Definition describes (d : input) (f : fitter) (P : problem) : Prop :=
  pb_lik P = likelihood_of f /\ in_sym (pb_data P) = i_sym d /\ (i_syst d = "normal" -> in_type (pb_data P) = Normal) /\
  match pb_bb P with None => f_bbb f = false | Some bb => f_bbb f = true /\ type_of (f_type f) (bb_type bb) end.
