(** What the state of a session may depend on. *)
From Coq Require Import List Arith Bool String ZArith Reals.
From Verif Require Import PyList PyDict RBase BBStat_Model Freeze_Model Freeze_Spec Writer_Model Fit_Model Session_Model.
Import ListNotations.
Local Open Scope R_scope.
Local Open Scope string_scope.

(** all fields a fit reads; self.nexpnom is not read *)
Definition same_state (a b : fstate) : Prop :=
  f_x a = f_x b /\ f_x0 a = f_x0 b /\ f_beta a = f_beta b /\ f_beta0 a = f_beta0 b /\ f_logbeta0 a = f_logbeta0 b /\
  f_nobs a = f_nobs b /\ f_lognobs a = f_lognobs b /\ f_varnobs a = f_varnobs b /\ f_cov a = f_cov b /\
  f_varpre a = f_varpre b /\ f_off a = f_off b /\ f_regexp a = f_regexp b /\ f_tau a = f_tau b /\ f_fz a = f_fz b.
Definition same_result (a b : result fstate) : Prop :=
  match a, b with Ok s, Ok t => same_state s t | Raise e, Raise e' => e = e' | _, _ => False end.
(** an operation that does not tune tau; a scan or a group is of parameters the user has not frozen,
    and the expressions select these parameters only *)
Definition literal (rx : regex) (parms ps : list string) : Prop :=
  forall e f p, In e ps -> rx e = Some f -> In p parms -> f p = true -> In p ps.
Definition harmless (env : senv) (frozen : list string) (p : pop) : Prop :=
  match p with
  | POptTau _ => False
  | PScan ps _ => literal (v_rx env) (v_parms env) ps /\ forall q, In q ps -> ~ In q frozen
  | PGroup ms _ _ => literal (v_rx env) (v_parms env) (filter (fun m => negb (smem m frozen)) ms)
  | _ => True
  end.

(** a fit whose data are the observed data or fluctuate around them *)
Definition uses_data (o : topts) (f : Z) : Prop := f = 0%Z \/ ((1 <= f)%Z /\ to_observed o = true).
(** no user-frozen parameter is selected by the names of a group that are to be frozen *)
Definition disjoint_group (rx : regex) (frozen members : list string) : Prop :=
  forall q, In q frozen -> ~ selects rx (filter (fun m => negb (smem m frozen)) members) q.
(** documented name of the result of a fit *)
Definition kind_label (f : Z) : string :=
  if (f =? -1)%Z then "_asimov" else if (1 <=? f)%Z then "_toy" ++ nat_str (Z.to_nat f) else "".
Definition doc_name (f : Z) (p : option string) : string :=
  "results" ++ kind_label f ++ match p with None => "" | Some n => "_" ++ n end.
