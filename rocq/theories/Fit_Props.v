(** Properties of the iterative fit and of loading external results (C31, C32, C33). *)
From Coq Require Import List Arith Bool String ZArith Lia.
From Verif Require Import PyList ListUtil PyDict Order Fit_Model Fit_Spec Fit_Proof.
Import ListNotations.
Local Open Scope string_scope.
Local Open Scope list_scope.

(** ** C31 *)
Theorem C31_failed_fit : forall {L X V} (isnan : L -> bool) (leb : L -> L -> bool) k (ev : X -> option V) s x acc,
  exec isnan leb k ev s [] acc Failed ->
  exists c, fit isnan leb ev k s x = (last (map snd acc) x, Some c) /\ cb_hist c = map fst acc.
Proof. intros L X V isnan leb k ev s x acc E. exact (fit_spec isnan leb k ev s x acc Failed E). Qed.
Print Assumptions C31_failed_fit.
Theorem C31_returned : forall {L X V} (isnan : L -> bool) (leb : L -> L -> bool) k (ev : X -> option V) s x acc r,
  exec isnan leb k ev s [] acc (Returned r) ->
  exists c, fit isnan leb ev k s x = (r, Some c) /\ cb_hist c = map fst acc.
Proof. intros L X V isnan leb k ev s x acc r E. exact (fit_spec isnan leb k ev s x acc (Returned r) E). Qed.
Print Assumptions C31_returned.
(** the description of a minimisation used above always exists, and the accepted points are points
    the minimiser reported as iterations *)
Theorem C31_every_run : forall {L X V} (isnan : L -> bool) (leb : L -> L -> bool) k (ev : X -> option V) (s : @strat L X V),
  exists acc o, exec isnan leb k ev s [] acc o /\ forall p, In p acc -> reported s p.
Proof.
  intros L X V isnan leb k ev s. destruct (exec_total isnan leb k ev s []) as (acc & o & E). exists acc, o. split; auto.
  destruct (exec_reported _ _ _ _ _ _ _ _ E) as (new & -> & P). exact P.
Qed.
Print Assumptions C31_every_run.
(** KeyboardInterrupt is not an Exception: fit does not restore, the parameters stay at the trial point *)
Theorem C31_interrupt_refuted : exists (s : @strat nat nat nat) (x : nat),
  fst (fit (fun _ => false) Nat.leb (fun y => Some y) 0 s x) = 7%nat /\ ~ reported s (7%nat, 7%nat) /\ x <> 7%nat.
Proof.
  exists (SEval 7%nat (fun _ => SIter 1%nat 3%nat SInterrupt)), 1%nat. split; [reflexivity|]. split; [|lia].
  intros [v [E|[]]]. discriminate.
Qed.
Print Assumptions C31_interrupt_refuted.
(** trial points 5 and 9, accepted iterate 3, evaluation at 9 raises *)
Example C31_example :
  let ev := fun y : nat => if Nat.eqb y 9 then None else Some y in
  let s := SEval 5%nat (fun v => SIter v 3%nat (SEval 9%nat (fun _ => SReturn 9%nat))) in
  exec (fun _ => false) Nat.leb 0 ev s [] [(5, 3)]%nat Failed /\
  fit (fun _ => false) Nat.leb ev 0 s 1%nat = (3%nat, Some (mkCb 1 3%nat [5%nat])).
Proof.
  split; [|reflexivity]. eapply ex_eval; [reflexivity|]. apply ex_iter.
  - intros [(b & E & N)|(K & _)]; [discriminate|lia].
  - apply ex_eval_fail. reflexivity.
Qed.

(** ** C32 *)
Theorem C32_callback : forall {L X} (isnan : L -> bool) (leb : L -> L -> bool) k (its : list (L * X)) x0 c ok,
  calls isnan leb k (cb_init x0) its = (c, ok) ->
  exists n, (n <= List.length its)%nat /\ cb_hist c = map fst (firstn n its) /\ cb_iter c = n /\
    cb_x c = last (map snd (firstn n its)) x0 /\
    (forall i, (i < n)%nat -> ~ stops isnan leb k (map fst its) i) /\
    (ok = true -> n = List.length its) /\
    (ok = false -> (n < List.length its)%nat /\ stops isnan leb k (map fst its) n).
Proof. intros L X isnan leb k its x0 c ok E. exact (calls_spec isnan leb k its (cb_init x0) c ok E). Qed.
Print Assumptions C32_callback.
(** the iteration with exactly [k] recorded losses is not compared with the first one *)
Theorem C32_first_comparison_refuted : exists (ls : list nat) (k : nat), (0 < k)%nat /\ no_gain Nat.leb k ls k /\
  snd (calls (fun _ => false) Nat.leb (Z.of_nat k) (cb_init 0%nat) (map (fun l => (l, l)) ls)) = true.
Proof. exists [1; 2]%nat, 1%nat. split; [lia|]. split; [|reflexivity]. exists 1%nat, 2%nat. repeat split; auto. Qed.
Print Assumptions C32_first_comparison_refuted.
Example C32_example : calls (fun _ => false) Nat.leb 2 (cb_init 0%nat) [(9, 1); (7, 2); (6, 3); (8, 4); (1, 5)]%nat = (mkCb 3 3%nat [9; 7; 6]%nat, false)
  /\ calls (fun l => Nat.eqb l 0) Nat.leb (-1) (cb_init 0%nat) [(9, 1); (7, 2); (0, 3)]%nat = (mkCb 2 2%nat [9; 7]%nat, false).
Proof. split; reflexivity. Qed.

(** ** C33 *)
Theorem C33_load : forall {A} pr bb parms (e : @ext_result A) (s : @lstate A),
  NoDup parms -> NoDup (er_parms e) ->
  List.length (ls_x s) = List.length parms -> List.length (er_x e) = List.length (er_parms e) ->
  (forall c, ls_cov s = Some c -> rect (List.length parms) (List.length parms) c) ->
  (forall c, er_cov e = Some c -> rect (List.length (er_parms e)) (List.length (er_parms e)) c) ->
  let '(s', ex) := load_fitresult pr bb parms e s in
  let fin := if (pr && negb bb)%bool then Some ValueError else None in
  List.length (ls_x s') = List.length (ls_x s) /\
  (forall i j, shared parms (er_parms e) i j -> nth_error (ls_x s') i = nth_error (er_x e) j) /\
  (forall i, (forall j, ~ shared parms (er_parms e) i j) -> nth_error (ls_x s') i = nth_error (ls_x s) i) /\
  match er_cov e, ls_cov s with
  | None, _ => ex = fin /\ ls_cov s' = ls_cov s /\ ls_loaded s' = false
  | Some _, None => ex = Some RuntimeError /\ ls_cov s' = None /\ ls_loaded s' = false
  | Some ce, Some c => ex = fin /\ ls_loaded s' = true /\ exists c', ls_cov s' = Some c' /\ rect (List.length parms) (List.length parms) c' /\
      (forall i j k l, shared parms (er_parms e) i j -> shared parms (er_parms e) k l -> entry c' i k = entry ce j l) /\
      (forall i k, (forall j, ~ shared parms (er_parms e) i j) \/ (forall l, ~ shared parms (er_parms e) k l) -> entry c' i k = entry c i k)
  end.
Proof. intros A. exact load_spec. Qed.
Print Assumptions C33_load.
(** with a repeated name (nothing in the fitter forbids a model parameter named like a nuisance) a
    parameter that is not in the external result is overwritten *)
Theorem C33_duplicate_refuted : exists parms (e : @ext_result nat) s, NoDup (er_parms e) /\
  (forall j, ~ shared parms (er_parms e) 0 j) /\
  nth_error (ls_x (fst (load_fitresult false true parms e s))) 0 <> nth_error (ls_x s) 0.
Proof.
  exists ["a"; "a"], (mkExt [7%nat] ["b"] None), (mkLs [1; 2]%nat None false). split; [constructor; [intros []|constructor]|].
  split; [|discriminate]. intros j (n & E1 & E2). simpl in E1. injection E1 as <-. destruct j as [|[|j]]; discriminate.
Qed.
Print Assumptions C33_duplicate_refuted.
(** with --noBinByBinStat and the default profiling every load ends in an exception *)
Theorem C33_no_bbb_refuted : exists parms (e : @ext_result nat) s, NoDup parms /\ NoDup (er_parms e) /\
  snd (load_fitresult true false parms e s) = Some ValueError.
Proof. exists ["a"], (mkExt [7%nat] ["a"] None), (mkLs [1%nat] None false). repeat split; repeat constructor; intros []. Qed.
Print Assumptions C33_no_bbb_refuted.
Example C33_example :
  load_fitresult true true ["mu"; "b"; "a"] (mkExt [10; 20; 30]%nat ["a"; "zz"; "mu"] (Some [[11; 12; 13]; [21; 22; 23]; [31; 32; 33]]%nat))
    (mkLs [1; 2; 3]%nat (Some [[1; 0; 0]; [0; 1; 0]; [0; 0; 1]]%nat) false)
  = (mkLs [30; 2; 10]%nat (Some [[33; 0; 31]; [0; 1; 0]; [13; 0; 11]]%nat) true, None).
Proof. reflexivity. Qed.
