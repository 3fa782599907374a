(** Property C116. *)
From Coq Require Import List Arith Bool String Lia Reals Lra ZArith.
From Verif Require Import PyList PyDict Num RBase Names_Model Writer_Model Card_Model Merge_Model Clip_Model Clip_Spec Clip_Proof.
Import ListNotations.
Local Open Scope nat_scope.
Local Open Scope string_scope.
Local Open Scope list_scope.

(** The command line: a threshold per file, the last one counts; anything else is an error before a file is read. *)
Theorem C116_thresholds : forall {V} (parse : string -> option V) args d, clip_dict parse args = Ok d ->
  forall n, (forall t, dget n d = Some t <-> given parse args n t) /\ (dget n d = None <-> not_given args n).
Proof. exact @dict_spec. Qed.
Theorem C116_arguments : forall {V} (parse : string -> option V) args, (exists d, clip_dict parse args = Ok d) <->
  Nat.Even (List.length args) /\ (forall i n x, nth_error args (2 * i) = Some n -> nth_error args (2 * i + 1) = Some x -> parse x <> None).
Proof. exact @dict_total. Qed.
Theorem C116_errors : forall {V} {NV : Num V} rn (parse : string -> option V) ty args ins e, clip_dict parse args = Raise e ->
  e = ValueError /\ clip_merge rn parse ty args ins = Raise ValueError.
Proof. intros V NV rn parse ty args ins e E. rewrite <- (dict_error parse args e E). split; auto. unfold clip_merge. rewrite E. auto. Qed.

(** The calls for a file are those without clipping, with nominal templates, their variances and variations clipped; data, names,
    channels, groups and errors are the same. *)
Theorem C116_calls : forall {V} {NV : Num V} rn (d : dict V) n w,
  clip_input_calls rn d (n, w) =
  (map (on_op (match dget n d with None => fun v => v | Some t => nclip t end)) (fst (input_calls rn w)), snd (input_calls rn w)).
Proof. intros V NV rn d n w. rewrite input_effect. reflexivity. Qed.
(** Thresholds for names that are not among the files are ignored; without thresholds this is the merging of C84. *)
Theorem C116_ignored : forall {V} {NV : Num V} rn (parse : string -> option V) ty args ins d, clip_dict parse args = Ok d ->
  (forall x, In x ins -> not_given args (fst x)) -> clip_merge rn parse ty args ins = merge rn ty (map snd ins).
Proof. exact @merge_off. Qed.

Local Open Scope R_scope.
(** A clipped template is at least the threshold and unchanged above it. *)
Theorem C116_values : forall t v : R, t <= nclip t v /\ (t <= v -> nclip t v = v) /\ (v <= t -> nclip t v = t) /\ nclip t (nclip t v) = nclip t v.
Proof.
  intros t v. rewrite !nclip_R. split; [apply Rmax_r|]. split; [intros; apply Rmax_left; auto|]. split; [intros; apply Rmax_right; auto|].
  rewrite Rmax_left; auto. apply Rmax_r.
Qed.
(** Variations never grow or change sign; they are unchanged in bins where both templates are above the threshold and vanish where both are
    below. *)
Theorem C116_variations : forall t n u, 0 < t -> 0 < n -> 0 < u ->
  let a := ln (nclip t u / nclip t n) in let b := ln (u / n) in
  Rabs a <= Rabs b /\ 0 <= a * b /\ (t <= n -> t <= u -> a = b) /\ (n <= t -> u <= t -> a = 0).
Proof. exact variation_shrinks. Qed.
(** The sum of a template grows by at most the threshold per bin. *)
Theorem C116_total : forall t vs, 0 <= t -> (forall v, In v vs -> 0 <= v) -> sum_of vs <= sum_of (map (nclip t) vs) <= sum_of vs + INR (List.length vs) * t.
Proof. exact total_grows. Qed.
(** A process without events in a channel gets the threshold in all of its bins. *)
Theorem C116_absent_process : forall t n, 0 <= t -> sum_of (map (nclip t) (repeat 0 n)) = INR n * t.
Proof.
  intros t n T. induction n as [|n IH]; [cbn; lra|]. rewrite S_INR. cbn [repeat map].
  change (sum_of (nclip t 0 :: map (nclip t) (repeat 0 n))) with (nclip t 0 + sum_of (map (nclip t) (repeat 0 n))). rewrite IH, nclip_R, Rmax_right by auto. ring.
Qed.
(** Bins above the threshold are not left alone: their variance is clipped at the same number. *)
Theorem C116_variance_refuted : exists (t v s : R), 0 < t /\ t <= v /\ 0 < s /\
  on_op (nclip t) (AddProcess (HDense [v] [s]) "p" "c" true None) = AddProcess (HDense [v] [4 * s]) "p" "c" true None.
Proof.
  exists 4, 10, 1. repeat split; try lra. cbn [on_op on_hist map]. rewrite !nclip_R, Rmax_left, Rmax_right by lra. rewrite Rmult_1_r. auto.
Qed.
Close Scope R_scope.

(** An executable case: three bins, one of them empty, one with a small variance *)
#[local] Existing Instance Num_Z.
Definition ex_prog : list (op Z) :=
  [ AddChannel (Some "c") [(3, 3)] false false; AddProcess (HDense [5; 0; 3]%Z [5; 0; 1]%Z) "s" "c" true None; AddData "c" [4; 1; 0]%Z [4; 1; 0]%Z;
    AddSystematic (SPair (HDense [6; 0; 4]%Z []) (HDense [4; 0; 2]%Z [])) "k" "s" "c" 1%Z true NoSym false (mkKw false true None) ].
Definition ex_file : result (workspace Z) := st <- run (mkCfg false Normal false) init_state ex_prog ;; write (mkCfg false Normal false) st.
Definition ex_parse (s : string) : option Z := if String.eqb s "2" then Some 2%Z else if String.eqb s "3" then Some 3%Z else None.
Example ex_dict : clip_dict ex_parse ["a"; "3"; "b"; "3"; "a"; "2"] = Ok [("a", 2%Z); ("b", 3%Z)] /\
  clip_dict ex_parse ["a"] = Raise ValueError /\ clip_dict ex_parse ["a"; "x"] = Raise ValueError.
Proof. repeat split. Qed.
Example ex_calls :
  (w <- ex_file ;; Ok (clip_input_calls (mkRen [] [] [] []) [("a", 2%Z)] ("a", w))) =
  Ok ([ AddChannel (Some "c") [(3, 3)] false false; AddProcess (HDense [5; 2; 3]%Z [5; 2; 2]%Z) "s" "c" true None; AddData "c" [4; 1; 0]%Z [4; 1; 0]%Z;
        AddSystematic (SPair (HDense [7; 2; 5]%Z []) (HDense [3; 2; 2]%Z [])) "k" "s" "c" 1%Z true NoSym false (mkKw false true (Some ["k"])) ], None).
Proof. vm_compute. reflexivity. Qed.
(** the merged file has the clipped template *)
Example ex_merged : forall W,
  (w <- ex_file ;; clip_merge (mkRen [] [] [] []) ex_parse Normal ["a"; "3"; "a"; "2"] [("a", w)]) = W ->
  (w <- W ;; Ok (match w_tensors w with TDense norm _ => map (fun b => norm b 0%nat) [0; 1; 2]%nat | _ => [] end)) = Ok [5; 2; 3]%Z.
Proof. intros W <-. vm_compute. reflexivity. Qed.

Print Assumptions C116_thresholds.
Print Assumptions C116_arguments.
Print Assumptions C116_errors.
Print Assumptions C116_calls.
Print Assumptions C116_ignored.
Print Assumptions C116_values.
Print Assumptions C116_variations.
Print Assumptions C116_total.
Print Assumptions C116_absent_process.
Print Assumptions C116_variance_refuted.
