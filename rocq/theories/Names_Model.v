(** Model of rabbit/common.py:8-24 (natural_sort) and python's [sorted] on strings. ASCII
    strings only. *)
From Coq Require Import List Arith NArith Ascii String Bool.
From Verif Require Import Order PyDict.
Import ListNotations.

Definition is_digit (a : ascii) : bool :=
  let n := nat_of_ascii a in (48 <=? n) && (n <=? 57).
(** str.lower on ASCII *)
Definition lower_ascii (a : ascii) : ascii :=
  let n := nat_of_ascii a in if (65 <=? n) && (n <=? 90) then ascii_of_nat (n + 32) else a.

(** re.split(r"(\d+)", s): leading non-digit run, then (digit run, non-digit run) pairs *)
Fixpoint nsplit (s : list ascii) : list ascii * list (list ascii * list ascii) :=
  match s with
  | [] => ([], [])
  | c :: s' =>
      let (h, t) := nsplit s' in
      if is_digit c then
        match h, t with
        | [], (d, n) :: t' => ([], (c :: d, n) :: t')
        | _, _ => ([], ([c], h) :: t)
        end
      else (c :: h, t)
  end.
Definition digits_value (d : list ascii) : N :=
  fold_left (fun acc a => (acc * 10 + N.of_nat (nat_of_ascii a - 48))%N) d 0%N.

(** natural_sort_key, common.py:8-11: ints at odd positions, lower-cased strings at even
    positions, so python never compares an int with a str *)
Definition keypart := (N + list ascii)%type.
Definition natural_sort_key (s : string) : list keypart :=
  let (h, t) := nsplit (list_ascii_of_string s) in
  inr (map lower_ascii h)
  :: flat_map (fun dn => [inl (digits_value (fst dn)); inr (map lower_ascii (snd dn))]) t.
Definition key_c : list keypart -> list keypart -> comparison :=
  lexc (sumc N.compare (lexc ascii_c)).

(** common.py:14-15; [strings] is any enumeration of the set *)
Definition natural_sort (strings : list string) : list string := sort_k natural_sort_key key_c strings.
(** common.py:18-21 *)
Definition natural_sort_dict {V} (d : dict V) : dict V := sort_k (fun kv => natural_sort_key (fst kv)) key_c d.
(** sorted(list_of_str) *)
Definition sorted_str (l : list string) : list string := sort_k (fun s => s) string_c l.

Lemma key_cmp : CmpLaws key_c.
Proof. apply lex_cmp, sum_cmp; [apply N_cmp|apply lex_cmp, ascii_cmp]. Qed.

Local Open Scope string_scope.
Example natural_sort_ex : natural_sort ["b10"; "B2"; "a"; "b9x"] = ["a"; "B2"; "b9x"; "b10"].
Proof. vm_compute. reflexivity. Qed.
Example key_not_injective : natural_sort_key "pdf01" = natural_sort_key "PDF1".
Proof. vm_compute. reflexivity. Qed.
