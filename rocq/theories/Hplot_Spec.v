(** What a plot of histograms has to show. *)
From Coq Require Import Reals List Arith Bool String.
From Verif Require Import RBase PyList PyDict Hplot_Model.
Import ListNotations.
Local Open Scope nat_scope.
Local Open Scope string_scope.

(** an index of a bin *)
Definition valid (axes : list (string * nat)) (v : list nat) : Prop := Forall2 (fun a i => i < snd a) axes v.
(** the k-th name of a variation stands for: the k-th file, then the variations of the result, then the groups *)
Definition fit_type (a : vargs) (k : nat) : string := match a_types a with [t] => t | l => nth k l "" end.
Definition meant (a : vargs) (k : nat) : vsource :=
  if Nat.ltb k (a_files a) then VFile k (fit_type a k)
  else if Nat.ltb k (List.length (names_of a)) then VNominal (nth k (names_of a) "")
  else VGroup (nth (k - List.length (names_of a)) (a_groups a) "").
(** names for all files, and one type for all files or one for each *)
Definition complete (a : vargs) : Prop :=
  a_files a <= List.length (names_of a) /\ (List.length (a_types a) = 1 \/ List.length (a_types a) = a_files a) /\ (a_names a = None -> a_files a = 0).
(** variance of the sum of all bins with covariance C *)
Definition var_of_sum (n : nat) (C : nat -> nat -> R) : R := sumR (map (fun i => sumR (map (C i) (seq 0 n))) (seq 0 n)).
(** the names that are not files are variations of the result, and the groups are available *)
Definition usable (a : vargs) (known : string -> bool) (available : option (list string)) : Prop :=
  (forall k, a_files a <= k < List.length (names_of a) -> known (nth k (names_of a) "") = true) /\
  (a_groups a <> [] -> exists av, available = Some av /\ forall g, In g (a_groups a) -> In g av).
