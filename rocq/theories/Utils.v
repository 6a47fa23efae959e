(** * Model of pymorphy2/utils.py (the pure functions) *)
From Coq Require Import String List NArith ZArith Bool.
From Verif Require Import Py.
Import ListNotations.
Local Open Scope nat_scope.
Local Open Scope list_scope.

(** utils.py:26-43 combinations_of_all_lengths.  itertools.combinations(it, k) in
    lexicographic position order. *)
Fixpoint combinations {A} (k : nat) (l : list A) : list (list A) :=
  match k with
  | 0 => [[]]
  | S k' => match l with
            | [] => []
            | x :: r => map (cons x) (combinations k' r) ++ combinations k r
            end
  end.
Definition combinations_of_all_lengths {A} (l : list A) : list (list A) :=
  flat_map (fun num => combinations (num + 1) l) (seq 0 (length l)).

(** utils.py:46-74 longest_common_substring: the inner [for j] loop *)
Definition lcs_inner (data : list str) (first : str) (i : nat) (substr : str) : str :=
  fold_left (fun best j =>
               let cand := firstn j (skipn i first) in        (* data[0][i:i+j] *)
               if (length best <? j) && forallb (substrb cand) data then cand else best)
            (seq 0 (length first - i + 1)) substr.
(** utils.py:65-74 *)
Definition longest_common_substring (data : list str) : str :=
  match data with
  | [] => []
  | [x] => x
  | x :: _ =>
    match x with
    | [] => []
    | _ => fold_left (fun best i => lcs_inner data x i best) (seq 0 (length x)) []
    end
  end.

(** utils.py:92-112 largest_elements.  Keys are integers here (the callers use
    integer counts and lengths); [set(map(key, it))] is any duplicate-free
    enumeration of the keys, heapq.nlargest the n first of the descending sort. *)
Definition zmem (k : Z) (l : list Z) : bool := existsb (Z.eqb k) l.
Fixpoint znodup (l : list Z) : list Z :=
  match l with
  | [] => []
  | x :: r => if zmem x r then znodup r else x :: znodup r
  end.
Definition nlargest (n : nat) (l : list Z) : list Z := firstn n (sort_desc Z.geb l).
Definition largest_elements {A} (key : A -> Z) (n : nat) (l : list A) : list A :=
  let top := nlargest n (znodup (map key l)) in
  filter (fun el => zmem (key el) top) l.

(** utils.py:115-122 word_splits.  range(1, 1+max_split) is empty for max_split <= 0. *)
Definition word_splits_with (min_reminder max_prefix : nat) (w : str) : list (str * str) :=
  let max_split := Z.min (Z.of_nat max_prefix) (Z.of_nat (length w) - Z.of_nat min_reminder) in
  map (fun i => (firstn i w, skipn i w)) (seq 1 (Z.to_nat max_split)).
(** default arguments min_reminder=3, max_prefix_length=5 *)
Definition word_splits (w : str) : list (str * str) := word_splits_with 3 5 w.
