(** * Specification vocabulary for C80: the order of dictionary records *)
From Coq Require Import String List NArith Bool.
From Verif Require Import Py Uni Tagset Dawg Dict Units Analyzer Compile.
Import ListNotations.
Local Open Scope nat_scope.
Local Open Scope list_scope.

(** [a] comes before [b] in the order of code points: a proper prefix of it, or smaller at the first difference *)
Definition text_before (a b : str) : Prop :=
  (exists y r, b = a ++ y :: r) \/ (exists c x y ra rb, a = c ++ x :: ra /\ b = c ++ y :: rb /\ (x < y)%N).

(** A record of numbers below 65536 is written big-endian, two bytes each, and the bytes as base64 text:
    one sign per six bits. [signs2], [signs3]: the values of those signs. *)
Definition signs2 (v : nat * nat) : list N :=
  let p := N.of_nat (fst v) in let i := N.of_nat (snd v) in
  [p / 1024; p / 16 mod 64; p mod 16 * 4 + i / 16384; i / 256 mod 64; i / 4 mod 64; i mod 4 * 16]%N.
Definition signs3 (v : nat * nat * nat) : list N :=
  let c := N.of_nat (fst (fst v)) in let p := N.of_nat (snd (fst v)) in let i := N.of_nat (snd v) in
  [c / 1024; c / 16 mod 64; c mod 16 * 4 + p / 16384; p / 256 mod 64; p / 4 mod 64; p mod 4 * 16 + i / 4096; i / 64 mod 64; i mod 64]%N.
(** the place of the sign with value n (A-Z, a-z, 0-9, +, / for 0..63) in the order of code points: + / 0-9 A-Z a-z *)
Definition place (n : N) : N :=
  (if n =? 62 then 0 else if n =? 63 then 1 else if 52 <=? n then n - 50 else n + 12)%N.
Definition signs_before (a b : list N) : Prop :=
  exists c x y ra rb, a = c ++ x :: ra /\ b = c ++ y :: rb /\ (place x < place y)%N.
(** the record (paradigm, form) comes before another; the record (count, paradigm, form) comes before another *)
Definition record_before (v w : nat * nat) : Prop := signs_before (signs2 v) (signs2 w).
Definition record3_before (v w : nat * nat * nat) : Prop := signs_before (signs3 v) (signs3 w).
(** [w] is stored with the record [v] *)
Definition recorded {V} (d : rdawg V) (w : str) (v : V) : Prop := exists vals, In (w, vals) d /\ In v vals.
(** two dictionary readings: by their words, then by their records *)
Definition record_of (p : parse) (a i : nat) : Prop := p_stack p = [MDict (Root 0) (p_word p) a i].
Definition by_record (p q : parse) : Prop :=
  exists a i b j, record_of p a i /\ record_of q b j /\ record_before (a, i) (b, j).
Definition by_word_and_record (p q : parse) : Prop :=
  text_before (p_word p) (p_word q) \/ (p_word p = p_word q /\ by_record p q).
