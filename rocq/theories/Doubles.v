(** * Binary64 numbers with their bounded exponents
    Rounding.v rounds to 53 bits with unbounded exponents.  CPython's floats are IEEE 754 doubles: below 2^-1022 the
    numbers are the multiples of 2^-1074, and results of 2^1024 - 2^970 or more become infinite.
    The code modelled is that of Rounding.v (analyzer.py:73-101, :301-341, units/*.py), with [fl := dbl].
    Simplification: infinity is represented by the number 2^1024, and arithmetic on it is not modelled further
    (only the quotient 1.0 / sum of analyzer.py:83 can become infinite; C72_double shows when nothing does). *)
From Coq Require Import List NArith ZArith Bool QArith Qround Qabs Qpower.
From Verif Require Import Py Uni Tagset Dawg Dict Utils Shapes Units Analyzer Rounding.
Import ListNotations.
Local Open Scope nat_scope.
Local Open Scope list_scope.

(** IEEE 754, round to nearest, ties to even *)
Definition dbl_pos (a : Q) : Q :=
  if Qle_bool (pow2 1024 - pow2 970) a then pow2 1024
  else if Qle_bool (pow2 (-1022)) a then round_pos a
  else (inject_Z (nearest_int (a / pow2 (-1074))) * pow2 (-1074))%Q.
Definition dbl (x : Q) : Q :=
  match (x ?= 0)%Q with
  | Eq => 0%Q
  | Gt => dbl_pos x
  | Lt => (- dbl_pos (- x))%Q
  end.
(** morph.parse(word), morph.tag(word), with doubles (analyzer.py:301-341) *)
Definition parse_dbl (M : morph) (word : str) : res (list parse) := fst (analyze_fl dbl (fuel_for M word) M) word.
Definition tag_dbl (M : morph) (word : str) : res (list tag) := snd (analyze_fl dbl (fuel_for M word) M) word.
