(** * make_agree_with_number for numbers that are not integers
    The argument of make_agree_with_number is only used through % and comparisons (tagset.py:485-490), so fractions.Fraction and float
    are accepted as well; here a number is its rational value.  Python's modulo of a Fraction is exact, and so is that of a
    non-negative float; for a negative float the remainder is rounded, which is not modelled. *)
From Coq Require Import String List NArith ZArith Bool QArith Qround.
From Verif Require Import Py Uni Tagset Dawg Dict Units Analyzer.
Import ListNotations.
Local Open Scope nat_scope.
Local Open Scope list_scope.

(** num % d, Python: the remainder has the sign of the divisor *)
Definition qmod (x : Q) (d : positive) : Q := (x - inject_Z (Z.pos d * Qfloor (x / inject_Z (Z.pos d))))%Q.
(** tagset.py:486-491 *)
Definition agreement_index_q (num : Q) : nat :=
  let is_one := Qeq_bool (qmod num 10) 1 && negb (Qeq_bool (qmod num 100) 11) in
  if is_one then 0
  else if Qle_bool 2 (qmod num 10) && Qle_bool (qmod num 10) 4 && (negb (Qle_bool 10 (qmod num 100)) || Qle_bool 20 (qmod num 100)) then 1
  else 2.
(** tagset.py:493-513 numeral_agreement_grammemes *)
Definition numeral_agreement_q (pick : sset -> option str) (t : tag) (num : Q) : list (option str) :=
  let index := agreement_index_q num in
  let pos := attr pick PARTS_OF_SPEECH t in
  let case := attr pick CASES t in
  let gender := attr pick GENDERS t in
  let lit := map (fun s => Some (u s)) in
  if negb (opt_in pos ["NOUN"; "ADJF"; "PRTF"]%string) then []
  else if opt_is pos "NOUN" && negb (opt_in case ["nomn"; "accs"]%string) then
    (if index =? 0 then [Some (u "sing"); case] else [Some (u "plur"); case])
  else if index =? 0 then
    (if opt_is case "nomn" then lit ["sing"; "nomn"]%string else lit ["sing"; "accs"]%string)
  else if opt_is pos "NOUN" && (index =? 1) then lit ["sing"; "gent"]%string
  else if opt_in pos ["ADJF"; "PRTF"]%string && opt_is gender "femn" && (index =? 1) then lit ["plur"; "nomn"]%string
  else lit ["plur"; "gent"]%string.
(** analyzer.py:38-42 make_agree_with_number *)
Definition make_agree_with_number_q (pick : sset -> option str) (M : morph) (form : parse) (num : Q) : res (option parse) :=
  inflect_opt M form (numeral_agreement_q pick (p_tag form) num).
