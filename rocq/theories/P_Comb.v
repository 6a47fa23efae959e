(** * C74: combinations_of_all_lengths *)
From Coq Require Import String List Arith Sorted.
From Verif Require Import Py Utils Spec24 L_Comb.
Import ListNotations.
Local Open Scope nat_scope.
Local Open Scope list_scope.

(** every non-empty choice of positions exactly once, shorter ones first, equally long ones in lexicographic order; 2^n - 1 in all *)
Theorem C74_combinations : forall (A : Type) (l : list A) (d : A), exists ps, combinations_of_all_lengths l = map (map (fun i => nth i l d)) ps /\
  (forall p, In p ps <-> selection (length l) p) /\ StronglySorted before ps /\ length ps = 2 ^ length l - 1.
Proof. exact @combinations_spec. Qed.
Print Assumptions C74_combinations.

(** the example of the docstring *)
Example C74_case : combinations_of_all_lengths (u "ABC") = [u "A"; u "B"; u "C"; u "AB"; u "AC"; u "BC"; u "ABC"].
Proof. reflexivity. Qed.
