(** * Specification vocabulary for C72: floating point scores *)
From Coq Require Import String List NArith ZArith Bool QArith.
From Verif Require Import Py Uni Tagset Dawg Dict Units Analyzer Spec.
Import ListNotations.
Local Open Scope nat_scope.
Local Open Scope list_scope.

(** the two parses differ in their scores only *)
Definition same_reading (p q : parse) : Prop :=
  p_word p = p_word q /\ p_tag p = p_tag q /\ p_nf p = p_nf q /\ p_stack p = p_stack q.
(** each of the two numbers is at most (1 + 2^-52)^k times the other *)
Definition off_by (k : nat) (x y : Q) : Prop :=
  (x <= y * Qpower (4503599627370497 # 4503599627370496) (Z.of_nat k) /\ y <= x * Qpower (4503599627370497 # 4503599627370496) (Z.of_nat k))%Q.
(** both calls return, with the same readings in the same order, or both raise the same exception *)
Definition same_readings (a b : res (list parse)) : Prop :=
  match a, b with
  | Ok ps, Ok qs => Forall2 same_reading ps qs
  | Err e, Err e' => e = e'
  | _, _ => False
  end.
(** the numbers the scores are computed from: the counts of the prediction data (16 bit in the file
    format; the examples of one ending are fewer than 2^33 altogether) and the values of the
    probability table (at most 1000000) *)
Definition counts_of {K : Type} (l : list (K * list (nat * nat * nat))) : list nat :=
  map (fun v => fst (fst v)) (flat_map snd l).
Definition small_numbers (M : morph) : Prop :=
  (forall dawg, In dawg (d_pred (m_dict M)) -> forall s,
     Forall (fun c => (Z.of_nat c < 2 ^ 16)%Z) (counts_of (similar_items dawg (m_subst M) s)) /\
     (Z.of_nat (list_sum (counts_of (similar_items dawg (m_subst M) s))) < 2 ^ 33 - 1)%Z) /\
  (forall d k n, m_prob M = Some d -> sget k d = Some n -> (Z.of_N n < 2 ^ 50)%Z).
(** inflection: the tags of the word's lexeme differ in size by less than 12 grammemes, and the number
    of grammemes of each of them, and of the word's tag and the requirement together, is below 2^39 *)
Definition sizes_ok (form : parse) (req : sset) (lex : list parse) : Prop :=
  (Z.of_nat (length (t_gr (p_tag form)) + length req) < 2 ^ 39)%Z /\
  (forall f, In f lex -> (Z.of_nat (length (t_gr (p_tag f))) < 2 ^ 39)%Z) /\
  (forall f f', In f lex -> In f' lex -> slen (t_gr (p_tag f)) < slen (t_gr (p_tag f')) + 12).

(** two tables with the same keys whose values differ by at most one millionth *)
Definition same_table (a b : cpd) : Prop :=
  Forall2 (fun x y => fst x = fst y /\ (snd x <= snd y + 1)%N /\ (snd y <= snd x + 1)%N) a b.
