(** * Specification vocabulary for C75: what a unit is configured with, given the arguments of its constructor *)
From Coq Require Import String List NArith ZArith Bool QArith.
From Verif Require Import Py Units Analyzer Objects.
Import ListNotations.
Local Open Scope nat_scope.
Local Open Scope list_scope.

(** the argument [n], or its default *)
Definition arg (kw : list (str * pyval)) (n : string) (default : pyval) : pyval := match sget (u n) kw with Some v => v | None => default end.
Definition texts (kw : list (str * pyval)) (n : string) : option (list str) := match sget (u n) kw with Some (VSeq l) => Some l | Some (VText s) => Some (map (fun c => [c]) s) | _ => None end.
Definition number (v : pyval) : option Q := match v with VNum q => Some q | _ => None end.
Definition integer (v : pyval) : option nat := match v with VNat n => Some n | _ => None end.
Definition pattern (own : str -> str -> str) (v : pyval) : option (str -> str -> str) := match v with VNone => Some own | VPattern f => Some f | _ => None end.
(** [None]: arguments of another kind (a one-shot iterator, a number instead of a list, ...) *)
Definition configured (k : uclass) (kw : list (str * pyval)) : option ucfg :=
  match k with
  | KDict => Some UDict
  | KUnkn => Some UUnkn
  | KFirstName => opt3 (UInit true) (texts kw "letters") (pattern name_pattern (arg kw "tag_pattern" VNone)) (number (arg kw "score" (VNum (1#10))))
  | KPatronymic => opt3 (UInit false) (texts kw "letters") (pattern patr_pattern (arg kw "tag_pattern" VNone)) (number (arg kw "score" (VNum (1#10))))
  | KNumber => option_map UNumber (number (arg kw "score" (VNum (9#10))))
  | KPunct => option_map UPunct (number (arg kw "score" (VNum (9#10))))
  | KLatin => option_map ULatin (number (arg kw "score" (VNum (9#10))))
  | KRoman => option_map URoman (number (arg kw "score" (VNum (9#10))))
  | KParticle => opt2 UParticle (texts kw "particles_after_hyphen") (number (arg kw "score_multiplier" (VNum (9#10))))
  | KHAdverb => option_map UHAdverb (number (arg kw "score_multiplier" (VNum (7#10))))
  | KHyph => opt2 UHyph (texts kw "skip_prefixes") (number (arg kw "score_multiplier" (VNum (75#100))))
  | KKnownPrefix => opt3 UKnownPrefix (texts kw "known_prefixes") (number (arg kw "score_multiplier" (VNum (75#100)))) (integer (arg kw "min_remainder_length" (VNat 3)))
  | KUnknownPrefix => option_map UUnknownPrefix (number (arg kw "score_multiplier" (VNum (1#2))))
  | KKnownSuffix => opt2 UKnownSuffix (number (arg kw "score_multiplier" (VNum (1#2)))) (integer (arg kw "min_word_length" (VNat 4)))
  end.

(** running the constructor calls of a program one after the other, until one raises *)
Fixpoint make (H : heap) (calls : list (uclass * list (str * pyval))) : heap * res (list nat) :=
  match calls with
  | [] => (H, Ok [])
  | (k, kw) :: r =>
    match new_unit H k kw with
    | (H1, Err e) => (H1, Err e)
    | (H1, Ok o) => match make H1 r with (H2, Err e) => (H2, Err e) | (H2, Ok os) => (H2, Ok (o :: os)) end
    end
  end.
(** the object [o] is the result of the call whose arguments mean [c] *)
Definition given (refs : list nat) (cfgs : list ucfg) (o : nat) (c : ucfg) : Prop := exists n, nth_error refs n = Some o /\ nth_error cfgs n = Some c.
Inductive item_of (refs : list nat) (cfgs : list ucfg) : oitem -> uitem -> Prop :=
| I_one : forall o c, given refs cfgs o c -> item_of refs cfgs (OOne o) (One c)
| I_group : forall l cs, Forall2 (given refs cfgs) l cs -> item_of refs cfgs (OGroup l) (Group cs).
(** making one analyzer after the other, numbered from [m] on *)
Fixpoint analyzers (argspec : bool) (H : heap) (m : nat) (jobs : list (list oitem)) : heap * res (list (list (nat * bool))) :=
  match jobs with
  | [] => (H, Ok [])
  | items :: r =>
    match init_units_obj argspec H m items with
    | (H1, Err e) => (H1, Err e)
    | (H1, Ok us) => match analyzers argspec H1 (S m) r with (H2, Err e) => (H2, Err e) | (H2, Ok l) => (H2, Ok (us :: l)) end
    end
  end.
(** [us] are unit objects of analyzer [m] with the configurations [cfgs] *)
Definition bound_as (H : heap) (m : nat) (us : list (nat * bool)) (cfgs : list (ucfg * bool)) : Prop :=
  Forall2 (fun ub cb => snd ub = snd cb /\ exists ob, nth_error (h_objs H) (fst ub) = Some ob /\ bound_cfg ob = Some (fst cb) /\ attr_of ob "morph" = VMorph m) us cfgs.
(** the unit objects of an item *)
Definition refs_of (it : oitem) : list nat := match it with OOne o => [o] | OGroup l => l end.
