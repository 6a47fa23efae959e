(** * Specification vocabulary for C69: lexemes of words analysed through a shorter word *)
From Coq Require Import String List NArith ZArith Bool QArith.
From Verif Require Import Py Uni Tagset Dawg Dict Units Analyzer Spec.
Import ListNotations.
Local Open Scope nat_scope.
Local Open Scope list_scope.

(** the form [g] is the form [f] with something added, by the unit number [i] *)
Definition prefixed_form (i : nat) (a : str) (f g : parse) : Prop :=
  p_word g = a ++ p_word f /\ p_tag g = p_tag f /\ p_nf g = a ++ p_nf f /\ p_stack g = p_stack f ++ [MStr (Root i) a].
Definition suffixed_form (i : nat) (a : str) (f g : parse) : Prop :=
  p_word g = p_word f ++ a /\ p_tag g = p_tag f /\ p_nf g = p_nf f ++ a /\ p_stack g = p_stack f ++ [MStr (Root i) a].
Definition left_form (i : nat) (l : str) (f g : parse) : Prop :=
  p_word g = l ++ u "-" ++ p_word f /\ p_tag g = p_tag f /\ p_nf g = l ++ u "-" ++ p_nf f /\ p_stack g = [MHyphFixed (Root i) l (p_stack f)].
(** both parts written together *)
Definition joined_form (i : nat) (l r g : parse) : Prop :=
  p_word g = p_word l ++ u "-" ++ p_word r /\ p_tag g = p_tag l /\ p_nf g = p_nf l ++ u "-" ++ p_nf r /\ p_stack g = [MHyphBoth (Root i) (p_stack l) (p_stack r)].

(** grammemes that count as the same when two parts are matched *)
Definition alike (g : str) : str :=
  if str_eqb g (u "V-oy") then u "V-ey" else if str_eqb g (u "gen1") then u "gent" else if str_eqb g (u "loc1") then u "loct" else g.
Definition has_alike (t : tag) (g : str) : Prop := In g (map alike (t_gr t)).
(** [n] grammemes are in one of the tags only *)
Definition apart (t t' : tag) (n : nat) : Prop :=
  exists d, NoDup d /\ length d = n /\ forall g, In g d <-> (has_alike t g /\ ~ has_alike t' g) \/ (has_alike t' g /\ ~ has_alike t g).
(** [l] is the first of those forms that fit [r] best *)
Definition best_match (ls : list parse) (r l : parse) : Prop :=
  exists x y n, ls = x ++ l :: y /\ apart (p_tag l) (p_tag r) n /\
    (forall l' m, In l' x -> apart (p_tag l') (p_tag r) m -> n < m) /\ (forall l' m, In l' y -> apart (p_tag l') (p_tag r) m -> n <= m).

(** the reading comes from the dictionary, through any number of attaching units *)
Definition attaching (c : ucfg) : Prop :=
  match c with UKnownPrefix _ _ _ | UUnknownPrefix _ | UKnownSuffix _ _ | UParticle _ _ => True | _ => False end.
Definition unit_is (M : morph) (i : nat) (P : ucfg -> Prop) : Prop := exists b tm, nth_error (m_units M) i = Some (b, tm) /\ P (b_cfg b).
Definition from_dictionary (M : morph) (st : list method) : Prop :=
  exists r w para idx rest, st = MDict r w para idx :: rest /\
    (forall j, r = Root j -> unit_is M j (fun c => c = UDict)) /\
    forall m, In m rest -> exists i s, m = MStr (Root i) s /\ unit_is M i attaching.

(** the reading starts at a dictionary word *)
Definition dictionary_based (p : parse) : Prop := exists r w para idx rest, p_stack p = MDict r w para idx :: rest.
(** the form [g] is the dictionary-style form [f], credited to the ending [e] *)
Definition predicted_form (i : nat) (e : str) (f g : parse) : Prop :=
  p_word g = p_word f /\ p_tag g = p_tag f /\ p_nf g = p_nf f /\ p_stack g = p_stack f ++ [MStr (Root i) e].
Definition modest (la lb : list parse) : Prop :=
  la <> [] /\ forall f, In f (la ++ lb) -> (N.of_nat (length (t_gr (p_tag f))) < 500000)%N.
