(** * Specification of the unification of tag spellings (C39), independent of the model's helpers *)
From Coq Require Import String List NArith Bool.
From Verif Require Import Py Tagset Compile Spec Spec2 Spec3.
Import ListNotations.
Local Open Scope nat_scope.
Local Open Scope list_scope.

(** the tag texts of a dictionary, in reading order *)
Definition tags_of (lx : lexemes) : list str := flat_map (fun l => map snd (snd l)) lx.
(** two tag texts stand for the same grammemes (loc1/loct, gen1/gent and acc1/accs being the same) *)
Definition same_meaning (a b : str) : Prop := exists ga gb, reads_as a ga /\ reads_as b gb /\ same_grammemes ga gb.
(** the first space of a text is after [n] characters *)
Definition first_space (x : str) (n : nat) : Prop := exists a b, x = a ++ u " " ++ b /\ length a = n /\ ~ In (chr " ") a.
(** both texts have their first space at the same place, or neither has one *)
Definition same_space (x y : str) : Prop := forall n, first_space x n <-> first_space y n.
(** there are two spellings of the meaning of [t]; if [skip] holds, two with the space at one place *)
Definition clash (lx : lexemes) (skip : bool) (t : str) : Prop :=
  exists x y, x <> y /\ In x (tags_of lx) /\ In y (tags_of lx) /\ same_meaning x t /\ same_meaning y t /\ (skip = true -> same_space x y).
(** [x] is in [l] before any [y] *)
Definition seen_before (x y : str) (l : list str) : Prop := exists a b, l = a ++ x :: b /\ ~ In y a.
Definition uses (lx : lexemes) (x : str) : nat := count_occ grammeme_dec (tags_of lx) x.
(** the most frequent spelling of the meaning of [t]; of equally frequent ones, that seen first *)
Definition preferred (lx : lexemes) (t top : str) : Prop :=
  In top (tags_of lx) /\ same_meaning top t /\
  forall y, In y (tags_of lx) -> same_meaning y t -> y <> top ->
    uses lx y < uses lx top \/ (uses lx y = uses lx top /\ seen_before top y (tags_of lx)).
(** [r] is [t] with every loc1, gen1 and acc1 grammeme written loct, gent and accs, and nothing else changed:
    the same order, the same commas and the same space *)
Definition respelled (t r : str) : Prop :=
  (~ In (chr " ") t /\ exists f, comma_pieces t f /\ r = join (u ",") (map common_case f)) \/
  (exists a b f s, t = a ++ u " " ++ b /\ ~ In (chr " ") a /\ comma_pieces a f /\ comma_pieces b s /\
     r = join (u ",") (map common_case f) ++ u " " ++ join (u ",") (map common_case s)).
(** the whole effect: every tag text is replaced by [f] of it, and nothing else changes *)
Definition with_tags (f : str -> str) (lx : lexemes) : lexemes :=
  map (fun l => (fst l, map (fun wt => (fst wt, f (snd wt))) (snd l))) lx.
(** what the replacement [f] does to every tag text [t] of the dictionary *)
Definition spelled (lx : lexemes) (skip : bool) (f : str -> str) : Prop :=
  forall t, In t (tags_of lx) -> exists r, respelled t r /\
    (In r (tags_of lx) -> clash lx skip t -> preferred lx t (f t)) /\
    (~ In r (tags_of lx) \/ ~ clash lx skip t -> f t = r).
(** a tag text without loc1, gen1 and acc1 *)
Definition plain_tag (t : str) : Prop := forall gs g, reads_as t gs -> In g gs -> common_case g = g.
