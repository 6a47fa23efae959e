(** * Specification vocabulary: a compiled dictionary in terms of its source lexemes only (C89) *)
From Coq Require Import String List NArith ZArith Bool QArith.
From Verif Require Import Py Uni Tagset Dawg Dict Units Analyzer ConfigRu ConfigUk Compile Spec Spec2 Spec3 Spec15 Spec34 Spec35 Spec36 Spec38.
Import ListNotations.
Local Open Scope nat_scope.
Local Open Scope list_scope.

(** the shape of a lexeme: its rows (suffix, tag, prefix), see C35 *)
Definition shape (pp : list str) (lx : lexeme) : paradigm := match to_paradigm lx pp with Ok sr => snd sr | Err _ => [] end.
(** the lexemes of that shape *)
Definition shaped (pp : list str) (lxs : list lexeme) (P : paradigm) : list lexeme := filter (fun lx => paradigm_eqb (shape pp lx) P) lxs.
(** the last place of [q] in the list of paradigm prefixes *)
Definition prefix_place (pp : list str) (q : str) (pid : nat) : Prop := nth_error pp pid = Some q /\ forall j, pid < j -> nth_error pp j <> Some q.
Definition common (o : coptions) (lxs : list lexeme) (P : paradigm) : Prop := o_min_pop o <= length (shaped (o_prefixes o) lxs P).
(** how often the ending is met in row [i] of the lexemes of a shape *)
Definition shape_hits (o : coptions) (lxs : list lexeme) (e : str) (P : paradigm) (i : nat) : nat :=
  list_sum (map (fun lx : lexeme => match nth_error lx i, nth_error P i with Some (w, _), Some (s, _, q) => ending_hits q s (o_max_suffix o) e w | _, _ => 0 end)
    (shaped (o_prefixes o) lxs P)).
(** how often it is met in all rows of all lexemes of common shapes *)
Definition total_hits (o : coptions) (lxs : list lexeme) (e : str) : nat :=
  list_sum (map (fun lx : lexeme => if o_min_pop o <=? length (shaped (o_prefixes o) lxs (shape (o_prefixes o) lx))
    then list_sum (map (fun x : (str * str) * prow => let '((w, _), (s, _, q)) := x in ending_hits q s (o_max_suffix o) e w) (combine lx (shape (o_prefixes o) lx))) else 0) lxs).
(** the record (count, row [i] of shape [P]) belongs to the ending [e], among forms with prefix number [pid] *)
Definition source_record (o : coptions) (lxs : list lexeme) (pid : nat) (e : str) (c : nat) (P : paradigm) (i : nat) : Prop :=
  exists s t q, nth_error P i = Some (s, t, q) /\ In P (map (shape (o_prefixes o)) lxs) /\ prefix_place (o_prefixes o) q pid /\ common o lxs P /\
    c = shape_hits o lxs e P i /\ 1 <= c /\ o_min_freq o <= total_hits o lxs e /\
    forall P' i' s' t' q', In P' (map (shape (o_prefixes o)) lxs) -> nth_error P' i' = Some (s', t', q') -> prefix_place (o_prefixes o) q' pid -> common o lxs P' ->
      pos_text t' = pos_text t -> shape_hits o lxs e P' i' <= c.
(** tags are read from their texts *)
Definition tags_read (D : dict) : Prop := forall t, In t (d_gramtab D) -> t_gr t = split_tag (t_str t).
(** the analyzer answers every text *)
Definition answers_all (M : morph) : Prop := forall w, (exists ps, morph_parse M w = Ok ps) /\ exists ts, morph_tag M w = Ok ts.
(** both analyzers use the default units of the same language *)
Definition same_language (M1 M2 : morph) : Prop :=
  (has_units M1 RU_DEFAULT_UNITS /\ has_units M2 RU_DEFAULT_UNITS /\ knows_adjectives M1 /\ knows_adjectives M2) \/ (has_units M1 UK_DEFAULT_UNITS /\ has_units M2 UK_DEFAULT_UNITS).
(** the dictionary object over a compiled dictionary, with the tags an analyzer made of the texts (storage.py:36-49) *)
Definition dict_of (x : compiled) (gt : list tag) : dict :=
  MkDict (x_paradigms x) gt (o_prefixes (x_options x)) (x_suffixes x) (x_words x) (x_pred x) (o_max_suffix (x_options x)).
