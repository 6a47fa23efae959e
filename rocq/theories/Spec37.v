(** * Specification vocabulary for attempts to create an analyzer (C87) *)
From Coq Require Import String List NArith ZArith Bool.
From Verif Require Import Py Uni Tagset Dawg Dict Units Analyzer ConfigRu ConfigUk Json Storage Create Spec Spec9.
Import ListNotations.
Local Open Scope nat_scope.
Local Open Scope list_scope.

(** the grammeme table in the folder the arguments select *)
Definition its_table (W : world) (a : args) (rows : list grow) : Prop :=
  exists p j, picks W a p /\ read_json (w_folder W p) (u "grammemes.json") = Ok j /\ as_rows j = Ok rows.
(** the units asked for: the argument, or the default units of a language *)
Definition asked_units (a : args) (items : list uitem) : Prop :=
  a_units a = Some items \/ (a_units a = None /\ exists lang, language_units lang items).
(** [g] is a grammeme that units of this kind add to the class *)
Definition unit_adds (c : ucfg) (g : str) : Prop := In g (map fst (unit_aliases c)).
(** two outcomes of a constructor call: the same exception, or the same analyzer *)
Definition same_outcome (r r' : res analyzer) : Prop :=
  match r, r' with Ok z, Ok z' => same_analyzer z z' | Err e, Err e' => e = e' | _, _ => False end.
