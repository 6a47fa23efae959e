(** * Specification vocabulary for adding P(t|w) estimates (C66) *)
From Coq Require Import String List NArith ZArith Bool QArith.
From Verif Require Import Py Uni Tagset Dawg Dict Units Analyzer Json Storage Create Preprocess Probability AddProb Spec5.
Import ListNotations.
Local Open Scope nat_scope.
Local Open Scope list_scope.

(** the same call with probability_estimator_cls=None *)
Definition no_estimator (a : args) : args := MkArgs (a_path a) (a_lang a) (a_result a) (a_units a) EstNone (a_sub a).
(** the same analyzer with a P(t|w) table *)
Definition analyzer_with (z : analyzer) (T : cpd) : analyzer :=
  MkAnalyzer (with_table (z_morph z) T) (z_lang z) (z_path_arg z) (z_lang_arg z) (z_result z) (z_units z).
(** meta.json does not name itself or the P(t|w) table as the file of the tag table *)
Definition gramtab_apart (d : folder) : Prop :=
  forall m fmts f, load_meta d META = Ok m -> sget (u "gramtab_formats") m = Some (JObj fmts) -> sget (u "opencorpora-int") fmts = Some (JStr f) ->
    f <> META /\ f <> TABLE.
(** meta.json says that there is a table *)
Definition declares_table (d : folder) : Prop := exists m, load_meta d META = Ok m /\ json_true (meta_get (u "P(t|w)") m) = true.
(** corpus words that count for some word *)
Definition counts (M : morph) (x : str * list str) : bool := counts_for M (u_lower (m_uni M) (fst x)) x.
