(** * Specification vocabulary: the two layouts of a dictionary folder (C92) *)
From Coq Require Import String List NArith ZArith Bool.
From Verif Require Import Py Dawg Dict Compile Json Storage Create AddProb Spec5.
Import ListNotations.
Local Open Scope nat_scope.
Local Open Scope list_scope.

(** the file in which dictionaries of format 2.4 keep the paradigm prefixes *)
Notation OLD_PREFIXES := (u "paradigm-prefixes.json").
Notation COMPILE := (u "compile_options").
Notation PREDICTION := (u "prediction_options").
(** field [k] of the compile options in meta.json *)
Definition option_field (m : meta) (k : str) (v : jval) : Prop := exists o, sget COMPILE m = Some (JObj o) /\ sget k o = Some v.
Definition no_option_field (m : meta) (k : str) : Prop := sget COMPILE m = None \/ exists o, sget COMPILE m = Some (JObj o) /\ sget k o = None.
(** the folder states the paradigm prefixes: in meta.json, or else in the file of the old layout *)
Definition states_prefixes (d : folder) (m : meta) (pp : list str) : Prop :=
  option_field m (u "paradigm_prefixes") (JArr (map JStr pp)) \/
  no_option_field m (u "paradigm_prefixes") /\ read_json d OLD_PREFIXES = Ok (JArr (map JStr pp)).
(** it states the longest ending: among the compile options, or else among the prediction options of the old layout *)
Definition states_length (m : meta) (n : Z) : Prop :=
  option_field m (u "max_suffix_length") (JInt n) \/
  no_option_field m (u "max_suffix_length") /\ exists q, sget PREDICTION m = Some (JObj q) /\ sget (u "max_suffix_length") q = Some (JInt n).
(** the two folders differ at most in these places *)
Record same_elsewhere (d d' : folder) (m m' : meta) : Prop := {
  se_meta : load_meta d META = Ok m; se_meta' : load_meta d' META = Ok m';
  se_files : forall f, f <> META -> f <> OLD_PREFIXES -> sget f d' = sget f d;
  se_keys : forall k, k <> COMPILE -> k <> PREDICTION -> sget k m' = sget k m;
  se_gramtab : forall fmts f, sget (u "gramtab_formats") m = Some (JObj fmts) -> sget (u "opencorpora-int") fmts = Some (JStr f) -> f <> META /\ f <> OLD_PREFIXES }.
