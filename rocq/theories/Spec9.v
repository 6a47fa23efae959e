(** * Specification vocabulary for creating and pickling analyzers (C29, C56) *)
From Coq Require Import String List NArith ZArith Bool.
From Verif Require Import Py Uni Tagset Dawg Dict Units Analyzer ConfigRu ConfigUk Json Storage Create.
Import ListNotations.
Local Open Scope nat_scope.
Local Open Scope list_scope.

(** an installed package provides [path] for [lang]: the last one with that name; "ru-old" is the old package, if there is one *)
Definition installed (W : world) (lang path : str) : Prop :=
  (lang = u "ru-old" /\ w_old W = Some path) \/
  ((lang <> u "ru-old" \/ w_old W = None) /\ exists l r, w_packages W = l ++ (lang, path) :: r /\ ~ In lang (map fst r)).
(** the language asked for: 'ru' when neither a path nor a language was given *)
Definition requested (a : args) : option str :=
  match a_lang a with Some l => Some l | None => match a_path a with Some _ => None | None => Some (u "ru") end end.
(** the folder the arguments select *)
Inductive picks (W : world) (a : args) : str -> Prop :=
| picks_path : forall p, a_path a = Some p -> picks W a p
| picks_env : forall p, a_path a = None -> w_env W = Some p -> picks W a p
| picks_package : forall p l, a_path a = None -> w_env W = None -> requested a = Some l -> installed W l p -> picks W a p.
(** the language a dictionary declares; JNull when it declares none *)
Definition declares (m : meta) (dl : jval) : Prop := (sget (u "language_code") m = None /\ dl = JNull) \/ sget (u "language_code") m = Some dl.
(** the defaults that belong to a language code *)
Definition language_units (lang : jval) (us : list uitem) : Prop :=
  (lang = JStr (u "uk") /\ us = UK_DEFAULT_UNITS) \/ (lang <> JStr (u "uk") /\ us = RU_DEFAULT_UNITS).
Definition language_substitutes (lang : jval) (r : replaces) : Prop :=
  (lang = JStr (u "uk") /\ r = [(chr "г", chr "ґ")]) \/ (lang <> JStr (u "uk") /\ r = [(chr "е", chr "ё")]).
(** a language code nothing is known about *)
Definition unknown_language (W : world) (l : str) : Prop := ~ In l [u "ru"; u "ru-old"; u "uk"] /\ ~ In l (w_attrs W).
(** the same analyzer, up to the state of the tag class that does not belong to the dictionary *)
Record same_analyzer (z z' : analyzer) : Prop := {
  sa_dict : m_dict (z_morph z') = m_dict (z_morph z); sa_units : m_units (z_morph z') = m_units (z_morph z);
  sa_prob : m_prob (z_morph z') = m_prob (z_morph z); sa_subst : m_subst (z_morph z') = m_subst (z_morph z);
  sa_lang : z_lang z' = z_lang z; sa_result : z_result z' = z_result z;
  sa_items : z_units z' = z_units z; sa_path : z_path_arg z' = z_path_arg z; sa_lang_arg : z_lang_arg z' = z_lang_arg z;
  sa_known : tc_known (m_tc (z_morph z')) = tc_known (m_tc (z_morph z));
  sa_parse : forall w, morph_parse (z_morph z') w = morph_parse (z_morph z) w;
  sa_tag : forall w, morph_tag (z_morph z') w = morph_tag (z_morph z) w;
  sa_lexeme : forall p, get_lexeme (z_morph z') p = get_lexeme (z_morph z) p }.
(** the same call without probability_estimator_cls and char_substitutes *)
Definition forget (a : args) : args := MkArgs (a_path a) (a_lang a) (a_result a) (a_units a) EstAuto SubAuto.
(** the same DAWG library, byte order and Unicode tables *)
Record same_libraries (W W' : world) : Prop := { sl_io : w_io W' = w_io W; sl_big : w_big W' = w_big W; sl_uni : w_uni W' = w_uni W; sl_ext : w_ext W' = w_ext W; sl_cpd : w_cpd W' = w_cpd W }.

(** the metadata announce P(t|w) estimates: the value is there and is not one Python counts as false *)
Definition counts_as_false (v : jval) : Prop :=
  v = JNull \/ v = JBool false \/ v = JInt 0%Z \/ v = JStr [] \/ v = JArr [] \/ v = JObj [] \/ (exists s, v = JReal s /\ forall c, In c s -> ~ (49 <= c <= 57)%N).
Definition announces_estimates (m : meta) : Prop := exists v, sget (u "P(t|w)") m = Some v /\ ~ counts_as_false v.
(** the table an analyzer works with, as the arguments and the folder [p] with metadata [m] determine it *)
Definition right_table (W : world) (a : args) (p : str) (m : meta) (t : option cpd) : Prop :=
  match a_est a with
  | EstNone => t = None
  | EstClass load => exists c, load p = Ok c /\ t = Some c
  | EstAuto => (announces_estimates m -> exists b c, sget (u "p_t_given_w.intdawg") (w_folder W p) = Some b /\ w_cpd W b = Ok c /\ t = Some c) /\
               (~ announces_estimates m -> t = None)
  end.
