(** * Specification vocabulary: where a normal form comes from (C93) *)
From Coq Require Import String List NArith ZArith Bool QArith.
From Verif Require Import Py Uni Tagset Dawg Shapes Dict Units Analyzer ConfigRu ConfigUk Spec Spec2 Spec14 Spec15 Spec34 Spec35 Spec36 Spec38.
Import ListNotations.
Local Open Scope nat_scope.
Local Open Scope list_scope.

(** the default units of a shipped language, with its initials, its particles and its known prefixes *)
Definition shipped (M : morph) (letters particles prefixes : list str) : Prop :=
  (has_units M RU_DEFAULT_UNITS /\ letters = RU_INITIAL_LETTERS /\ particles = RU_PARTICLES /\ prefixes = RU_KNOWN_PREFIXES) \/
  (has_units M UK_DEFAULT_UNITS /\ letters = UK_INITIAL_LETTERS /\ particles = UK_PARTICLES /\ prefixes = UK_KNOWN_PREFIXES).
(** [nf] is the first form of the lexeme in which [w] is the form number [idx] of paradigm [para]: the beginning and the end of [w] that belong to the form give way to those of the first form.
    A word too short to have both (they may overlap in a predicted word) keeps nothing of its own. *)
Definition first_form (D : dict) (para idx : nat) (w nf : str) : Prop :=
  (idx = 0 /\ nf = w) \/
  (0 < idx /\ exists pre t suf pre0 t0 suf0, para_row D para idx pre t suf /\ para_row D para 0 pre0 t0 suf0 /\
    ((exists a stem c, w = a ++ stem ++ c /\ length a = length pre /\ length c = length suf /\ nf = pre0 ++ stem ++ suf0) \/
     (length w < length pre + length suf /\ nf = pre0 ++ suf0))).
(** a dictionary form spelled by [lower], with its tag and the normal form *)
Definition dictionary_form (M : morph) (lower w nf : str) (t : tag) : Prop :=
  exists vals para idx pre suf, subst_of (m_subst M) lower w /\ sget w (d_words (m_dict M)) = Some vals /\ In (para, idx) vals /\
    para_row (m_dict M) para idx pre t suf /\ first_form (m_dict M) para idx w nf.
(** tokens that are their own normal form *)
Definition own_form (M : morph) (letters : list str) (word lower : str) : rule :=
  either [by_initial letters "Name" word lower; by_initial letters "Patr" word lower; by_number (m_uni M) word lower; by_punctuation (m_uni M) word lower; by_latin (m_uni M) word lower;
          by_roman word lower; by_po M lower; by_nothing lower].
(** [normal M .. word w nf t]: the text [word] can be read as the form [w] with the tag [t] and the normal form [nf] *)
Inductive normal (M : morph) (letters particles prefixes : list str) (word : str) : str -> str -> tag -> Prop :=
| normal_known : forall w nf t, dictionary_form M (u_lower (m_uni M) word) w nf t -> normal M letters particles prefixes word w nf t
| normal_token : forall t, own_form M letters word (u_lower (m_uni M) word) (u_lower (m_uni M) word) (t_gr t) -> normal M letters particles prefixes word (u_lower (m_uni M) word) (u_lower (m_uni M) word) t
| normal_particle : forall rest pt w nf t, u_lower (m_uni M) word = rest ++ pt -> In pt particles -> rest <> [] -> In (chr "-") (rest ++ pt) -> normal M letters particles prefixes rest w nf t ->
    normal M letters particles prefixes word (w ++ pt) (nf ++ pt) t
| normal_right : forall l r w nf t, one_inner_hyphen (u_lower (m_uni M) word) l r -> ~ starts_with_any prefixes (u_lower (m_uni M) word) -> normal M letters particles prefixes r w nf t -> has_pos t ->
    normal M letters particles prefixes word (l ++ u "-" ++ w) (l ++ u "-" ++ nf) t
| normal_both : forall l r wl nfl tl wr nfr tr, one_inner_hyphen (u_lower (m_uni M) word) l r -> ~ starts_with_any prefixes (u_lower (m_uni M) word) ->
    normal M letters particles prefixes l wl nfl tl -> normal M letters particles prefixes r wr nfr tr -> has_pos tl -> same_features tl tr ->
    normal M letters particles prefixes word (wl ++ u "-" ++ wr) (nfl ++ u "-" ++ nfr) tl
| normal_prefix : forall prefix rest w nf t, u_lower (m_uni M) word = prefix ++ rest -> In prefix prefixes -> 3 <= length rest -> normal M letters particles prefixes rest w nf t -> productive t ->
    normal M letters particles prefixes word (prefix ++ w) (prefix ++ nf) t
| normal_guess : forall prefix rest w nf t, u_lower (m_uni M) word = prefix ++ rest -> 1 <= length prefix <= 5 -> 3 <= length rest -> dictionary_form M rest w nf t -> productive t ->
    normal M letters particles prefixes word (prefix ++ w) (prefix ++ nf) t
| normal_ending : forall pid pre0 rest0 dawg start e fs cnt para idx pre t suf nf, 4 <= length word ->
    nth_error (d_prefixes (m_dict M)) pid = Some pre0 -> u_lower (m_uni M) word = pre0 ++ rest0 -> nth_error (d_pred (m_dict M)) pid = Some dawg ->
    longest_informative M dawg (u_lower (m_uni M) word) start e -> In (fs, (cnt, para, idx)) (productive_records M dawg e) ->
    para_row (m_dict M) para idx pre t suf -> first_form (m_dict M) para idx (start ++ fs) nf ->
    normal M letters particles prefixes word (start ++ fs) nf t.
