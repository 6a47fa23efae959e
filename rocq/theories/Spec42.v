(** * Specification vocabulary: what the score of a reading is (C94) *)
From Coq Require Import String List NArith ZArith Bool QArith.
From Verif Require Import Py Uni Tagset Dawg Shapes Dict Units Analyzer ConfigRu ConfigUk Spec Spec2 Spec14 Spec15 Spec34 Spec35 Spec36 Spec38 Spec41.
Import ListNotations.
Local Open Scope nat_scope.
Local Open Scope list_scope.

(** [graded M .. word w nf t s]: the text [word] can be read as the form [w] with the tag [t] and the normal form [nf], and this reading has the score [s] before any estimate is looked up *)
Inductive graded (M : morph) (letters particles prefixes : list str) (word : str) : str -> str -> tag -> Q -> Prop :=
| graded_known : forall w nf t, dictionary_form M (u_lower (m_uni M) word) w nf t -> graded M letters particles prefixes word w nf t 1
| graded_initial : forall t, either [by_initial letters "Name" word (u_lower (m_uni M) word); by_initial letters "Patr" word (u_lower (m_uni M) word)] (u_lower (m_uni M) word) (t_gr t) ->
    graded M letters particles prefixes word (u_lower (m_uni M) word) (u_lower (m_uni M) word) t (1 # 10)
| graded_shape : forall t, either [by_number (m_uni M) word (u_lower (m_uni M) word); by_punctuation (m_uni M) word (u_lower (m_uni M) word); by_latin (m_uni M) word (u_lower (m_uni M) word);
      by_roman word (u_lower (m_uni M) word)] (u_lower (m_uni M) word) (t_gr t) ->
    graded M letters particles prefixes word (u_lower (m_uni M) word) (u_lower (m_uni M) word) t (9 # 10)
| graded_po : forall t, by_po M (u_lower (m_uni M) word) (u_lower (m_uni M) word) (t_gr t) -> graded M letters particles prefixes word (u_lower (m_uni M) word) (u_lower (m_uni M) word) t (7 # 10)
| graded_nothing : forall t, by_nothing (u_lower (m_uni M) word) (u_lower (m_uni M) word) (t_gr t) -> graded M letters particles prefixes word (u_lower (m_uni M) word) (u_lower (m_uni M) word) t 1
| graded_particle : forall rest pt w nf t s, u_lower (m_uni M) word = rest ++ pt -> In pt particles -> rest <> [] -> In (chr "-") (rest ++ pt) -> graded M letters particles prefixes rest w nf t s ->
    graded M letters particles prefixes word (w ++ pt) (nf ++ pt) t (s * (9 # 10))
| graded_right : forall l r w nf t s, one_inner_hyphen (u_lower (m_uni M) word) l r -> ~ starts_with_any prefixes (u_lower (m_uni M) word) -> graded M letters particles prefixes r w nf t s -> has_pos t ->
    graded M letters particles prefixes word (l ++ u "-" ++ w) (l ++ u "-" ++ nf) t (s * (3 # 4))
| graded_both : forall l r wl nfl tl sl wr nfr tr sr, one_inner_hyphen (u_lower (m_uni M) word) l r -> ~ starts_with_any prefixes (u_lower (m_uni M) word) ->
    graded M letters particles prefixes l wl nfl tl sl -> graded M letters particles prefixes r wr nfr tr sr -> has_pos tl -> same_features tl tr ->
    graded M letters particles prefixes word (wl ++ u "-" ++ wr) (nfl ++ u "-" ++ nfr) tl (sl * (3 # 4))
| graded_prefix : forall prefix rest w nf t s, u_lower (m_uni M) word = prefix ++ rest -> In prefix prefixes -> 3 <= length rest -> graded M letters particles prefixes rest w nf t s -> productive t ->
    graded M letters particles prefixes word (prefix ++ w) (prefix ++ nf) t (s * (3 # 4))
| graded_guess : forall prefix rest w nf t, u_lower (m_uni M) word = prefix ++ rest -> 1 <= length prefix <= 5 -> 3 <= length rest -> dictionary_form M rest w nf t -> productive t ->
    graded M letters particles prefixes word (prefix ++ w) (prefix ++ nf) t (1 # 2)
| graded_ending : forall pid pre0 rest0 dawg start e fs cnt para idx pre t suf nf, 4 <= length word ->
    nth_error (d_prefixes (m_dict M)) pid = Some pre0 -> u_lower (m_uni M) word = pre0 ++ rest0 -> nth_error (d_pred (m_dict M)) pid = Some dawg ->
    longest_informative M dawg (u_lower (m_uni M) word) start e -> In (fs, (cnt, para, idx)) (productive_records M dawg e) ->
    para_row (m_dict M) para idx pre t suf -> first_form (m_dict M) para idx (start ++ fs) nf ->
    graded M letters particles prefixes word (start ++ fs) nf t (inject_Z (Z.of_nat cnt) / inject_Z (Z.of_nat (1 + sum_counts (productive_records M dawg e))) * (1 # 2)).
