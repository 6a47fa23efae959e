(** * Vocabulary used in the statements of the properties of the analyzer.
    Nothing here is used by the model. *)
From Coq Require Import String List NArith ZArith Bool QArith Permutation Sorting.Sorted.
From Verif Require Import Py Uni Tagset Dawg Utils Shapes Dict Units Analyzer ConfigRu ConfigUk.
Import ListNotations.
Local Open Scope nat_scope.
Local Open Scope list_scope.

(** ** Words and tags *)
(** [b] is [a] with some characters replaced by their configured substitutes *)
Definition subst_of (r : replaces) (a b : str) : Prop :=
  Forall2 (fun x y => y = x \/ rget x r = Some y) a b.

(** tags are compared by their grammemes *)
Definition same_tags (a b : list tag) : Prop :=
  forall g, In g (map t_gr a) <-> In g (map t_gr b).

(** ** Unit lists *)
Definition ends_with_unkn (M : morph) : Prop :=
  exists us b t, m_units M = us ++ [(b, t)] /\ b_cfg b = UUnkn.

(** UnknAnalyzer is always the first unit of its group, i.e. the unit before it is terminal *)
Fixpoint unkn_isolated (start : bool) (us : list (bunit * bool)) : Prop :=
  match us with
  | [] => True
  | (b, terminal) :: r => (b_cfg b = UUnkn -> start = true) /\ unkn_isolated terminal r
  end.

(** no empty known prefix is configured *)
Definition prefixes_nonempty (b : bunit) : Prop :=
  match b_cfg b with UKnownPrefix ps _ _ => ~ In [] ps | _ => True end.

(** the unit that made a parse is the one of the last item of its methods_stack *)
Definition made_by (p : parse) : option uref := option_map m_unit (last_opt (p_stack p)).

Definition predicting (c : ucfg) : Prop :=
  match c with UKnownPrefix _ _ _ | UUnknownPrefix _ | UKnownSuffix _ _ => True | _ => False end.

(** ** Dictionaries *)
(** every prediction record has a positive count *)
Definition pred_counts_pos (D : dict) : Prop :=
  forall dawg e vals c p i, In dawg (d_pred D) -> In (e, vals) dawg -> In (c, p, i) vals -> 1 <= c.

(** a paradigm: n suffix ids, n tag ids, n prefix ids, all in range *)
Definition wf_paradigm (D : dict) (p : list nat) : Prop :=
  exists s t q, p = s ++ t ++ q /\ length s = length t /\ length q = length t /\
    (forall x, In x s -> x < length (d_suffixes D)) /\
    (forall x, In x t -> x < length (d_gramtab D)) /\
    (forall x, In x q -> x < length (d_prefixes D)).
(** (para, idx) is a form of an existing paradigm *)
Definition valid_form (D : dict) (para idx : nat) : Prop :=
  exists p, nth_error (d_paradigms D) para = Some p /\ idx < length p / 3.
Definition wf_dict (D : dict) : Prop :=
  (forall p, In p (d_paradigms D) -> wf_paradigm D p) /\
  (forall w vals para idx, In (w, vals) (d_words D) -> In (para, idx) vals -> valid_form D para idx) /\
  (forall dawg e vals c para idx, In dawg (d_pred D) -> In (e, vals) dawg -> In (c, para, idx) vals ->
     valid_form D para idx) /\
  length (d_prefixes D) <= length (d_pred D).

(** row [idx] of paradigm [para]: its prefix, tag and suffix *)
Definition para_row (D : dict) (para idx : nat) (prefix : str) (t : tag) (suffix : str) : Prop :=
  exists p sid tid pid, nth_error (d_paradigms D) para = Some p /\ idx < length p / 3 /\
    nth_error p idx = Some sid /\ nth_error p (length p / 3 + idx) = Some tid /\
    nth_error p (length p / 3 * 2 + idx) = Some pid /\
    nth_error (d_suffixes D) sid = Some suffix /\ nth_error (d_gramtab D) tid = Some t /\
    nth_error (d_prefixes D) pid = Some prefix.

(** every word entry is its paradigm row applied to some stem *)
Definition consistent_dict (D : dict) : Prop :=
  forall w vals para idx, In (w, vals) (d_words D) -> In (para, idx) vals ->
    exists prefix t suffix stem, para_row D para idx prefix t suffix /\ w = prefix ++ stem ++ suffix.

(** ** Analyzers that can parse without raising *)
Definition unit_tags_ok (b : bunit) : Prop :=
  match b_cfg b with
  | UNumber _ => length (b_tags b) = 2
  | UPunct _ | ULatin _ | URoman _ | UHAdverb _ | UUnkn => b_tags b <> []
  | _ => True
  end.
Definition names_ok (U : uni) : Prop := forall c, u_alpha U c = true -> u_latin U c <> None.
Definition wf_morph (M : morph) : Prop :=
  wf_dict (m_dict M) /\ names_ok (m_uni M) /\ lower_stable (m_uni M) /\
  Forall (fun bt => unit_tags_ok (fst bt) /\ prefixes_nonempty (fst bt)) (m_units M) /\
  (forall g, In g (map u ["ADJF"; "sing"; "datv"]%string) -> In g (tc_known (m_tc M))).

(** no word has readings with a zero and readings with a non-zero probability *)
Definition no_mixture (M : morph) (d : cpd) : Prop :=
  forall n w ps, parse_f n M w = Ok ps ->
    (forall p, In p ps -> prob d (u_lower (m_uni M) w) (t_str (p_tag p)) == 0)%Q \/
    (forall p, In p ps -> 0 < prob d (u_lower (m_uni M) w) (t_str (p_tag p)))%Q.
(** scores and multipliers of the units are positive *)
Definition unit_score (c : ucfg) : Q :=
  match c with
  | UDict | UUnkn => 1
  | UInit _ _ _ s | UNumber s | UPunct s | ULatin s | URoman s | UParticle _ s | UHAdverb s
  | UHyph _ s | UKnownPrefix _ s _ | UUnknownPrefix s | UKnownSuffix s _ => s
  end.
Definition scores_pos (M : morph) : Prop := Forall (fun bt => (0 < unit_score (b_cfg (fst bt)))%Q) (m_units M).

(** the units of the analyzer are those of a [units] argument, bound in some tag class state *)
Definition has_units (M : morph) (items : list uitem) : Prop :=
  exists C C', init_units C items = Ok (C', m_units M).
(** lang/ru/config.py and lang/uk/config.py *)
Definition shipped_units (M : morph) : Prop :=
  has_units M RU_DEFAULT_UNITS \/ has_units M UK_DEFAULT_UNITS.

(** ** The loop over the units (C57) *)
(** [outs]: what each unit tried returned, in order; each unit gets the seen set left by the one
    before it *)
Inductive tried (recP : str -> res (list parse)) (recT : str -> res (list tag)) (M : morph) (word lower : str)
  : nat -> list (bunit * bool) -> list skey -> list (list parse) -> Prop :=
| tried_stop : forall i us seen, tried recP recT M word lower i us seen []
| tried_next : forall i b t us seen ps seen' outs,
    unit_parse recP recT M i b word lower seen = Ok (ps, seen') ->
    tried recP recT M word lower (S i) us seen' outs ->
    tried recP recT M word lower i ((b, t) :: us) seen (ps :: outs).
Inductive tried_tags (recP : str -> res (list parse)) (recT : str -> res (list tag)) (M : morph) (word lower : str)
  : nat -> list (bunit * bool) -> list tag -> list (list tag) -> Prop :=
| ttried_stop : forall i us seen, tried_tags recP recT M word lower i us seen []
| ttried_next : forall i b t us seen ps seen' outs,
    unit_tag recP recT M i b word lower seen = Ok (ps, seen') ->
    tried_tags recP recT M word lower (S i) us seen' outs ->
    tried_tags recP recT M word lower i ((b, t) :: us) seen (ps :: outs).

(** the units tried are those up to the first terminal unit at which something has been found
    (all of them if there is no such unit) *)
Definition first_success {A} (us : list (bunit * bool)) (outs : list (list A)) : Prop :=
  length outs <= length us /\
  (forall j b, S j < length outs -> nth_error us j = Some (b, true) -> concat (firstn (S j) outs) = []) /\
  (length outs = length us \/
   exists j b, S j = length outs /\ nth_error us j = Some (b, true) /\ concat outs <> []).

(** which units are terminal: a unit given alone, and the last one of a nested list *)
Definition with_terminal (it : uitem) : list (ucfg * bool) :=
  match it with
  | One c => [(c, true)]
  | Group l => map (fun c => (c, false)) (removelast l) ++ [(last l UUnkn, true)]
  end.

(** ** Dictionary lookup (C05, C06) *)
(** every key has at least one value (DAWG contract) *)
Definition no_empty_entry (D : dict) : Prop := forall w vals, In (w, vals) (d_words D) -> vals <> [].
(** the word, or one of its substituted spellings, is in the dictionary *)
Definition in_dictionary (M : morph) (lower : str) : Prop :=
  exists w vals, subst_of (m_subst M) lower w /\ sget w (d_words (m_dict M)) = Some vals /\ vals <> [].
(** substitutes are not substituted again *)
Definition subst_idempotent (r : replaces) : Prop :=
  forall a b, rget a r = Some b -> rget b r = None \/ rget b r = Some b.
(** no character is its own substitute *)
Definition subst_proper (r : replaces) : Prop := forall a b, rget a r = Some b -> b <> a.
(** [nf] is the normal form of [w] as row [idx] of paradigm [para]: the prefix and the suffix of
    the first row put around the stem of [w] *)
Definition normal_form_of (D : dict) (para idx : nat) (w nf : str) : Prop :=
  exists prefix t suffix prefix0 t0 suffix0 stem,
    para_row D para idx prefix t suffix /\ para_row D para 0 prefix0 t0 suffix0 /\
    w = prefix ++ stem ++ suffix /\ nf = prefix0 ++ stem ++ suffix0.
(** exactly the readings stored in the dictionary *)
Definition dictionary_readings (M : morph) (lower : str) (ps : list parse) : Prop :=
  (exists spellings, (forall w, In w spellings <-> subst_of (m_subst M) lower w) /\
     (subst_proper (m_subst M) -> NoDup spellings) /\
     map (fun p => (p_word p, p_stack p)) ps =
     flat_map (fun w => map (fun v => (w, [MDict (Root 0) w (fst v) (snd v)]))
                            (match sget w (d_words (m_dict M)) with Some vals => vals | None => [] end)) spellings) /\
  (forall p, In p ps -> exists para idx prefix suffix,
     p_stack p = [MDict (Root 0) (p_word p) para idx] /\ p_score p = 1%Q /\
     para_row (m_dict M) para idx prefix (p_tag p) suffix /\ normal_form_of (m_dict M) para idx (p_word p) (p_nf p)).

(** ** Re-weighting (C19) *)
(** a parse without its score *)
Definition reading (p : parse) : str * tag * str * list method := (p_word p, p_tag p, p_nf p, p_stack p).
Definition total (l : list Q) : Q := fold_right Qplus 0%Q l.
(** [after] is [before] ordered by decreasing key, equal keys keeping their order *)
Definition stable_desc {A} (key : A -> Q) (before after : list A) : Prop :=
  Permutation before after /\
  StronglySorted (fun a b => key b <= key a)%Q after /\
  forall k, filter (fun x => Qeq_bool (key x) k) after = filter (fun x => Qeq_bool (key x) k) before.
Definition reweighted (d : cpd) (lower : str) (before after : list parse) : Prop :=
  let pr p := prob d lower (t_str (p_tag p)) in
  Permutation (map reading before) (map reading after) /\
  ((exists p, In p before /\ ~ (pr p == 0)%Q) ->
     stable_desc p_score (map (fun p => MkParse (p_word p) (p_tag p) (p_nf p) (pr p) (p_stack p)) before) after) /\
  ((forall p, In p before -> (pr p == 0)%Q) ->
     map reading after = map reading before /\
     (before <> [] -> (total (map p_score after) == 1)%Q) /\
     exists k, Forall2 (fun p q => p_score q == k * p_score p)%Q before after).

(** ** De-duplication (C04) *)
Fixpoint first_pos (x : str) (l : list str) : nat :=
  match l with [] => 0 | y :: r => if str_eqb x y then 0 else S (first_pos x r) end.
(** [r] lists the elements of [l] once each, by first occurrence *)
Definition dedup_of (l r : list str) : Prop :=
  NoDup r /\ (forall x, In x r <-> In x l) /\
  forall i j x y, nth_error r i = Some x -> nth_error r j = Some y -> i < j -> first_pos x l < first_pos y l.

(** ** Initials (C20) *)
(** the grammemes of the readings of an initial: all cases for each gender *)
Definition initial_tags (kind : string) (genders : list string) : list (list str) :=
  flat_map (fun g => map (fun c => map u ["NOUN"; "anim"; g; "Sgtm"; kind; "Fixd"; "Abbr"; "Init"; "sing"; c]%string)
                         ["nomn"; "gent"; "datv"; "accs"; "ablt"; "loct"]%string) genders.
(** the parses made by the unit at position [i] *)
Definition by_unit (i : nat) (ps : list parse) : list parse :=
  filter (fun p => match made_by p with Some (Root j) => i =? j | _ => false end) ps.
Definition grammemes_of (ps : list parse) : list (list str) := map (fun p => t_gr (p_tag p)) ps.

(** ** Tags (C21-C26) *)
(** the pieces of [s] between commas *)
Definition comma_pieces (s : str) (l : list str) : Prop :=
  l <> [] /\ join (u ",") l = s /\ forall g, In g l -> ~ In (chr ",") g.
(** a tag text is one or two comma-separated lists, with the first space between them *)
Definition reads_as (s : str) (gs : list str) : Prop :=
  (~ In (chr " ") s /\ comma_pieces s gs) \/
  (exists a b ga gb, s = a ++ u " " ++ b /\ ~ In (chr " ") a /\ comma_pieces a ga /\ comma_pieces b gb /\ gs = ga ++ gb).
(** a text without commas and white space *)
Definition plain (U : uni) (s : str) : Prop :=
  s <> [] /\ forall c, In c s -> c <> chr "," /\ u_space U c = false.
(** a tag text made of known grammemes: lists separated by single spaces *)
Definition tag_text (C : tagclass) (s : str) : Prop :=
  exists groups, s = join (u " ") (map (join (u ",")) groups) /\
    forall l, In l groups -> l <> [] /\ forall g, In g l -> In g (tc_known C).
(** the Cyrillic names the units give to the grammemes they add *)
Definition unit_aliases (c : ucfg) : list (str * str) :=
  match c with
  | UInit true _ _ _ => [(u "Init", u "иниц"); (u "Name", u "имя")]
  | UInit false _ _ _ => [(u "Init", u "иниц"); (u "Patr", u "отч")]
  | UNumber _ => [(u "NUMB", u "ЧИСЛО"); (u "intg", u "цел"); (u "real", u "вещ")]
  | UPunct _ => [(u "PNCT", u "ЗПР")]
  | ULatin _ => [(u "LATN", u "ЛАТ")]
  | URoman _ => [(u "ROMN", u "РИМ")]
  | UUnkn => [(u "UNKN", u "НЕИЗВ")]
  | _ => []
  end.
Definition items_units (items : list uitem) : list ucfg :=
  flat_map (fun it => match it with One c => [c] | Group l => l end) items.
Definition all_aliases (rows : list grow) (items : list uitem) : list (str * str) :=
  map (fun r => (g_name r, g_alias r)) rows ++ flat_map unit_aliases (items_units items).

(** [x] is a child or a grandchild of the grammeme [p] in the table *)
Definition descends (rows : list grow) (p x : str) : Prop :=
  exists r, In r rows /\ g_name r = x /\
    (g_parent r = Some p \/
     exists q r', g_parent r = Some q /\ In r' rows /\ g_name r' = q /\ g_parent r' = Some p).

(** ** Lexemes (C10-C13) *)
(** the dictionary items of the methods_stack are real paradigm forms of their word (no overlap
    of paradigm prefix and suffix), and no hyphenated word with two inflected parts is involved *)
Fixpoint simple_method (D : dict) (m : method) : Prop :=
  match m with
  | MDict _ w para idx => exists prefix t suffix stem, para_row D para idx prefix t suffix /\ w = prefix ++ stem ++ suffix
  | MStr _ _ => True
  | MHyphFixed _ _ rights => (fix all l := match l with [] => True | x :: r => simple_method D x /\ all r end) rights
  | MHyphBoth _ _ _ => False
  end.
Definition simple_stack (D : dict) (st : list method) : Prop := forall m, In m st -> simple_method D m.
(** the (word, paradigm, form number) items inside a methods_stack *)
Fixpoint dict_items (m : method) : list (str * nat * nat) :=
  match m with
  | MDict _ w para idx => [(w, para, idx)]
  | MStr _ _ => []
  | MHyphFixed _ _ rights => (fix all l := match l with [] => [] | x :: r => dict_items x ++ all r end) rights
  | MHyphBoth _ lefts rights =>
      (fix all l := match l with [] => [] | x :: r => dict_items x ++ all r end) lefts ++
      (fix all l := match l with [] => [] | x :: r => dict_items x ++ all r end) rights
  end.
Fixpoint no_both (m : method) : Prop :=
  match m with
  | MDict _ _ _ _ | MStr _ _ => True
  | MHyphFixed _ _ rights => (fix all l := match l with [] => True | x :: r => no_both x /\ all r end) rights
  | MHyphBoth _ _ _ => False
  end.
(** every prediction record belongs to a form with the prefix of its table and a suffix of its ending *)
Definition pred_consistent (D : dict) : Prop :=
  forall pid dawg e vals cnt para idx, nth_error (d_pred D) pid = Some dawg -> In (e, vals) dawg -> In (cnt, para, idx) vals ->
    exists prefix t suffix r, nth_error (d_prefixes D) pid = Some prefix /\ para_row D para idx prefix t suffix /\ e = r ++ suffix.
