(** * Specification vocabulary for threads (C27, C28) *)
From Coq Require Import String List NArith ZArith Bool.
From Verif Require Import Py Uni Tagset Shapes Units Analyzer Threads Spec6.
Import ListNotations.
Local Open Scope nat_scope.
Local Open Scope list_scope.

(** the state of the class as a thread running alone would see it *)
Definition class_of (m : mem) : tagclass :=
  {| tc_known := nth (h_known m) (h_sets m) []; tc_lat2cyr := nth (h_lat m) (h_dicts m) []; tc_cyr2lat := nth (h_cyr m) (h_dicts m) [];
     tc_extra := h_extra m; tc_incompat := h_incompat m; tc_indices := h_indices m |}.
(** the class attributes are bound to objects, the two tables to different ones *)
Definition wf (m : mem) : Prop := h_known m < length (h_sets m) /\ h_lat m < length (h_dicts m) /\ h_cyr m < length (h_dicts m) /\ h_lat m <> h_cyr m.
(** nothing cached yet *)
Definition fresh (m : mem) : Prop := h_latin m = [] /\ h_memo m = [] /\ forall o, h_cells m o = empty_cells.
(** the memory after "import pymorphy2" *)
Definition imported : mem := MkMem [] [] [[]] [[]; []] 0 0 1 (tc_extra tc_initial) [] [] (fun _ => empty_cells).
(** the same without the class: caches empty, class in state [C] *)
Definition in_state (C : tagclass) : mem := MkMem [] [] [tc_known C] [tc_lat2cyr C; tc_cyr2lat C] 0 0 1 (tc_extra C) (tc_incompat C) (tc_indices C) (fun _ => empty_cells).

(** the analyzer [M] when the class is in state [C] *)
Definition in_class (C : tagclass) (M : morph) : morph :=
  {| m_uni := m_uni M; m_ext := m_ext M; m_dict := m_dict M; m_units := m_units M; m_prob := m_prob M; m_subst := m_subst M; m_tc := C |}.
(** what each call should return: the function without its cache, in class state [C] *)
Definition pure (U : uni) (tag_of : nat -> tag) (func : str -> res str) (C : tagclass) (c : call) : res val :=
  match c with
  | CLatinChar c => rmap VBool (is_latin_char U c)
  | CIsLatin s => rmap VBool (is_latin U s)
  | CMemo k => rmap VStr (func k)
  | CGrammemes o => Ok (VSet (Some (t_gr (tag_of o))))
  | CGrammemesCyr o => rmap (fun s => VSet (Some s)) (grammemes_cyr C (tag_of o))
  | CCyrRepr o => Ok (VOStr (Some (lat2cyr U C (t_str (tag_of o)))))
  | CContains g o => rmap VBool (contains C g (tag_of o))
  | CContainsSet gs o => rmap VBool (contains_set C gs (tag_of o))
  | CAny gs os => rmap VBool (any_contains C gs (map tag_of os))
  | CParse M _ w => rmap VParses (morph_parse (in_class C M) w)
  | CTag M _ w => rmap VTags (morph_tag (in_class C M) w)
  | CLexeme M _ f => rmap VParses (get_lexeme (in_class C M) f)
  | CNormalized M _ f => rmap (fun p => VParse (Some p)) (normalized (in_class C M) f)
  | CInflect M _ f req => rmap VParse (inflect (in_class C M) f req)
  | CNormalForms M _ w => rmap VStrs (morph_normal_forms (in_class C M) w)
  | CAgree pick M _ f n => rmap VParse (make_agree_with_number pick (in_class C M) f n)
  | CMorph _ _ _ => Ok VUnit
  end.
(** calls that do not look at the class *)
Definition independent (c : call) : Prop := match c with CLatinChar _ | CIsLatin _ | CMemo _ | CGrammemes _ => True | _ => False end.
(** the analyzer of a call exists: its tags are tag objects; and the analysis given to the call has one of these tags *)
Definition its_objects (U : uni) (tag_of : nat -> tag) (M : morph) (o : tag -> nat) : Prop := m_uni M = U /\ forall t, tag_source M t -> tag_of (o t) = t.
Definition has_objects (U : uni) (tag_of : nat -> tag) (c : call) : Prop :=
  match c with
  | CParse M o _ | CTag M o _ | CNormalForms M o _ => its_objects U tag_of M o
  | CLexeme M o f | CNormalized M o f | CInflect M o f _ | CAgree _ M o f _ => its_objects U tag_of M o /\ tag_source M (p_tag f)
  | _ => True
  end.
(** the only membership test of parse() and tag() is made for words that start with по-: grammemes, and when it is not made at all *)
Definition adverb_grammemes : sset := map u ["ADJF"; "sing"; "datv"]%string.
(** the lexeme of an abbreviated first name depends on the test for this one *)
Definition masc_grammeme : sset := [u "masc"].
Definition knows (C : tagclass) (gs : sset) : Prop := forall g, In g gs -> In g (tc_known C).
Definition adverb_unit (M : morph) : Prop := exists b tm mult, In (b, tm) (m_units M) /\ b_cfg b = UHAdverb mult.
Definition keeps_unhyphenated (U : uni) : Prop := forall s, ~ In HY s -> ~ In HY (u_lower U s).
Definition no_test (U : uni) (c : call) : Prop :=
  match c with CParse M _ w | CTag M _ w | CNormalForms M _ w => ~ adverb_unit M \/ (keeps_unhyphenated U /\ ~ In HY w) | _ => False end.
Definition analyzes (c : call) : Prop := match c with CParse _ _ _ | CTag _ _ _ | CNormalForms _ _ _ => True | _ => False end.
Definition inflects (c : call) : Prop := match c with CLexeme _ _ _ | CNormalized _ _ _ => True | _ => False end.
(** the tables of incompatible grammemes hold the same sets *)
Definition extra_of (C : tagclass) (k : str) : sset := match sget k (tc_extra C) with Some s => s | None => [] end.
Definition same_tables (C C' : tagclass) : Prop :=
  (forall k x, In x (extra_of C k) <-> In x (extra_of C' k)) /\ (forall g x, In x (incompat_of C g) <-> In x (incompat_of C' g)).
(** loading the dictionary [rows] (again) does not change these tables *)
Definition reloads (C : tagclass) (rows : list grow) : Prop := NoDup (map g_name rows) /\ same_tables (init_grammemes C rows) C.
(** the tree of grammemes of a dictionary has at most three levels *)
Definition three_levels (rows : list grow) : Prop := forall r1 r2 r3, In r1 rows -> In r2 rows -> In r3 rows ->
  g_parent r1 = Some (g_name r2) -> g_parent r2 = Some (g_name r3) -> g_parent r3 = None.
(** a grammeme that can be required: it and, if it is a rare case, the case that is tried instead are known *)
Definition can_require (C : tagclass) (g : str) : Prop := In g (tc_known C) /\ In (fix_rare1 g) (tc_known C).
Definition creates (c : call) : Prop := match c with CMorph _ _ _ => True | _ => False end.
(** creating analyzers one after the other, each completely *)
Definition created (C : tagclass) (l : list (list grow * list (str * str * bool))) : tagclass :=
  fold_left (fun C x => fold_left (fun C a => add_known C (fst (fst a)) (snd (fst a)) (snd a)) (snd x) (init_grammemes C (fst x))) l C.

(** schedules in which an analyzer is created in one go: either thread [i] acts, or somebody creates an analyzer *)
Inductive event := Act (i : nat) | Create (rows : list grow) (tags : list str) (adds : list (str * str * bool)).
Definition happens (U : uni) (tag_of : nat -> tag) (func : str -> res str) (s : mem * list thread) (e : event) : mem * list thread :=
  match e with Act i => step U tag_of func i s | Create rows tags adds => (fst (run (construct_t rows tags adds) (fst s)), snd s) end.
(** the tags of a dictionary use the grammemes of that dictionary *)
Definition tags_known (rows : list grow) (tags : list str) : Prop := forall s g, In s tags -> In g (split_tag s) -> In g (map g_name rows).
(** analyzers created one after the other *)
Definition create_all (m : mem) (l : list (list grow * list str * list (str * str * bool))) : mem :=
  fold_left (fun m x => fst (run (construct_t (fst (fst x)) (snd (fst x)) (snd x)) m)) l m.
(** [g] is a grammeme of every dictionary that is loaded *)
Definition always_known (m0 : mem) (es : list event) (g : str) : Prop :=
  In g (tc_known (class_of m0)) /\ forall rows tags adds, In (Create rows tags adds) es -> In g (map g_name rows).
