(** * Model of pymorphy2/tagset.py (class OpencorporaTag and its mutable class state) *)
From Coq Require Import String List NArith ZArith Bool.
From Verif Require Import Py Uni.
Import ListNotations.
Local Open Scope nat_scope.
Local Open Scope list_scope.

(** A tag object.  tagset.py:265-284: [t_str] is [_str], [t_gr] is
    [_grammemes_tuple].  The caches ([_grammemes_cache], [_cyr],
    [_cyr_grammemes_cache]) are modelled separately (Cache.v); interning has no
    observable effect. *)
Record tag := MkTag { t_str : str; t_gr : list str }.

(** tagset.py:229-242: class attributes mutated at run time.  [_LAT2CYR] and
    [_CYR2LAT] are [None] before the first [_init_grammemes]; here they are
    empty (no code path uses them before initialisation).
    [tc_extra] is [_EXTRA_INCOMPATIBLE], [tc_incompat] [_GRAMMEME_INCOMPATIBLE]. *)
Record tagclass := MkTC {
  tc_known    : sset;
  tc_lat2cyr  : list (str * str);
  tc_cyr2lat  : list (str * str);
  tc_extra    : list (str * sset);
  tc_incompat : list (str * sset);
  tc_indices  : list (str * nat)
}.

(** tagset.py:231-242: values when the module is imported *)
Definition tc_initial : tagclass := {|
  tc_known := [];
  tc_lat2cyr := [];
  tc_cyr2lat := [];
  tc_extra := [(u "plur", [u "GNdr"])];
  tc_incompat := [];
  tc_indices := []
|}.

(** tagset.py:130-216: grammeme categories *)
Definition PARTS_OF_SPEECH : sset := map u
  ["NOUN"; "ADJF"; "ADJS"; "COMP"; "VERB"; "INFN"; "PRTF"; "PRTS"; "GRND";
   "NUMR"; "ADVB"; "NPRO"; "PRED"; "PREP"; "CONJ"; "PRCL"; "INTJ"]%string.
Definition ANIMACY : sset := map u ["anim"; "inan"]%string.
Definition GENDERS : sset := map u ["masc"; "femn"; "neut"]%string.
Definition NUMBERS : sset := map u ["sing"; "plur"]%string.
Definition CASES : sset := map u
  ["nomn"; "gent"; "datv"; "accs"; "ablt"; "loct"; "voct"; "gen1"; "gen2"; "acc2"; "loc1"; "loc2"]%string.
Definition ASPECTS : sset := map u ["perf"; "impf"]%string.
Definition TRANSITIVITY : sset := map u ["tran"; "intr"]%string.
Definition PERSONS : sset := map u ["1per"; "2per"; "3per"]%string.
Definition TENSES : sset := map u ["pres"; "past"; "futr"]%string.
Definition MOODS : sset := map u ["indc"; "impr"]%string.
Definition VOICES : sset := map u ["actv"; "pssv"]%string.
Definition INVOLVEMENT : sset := map u ["incl"; "excl"]%string.

(** tagset.py:231-232 *)
Definition NON_PRODUCTIVE : sset := map u
  ["NUMR"; "NPRO"; "PRED"; "PREP"; "CONJ"; "PRCL"; "INTJ"; "Apro"]%string.

(** tagset.py:252-260 *)
Definition RARE_CASES : list (str * str) :=
  map (fun p => (u (fst p), u (snd p)))
  [("gen1", "gent"); ("gen2", "gent"); ("acc1", "accs"); ("acc2", "accs");
   ("loc1", "loct"); ("loc2", "loct"); ("voct", "nomn")]%string.

(** tagset.py:399-403 _assert_grammemes_initialized *)
Definition assert_initialized (C : tagclass) : res unit :=
  match tc_known C with [] => Err RuntimeError | _ => Ok tt end.

(** tagset.py:386-389 grammeme_is_known *)
Definition grammeme_is_known (C : tagclass) (g : str) : res bool :=
  let* _ := assert_initialized C in Ok (smem g (tc_known C)).

(** tagset.py:391-397 _assert_grammemes_are_known *)
Definition assert_known (C : tagclass) (gs : sset) : res unit :=
  if ssub gs (tc_known C) then Ok tt
  else let* _ := assert_initialized C in Err ValueError.

(** tagset.py:275-276: the grammeme tuple of a tag text *)
Definition split_tag (s : str) : list str :=
  split_on (chr ",") (replace_first (chr " ") (chr ",") s).

(** tagset.py:265-284 __init__ *)
Definition mk_tag (C : tagclass) (s : str) : res tag :=
  let gs := split_tag s in
  let* _ := assert_known C gs in
  Ok {| t_str := s; t_gr := gs |}.

(** tagset.py:376-377 __reduce__: pickling keeps the class and [_str]; unpickling
    calls the constructor *)
Definition unpickle_tag (C : tagclass) (t : tag) : res tag := mk_tag C (t_str t).

(** tagset.py:358-371 __eq__ __ne__ __lt__ __gt__ __hash__; [hash] is any function
    of the tuple *)
Definition tag_eqb (a b : tag) : bool := list_eqb str_eqb (t_gr a) (t_gr b).
Definition tag_neb (a b : tag) : bool := negb (list_eqb str_eqb (t_gr a) (t_gr b)).
Definition tag_ltb (a b : tag) : bool := list_ltb str_ltb str_eqb (t_gr a) (t_gr b).
Definition tag_gtb (a b : tag) : bool := list_ltb str_ltb str_eqb (t_gr b) (t_gr a).
Definition tag_hash (h : list str -> Z) (a : tag) : Z := h (t_gr a).

(** tagset.py:332-347 __contains__ for a set and for a single grammeme *)
Definition contains_set (C : tagclass) (gs : sset) (t : tag) : res bool :=
  if ssub gs (t_gr t) then Ok true
  else let* _ := assert_known C gs in Ok false.
Definition contains (C : tagclass) (g : str) (t : tag) : res bool :=
  if smem g (t_gr t) then Ok true
  else let* k := grammeme_is_known C g in
       if k then Ok false else Err ValueError.

(** tagset.py:380-381 is_productive *)
Definition is_productive (t : tag) : bool :=
  match sinter (t_gr t) NON_PRODUCTIVE with [] => true | _ => false end.

(** tagset.py:383-384 _is_unknown.  [t_gr] is never empty ([split] returns at least
    one piece); the [] case is unreachable. *)
Definition tag_is_unknown (t : tag) : bool :=
  match t_gr t with [] => true | g :: _ => negb (smem g PARTS_OF_SPEECH) end.

(** tagset.py:46-54: attribute access.  [next(iter(grammemes))] returns some element
    of the intersection (set order): [pick] stands for that choice. *)
Definition pick_ok (pick : sset -> option str) : Prop :=
  forall l, match pick l with None => l = [] | Some g => In g l end.
Definition attr (pick : sset -> option str) (cat : sset) (t : tag) : option str :=
  pick (sinter cat (t_gr t)).

(** tagset.py:30-39 TypedGrammeme.__eq__ (for a non-None attribute value [g]).
    [other = None] models comparison with None.  If [typed] is false (class
    attribute typed_grammemes, tagset.py:221) the plain string is returned and
    compared. *)
Definition typed_eq (typed : bool) (cat : sset) (g : str) (other : option str) : res bool :=
  match other with
  | None => Ok false
  | Some o =>
    if typed then (if smem o cat then Ok (str_eqb g o) else Err ValueError)
    else Ok (str_eqb g o)
  end.

(** tag.attr == other: the attribute may be None, then the comparison is the plain
    one (tagset.py:49-51) *)
Definition attr_eq (typed : bool) (pick : sset -> option str) (cat : sset) (t : tag)
           (other : option str) : res bool :=
  match attr pick cat t with
  | None => Ok (match other with None => true | Some _ => false end)
  | Some g => typed_eq typed cat g other
  end.

(** tagset.py:405-415 updated_grammemes.  [required] is iterated in list order
    (a Python set has an arbitrary order). *)
Definition incompat_of (C : tagclass) (g : str) : sset :=
  match sget g (tc_incompat C) with Some s => s | None => [] end.
Definition updated_grammemes (C : tagclass) (t : tag) (required : sset) : res sset :=
  foldM (fun acc g =>
           let* k := grammeme_is_known C g in
           if k then Ok (sdiff acc (incompat_of C g)) else Err ValueError)
        (sunion (t_gr t) required) required.

(** tagset.py:417-422 fix_rare_cases *)
Definition fix_rare1 (g : str) : str :=
  match sget g RARE_CASES with Some g' => g' | None => g end.
Definition fix_rare_cases (gs : sset) : sset := map fix_rare1 gs.

(** tagset.py:424-430 add_grammemes_to_known *)
Definition add_known (C : tagclass) (lat cyr : str) (overwrite : bool) : tagclass :=
  if negb overwrite && smem lat (tc_known C) then C
  else {| tc_known := if smem lat (tc_known C) then tc_known C else tc_known C ++ [lat];
          tc_lat2cyr := sset_ lat cyr (tc_lat2cyr C);
          tc_cyr2lat := sset_ cyr lat (tc_cyr2lat C);
          tc_extra := tc_extra C;
          tc_incompat := tc_incompat C;
          tc_indices := tc_indices C |}.

(** A row of the grammeme table: (name, parent, alias, description); [None]/empty parent
    is falsy in Python. *)
Record grow := MkGrow { g_name : str; g_parent : option str; g_alias : str; g_descr : str }.

Definition truthy (p : option str) : option str :=
  match p with Some (c :: r) => Some (c :: r) | _ => None end.

(** tagset.py:452: [gr = dict((name, parent) ...)] — later rows win *)
Definition parent_of (rows : list grow) (n : str) : option str :=
  match sget n (rev (map (fun r => (g_name r, g_parent r)) rows)) with
  | Some p => p
  | None => None
  end.

(** tagset.py:454-460: children[p] as a set: rows whose parent is [p], or whose
    parent's parent is [p] *)
Definition is_child (rows : list grow) (p : str) (r : grow) : bool :=
  (match truthy (g_parent r) with Some q => str_eqb q p | None => false end)
  || (match g_parent r with
      | Some q => match truthy (parent_of rows q) with
                  | Some q' => str_eqb q' p
                  | None => false
                  end
      | None => false
      end).
Definition children (rows : list grow) (p : str) : sset :=
  map g_name (filter (is_child rows p) rows).

(** tagset.py:462-465: _EXTRA_INCOMPATIBLE is expanded in place *)
Definition expand_extra (rows : list grow) (e : list (str * sset)) : list (str * sset) :=
  map (fun p => (fst p, fold_left (fun acc g => sunion acc (children rows g)) (snd p) (snd p))) e.

(** tagset.py:467-473: one iteration of the last loop. children[None] is always empty. *)
Definition incompat_row (rows : list grow) (extra : list (str * sset)) (r : grow) : sset :=
  let e := match sget (g_name r) extra with Some s => s | None => [] end in
  let c := match g_parent r with Some p => children rows p | None => [] end in
  filter (fun x => negb (str_eqb x (g_name r))) (sunion e c).

Definition set_row (rows : list grow) (extra : list (str * sset)) (C : tagclass) (ir : nat * grow) : tagclass :=
  let '(i, r) := ir in
  {| tc_known := tc_known C; tc_lat2cyr := tc_lat2cyr C; tc_cyr2lat := tc_cyr2lat C;
     tc_extra := tc_extra C;
     tc_incompat := sset_ (g_name r) (incompat_row rows extra r) (tc_incompat C);
     tc_indices := sset_ (g_name r) i (tc_indices C) |}.

(** tagset.py:446-450: fresh KNOWN/_CYR2LAT/_LAT2CYR, then every row is added *)
Definition reset_known (C : tagclass) : tagclass :=
  {| tc_known := []; tc_lat2cyr := []; tc_cyr2lat := [];
     tc_extra := tc_extra C; tc_incompat := tc_incompat C; tc_indices := tc_indices C |}.
Definition add_row (C : tagclass) (r : grow) : tagclass := add_known C (g_name r) (g_alias r) true.

(** tagset.py:432-473 _init_grammemes *)
Definition init_grammemes (C : tagclass) (rows : list grow) : tagclass :=
  let C1 := fold_left add_row rows (reset_known C) in
  let extra := expand_extra rows (tc_extra C1) in
  let C2 := {| tc_known := tc_known C1; tc_lat2cyr := tc_lat2cyr C1; tc_cyr2lat := tc_cyr2lat C1;
               tc_extra := extra; tc_incompat := tc_incompat C1; tc_indices := tc_indices C1 |} in
  fold_left (set_row rows extra) (enum rows) C2.

(** tagset.py:307-312 grammemes_cyr (uncached): KeyError for a grammeme without Cyrillic name *)
Definition grammemes_cyr (C : tagclass) (t : tag) : res sset :=
  mapM (fun g => dget_res str_eqb g (tc_lat2cyr C)) (t_gr t).

(** tagset.py:594-596 _translate_comma_separated *)
Definition translate_comma (mapping : list (str * str)) (part : str) : str :=
  join (u ",") (map (fun tok => match sget tok mapping with Some x => x | None => tok end)
                    (split_on (chr ",") part)).
(** tagset.py:580-591 _translate_tag *)
Definition translate_tag (U : uni) (mapping : list (str * str)) (s : str) : str :=
  join (u " ") (map (translate_comma mapping) (split_ws (u_space U) s)).
(** tagset.py:322-330 *)
Definition cyr2lat (U : uni) (C : tagclass) (s : str) : str := translate_tag U (tc_cyr2lat C) s.
Definition lat2cyr (U : uni) (C : tagclass) (s : str) : str := translate_tag U (tc_lat2cyr C) s.

(** tagset.py:485-490: which of the three agreement classes a number belongs to *)
Definition agreement_index (num : Z) : nat :=
  if ((num mod 10 =? 1) && negb (num mod 100 =? 11))%Z then 0
  else if ((num mod 10 >=? 2) && (num mod 10 <=? 4) && ((num mod 100 <? 10) || (num mod 100 >=? 20)))%Z then 1
  else 2.

Definition opt_is (a : option str) (s : string) : bool :=
  match a with Some x => str_eqb x (u s) | None => false end.
Definition opt_in (a : option str) (l : list string) : bool := existsb (opt_is a) l.

(** tagset.py:485-512 numeral_agreement_grammemes.  The result may contain None
    ([self.case] of a tag without case, line 499-501).  All literals compared to
    the attributes belong to the attribute's category, so TypedGrammeme never
    raises here. *)
Definition numeral_agreement (pick : sset -> option str) (t : tag) (num : Z) : list (option str) :=
  let index := agreement_index num in
  let pos := attr pick PARTS_OF_SPEECH t in
  let case := attr pick CASES t in
  let gender := attr pick GENDERS t in
  let lit := map (fun s => Some (u s)) in
  if negb (opt_in pos ["NOUN"; "ADJF"; "PRTF"]%string) then []
  else if opt_is pos "NOUN" && negb (opt_in case ["nomn"; "accs"]%string) then
    (if index =? 0 then [Some (u "sing"); case] else [Some (u "plur"); case])
  else if index =? 0 then
    (if opt_is case "nomn" then lit ["sing"; "nomn"]%string else lit ["sing"; "accs"]%string)
  else if opt_is pos "NOUN" && (index =? 1) then lit ["sing"; "gent"]%string
  else if opt_in pos ["ADJF"; "PRTF"]%string && opt_is gender "femn" && (index =? 1) then lit ["plur"; "nomn"]%string
  else lit ["plur"; "gent"]%string.
