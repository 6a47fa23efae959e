(** * Which words does parse() analyse?
    The functions of analyzer.py and of the units, once more, with a list of the words for which
    MorphAnalyzer.parse or MorphAnalyzer.tag is entered (in order of entry).  The results are those of
    [unit_parse], [parse_f], ... (proved in L_Trace.v). *)
From Coq Require Import String List NArith ZArith Bool QArith.
From Verif Require Import Py Uni Tagset Dawg Dict Units Analyzer.
Import ListNotations.
Local Open Scope nat_scope.
Local Open Scope list_scope.

Definition tr (A : Type) : Type := (list str * res A)%type.
Definition tlift {A} (r : res A) : tr A := ([], r).
Definition tbind {A B} (m : tr A) (k : A -> tr B) : tr B :=
  match m with
  | (t, Ok a) => let '(t', r) := k a in (t ++ t', r)
  | (t, Err e) => (t, Err e)
  end.
Fixpoint tfold {A S} (f : S -> A -> tr S) (s : S) (l : list A) : tr S :=
  match l with
  | [] => tlift (Ok s)
  | x :: r => tbind (f s x) (fun s' => tfold f s' r)
  end.

(** by_analogy.py:60-81, :83-90 KnownPrefixAnalyzer.parse / tag *)
Definition kp_parse_t (recP : str -> tr (list parse)) (M : morph) (self : uref) (prefixes : list str)
           (mult : Q) (minrem : nat) (lower : str) (seen : list skey) : tr (list parse * list skey) :=
  tfold (fun st (pr : str * str) =>
           let '(prefix, rest) := pr in
           tbind (recP rest) (fun ps => tlift (Ok (prefix_step self mult prefix st ps))))
        ([], seen) (kp_splits M prefixes minrem lower).
Definition kp_tag_t (recT : str -> tr (list tag)) (M : morph) (prefixes : list str) (minrem : nat)
           (lower : str) (seen : list tag) : tr (list tag * list tag) :=
  tfold (fun st (pr : str * str) => tbind (recT (snd pr)) (fun ts => tlift (Ok (tags_step st ts))))
        ([], seen) (kp_splits M prefixes minrem lower).
(** by_hyphen.py:38-58, :60-68 HyphenSeparatedParticleAnalyzer.parse / tag *)
Definition particle_parse_t (recP : str -> tr (list parse)) (self : uref) (particles : list str) (mult : Q)
           (lower : str) (seen : list skey) : tr (list parse * list skey) :=
  match particle_splits particles lower with
  | [] => tlift (Ok ([], seen))
  | (w, particle) :: _ =>
    tbind (recP w) (fun ps => tlift (Ok (fold_left add_parse_if_not_seen (map (suffixed self mult particle) ps) ([], seen))))
  end.
Definition particle_tag_t (recT : str -> tr (list tag)) (particles : list str) (lower : str) (seen : list tag)
  : tr (list tag * list tag) :=
  match particle_splits particles lower with
  | [] => tlift (Ok ([], seen))
  | (w, _) :: _ => tbind (recT w) (fun ts => tlift (Ok (ts, seen)))
  end.
(** by_hyphen.py:127-132 HyphenAdverbAnalyzer.should_parse *)
Definition adverb_should_parse_t (recT : str -> tr (list tag)) (M : morph) (lower : str) : tr bool :=
  if (length lower <? 5) || negb (prefixb (u "по-") lower) then tlift (Ok false)
  else tbind (recT (slice_from lower 3)) (fun ts => tlift (any_contains (m_tc M) (map u ["ADJF"; "sing"; "datv"]%string) ts)).
(** by_hyphen.py:171-187 HyphenatedWordsAnalyzer.parse *)
Definition hyph_parse_t (recP : str -> tr (list parse)) (M : morph) (self : uref) (skip : list str) (mult : Q)
           (lower : str) (seen : list skey) : tr (list parse * list skey) :=
  if negb (hyph_should_parse M skip lower) then tlift (Ok ([], seen))
  else
    match split_once HY lower with
    | (lw, Some rw) =>
      tbind (recP lw) (fun ls => tbind (recP rw) (fun rs =>
      tlift (Ok (variable_both self mult ls rs ++ fixed_left self mult lw rs, seen))))
    | (_, None) => tlift (Err ValueError)
    end.
(** Unit.parse; the units that do not call self.morph are those of Units.v *)
Definition unit_parse_t (recP : str -> tr (list parse)) (recT : str -> tr (list tag))
           (M : morph) (i : nat) (b : bunit) (word lower : str) (seen : list skey)
  : tr (list parse * list skey) :=
  let self := Root i in
  match b_cfg b with
  | UParticle particles mult => particle_parse_t recP self particles mult lower seen
  | UHAdverb mult =>
    tbind (adverb_should_parse_t recT M lower) (fun ok => tlift (
      if ok then
        let* t := nth_res (b_tags b) 0 in
        let p := {| p_word := lower; p_tag := t; p_nf := lower; p_score := mult; p_stack := [MStr self word] |} in
        Ok ([p], SFull p :: seen)
      else Ok ([], seen)))
  | UHyph skip mult => hyph_parse_t recP M self skip mult lower seen
  | UKnownPrefix ps mult minrem => kp_parse_t recP M self ps mult minrem lower seen
  | _ => tlift (unit_parse (fun _ => Err RecursionError) (fun _ => Err RecursionError) M i b word lower seen)
  end.
(** Unit.tag *)
Definition unit_tag_t (recP : str -> tr (list parse)) (recT : str -> tr (list tag))
           (M : morph) (i : nat) (b : bunit) (word lower : str) (seen : list tag)
  : tr (list tag * list tag) :=
  let self := Root i in
  match b_cfg b with
  | UParticle particles _ => particle_tag_t recT particles lower seen
  | UHAdverb _ =>
    tbind (adverb_should_parse_t recT M lower) (fun ok => tlift (
      if negb ok then Ok ([], seen)
      else
        let* t := nth_res (b_tags b) 0 in
        if tag_mem t seen then Ok ([], seen) else Ok ([t], t :: seen)))
  | UHyph skip mult => tbind (hyph_parse_t recP M self skip mult lower []) (fun pr => tlift (default_tag (Ok pr) seen))
  | UKnownPrefix ps _ minrem => kp_tag_t recT M ps minrem lower seen
  | _ => tlift (unit_tag (fun _ => Err RecursionError) (fun _ => Err RecursionError) M i b word lower seen)
  end.
(** analyzer.py:314-318, :333-337: the loops over units *)
Fixpoint run_parse_t (recP : str -> tr (list parse)) (recT : str -> tr (list tag)) (M : morph)
         (word lower : str) (i : nat) (us : list (bunit * bool)) (acc : list parse) (seen : list skey)
  : tr (list parse) :=
  match us with
  | [] => tlift (Ok acc)
  | (b, terminal) :: r =>
    tbind (unit_parse_t recP recT M i b word lower seen) (fun out =>
    let '(ps, seen') := out in
    let acc' := acc ++ ps in
    if terminal && (match acc' with [] => false | _ => true end) then tlift (Ok acc')
    else run_parse_t recP recT M word lower (S i) r acc' seen')
  end.
Fixpoint run_tag_t (recP : str -> tr (list parse)) (recT : str -> tr (list tag)) (M : morph)
         (word lower : str) (i : nat) (us : list (bunit * bool)) (acc : list tag) (seen : list tag)
  : tr (list tag) :=
  match us with
  | [] => tlift (Ok acc)
  | (b, terminal) :: r =>
    tbind (unit_tag_t recP recT M i b word lower seen) (fun out =>
    let '(ts, seen') := out in
    let acc' := acc ++ ts in
    if terminal && (match acc' with [] => false | _ => true end) then tlift (Ok acc')
    else run_tag_t recP recT M word lower (S i) r acc' seen')
  end.
(** analyzer.py:301-326 parse and 328-341 tag: the word is noted on entry *)
Definition enter {A} (word : str) (m : tr A) : tr A := (word :: fst m, snd m).
Fixpoint analyze_t (fuel : nat) (M : morph) : (str -> tr (list parse)) * (str -> tr (list tag)) :=
  match fuel with
  | 0 => (fun word => enter word (tlift (Err RecursionError)), fun word => enter word (tlift (Err RecursionError)))
  | S f =>
    let rec := analyze_t f M in
    (fun word => enter word (
       let lower := u_lower (m_uni M) word in
       tbind (run_parse_t (fst rec) (snd rec) M word lower 0 (m_units M) [] []) (fun r =>
       tlift (match m_prob M with Some d => apply_to_parses d lower r | None => Ok r end))),
     fun word => enter word (
       let lower := u_lower (m_uni M) word in
       tbind (run_tag_t (fst rec) (snd rec) M word lower 0 (m_units M) [] []) (fun r =>
       tlift (match m_prob M with Some d => Ok (apply_to_tags d lower r) | None => Ok r end))))
  end.
(** the words analysed by morph.parse(word), morph.tag(word) *)
Definition parse_trace (M : morph) (word : str) : list str := fst (fst (analyze_t (fuel_for M word) M) word).
Definition tag_trace (M : morph) (word : str) : list str := fst (snd (analyze_t (fuel_for M word) M) word).
