(** * The floating point scores
    The model computes scores as exact rationals.  Here the parts of the code that compute or compare
    scores are modelled once more, with the result of every arithmetic operation rounded by [fl].
    CPython's floats are [fl := b64]: the nearest number with a 53-bit significand, ties to even.
    Simplification: exponents are unbounded here; Doubles.v adds the bounds of binary64 (C72_double).
    A float is represented by its (rational) value. *)
From Coq Require Import String List NArith ZArith Bool QArith Qround Qabs Qpower.
From Verif Require Import Py Uni Tagset Dawg Dict Utils Shapes Units Analyzer Json Probability.
Import ListNotations.
Local Open Scope nat_scope.
Local Open Scope list_scope.

(** ** Rounding to 53 bits *)
Definition pow2 (e : Z) : Q := Qpower 2 e.
(** the integer part of the binary logarithm of a positive number *)
Definition binary_exp (a : Q) : Z :=
  let e := (Z.log2 (Qnum a) - Z.log2 (Zpos (Qden a)))%Z in
  if Qle_bool (pow2 e) a then e else (e - 1)%Z.
(** the nearest integer, halves to even *)
Definition nearest_int (y : Q) : Z :=
  let f := Qfloor y in
  match (y - inject_Z f ?= 1 # 2)%Q with
  | Lt => f
  | Gt => (f + 1)%Z
  | Eq => if Z.even f then f else (f + 1)%Z
  end.
Definition round_pos (a : Q) : Q :=
  let e := (binary_exp a - 52)%Z in
  (inject_Z (nearest_int (a / pow2 e)) * pow2 e)%Q.
Definition b64 (x : Q) : Q :=
  match (x ?= 0)%Q with
  | Eq => 0%Q
  | Gt => round_pos x
  | Lt => (- round_pos (- x))%Q
  end.

(** ** The units (literals of the configuration are rounded too) *)
(** by_analogy.py:71-77, :132-138 *)
Definition prefixed_fl (fl : Q -> Q) (self : uref) (mult : Q) (prefix : str) (p : parse) : parse :=
  {| p_word := prefix ++ p_word p; p_tag := p_tag p; p_nf := prefix ++ p_nf p;
     p_score := fl (p_score p * fl mult)%Q; p_stack := p_stack p ++ [MStr self prefix] |}.
Definition prefix_step_fl (fl : Q -> Q) (self : uref) (mult : Q) (prefix : str)
           (st : list parse * list skey) (parses : list parse) : list parse * list skey :=
  fold_left add_parse_if_not_seen
            (map (prefixed_fl fl self mult prefix) (filter (fun p => is_productive (p_tag p)) parses)) st.
(** by_analogy.py:60-81 *)
Definition kp_parse_fl (fl : Q -> Q) (recP : str -> res (list parse)) (M : morph) (self : uref) (prefixes : list str)
           (mult : Q) (minrem : nat) (lower : str) (seen : list skey) : res (list parse * list skey) :=
  foldM (fun st (pr : str * str) =>
           let '(prefix, rest) := pr in
           let* ps := recP rest in
           Ok (prefix_step_fl fl self mult prefix st ps))
        ([], seen) (kp_splits M prefixes minrem lower).
(** by_analogy.py:120-141 *)
Definition up_parse_fl (fl : Q -> Q) (M : morph) (self sub : uref) (mult : Q) (lower : str) (seen : list skey)
  : res (list parse * list skey) :=
  foldM (fun st (pr : str * str) =>
           let '(prefix, rest) := pr in
           let* ps := dict_parse M sub rest in
           Ok (prefix_step_fl fl self mult prefix st ps))
        ([], seen) (word_splits lower).
(** by_analogy.py:237-241: cnt/total_counts[prefix_id] * score_multiplier *)
Definition ks_score_fl (fl : Q -> Q) (mult : Q) (total : nat) (r : ksraw) : parse :=
  {| p_word := k_word r; p_tag := k_tag r; p_nf := k_nf r;
     p_score := fl (fl (Z.of_nat (k_cnt r) # Pos.of_nat total) * fl mult)%Q; p_stack := k_stack r |}.
Definition ks_prefix_fl (fl : Q -> Q) (M : morph) (self sub : uref) (mult : Q) (lower : str)
           (acc : list parse * list skey) (ip : nat * str) : res (list parse * list skey) :=
  let '(pid, _) := ip in
  let* dawg := nth_res (d_pred (m_dict M)) pid in
  let* st := ks_lengths M self sub pid dawg lower
               {| ks_res := []; ks_seen := snd acc; ks_total := 1 |} (ks_splits (m_dict M)) in
  Ok (fst acc ++ map (ks_score_fl fl mult (ks_total st)) (ks_res st), ks_seen st).
Definition ks_parse_fl (fl : Q -> Q) (M : morph) (self sub : uref) (mult : Q) (minlen : nat)
           (word lower : str) (seen : list skey) : res (list parse * list skey) :=
  if length word <? minlen then Ok ([], seen)
  else
    let* r := foldM (ks_prefix_fl fl M self sub mult lower) ([], seen) (ks_prefixes (m_dict M) lower) in
    Ok (sort_desc score_geb (fst r), snd r).
(** by_hyphen.py:38-58 *)
Definition suffixed_fl (fl : Q -> Q) (self : uref) (mult : Q) (particle : str) (p : parse) : parse :=
  {| p_word := p_word p ++ particle; p_tag := p_tag p; p_nf := p_nf p ++ particle;
     p_score := fl (p_score p * fl mult)%Q; p_stack := p_stack p ++ [MStr self particle] |}.
Definition particle_parse_fl (fl : Q -> Q) (recP : str -> res (list parse)) (self : uref) (particles : list str) (mult : Q)
           (lower : str) (seen : list skey) : res (list parse * list skey) :=
  match particle_splits particles lower with
  | [] => Ok ([], seen)
  | (w, particle) :: _ =>
    let* ps := recP w in
    Ok (fold_left add_parse_if_not_seen (map (suffixed_fl fl self mult particle) ps) ([], seen))
  end.
(** by_hyphen.py:215-257, :189-213, :171-187 *)
Definition both_parse_fl (fl : Q -> Q) (self : uref) (mult : Q) (l r : parse) : parse :=
  {| p_word := hyphen_join (p_word l) (p_word r); p_tag := p_tag l;
     p_nf := hyphen_join (p_nf l) (p_nf r); p_score := fl (p_score l * fl mult)%Q;
     p_stack := [MHyphBoth self (p_stack l) (p_stack r)] |}.
Definition variable_both_fl (fl : Q -> Q) (self : uref) (mult : Q) (ls rs : list parse) : list parse :=
  flat_map (fun l =>
    if tag_is_unknown (p_tag l) then []
    else map (both_parse_fl fl self mult l)
             (filter (fun r => seq_set (similarity_features (p_tag l)) (similarity_features (p_tag r))) rs)) ls.
Definition fixed_left_parse_fl (fl : Q -> Q) (self : uref) (mult : Q) (left : str) (r : parse) : parse :=
  {| p_word := hyphen_join left (p_word r); p_tag := p_tag r;
     p_nf := hyphen_join left (p_nf r); p_score := fl (p_score r * fl mult)%Q;
     p_stack := [MHyphFixed self left (p_stack r)] |}.
Definition fixed_left_fl (fl : Q -> Q) (self : uref) (mult : Q) (left : str) (rs : list parse) : list parse :=
  map (fixed_left_parse_fl fl self mult left) (filter (fun r => negb (tag_is_unknown (p_tag r))) rs).
Definition hyph_parse_fl (fl : Q -> Q) (recP : str -> res (list parse)) (M : morph) (self : uref) (skip : list str) (mult : Q)
           (lower : str) (seen : list skey) : res (list parse * list skey) :=
  if negb (hyph_should_parse M skip lower) then Ok ([], seen)
  else
    match split_once HY lower with
    | (lw, Some rw) =>
      let* ls := recP lw in
      let* rs := recP rw in
      Ok (variable_both_fl fl self mult ls rs ++ fixed_left_fl fl self mult lw rs, seen)
    | (_, None) => Err ValueError
    end.
(** Unit.parse *)
Definition unit_parse_fl (fl : Q -> Q) (recP : str -> res (list parse)) (recT : str -> res (list tag))
           (M : morph) (i : nat) (b : bunit) (word lower : str) (seen : list skey)
  : res (list parse * list skey) :=
  let self := Root i in
  match b_cfg b with
  | UDict => let* ps := dict_parse M self lower in Ok (ps, seen)
  | UInit _ letters _ score =>
    Ok (if smem word letters
        then map (fun t => {| p_word := lower; p_tag := t; p_nf := lower; p_score := fl score;
                              p_stack := [MStr self word] |}) (b_tags b)
        else [], seen)
  | UNumber score | UPunct score | ULatin score | URoman score =>
    let* ps := shape_parse (m_uni M) self b (fl score) word lower in Ok (ps, seen)
  | UParticle particles mult => particle_parse_fl fl recP self particles mult lower seen
  | UHAdverb mult =>
    let* ok := adverb_should_parse recT M lower in
    if ok then
      let* t := nth_res (b_tags b) 0 in
      let p := {| p_word := lower; p_tag := t; p_nf := lower; p_score := fl mult; p_stack := [MStr self word] |} in
      Ok ([p], SFull p :: seen)
    else Ok ([], seen)
  | UHyph skip mult => hyph_parse_fl fl recP M self skip mult lower seen
  | UKnownPrefix ps mult minrem => kp_parse_fl fl recP M self ps mult minrem lower seen
  | UUnknownPrefix mult => up_parse_fl fl M self (Sub i) mult lower seen
  | UKnownSuffix mult minlen => ks_parse_fl fl M self (Sub i) mult minlen word lower seen
  | UUnkn =>
    match seen with
    | [] => let* t := nth_res (b_tags b) 0 in
            Ok ([{| p_word := lower; p_tag := t; p_nf := lower; p_score := 1; p_stack := [MStr self word] |}], seen)
    | _ => Ok ([], seen)
    end
  end.
(** Unit.tag: only the hyphen unit looks at parses *)
Definition unit_tag_fl (fl : Q -> Q) (recP : str -> res (list parse)) (recT : str -> res (list tag))
           (M : morph) (i : nat) (b : bunit) (word lower : str) (seen : list tag)
  : res (list tag * list tag) :=
  match b_cfg b with
  | UHyph skip mult => default_tag (hyph_parse_fl fl recP M (Root i) skip mult lower []) seen
  | _ => unit_tag recP recT M i b word lower seen
  end.
(** analyzer.py:314-318, :333-337 *)
Fixpoint run_parse_fl (fl : Q -> Q) (recP : str -> res (list parse)) (recT : str -> res (list tag)) (M : morph)
         (word lower : str) (i : nat) (us : list (bunit * bool)) (acc : list parse) (seen : list skey)
  : res (list parse) :=
  match us with
  | [] => Ok acc
  | (b, terminal) :: r =>
    let* out := unit_parse_fl fl recP recT M i b word lower seen in
    let '(ps, seen') := out in
    let acc' := acc ++ ps in
    if terminal && (match acc' with [] => false | _ => true end) then Ok acc'
    else run_parse_fl fl recP recT M word lower (S i) r acc' seen'
  end.
Fixpoint run_tag_fl (fl : Q -> Q) (recP : str -> res (list parse)) (recT : str -> res (list tag)) (M : morph)
         (word lower : str) (i : nat) (us : list (bunit * bool)) (acc : list tag) (seen : list tag)
  : res (list tag) :=
  match us with
  | [] => Ok acc
  | (b, terminal) :: r =>
    let* out := unit_tag_fl fl recP recT M i b word lower seen in
    let '(ts, seen') := out in
    let acc' := acc ++ ts in
    if terminal && (match acc' with [] => false | _ => true end) then Ok acc'
    else run_tag_fl fl recP recT M word lower (S i) r acc' seen'
  end.
(** analyzer.py:73-93: sum() adds from the left, rounding each time; [1.0 / sum] and the products are rounded;
    dawg.py:64-66: an integer divided by MULTIPLIER *)
Definition prob_fl (fl : Q -> Q) (d : cpd) (lower tagtext : str) : Q := fl (prob d lower tagtext).
Definition sum_fl (fl : Q -> Q) (l : list Q) : Q := fold_left (fun s x => fl (s + x)%Q) l 0%Q.
Definition apply_to_parses_fl (fl : Q -> Q) (d : cpd) (lower : str) (ps : list parse) : res (list parse) :=
  match ps with
  | [] => Ok []
  | _ =>
    let probs := map (fun p => prob_fl fl d lower (t_str (p_tag p))) ps in
    if Qeq_bool (sum_fl fl probs) 0%Q then
      let s := sum_fl fl (map p_score ps) in
      if Qeq_bool s 0%Q then Err ZeroDivisionError
      else Ok (map (fun p => with_score p (fl (p_score p * fl (1 / s)))%Q) ps)
    else Ok (sort_desc score_geb (map (fun pq => with_score (fst pq) (snd pq)) (combine ps probs)))
  end.
(** analyzer.py:95-101 *)
Definition apply_to_tags_fl (fl : Q -> Q) (d : cpd) (lower : str) (ts : list tag) : list tag :=
  sort_desc (fun a b => Qgeb (prob_fl fl d lower (t_str a)) (prob_fl fl d lower (t_str b))) ts.
(** analyzer.py:301-341 *)
Fixpoint analyze_fl (fl : Q -> Q) (fuel : nat) (M : morph) : (str -> res (list parse)) * (str -> res (list tag)) :=
  match fuel with
  | 0 => (fun _ => Err RecursionError, fun _ => Err RecursionError)
  | S f =>
    let rec := analyze_fl fl f M in
    (fun word =>
       let lower := u_lower (m_uni M) word in
       let* r := run_parse_fl fl (fst rec) (snd rec) M word lower 0 (m_units M) [] [] in
       match m_prob M with Some d => apply_to_parses_fl fl d lower r | None => Ok r end,
     fun word =>
       let lower := u_lower (m_uni M) word in
       let* r := run_tag_fl fl (fst rec) (snd rec) M word lower 0 (m_units M) [] [] in
       match m_prob M with Some d => Ok (apply_to_tags_fl fl d lower r) | None => Ok r end)
  end.
(** morph.parse(word), morph.tag(word), with floats *)
Definition parse_b64 (M : morph) (word : str) : res (list parse) := fst (analyze_fl b64 (fuel_for M word) M) word.
Definition tag_b64 (M : morph) (word : str) : res (list tag) := snd (analyze_fl b64 (fuel_for M word) M) word.

(** ** Inflection: analyzer.py:381-383 similarity, len(...) - 0.1 * len(...) *)
Definition similarity_fl (fl : Q -> Q) (grammemes : sset) (f : parse) : Q :=
  fl (inject_Z (Z.of_nat (slen (sinter grammemes (t_gr (p_tag f)))))
      - fl (fl (1 # 10) * inject_Z (Z.of_nat (slen (ssymdiff grammemes (t_gr (p_tag f)))))))%Q.
(** analyzer.py:371-385 *)
Definition inflect_fl (fl : Q -> Q) (M : morph) (form : parse) (req : sset) : res (option parse) :=
  let* lex := get_lexeme M form in
  let poss := filter (has_all req) lex in
  let* rp := (match poss with
              | [] => let req' := fix_rare_cases req in
                      let* lex' := get_lexeme M form in
                      Ok (req', filter (has_all req') lex')
              | _ => Ok (req, poss)
              end) in
  let '(req', poss') := rp in
  let* grammemes := updated_grammemes (m_tc M) (p_tag form) req' in
  Ok (max_first (fun a b => Qgtb (similarity_fl fl grammemes a) (similarity_fl fl grammemes b)) poss').

(** ** dawg.py:58-61: int(prob * MULTIPLIER), [prob] a float *)
Definition cpd_value_fl (fl : Q -> Q) (p : Q) : Z :=
  let y := fl (p * inject_Z (Zpos MULTIPLIER))%Q in Z.quot (Qnum y) (Zpos (Qden y)).

(** nltk.LaplaceProbDist.prob: one division of integers *)
Definition laplace_fl (fl : Q -> Q) (fd : fdist) (bins : nat) (g : sset) : Q := fl (laplace fd bins g).
(** probability.py:134-149.  Simplification: the readings of the word are those of the exact model (C72_parse) *)
Definition tag_probabilities_fl (fl : Q -> Q) (M : morph) (w : str) (d : fdist * nat) : res (list (tag * Q)) :=
  let* ps := morph_parse M w in
  Ok (fold_left (fun acc p => dset tag_eqb (p_tag p) (laplace_fl fl (fst d) (snd d) (t_gr (p_tag p))) acc) ps []).
(** probability.py:101-119 build_cpd_dawg *)
Definition build_cpd_fl (fl : Q -> Q) (M : morph) (d : pdists) (min_freq : nat) : res cpd :=
  let words := filter (fun wd : str * (fdist * nat) => min_freq <=? fd_N (fst (snd wd))) d in
  let* data := mapM (fun wd : str * (fdist * nat) =>
                       let* tp := tag_probabilities_fl fl M (fst wd) (snd wd) in Ok (fst wd, tp)) words in
  let kept := filter (fun wt : str * list (tag * Q) => negb (all_the_same (snd wt))) data in
  Ok (flat_map (fun wt : str * list (tag * Q) =>
                  map (fun tq : tag * Q => (prob_key (fst wt) (t_str (fst tq)), Z.to_N (cpd_value_fl fl (snd tq)))) (snd wt)) kept).
(** probability.py:21-46: the table built from a corpus *)
Definition probability_table_fl (fl : Q -> Q) (M : morph) (c : corpus) (min_freq : nat) : res cpd :=
  let* e := estimate M c in build_cpd_fl fl M (fst e) min_freq.
