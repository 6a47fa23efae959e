(** * Model of pymorphy2/opencorpora_dict/probability.py *)
From Coq Require Import String List NArith ZArith Bool QArith.
From Verif Require Import Py Uni Tagset Dawg Dict Units Analyzer Compile Preprocess Json Storage.
Import ListNotations.
Local Open Scope nat_scope.
Local Open Scope list_scope.

(** The corpus as [CorpusReader.iter_parsed_words] gives it (external package opencorpora-tools): every word with the
    tag texts of its annotations; an annotation's lemma is not used. *)
Definition corpus := list (str * list str).

(** probability.py:122-127 _disambiguated_words: words with exactly one annotation *)
Definition disambiguated (c : corpus) : list (str * str) :=
  flat_map (fun wp : str * list str => match snd wp with [t] => [(fst wp, t)] | _ => [] end) c.

(** probability.py:81-88: occurrences of words the analyzer finds ambiguous, as (lower-cased word, grammemes) *)
Definition ambiguous_words (M : morph) (c : corpus) : res (list (str * sset)) :=
  let* l := filterM (fun wt : str * str => let* ts := morph_tag M (fst wt) in Ok (1 <? length ts)) (disambiguated c) in
  Ok (filter (fun wg => negb (seq_set (snd wg) [u "UNKN"]))
             (map (fun wt => (u_lower (m_uni M) (fst wt), tag2grammemes (snd wt))) l)).

(** nltk.FreqDist over frozensets of grammemes (external package): counts per outcome *)
Definition fdist := list (sset * nat).
Definition fd_count (fd : fdist) (g : sset) : nat := match dget seq_set g fd with Some n => n | None => 0 end.
Definition fd_N (fd : fdist) : nat := list_sum (map snd fd).
Definition fd_B (fd : fdist) : nat := length fd.
(** probability.py:96 nltk.ConditionalFreqDist(pairs) *)
Definition cfd_add (d : list (str * fdist)) (wg : str * sset) : list (str * fdist) :=
  let fd := match sget (fst wg) d with Some fd => fd | None => [] end in
  sset_ (fst wg) (incr seq_set (snd wg) fd) d.
Definition cond_freq (l : list (str * sset)) : list (str * fdist) := fold_left cfd_add l [].

(** nltk.LaplaceProbDist(fd, bins).prob(g) = (count + 1) / (N + bins), as an exact rational.  The constructor's
    ValueErrors (no bins, fewer bins than outcomes) cannot happen: bins >= fd.B() >= 1. *)
Definition laplace (fd : fdist) (bins : nat) (g : sset) : Q :=
  Z.of_nat (fd_count fd g + 1) # Pos.of_nat (fd_N fd + bins).

(** probability.py:92-98: per word, the frequency distribution and the number of bins *)
Definition pdists := list (str * (fdist * nat)).
Definition prob_dists (M : morph) (cf : list (str * fdist)) : res pdists :=
  mapM (fun wf : str * fdist =>
          let* ts := morph_tag M (fst wf) in
          Ok (fst wf, (snd wf, Nat.max (length ts) (fd_B (snd wf))))) cf.

(** probability.py:49-98 estimate_conditional_tag_probability: (cpd, cfd) *)
Definition estimate (M : morph) (c : corpus) : res (pdists * list (str * fdist)) :=
  let* l := ambiguous_words M c in
  let cf := cond_freq l in
  let* d := prob_dists M cf in
  Ok (d, cf).

(** probability.py:134-149: a dict from tags (compared as grammeme tuples; the first of equal keys stays) *)
Definition tag_probabilities (M : morph) (w : str) (d : fdist * nat) : res (list (tag * Q)) :=
  let* ps := morph_parse M w in
  Ok (fold_left (fun acc p => dset tag_eqb (p_tag p) (laplace (fst d) (snd d) (t_gr (p_tag p))) acc) ps []).

(** probability.py:130-131 _all_the_same *)
Definition all_the_same (l : list (tag * Q)) : bool :=
  match l with [] => true | (_, q) :: r => forallb (fun x : tag * Q => Qeq_bool (snd x) q) r end.

(** probability.py:101-119 build_cpd_dawg.  The keys given to IntCompletionDAWG are pairwise different unless tag
    texts contain ':'; a lookup is that of the first pair with the key. *)
Definition build_cpd (M : morph) (d : pdists) (min_freq : nat) : res cpd :=
  let words := filter (fun wd : str * (fdist * nat) => min_freq <=? fd_N (fst (snd wd))) d in
  let* data := mapM (fun wd : str * (fdist * nat) =>
                       let* tp := tag_probabilities M (fst wd) (snd wd) in Ok (fst wd, tp)) words in
  let kept := filter (fun wt : str * list (tag * Q) => negb (all_the_same (snd wt))) data in
  Ok (map (fun kv : str * Z => (fst kv, Z.to_N (snd kv)))
          (cpd_build (flat_map (fun wt : str * list (tag * Q) =>
                                  map (fun tq : tag * Q => ((fst wt, t_str (fst tq)), snd tq)) (snd wt)) kept))).

(** probability.py:21-46: the table built from a corpus *)
Definition probability_table (M : morph) (c : corpus) (min_freq : nat) : res cpd :=
  let* e := estimate M c in build_cpd M (fst e) min_freq.

(** probability.py:40-45: what is added to meta.json *)
Definition probability_meta (M : morph) (c : corpus) (min_freq : nat) : res (list (str * jval)) :=
  let* e := estimate M c in
  Ok [(u "P(t|w)", JBool true);
      (u "P(t|w)_unique_words", jnat (length (fst e)));
      (u "P(t|w)_outcomes", jnat (list_sum (map (fun wf : str * fdist => fd_N (snd wf)) (snd e))));
      (u "P(t|w)_min_word_freq", jnat min_freq)].
