(** * Adding P(t|w) estimates to a compiled dictionary (C66) *)
From Coq Require Import String List NArith ZArith Bool QArith.
From Verif Require Import Py Uni Tagset Dawg Utils Shapes Dict Units Analyzer ConfigRu ConfigUk Compile Json Storage Create Preprocess Probability AddProb Spec3 Spec4 Spec5 Spec9 Spec16 Ex.
From Verif Require Import L_ExS L_ExW L_ExP L_AddProb L_AddProb2 L_ExA.
Import ListNotations.
Local Open Scope nat_scope.
Local Open Scope list_scope.

(** after a successful run every constructor call that selects this folder gives what the same call with
    probability_estimator_cls=None gave before, with the estimated table (the table C54 is about) as its estimator; in particular the
    same warnings, exceptions, dictionary, units and language *)
Theorem C66_complete : forall wr W C path c mf C1 s, add_probability wr W C path c mf = (C1, s) -> snd s = Ok tt -> gramtab_apart (w_folder W path) ->
  exists ws0 z T, create W C (estimating_args path) = (ws0, C1, Ok z) /\ probability_table (z_morph z) c mf = Ok T /\
  (w_cpd W (wr T) = Ok T -> forall D a ws D' r, a_est a = EstAuto -> picks W a path -> create W D (no_estimator a) = (ws, D', r) ->
     create (set_folder W path (frun (fst s) (w_folder W path))) D a = (ws, D', rmap (fun z => analyzer_with z T) r)).
Proof. exact added. Qed.
Print Assumptions C66_complete.
(** what meta.json says afterwards; nothing else in the folder changes, except for the table *)
Theorem C66_meta : forall wr W C path c mf C1 s, add_probability wr W C path c mf = (C1, s) -> snd s = Ok tt ->
  let d := w_folder W path in let d' := frun (fst s) d in
  (forall f, f <> META -> f <> TABLE -> sget f d' = sget f d) /\
  exists ws z m m' words, create W C (estimating_args path) = (ws, C1, Ok z) /\ load_meta d META = Ok m /\ load_meta d' META = Ok m' /\
    sget (u "P(t|w)") m' = Some (JBool true) /\ sget (u "P(t|w)_min_word_freq") m' = Some (JInt (Z.of_nat mf)) /\
    sget (u "P(t|w)_outcomes") m' = Some (JInt (Z.of_nat (length (filter (counts (z_morph z)) c)))) /\
    NoDup words /\ (forall w, In w words <-> occurrences (z_morph z) c w <> []) /\ sget (u "P(t|w)_unique_words") m' = Some (JInt (Z.of_nat (length words))) /\
    forall k, ~ In k [u "P(t|w)"; u "P(t|w)_unique_words"; u "P(t|w)_outcomes"; u "P(t|w)_min_word_freq"] -> sget k m' = sget k m.
Proof. exact add_meta. Qed.
Print Assumptions C66_meta.
(** a run that is interrupted, or ends with an exception: all other files stay; once meta.json was touched nothing can be created from the
    folder; before that, and if the dictionary had no table, every constructor call gives exactly what it gave before the run *)
Theorem C66_interrupted : forall wr W C path c mf C1 s n, add_probability wr W C path c mf = (C1, s) -> (n < length (fst s) \/ snd s <> Ok tt) -> gramtab_apart (w_folder W path) ->
  let d := w_folder W path in let d' := frun (firstn n (fst s)) d in
  (forall f, f <> META -> f <> TABLE -> sget f d' = sget f d) /\
  forall D a, a_est a = EstAuto -> picks W a path ->
  (sget META d' <> sget META d -> exists e, create (set_folder W path d') D a = ([], D, Err e)) /\
  (sget META d' = sget META d -> ~ declares_table d -> create (set_folder W path d') D a = create W D a).
Proof. exact add_cut. Qed.
Print Assumptions C66_interrupted.
(** a run on a dictionary that already has a table destroys the old one with its first write: from then on either nothing can be created, or
    the table is the new one, completely written, while meta.json still describes the old one *)
Theorem C66_interrupted_again : forall wr W C path c mf C1 s n, add_probability wr W C path c mf = (C1, s) -> gramtab_apart (w_folder W path) -> declares_table (w_folder W path) ->
  (forall T k, k < length (wr T) -> exists e, w_cpd W (firstn k (wr T)) = Err e) ->
  let d := w_folder W path in let d' := frun (firstn n (fst s)) d in
  0 < n -> (n < length (fst s) \/ snd s <> Ok tt) -> fst s <> [] ->
  (forall D a, a_est a = EstAuto -> picks W a path -> exists ws D' e, create (set_folder W path d') D a = (ws, D', Err e)) \/
  exists ws z T, create W C (estimating_args path) = (ws, C1, Ok z) /\ probability_table (z_morph z) c mf = Ok T /\ sget META d' = sget META d /\ sget TABLE d' = Some (wr T).
Proof. exact add_cut_again. Qed.
Print Assumptions C66_interrupted_again.
(** a second run, with any corpus: the first one has no influence on anything *)
Theorem C66_last_wins : forall wr W C path c1 mf1 C1 s1 D c2 mf2 C2 s2 C3 s3, gramtab_apart (w_folder W path) ->
  add_probability wr W C path c1 mf1 = (C1, s1) -> snd s1 = Ok tt -> let d := w_folder W path in let d1 := frun (fst s1) d in
  add_probability wr (set_folder W path d1) D path c2 mf2 = (C2, s2) -> add_probability wr W D path c2 mf2 = (C3, s3) ->
  C2 = C3 /\ snd s2 = snd s3 /\ (snd s2 = Ok tt -> forall f, sget f (frun (fst s2) d1) = sget f (frun (fst s3) d)).
Proof. exact add_again. Qed.
Print Assumptions C66_last_wins.
(** so a working dictionary can become unusable *)
Theorem C66_atomic_refuted : exists W path C1 s n ws C' z, add_probability cpd_write W tc_initial path demo_corpus 3 = (C1, s) /\ snd s = Ok tt /\ n < length (fst s) /\
  create W tc_initial auto_args = (ws, C', Ok z) /\
  exists ws D' e, create (set_folder W path (frun (firstn n (fst s)) (w_folder W path))) tc_initial auto_args = (ws, D', Err e).
Proof. exact broken. Qed.
Print Assumptions C66_atomic_refuted.
Example C66_case : exists C1 s, add_probability cpd_write cpd_world tc_initial (u "/dicts/ru") demo_corpus 3 = (C1, s) /\ snd s = Ok tt /\ gramtab_apart (w_folder cpd_world (u "/dicts/ru")) /\
  ~ declares_table (w_folder cpd_world (u "/dicts/ru")) /\ 1000 < length (fst s) /\ picks cpd_world auto_args (u "/dicts/ru") /\ w_cpd cpd_world (cpd_write demo_table) = Ok demo_table /\
  scores_in (frun (fst s) ru_folder) (u "Кота") = Ok [600000 # 1000000; 400000 # 1000000]%Q /\ scores_in ru_folder (u "Кота") = Ok [1; 1]%Q.
Proof.
  destruct added_case as (C1 & s & E & O & L & F). exists C1, s. split; [exact E|]. split; [exact O|]. split; [exact ru_apart|]. split; [exact ru_no_table|].
  split; [exact L|]. split; [apply picks_path; reflexivity|]. split; [exact demo_table_codec|]. rewrite F. exact demo_scores.
Qed.
