(** * C91: what the compile options change *)
From Coq Require Import String List NArith ZArith Bool QArith Lia.
From Verif Require Import Py Uni Tagset Dawg Utils Dict Shapes Units Analyzer ConfigRu ConfigUk Compile Spec Spec2 Spec3 Spec14 Spec15 Spec34 Spec35 Spec36 Spec38 Spec39 Ex.
From Verif Require Import L_Base L_Ex L_ExU L_ExSoap L_ExC L_Units L_Permute3 L_Permute4 L_Grow L_Options P_Shapes P_Stages P_Permute P_Grow.
Import ListNotations.
Local Open Scope nat_scope.
Local Open Scope list_scope.

(** The words, paradigms, suffixes, prefixes and tag texts depend only on the paradigm prefixes, not on the other options. *)
Theorem C91_words : forall o1 o2 src links lxs x1 x2 D1 D2, join_lexemes src links = Ok lxs -> o_prefixes o1 = o_prefixes o2 ->
  compile_parsed_dict o1 src links = Ok x1 -> compile_parsed_dict o2 src links = Ok x2 -> loaded x1 D1 -> loaded x2 D2 ->
  d_words D1 = d_words D2 /\ d_paradigms D1 = d_paradigms D2 /\ d_suffixes D1 = d_suffixes D2 /\ d_prefixes D1 = d_prefixes D2 /\ map t_str (d_gramtab D1) = map t_str (d_gramtab D2).
Proof. exact options_words. Qed.
Print Assumptions C91_words.
(** A word of the source lexemes gets the same readings and tags whatever the options were (the paradigm prefixes included). *)
Theorem C91_known : forall U subst items src links lxs o1 x1 ext1 T1 rows1 T1' M1 o2 x2 ext2 T2 rows2 T2' M2, join_lexemes src links = Ok lxs ->
  compile_parsed_dict o1 src links = Ok x1 -> construct U ext1 T1 rows1 (x_gramtab x1) (dict_of x1) None subst items = Ok (T1', M1) ->
  compile_parsed_dict o2 src links = Ok x2 -> construct U ext2 T2 rows2 (x_gramtab x2) (dict_of x2) None subst items = Ok (T2', M2) ->
  items = RU_DEFAULT_UNITS \/ items = UK_DEFAULT_UNITS ->
  (forall g, In g ["ADJF"; "sing"; "datv"]%string -> In (u g) (map g_name rows1)) -> (forall g, In g ["ADJF"; "sing"; "datv"]%string -> In (u g) (map g_name rows2)) ->
  names_ok U -> lower_stable U -> digits_ok U -> forall word, u_lower U word <> [] -> (exists lx w t, In lx lxs /\ In (w, t) lx /\ subst_of subst (u_lower U word) w) ->
  exists ps1 ps2 ts1 ts2, morph_parse M1 word = Ok ps1 /\ morph_parse M2 word = Ok ps2 /\ morph_tag M1 word = Ok ts1 /\ morph_tag M2 word = Ok ts2 /\
    (forall w g, analysed ps1 w g <-> analysed ps2 w g) /\ same_tags ts1 ts2.
Proof.
  intros U subst items src links lxs o1 x1 ext1 T1 rows1 T1' M1 o2 x2 ext2 T2 rows2 T2' M2 J H1 K1 H2 K2 HI A1 A2 NO LS DG word NE KN.
  destruct (growing _ _ _ _ _ _ _ _ _ _ _ _ _ _ _ _ _ _ _ _ _ _ _ J H1 K1 J H2 K2 (incl_refl lxs) HI A1 A2 NO LS DG word NE KN) as (ps1 & ps2 & ts1 & ts2 & P1 & P2 & Q1 & Q2 & _ & _ & _ & R).
  exists ps1, ps2, ts1, ts2. do 4 (split; [assumption|]). apply R. intros lx w t I W _. exists lx. auto.
Qed.
Print Assumptions C91_known.
(** Raising min_ending_freq removes exactly the records of the endings met less often than the new bound; the paradigm numbers stay. *)
Theorem C91_frequency : forall f1 f2 p m pp src links lxs x1 x2 D1 D2, f1 <= f2 -> join_lexemes src links = Ok lxs ->
  compile_parsed_dict (MkOpt f1 p m pp) src links = Ok x1 -> loaded x1 D1 -> compile_parsed_dict (MkOpt f2 p m pp) src links = Ok x2 -> loaded x2 D2 ->
  exists ks, length ks = length lxs /\ (forall w k i, stored D1 w k i <-> In (w, (k, i)) (all_entries lxs ks)) /\
  forall pid e c k i, predicts D2 pid e c k i <-> predicts D1 pid e c k i /\ exists n, ending_frequency D1 (MkOpt f1 p m pp) ks (all_entries lxs ks) e n /\ f2 <= n.
Proof. exact frequency_option. Qed.
Print Assumptions C91_frequency.
(** Lowering max_suffix_length removes exactly the records of the longer endings, for all endings that are not themselves a source form. *)
Theorem C91_length : forall f p m1 m2 pp src links lxs x1 x2 D1 D2, m1 <= m2 -> join_lexemes src links = Ok lxs ->
  compile_parsed_dict (MkOpt f p m1 pp) src links = Ok x1 -> loaded x1 D1 -> compile_parsed_dict (MkOpt f p m2 pp) src links = Ok x2 -> loaded x2 D2 ->
  forall e, (forall lx t, In lx lxs -> ~ In (e, t) lx) -> forall pid c k i, predicts D1 pid e c k i <-> predicts D2 pid e c k i /\ length e <= m1.
Proof. exact length_option. Qed.
Print Assumptions C91_length.
(** No ending is longer than max_suffix_length. *)
Theorem C91_longest : forall o src links lxs x D, join_lexemes src links = Ok lxs -> compile_parsed_dict o src links = Ok x -> loaded x D ->
  forall pid e c k i, predicts D pid e c k i -> length e <= o_max_suffix o.
Proof. exact max_length. Qed.
Print Assumptions C91_longest.
(** Raising min_paradigm_popularity keeps the records of the paradigms that are still common enough, as long as the ending is still frequent enough, and leaves no record of a rarer paradigm. *)
Theorem C91_popularity : forall f p1 p2 m pp src links lxs x1 x2 D1 D2, p1 <= p2 -> join_lexemes src links = Ok lxs ->
  compile_parsed_dict (MkOpt f p1 m pp) src links = Ok x1 -> loaded x1 D1 -> compile_parsed_dict (MkOpt f p2 m pp) src links = Ok x2 -> loaded x2 D2 ->
  exists ks, length ks = length lxs /\ (forall w k i, stored D1 w k i <-> In (w, (k, i)) (all_entries lxs ks)) /\
  (forall pid e c k i, predicts D2 pid e c k i -> p2 <= popularity ks k) /\
  forall pid e c k i, predicts D1 pid e c k i -> p2 <= popularity ks k ->
    (exists n, ending_frequency D2 (MkOpt f p2 m pp) ks (all_entries lxs ks) e n /\ f <= n) -> predicts D2 pid e c k i.
Proof. exact popularity_option. Qed.
Print Assumptions C91_popularity.

(** ** concrete dictionaries *)
Definition one (id : N) (w t : string) : N * list (str * str) := (id, [form w t]).
Definition src_m : lexemes := [one 1 "аба" "NOUN,masc"; one 2 "вба" "NOUN,masc"; one 3 "гба" "NOUN,femn"; one 4 "где" "NOUN,femn"; one 5 "гее" "NOUN,femn"].
Definition opt (f p m : nat) : coptions := MkOpt f p m [[]].
Definition tags_in (x : compiled) : list tag := map (fun t => MkTag t (split_tag t)) (x_gramtab x).
Definition raw (x : compiled) : dict := dict_of x (tags_in x).
Lemma raw_loaded : forall x, loaded x (raw x).
Proof. intros x. unfold loaded, raw, dict_of. cbn. split; [reflexivity|]. split; [|repeat split]. unfold tags_in. rewrite map_map. cbn. apply map_id. Qed.
Definition no_record (D : dict) (pid : nat) (e : str) (k i : nat) : bool :=
  match nth_error (d_pred D) pid with Some dw => match sget e dw with Some vs => forallb (fun v : nat * nat * nat => negb ((snd (fst v) =? k) && (snd v =? i))) vs | None => true end | None => true end.
Lemma no_record_ok : forall D pid e k i, no_record D pid e k i = true -> forall c, ~ predicts D pid e c k i.
Proof.
  intros D pid e k i H c (dw & vs & A & B & I). unfold no_record in H. rewrite A, B in H. rewrite forallb_forall in H. specialize (H _ I). cbn in H. rewrite !Nat.eqb_refl in H. discriminate H.
Qed.
Lemma c_m : forall f p m, compile_parsed_dict (opt f p m) src_m [] = Ok (built (opt f p m) src_m) <-> (match compile_parsed_dict (opt f p m) src_m [] with Ok _ => true | Err _ => false end) = true.
Proof. intros f p m. split; [intros ->; reflexivity|apply compiled_of]. Qed.
Lemma c_112 : compile_parsed_dict (opt 1 1 2) src_m [] = Ok (built (opt 1 1 2) src_m). Proof. apply c_m. vm_compute. reflexivity. Qed.
Lemma c_113 : compile_parsed_dict (opt 1 1 3) src_m [] = Ok (built (opt 1 1 3) src_m). Proof. apply c_m. vm_compute. reflexivity. Qed.
Lemma c_213 : compile_parsed_dict (opt 2 1 3) src_m [] = Ok (built (opt 2 1 3) src_m). Proof. apply c_m. vm_compute. reflexivity. Qed.
Lemma c_132 : compile_parsed_dict (opt 1 3 2) src_m [] = Ok (built (opt 1 3 2) src_m). Proof. apply c_m. vm_compute. reflexivity. Qed.
(** the ending "е" (met twice) survives min_ending_freq 2, the ending "де" (met once) does not; "де" is there with length limit 2 and 3, and so on *)
Example C91_case : (exists lxs, join_lexemes src_m [] = Ok lxs /\ length lxs = 5 /\ forall lx t, In lx lxs -> ~ In (u "де", t) lx) /\
  compile_parsed_dict (opt 1 1 2) src_m [] = Ok (built (opt 1 1 2) src_m) /\ compile_parsed_dict (opt 1 1 3) src_m [] = Ok (built (opt 1 1 3) src_m) /\
  compile_parsed_dict (opt 2 1 3) src_m [] = Ok (built (opt 2 1 3) src_m) /\ compile_parsed_dict (opt 1 3 2) src_m [] = Ok (built (opt 1 3 2) src_m) /\
  (forall x, loaded x (raw x)) /\
  predicts (raw (built (opt 1 1 3) src_m)) 0 (u "де") 1 1 0 /\ (forall c, ~ predicts (raw (built (opt 2 1 3) src_m)) 0 (u "де") c 1 0) /\
  predicts (raw (built (opt 1 1 3) src_m)) 0 (u "е") 2 1 0 /\ predicts (raw (built (opt 2 1 3) src_m)) 0 (u "е") 2 1 0 /\
  predicts (raw (built (opt 1 1 2) src_m)) 0 (u "де") 1 1 0 /\ predicts (raw (built (opt 1 3 2) src_m)) 0 (u "де") 1 1 0 /\
  (forall c, ~ predicts (raw (built (opt 1 3 2) src_m)) 0 (u "ба") c 0 0).
Proof.
  split. { eexists. split; [vm_compute; reflexivity|]. split; [reflexivity|]. intros lx t I E. repeat (destruct I as [<-|I]; [destruct E as [E|[]]; discriminate E|]). destruct I. }
  split; [exact c_112|]. split; [exact c_113|]. split; [exact c_213|]. split; [exact c_132|]. split; [exact raw_loaded|].
  split; [apply predictsb_ok; vm_compute; reflexivity|]. split; [apply no_record_ok; vm_compute; reflexivity|]. split; [apply predictsb_ok; vm_compute; reflexivity|]. split; [apply predictsb_ok; vm_compute; reflexivity|].
  split; [apply predictsb_ok; vm_compute; reflexivity|]. split; [apply predictsb_ok; vm_compute; reflexivity|]. apply no_record_ok. vm_compute. reflexivity.
Qed.
Definition norecb (D : dict) (pid : nat) (e : str) (c k i : nat) : bool := negb (predictsb D pid e c k i).
(** Raising min_paradigm_popularity may also add a record: a more frequent competitor of the same part of speech disappears. *)
Theorem C91_popularity_adds_refuted : exists f p1 p2 m pp src lxs x1 x2 D1 D2 pid e c k i, p1 <= p2 /\ join_lexemes src [] = Ok lxs /\
  compile_parsed_dict (MkOpt f p1 m pp) src [] = Ok x1 /\ loaded x1 D1 /\ compile_parsed_dict (MkOpt f p2 m pp) src [] = Ok x2 /\ loaded x2 D2 /\
  predicts D2 pid e c k i /\ forall c', ~ predicts D1 pid e c' k i.
Proof.
  assert (J : exists lxs, join_lexemes src_m [] = Ok lxs) by (eexists; vm_compute; reflexivity). destruct J as (lxs & J).
  exists 1, 1, 3, 2, [[]], src_m, lxs, (built (opt 1 1 2) src_m), (built (opt 1 3 2) src_m), (raw (built (opt 1 1 2) src_m)), (raw (built (opt 1 3 2) src_m)), 0, (u "ба"), 1, 1, 0.
  split; [lia|]. split; [exact J|]. split; [exact c_112|]. split; [apply raw_loaded|]. split; [exact c_132|]. split; [apply raw_loaded|].
  split; [apply predictsb_ok; vm_compute; reflexivity|apply no_record_ok; vm_compute; reflexivity].
Qed.
Print Assumptions C91_popularity_adds_refuted.
(** For an ending that is itself a source form [C91_length] fails: its count grows with max_suffix_length. *)
Definition src_h : lexemes := [one 1 "ёж" "NOUN"].
Lemma c_h2 : compile_parsed_dict (opt 1 1 2) src_h [] = Ok (built (opt 1 1 2) src_h). Proof. apply compiled_of. vm_compute. reflexivity. Qed.
Lemma c_h5 : compile_parsed_dict (opt 1 1 5) src_h [] = Ok (built (opt 1 1 5) src_h). Proof. apply compiled_of. vm_compute. reflexivity. Qed.
Definition counts (D : dict) (pid : nat) (e : str) (l : list nat) : bool :=
  match nth_error (d_pred D) pid with Some dw => match sget e dw with Some vs => forallb (fun v : nat * nat * nat => existsb (Nat.eqb (fst (fst v))) l) vs | None => true end | None => true end.
Lemma counts_ok : forall D pid e l, counts D pid e l = true -> forall c k i, predicts D pid e c k i -> In c l.
Proof.
  intros D pid e l H c k i (dw & vs & A & B & I). unfold counts in H. rewrite A, B in H. rewrite forallb_forall in H. specialize (H _ I). cbn in H. apply existsb_exists in H as (n & J & E). apply Nat.eqb_eq in E. subst n. exact J.
Qed.
Theorem C91_length_whole_refuted : exists f p m1 m2 pp src lxs x1 x2 D1 D2 pid e c k i, m1 <= m2 /\ join_lexemes src [] = Ok lxs /\
  compile_parsed_dict (MkOpt f p m1 pp) src [] = Ok x1 /\ loaded x1 D1 /\ compile_parsed_dict (MkOpt f p m2 pp) src [] = Ok x2 /\ loaded x2 D2 /\
  length e <= m1 /\ predicts D2 pid e c k i /\ ~ predicts D1 pid e c k i.
Proof.
  assert (J : exists lxs, join_lexemes src_h [] = Ok lxs) by (eexists; vm_compute; reflexivity). destruct J as (lxs & J).
  exists 1, 1, 2, 5, [[]], src_h, lxs, (built (opt 1 1 2) src_h), (built (opt 1 1 5) src_h), (raw (built (opt 1 1 2) src_h)), (raw (built (opt 1 1 5) src_h)), 0, (u "ёж"), 4, 0, 0.
  split; [lia|]. split; [exact J|]. split; [exact c_h2|]. split; [apply raw_loaded|]. split; [exact c_h5|]. split; [apply raw_loaded|]. split; [cbn; lia|].
  split; [apply predictsb_ok; vm_compute; reflexivity|]. intros Q. assert (K : counts (raw (built (opt 1 1 2) src_h)) 0 (u "ёж") [1] = true) by (vm_compute; reflexivity).
  pose proof (counts_ok _ _ _ _ K _ _ _ Q) as I. destruct I as [I|[]]. discriminate I.
Qed.
Print Assumptions C91_length_whole_refuted.
(** ** raising min_ending_freq may give an unknown word a new reading: a shorter ending is used *)
Definition src_q : lexemes := [one 1 "ааба" "NOUN"; one 2 "вцба" "VERB"].
Lemma c_q1 : compile_parsed_dict (opt 1 1 3) src_q [] = Ok (built (opt 1 1 3) src_q). Proof. apply compiled_of. vm_compute. reflexivity. Qed.
Lemma c_q2 : compile_parsed_dict (opt 2 1 3) src_q [] = Ok (built (opt 2 1 3) src_q). Proof. apply compiled_of. vm_compute. reflexivity. Qed.
Lemma f_q1 : exists C M ps, construct uni_named false tc_initial demo_rows (x_gramtab (built (opt 1 1 3) src_q)) (dict_of (built (opt 1 1 3) src_q)) None e_yo RU_DEFAULT_UNITS = Ok (C, M) /\ morph_parse M (u "ддаба") = Ok ps /\ ~ analysed ps (u "ддаба") [u "VERB"]. Proof. apply found_no. vm_compute. reflexivity. Qed.
Lemma f_q2 : exists C M ps, construct uni_named false tc_initial demo_rows (x_gramtab (built (opt 2 1 3) src_q)) (dict_of (built (opt 2 1 3) src_q)) None e_yo RU_DEFAULT_UNITS = Ok (C, M) /\ morph_parse M (u "ддаба") = Ok ps /\ analysed ps (u "ддаба") [u "VERB"]. Proof. apply found_yes. vm_compute. reflexivity. Qed.
(** a known word with both option sets *)
Example C91_case_known : (exists lxs lx w t, join_lexemes src_q [] = Ok lxs /\ In lx lxs /\ In (w, t) lx /\ subst_of e_yo (u_lower uni_named (u "Ааба")) w) /\ u_lower uni_named (u "Ааба") <> [] /\
  compile_parsed_dict (opt 1 1 3) src_q [] = Ok (built (opt 1 1 3) src_q) /\ compile_parsed_dict (opt 2 1 3) src_q [] = Ok (built (opt 2 1 3) src_q) /\
  (forall g, In g ["ADJF"; "sing"; "datv"]%string -> In (u g) (map g_name demo_rows)) /\ names_ok uni_named /\ lower_stable uni_named /\ digits_ok uni_named /\
  (exists C M ps, construct uni_named false tc_initial demo_rows (x_gramtab (built (opt 1 1 3) src_q)) (dict_of (built (opt 1 1 3) src_q)) None e_yo RU_DEFAULT_UNITS = Ok (C, M) /\ morph_parse M (u "Ааба") = Ok ps /\ map (fun p => t_str (p_tag p)) ps = [u "NOUN"]) /\
  (exists C M ps, construct uni_named false tc_initial demo_rows (x_gramtab (built (opt 2 1 3) src_q)) (dict_of (built (opt 2 1 3) src_q)) None e_yo RU_DEFAULT_UNITS = Ok (C, M) /\ morph_parse M (u "Ааба") = Ok ps /\ map (fun p => t_str (p_tag p)) ps = [u "NOUN"]).
Proof.
  split. { exists [[form "ааба" "NOUN"]; [form "вцба" "VERB"]], [form "ааба" "NOUN"], (u "ааба"), (u "NOUN"). split; [vm_compute; reflexivity|]. split; [left; reflexivity|]. split; [left; reflexivity|].
    assert (E : u_lower uni_named (u "Ааба") = u "ааба") by (apply str_eqb_eq; vm_compute; reflexivity). rewrite E. exact (spells_itself _ _). }
  split; [discriminate|]. split; [exact c_q1|]. split; [exact c_q2|]. split; [exact demo_rows_adv|]. split; [exact uni_named_ok|]. split; [exact uni_named_stable|]. split; [exact uni_named_digits|].
  split; apply reads_ok; vm_compute; reflexivity.
Qed.
Lemma new_reading_gen : forall f1 f2 p m pp src lxs x1 x2 U rows subst items word v g, f1 <= f2 -> join_lexemes src [] = Ok lxs ->
  compile_parsed_dict (MkOpt f1 p m pp) src [] = Ok x1 -> compile_parsed_dict (MkOpt f2 p m pp) src [] = Ok x2 ->
  (exists C M ps, construct U false tc_initial rows (x_gramtab x1) (dict_of x1) None subst items = Ok (C, M) /\ morph_parse M word = Ok ps /\ ~ analysed ps v g) ->
  (exists C M ps, construct U false tc_initial rows (x_gramtab x2) (dict_of x2) None subst items = Ok (C, M) /\ morph_parse M word = Ok ps /\ analysed ps v g) ->
  exists f1 f2 p m pp src lxs x1 x2 T1 T2 M1 M2 word ps1 ps2 w g, f1 <= f2 /\ join_lexemes src [] = Ok lxs /\
  compile_parsed_dict (MkOpt f1 p m pp) src [] = Ok x1 /\ construct U false tc_initial rows (x_gramtab x1) (dict_of x1) None subst items = Ok (T1, M1) /\
  compile_parsed_dict (MkOpt f2 p m pp) src [] = Ok x2 /\ construct U false tc_initial rows (x_gramtab x2) (dict_of x2) None subst items = Ok (T2, M2) /\
  morph_parse M1 word = Ok ps1 /\ morph_parse M2 word = Ok ps2 /\ analysed ps2 w g /\ ~ analysed ps1 w g.
Proof.
  intros f1 f2 p m pp src lxs x1 x2 U rows subst items word v g F J H1 H2 (T1 & M1 & ps1 & C1 & P1 & E1) (T2 & M2 & ps2 & C2 & P2 & E2).
  exists f1, f2, p, m, pp, src, lxs, x1, x2, T1, T2, M1, M2, word, ps1, ps2, v, g. repeat (split; [assumption|]). assumption.
Qed.
Lemma j_q : exists lxs, join_lexemes src_q [] = Ok lxs. Proof. eexists. vm_compute. reflexivity. Qed.
Lemma new_reading : exists f1 f2 p m pp src lxs x1 x2 T1 T2 M1 M2 word ps1 ps2 w g, f1 <= f2 /\ join_lexemes src [] = Ok lxs /\
  compile_parsed_dict (MkOpt f1 p m pp) src [] = Ok x1 /\ construct uni_named false tc_initial demo_rows (x_gramtab x1) (dict_of x1) None e_yo RU_DEFAULT_UNITS = Ok (T1, M1) /\
  compile_parsed_dict (MkOpt f2 p m pp) src [] = Ok x2 /\ construct uni_named false tc_initial demo_rows (x_gramtab x2) (dict_of x2) None e_yo RU_DEFAULT_UNITS = Ok (T2, M2) /\
  morph_parse M1 word = Ok ps1 /\ morph_parse M2 word = Ok ps2 /\ analysed ps2 w g /\ ~ analysed ps1 w g.
Proof.
  destruct j_q as (lxs & J). apply (new_reading_gen 1 2 1 3 [[]] src_q lxs (built (opt 1 1 3) src_q) (built (opt 2 1 3) src_q) uni_named demo_rows e_yo RU_DEFAULT_UNITS (u "ддаба") (u "ддаба") [u "VERB"]).
  - lia.
  - exact J.
  - exact c_q1.
  - exact c_q2.
  - exact f_q1.
  - exact f_q2.
Qed.
Theorem C91_fewer_predictions_refuted : exists f1 f2 p m pp src lxs x1 x2 T1 T2 M1 M2 word ps1 ps2 w g, f1 <= f2 /\ join_lexemes src [] = Ok lxs /\
  compile_parsed_dict (MkOpt f1 p m pp) src [] = Ok x1 /\ construct uni_named false tc_initial demo_rows (x_gramtab x1) (dict_of x1) None e_yo RU_DEFAULT_UNITS = Ok (T1, M1) /\
  compile_parsed_dict (MkOpt f2 p m pp) src [] = Ok x2 /\ construct uni_named false tc_initial demo_rows (x_gramtab x2) (dict_of x2) None e_yo RU_DEFAULT_UNITS = Ok (T2, M2) /\
  morph_parse M1 word = Ok ps1 /\ morph_parse M2 word = Ok ps2 /\ analysed ps2 w g /\ ~ analysed ps1 w g.
Proof. exact new_reading. Qed.
Print Assumptions C91_fewer_predictions_refuted.
