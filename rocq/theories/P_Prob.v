(** * P(t|w) estimated from a corpus (C54); where tags come from (C59) *)
From Coq Require Import String List NArith ZArith Bool QArith Permutation Sorted.
From Verif Require Import Py Uni Tagset Dawg Dict Units Analyzer ConfigRu ConfigUk Compile Preprocess Probability Spec Spec5 Spec6 Ex
  L_Base L_Run L_Made L_Words L_Config L_Ex L_Parse L_Total L_Para L_Groups L_Prob L_Units L_ExU L_Probability L_Source L_Prob2 L_ExP.
Import ListNotations.
Local Open Scope nat_scope.
Local Open Scope list_scope.

(** ** C54 *)
(** different (word, tag text) pairs have different keys *)
Theorem C54_keys : forall w t w' t', ~ In (chr ":") t -> ~ In (chr ":") t' -> prob_key w t = prob_key w' t' -> w = w' /\ t = t'.
Proof. exact prob_key_inj. Qed.
Print Assumptions C54_keys.
(** every reading of an informative word gets the Laplace estimate of the corpus, cut to six places *)
Theorem C54_stored : forall M c mf T w ps ts p, probability_table M c mf = Ok T -> colon_free M -> informative M c mf w ->
  morph_parse M w = Ok ps -> morph_tag M w = Ok ts -> one_spelling ps -> In p ps ->
  truncates (estimate_of (occurrences M c w) (length ts) (t_gr (p_tag p))) (prob T w (t_str (p_tag p))).
Proof. exact stored_complete. Qed.
Print Assumptions C54_stored.
(** and nothing else has a probability *)
Theorem C54_sound : forall M c mf T w t, probability_table M c mf = Ok T -> colon_free M -> ~ In (chr ":") t ->
  (prob T w t == 0)%Q \/
  (informative M c mf w /\ exists ps ts p, morph_parse M w = Ok ps /\ morph_tag M w = Ok ts /\ In p ps /\ t_str (p_tag p) = t /\
     truncates (estimate_of (occurrences M c w) (length ts) (t_gr (p_tag p))) (prob T w t)).
Proof. exact stored_sound. Qed.
Print Assumptions C54_sound.
Theorem C54_range : forall M c mf T w t, probability_table M c mf = Ok T -> (0 <= prob T w t /\ prob T w t <= 1)%Q.
Proof. exact stored_range. Qed.
Print Assumptions C54_range.
(** the estimates of the word's different tags add up to at most 1 *)
Theorem C54_total : forall occ n gs, occ <> [] -> different_sets gs -> length gs <= n -> (total (map (estimate_of occ n) gs) <= 1)%Q.
Proof. exact total_estimates. Qed.
Print Assumptions C54_total.
(** an analyzer that loads the table: the same readings, ordered by the estimates, scored with them *)
Theorem C54_scores : forall M c mf T n word ps0 ts ps,
  m_prob M = None -> has_units M RU_DEFAULT_UNITS -> probability_table M c mf = Ok T -> colon_free M ->
  let w := u_lower (m_uni M) word in
  u_lower (m_uni M) w = w -> in_dictionary M w -> ~ In word RU_INITIAL_LETTERS -> ~ In w RU_INITIAL_LETTERS ->
  informative M c mf w -> morph_parse M w = Ok ps0 -> morph_tag M w = Ok ts -> one_spelling ps0 ->
  parse_f n (with_table M T) word = Ok ps ->
  Permutation (map reading ps0) (map reading ps) /\
  ((exists p, In p ps0 /\ ~ (prob T w (t_str (p_tag p)) == 0)%Q) ->
   StronglySorted (fun a b => p_score b <= p_score a)%Q ps /\
   forall p, In p ps -> truncates (estimate_of (occurrences M c w) (length ts) (t_gr (p_tag p))) (p_score p)).
Proof. exact table_scores. Qed.
Print Assumptions C54_scores.
(** without [one_spelling] the claim is false: two equal tags written differently, one gets 3/5, the other nothing *)
Theorem C54_spelling_refuted : exists M c T w ps p q,
  probability_table M c 1 = Ok T /\ colon_free M /\ informative M c 1 w /\ morph_parse M w = Ok ps /\ In p ps /\ In q ps /\
  tag_eqb (p_tag p) (p_tag q) = true /\ (prob T w (t_str (p_tag p)) == 3 # 5)%Q /\ (prob T w (t_str (p_tag q)) == 0)%Q.
Proof.
  exists spell_demo, spell_corpus, spell_table, (u "кофе"), (get_ok [] (morph_parse spell_demo (u "кофе"))).
  exists (nth 0 (get_ok [] (morph_parse spell_demo (u "кофе"))) (MkParse [] (MkTag [] []) [] 0 [])).
  exists (nth 1 (get_ok [] (morph_parse spell_demo (u "кофе"))) (MkParse [] (MkTag [] []) [] 0 [])).
  split; [exact spell_table_eq|]. split; [exact spell_colon_free|]. split; [apply informativeb_ok; vm_compute; reflexivity|].
  split; [apply get_ok_eq; vm_compute; reflexivity|].
  split; [apply nth_In; vm_compute; repeat constructor|]. split; [apply nth_In; vm_compute; repeat constructor|].
  split; [vm_compute; reflexivity|]. split; vm_compute; reflexivity.
Qed.
Print Assumptions C54_spelling_refuted.
Example C54_case : probability_table demo demo_corpus 3 = Ok demo_table /\ colon_free demo /\ informative demo demo_corpus 3 (u "кота") /\
  m_prob demo = None /\ has_units demo RU_DEFAULT_UNITS /\ in_dictionary demo (u "кота") /\
  one_spelling (get_ok [] (morph_parse demo (u "кота"))) /\
  length (occurrences demo demo_corpus (u "кота")) = 3 /\
  exists ps, morph_parse (with_table demo demo_table) (u "Кота") = Ok ps /\ map p_score ps = [600000 # 1000000; 400000 # 1000000]%Q.
Proof.
  split; [exact demo_table_eq|]. split; [exact demo_colon_free|]. split; [apply informativeb_ok; vm_compute; reflexivity|].
  split; [vm_compute; reflexivity|]. split; [destruct (construct_units _ _ _ _ _ _ _ _ _ _ _ demo_eq) as (HU & _); exact HU|].
  split; [exists (u "кота"); eexists; split; [|split; [vm_compute; reflexivity|discriminate]]; repeat constructor|]. split; [apply one_spellingb_ok; vm_compute; reflexivity|]. split; [vm_compute; reflexivity|].
  eexists. split; [vm_compute; reflexivity|]. vm_compute. reflexivity.
Qed.

(** ** C59 *)
Theorem C59_source : forall M word ps p, morph_parse M word = Ok ps -> In p ps -> tag_source M (p_tag p) /\
  forall lex f, get_lexeme M p = Ok lex -> In f lex -> tag_source M (p_tag f).
Proof. exact tags_have_source. Qed.
Print Assumptions C59_source.
Theorem C59_known : forall U ext C rows gt mk prob subst items C' M word ps p,
  construct U ext C rows gt mk prob subst items = Ok (C', M) -> (forall g, d_gramtab (mk g) = g) ->
  morph_parse M word = Ok ps -> In p ps ->
  (forall g, In g (t_gr (p_tag p)) -> In g (tc_known (m_tc M))) /\
  forall lex f g, get_lexeme M p = Ok lex -> In f lex -> In g (t_gr (p_tag f)) -> In g (tc_known (m_tc M)).
Proof. exact constructed_known. Qed.
Print Assumptions C59_known.
Example C59_case : construct uni_cyr false tc_initial demo_rows (x_gramtab demo_compiled) demo_dict None e_yo RU_DEFAULT_UNITS = Ok (m_tc demo, demo) /\
  (forall g, d_gramtab (demo_dict g) = g) /\
  match morph_parse demo (u "суперкот") with Ok (p :: _) => match get_lexeme demo p with Ok (_ :: _ :: _) => true | _ => false end | _ => false end = true.
Proof. split; [exact demo_eq|]. split; [reflexivity|]. vm_compute. reflexivity. Qed.
