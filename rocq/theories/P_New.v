(** * C85: how a word outside the dictionary is analysed *)
From Coq Require Import String List NArith ZArith Bool QArith Lia.
From Verif Require Import Py Uni Tagset Dawg Utils Dict Shapes Units Analyzer ConfigRu ConfigUk Compile Spec Spec2 Spec3 Spec14 Spec15 Spec35 Ex.
From Verif Require Import L_Base L_Text L_Ex L_ExU L_ExSoap L_Known L_Adverb L_New.
Import ListNotations.
Local Open Scope nat_scope.
Local Open Scope list_scope.

(** Known prefixes first; if they give nothing, unknown prefixes together with endings; if these give nothing either, one unknown reading.
    At each step: exactly the readings the rules describe.  With or without P(t|w) estimates. *)
Theorem C85_new_word : forall M letters prefixes word ps, language M letters prefixes -> lower_stable (m_uni M) -> pred_counts_pos (m_dict M) -> new_word M letters word -> morph_parse M word = Ok ps ->
  let lower := u_lower (m_uni M) word in
  ((exists w g, by_known_prefix M prefixes lower w g) -> forall w g, analysed ps w g <-> by_known_prefix M prefixes lower w g) /\
  (~ (exists w g, by_known_prefix M prefixes lower w g) ->
     ((exists w g, by_analogy M word lower w g) -> forall w g, analysed ps w g <-> by_analogy M word lower w g) /\
     (~ (exists w g, by_analogy M word lower w g) -> exists p, ps = [p] /\ unknown_reading lower p)).
Proof. exact new_parse. Qed.
Print Assumptions C85_new_word.
Theorem C85_new_tags : forall M letters prefixes word ps ts, language M letters prefixes -> lower_stable (m_uni M) -> pred_counts_pos (m_dict M) -> new_word M letters word -> morph_parse M word = Ok ps -> morph_tag M word = Ok ts ->
  let lower := u_lower (m_uni M) word in
  ((exists w g, by_known_prefix M prefixes lower w g) -> forall g, In g (map t_gr ts) <-> exists w, by_known_prefix M prefixes lower w g) /\
  (~ (exists w g, by_known_prefix M prefixes lower w g) ->
     ((exists w g, by_analogy M word lower w g) -> forall g, In g (map t_gr ts) <-> exists w, by_analogy M word lower w g) /\
     (~ (exists w g, by_analogy M word lower w g) -> forall g, In g (map t_gr ts) <-> g = [u "UNKN"])).
Proof. exact new_tags. Qed.
Print Assumptions C85_new_tags.

(** ** a concrete analyzer *)
Definition cool : list (str * str) := [form "круто" "ADVB"].
Definition cat : list (str * str) := [form "кот" "NOUN,anim,masc sing,nomn"; form "кота" "NOUN,anim,masc sing,gent"].
Definition src_n : lexemes := [(1%N, cat); (2%N, cool)].
Definition new_demo : morph := built_morph (MkOpt 1 1 4 [[]]) src_n.
Lemma u_n : has_units new_demo RU_DEFAULT_UNITS. Proof. apply built_units. vm_compute. reflexivity. Qed.
Lemma n_language : language new_demo RU_INITIAL_LETTERS RU_KNOWN_PREFIXES.
Proof. left. split; [exact u_n|]. split; reflexivity. Qed.
Lemma n_stable : lower_stable (m_uni new_demo). Proof. exact uni_cyr_stable. Qed.
Lemma n_counts : pred_counts_pos (m_dict new_demo). Proof. apply pred_counts_posb_ok. vm_compute. reflexivity. Qed.
Definition foreignb (c : char) : bool :=
  (128 <=? c)%N && negb (c =? 304)%N && negb (c =? 305)%N && u_alpha uni_cyr c && (match u_latin uni_cyr c with Some false => true | _ => false end) &&
  negb (u_space uni_cyr c) && (match u_digit uni_cyr c with None => true | _ => false end) && negb (u_punct uni_cyr c).
Lemma foreignb_ok : forall c, foreignb c = true -> foreign_letter uni_cyr c.
Proof.
  intros c H. unfold foreignb in H. repeat (apply andb_prop in H as [H ?]). unfold foreign_letter.
  repeat match goal with X : negb _ = true |- _ => apply negb_true_iff in X end.
  split; [apply N.leb_le; assumption|]. split; [apply N.eqb_neq; assumption|]. split; [apply N.eqb_neq; assumption|]. split; [assumption|].
  split; [destruct (u_latin uni_cyr c) as [[]|]; congruence|]. split; [assumption|]. split; [destruct (u_digit uni_cyr c); congruence|assumption].
Qed.
Definition newb (M : morph) (word : str) : bool :=
  negb (word_is_known M word false) && negb (smem word RU_INITIAL_LETTERS) && (match word with c :: _ => foreignb c | [] => false end) &&
  negb (mem_char (chr "-") (u_lower uni_cyr word)) && (match u_lower uni_cyr word with [] => false | _ => true end).
Lemma newb_ok : forall M word, m_uni M = uni_cyr -> newb M word = true -> new_word M RU_INITIAL_LETTERS word.
Proof.
  intros M word UU H. unfold newb in H. repeat (apply andb_prop in H as [H ?]). repeat match goal with X : negb _ = true |- _ => apply negb_true_iff in X end. unfold new_word. rewrite UU.
  split; [assumption|]. split; [intros X; apply smem_In in X; congruence|].
  split; [destruct word as [|c r]; [discriminate|]; exists c, r; split; [reflexivity|apply foreignb_ok; assumption]|].
  split; [intros X; apply mem_char_In in X; congruence|]. destruct (u_lower uni_cyr word); [discriminate|discriminate].
Qed.
Lemma n_uni : m_uni new_demo = uni_cyr. Proof. reflexivity. Qed.
Definition same_readings (r : res (list parse)) (l : list (str * string)) : bool :=
  match r with Ok ps => (length ps =? length l) && forallb (fun x : parse * (str * string) => str_eqb (p_word (fst x)) (fst (snd x)) && str_eqb (t_str (p_tag (fst x))) (u (snd (snd x)))) (combine ps l) | Err _ => false end.
Lemma one_reading : forall r w t, same_readings r [(w, t)] = true -> exists p, r = Ok [p] /\ p_word p = w /\ t_str (p_tag p) = u t.
Proof.
  intros r w t H. unfold same_readings in H. destruct r as [[|p [|q l]]|e]; try discriminate H. cbn [length Nat.eqb andb combine forallb fst snd] in H. rewrite andb_true_r in H. apply andb_prop in H as [A B].
  apply str_eqb_eq in A, B. exists p. auto.
Qed.
Example C85_case : language new_demo RU_INITIAL_LETTERS RU_KNOWN_PREFIXES /\ lower_stable (m_uni new_demo) /\ pred_counts_pos (m_dict new_demo) /\
  (new_word new_demo RU_INITIAL_LETTERS (u "Ультракота") /\ exists p, morph_parse new_demo (u "Ультракота") = Ok [p] /\ p_word p = u "ультракота" /\ t_str (p_tag p) = u "NOUN,anim,masc sing,gent") /\
  (new_word new_demo RU_INITIAL_LETTERS (u "зюкота") /\ exists p, morph_parse new_demo (u "зюкота") = Ok [p] /\ p_word p = u "зюкота" /\ t_str (p_tag p) = u "NOUN,anim,masc sing,gent") /\
  (new_word new_demo RU_INITIAL_LETTERS (u "ыыы") /\ exists p, morph_parse new_demo (u "ыыы") = Ok [p] /\ p_word p = u "ыыы" /\ t_str (p_tag p) = u "UNKN").
Proof.
  split; [exact n_language|]. split; [exact n_stable|]. split; [exact n_counts|].
  split; [split; [apply (newb_ok _ _ n_uni); vm_compute; reflexivity|apply one_reading; vm_compute; reflexivity]|].
  split; [split; [apply (newb_ok _ _ n_uni); vm_compute; reflexivity|apply one_reading; vm_compute; reflexivity]|].
  split; [apply (newb_ok _ _ n_uni); vm_compute; reflexivity|apply one_reading; vm_compute; reflexivity].
Qed.
(** The documentation says that behind an unknown prefix the dictionary word must be a noun, an adjective, a verb, a participle or a gerund.  Adverbs are taken too. *)
Theorem C85_classes_refuted : exists M word ps p prefix v vals para idx, language M RU_INITIAL_LETTERS RU_KNOWN_PREFIXES /\ new_word M RU_INITIAL_LETTERS word /\
  morph_parse M word = Ok ps /\ In p ps /\ p_word p = prefix ++ v /\ sget v (d_words (m_dict M)) = Some vals /\ In (para, idx) vals /\
  (exists i j, p_stack p = [MDict (Sub i) v para idx; MStr (Root j) prefix]) /\ t_gr (p_tag p) = [u "ADVB"].
Proof.
  assert (X : (match morph_parse new_demo (u "зюкруто") with Ok [p] => str_eqb (p_word p) (u "зюкруто") && (match t_gr (p_tag p) with [g] => str_eqb g (u "ADVB") | _ => false end) &&
     (match p_stack p with [MDict (Sub _) v para idx; MStr (Root _) prefix] => str_eqb v (u "круто") && str_eqb prefix (u "зю") && (para =? 1) && (idx =? 0) | _ => false end) | _ => false end) = true) by (vm_compute; reflexivity).
  destruct (morph_parse new_demo (u "зюкруто")) as [[|p [|q l]]|e] eqn:E; try discriminate X. apply andb_prop in X as [X X3]. apply andb_prop in X as [X1 X2]. apply str_eqb_eq in X1.
  destruct (t_gr (p_tag p)) as [|g [|g' l]] eqn:T; try discriminate X2. apply str_eqb_eq in X2. subst g.
  destruct (p_stack p) as [|[[i|i] v para idx|? ?|? ? ?|? ? ?] [|[? ? ? ?|[j|j] pre|? ? ?|? ? ?] [|? ?]]] eqn:Es; try discriminate X3.
  apply andb_prop in X3 as [X3 Xi]. apply andb_prop in X3 as [X3 Xp]. apply andb_prop in X3 as [Xv Xr]. apply str_eqb_eq in Xv, Xr. apply Nat.eqb_eq in Xi, Xp. subst v pre para idx.
  exists new_demo, (u "зюкруто"), [p], p, (u "зю"), (u "круто"), [(1, 0)], 1, 0.
  split; [exact n_language|]. split; [apply (newb_ok _ _ n_uni); vm_compute; reflexivity|]. split; [exact E|]. split; [left; reflexivity|]. split; [rewrite X1; vm_compute; reflexivity|].
  split; [vm_compute; reflexivity|]. split; [left; reflexivity|]. split; [exists i, j; exact Es|exact T].
Qed.
Print Assumptions C85_classes_refuted.
