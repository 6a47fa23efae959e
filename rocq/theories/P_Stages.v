(** * C86: the rules for words outside the dictionary *)
From Coq Require Import String List NArith ZArith Bool QArith Lia.
From Verif Require Import Py Uni Tagset Dawg Utils Dict Shapes Units Analyzer ConfigRu ConfigUk Compile Spec Spec2 Spec3 Spec14 Spec15 Spec34 Spec35 Spec36 Ex.
From Verif Require Import L_Base L_Text L_Ex L_ExU L_ExSoap L_Known L_Adverb L_New L_Stages L_Parse.
Import ListNotations.
Local Open Scope nat_scope.
Local Open Scope list_scope.

(** The Russian analyzer: a particle behind the word, "по-" with a dative adjective, two parts with a hyphen, a known prefix, analogy, nothing: the first rule that gives a reading gives all of them.
    With or without P(t|w) estimates. *)
Theorem C86_russian : forall M word ps, has_units M RU_DEFAULT_UNITS -> knows_adjectives M -> lower_stable (m_uni M) -> pred_counts_pos (m_dict M) -> outside_word M RU_INITIAL_LETTERS word ->
  morph_parse M word = Ok ps -> first_rule (rules_ru M word (u_lower (m_uni M) word)) ps.
Proof. exact rules_russian. Qed.
Print Assumptions C86_russian.
(** The Ukrainian analyzer: the same without "по-". *)
Theorem C86_ukrainian : forall M word ps, has_units M UK_DEFAULT_UNITS -> lower_stable (m_uni M) -> pred_counts_pos (m_dict M) -> outside_word M UK_INITIAL_LETTERS word ->
  morph_parse M word = Ok ps -> first_rule (rules_uk M word (u_lower (m_uni M) word)) ps.
Proof. exact rules_ukrainian. Qed.
Print Assumptions C86_ukrainian.
(** The tag method: exactly the grammeme sets of that rule. *)
Theorem C86_tags : forall M word ps ts, lower_stable (m_uni M) -> pred_counts_pos (m_dict M) -> morph_parse M word = Ok ps -> morph_tag M word = Ok ts ->
  (has_units M RU_DEFAULT_UNITS -> knows_adjectives M -> outside_word M RU_INITIAL_LETTERS word -> first_rule_tags (rules_ru M word (u_lower (m_uni M) word)) ts) /\
  (has_units M UK_DEFAULT_UNITS -> outside_word M UK_INITIAL_LETTERS word -> first_rule_tags (rules_uk M word (u_lower (m_uni M) word)) ts).
Proof. exact rules_tag. Qed.
Print Assumptions C86_tags.

(** ** concrete analyzers *)
Definition cat6 : list (str * str) := [form "кот" "NOUN,anim,masc sing,nomn"; form "кота" "NOUN,anim,masc sing,gent"].
Definition west6 : list (str * str) := [form "западный" "ADJF,Qual masc,sing,nomn"; form "западному" "ADJF,Qual masc,sing,datv"].
Definition src6 : lexemes := [(1%N, cat6); (2%N, west6)].
Definition rules_demo : morph := built_morph (MkOpt 1 1 4 [[]]) src6.
Lemma u_6 : has_units rules_demo RU_DEFAULT_UNITS. Proof. apply built_units. vm_compute. reflexivity. Qed.
Lemma s_6 : lower_stable (m_uni rules_demo). Proof. exact uni_cyr_stable. Qed.
Lemma c_6 : pred_counts_pos (m_dict rules_demo). Proof. apply pred_counts_posb_ok. vm_compute. reflexivity. Qed.
Lemma a_6 : knows_adjectives rules_demo.
Proof. intros g I. cbn [map In] in I. destruct I as [<-|[<-|[<-|[]]]]; (refine (proj1 (smem_In _ _) _); vm_compute; reflexivity). Qed.
Definition foreign6 (c : char) : bool :=
  (128 <=? c)%N && negb (c =? 304)%N && negb (c =? 305)%N && u_alpha uni_cyr c && (match u_latin uni_cyr c with Some false => true | _ => false end) &&
  negb (u_space uni_cyr c) && (match u_digit uni_cyr c with None => true | _ => false end) && negb (u_punct uni_cyr c).
Lemma foreign6_ok : forall c, foreign6 c = true -> foreign_letter uni_cyr c.
Proof.
  intros c H. unfold foreign6 in H. repeat (apply andb_prop in H as [H ?]). unfold foreign_letter.
  repeat match goal with X : negb _ = true |- _ => apply negb_true_iff in X end.
  split; [apply N.leb_le; assumption|]. split; [apply N.eqb_neq; assumption|]. split; [apply N.eqb_neq; assumption|]. split; [assumption|].
  split; [destruct (u_latin uni_cyr c) as [[]|]; congruence|]. split; [assumption|]. split; [destruct (u_digit uni_cyr c); congruence|assumption].
Qed.
Definition outsideb (letters : list str) (M : morph) (word : str) : bool :=
  negb (word_is_known M word false) && negb (smem word letters) && (match word with c :: _ => foreign6 c | [] => false end) && (match u_lower uni_cyr word with [] => false | _ => true end).
Lemma outsideb_ok : forall letters M word, m_uni M = uni_cyr -> outsideb letters M word = true -> outside_word M letters word.
Proof.
  intros letters M word UU H. unfold outsideb in H. repeat (apply andb_prop in H as [H ?]). repeat match goal with X : negb _ = true |- _ => apply negb_true_iff in X end. unfold outside_word. rewrite UU.
  split; [assumption|]. split; [intros X; apply smem_In in X; congruence|].
  split; [destruct word as [|c r]; [discriminate|]; exists c, r; split; [reflexivity|apply foreign6_ok; assumption]|]. destruct (u_lower uni_cyr word); [discriminate|discriminate].
Qed.
Lemma uni_6 : m_uni rules_demo = uni_cyr. Proof. reflexivity. Qed.
(** the first reading *)
Definition first_is (r : res (list parse)) (w : str) (t : str) : bool := match r with Ok (p :: _) => str_eqb (p_word p) w && str_eqb (t_str (p_tag p)) t | _ => false end.
Lemma first_is_ok : forall r w t, first_is r w t = true -> exists p l, r = Ok (p :: l) /\ p_word p = w /\ t_str (p_tag p) = t.
Proof. intros [[|p l]|e] w t H; try discriminate H. apply andb_prop in H as [A B]. apply str_eqb_eq in A, B. exists p, l. auto. Qed.
(** one word for each rule *)
Example C86_case : has_units rules_demo RU_DEFAULT_UNITS /\ knows_adjectives rules_demo /\ lower_stable (m_uni rules_demo) /\ pred_counts_pos (m_dict rules_demo) /\
  Forall (fun x : str * (str * str) => outside_word rules_demo RU_INITIAL_LETTERS (fst x) /\ exists p l, morph_parse rules_demo (fst x) = Ok (p :: l) /\ p_word p = fst (snd x) /\ t_str (p_tag p) = snd (snd x))
    [(u "Кота-то", (u "кота-то", u "NOUN,anim,masc sing,gent")); (u "По-западному", (u "по-западному", u "ADVB")); (u "кот-кота", (u "кот-кота", u "NOUN,anim,masc sing,gent"));
     (u "ультракота", (u "ультракота", u "NOUN,anim,masc sing,gent")); (u "зюкота", (u "зюкота", u "NOUN,anim,masc sing,gent")); (u "ыыы", (u "ыыы", u "UNKN"))].
Proof.
  split; [exact u_6|]. split; [exact a_6|]. split; [exact s_6|]. split; [exact c_6|].
  repeat (apply Forall_cons; [cbn [fst snd]; split; [apply (outsideb_ok _ _ _ uni_6); vm_compute; reflexivity|apply first_is_ok; vm_compute; reflexivity]|]). apply Forall_nil.
Qed.
Definition cat_uk : list (str * str) := [form "кіт" "NOUN,anim,masc sing,nomn"; form "кота" "NOUN,anim,masc sing,gent"].
Definition src_uk : lexemes := [(1%N, cat_uk)].
Definition uk_demo : morph := snd (get_ok (tc_initial, null_morph) (construct uni_cyr false tc_initial demo_rows (x_gramtab (built (MkOpt 1 1 4 [[]]) src_uk)) (built_dict (MkOpt 1 1 4 [[]]) src_uk) None [] UK_DEFAULT_UNITS)).
Lemma uk_units_gen : forall r C M, r = Ok (C, M) -> forall tc0 rows x d s, r = construct uni_cyr false tc0 rows x d None s UK_DEFAULT_UNITS -> has_units M UK_DEFAULT_UNITS.
Proof. intros r C M E tc0 rows x d s R. rewrite R in E. destruct (construct_units _ _ _ _ _ _ _ _ _ _ _ E) as (HU & _). exact HU. Qed.
Lemma u_uk : has_units uk_demo UK_DEFAULT_UNITS.
Proof.
  unfold uk_demo. set (r := construct uni_cyr false tc_initial demo_rows (x_gramtab (built (MkOpt 1 1 4 [[]]) src_uk)) (built_dict (MkOpt 1 1 4 [[]]) src_uk) None [] UK_DEFAULT_UNITS).
  assert (X : (match r with Ok _ => true | Err _ => false end) = true) by (vm_compute; reflexivity). destruct r as [[C M]|e] eqn:E; [|discriminate X]. cbn [get_ok snd]. exact (uk_units_gen _ C M eq_refl _ _ _ _ _ (eq_sym E)).
Qed.
Lemma uni_uk : m_uni uk_demo = uni_cyr. Proof. reflexivity. Qed.
Lemma s_uk : lower_stable (m_uni uk_demo). Proof. exact uni_cyr_stable. Qed.
Lemma c_uk : pred_counts_pos (m_dict uk_demo). Proof. apply pred_counts_posb_ok. vm_compute. reflexivity. Qed.
Example C86_case_ukrainian : has_units uk_demo UK_DEFAULT_UNITS /\ lower_stable (m_uni uk_demo) /\ pred_counts_pos (m_dict uk_demo) /\
  Forall (fun x : str * (str * str) => outside_word uk_demo UK_INITIAL_LETTERS (fst x) /\ exists p l, morph_parse uk_demo (fst x) = Ok (p :: l) /\ p_word p = fst (snd x) /\ t_str (p_tag p) = snd (snd x))
    [(u "Кота-таки", (u "кота-таки", u "NOUN,anim,masc sing,gent")); (u "кіт-кота", (u "кіт-кота", u "NOUN,anim,masc sing,gent"));
     (u "ультракота", (u "ультракота", u "NOUN,anim,masc sing,gent")); (u "зюкота", (u "зюкота", u "NOUN,anim,masc sing,gent")); (u "ююю", (u "ююю", u "UNKN"))].
Proof.
  split; [exact u_uk|]. split; [exact s_uk|]. split; [exact c_uk|].
  repeat (apply Forall_cons; [cbn [fst snd]; split; [apply (outsideb_ok _ _ _ uni_uk); vm_compute; reflexivity|apply first_is_ok; vm_compute; reflexivity]|]). apply Forall_nil.
Qed.
