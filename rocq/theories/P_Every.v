(** * C88: the answer for any word *)
From Coq Require Import String List NArith ZArith Bool QArith Lia.
From Verif Require Import Py Uni Tagset Dawg Utils Dict Shapes Units Analyzer ConfigRu ConfigUk Compile Spec Spec2 Spec3 Spec14 Spec15 Spec34 Spec35 Spec36 Spec38 Ex.
From Verif Require Import L_Base L_Text L_Ex L_ExU L_ExSoap L_Known L_Adverb L_New L_Stages L_Parse L_Every P_Shapes P_Stages.
Import ListNotations.
Local Open Scope nat_scope.
Local Open Scope list_scope.

(** The Russian analyzer, any text with a non-empty lower-case form: the readings of the first rule that gives one. With or without P(t|w) estimates. *)
Theorem C88_russian : forall M word ps, has_units M RU_DEFAULT_UNITS -> knows_adjectives M -> lower_stable (m_uni M) -> digits_ok (m_uni M) -> pred_counts_pos (m_dict M) -> u_lower (m_uni M) word <> [] ->
  morph_parse M word = Ok ps -> first_rule (all_rules_ru M word (u_lower (m_uni M) word)) ps.
Proof. exact every_russian. Qed.
Print Assumptions C88_russian.
(** The Ukrainian analyzer. *)
Theorem C88_ukrainian : forall M word ps, has_units M UK_DEFAULT_UNITS -> lower_stable (m_uni M) -> digits_ok (m_uni M) -> pred_counts_pos (m_dict M) -> u_lower (m_uni M) word <> [] ->
  morph_parse M word = Ok ps -> first_rule (all_rules_uk M word (u_lower (m_uni M) word)) ps.
Proof. exact every_ukrainian. Qed.
Print Assumptions C88_ukrainian.
(** The tag method. *)
Theorem C88_tags : forall M word ps ts, lower_stable (m_uni M) -> digits_ok (m_uni M) -> pred_counts_pos (m_dict M) -> u_lower (m_uni M) word <> [] -> morph_parse M word = Ok ps -> morph_tag M word = Ok ts ->
  (has_units M RU_DEFAULT_UNITS -> knows_adjectives M -> first_rule_tags (all_rules_ru M word (u_lower (m_uni M) word)) ts) /\
  (has_units M UK_DEFAULT_UNITS -> first_rule_tags (all_rules_uk M word (u_lower (m_uni M) word)) ts).
Proof. exact every_tags. Qed.
Print Assumptions C88_tags.

(** ** concrete analyzers: one word for each rule *)
Lemma dg_6 : digits_ok (m_uni rules_demo). Proof. exact uni_cyr_digits. Qed.
Lemma dg_uk : digits_ok (m_uni uk_demo). Proof. exact uni_cyr_digits. Qed.
Definition nonemptyb (w : str) : bool := match u_lower uni_cyr w with [] => false | _ => true end.
Lemma nonemptyb_ok : forall M w, m_uni M = uni_cyr -> nonemptyb w = true -> u_lower (m_uni M) w <> [].
Proof. intros M w E H. rewrite E. unfold nonemptyb in H. destruct (u_lower uni_cyr w); [discriminate H|discriminate]. Qed.
Definition shows (M : morph) (x : str * (str * str)) : Prop := u_lower (m_uni M) (fst x) <> [] /\ exists p l, morph_parse M (fst x) = Ok (p :: l) /\ p_word p = fst (snd x) /\ t_str (p_tag p) = snd (snd x).
Example C88_case : has_units rules_demo RU_DEFAULT_UNITS /\ knows_adjectives rules_demo /\ lower_stable (m_uni rules_demo) /\ digits_ok (m_uni rules_demo) /\ pred_counts_pos (m_dict rules_demo) /\
  Forall (shows rules_demo)
    [(u "КОТА", (u "кота", u "NOUN,anim,masc sing,gent")); (u "А", (u "а", u "NOUN,anim,masc,Sgtm,Name,Fixd,Abbr,Init sing,nomn"));
     (u "12", (u "12", u "NUMB,intg")); (u "1,5", (u "1,5", u "NUMB,real")); (u "?!", (u "?!", u "PNCT")); (u "XIV", (u "xiv", u "ROMN")); (u "pdf", (u "pdf", u "LATN"));
     (u "Кота-то", (u "кота-то", u "NOUN,anim,masc sing,gent")); (u "по-западному", (u "по-западному", u "ADVB")); (u "кот-кота", (u "кот-кота", u "NOUN,anim,masc sing,gent"));
     (u "ультракота", (u "ультракота", u "NOUN,anim,masc sing,gent")); (u "зюкота", (u "зюкота", u "NOUN,anim,masc sing,gent")); (u "ыыы", (u "ыыы", u "UNKN"))].
Proof.
  split; [exact u_6|]. split; [exact a_6|]. split; [exact s_6|]. split; [exact dg_6|]. split; [exact c_6|].
  repeat (apply Forall_cons; [split; [apply (nonemptyb_ok _ _ uni_6); vm_compute; reflexivity|cbn [fst snd]; apply first_is_ok; vm_compute; reflexivity]|]). apply Forall_nil.
Qed.
Example C88_case_ukrainian : has_units uk_demo UK_DEFAULT_UNITS /\ lower_stable (m_uni uk_demo) /\ digits_ok (m_uni uk_demo) /\ pred_counts_pos (m_dict uk_demo) /\
  Forall (shows uk_demo)
    [(u "КОТА", (u "кота", u "NOUN,anim,masc sing,gent")); (u "12", (u "12", u "NUMB,intg")); (u "1,5", (u "1,5", u "NUMB,real")); (u "?!", (u "?!", u "PNCT")); (u "XIV", (u "xiv", u "ROMN")); (u "pdf", (u "pdf", u "LATN"));
     (u "Кота-таки", (u "кота-таки", u "NOUN,anim,masc sing,gent")); (u "ультракота", (u "ультракота", u "NOUN,anim,masc sing,gent"))].
Proof.
  split; [exact u_uk|]. split; [exact s_uk|]. split; [exact dg_uk|]. split; [exact c_uk|].
  repeat (apply Forall_cons; [split; [apply (nonemptyb_ok _ _ uni_uk); vm_compute; reflexivity|cbn [fst snd]; apply first_is_ok; vm_compute; reflexivity]|]). apply Forall_nil.
Qed.
