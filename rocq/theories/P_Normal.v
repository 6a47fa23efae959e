(** * C93: where a normal form comes from *)
From Coq Require Import String List NArith ZArith Bool QArith Lia.
From Verif Require Import Py Uni Tagset Dawg Utils Dict Shapes Units Analyzer ConfigRu ConfigUk Compile Spec Spec2 Spec3 Spec14 Spec15 Spec34 Spec35 Spec36 Spec38 Spec41 Ex.
From Verif Require Import L_Base L_Text L_Ex L_ExU L_ExSoap L_Known L_Adverb L_New L_Stages L_Parse L_Every L_Normal P_Shapes P_Stages P_Every.
Import ListNotations.
Local Open Scope nat_scope.
Local Open Scope list_scope.

(** Every reading of any text: its word, its normal form and its tag are put together from dictionary forms, tokens, prefixes, particles, hyphenated parts and recorded endings, always the word and the normal form in the same way. With or without P(t|w) estimates. *)
Theorem C93_reading : forall M letters particles prefixes word ps p, wf_dict (m_dict M) -> lower_stable (m_uni M) -> knows_adjectives M -> shipped M letters particles prefixes -> digits_ok (m_uni M) -> pred_counts_pos (m_dict M) ->
  u_lower (m_uni M) word <> [] -> morph_parse M word = Ok ps -> In p ps -> normal M letters particles prefixes word (p_word p) (p_nf p) (p_tag p).
Proof. exact normal_reading. Qed.
Print Assumptions C93_reading.
(** normal_forms lists nothing else. *)
Theorem C93_listed : forall M letters particles prefixes word nfs, wf_dict (m_dict M) -> lower_stable (m_uni M) -> knows_adjectives M -> shipped M letters particles prefixes -> digits_ok (m_uni M) -> pred_counts_pos (m_dict M) ->
  u_lower (m_uni M) word <> [] -> morph_normal_forms M word = Ok nfs -> forall nf, In nf nfs -> exists w t, normal M letters particles prefixes word w nf t.
Proof. exact normal_listed. Qed.
Print Assumptions C93_listed.
(** In a dictionary whose words are made of their rows (any compiled one), a form and its normal form share the stem. *)
Theorem C93_stem : forall M lower w nf t, consistent_dict (m_dict M) -> dictionary_form M lower w nf t ->
  subst_of (m_subst M) lower w /\ exists para idx pre suf pre0 t0 suf0 stem, para_row (m_dict M) para idx pre t suf /\ para_row (m_dict M) para 0 pre0 t0 suf0 /\ w = pre ++ stem ++ suf /\ nf = pre0 ++ stem ++ suf0.
Proof. exact normal_consistent. Qed.
Print Assumptions C93_stem.

(** ** concrete analyzers: the normal forms of one word for each rule *)
Lemma wd_6 : wf_dict (m_dict rules_demo). Proof. apply wf_dictb_ok. vm_compute. reflexivity. Qed.
Lemma cd_6 : consistent_dict (m_dict rules_demo). Proof. apply consistent_dictb_ok. vm_compute. reflexivity. Qed.
Lemma sh_6 : shipped rules_demo RU_INITIAL_LETTERS RU_PARTICLES RU_KNOWN_PREFIXES.
Proof. left. split; [exact u_6|]. split; [reflexivity|]. split; reflexivity. Qed.
Lemma wd_u : wf_dict (m_dict uk_demo). Proof. apply wf_dictb_ok. vm_compute. reflexivity. Qed.
Lemma sh_u : shipped uk_demo UK_INITIAL_LETTERS UK_PARTICLES UK_KNOWN_PREFIXES.
Proof. right. split; [exact u_uk|]. split; [reflexivity|]. split; reflexivity. Qed.
Lemma a_u : knows_adjectives uk_demo.
Proof. intros g I. cbn [map In] in I. destruct I as [<-|[<-|[<-|[]]]]; (refine (proj1 (smem_In _ _) _); vm_compute; reflexivity). Qed.
Definition normals (M : morph) (x : str * list str) : Prop := u_lower (m_uni M) (fst x) <> [] /\ morph_normal_forms M (fst x) = Ok (snd x).
Definition lists_as (r : res (list str)) (l : list str) : bool := match r with Ok l' => if list_eq_dec (list_eq_dec N.eq_dec) l' l then true else false | Err _ => false end.
Lemma lists_as_ok : forall r l, lists_as r l = true -> r = Ok l.
Proof. intros [l'|e] l H; [|discriminate H]. cbn [lists_as] in H. destruct (list_eq_dec (list_eq_dec N.eq_dec) l' l) as [->|]; [reflexivity|discriminate H]. Qed.
Example C93_case : wf_dict (m_dict rules_demo) /\ consistent_dict (m_dict rules_demo) /\ lower_stable (m_uni rules_demo) /\ knows_adjectives rules_demo /\ shipped rules_demo RU_INITIAL_LETTERS RU_PARTICLES RU_KNOWN_PREFIXES /\
  digits_ok (m_uni rules_demo) /\ pred_counts_pos (m_dict rules_demo) /\
  Forall (normals rules_demo)
    [(u "КОТА", [u "кот"]); (u "А", [u "а"]); (u "12", [u "12"]); (u "?!", [u "?!"]); (u "XIV", [u "xiv"]); (u "pdf", [u "pdf"]); (u "Кота-то", [u "кот-то"]); (u "по-западному", [u "по-западному"]);
     (u "кот-кота", [u "кот-кот"]); (u "ультракота", [u "ультракот"]); (u "зюкота", [u "зюкот"]); (u "бжота", [u "бжот"]); (u "ыыы", [u "ыыы"]); (u "кота-ультракота-то", [u "кот-ультракот-то"])].
Proof.
  split; [exact wd_6|]. split; [exact cd_6|]. split; [exact s_6|]. split; [exact a_6|]. split; [exact sh_6|]. split; [exact dg_6|]. split; [exact c_6|].
  repeat (apply Forall_cons; [split; [apply (nonemptyb_ok _ _ uni_6); vm_compute; reflexivity|cbn [fst snd]; apply lists_as_ok; vm_compute; reflexivity]|]). apply Forall_nil.
Qed.
Example C93_case_ukrainian : wf_dict (m_dict uk_demo) /\ lower_stable (m_uni uk_demo) /\ knows_adjectives uk_demo /\ shipped uk_demo UK_INITIAL_LETTERS UK_PARTICLES UK_KNOWN_PREFIXES /\ digits_ok (m_uni uk_demo) /\ pred_counts_pos (m_dict uk_demo) /\
  Forall (normals uk_demo) [(u "КОТА", [u "кіт"]); (u "Кота-таки", [u "кіт-таки"]); (u "ультракота", [u "ультракіт"])].
Proof.
  split; [exact wd_u|]. split; [exact s_uk|]. split; [exact a_u|]. split; [exact sh_u|]. split; [exact dg_uk|]. split; [exact c_uk|].
  repeat (apply Forall_cons; [split; [apply (nonemptyb_ok _ _ uni_uk); vm_compute; reflexivity|cbn [fst snd]; apply lists_as_ok; vm_compute; reflexivity]|]). apply Forall_nil.
Qed.
