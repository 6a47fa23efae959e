(** * C94: what the score of a reading is *)
From Coq Require Import String List NArith ZArith Bool QArith Lia.
From Verif Require Import Py Uni Tagset Dawg Utils Dict Shapes Units Analyzer ConfigRu ConfigUk Compile Spec Spec2 Spec3 Spec14 Spec15 Spec34 Spec35 Spec36 Spec38 Spec41 Spec42 Ex.
From Verif Require Import L_Base L_Text L_Ex L_ExU L_ExSoap L_Known L_Adverb L_New L_Stages L_Parse L_Every L_Normal L_Graded P_Shapes P_Stages P_Every P_Normal.
Import ListNotations.
Local Open Scope nat_scope.
Local Open Scope list_scope.

(** Without P(t|w) estimates, every reading of any text has a derivation, and its score is the product along it: 1 for a dictionary form, 1/10 for an initial, 9/10 for a number, punctuation, Latin or Roman token, 7/10 for an adverb with по-, 1 for UNKN, times 9/10 per particle and 3/4 per hyphen or known prefix; 1/2 for a guessed prefix, half the share of the count for a known ending. *)
Theorem C94_score : forall M letters particles prefixes word ps p, wf_dict (m_dict M) -> lower_stable (m_uni M) -> knows_adjectives M -> shipped M letters particles prefixes -> digits_ok (m_uni M) -> pred_counts_pos (m_dict M) ->
  m_prob M = None -> u_lower (m_uni M) word <> [] -> morph_parse M word = Ok ps -> In p ps -> exists s, graded M letters particles prefixes word (p_word p) (p_nf p) (p_tag p) s /\ (p_score p == s)%Q.
Proof. exact graded_reading. Qed.
Print Assumptions C94_score.
(** Only a dictionary form and UNKN score more than 9/10, and they score 1. *)
Theorem C94_certain : forall M letters particles prefixes word ps p, wf_dict (m_dict M) -> lower_stable (m_uni M) -> knows_adjectives M -> shipped M letters particles prefixes -> digits_ok (m_uni M) -> pred_counts_pos (m_dict M) ->
  m_prob M = None -> u_lower (m_uni M) word <> [] -> morph_parse M word = Ok ps -> In p ps -> (9 # 10 < p_score p)%Q ->
  (p_score p == 1)%Q /\ (dictionary_form M (u_lower (m_uni M) word) (p_word p) (p_nf p) (p_tag p) \/ (p_word p = u_lower (m_uni M) word /\ t_gr (p_tag p) = [u "UNKN"])).
Proof.
  intros M letters particles prefixes word ps p WD St KA SH DG PC NP NE H I LT. destruct (graded_reading M letters particles prefixes word ps p WD St KA SH DG PC NP NE H I) as (s & G & E).
  rewrite E in LT. destruct (graded_certain _ _ _ _ _ _ _ _ _ G LT) as (-> & X). split; [exact E|exact X].
Qed.
Print Assumptions C94_certain.

(** ** concrete analyzers: the scores of the readings of one word for each rule *)
Definition scoredb (M : morph) (x : str * list Q) : bool :=
  match morph_parse M (fst x) with Ok ps => Nat.eqb (length ps) (length (snd x)) && forallb (fun pq => Qeq_bool (p_score (fst pq)) (snd pq)) (combine ps (snd x)) | Err _ => false end.
Definition scored (M : morph) (x : str * list Q) : Prop := u_lower (m_uni M) (fst x) <> [] /\ exists ps, morph_parse M (fst x) = Ok ps /\ Forall2 (fun p q => (p_score p == q)%Q) ps (snd x).
Lemma scoredb_ok : forall M x, u_lower (m_uni M) (fst x) <> [] -> scoredb M x = true -> scored M x.
Proof.
  intros M [w qs] NE H. split; [exact NE|]. unfold scoredb in H. cbn [fst snd] in *. destruct (morph_parse M w) as [ps|]; [|discriminate H]. exists ps. split; [reflexivity|].
  apply andb_true_iff in H as [L H]. apply Nat.eqb_eq in L. revert qs L H. induction ps as [|p ps IH]; intros [|q qs] L H; try discriminate L; constructor.
  - cbn [combine forallb fst snd] in H. apply andb_true_iff in H as [H _]. apply Qeq_bool_iff. exact H.
  - cbn [combine forallb] in H. apply andb_true_iff in H as [_ H]. apply IH; [injection L as L; exact L|exact H].
Qed.
Lemma np_6 : m_prob rules_demo = None. Proof. vm_compute. reflexivity. Qed.
Lemma np_u : m_prob uk_demo = None. Proof. vm_compute. reflexivity. Qed.
Definition tenths : list Q := repeat (1 # 10) 24.
Example C94_case : wf_dict (m_dict rules_demo) /\ lower_stable (m_uni rules_demo) /\ knows_adjectives rules_demo /\ shipped rules_demo RU_INITIAL_LETTERS RU_PARTICLES RU_KNOWN_PREFIXES /\
  digits_ok (m_uni rules_demo) /\ pred_counts_pos (m_dict rules_demo) /\ m_prob rules_demo = None /\
  Forall (scored rules_demo)
    [(u "КОТА", [1%Q]); (u "А", tenths); (u "12", [9 # 10]); (u "?!", [9 # 10]); (u "XIV", [9 # 10; 9 # 10]); (u "pdf", [9 # 10]); (u "Кота-то", [9 # 10]); (u "по-западному", [7 # 10]);
     (u "кот-кота", [3 # 4]); (u "ультракота", [3 # 4]); (u "зюкота", [1 # 2]); (u "бжота", [1 # 4]); (u "ыыы", [1%Q]); (u "кота-ультракота-то", [27 # 40])].
Proof.
  split; [exact wd_6|]. split; [exact s_6|]. split; [exact a_6|]. split; [exact sh_6|]. split; [exact dg_6|]. split; [exact c_6|]. split; [exact np_6|].
  repeat (apply Forall_cons; [apply scoredb_ok; [apply (nonemptyb_ok _ _ uni_6); vm_compute; reflexivity|vm_compute; reflexivity]|]). apply Forall_nil.
Qed.
Example C94_case_ukrainian : wf_dict (m_dict uk_demo) /\ lower_stable (m_uni uk_demo) /\ knows_adjectives uk_demo /\ shipped uk_demo UK_INITIAL_LETTERS UK_PARTICLES UK_KNOWN_PREFIXES /\ digits_ok (m_uni uk_demo) /\ pred_counts_pos (m_dict uk_demo) /\
  m_prob uk_demo = None /\ Forall (scored uk_demo) [(u "КОТА", [1%Q]); (u "Кота-таки", [9 # 10]); (u "ультракота", [3 # 4])].
Proof.
  split; [exact wd_u|]. split; [exact s_uk|]. split; [exact a_u|]. split; [exact sh_u|]. split; [exact dg_uk|]. split; [exact c_uk|]. split; [exact np_u|].
  repeat (apply Forall_cons; [apply scoredb_ok; [apply (nonemptyb_ok _ _ uni_uk); vm_compute; reflexivity|vm_compute; reflexivity]|]). apply Forall_nil.
Qed.
