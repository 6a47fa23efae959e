(** * C99: the methods stack describes the reading *)
From Coq Require Import String List NArith ZArith Bool QArith Lia.
From Verif Require Import Py Uni Tagset Dawg Utils Dict Shapes Units Analyzer ConfigRu ConfigUk Compile Spec Spec2 Spec3 Spec14 Spec44 Spec46 Ex.
From Verif Require Import L_Base L_Made L_Run L_Text L_Ex L_ExU L_ExSoap L_Describes L_Scoreless L_Case L_Case P_Twice P_Origin.
Import ListNotations.
Local Open Scope nat_scope.
Local Open Scope list_scope.

(** Two readings with the same methods stack, of the same text or of two different ones (the first not an initial letter), have the same word, tag and normal form: any units, any dictionary, compounds in compounds, with or without P(t|w) estimates. *)
Theorem C99_stack : forall M word1 word2 ps qs p q, lower_stable (m_uni M) -> initials_upper M -> Spec14.not_initial M word1 -> morph_parse M word1 = Ok ps -> morph_parse M word2 = Ok qs -> In p ps -> In q qs ->
  p_stack p = p_stack q -> same_form p q.
Proof. intros M word1 word2 ps qs p q LS IU NI H K I J E. exact (stack_tells M LS IU _ _ word1 word2 ps qs p q NI H K I J E). Qed.
Print Assumptions C99_stack.

(** The lexeme, the normal form and every inflection of a form (a reading, a member of a lexeme or a form made by hand) do not depend on its score: forms and errors are the same. *)
Theorem C99_scores : forall M p q, reading p = reading q -> alike_list (get_lexeme M p) (get_lexeme M q) /\ alike_one (normalized M p) (normalized M q) /\ forall req, alike_opt (inflect M p req) (inflect M q req).
Proof. intros M p q R. split; [exact (get_lexeme_alike M p q R)|]. split; [exact (normal_alike M p q R)|]. intros req. exact (inflect_alike M p q req R). Qed.
Print Assumptions C99_scores.
(** Nor does the form that agrees with a number, whatever the number. *)
Theorem C99_agreement : forall pick M p q n, reading p = reading q -> alike_opt (make_agree_with_number pick M p n) (make_agree_with_number pick M q n).
Proof. exact agree_alike. Qed.
Print Assumptions C99_agreement.
(** So readings with the same methods stack have the same lexeme, normal form and inflections. *)
Theorem C99_same_lexeme : forall M word1 word2 ps qs p q, lower_stable (m_uni M) -> initials_upper M -> Spec14.not_initial M word1 -> morph_parse M word1 = Ok ps -> morph_parse M word2 = Ok qs -> In p ps -> In q qs ->
  p_stack p = p_stack q -> alike_list (get_lexeme M p) (get_lexeme M q) /\ alike_one (normalized M p) (normalized M q) /\ forall req, alike_opt (inflect M p req) (inflect M q req).
Proof.
  intros M word1 word2 ps qs p q LS IU NI H K I J E. destruct (stack_tells M LS IU _ _ word1 word2 ps qs p q NI H K I J E) as (A & B & C). apply C99_scores. unfold reading. rewrite A, B, C, E. reflexivity.
Qed.
Print Assumptions C99_same_lexeme.

(** ** tests *)
Definition nth_reading (M : morph) (w : str) (k : nat) : option parse := match morph_parse M w with Ok ps => nth_error ps k | Err _ => None end.
Definition meet (M : morph) (x : str * str * nat) : Prop :=
  let '(w1, w2, k) := x in Spec14.not_initial M w1 /\ w1 <> w2 /\ exists ps qs p q, morph_parse M w1 = Ok ps /\ morph_parse M w2 = Ok qs /\ In p ps /\ In q qs /\ p_stack p = p_stack q.
Lemma nth_reading_ok : forall M w k p, nth_reading M w k = Some p -> exists ps, morph_parse M w = Ok ps /\ In p ps.
Proof. intros M w k p H. unfold nth_reading in H. destruct (morph_parse M w) as [ps|e]; [|discriminate H]. exists ps. split; [reflexivity|exact (nth_error_In _ _ H)]. Qed.
Lemma meet_ok : forall M w1 w2 k, not_initialb M w1 = true -> str_eqb w1 w2 = false ->
  match nth_reading M w1 k with Some p => match nth_reading M w2 k with Some q => p_stack p = p_stack q | None => False end | None => False end -> meet M (w1, w2, k).
Proof.
  intros M w1 w2 k NI D H. destruct (nth_reading M w1 k) as [p|] eqn:P; [|contradiction]. destruct (nth_reading M w2 k) as [q|] eqn:Q; [|contradiction].
  destruct (nth_reading_ok _ _ _ _ P) as (ps & P1 & P2). destruct (nth_reading_ok _ _ _ _ Q) as (qs & Q1 & Q2). split; [exact (not_initialb_ok _ _ NI)|]. split; [|exists ps, qs, p, q; auto 6].
  intros E. rewrite E, str_eqb_refl in D. discriminate D.
Qed.
Lemma stack_two_tags : forall M w, match nth_reading M w 0 with Some p => match nth_reading M w 1 with Some q => p_stack p = p_stack q /\ tag_eqb (p_tag p) (p_tag q) = false | None => False end | None => False end ->
  exists ps p q, morph_parse M w = Ok ps /\ In p ps /\ In q ps /\ p_stack p = p_stack q /\ ~ same_form p q.
Proof.
  intros M w H. destruct (nth_reading M w 0) as [p|] eqn:P; [|contradiction]. destruct (nth_reading M w 1) as [q|] eqn:Q; [|contradiction]. destruct H as [H N].
  destruct (nth_reading_ok _ _ _ _ P) as (ps & P1 & P2). destruct (nth_reading_ok _ _ _ _ Q) as (qs & Q1 & Q2). rewrite P1 in Q1. apply Ok_inj in Q1. subst qs. exists ps, p, q.
  repeat split; auto. intros (_ & T & _). rewrite T, tag_eqb_refl in N. discriminate N.
Qed.
(** The stack of an initial letter does not tell its gender and case. *)
Theorem C99_initials_refuted : exists M word ps p q, lower_stable (m_uni M) /\ initials_upper M /\ morph_parse M word = Ok ps /\ In p ps /\ In q ps /\ p_stack p = p_stack q /\ ~ same_form p q.
Proof.
  destruct (stack_two_tags bow_morph (u "А")) as (ps & p & q & H); [vm_compute; split; reflexivity|]. exists bow_morph, (u "А"), ps, p, q. split; [exact uni_cyr_stable|]. split; [exact (proj2 (proj2 (proj2 bow_shaped)))|exact H].
Qed.
Print Assumptions C99_initials_refuted.
(** different texts whose readings meet: other letter case, e for yo, prefixed words and compounds of such *)
Example C99_case : (lower_stable (m_uni bow_morph) /\ initials_upper bow_morph) /\
  Forall (meet bow_morph) [(u "Лук", u "лук", 1); (u "ультраЛук", u "Ультралук", 0); (u "лук-лук", u "ЛУК-лук", 2)] /\
  (lower_stable (m_uni demo_np) /\ initials_upper demo_np) /\
  Forall (meet demo_np) [(u "елки", u "ёлки", 1); (u "Елки", u "ёлки", 0); (u "кота-то", u "Кота-То", 0); (u "ультракота", u "Ультракота", 1)].
Proof.
  split; [exact (conj (proj1 bow_shaped) (proj2 (proj2 (proj2 bow_shaped))))|]. split; [repeat (apply Forall_cons; [apply meet_ok; vm_compute; reflexivity|]); apply Forall_nil|]. split.
  - split; [change (m_uni demo_np) with uni_named; exact uni_named_stable|apply uppersb_ok; vm_compute; reflexivity].
  - repeat (apply Forall_cons; [apply meet_ok; vm_compute; reflexivity|]). apply Forall_nil.
Qed.
(** a form scored differently *)
Definition rescoredb (M : morph) (w : str) (s : Q) : bool :=
  match nth_reading M w 0 with
  | Some p => negb (Qeq_bool (p_score p) s) && match get_lexeme M p, get_lexeme M (with_score p s) with Ok a, Ok b => (1 <? length a) && (length a =? length b) | _, _ => false end
  | None => false
  end.
Example C99_scores_case : (forall p s, reading (with_score p s) = reading p) /\ forallb (fun w => rescoredb demo_np w (1 # 7)) [u "кота"; u "кота-крота"; u "кота-то"; u "ультракота"] = true.
Proof. split; [reflexivity|vm_compute; reflexivity]. Qed.
