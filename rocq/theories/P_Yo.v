(** * C83: writing е for ё (г for ґ) *)
From Coq Require Import String List NArith ZArith Bool QArith Lia.
From Verif Require Import Py Uni Tagset Dawg Utils Dict Shapes Units Analyzer ConfigRu ConfigUk Compile Spec Spec2 Spec3 Spec26 Spec33 Ex.
From Verif Require Import L_Base L_Ex L_ExU L_ExSoap L_Yo.
Import ListNotations.
Local Open Scope nat_scope.
Local Open Scope list_scope.

(** A known word written without (some of) its dots keeps all its readings; and writing the dots selects exactly the readings of the dictionary words
    that can be meant then.  With or without P(t|w) estimates. *)
Theorem C83_readings : forall n n' M w w' ps ps', ordinary M w -> ordinary M w' -> wf_dict (m_dict M) -> consistent_dict (m_dict M) -> subst_idempotent (m_subst M) ->
  in_dictionary M (u_lower (m_uni M) w) -> without_dots M w w' -> parse_f n M w = Ok ps -> parse_f n' M w' = Ok ps' ->
  forall x, In x (map reading ps) <-> exists q, In q ps' /\ reading q = x /\ could_be M w (p_word q).
Proof. exact c83_readings. Qed.
Print Assumptions C83_readings.
Theorem C83_known : forall M w w', subst_idempotent (m_subst M) -> without_dots M w w' -> word_is_known M w false = true -> word_is_known M w' false = true.
Proof. exact c83_known. Qed.
Print Assumptions C83_known.
Theorem C83_tags : forall M w w' ps ps' ts ts', ordinary M w -> ordinary M w' -> wf_dict (m_dict M) -> consistent_dict (m_dict M) -> pred_counts_pos (m_dict M) -> subst_idempotent (m_subst M) ->
  in_dictionary M (u_lower (m_uni M) w) -> without_dots M w w' -> morph_parse M w = Ok ps -> morph_parse M w' = Ok ps' -> morph_tag M w = Ok ts -> morph_tag M w' = Ok ts' ->
  kept (map t_gr ts) (map t_gr ts').
Proof. exact c83_tags. Qed.
Print Assumptions C83_tags.
Theorem C83_normal_forms : forall M w w' ps ps' ns ns', ordinary M w -> ordinary M w' -> wf_dict (m_dict M) -> consistent_dict (m_dict M) -> subst_idempotent (m_subst M) ->
  in_dictionary M (u_lower (m_uni M) w) -> without_dots M w w' -> morph_parse M w = Ok ps -> morph_parse M w' = Ok ps' -> morph_normal_forms M w = Ok ns -> morph_normal_forms M w' = Ok ns' ->
  kept ns ns'.
Proof. exact c83_normal_forms. Qed.
Print Assumptions C83_normal_forms.
(** without estimates the readings of the word as it is written come first *)
Theorem C83_exact_first : forall n M word ps, ordinary M word -> m_prob M = None -> subst_proper (m_subst M) ->
  in_dictionary M (u_lower (m_uni M) word) -> parse_f n M word = Ok ps ->
  exists a b, ps = a ++ b /\ (forall p, In p a -> p_word p = u_lower (m_uni M) word) /\ (forall p, In p b -> p_word p <> u_lower (m_uni M) word).
Proof. exact c83_exact_first. Qed.
Print Assumptions C83_exact_first.

Definition sky : list (str * str) := [form "небо" "NOUN,inan,neut sing,nomn"; form "неба" "NOUN,inan,neut sing,gent"].
Definition palate : list (str * str) := [form "нёбо" "NOUN,inan,neut sing,nomn"; form "нёба" "NOUN,inan,neut sing,gent"].
Definition moth : list (str * str) := [form "мотылёк" "NOUN,anim,masc sing,nomn"; form "мотылька" "NOUN,anim,masc sing,gent"].
Definition cripple : list (str * str) := [form "калека" "NOUN,anim,femn sing,nomn"; form "калек" "NOUN,anim,femn plur,gent"].
Definition src_y : lexemes := [(1%N, palate); (2%N, sky); (3%N, moth); (4%N, cripple)].
Definition opt_y : coptions := MkOpt 1 1 4 [[]].
Definition yo_demo : morph := built_morph opt_y src_y.
Lemma u_y : has_units yo_demo RU_DEFAULT_UNITS. Proof. apply built_units. vm_compute. reflexivity. Qed.
Lemma y_wf : wf_dict (m_dict yo_demo). Proof. apply wf_dictb_ok. vm_compute. reflexivity. Qed.
Lemma y_cons : consistent_dict (m_dict yo_demo). Proof. apply consistent_dictb_ok. vm_compute. reflexivity. Qed.
Lemma y_counts : pred_counts_pos (m_dict yo_demo). Proof. apply pred_counts_posb_ok. vm_compute. reflexivity. Qed.
Lemma y_subst : m_subst yo_demo = e_yo. Proof. vm_compute. reflexivity. Qed.
Lemma y_ordinary : forall w, smem w RU_INITIAL_LETTERS = false -> ordinary yo_demo w.
Proof. intros w H. left. split; [exact u_y|exact (not_initial w H)]. Qed.
Definition readsb (r : res (list parse)) (l : list (str * str)) : bool :=
  match r with Ok ps => same_strs (map p_word ps) (map fst l) && same_strs (map p_nf ps) (map snd l) | Err _ => false end.
Lemma readsb_ok : forall r l, readsb r l = true -> exists ps, r = Ok ps /\ map p_word ps = map fst l /\ map p_nf ps = map snd l.
Proof. intros r l H. unfold readsb in H. destruct r as [ps|e]; [|discriminate H]. apply andb_prop in H as [A B]. exists ps. split; [reflexivity|]. split; apply same_strs_ok; assumption. Qed.
Fixpoint dotsb (r : replaces) (a b : str) : bool :=
  match a, b with
  | [], [] => true
  | x :: a, y :: b => ((y =? x)%N || match rget x r with Some z => (z =? y)%N | None => false end) && dotsb r a b
  | _, _ => false
  end.
Lemma dotsb_ok : forall r a b, dotsb r a b = true -> subst_of r a b.
Proof.
  intros r. induction a as [|x a IH]; intros [|y b] H; cbn [dotsb] in H; try discriminate H; [constructor|]. apply andb_prop in H as [H T]. constructor; [|apply IH; exact T].
  apply orb_prop in H as [H|H]; [left; apply N.eqb_eq; exact H|]. right. destruct (rget x r) as [z|]; [|discriminate H]. apply N.eqb_eq in H. subst z. reflexivity.
Qed.
Lemma known_dictionary : forall M w vals, sget (u_lower (m_uni M) w) (d_words (m_dict M)) = Some vals -> vals <> [] -> in_dictionary M (u_lower (m_uni M) w).
Proof. intros M w vals G N. exists (u_lower (m_uni M) w), vals. split; [apply L_Words.subst_of_refl|]. split; assumption. Qed.
Example C83_case : ordinary yo_demo (u "нёбо") /\ ordinary yo_demo (u "Небо") /\ wf_dict (m_dict yo_demo) /\ consistent_dict (m_dict yo_demo) /\ pred_counts_pos (m_dict yo_demo) /\
  subst_idempotent (m_subst yo_demo) /\ subst_proper (m_subst yo_demo) /\ m_prob yo_demo = None /\
  in_dictionary yo_demo (u_lower (m_uni yo_demo) (u "нёбо")) /\ without_dots yo_demo (u "нёбо") (u "Небо") /\
  (exists ps, morph_parse yo_demo (u "нёбо") = Ok ps /\ map p_word ps = [u "нёбо"] /\ map p_nf ps = [u "нёбо"]) /\
  (exists ps, morph_parse yo_demo (u "Небо") = Ok ps /\ map p_word ps = [u "небо"; u "нёбо"] /\ map p_nf ps = [u "небо"; u "нёбо"]).
Proof.
  split; [apply y_ordinary; vm_compute; reflexivity|]. split; [apply y_ordinary; vm_compute; reflexivity|]. split; [exact y_wf|]. split; [exact y_cons|]. split; [exact y_counts|].
  split; [rewrite y_subst; exact e_yo_idem|]. split; [rewrite y_subst; exact e_yo_proper|]. split; [vm_compute; reflexivity|].
  split; [apply (known_dictionary yo_demo (u "нёбо") [(0, 0)]); [vm_compute; reflexivity|discriminate]|].
  split; [apply dotsb_ok; vm_compute; reflexivity|]. split; [apply (readsb_ok _ [(u "нёбо", u "нёбо")]); vm_compute; reflexivity|apply (readsb_ok _ [(u "небо", u "небо"); (u "нёбо", u "нёбо")]); vm_compute; reflexivity].
Qed.
(** For words that are not in the dictionary it is not so: "балёк" is predicted like "мотылёк", but "балек" only like "калек", because a longer ending of it is known. *)
Theorem C83_unknown_refuted : exists M w w' ps ps' p, ordinary M w /\ ordinary M w' /\ wf_dict (m_dict M) /\ consistent_dict (m_dict M) /\ subst_idempotent (m_subst M) /\
  without_dots M w w' /\ morph_parse M w = Ok ps /\ morph_parse M w' = Ok ps' /\ word_is_known M w false = false /\ word_is_known M w' false = false /\
  In p ps /\ p_word p = u "балёк" /\ p_nf p = u "балёк" /\ map p_nf ps' = [u "балека"].
Proof.
  destruct (readsb_ok (morph_parse yo_demo (u "балёк")) [(u "балёк", u "балёк")]) as (ps & P1 & P2 & P3); [vm_compute; reflexivity|].
  destruct (readsb_ok (morph_parse yo_demo (u "балек")) [(u "балек", u "балека")]) as (ps' & Q1 & Q2 & Q3); [vm_compute; reflexivity|].
  destruct ps as [|p [|q ps]]; [discriminate P2| |discriminate P2]. injection P2 as P2. injection P3 as P3.
  exists yo_demo, (u "балёк"), (u "балек"), [p], ps', p. split; [apply y_ordinary; vm_compute; reflexivity|]. split; [apply y_ordinary; vm_compute; reflexivity|]. split; [exact y_wf|]. split; [exact y_cons|].
  split; [rewrite y_subst; exact e_yo_idem|]. split; [apply dotsb_ok; vm_compute; reflexivity|]. split; [exact P1|]. split; [exact Q1|].
  split; [vm_compute; reflexivity|]. split; [vm_compute; reflexivity|]. split; [left; reflexivity|]. split; [exact P2|]. split; [exact P3|exact Q3].
Qed.
Print Assumptions C83_unknown_refuted.
