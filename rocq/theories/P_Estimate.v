(** * C95: P(t|w) estimates never add or remove a reading *)
From Coq Require Import String List NArith ZArith Bool QArith Lia.
From Verif Require Import Py Uni Tagset Dawg Utils Dict Shapes Units Analyzer ConfigRu ConfigUk Compile Spec Spec2 Spec3 Spec14 Spec15 Spec34 Spec35 Spec36 Spec38 Spec39 Ex.
From Verif Require Import L_Base L_Ex L_ExU L_ExSoap L_Units L_Permute L_Permute2 L_Permute3 L_Permute4 L_Estimate P_Shapes P_Stages P_Permute.
Import ListNotations.
Local Open Scope nat_scope.
Local Open Scope list_scope.

(** Two analyzers over the same dictionary, whatever estimates each of them uses (or none): the same readings (word and grammemes) of any text, and the same tags. Only the scores, and with them the order, differ. *)
Theorem C95_readings : forall M1 M2, m_dict M1 = m_dict M2 -> length (d_pred (m_dict M1)) = length (d_prefixes (m_dict M1)) -> pred_counts_pos (m_dict M1) ->
  same_language M1 M2 -> m_uni M1 = m_uni M2 -> m_subst M1 = m_subst M2 -> lower_stable (m_uni M1) -> digits_ok (m_uni M1) -> answers_all M1 -> answers_all M2 ->
  forall word, u_lower (m_uni M1) word <> [] ->
  (forall ps1 ps2, morph_parse M1 word = Ok ps1 -> morph_parse M2 word = Ok ps2 -> forall w g, analysed ps1 w g <-> analysed ps2 w g) /\
  (forall ts1 ts2, morph_tag M1 word = Ok ts1 -> morph_tag M2 word = Ok ts2 -> same_tags ts1 ts2).
Proof. exact estimates_irrelevant. Qed.
Print Assumptions C95_readings.
(** The same for an analyzer created without estimates and one created with them, which both answer every text (the second if its table gives no word both a zero and a non-zero probability, see C09). *)
Theorem C95_analyzers : forall U gt mk subst items ext1 C1 rows1 C1' M1 ext2 C2 rows2 d C2' M2,
  construct U ext1 C1 rows1 gt mk None subst items = Ok (C1', M1) -> construct U ext2 C2 rows2 gt mk (Some d) subst items = Ok (C2', M2) ->
  items = RU_DEFAULT_UNITS \/ items = UK_DEFAULT_UNITS ->
  (forall g, In g ["ADJF"; "sing"; "datv"]%string -> In (u g) (map g_name rows1)) -> (forall g, In g ["ADJF"; "sing"; "datv"]%string -> In (u g) (map g_name rows2)) ->
  wf_dict (m_dict M1) -> length (d_pred (m_dict M1)) = length (d_prefixes (m_dict M1)) -> pred_counts_pos (m_dict M1) -> names_ok U -> lower_stable U -> digits_ok U -> no_mixture M2 d ->
  forall word, u_lower U word <> [] ->
  exists ps1 ps2 ts1 ts2, morph_parse M1 word = Ok ps1 /\ morph_parse M2 word = Ok ps2 /\ morph_tag M1 word = Ok ts1 /\ morph_tag M2 word = Ok ts2 /\
    (forall w g, analysed ps1 w g <-> analysed ps2 w g) /\ same_tags ts1 ts2.
Proof. exact estimates_analyzers. Qed.
Print Assumptions C95_analyzers.
Lemma c_n : pred_counts_pos (m_dict demo_n). Proof. apply pred_counts_posb_ok. vm_compute. reflexivity. Qed.
Definition scores_are (r : res (list parse)) (l : list (str * Q)) : bool :=
  match r with Ok ps => (length ps =? length l) && forallb (fun pq => str_eqb (t_str (p_tag (fst pq))) (fst (snd pq)) && Qeq_bool (p_score (fst pq)) (snd (snd pq))) (combine ps l) | Err _ => false end.
Definition scores_show (r : res (list parse)) (l : list (str * Q)) : Prop := exists ps, r = Ok ps /\ Forall2 (fun p x => t_str (p_tag p) = fst x /\ (p_score p == snd x)%Q) ps l.
Lemma scores_are_ok : forall r l, scores_are r l = true -> scores_show r l.
Proof.
  intros [ps|e] l H; [|discriminate H]. exists ps. split; [reflexivity|]. cbn [scores_are] in H. apply andb_true_iff in H as [L H]. apply Nat.eqb_eq in L. revert l L H.
  induction ps as [|p ps IH]; intros [|x l] L H; try discriminate L; constructor.
  - cbn [combine forallb fst snd] in H. apply andb_true_iff in H as [H _]. apply andb_true_iff in H as [A B]. split; [apply str_eqb_eq; exact A|apply Qeq_bool_iff; exact B].
  - cbn [combine forallb] in H. apply andb_true_iff in H as [_ H]. apply IH; [injection L as L; exact L|exact H].
Qed.
(** two readings of a known word and of a word with a known prefix, without and with estimates *)
Example C95_case :
  construct uni_named false tc_initial demo_rows (x_gramtab demo_compiled) demo_dict None e_yo RU_DEFAULT_UNITS = Ok (m_tc demo_n, demo_n) /\
  construct uni_named false tc_initial demo_rows (x_gramtab demo_compiled) demo_dict (Some demo_cpd) e_yo RU_DEFAULT_UNITS = Ok (m_tc demo_np, demo_np) /\
  (forall g, In g ["ADJF"; "sing"; "datv"]%string -> In (u g) (map g_name demo_rows)) /\ wf_dict (m_dict demo_n) /\ length (d_pred (m_dict demo_n)) = length (d_prefixes (m_dict demo_n)) /\
  pred_counts_pos (m_dict demo_n) /\ names_ok uni_named /\ lower_stable uni_named /\ digits_ok uni_named /\ no_mixture demo_np demo_cpd /\
  Forall (fun w => u_lower uni_named w <> []) [u "кота"; u "суперкота"] /\
  scores_show (morph_parse demo_n (u "кота")) [(u "NOUN,anim,masc sing,gent", 1%Q); (u "NOUN,anim,masc sing,accs", 1%Q)] /\
  scores_show (morph_parse demo_np (u "кота")) [(u "NOUN,anim,masc sing,gent", (7 # 10)%Q); (u "NOUN,anim,masc sing,accs", (3 # 10)%Q)] /\
  scores_show (morph_parse demo_n (u "суперкота")) [(u "NOUN,anim,masc sing,gent", (3 # 4)%Q); (u "NOUN,anim,masc sing,accs", (3 # 4)%Q)] /\
  scores_show (morph_parse demo_np (u "суперкота")) [(u "NOUN,anim,masc sing,gent", (7 # 10)%Q); (u "NOUN,anim,masc sing,accs", (3 # 10)%Q)].
Proof.
  split; [exact demo_n_eq|]. split; [exact demo_np_eq|]. split; [exact demo_rows_adv|]. split; [exact demo_n_wf_dict|]. split; [vm_compute; reflexivity|]. split; [exact c_n|].
  split; [exact uni_named_ok|]. split; [exact uni_named_stable|]. split; [exact uni_named_digits|]. split; [exact demo_np_no_mixture|]. split; [repeat constructor; discriminate|].
  repeat split; apply scores_are_ok; vm_compute; reflexivity.
Qed.
