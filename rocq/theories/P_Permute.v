(** * C89: the order and the numbering of the source lexemes *)
From Coq Require Import String List NArith ZArith Bool QArith Lia Sorting.Permutation.
From Verif Require Import Py Uni Tagset Dawg Utils Dict Shapes Units Analyzer ConfigRu ConfigUk Compile Spec Spec2 Spec3 Spec14 Spec15 Spec34 Spec35 Spec36 Spec38 Spec39 Ex.
From Verif Require Import L_Base L_Ex L_ExU L_ExSoap L_Units L_Renumber L_Permute L_Permute2 L_Permute3 L_Permute4 P_Shapes P_Stages.
Import ListNotations.
Local Open Scope nat_scope.
Local Open Scope list_scope.

(** What a compiled dictionary contains, in terms of the source lexemes: up to an injective numbering of the shapes, the order plays no part. *)
Theorem C89_contents : forall o src links lxs x D, join_lexemes src links = Ok lxs -> compile_parsed_dict o src links = Ok x -> loaded x D ->
  exists num : paradigm -> nat,
    (forall lx, In lx lxs -> exists stem, to_paradigm lx (o_prefixes o) = Ok (stem, shape (o_prefixes o) lx)) /\
    (forall P P', In P (map (shape (o_prefixes o)) lxs) -> In P' (map (shape (o_prefixes o)) lxs) -> num P = num P' -> P = P') /\
    (forall k p, nth_error (d_paradigms D) k = Some p -> exists P, In P (map (shape (o_prefixes o)) lxs) /\ k = num P) /\
    (forall P, In P (map (shape (o_prefixes o)) lxs) -> (exists p, nth_error (d_paradigms D) (num P) = Some p /\ length p = 3 * length P) /\
      forall i s t q, nth_error P i = Some (s, t, q) -> exists tg, t_str tg = t /\ para_row D (num P) i q tg s) /\
    (forall w k i, stored D w k i <-> exists lx t, In lx lxs /\ k = num (shape (o_prefixes o) lx) /\ nth_error lx i = Some (w, t)) /\
    forall pid e c k i, predicts D pid e c k i <-> exists P, k = num P /\ source_record o lxs pid e c P i.
Proof. exact contents_from_source. Qed.
Print Assumptions C89_contents.

(** Two analyzers over dictionaries compiled from the same lexemes in any two orders give every word the same readings (word and grammemes) and the same tags. *)
Theorem C89_order : forall o src1 links1 lxs1 x1 M1 src2 links2 lxs2 x2 M2,
  join_lexemes src1 links1 = Ok lxs1 -> compile_parsed_dict o src1 links1 = Ok x1 -> loaded x1 (m_dict M1) -> tags_read (m_dict M1) ->
  join_lexemes src2 links2 = Ok lxs2 -> compile_parsed_dict o src2 links2 = Ok x2 -> loaded x2 (m_dict M2) -> tags_read (m_dict M2) -> Permutation lxs1 lxs2 ->
  same_language M1 M2 -> m_uni M1 = m_uni M2 -> m_subst M1 = m_subst M2 -> lower_stable (m_uni M1) -> digits_ok (m_uni M1) -> answers_all M1 -> answers_all M2 ->
  forall word, u_lower (m_uni M1) word <> [] ->
  (forall ps1 ps2, morph_parse M1 word = Ok ps1 -> morph_parse M2 word = Ok ps2 -> forall w g, analysed ps1 w g <-> analysed ps2 w g) /\
  (forall ts1 ts2, morph_tag M1 word = Ok ts1 -> morph_tag M2 word = Ok ts2 -> same_tags ts1 ts2).
Proof. exact order_irrelevant. Qed.
Print Assumptions C89_order.

(** The same for analyzers created over the two dictionaries, without assumptions on what they answer. *)
Theorem C89_analyzers : forall o U subst items src1 links1 lxs1 x1 ext1 T1 rows1 T1' M1 src2 links2 lxs2 x2 ext2 T2 rows2 T2' M2,
  join_lexemes src1 links1 = Ok lxs1 -> compile_parsed_dict o src1 links1 = Ok x1 -> construct U ext1 T1 rows1 (x_gramtab x1) (dict_of x1) None subst items = Ok (T1', M1) ->
  join_lexemes src2 links2 = Ok lxs2 -> compile_parsed_dict o src2 links2 = Ok x2 -> construct U ext2 T2 rows2 (x_gramtab x2) (dict_of x2) None subst items = Ok (T2', M2) ->
  Permutation lxs1 lxs2 -> items = RU_DEFAULT_UNITS \/ items = UK_DEFAULT_UNITS ->
  (forall g, In g ["ADJF"; "sing"; "datv"]%string -> In (u g) (map g_name rows1)) -> (forall g, In g ["ADJF"; "sing"; "datv"]%string -> In (u g) (map g_name rows2)) ->
  names_ok U -> lower_stable U -> digits_ok U -> forall word, u_lower U word <> [] ->
  exists ps1 ps2 ts1 ts2, morph_parse M1 word = Ok ps1 /\ morph_parse M2 word = Ok ps2 /\ morph_tag M1 word = Ok ts1 /\ morph_tag M2 word = Ok ts2 /\
    (forall w g, analysed ps1 w g <-> analysed ps2 w g) /\ same_tags ts1 ts2.
Proof. exact order_analyzers. Qed.
Print Assumptions C89_analyzers.

(** ** two orders of the same two lexemes *)
Definition m_one : morph := named_morph opt_1 src_a.
Definition m_two : morph := named_morph opt_1 src_r.
Lemma o_one : is_ok (named_result opt_1 src_a) = true. Proof. vm_compute. reflexivity. Qed.
Lemma o_two : is_ok (named_result opt_1 src_r) = true. Proof. vm_compute. reflexivity. Qed.
Lemma l_one : loaded (built opt_1 src_a) (m_dict m_one). Proof. repeat split; vm_compute; reflexivity. Qed.
Lemma l_two : loaded (built opt_1 src_r) (m_dict m_two). Proof. repeat split; vm_compute; reflexivity. Qed.
Lemma t_one : tags_read (m_dict m_one). Proof. apply tags_readb_ok. vm_compute. reflexivity. Qed.
Lemma t_two : tags_read (m_dict m_two). Proof. apply tags_readb_ok. vm_compute. reflexivity. Qed.
Lemma k_one : knows_adjectives m_one.
Proof. intros g I. cbn [map In] in I. destruct I as [<-|[<-|[<-|[]]]]; (refine (proj1 (smem_In _ _) _); vm_compute; reflexivity). Qed.
Lemma k_two : knows_adjectives m_two.
Proof. intros g I. cbn [map In] in I. destruct I as [<-|[<-|[<-|[]]]]; (refine (proj1 (smem_In _ _) _); vm_compute; reflexivity). Qed.
Lemma a_one : answers_all m_one. Proof. apply (named_answers opt_1 src_a o_one). apply wf_dictb_ok. vm_compute. reflexivity. Qed.
Lemma a_two : answers_all m_two. Proof. apply (named_answers opt_1 src_r o_two). apply wf_dictb_ok. vm_compute. reflexivity. Qed.
Lemma same_one_two : same_language m_one m_two.
Proof. left. split; [exact (proj1 (named_units _ _ o_one))|]. split; [exact (proj1 (named_units _ _ o_two))|]. split; [exact k_one|exact k_two]. Qed.
Lemma uni_named_digits : digits_ok uni_named. Proof. exact uni_cyr_digits. Qed.
Lemma e_one : m_uni m_one = uni_named. Proof. exact (proj1 (proj2 (named_units _ _ o_one))). Qed.
Lemma e_two : m_uni m_two = uni_named. Proof. exact (proj1 (proj2 (named_units _ _ o_two))). Qed.
Lemma s_one : m_subst m_one = e_yo. Proof. exact (proj2 (proj2 (named_units _ _ o_one))). Qed.
Lemma s_two : m_subst m_two = e_yo. Proof. exact (proj2 (proj2 (named_units _ _ o_two))). Qed.
(** the texts of the readings *)
Definition tags_are (r : res (list parse)) (l : list str) : bool := match r with Ok ps => same_strs (map (fun p => t_str (p_tag p)) ps) l | Err _ => false end.
Lemma tags_are_ok : forall r l, tags_are r l = true -> exists ps, r = Ok ps /\ map (fun p => t_str (p_tag p)) ps = l.
Proof. intros [ps|e] l H; [|discriminate H]. exists ps. split; [reflexivity|exact (same_strs_ok _ _ H)]. Qed.
(** an unknown word whose two predictions come out in different orders *)
Example C89_case :
  join_lexemes src_a [] = Ok [wash; soap] /\ compile_parsed_dict opt_1 src_a [] = Ok (built opt_1 src_a) /\ loaded (built opt_1 src_a) (m_dict m_one) /\ tags_read (m_dict m_one) /\
  join_lexemes src_r [] = Ok [soap; wash] /\ compile_parsed_dict opt_1 src_r [] = Ok (built opt_1 src_r) /\ loaded (built opt_1 src_r) (m_dict m_two) /\ tags_read (m_dict m_two) /\
  Permutation [wash; soap] [soap; wash] /\ same_language m_one m_two /\ m_uni m_one = m_uni m_two /\ m_subst m_one = m_subst m_two /\ lower_stable (m_uni m_one) /\ digits_ok (m_uni m_one) /\
  answers_all m_one /\ answers_all m_two /\ u_lower (m_uni m_one) (u "бяныло") <> [] /\
  (exists ps, morph_parse m_one (u "бяныло") = Ok ps /\ map (fun p => t_str (p_tag p)) ps = [u "VERB neut,sing"; u "NOUN,inan,neut sing,nomn"]) /\
  (exists ps, morph_parse m_two (u "бяныло") = Ok ps /\ map (fun p => t_str (p_tag p)) ps = [u "NOUN,inan,neut sing,nomn"; u "VERB neut,sing"]).
Proof.
  split; [exact j_a|]. split; [exact c_a|]. split; [exact l_one|]. split; [exact t_one|]. split; [exact j_r|]. split; [exact c_r|]. split; [exact l_two|]. split; [exact t_two|].
  split; [apply perm_swap|]. split; [exact same_one_two|]. split; [rewrite e_one, e_two; reflexivity|]. split; [rewrite s_one, s_two; reflexivity|]. rewrite e_one.
  split; [exact uni_named_stable|]. split; [exact uni_named_digits|]. split; [exact a_one|]. split; [exact a_two|]. split; [discriminate|].
  split; apply tags_are_ok; vm_compute; reflexivity.
Qed.

Definition over (src : lexemes) : res (tagclass * morph) :=
  construct uni_named false tc_initial demo_rows (x_gramtab (built opt_1 src)) (dict_of (built opt_1 src)) None e_yo RU_DEFAULT_UNITS.
Lemma is_ok_ex : forall A (r : res A), is_ok r = true -> exists x, r = Ok x. Proof. intros A [x|e] H; [eauto|discriminate H]. Qed.
Example C89_case_analyzers : (exists T1 M1, over src_a = Ok (T1, M1)) /\ (exists T2 M2, over src_r = Ok (T2, M2)) /\
  (forall g, In g ["ADJF"; "sing"; "datv"]%string -> In (u g) (map g_name demo_rows)) /\ names_ok uni_named /\ lower_stable uni_named /\ digits_ok uni_named.
Proof.
  split; [destruct (is_ok_ex _ (over src_a)) as ((T & M) & E); [vm_compute; reflexivity|eauto]|].
  split; [destruct (is_ok_ex _ (over src_r)) as ((T & M) & E); [vm_compute; reflexivity|eauto]|].
  split; [exact demo_rows_adv|]. split; [exact uni_named_ok|]. split; [exact uni_named_stable|exact uni_named_digits].
Qed.
