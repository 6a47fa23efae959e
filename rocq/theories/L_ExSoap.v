(** * Small dictionaries for C76, C77 *)
From Coq Require Import String List NArith ZArith Bool QArith.
From Verif Require Import Py Uni Tagset Dawg Utils Shapes Dict Units Analyzer ConfigRu ConfigUk Compile Spec Spec3 Spec26 Ex.
From Verif Require Import L_Base L_Parse L_Text L_Units.
Import ListNotations.
Local Open Scope nat_scope.
Local Open Scope list_scope.

Definition wash : list (str * str) := [form "мыть" "VERB"; form "мыло" "VERB neut,sing"].
Definition soap : list (str * str) := [form "мыло" "NOUN,inan,neut sing,nomn"; form "мылом" "NOUN,inan,neut sing,ablt"].
Definition cat : list (str * str) := [form "кот" "NOUN,anim,masc sing,nomn"; form "котам" "NOUN,anim,masc plur,datv"].
Definition src_a : lexemes := [(1%N, wash); (2%N, soap)].
Definition src_b : lexemes := [(1%N, wash); (2%N, cat)].
Definition src_c : lexemes := [(1%N, cat); (3%N, wash); (7%N, cat)].
Definition opt_1 : coptions := MkOpt 1 1 3 [[]; u "по"].
Definition opt_9 : coptions := MkOpt 9 9 3 [[]; u "наи"].
Definition built (o : coptions) (src : lexemes) : compiled := get_ok (MkCompiled [] [] [] [] [] o) (compile_parsed_dict o src []).
Definition built_dict (o : coptions) (src : lexemes) (gt : list tag) : dict :=
  let x := built o src in MkDict (x_paradigms x) gt (o_prefixes o) (x_suffixes x) (x_words x) (x_pred x) (o_max_suffix o).
Definition built_morph (o : coptions) (src : lexemes) : morph :=
  snd (get_ok (tc_initial, null_morph) (construct uni_cyr false tc_initial demo_rows (x_gramtab (built o src)) (built_dict o src) None e_yo RU_DEFAULT_UNITS)).
Definition nfs (r : res (list parse)) : list str := match r with Ok ps => map p_nf ps | Err _ => [] end.
Definition src_r : lexemes := [(1%N, soap); (2%N, wash)].
Definition same_strs (a b : list str) : bool := (length a =? length b) && forallb (fun p : str * str => str_eqb (fst p) (snd p)) (combine a b).
Definition nfs_b (r : res (list parse)) (l : list str) : bool := match r with Ok ps => same_strs (map p_nf ps) l | Err _ => false end.
Lemma same_strs_ok : forall a b, same_strs a b = true -> a = b.
Proof.
  intros a b H. unfold same_strs in H. apply andb_prop in H as [L H]. apply Nat.eqb_eq in L. revert b L H. induction a as [|x a IH]; intros [|y b] L H; try discriminate L; [reflexivity|].
  cbn in L. injection L as L. cbn [combine forallb fst snd] in H. apply andb_prop in H as [H1 H2]. apply str_eqb_eq in H1. subst y. f_equal. exact (IH b L H2).
Qed.
Lemma nfs_ok : forall r l, nfs_b r l = true -> exists ps, r = Ok ps /\ map p_nf ps = l.
Proof. intros [ps|e] l H; [|discriminate H]. exists ps. split; [reflexivity|]. exact (same_strs_ok _ _ H). Qed.
Lemma built_ok : forall o src x, compile_parsed_dict o src [] = Ok x -> built o src = x. Proof. intros o src x H. unfold built. rewrite H. reflexivity. Qed.

Lemma n_a1 : exists ps, morph_parse (built_morph opt_1 src_a) (u "мылом") = Ok ps /\ map p_nf ps = [u "мыло"]. Proof. apply nfs_ok. vm_compute. reflexivity. Qed.
Lemma n_a2 : exists ps, morph_parse (built_morph opt_1 src_a) (u "мыло") = Ok ps /\ map p_nf ps = [u "мыть"; u "мыло"]. Proof. apply nfs_ok. vm_compute. reflexivity. Qed.
Lemma n_r2 : exists ps, morph_parse (built_morph opt_1 src_r) (u "мыло") = Ok ps /\ map p_nf ps = [u "мыло"; u "мыть"]. Proof. apply nfs_ok. vm_compute. reflexivity. Qed.
Lemma n_b1 : exists ps, morph_parse (built_morph opt_1 src_b) (u "мылоам") = Ok ps /\ map p_nf ps = [u "мыло"]. Proof. apply nfs_ok. vm_compute. reflexivity. Qed.
Lemma n_b2 : exists ps, morph_parse (built_morph opt_1 src_b) (u "мыло") = Ok ps /\ map p_nf ps = [u "мыть"]. Proof. apply nfs_ok. vm_compute. reflexivity. Qed.
Lemma n_c1 : exists ps, morph_parse (built_morph opt_9 src_c) (u "мылоам") = Ok ps /\ map p_nf ps = [u "мылоам"]. Proof. apply nfs_ok. vm_compute. reflexivity. Qed.
Lemma compiled_of : forall o src, (match compile_parsed_dict o src [] with Ok _ => true | Err _ => false end) = true -> compile_parsed_dict o src [] = Ok (built o src).
Proof. intros o src H. destruct (compile_parsed_dict o src []) as [x|e] eqn:E; [|discriminate H]. rewrite (built_ok _ _ _ E). reflexivity. Qed.
Lemma c_a : compile_parsed_dict opt_1 src_a [] = Ok (built opt_1 src_a). Proof. apply compiled_of. vm_compute. reflexivity. Qed.
Lemma c_r : compile_parsed_dict opt_1 src_r [] = Ok (built opt_1 src_r). Proof. apply compiled_of. vm_compute. reflexivity. Qed.
Lemma c_b : compile_parsed_dict opt_1 src_b [] = Ok (built opt_1 src_b). Proof. apply compiled_of. vm_compute. reflexivity. Qed.
Lemma c_c : compile_parsed_dict opt_9 src_c [] = Ok (built opt_9 src_c). Proof. apply compiled_of. vm_compute. reflexivity. Qed.
Lemma l_a : loaded (built opt_1 src_a) (m_dict (built_morph opt_1 src_a)). Proof. repeat split; vm_compute; reflexivity. Qed.
Lemma l_r : loaded (built opt_1 src_r) (m_dict (built_morph opt_1 src_r)). Proof. repeat split; vm_compute; reflexivity. Qed.
Lemma l_b : loaded (built opt_1 src_b) (m_dict (built_morph opt_1 src_b)). Proof. repeat split; vm_compute; reflexivity. Qed.
Lemma l_c : loaded (built opt_9 src_c) (m_dict (built_morph opt_9 src_c)). Proof. repeat split; vm_compute; reflexivity. Qed.
Lemma j_a : join_lexemes src_a [] = Ok [wash; soap]. Proof. vm_compute. reflexivity. Qed.
Lemma j_r : join_lexemes src_r [] = Ok [soap; wash]. Proof. vm_compute. reflexivity. Qed.
Lemma j_b : join_lexemes src_b [] = Ok [wash; cat]. Proof. vm_compute. reflexivity. Qed.
Lemma j_c : join_lexemes src_c [] = Ok [cat; wash; cat]. Proof. vm_compute. reflexivity. Qed.
Lemma built_units : forall o src, (match construct uni_cyr false tc_initial demo_rows (x_gramtab (built o src)) (built_dict o src) None e_yo RU_DEFAULT_UNITS with Ok _ => true | Err _ => false end) = true ->
  has_units (built_morph o src) RU_DEFAULT_UNITS.
Proof.
  intros o src H. destruct (construct uni_cyr false tc_initial demo_rows (x_gramtab (built o src)) (built_dict o src) None e_yo RU_DEFAULT_UNITS) as [[C M]|e] eqn:E; [|discriminate H].
  unfold built_morph. rewrite E. cbn [get_ok snd]. destruct (construct_units _ _ _ _ _ _ _ _ _ _ _ E) as (HU & _). exact HU.
Qed.
Lemma u_a : has_units (built_morph opt_1 src_a) RU_DEFAULT_UNITS. Proof. apply built_units. vm_compute. reflexivity. Qed.
Lemma u_b : has_units (built_morph opt_1 src_b) RU_DEFAULT_UNITS. Proof. apply built_units. vm_compute. reflexivity. Qed.
Lemma u_c : has_units (built_morph opt_9 src_c) RU_DEFAULT_UNITS. Proof. apply built_units. vm_compute. reflexivity. Qed.
Lemma not_initial : forall w, smem w RU_INITIAL_LETTERS = false -> ~ In w RU_INITIAL_LETTERS.
Proof. intros w H I. apply smem_In in I. rewrite I in H. discriminate H. Qed.
