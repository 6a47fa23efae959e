(** * C90: adding lexemes to a dictionary *)
From Coq Require Import String List NArith ZArith Bool QArith Lia.
From Verif Require Import Py Uni Tagset Dawg Utils Dict Shapes Units Analyzer ConfigRu ConfigUk Compile Spec Spec2 Spec3 Spec14 Spec15 Spec34 Spec35 Spec36 Spec38 Spec39 Ex.
From Verif Require Import L_Base L_Ex L_ExU L_ExSoap L_Units L_Permute3 L_Permute4 L_Grow P_Shapes P_Stages P_Permute.
Import ListNotations.
Local Open Scope nat_scope.
Local Open Scope list_scope.

(** A word the smaller dictionary knows: the larger dictionary (compiled with any options) gives it all its readings and tags; a further reading is a form of a new lexeme that the word spells; and when the new
    lexemes bring no such form, the answers are the same. *)
Theorem C90_growing : forall U subst items o1 src1 links1 lxs1 x1 ext1 T1 rows1 T1' M1 o2 src2 links2 lxs2 x2 ext2 T2 rows2 T2' M2,
  join_lexemes src1 links1 = Ok lxs1 -> compile_parsed_dict o1 src1 links1 = Ok x1 -> construct U ext1 T1 rows1 (x_gramtab x1) (dict_of x1) None subst items = Ok (T1', M1) ->
  join_lexemes src2 links2 = Ok lxs2 -> compile_parsed_dict o2 src2 links2 = Ok x2 -> construct U ext2 T2 rows2 (x_gramtab x2) (dict_of x2) None subst items = Ok (T2', M2) ->
  incl lxs1 lxs2 -> items = RU_DEFAULT_UNITS \/ items = UK_DEFAULT_UNITS ->
  (forall g, In g ["ADJF"; "sing"; "datv"]%string -> In (u g) (map g_name rows1)) -> (forall g, In g ["ADJF"; "sing"; "datv"]%string -> In (u g) (map g_name rows2)) ->
  names_ok U -> lower_stable U -> digits_ok U -> forall word, u_lower U word <> [] -> (exists lx w t, In lx lxs1 /\ In (w, t) lx /\ subst_of subst (u_lower U word) w) ->
  exists ps1 ps2 ts1 ts2, morph_parse M1 word = Ok ps1 /\ morph_parse M2 word = Ok ps2 /\ morph_tag M1 word = Ok ts1 /\ morph_tag M2 word = Ok ts2 /\
    (forall w g, analysed ps1 w g -> analysed ps2 w g) /\ incl (map t_gr ts1) (map t_gr ts2) /\
    (forall w g, analysed ps2 w g -> analysed ps1 w g \/ exists lx t, In lx lxs2 /\ ~ In lx lxs1 /\ In (w, t) lx /\ g = split_tag t /\ subst_of subst (u_lower U word) w) /\
    ((forall lx w t, In lx lxs2 -> In (w, t) lx -> subst_of subst (u_lower U word) w -> exists lx1, In lx1 lxs1 /\ In (w, t) lx1) ->
     (forall w g, analysed ps1 w g <-> analysed ps2 w g) /\ same_tags ts1 ts2).
Proof. exact growing. Qed.
Print Assumptions C90_growing.

(** ** concrete dictionaries *)
Definition newt : list (str * str) := [form "бяныло" "NOUN,inan,neut sing,nomn"].
Definition src_s : lexemes := [(1%N, wash)].
Definition src_t : lexemes := [(1%N, wash); (2%N, newt)].
Lemma c_s : compile_parsed_dict opt_1 src_s [] = Ok (built opt_1 src_s). Proof. apply compiled_of. vm_compute. reflexivity. Qed.
Lemma c_t : compile_parsed_dict opt_1 src_t [] = Ok (built opt_1 src_t). Proof. apply compiled_of. vm_compute. reflexivity. Qed.
Lemma j_s : join_lexemes src_s [] = Ok [wash]. Proof. vm_compute. reflexivity. Qed.
Lemma j_t : join_lexemes src_t [] = Ok [wash; newt]. Proof. vm_compute. reflexivity. Qed.
(** the tags of the first reading *)
Definition reads (r : res (tagclass * morph)) (w : str) (l : list str) : bool := match r with Ok (_, M) => tags_are (morph_parse M w) l | Err _ => false end.
Lemma reads_ok : forall r w l, reads r w l = true -> exists C M ps, r = Ok (C, M) /\ morph_parse M w = Ok ps /\ map (fun p => t_str (p_tag p)) ps = l.
Proof. intros [[C M]|e] w l H; [|discriminate H]. apply tags_are_ok in H as (ps & P & E). eauto 6. Qed.
Lemma spells_itself : forall r w, subst_of r w w. Proof. intros r w. unfold subst_of. induction w as [|c l IH]; constructor; auto. Qed.
(** wash and soap: the noun is added to the verb *)
Example C90_case : incl [wash] [wash; soap] /\ (forall g, In g ["ADJF"; "sing"; "datv"]%string -> In (u g) (map g_name demo_rows)) /\ names_ok uni_named /\ lower_stable uni_named /\ digits_ok uni_named /\
  u_lower uni_named (u "Мыло") <> [] /\ (exists lx w t, In lx [wash] /\ In (w, t) lx /\ subst_of e_yo (u_lower uni_named (u "Мыло")) w) /\
  join_lexemes src_s [] = Ok [wash] /\ compile_parsed_dict opt_1 src_s [] = Ok (built opt_1 src_s) /\ join_lexemes src_a [] = Ok [wash; soap] /\ compile_parsed_dict opt_1 src_a [] = Ok (built opt_1 src_a) /\
  (exists T M ps, over src_s = Ok (T, M) /\ morph_parse M (u "Мыло") = Ok ps /\ map (fun p => t_str (p_tag p)) ps = [u "VERB neut,sing"]) /\
  (exists T M ps, over src_a = Ok (T, M) /\ morph_parse M (u "Мыло") = Ok ps /\ map (fun p => t_str (p_tag p)) ps = [u "VERB neut,sing"; u "NOUN,inan,neut sing,nomn"]).
Proof.
  split; [intros x [<-|[]]; left; reflexivity|]. split; [exact demo_rows_adv|]. split; [exact uni_named_ok|]. split; [exact uni_named_stable|]. split; [exact uni_named_digits|].
  split; [discriminate|]. split.
  { exists wash, (u "мыло"), (u "VERB neut,sing"). split; [left; reflexivity|]. split; [right; left; reflexivity|]. assert (E : u_lower uni_named (u "Мыло") = u "мыло") by (apply str_eqb_eq; vm_compute; reflexivity). rewrite E.
    exact (spells_itself _ _). }
  split; [exact j_s|]. split; [exact c_s|]. split; [exact j_a|]. split; [exact c_a|]. split; apply reads_ok; vm_compute; reflexivity.
Qed.
Definition has_gr (ps : list parse) (w : str) (g : sset) : bool := existsb (fun p => str_eqb (p_word p) w && same_strs (t_gr (p_tag p)) g) ps.
Lemma same_strs_refl : forall a, same_strs a a = true.
Proof. intros a. unfold same_strs. rewrite Nat.eqb_refl. cbn [andb]. induction a as [|x a IH]; [reflexivity|]. cbn [combine forallb fst snd]. rewrite IH. replace (str_eqb x x) with true; [reflexivity|]. symmetry. apply str_eqb_eq. reflexivity. Qed.
Lemma has_gr_iff : forall ps w g, has_gr ps w g = true <-> analysed ps w g.
Proof.
  intros ps w g. unfold has_gr, analysed. rewrite existsb_exists. split; intros (p & I & H); exists p; (split; [exact I|]).
  - apply andb_prop in H as [A B]. apply str_eqb_eq in A. apply same_strs_ok in B. auto.
  - destruct H as [<- <-]. rewrite same_strs_refl. replace (str_eqb (p_word p) (p_word p)) with true; [reflexivity|]. symmetry. apply str_eqb_eq. reflexivity.
Qed.
Definition found (r : res (tagclass * morph)) (word w : str) (g : sset) (b : bool) : bool := match r with Ok (_, M) => match morph_parse M word with Ok ps => Bool.eqb (has_gr ps w g) b | Err _ => false end | Err _ => false end.
Lemma found_ok : forall r word w g b, found r word w g b = true -> exists C M ps, r = Ok (C, M) /\ morph_parse M word = Ok ps /\ (if b then analysed ps w g else ~ analysed ps w g).
Proof.
  intros [[C M]|e] word w g b H; [|discriminate H]. unfold found in H. destruct (morph_parse M word) as [ps|] eqn:P; [|discriminate H]. apply eqb_prop in H. exists C, M, ps. split; [reflexivity|]. split; [exact P|].
  destruct b; [apply has_gr_iff; exact H|]. intros X. apply has_gr_iff in X. congruence.
Qed.
Lemma found_yes : forall r word w g, found r word w g true = true -> exists C M ps, r = Ok (C, M) /\ morph_parse M word = Ok ps /\ analysed ps w g. Proof. intros r word w g H. exact (found_ok r word w g true H). Qed.
Lemma found_no : forall r word w g, found r word w g false = true -> exists C M ps, r = Ok (C, M) /\ morph_parse M word = Ok ps /\ ~ analysed ps w g. Proof. intros r word w g H. exact (found_ok r word w g false H). Qed.
Definition verb_tag : sset := map u ["VERB"; "neut"; "sing"]%string.
Lemma f_s : exists C M ps, construct uni_named false tc_initial demo_rows (x_gramtab (built opt_1 src_s)) (dict_of (built opt_1 src_s)) None e_yo RU_DEFAULT_UNITS = Ok (C, M) /\ morph_parse M (u "бяныло") = Ok ps /\ analysed ps (u "бяныло") verb_tag. Proof. apply found_yes. vm_compute. reflexivity. Qed.
Lemma f_t : exists C M ps, construct uni_named false tc_initial demo_rows (x_gramtab (built opt_1 src_t)) (dict_of (built opt_1 src_t)) None e_yo RU_DEFAULT_UNITS = Ok (C, M) /\ morph_parse M (u "бяныло") = Ok ps /\ ~ analysed ps (u "бяныло") verb_tag. Proof. apply found_no. vm_compute. reflexivity. Qed.
Lemma lost_gen : forall o src1 src2 lxs1 lxs2 x1 x2 U rows subst items word v g,
  join_lexemes src1 [] = Ok lxs1 -> compile_parsed_dict o src1 [] = Ok x1 -> join_lexemes src2 [] = Ok lxs2 -> compile_parsed_dict o src2 [] = Ok x2 -> incl lxs1 lxs2 ->
  (exists C M ps, construct U false tc_initial rows (x_gramtab x1) (dict_of x1) None subst items = Ok (C, M) /\ morph_parse M word = Ok ps /\ analysed ps v g) ->
  (exists C M ps, construct U false tc_initial rows (x_gramtab x2) (dict_of x2) None subst items = Ok (C, M) /\ morph_parse M word = Ok ps /\ ~ analysed ps v g) ->
  exists o src1 src2 lxs1 lxs2 x1 x2 T1 T2 M1 M2 ps1 ps2 w g,
  join_lexemes src1 [] = Ok lxs1 /\ compile_parsed_dict o src1 [] = Ok x1 /\ construct U false tc_initial rows (x_gramtab x1) (dict_of x1) None subst items = Ok (T1, M1) /\
  join_lexemes src2 [] = Ok lxs2 /\ compile_parsed_dict o src2 [] = Ok x2 /\ construct U false tc_initial rows (x_gramtab x2) (dict_of x2) None subst items = Ok (T2, M2) /\
  incl lxs1 lxs2 /\ morph_parse M1 word = Ok ps1 /\ morph_parse M2 word = Ok ps2 /\ analysed ps1 w g /\ ~ analysed ps2 w g.
Proof.
  intros o src1 src2 lxs1 lxs2 x1 x2 U rows subst items word v g J1 H1 J2 H2 I (T1 & M1 & ps1 & C1 & P1 & E1) (T2 & M2 & ps2 & C2 & P2 & E2).
  exists o, src1, src2, lxs1, lxs2, x1, x2, T1, T2, M1, M2, ps1, ps2, v, g. repeat (split; [assumption|]). assumption.
Qed.
Lemma incl_st : incl [wash] [wash; newt]. Proof. intros x [E|[]]. left. exact E. Qed.
Lemma lost_st : exists o src1 src2 lxs1 lxs2 x1 x2 T1 T2 M1 M2 ps1 ps2 w g,
  join_lexemes src1 [] = Ok lxs1 /\ compile_parsed_dict o src1 [] = Ok x1 /\ construct uni_named false tc_initial demo_rows (x_gramtab x1) (dict_of x1) None e_yo RU_DEFAULT_UNITS = Ok (T1, M1) /\
  join_lexemes src2 [] = Ok lxs2 /\ compile_parsed_dict o src2 [] = Ok x2 /\ construct uni_named false tc_initial demo_rows (x_gramtab x2) (dict_of x2) None e_yo RU_DEFAULT_UNITS = Ok (T2, M2) /\
  incl lxs1 lxs2 /\ morph_parse M1 (u "бяныло") = Ok ps1 /\ morph_parse M2 (u "бяныло") = Ok ps2 /\ analysed ps1 w g /\ ~ analysed ps2 w g.
Proof.
  apply (lost_gen opt_1 src_s src_t [wash] [wash; newt] (built opt_1 src_s) (built opt_1 src_t) uni_named demo_rows e_yo RU_DEFAULT_UNITS (u "бяныло") (u "бяныло") verb_tag).
  - exact j_s.
  - exact c_s.
  - exact j_t.
  - exact c_t.
  - exact incl_st.
  - exact f_s.
  - exact f_t.
Qed.
(** For a word the smaller dictionary does not know the first part fails: the new lexeme makes the word known and its predictions disappear *)
Theorem C90_unknown_refuted : exists o src1 src2 lxs1 lxs2 x1 x2 T1 T2 M1 M2 ps1 ps2 w g,
  join_lexemes src1 [] = Ok lxs1 /\ compile_parsed_dict o src1 [] = Ok x1 /\ construct uni_named false tc_initial demo_rows (x_gramtab x1) (dict_of x1) None e_yo RU_DEFAULT_UNITS = Ok (T1, M1) /\
  join_lexemes src2 [] = Ok lxs2 /\ compile_parsed_dict o src2 [] = Ok x2 /\ construct uni_named false tc_initial demo_rows (x_gramtab x2) (dict_of x2) None e_yo RU_DEFAULT_UNITS = Ok (T2, M2) /\
  incl lxs1 lxs2 /\ morph_parse M1 (u "бяныло") = Ok ps1 /\ morph_parse M2 (u "бяныло") = Ok ps2 /\ analysed ps1 w g /\ ~ analysed ps2 w g.
Proof. exact lost_st. Qed.
Print Assumptions C90_unknown_refuted.
