(** * A small dictionary for C81, C82 *)
From Coq Require Import String List NArith ZArith Bool QArith.
From Verif Require Import Py Uni Tagset Dawg Utils Shapes Dict Units Analyzer ConfigRu ConfigUk Compile Spec Spec2 Spec3 Spec20 Spec32 Counting Ex.
From Verif Require Import L_Base L_Tagset L_Parse L_Text L_Units L_Ex L_ExU L_ExL L_ExP L_Inflect.
Import ListNotations.
Local Open Scope nat_scope.
Local Open Scope list_scope.

Definition count_rows : list grow := demo_rows ++ [gr "voct" "nomn" "зв"].
Definition count_lexemes : lexemes :=
  [(1%N, [form "мама" "NOUN,anim,femn sing,nomn"; form "мамы" "NOUN,anim,femn sing,gent"; form "маме" "NOUN,anim,femn sing,datv"; form "мам" "NOUN,anim,femn sing,voct";
          form "мамы" "NOUN,anim,femn plur,nomn"; form "мам" "NOUN,anim,femn plur,gent"; form "мамам" "NOUN,anim,femn plur,datv"]);
   (2%N, [form "красный" "ADJF,Qual masc,sing,nomn"; form "красная" "ADJF,Qual femn,sing,nomn"; form "красную" "ADJF,Qual femn,sing,accs";
          form "красные" "ADJF,Qual plur,nomn"; form "красных" "ADJF,Qual plur,gent"]);
   (3%N, [form "краснее" "COMP,Qual"])].
Definition count_compiled : compiled := get_ok (MkCompiled [] [] [] [] [] demo_options) (compile_parsed_dict demo_options count_lexemes []).
Definition count_dict (gt : list tag) : dict :=
  MkDict (x_paradigms count_compiled) gt (o_prefixes demo_options) (x_suffixes count_compiled) (x_words count_compiled) (x_pred count_compiled) (o_max_suffix demo_options).
Definition count_demo : morph := snd (get_ok (tc_initial, null_morph) (construct uni_cyr false tc_initial count_rows (x_gramtab count_compiled) count_dict None e_yo RU_DEFAULT_UNITS)).
Lemma count_eq : construct uni_cyr false tc_initial count_rows (x_gramtab count_compiled) count_dict None e_yo RU_DEFAULT_UNITS = Ok (m_tc count_demo, count_demo).
Proof. apply get_snd; [vm_compute; reflexivity|]. intros C M H. exact (construct_tc _ _ _ _ _ _ _ _ _ _ _ H). Qed.
Lemma count_shipped : shipped_units count_demo.
Proof. left. pose proof count_eq as E. apply construct_units in E as (E & _). exact E. Qed.
Lemma count_wf : wf_dict (m_dict count_demo). Proof. apply wf_dictb_ok. vm_compute. reflexivity. Qed.
Lemma count_consistent : consistent_dict (m_dict count_demo). Proof. apply consistent_dictb_ok. vm_compute. reflexivity. Qed.
Lemma count_masc : In (u "masc") (tc_known (m_tc count_demo)). Proof. refine (proj1 (smem_In _ _) _). vm_compute. reflexivity. Qed.

(** deciding the hypotheses *)
Definition onlyb (cat : sset) (t : tag) (g : str) : bool := smem g cat && smem g (t_gr t) && forallb (fun x => negb (smem x (t_gr t)) || str_eqb x g) cat.
Lemma onlyb_ok : forall cat t g, onlyb cat t g = true -> the_only cat t g.
Proof.
  intros cat t g H. unfold onlyb in H. apply andb_prop in H as [H C]. apply andb_prop in H as [A B]. split; [apply smem_In; exact A|]. split; [apply smem_In; exact B|].
  intros x I J. rewrite forallb_forall in C. specialize (C x I). apply smem_In in J. rewrite J in C. apply str_eqb_eq. exact C.
Qed.
Definition someb (cat : sset) (t : tag) : bool := existsb (onlyb cat t) cat.
Lemma someb_ok : forall cat t, someb cat t = true -> exists c, the_only cat t c.
Proof. intros cat t H. apply existsb_exists in H as (c & _ & H). exists c. apply onlyb_ok. exact H. Qed.
Definition coherentb (C : tagclass) (lex : list parse) (t : tag) : bool :=
  forallb (fun g => smem g (tc_known C) &&
    forallb (fun x => negb (smem x (incompat_of C g)) || forallb (fun h => negb (smem g (t_gr (p_tag h))) || smem x (t_gr (p_tag h))) lex) (t_gr t)) (t_gr t).
Lemma coherentb_ok : forall C lex t, coherentb C lex t = true -> coherent C lex t.
Proof.
  intros C lex t H g I. unfold coherentb in H. rewrite forallb_forall in H. specialize (H g I). apply andb_prop in H as [A B]. split; [apply smem_In; exact A|].
  intros x J K h Ih G. rewrite forallb_forall in B. specialize (B x J). apply (proj2 (smem_In _ _)) in K. rewrite K in B. cbn [negb orb] in B. rewrite forallb_forall in B. specialize (B h Ih).
  apply (proj2 (smem_In _ _)) in G. rewrite G in B. apply smem_In. exact B.
Qed.
Definition nounb (t : tag) : bool := onlyb PARTS_OF_SPEECH t (u "NOUN") && someb CASES t && someb NUMBERS t.
Lemma nounb_ok : forall t, nounb t = true -> noun_tag t.
Proof. intros t H. apply andb_prop in H as [H C]. apply andb_prop in H as [A B]. split; [apply onlyb_ok; exact A|]. split; apply someb_ok; assumption. Qed.
Definition adjb (t : tag) : bool := onlyb PARTS_OF_SPEECH t (u "ADJF") && someb CASES t && someb NUMBERS t && (negb (smem (u "plur") (t_gr t)) || forallb (fun g => negb (smem g (t_gr t))) GENDERS).
Lemma adjb_ok : forall t, adjb t = true -> adjective_tag t.
Proof.
  intros t H. apply andb_prop in H as [H D]. apply andb_prop in H as [H C]. apply andb_prop in H as [A B].
  split; [exists (u "ADJF"); split; [left; reflexivity|apply onlyb_ok; exact A]|]. split; [apply someb_ok; exact B|]. split; [apply someb_ok; exact C|].
  intros P g G J. apply smem_In in P, J. rewrite P in D. cbn [negb orb] in D. rewrite forallb_forall in D. specialize (D g G). rewrite J in D. discriminate D.
Qed.
Lemma lexeme_ofb : forall (kb : tag -> bool) (kind : tag -> Prop) C lex, (forall t, kb t = true -> kind t) ->
  forallb (fun h => coherentb C lex (p_tag h) && kb (p_tag h)) lex = true -> lexeme_of kind C lex.
Proof.
  intros kb kind C lex K H h I. rewrite forallb_forall in H. specialize (H h I). apply andb_prop in H as [A B]. split; [apply coherentb_ok; exact A|apply K; exact B].
Qed.
(** the first reading of a word, with a boolean condition on it and on its lexeme *)
Definition readsb (M : morph) (w : str) (test : parse -> list parse -> bool) : bool :=
  match morph_parse M w with
  | Ok ps => existsb (fun p => items_okb (m_dict M) (p_stack p) && match get_lexeme M p with Ok lex => test p lex | Err _ => false end) ps
  | Err _ => false
  end.
Lemma readsb_gen : forall M w test, shipped_units M -> wf_dict (m_dict M) -> consistent_dict (m_dict M) -> In (u "masc") (tc_known (m_tc M)) ->
  readsb M w test = true -> exists p lex, simple_reading M w p lex /\ test p lex = true.
Proof.
  intros M w test SU WF CD MC H. unfold readsb in H. destruct (morph_parse M w) as [ps|] eqn:E; [|discriminate H]. apply existsb_exists in H as (p & I & H).
  apply andb_prop in H as [A B]. destruct (get_lexeme M p) as [lex|] eqn:L; [|discriminate B]. exists p, lex. split; [|exact B].
  split; [exact SU|]. split; [exact WF|]. split; [exact CD|]. split; [exact MC|]. split; [exists ps; split; [exact E|exact I]|].
  split; [apply items_okb_ok; exact A|exact L].
Qed.
Lemma readsb_ok : forall w test, readsb count_demo w test = true -> exists p lex, simple_reading count_demo w p lex /\ test p lex = true.
Proof. intros w test. exact (readsb_gen count_demo w test count_shipped count_wf count_consistent count_masc). Qed.
(** next(iter(set)) *)
Definition pick_first (s : sset) : option str := match s with x :: _ => Some x | [] => None end.
Lemma pick_first_ok : pick_ok pick_first.
Proof. intros [|x l]; [reflexivity|left; reflexivity]. Qed.
Definition agreesb (M : morph) (p : parse) (n : Z) (w : string) (k : parse -> bool) : bool :=
  match make_agree_with_number pick_first M p n with Ok (Some f) => str_eqb (p_word f) (u w) && k f | _ => false end.
Lemma agreesb_ok : forall M p n w k, agreesb M p n w k = true -> exists f, make_agree_with_number pick_first M p n = Ok (Some f) /\ p_word f = u w /\ k f = true.
Proof.
  intros M p n w k H. unfold agreesb in H. destruct (make_agree_with_number pick_first M p n) as [[f|]|]; try discriminate H. apply andb_prop in H as [A B].
  exists f. split; [reflexivity|]. split; [apply str_eqb_eq; exact A|exact B].
Qed.
