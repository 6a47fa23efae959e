(** * Concrete corpora and analyzers for the P(t|w) theorems *)
From Coq Require Import String List NArith ZArith Bool QArith Lia Permutation Sorted.
From Verif Require Import Py Uni Tagset Dawg Dict Units Analyzer ConfigRu ConfigUk Compile Preprocess Probability Spec Spec5 Spec6 Ex
  L_Base L_Run L_Made L_Words L_Config L_Ex L_Parse L_Total L_Para L_Groups L_Prob L_Units L_ExU L_Probability L_Source L_Prob2.
Import ListNotations.
Local Open Scope nat_scope.
Local Open Scope list_scope.

Definition demo_corpus : corpus :=
  [(u "Кота", [u "NOUN,anim,masc sing,gent"]); (u "кота", [u "NOUN,masc,anim sing,gent"]); (u "кота", [u "NOUN,anim,masc sing,accs"]);
   (u "кота", [u "UNKN"]); (u "кота", [u "NOUN,anim,masc sing,gent"; u "NOUN,anim,masc sing,accs"]); (u "коту", [u "NOUN,anim,masc sing,datv"])].
Definition demo_table : cpd := get_ok [] (probability_table demo demo_corpus 3).
Lemma get_ok_eq : forall {A} (d : A) r, match r with Ok _ => true | Err _ => false end = true -> r = Ok (get_ok d r).
Proof. intros A d [x|e] H; [reflexivity|discriminate H]. Qed.
Lemma demo_table_eq : probability_table demo demo_corpus 3 = Ok demo_table.
Proof. apply get_ok_eq. vm_compute. reflexivity. Qed.
Lemma demo_colon_free : colon_free demo.
Proof. apply colon_free_check; vm_compute; reflexivity. Qed.

(** boolean version of [informative] for examples *)
Definition informativeb (M : morph) (c : corpus) (mf : nat) (w : str) : bool :=
  let occ := occurrences M c w in
  match occ with [] => false | _ =>
    (mf <=? length occ) &&
    match morph_parse M w, morph_tag M w with
    | Ok ps, Ok ts => existsb (fun p => existsb (fun q => negb (Qeq_bool (estimate_of occ (length ts) (t_gr (p_tag p))) (estimate_of occ (length ts) (t_gr (p_tag q))))) ps) ps
    | _, _ => false
    end
  end.
Lemma informativeb_ok : forall M c mf w, informativeb M c mf w = true -> informative M c mf w.
Proof.
  intros M c mf w H. unfold informativeb in H. unfold informative. destruct (occurrences M c w) as [|o occ]; [discriminate H|].
  apply andb_prop in H as (H1 & H2). apply Nat.leb_le in H1. split; [intro X; discriminate X|]. split; [exact H1|].
  destruct (morph_parse M w) as [ps|]; [|discriminate H2]. destruct (morph_tag M w) as [ts|]; [|discriminate H2]. exists ps, ts. split; [reflexivity|]. split; [reflexivity|].
  apply existsb_exists in H2 as (p & Hp & H2). apply existsb_exists in H2 as (q & Hq & H2). exists p, q. split; [auto|]. split; [auto|].
  intro X. apply Qeq_eq_bool in X. rewrite X in H2. discriminate H2.
Qed.
Definition one_spellingb (ps : list parse) : bool :=
  forallb (fun p => forallb (fun q => Bool.eqb (list_eqb str_eqb (t_gr (p_tag p)) (t_gr (p_tag q))) (str_eqb (t_str (p_tag p)) (t_str (p_tag q)))) ps) ps.
Lemma one_spellingb_ok : forall ps, one_spellingb ps = true -> one_spelling ps.
Proof.
  intros ps H p q Hp Hq. unfold one_spellingb in H. rewrite forallb_forall in H. specialize (H p Hp). rewrite forallb_forall in H. specialize (H q Hq).
  apply Bool.eqb_prop in H. rewrite <- strs_eqb_eq, <- str_eqb_eq. rewrite H. tauto.
Qed.

(** a dictionary with two spellings of one tag *)
Definition spell_dict (gt : list tag) : dict :=
  MkDict [[0; 0; 0]; [0; 1; 0]; [0; 2; 0]] gt [[]] [[]] [(u "кофе", [(0, 0); (1, 0); (2, 0)])] [[]] 1.
Definition spell_tags : list str := [u "NOUN,sing gent"; u "NOUN,sing,gent"; u "NOUN,sing,accs"].
Definition spell_demo : morph := snd (get_ok (tc_initial, null_morph)
  (construct uni_cyr false tc_initial demo_rows spell_tags spell_dict None e_yo RU_DEFAULT_UNITS)).
Lemma spell_demo_eq : construct uni_cyr false tc_initial demo_rows spell_tags spell_dict None e_yo RU_DEFAULT_UNITS = Ok (m_tc spell_demo, spell_demo).
Proof. apply get_snd; [vm_compute; reflexivity|]. intros C M H. exact (construct_tc _ _ _ _ _ _ _ _ _ _ _ H). Qed.
Definition spell_corpus : corpus := [(u "кофе", [u "NOUN,sing,gent"]); (u "Кофе", [u "NOUN,sing,gent"])].
Definition spell_table : cpd := get_ok [] (probability_table spell_demo spell_corpus 1).
Lemma spell_table_eq : probability_table spell_demo spell_corpus 1 = Ok spell_table.
Proof. apply get_ok_eq. vm_compute. reflexivity. Qed.
Lemma spell_colon_free : colon_free spell_demo.
Proof. apply colon_free_check; vm_compute; reflexivity. Qed.
