(** * C97: every reading has its own derivation *)
From Coq Require Import String List NArith ZArith Bool QArith Lia.
From Verif Require Import Py Uni Tagset Dawg Utils Dict Shapes Units Analyzer ConfigRu ConfigUk Compile Spec Spec2 Spec3 Spec14 Spec15 Spec34 Spec35 Spec36 Spec38 Spec41 Spec43 Spec44 Ex.
From Verif Require Import L_Base L_Made L_Run L_Text L_Ex L_ExU L_ExSoap L_Case L_Known L_Adverb L_Stages L_Parse L_Every L_Twice L_Twice2 L_Twice3 L_Twice4 P_Stages P_Twice.
Import ListNotations.
Local Open Scope nat_scope.
Local Open Scope list_scope.

(** Any text but an initial letter, however it is nested, any list of units, with or without P(t|w) estimates: no two readings have the same methods stack. *)
Theorem C97_origins : forall M word ps, lower_stable (m_uni M) -> subst_proper (m_subst M) -> entries_distinct (m_dict M) -> initials_upper M -> Spec14.not_initial M word -> morph_parse M word = Ok ps -> NoDup (map p_stack ps).
Proof. intros M word ps LS SP ED IU NI H. exact (stacks_once M LS ED SP IU _ word ps NI H). Qed.
Print Assumptions C97_origins.
(** In particular no two readings are equal. *)
Theorem C97_distinct : forall M word ps, lower_stable (m_uni M) -> subst_proper (m_subst M) -> entries_distinct (m_dict M) -> initials_upper M -> Spec14.not_initial M word -> morph_parse M word = Ok ps -> NoDup ps.
Proof. intros M word ps LS SP ED IU NI H. apply (NoDup_map_inv p_stack). exact (stacks_once M LS ED SP IU _ word ps NI H). Qed.
Print Assumptions C97_distinct.
(** A compiled dictionary stores no form twice under one word. *)
Theorem C97_entries : forall o src links lxs x D, join_lexemes src links = Ok lxs -> compile_parsed_dict o src links = Ok x -> loaded x D -> entries_distinct D.
Proof. exact compiled_entries. Qed.
Print Assumptions C97_entries.

(** ** tests *)
Fixpoint nodup_formsb (l : list (nat * nat)) : bool := match l with [] => true | x :: r => negb (existsb (form_eqb x) r) && nodup_formsb r end.
Lemma nodup_formsb_ok : forall l, nodup_formsb l = true -> NoDup l.
Proof.
  induction l as [|x l IH]; intros H; [constructor|]. cbn [nodup_formsb] in H. apply andb_true_iff in H as [H1 H2]. constructor; [|exact (IH H2)]. intros I. apply negb_true_iff in H1.
  assert (X : existsb (form_eqb x) l = true); [|congruence]. apply existsb_exists. exists x. split; [exact I|]. unfold form_eqb. rewrite !Nat.eqb_refl. reflexivity.
Qed.
Lemma entriesb_ok : forall D, forallb (fun e : str * list (nat * nat) => nodup_formsb (snd e)) (d_words D) = true -> entries_distinct D.
Proof. intros D F w vals G. apply L_Made.sget_In in G. rewrite forallb_forall in F. apply F in G. exact (nodup_formsb_ok _ G). Qed.
Definition uppersb (M : morph) : bool :=
  forallb (fun bt : bunit * bool => match b_cfg (fst bt) with UInit _ letters _ _ => forallb (fun l => negb (str_eqb (u_lower (m_uni M) l) l)) letters | _ => true end) (m_units M).
Lemma uppersb_ok : forall M, uppersb M = true -> initials_upper M.
Proof.
  intros M F b tm first letters pat score l I C J E. unfold uppersb in F. rewrite forallb_forall in F. apply F in I. cbn [fst] in I. rewrite C in I. rewrite forallb_forall in I. apply I in J. rewrite E, str_eqb_refl in J. discriminate J.
Qed.
Lemma bow_shaped : lower_stable (m_uni bow_morph) /\ subst_proper (m_subst bow_morph) /\ entries_distinct (m_dict bow_morph) /\ initials_upper bow_morph.
Proof.
  split; [exact uni_cyr_stable|]. split; [replace (m_subst bow_morph) with e_yo by (vm_compute; reflexivity); exact e_yo_proper|]. split; [apply entriesb_ok; vm_compute; reflexivity|apply uppersb_ok; vm_compute; reflexivity].
Qed.
Lemma same_stack_twice : forall M w, match morph_parse M w with Ok (p :: q :: _) => p_stack p = p_stack q | _ => False end -> exists ps, morph_parse M w = Ok ps /\ ~ NoDup (map p_stack ps).
Proof.
  intros M w H. destruct (morph_parse M w) as [[|p [|q l]]|e]; try contradiction. eexists. split; [reflexivity|]. cbn [map]. rewrite H. intros N. inversion N as [|x y X Y]. apply X. left. reflexivity.
Qed.
(** The readings of an initial letter (one for each gender and case) share their methods stack. *)
Theorem C97_initials_refuted : exists M word ps, lower_stable (m_uni M) /\ subst_proper (m_subst M) /\ entries_distinct (m_dict M) /\ initials_upper M /\ morph_parse M word = Ok ps /\ ~ NoDup (map p_stack ps).
Proof.
  destruct bow_shaped as (H1 & H2 & H3 & H4). destruct (same_stack_twice bow_morph (u "А")) as (ps & E & N); [vm_compute; reflexivity|]. exists bow_morph, (u "А"), ps. auto 7.
Qed.
Print Assumptions C97_initials_refuted.

Definition countb (M : morph) (w : str * nat) : bool := not_initialb M (fst w) && match morph_parse M (fst w) with Ok ps => length ps =? snd w | Err _ => false end.
Definition counts (M : morph) (w : str * nat) : Prop := Spec14.not_initial M (fst w) /\ exists ps, morph_parse M (fst w) = Ok ps /\ length ps = snd w.
Lemma countb_ok : forall M w, countb M w = true -> counts M w.
Proof.
  intros M w H. unfold countb in H. apply andb_true_iff in H as [H1 H2]. split; [exact (not_initialb_ok _ _ H1)|]. destruct (morph_parse M (fst w)) as [ps|]; [|discriminate H2]. exists ps. split; [reflexivity|apply Nat.eqb_eq; exact H2].
Qed.
Lemma np_subst : m_subst demo_np = e_yo. Proof. vm_compute. reflexivity. Qed.
(** homonyms, compounds, compounds in compounds, particles, prefixes, tokens; with estimates and without *)
Example C97_case : (lower_stable (m_uni bow_morph) /\ subst_proper (m_subst bow_morph) /\ entries_distinct (m_dict bow_morph) /\ initials_upper bow_morph) /\
  Forall (counts bow_morph) [(u "Лук", 2); (u "лук-лук", 6); (u "лук-то", 2); (u "ультралук", 2); (u "зюлук", 2); (u "XIV", 2); (u "12", 1); (u "лук-ультралук-то", 2); (u "луком-лук", 2); (u "а-лук", 2)] /\
  (lower_stable (m_uni demo_np) /\ subst_proper (m_subst demo_np) /\ entries_distinct (m_dict demo_np) /\ initials_upper demo_np /\ m_prob demo_np <> None) /\
  Forall (counts demo_np) [(u "кота", 2); (u "кота-крота", 4); (u "кота-то", 2); (u "ультракота", 2)].
Proof.
  split; [exact bow_shaped|]. split; [repeat (apply Forall_cons; [apply countb_ok; vm_compute; reflexivity|]); apply Forall_nil|]. split.
  - split; [change (m_uni demo_np) with uni_named; exact uni_named_stable|]. split; [rewrite np_subst; exact e_yo_proper|]. split; [apply entriesb_ok; vm_compute; reflexivity|]. split; [apply uppersb_ok; vm_compute; reflexivity|].
    intros E. assert (X : match m_prob demo_np with Some _ => true | None => false end = true) by (vm_compute; reflexivity). rewrite E in X. discriminate X.
  - repeat (apply Forall_cons; [apply countb_ok; vm_compute; reflexivity|]). apply Forall_nil.
Qed.
