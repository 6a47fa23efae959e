(** * C96: no reading is listed twice *)
From Coq Require Import String List NArith ZArith Bool QArith Lia.
From Verif Require Import Py Uni Tagset Dawg Utils Dict Shapes Units Analyzer ConfigRu ConfigUk Compile Spec Spec2 Spec3 Spec14 Spec15 Spec34 Spec35 Spec36 Spec38 Spec41 Spec43 Ex.
From Verif Require Import L_Base L_Made L_Run L_Text L_Ex L_ExU L_ExSoap L_Known L_Adverb L_New L_Stages L_Parse L_Every L_Normal L_Graded L_Twice L_Twice2 L_Twice3 P_Shapes P_Stages P_Every P_Normal P_Graded.
Import ListNotations.
Local Open Scope nat_scope.
Local Open Scope list_scope.

(** A text outside the dictionary that is not split at a hyphen: no two of its readings have the same word, the same grammemes and the same basis (paradigm, or analysis of the right part), with or without P(t|w) estimates. *)
Theorem C96_readings : forall M letters particles prefixes word ps, shipped M letters particles prefixes -> word_is_known M word false = false -> ~ In word letters -> not_compound prefixes (u_lower (m_uni M) word) ->
  morph_parse M word = Ok ps -> NoDup (map identity ps).
Proof. exact readings_once. Qed.
Print Assumptions C96_readings.
(** A text outside the dictionary without a particle at its end: tag() lists no tag twice. *)
Theorem C96_tags : forall M letters particles prefixes word ts, shipped M letters particles prefixes -> word_is_known M word false = false -> ~ In word letters -> no_particle particles (u_lower (m_uni M) word) ->
  morph_tag M word = Ok ts -> NoDup (map t_gr ts).
Proof. exact tags_once. Qed.
Print Assumptions C96_tags.
(** The readings of a known word have different methods stacks or different grammemes: different rows of the dictionary (or, in Ukrainian, a Roman numeral or a Latin token). *)
Theorem C96_known : forall M letters particles prefixes word ps, shipped M letters particles prefixes -> subst_proper (m_subst M) ->
  (forall w vals, sget w (d_words (m_dict M)) = Some vals -> vals <> [] /\ NoDup vals) -> word_is_known M word false = true -> ~ In word letters ->
  morph_parse M word = Ok ps -> NoDup (map (fun p => (t_gr (p_tag p), p_stack p)) ps).
Proof. exact known_once. Qed.
Print Assumptions C96_known.

(** ** words with the same form in two lexemes *)
Definition onion : list (str * str) := [form "лук" "NOUN,inan,masc sing,nomn"; form "лука" "NOUN,inan,masc sing,gent"].
Definition bow : list (str * str) := [form "лук" "NOUN,inan,masc sing,nomn"; form "луком" "NOUN,inan,masc sing,ablt"].
Definition src_bow : lexemes := [(1%N, onion); (2%N, bow)].
Definition bow_morph : morph := built_morph opt_1 src_bow.
Lemma bow_units : has_units bow_morph RU_DEFAULT_UNITS. Proof. apply built_units. vm_compute. reflexivity. Qed.
Lemma bow_shipped : shipped bow_morph RU_INITIAL_LETTERS RU_PARTICLES RU_KNOWN_PREFIXES. Proof. left. split; [exact bow_units|auto]. Qed.
Lemma not_initial : forall w letters, smem w letters = false -> ~ In w letters. Proof. intros w l H I. apply smem_In in I. congruence. Qed.
Lemma bow_tags : forall w, match morph_tag bow_morph w with Ok (a :: b :: _) => tag_eqb a b | _ => false end = true -> exists ts, morph_tag bow_morph w = Ok ts /\ ~ NoDup (map t_gr ts).
Proof.
  intros w H. destruct (morph_tag bow_morph w) as [[|a [|b l]]|e]; try discriminate H. eexists. split; [reflexivity|]. apply L_Run.tag_eqb_iff in H. intros N. cbn [map] in N. rewrite H in N. inversion N as [|x y X Y]. apply X. left. reflexivity.
Qed.
Lemma bow_compound : match morph_parse bow_morph (u "лук-лук") with Ok (p :: _ :: q :: _) => identity p = identity q | _ => False end.
Proof. vm_compute. reflexivity. Qed.
(** tag() lists the same tag twice for a known word with two lexemes and for the same word with a particle; parse() lists the readings of a compound twice that differ only in the lexeme of the left part. *)
Theorem C96_homonyms_refuted : exists M, shipped M RU_INITIAL_LETTERS RU_PARTICLES RU_KNOWN_PREFIXES /\
  (exists ts, ~ In (u "лук") RU_INITIAL_LETTERS /\ morph_tag M (u "лук") = Ok ts /\ ~ NoDup (map t_gr ts)) /\
  (exists ts, word_is_known M (u "лук-то") false = false /\ morph_tag M (u "лук-то") = Ok ts /\ ~ NoDup (map t_gr ts)) /\
  (exists ps, word_is_known M (u "лук-лук") false = false /\ morph_parse M (u "лук-лук") = Ok ps /\ ~ NoDup (map identity ps)).
Proof.
  exists bow_morph. split; [exact bow_shipped|]. split; [|split].
  - destruct (bow_tags (u "лук")) as (ts & E & N); [vm_compute; reflexivity|]. exists ts. split; [apply not_initial; vm_compute; reflexivity|]. split; [exact E|exact N].
  - destruct (bow_tags (u "лук-то")) as (ts & E & N); [vm_compute; reflexivity|]. exists ts. split; [vm_compute; reflexivity|]. split; [exact E|exact N].
  - pose proof bow_compound as H. destruct (morph_parse bow_morph (u "лук-лук")) as [[|p [|q [|r l]]]|e]; try contradiction. eexists. split; [vm_compute; reflexivity|]. split; [reflexivity|].
    change (identity p = identity r) in H. cbn [map]. rewrite H. intros N. inversion N as [|x y X Y]. apply X. right. left. reflexivity.
Qed.
Print Assumptions C96_homonyms_refuted.

(** ** concrete texts *)
Definition no_hyphen (M : morph) (w : str) : bool := negb (existsb (N.eqb (chr "-")) (u_lower (m_uni M) w)).
Lemma no_hyphen_plain : forall M w prefixes, no_hyphen M w = true -> not_compound prefixes (u_lower (m_uni M) w).
Proof.
  intros M w prefixes H l r (E & _). exfalso. unfold no_hyphen in H. apply negb_true_iff in H. assert (X : existsb (N.eqb (chr "-")) (u_lower (m_uni M) w) = true); [|congruence].
  apply existsb_exists. exists (chr "-"). split; [rewrite E; apply in_app_iff; right; left; reflexivity|apply N.eqb_refl].
Qed.
Definition no_particleb (particles : list str) (lower : str) : bool := forallb (fun pt => negb (suffixb pt lower)) particles.
Lemma no_particleb_ok : forall particles lower, no_particleb particles lower = true -> no_particle particles lower.
Proof.
  intros particles lower H rest pt I E. exfalso. unfold no_particleb in H. rewrite forallb_forall in H. apply H in I. apply negb_true_iff in I. assert (X : suffixb pt lower = true); [|congruence]. apply suffixb_spec. exists rest. exact E.
Qed.
Definition outsideb (M : morph) (w : str * (nat * nat)) : bool :=
  negb (word_is_known M (fst w) false) && negb (smem (fst w) RU_INITIAL_LETTERS) && no_hyphen M (fst w) && no_particleb RU_PARTICLES (u_lower (m_uni M) (fst w)) &&
  match morph_parse M (fst w), morph_tag M (fst w) with Ok ps, Ok ts => Nat.eqb (length ps) (fst (snd w)) && Nat.eqb (length ts) (snd (snd w)) | _, _ => false end.
Definition outside_counts (M : morph) (w : str * (nat * nat)) : Prop :=
  word_is_known M (fst w) false = false /\ ~ In (fst w) RU_INITIAL_LETTERS /\ not_compound RU_KNOWN_PREFIXES (u_lower (m_uni M) (fst w)) /\ no_particle RU_PARTICLES (u_lower (m_uni M) (fst w)) /\
  exists ps ts, morph_parse M (fst w) = Ok ps /\ morph_tag M (fst w) = Ok ts /\ length ps = fst (snd w) /\ length ts = snd (snd w).
Lemma outsideb_ok : forall M w, outsideb M w = true -> outside_counts M w.
Proof.
  intros M w H. unfold outsideb in H. repeat (apply andb_true_iff in H as [H ?]). apply negb_true_iff in H. split; [exact H|]. split; [apply not_initial, negb_true_iff; assumption|]. split; [apply no_hyphen_plain; assumption|]. split; [apply no_particleb_ok; assumption|].
  destruct (morph_parse M (fst w)) as [ps|]; [|discriminate]. destruct (morph_tag M (fst w)) as [ts|]; [|discriminate]. exists ps, ts. match goal with X : _ && _ = true |- _ => apply andb_true_iff in X as [X1 X2] end. apply Nat.eqb_eq in X1. apply Nat.eqb_eq in X2. auto.
Qed.
(** the known word has two readings with one tag; the word with a known prefix has two readings with one tag and different paradigms *)
Example C96_case : shipped bow_morph RU_INITIAL_LETTERS RU_PARTICLES RU_KNOWN_PREFIXES /\ subst_proper (m_subst bow_morph) /\
  (forall w vals, sget w (d_words (m_dict bow_morph)) = Some vals -> vals <> [] /\ NoDup vals) /\
  word_is_known bow_morph (u "Лук") false = true /\ ~ In (u "Лук") RU_INITIAL_LETTERS /\ (exists ps, morph_parse bow_morph (u "Лук") = Ok ps /\ length ps = 2) /\
  Forall (outside_counts bow_morph) [(u "ультралук", (2, 1)); (u "XIV", (2, 2)); (u "зюлуком", (1, 1)); (u "12", (1, 1))].
Proof.
  split; [exact bow_shipped|]. split; [replace (m_subst bow_morph) with e_yo by (vm_compute; reflexivity); exact e_yo_proper|].
  split; [|split; [vm_compute; reflexivity|split; [apply not_initial; vm_compute; reflexivity|split; [|]]]].
  - assert (F : forallb (fun e : str * list (nat * nat) => match snd e with [_] => true | [(a, b); (c, d)] => negb ((a =? c) && (b =? d)) | _ => false end) (d_words (m_dict bow_morph)) = true) by (vm_compute; reflexivity).
    intros w vals G. apply L_Made.sget_In in G. rewrite forallb_forall in F. apply F in G. cbn [snd] in G. destruct vals as [|[a b] [|[c d] [|]]]; try discriminate G; (split; [discriminate|]); [repeat constructor; intros []|].
    apply negb_true_iff in G. repeat constructor; cbn [In]; [|intros []]. intros [X|[]]. injection X as -> ->. rewrite !Nat.eqb_refl in G. discriminate G.
  - assert (L : match morph_parse bow_morph (u "Лук") with Ok ps => length ps =? 2 | Err _ => false end = true) by (vm_compute; reflexivity).
    destruct (morph_parse bow_morph (u "Лук")) as [ps|]; [|discriminate L]. exists ps. split; [reflexivity|apply Nat.eqb_eq; exact L].
  - repeat (apply Forall_cons; [apply outsideb_ok; vm_compute; reflexivity|]). apply Forall_nil.
Qed.
