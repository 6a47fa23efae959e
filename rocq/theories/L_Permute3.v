(** * Lemmas for C89: every word *)
From Coq Require Import String List NArith ZArith Bool QArith Lia Sorting.Permutation.
From Verif Require Import Py Uni Tagset Dawg Utils Shapes Dict Units Analyzer ConfigRu ConfigUk Compile Spec Spec2 Spec3 Spec14 Spec15 Spec34 Spec35 Spec36 Spec38 Spec39.
From Verif Require Import L_Base L_Compile L_ExC L_Parse L_Adverb L_New L_Stages L_Every L_Permute L_Permute2.
Import ListNotations.
Local Open Scope nat_scope.
Local Open Scope list_scope.

Record twins (M1 M2 : morph) : Prop := {
  tw_content : same_content (m_dict M1) (m_dict M2); tw_subst : m_subst M1 = m_subst M2; tw_uni : m_uni M1 = m_uni M2; tw_lang : same_language M1 M2;
  tw_stable : lower_stable (m_uni M1); tw_digits : digits_ok (m_uni M1); tw_c1 : pred_counts_pos (m_dict M1); tw_c2 : pred_counts_pos (m_dict M2);
  tw_t1 : answers_all M1; tw_t2 : answers_all M2 }.
Lemma twins_shipped : forall M1 M2, twins M1 M2 -> shipped_units M1 /\ shipped_units M2.
Proof. intros M1 M2 T. destruct (tw_lang _ _ T) as [(A & B & _)|(A & B)]; split; unfold shipped_units; auto. Qed.
Definition shorter_alike (M1 M2 : morph) (lower : str) : Prop := forall a w c, lower = a ++ w ++ c -> w <> [] -> length w < length lower -> alike_at M1 M2 w.
Lemma nested_both : forall M1 M2 lower, twins M1 M2 -> shorter_alike M1 M2 lower -> (forall a w c, lower = a ++ w ++ c -> w <> [] -> length w < length lower -> forall v g,
    (exists qs q, morph_parse M1 w = Ok qs /\ In q qs /\ p_word q = v /\ t_gr (p_tag q) = g) <-> (exists qs q, morph_parse M2 w = Ok qs /\ In q qs /\ p_word q = v /\ t_gr (p_tag q) = g)).
Proof. intros M1 M2 lower T H a w c E N Lw v g. exact (nested_reading M1 M2 (tw_t1 _ _ T) (tw_t2 _ _ T) w (H a w c E N Lw) v g). Qed.
Lemma rules_same_ru : forall M1 M2 word lower, twins M1 M2 -> shorter_alike M1 M2 lower -> Forall2 same_rule (all_rules_ru M1 word lower) (all_rules_ru M2 word lower).
Proof.
  intros M1 M2 word lower T H. pose proof (nested_both M1 M2 lower T H) as NB. destruct (twins_shipped M1 M2 T) as [U1 U2]. pose proof T as [SC SS SU SL St DG C1 C2 T1 T2].
  assert (N12 := fun a w c E N Lw v g => proj1 (NB a w c E N Lw v g)). assert (N21 := fun a w c E N Lw v g => proj2 (NB a w c E N Lw v g)). clear NB.
  unfold all_rules_ru, rules_ru. rewrite SU.
  apply Forall2_cons; [apply either_same; apply Forall2_cons; [exact (dictionary_same M1 M2 SC SS lower)|]; apply Forall2_cons; [apply same_refl|]; apply Forall2_cons; [apply same_refl|]; apply Forall2_nil|].
  apply Forall2_cons; [apply same_refl|]. apply Forall2_cons; [apply same_refl|]. apply Forall2_cons; [apply same_refl|].
  apply Forall2_cons; [intros w g; split; [apply (particle_one M1 M2 lower N12)|apply (particle_one M2 M1 lower N21)]; exact particles_nonempty|].
  apply Forall2_cons; [intros w g; split; [apply (po_one M1 M2 lower T1 T2 N12)|apply (po_one M2 M1 lower T2 T1 N21)]; assumption|].
  apply Forall2_cons; [intros w g; split; [apply (hyphen_one M1 M2 lower T2 N12)|apply (hyphen_one M2 M1 lower T1 N21)]|].
  apply Forall2_cons; [intros w g; split; [apply (known_prefix_one M1 M2 lower N12)|apply (known_prefix_one M2 M1 lower N21)]; exact ru_pre|].
  apply Forall2_cons; [exact (analogy_same M1 M2 SC SS word lower)|]. apply Forall2_cons; [apply same_refl|]. apply Forall2_nil.
Qed.
Lemma rules_same_uk : forall M1 M2 word lower, twins M1 M2 -> shorter_alike M1 M2 lower -> Forall2 same_rule (all_rules_uk M1 word lower) (all_rules_uk M2 word lower).
Proof.
  intros M1 M2 word lower T H. pose proof (nested_both M1 M2 lower T H) as NB. destruct (twins_shipped M1 M2 T) as [U1 U2]. pose proof T as [SC SS SU SL St DG C1 C2 T1 T2].
  assert (N12 := fun a w c E N Lw v g => proj1 (NB a w c E N Lw v g)). assert (N21 := fun a w c E N Lw v g => proj2 (NB a w c E N Lw v g)). clear NB.
  unfold all_rules_uk, rules_uk. rewrite SU.
  apply Forall2_cons; [apply either_same; apply Forall2_cons; [exact (dictionary_same M1 M2 SC SS lower)|]; repeat (apply Forall2_cons; [apply same_refl|]); apply Forall2_nil|].
  apply Forall2_cons; [apply same_refl|]. apply Forall2_cons; [apply same_refl|].
  apply Forall2_cons; [intros w g; split; [apply (particle_one M1 M2 lower N12)|apply (particle_one M2 M1 lower N21)]; exact uk_part|].
  apply Forall2_cons; [intros w g; split; [apply (hyphen_one M1 M2 lower T2 N12)|apply (hyphen_one M2 M1 lower T1 N21)]|].
  apply Forall2_cons; [intros w g; split; [apply (known_prefix_one M1 M2 lower N12)|apply (known_prefix_one M2 M1 lower N21)]; exact uk_pre|].
  apply Forall2_cons; [exact (analogy_same M1 M2 SC SS word lower)|]. apply Forall2_cons; [apply same_refl|]. apply Forall2_nil.
Qed.
Lemma twins_step : forall M1 M2 word, twins M1 M2 -> u_lower (m_uni M1) word <> [] -> shorter_alike M1 M2 (u_lower (m_uni M1) word) -> alike_at M1 M2 word.
Proof.
  intros M1 M2 word T NE H ps1 ps2 P1 P2. pose proof T as [SC SS SU SL St DG C1 C2 T1 T2]. destruct SL as [(U1 & U2 & K1 & K2)|(U1 & U2)].
  - pose proof (every_russian M1 word ps1 U1 K1 St DG C1 NE P1) as F1. rewrite SU in St, DG, NE. pose proof (every_russian M2 word ps2 U2 K2 St DG C2 NE P2) as F2. rewrite <- SU in F2.
    exact (first_rule_det _ _ _ _ (rules_same_ru M1 M2 word _ T H) F1 F2).
  - pose proof (every_ukrainian M1 word ps1 U1 St DG C1 NE P1) as F1. rewrite SU in St, DG, NE. pose proof (every_ukrainian M2 word ps2 U2 St DG C2 NE P2) as F2. rewrite <- SU in F2.
    exact (first_rule_det _ _ _ _ (rules_same_uk M1 M2 word _ T H) F1 F2).
Qed.
Lemma twins_shorter : forall M1 M2, twins M1 M2 -> forall n word, length (u_lower (m_uni M1) word) <= n -> shorter_alike M1 M2 (u_lower (m_uni M1) word).
Proof.
  intros M1 M2 T. induction n as [|n IH]; intros word Ln a w c E N Lw; [lia|]. pose proof (tw_stable _ _ T word a w c E) as Ew. apply twins_step; [exact T|rewrite Ew; exact N|]. apply IH. rewrite Ew. lia.
Qed.
Lemma twins_alike : forall M1 M2 word, twins M1 M2 -> u_lower (m_uni M1) word <> [] -> alike_at M1 M2 word.
Proof. intros M1 M2 word T NE. apply twins_step; [exact T|exact NE|]. exact (twins_shorter M1 M2 T _ word (le_n _)). Qed.
Lemma twins_tags : forall M1 M2 word ts1 ts2, twins M1 M2 -> u_lower (m_uni M1) word <> [] -> morph_tag M1 word = Ok ts1 -> morph_tag M2 word = Ok ts2 -> same_tags ts1 ts2.
Proof.
  intros M1 M2 word ts1 ts2 T NE Q1 Q2. destruct (twins_shipped M1 M2 T) as [U1 U2]. destruct (tw_t1 _ _ T word) as ((ps1 & P1) & _), (tw_t2 _ _ T word) as ((ps2 & P2) & _).
  pose proof (twins_alike M1 M2 word T NE ps1 ps2 P1 P2) as A. intros g.
  rewrite <- (shipped_agree (fuel_for M1 word) M1 word ps1 ts1 U1 (tw_c1 _ _ T) P1 Q1 g), <- (shipped_agree (fuel_for M2 word) M2 word ps2 ts2 U2 (tw_c2 _ _ T) P2 Q2 g).
  split; intros X; apply in_map_iff in X as (t & <- & X); apply in_map_iff in X as (p & <- & I).
  - destruct (proj1 (A (p_word p) (t_gr (p_tag p)))) as (q & J & _ & G); [exists p; auto|]. rewrite <- G. apply in_map, in_map. exact J.
  - destruct (proj2 (A (p_word p) (t_gr (p_tag p)))) as (q & J & _ & G); [exists p; auto|]. rewrite <- G. apply in_map, in_map. exact J.
Qed.
Lemma order_irrelevant : forall o src1 links1 lxs1 x1 M1 src2 links2 lxs2 x2 M2,
  join_lexemes src1 links1 = Ok lxs1 -> compile_parsed_dict o src1 links1 = Ok x1 -> loaded x1 (m_dict M1) -> tags_read (m_dict M1) ->
  join_lexemes src2 links2 = Ok lxs2 -> compile_parsed_dict o src2 links2 = Ok x2 -> loaded x2 (m_dict M2) -> tags_read (m_dict M2) -> Permutation lxs1 lxs2 ->
  same_language M1 M2 -> m_uni M1 = m_uni M2 -> m_subst M1 = m_subst M2 -> lower_stable (m_uni M1) -> digits_ok (m_uni M1) -> answers_all M1 -> answers_all M2 ->
  forall word, u_lower (m_uni M1) word <> [] ->
  (forall ps1 ps2, morph_parse M1 word = Ok ps1 -> morph_parse M2 word = Ok ps2 -> forall w g, analysed ps1 w g <-> analysed ps2 w g) /\
  (forall ts1 ts2, morph_tag M1 word = Ok ts1 -> morph_tag M2 word = Ok ts2 -> same_tags ts1 ts2).
Proof.
  intros o src1 links1 lxs1 x1 M1 src2 links2 lxs2 x2 M2 J1 H1 L1 R1 J2 H2 L2 R2 PM SL SU SS St DG T1 T2 word NE.
  assert (T : twins M1 M2).
  { constructor; try assumption; [exact (permuted_content _ _ _ _ _ _ _ _ _ _ _ J1 H1 L1 R1 J2 H2 L2 R2 PM)| |].
    - destruct (parsed_wf _ _ _ _ _ _ J1 H1 L1) as (_ & _ & _ & _ & X & _). exact X.
    - destruct (parsed_wf _ _ _ _ _ _ J2 H2 L2) as (_ & _ & _ & _ & X & _). exact X. }
  split; [intros ps1 ps2 P1 P2; exact (twins_alike M1 M2 word T NE ps1 ps2 P1 P2)|intros ts1 ts2; exact (twins_tags M1 M2 word ts1 ts2 T NE)].
Qed.
