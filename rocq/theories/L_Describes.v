(** * Lemmas for C99: the methods stack describes the reading *)
From Coq Require Import String List NArith ZArith Bool QArith Lia.
From Verif Require Import Py Uni Tagset Dawg Utils Shapes Dict Units Analyzer ConfigRu ConfigUk Compile Spec Spec2 Spec3 Spec14 Spec44 Spec46.
From Verif Require Import L_Base L_Made L_Run L_Parse L_ByUnit L_Units L_Words.
Import ListNotations.
Local Open Scope nat_scope.
Local Open Scope list_scope.

Lemma made_ends : forall recP recT M i b word lower p, made recP recT M i b word lower p -> exists l m, p_stack p = l ++ [m] /\ m_unit m = Root i.
Proof.
  intros recP recT M i b word lower p H. destruct H as [p C D|? ? ? ? t C I J|? t C S|? ? w pt ps p C I1 I2 I3 I4 I5 R I|? t C A N|? ? lw rw ls rs l r C S E L R I J U Q|? ? lw rw rs r C S E R I U|? ? ? x r ps p C S R I P|? x r p C S D P|? ? p C L K|t C N].
  - destruct D as (w & vals & para & idx & nf & t & _ & _ & _ & _ & _ & ->). exists [], (MDict (Root i) w para idx). auto.
  - exists [], (MStr (Root i) word). auto.
  - exists [], (MStr (Root i) word). auto.
  - exists (p_stack p), (MStr (Root i) pt). auto.
  - exists [], (MStr (Root i) word). auto.
  - exists [], (MHyphBoth (Root i) (p_stack l) (p_stack r)). auto.
  - exists [], (MHyphFixed (Root i) lw (p_stack r)). auto.
  - exists (p_stack p), (MStr (Root i) x). auto.
  - exists (p_stack p), (MStr (Root i) x). auto.
  - destruct K as (pid & pre & dawg & j & fs & vals & cnt & para & idx & t & nf & total & _ & _ & _ & _ & _ & _ & _ & _ & _ & _ & _ & ->). exists [MDict (Sub i) (slice_to lower (- Z.of_nat j) ++ fs) para idx], (MStr (Root i) fs). auto.
  - exists [], (MStr (Root i) word). auto.
Qed.
Lemma entries_alike : forall M self lower1 lower2 p q, dict_entry M self lower1 p -> dict_entry M self lower2 q -> p_stack p = p_stack q -> same_form p q.
Proof.
  intros M self l1 l2 p q (w & vals & para & idx & nf & t & _ & _ & _ & N & T & ->) (w' & vals' & para' & idx' & nf' & t' & _ & _ & _ & N' & T' & ->) E. cbn [p_stack] in E. injection E as <- <- <-.
  rewrite N in N'. rewrite T in T'. apply Ok_inj in N'. apply Ok_inj in T'. subst. unfold same_form. auto.
Qed.
Lemma guesses_alike : forall M self sub mult1 mult2 lower1 lower2 p q, ks_entry M self sub mult1 lower1 p -> ks_entry M self sub mult2 lower2 q -> p_stack p = p_stack q -> same_form p q.
Proof.
  intros M self sub m1 m2 l1 l2 p q (pid & pre & dawg & j & fs & vals & cnt & para & idx & t & nf & total & _ & _ & _ & _ & _ & _ & _ & T & _ & N & _ & ->)
    (pid' & pre' & dawg' & j' & fs' & vals' & cnt' & para' & idx' & t' & nf' & total' & _ & _ & _ & _ & _ & _ & _ & T' & _ & N' & _ & ->) E. cbn [p_stack] in E. injection E as E <- <- _.
  rewrite E in N. rewrite N in N'. rewrite T in T'. apply Ok_inj in N'. apply Ok_inj in T'. subst. unfold same_form. cbn [p_word p_tag p_nf]. auto.
Qed.
Section two.
Variables (recP1 recP2 : str -> res (list parse)) (recT1 recT2 : str -> res (list tag)) (M : morph) (word1 word2 : str).
Let lower1 := u_lower (m_uni M) word1.
Let lower2 := u_lower (m_uni M) word2.
Hypothesis REC : forall a w1 c ps1 w2 ps2 p q, lower1 = a ++ w1 ++ c -> recP1 w1 = Ok ps1 -> recP2 w2 = Ok ps2 -> In p ps1 -> In q ps2 -> p_stack p = p_stack q -> same_form p q.
Lemma made_alike : forall i b p q, (forall first letters pat sc, b_cfg b = UInit first letters pat sc -> ~ In word1 letters) ->
  made recP1 recT1 M i b word1 lower1 p -> made recP2 recT2 M i b word2 lower2 q -> p_stack p = p_stack q -> same_form p q.
Proof.
  intros i b p q NI H K E.
  destruct H as [p C D|? ? ? ? t C I J|? t C SH|? ? w pt ps p C I1 I2 I3 I4 I5 R I|? t C A N|? ? lw rw ls rs l r C SH SP L R I J U Q|? ? lw rw rs r C SH SP R I U|? ? ? x r ps p C SH R I P|? x r p C SH D P|? ? p C L G|t C N];
  destruct K as [q C' D'|? ? ? ? t' C' I' J'|? t' C' SH'|? ? w' pt' ps' q C' I1' I2' I3' I4' I5' R' I'|? t' C' A' N'|? ? lw' rw' ls' rs' l' r' C' SH' SP' L' R' I' J' U' Q'|? ? lw' rw' rs' r' C' SH' SP' R' I' U'|? ? ? x' r' ps' q C' SH' R' I' P'|? x' r' q C' SH' D' P'|? ? q C' L' G'|t' C' N'];
  try (exfalso; clear - C C'; repeat match goal with X : _ \/ _ |- _ => destruct X as [X|X] end; rewrite C in C'; discriminate C'); unfold both_parse, fixed_left_parse, prefixed, suffixed in *; cbn [p_stack] in E.
  - exact (entries_alike _ _ _ _ _ _ D D' E).
  - exfalso. exact (NI _ _ _ _ C I).
  - injection E as E. rewrite <- E in SH'. rewrite SH in SH'. apply Ok_inj in SH'. injection SH' as <-. unfold same_form. cbn [p_word p_tag p_nf]. unfold lower1, lower2. rewrite E. auto.
  - apply app_inj_tail in E as [E E2]. injection E2 as <-. destruct (split_particle _ _ _ I3 I4 I5) as [X _]. destruct (REC [] w pt ps w' ps' p q X R R' I I' E) as (A1 & A2 & A3). unfold same_form. cbn [p_word p_tag p_nf]. rewrite A1, A2, A3. auto.
  - injection E as E. rewrite N in N'. injection N' as <-. unfold same_form. cbn [p_word p_tag p_nf]. unfold lower1, lower2. rewrite E. auto.
  - injection E as E1 E2. apply split_once_spec in SP as [SP _]. destruct (REC [] lw (HY :: rw) ls lw' ls' l l' SP L L' I I' E1) as (A1 & A2 & A3).
    assert (X : lower1 = (lw ++ [HY]) ++ rw ++ []) by (rewrite app_nil_r, <- app_assoc; exact SP). destruct (REC _ rw _ rs rw' rs' r r' X R R' J J' E2) as (B1 & B2 & B3). unfold same_form. cbn [p_word p_tag p_nf]. rewrite A1, A2, A3, B1, B3. auto.
  - discriminate E.
  - discriminate E.
  - injection E as <- E. apply split_once_spec in SP as [SP _]. assert (X : lower1 = (lw ++ [HY]) ++ rw ++ []) by (rewrite app_nil_r, <- app_assoc; exact SP).
    destruct (REC _ rw _ rs rw' rs' r r' X R R' I I' E) as (B1 & B2 & B3). unfold same_form. cbn [p_word p_tag p_nf]. rewrite B1, B2, B3. auto.
  - apply app_inj_tail in E as [E E2]. injection E2 as <-. apply kp_splits_In in SH as (_ & X & _). assert (Y : lower1 = x ++ r ++ []) by (rewrite app_nil_r; exact X).
    destruct (REC x r [] ps r' ps' p q Y R R' I I' E) as (A1 & A2 & A3). unfold same_form. cbn [p_word p_tag p_nf]. rewrite A1, A2, A3. auto.
  - apply app_inj_tail in E as [E E2]. injection E2 as <-. destruct (entries_alike _ _ _ _ _ _ D D' E) as (A1 & A2 & A3). unfold same_form. cbn [p_word p_tag p_nf]. rewrite A1, A2, A3. auto.
  - exact (guesses_alike _ _ _ _ _ _ _ _ _ G G' E).
  - injection E as E. rewrite N in N'. injection N' as <-. unfold same_form. cbn [p_word p_tag p_nf]. unfold lower1, lower2. rewrite E. auto.
Qed.
End two.
Lemma stack_tells : forall M, lower_stable (m_uni M) -> initials_upper M -> forall f g word1 word2 ps qs p q, not_initial M word1 -> parse_f f M word1 = Ok ps -> parse_f g M word2 = Ok qs -> In p ps -> In q qs -> p_stack p = p_stack q -> same_form p q.
Proof.
  intros M LS IU. induction f as [|f IH]; intros g word1 word2 ps qs p q NI H K I J E; [discriminate H|]. destruct g as [|g]; [discriminate K|].
  destruct (parse_f_made _ _ _ _ _ H I) as (i & b & tm & p0 & s & NB & MP & ->). destruct (parse_f_made _ _ _ _ _ K J) as (j & b' & tm' & q0 & s' & NB' & MQ & ->). cbn [with_score p_stack] in E.
  assert (X : j = i).
  { destruct (made_ends _ _ _ _ _ _ _ _ MP) as (l & m & E1 & E2). destruct (made_ends _ _ _ _ _ _ _ _ MQ) as (l' & m' & E3 & E4). rewrite E1, E3 in E. apply app_inj_tail in E as [_ E]. subst m'. rewrite E2 in E4. injection E4 as E4. auto. }
  subst j. rewrite NB in NB'. injection NB' as <- <-. change (same_form p0 q0). refine (made_alike _ _ _ _ M word1 word2 _ i b p0 q0 _ MP MQ E).
  - intros a w1 c ps1 w2 ps2 x y L R1 R2 I1 I2. refine (IH g w1 w2 ps1 ps2 x y _ R1 R2 I1 I2). intros b' tm' first letters pat sc IB C IL. apply (IU b' tm' first letters pat sc w1 IB C IL). exact (LS word1 a w1 c L).
  - intros first letters pat sc C. exact (NI b tm first letters pat sc (nth_error_In _ _ NB) C).
Qed.
