(** * The parses returned by parse() have coherent lexemes (C10-C13) *)
From Coq Require Import String List NArith ZArith Bool QArith Lia.
From Verif Require Import Py Uni Tagset Dawg Utils Shapes Dict Units Analyzer ConfigRu ConfigUk Spec.
From Verif Require Import L_Base L_Run L_Made L_Words L_Config L_Total L_Para L_Groups L_Units L_Lexeme.
Import ListNotations.
Local Open Scope nat_scope.
Local Open Scope list_scope.

Lemma simple_fixed : forall D r l ms, simple_method D (MHyphFixed r l ms) <-> simple_stack D ms.
Proof.
  intros D r l ms. simpl. unfold simple_stack. induction ms as [|x ms IH]; simpl; [split; [intros _ m []|auto]|].
  rewrite IH. split.
  - intros [A B] m [<-|H]; auto.
  - intros H. split; auto.
Qed.
Lemma simple_app : forall D a b, simple_stack D (a ++ b) <-> simple_stack D a /\ simple_stack D b.
Proof.
  intros D a b. unfold simple_stack. split.
  - intro H. split; intros m Hm; apply H, in_app_iff; auto.
  - intros [A B] m Hm. apply in_app_iff in Hm as [?|?]; auto.
Qed.
Lemma entry_form : forall M self lower p, wf_dict (m_dict M) -> consistent_dict (m_dict M) -> dict_entry M self lower p ->
  exists para idx, dict_form (m_dict M) self para idx (p_word p) (p_tag p) (p_nf p) (p_score p) p.
Proof.
  intros M self lower p W C (w & vals & para & idx & nf & t & Hw & Hv & Hi & En & Et & ->). exists para, idx. cbn [p_word p_tag p_nf p_score]. split; [|reflexivity].
  apply sget_In in Hv. destruct (C _ _ _ _ Hv Hi) as (pre & t' & sf & stem & R & Ew).
  destruct (row0 _ _ _ _ _ _ W R) as (pre0 & t0 & sf0 & R0). pose proof (para_row_tag _ _ _ _ _ _ R) as Et'. rewrite Et in Et'. apply Ok_inj in Et'. subst t'.
  exists pre, sf, pre0, t0, sf0, stem. split; auto. split; auto. split; auto. subst w. rewrite (row_nf_app _ _ _ _ _ _ _ _ _ _ R R0) in En. apply Ok_inj in En. auto.
Qed.
Lemma made_good : forall n M i b tm word lower p, wf_dict (m_dict M) -> consistent_dict (m_dict M) ->
  (forall w ps p, parse_f n M w = Ok ps -> In p ps -> simple_stack (m_dict M) (p_stack p) -> exists who, Good M who p) ->
  nth_error (m_units M) i = Some (b, tm) -> init_ok M b ->
  made (parse_f n M) (tag_f n M) M i b word lower p -> simple_stack (m_dict M) (p_stack p) -> Good M (Root i) p.
Proof.
  intros n M i b tm word lower p W C IH N IO H S. destruct H.
  - destruct (entry_form _ _ _ _ W C H0) as (para & idx & D). eapply G_dict; eauto.
  - eapply G_init; eauto.
  - eapply G_shape; eauto. destruct H as [H|[H|[H|H]]]; rewrite H; exact I.
  - change (suffixed (Root i) mult particle p) with (append_method (with_suffix (with_score p (p_score p * mult)%Q) particle) (MStr (Root i) particle)).
    cbn [suffixed p_stack] in S. apply simple_app in S as [S _]. destruct (IH _ _ _ H5 H6 S) as (who & G).
    eapply G_particle; eauto.
    + intros ->. apply H2. rewrite <- H3. exact (slice_to_0 lower).
    + apply good_score; eauto.
  - eapply G_shape; eauto. rewrite H; exact I.
  - destruct (S _ (or_introl eq_refl)).
  - cbn [fixed_left_parse p_stack] in S. specialize (S _ (or_introl eq_refl)). apply simple_fixed in S. destruct (IH _ _ _ H2 H3 S) as (who & G).
    assert (E : fixed_left_parse (Root i) mult lw r = replace_methods_stack (with_prefix (with_score r (p_score r * mult)%Q) (lw ++ [HY])) [MHyphFixed (Root i) lw (p_stack (with_score r (p_score r * mult)%Q))]).
    { unfold fixed_left_parse, replace_methods_stack, with_prefix, with_score, hyphen_join. cbn [p_word p_tag p_nf p_score p_stack]. rewrite <- !app_assoc. reflexivity. }
    rewrite E. eapply G_fixed; eauto. apply good_score; eauto.
  - change (prefixed (Root i) mult prefix p) with (append_method (with_prefix (with_score p (p_score p * mult)%Q) prefix) (MStr (Root i) prefix)).
    cbn [prefixed p_stack] in S. apply simple_app in S as [S _]. destruct (IH _ _ _ H1 H2 S) as (who & G).
    eapply G_prefix; eauto. + rewrite H; exact I. + apply good_score; eauto.
  - change (prefixed (Root i) mult prefix p) with (append_method (with_prefix (with_score p (p_score p * mult)%Q) prefix) (MStr (Root i) prefix)).
    destruct (entry_form _ _ _ _ W C H1) as (para & idx & D).
    eapply G_prefix; eauto. + rewrite H; exact I. + apply good_score. eapply G_sub; eauto.
  - destruct H1 as (pid & pre & dawg & j & fs & vals & cnt & para & idx & t & nf & total & A1 & A2 & A3 & A4 & A5 & A6 & A7 & Et & A9 & En & A11 & ->).
    cbn [p_stack] in S. destruct (S _ (or_introl eq_refl)) as (pre1 & t1 & sf1 & stem & R & Ew). set (w := slice_to lower (- Z.of_nat j) ++ fs) in *.
    destruct (row0 _ _ _ _ _ _ W R) as (pre0 & t0 & sf0 & R0). pose proof (para_row_tag _ _ _ _ _ _ R) as Et'. rewrite Et in Et'. apply Ok_inj in Et'. subst t1.
    assert (D : dict_form (m_dict M) (Sub i) para idx w t nf ((Z.of_nat cnt # Pos.of_nat total) * mult)%Q
       (MkParse w t nf ((Z.of_nat cnt # Pos.of_nat total) * mult)%Q [MDict (Sub i) w para idx])).
    { split; [|reflexivity]. exists pre1, sf1, pre0, t0, sf0, stem. split; auto. split; auto. split; auto. rewrite Ew in En. rewrite (row_nf_app _ _ _ _ _ _ _ _ _ _ R R0) in En.
      apply Ok_inj in En. auto. }
    change (Good M (Root i) (append_method (MkParse w t nf ((Z.of_nat cnt # Pos.of_nat total) * mult)%Q [MDict (Sub i) w para idx]) (MStr (Root i) fs))).
    eapply G_ks; eauto. eapply G_sub; eauto.
  - eapply G_shape; eauto. rewrite H; exact I.
Qed.
Lemma parse_good : forall M, wf_dict (m_dict M) -> consistent_dict (m_dict M) ->
  (forall i b tm, nth_error (m_units M) i = Some (b, tm) -> init_ok M b) ->
  forall n word ps p, parse_f n M word = Ok ps -> In p ps -> simple_stack (m_dict M) (p_stack p) -> exists who, Good M who p.
Proof.
  intros M W C IO. induction n as [|n IH]; intros word ps p H Hp S; [discriminate H|].
  destruct (parse_f_made _ _ _ _ _ H Hp) as (i & b & tm & p0 & q & N & Md & ->).
  exists (Root i). apply good_score. eapply made_good; eauto.
Qed.
(** initials of the shipped configurations *)
Lemma shipped_init_ok : forall M i b tm, shipped_units M -> In (u "masc") (tc_known (m_tc M)) ->
  nth_error (m_units M) i = Some (b, tm) -> init_ok M b.
Proof.
  intros M i b tm H K N. unfold init_ok. destruct (b_cfg b) as [|[] letters pat sc| | | | | | | | | | |] eqn:Eb; auto.
  assert (P : pat = name_pattern).
  { pose proof Eb as Eb'. clear K.
    assert (X : exists items C C', init_units C items = Ok (C', m_units M) /\ (items = RU_DEFAULT_UNITS \/ items = UK_DEFAULT_UNITS)).
    { destruct H as [(C & C' & H)|(C & C' & H)]; [exists RU_DEFAULT_UNITS|exists UK_DEFAULT_UNITS]; exists C, C'; auto. }
    destruct X as (items & C & C' & X & I).
    assert (T : In (UInit true letters pat sc) (flat_map (fun it => map fst (with_terminal it)) items)).
    { apply L_Groups.terminal_flags in X as [X _].
      assert (T : In (b_cfg b) (map fst (flat_map with_terminal items))).
      { rewrite <- X, map_map. apply nth_error_In in N. apply in_map_iff. exists (b, tm). auto. }
      rewrite Eb in T. clear - T. induction items as [|it items IHi]; [destruct T|]. cbn [flat_map] in *. rewrite map_app in T.
      apply in_app_iff in T. apply in_app_iff. destruct T as [T|T]; [left|right]; auto. }
    destruct I as [-> | ->]; unfold RU_DEFAULT_UNITS, UK_DEFAULT_UNITS, ru_units, uk_units in T; cbn [flat_map with_terminal map fst removelast last app In] in T;
      repeat (destruct T as [T|T]; [try discriminate T; try (inversion T; reflexivity)|]); destruct T. }
  subst pat. destruct (unit_of_shipped M i b tm H N) as (C & C' & B). rewrite Eb in B.
  destruct (init_unit_tags _ _ _ _ _ _ _ _ eq_refl B) as [T G]. destruct (G eq_refl) as [G1 G2]. rewrite T, G1, G2. clear - K.
  intros t Ht.
  assert (A : forallb (fun t => smem (u "masc") (t_gr t) && negb (smem (u "femn") (t_gr t)) || negb (smem (u "masc") (t_gr t)) && smem (u "femn") (t_gr t)) (tags_of_pattern name_pattern) = true) by (vm_compute; reflexivity).
  rewrite forallb_forall in A.
  assert (KK : grammeme_is_known (m_tc M) (u "masc") = Ok true).
  { unfold grammeme_is_known, assert_initialized. destruct (tc_known (m_tc M)) eqn:Ek; [destruct K|]. cbn [bind].
    rewrite (proj2 (smem_In _ _) K). reflexivity. }
  assert (CT : forall x, contains (m_tc M) (u "masc") x = Ok (smem (u "masc") (t_gr x))).
  { intro x. unfold contains. rewrite KK. destruct (smem (u "masc") (t_gr x)); reflexivity. }
  exists (smem (u "masc") (t_gr t)). split; [apply CT|]. cbv zeta. pose proof (A t Ht) as At.
  destruct (smem (u "masc") (t_gr t)) eqn:Em.
  - split; [apply filter_In; auto|]. intros t' Ht'. apply filter_In in Ht' as [Ht' E']. split; auto. rewrite CT, E'. reflexivity.
  - cbn [andb orb negb] in At. split; [apply filter_In; auto|]. intros t' Ht'. apply filter_In in Ht' as [Ht' E']. split; auto. rewrite CT. f_equal.
    pose proof (A t' Ht') as At'. rewrite E' in At'. destruct (smem (u "masc") (t_gr t')); [discriminate At'|reflexivity].
Qed.

Lemma shipped_lex : forall n M word ps p, shipped_units M -> wf_dict (m_dict M) -> consistent_dict (m_dict M) -> In (u "masc") (tc_known (m_tc M)) ->
  parse_f n M word = Ok ps -> In p ps -> simple_stack (m_dict M) (p_stack p) ->
  exists lex q f0, get_lexeme M p = Ok lex /\ normalized M p = Ok q /\
    (exists f, In f lex /\ reading f = reading p) /\
    (forall f, In f lex -> p_nf f = p_nf p /\ get_lexeme M f = Ok lex) /\
    nth_error lex 0 = Some f0 /\ reading q = reading f0 /\ p_word q = p_nf p /\ normalized M q = Ok q.
Proof.
  intros n M word ps p H W C K P Hp S.
  destruct (parse_good M W C (fun i b tm N => shipped_init_ok M i b tm H K N) n word ps p P Hp S) as (who & G).
  destruct (good_lex_ok M W who p G) as (fam & L & A & B & q & f0 & N & N0 & Rq & Wq & Gq & Sq & Nq).
  exists fam, q, f0. unfold get_lexeme, normalized. rewrite (good_last _ _ _ G). cbn [bind]. rewrite L, N by lia.
  split; [reflexivity|]. split; [reflexivity|]. split; [exact A|]. split.
  - intros f Hf. destruct (B f Hf) as (Gf & Nf & Sf & Lf). split; auto. rewrite (good_last _ _ _ Gf). cbn [bind]. apply Lf. lia.
  - split; auto. split; auto. split; auto. rewrite (good_last _ _ _ Gq). cbn [bind]. apply Nq. lia.
Qed.

(** ** when the stack is simple *)
Lemma no_both_fixed : forall r l ms, no_both (MHyphFixed r l ms) <-> (forall m, In m ms -> no_both m).
Proof.
  intros r l ms. simpl. induction ms as [|x ms IH]; simpl; [split; [intros _ m []|auto]|].
  rewrite IH. split; [intros [A B] m [<-|H]; auto|intros H; split; auto].
Qed.
Lemma items_fixed : forall r l ms, dict_items (MHyphFixed r l ms) = flat_map dict_items ms.
Proof. intros r l ms. simpl. induction ms as [|x ms IH]; simpl; [auto|]. rewrite IH. reflexivity. Qed.
Definition roomy (D : dict) (x : str * nat * nat) : Prop :=
  let '(w, para, idx) := x in forall pre t sf, para_row D para idx pre t sf -> pre = [] \/ length pre + d_maxsuf D <= length w.
Lemma entry_simple : forall M self lower p, consistent_dict (m_dict M) -> dict_entry M self lower p -> simple_stack (m_dict M) (p_stack p).
Proof.
  intros M self lower p C (w & vals & para & idx & nf & t & Hw & Hv & Hi & En & Et & ->) m [<-|[]]. cbn [simple_method].
  apply sget_In in Hv. destruct (C _ _ _ _ Hv Hi) as (pre & t' & sf & stem & R & Ew). exists pre, t', sf, stem. auto.
Qed.
Lemma Forall2_length_eq : forall {A B} (P : A -> B -> Prop) l r, Forall2 P l r -> length l = length r.
Proof. induction 1; simpl; auto. Qed.
Lemma simple_if_roomy : forall M, consistent_dict (m_dict M) -> pred_consistent (m_dict M) ->
  forall n word ps p, parse_f n M word = Ok ps -> In p ps -> (forall m, In m (p_stack p) -> no_both m) ->
    (forall x, In x (flat_map dict_items (p_stack p)) -> roomy (m_dict M) x) -> simple_stack (m_dict M) (p_stack p).
Proof.
  intros M C PC. induction n as [|n IH]; intros word ps p H Hp NB RM; [discriminate H|].
  destruct (parse_f_made _ _ _ _ _ H Hp) as (i & b & tm & p0 & q & N & Md & ->). cbn [with_score p_stack] in *. clear H Hp.
  assert (One : forall r s, simple_stack (m_dict M) [MStr r s]) by (intros r s m [<-|[]]; exact I).
  destruct Md; try exact (One _ _).
  - eapply entry_simple; eauto.
  - cbn [suffixed p_stack] in *. apply simple_app. split; [|apply One]. eapply IH; eauto.
    + intros m Hm. apply NB, in_app_iff; auto.
    + intros x Hx. apply RM. rewrite flat_map_app. apply in_app_iff; auto.
  - destruct (NB _ (or_introl eq_refl)).
  - cbn [fixed_left_parse p_stack] in *. intros m [<-|[]]. apply simple_fixed. specialize (NB _ (or_introl eq_refl)). rewrite no_both_fixed in NB.
    cbn [flat_map] in RM. rewrite items_fixed, app_nil_r in RM. eapply IH; eauto.
  - cbn [prefixed p_stack] in *. apply simple_app. split; [|apply One]. eapply IH; eauto.
    + intros m Hm. apply NB, in_app_iff; auto.
    + intros x Hx. apply RM. rewrite flat_map_app. apply in_app_iff; auto.
  - cbn [prefixed p_stack] in *. apply simple_app. split; [|apply One]. eapply entry_simple; eauto.
  - destruct H1 as (pid & pre & dawg & j & fs & vals & cnt & para & idx & t & nf & total & A1 & A2 & A3 & A4 & A5 & A6 & A7 & Et & A9 & En & A11 & ->).
    cbn [p_stack] in *. intros m [<-|[<-|[]]]; [|exact I]. cbn [simple_method].
    apply sget_In in A6. destruct (PC _ _ _ _ _ _ _ A3 A6 A7) as (pre' & t' & sf & r & E1 & R & Efs).
    rewrite A1 in E1. injection E1 as <-. exists pre, t', sf.
    assert (X : exists rest, slice_to (u_lower (m_uni M) word) (- Z.of_nat j) = pre ++ rest).
    { set (lower := u_lower (m_uni M) word) in *.
      assert (RX : roomy (m_dict M) (slice_to lower (- Z.of_nat j) ++ fs, para, idx)) by (apply RM; left; reflexivity).
      destruct (RX _ _ _ R) as [->|Len]; [eexists; reflexivity|].
      apply variants_spec in A5. apply Forall2_length_eq in A5. rewrite app_length, <- A5 in Len.

      assert (LL : length (slice_to lower (- Z.of_nat j)) + length (slice_from lower (- Z.of_nat j)) = length lower /\
                   length (slice_from lower (- Z.of_nat j)) <= j).
      { rewrite slice_to_neg, slice_from_neg by lia. rewrite firstn_length, skipn_length. lia. }
      apply prefixb_spec in A2 as (rest & E). 
      rewrite slice_to_neg by lia. exists (firstn (length lower - j - length pre) rest). rewrite E at 2. rewrite firstn_app.
      rewrite firstn_all2 by lia. reflexivity. }
    destruct X as (rest & E). rewrite E, Efs. exists (rest ++ r). split; [exact R|]. rewrite <- !app_assoc. reflexivity.
Qed.
