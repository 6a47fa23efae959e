(** * Lemmas for C96: no tag of a word outside the dictionary is listed twice *)
From Coq Require Import String List NArith ZArith Bool QArith Lia Permutation.
From Verif Require Import Py Uni Tagset Dawg Utils Shapes Dict Units Analyzer ConfigRu ConfigUk Spec Spec2 Spec14 Spec15 Spec34 Spec35 Spec36 Spec38 Spec41 Spec43.
From Verif Require Import L_Base L_Run L_Parse L_Prob L_ByUnit L_ShapeU L_Units L_Known L_Adverb L_Words L_Stages L_Every L_Twice.
Import ListNotations.
Local Open Scope nat_scope.
Local Open Scope list_scope.

Definition tkept (ts seen : list tag) : Prop := NoDup (map t_gr ts) /\ incl ts seen.
Lemma tkept_none : forall seen, tkept [] seen. Proof. intros seen. split; [constructor|intros x []]. Qed.
Lemma tkept_add : forall ts seen t, tkept ts seen -> tag_mem t seen = false -> tkept (ts ++ [t]) (t :: seen).
Proof.
  intros ts seen t [N I] F. split.
  - rewrite map_app. apply NoDup_snoc; [exact N|]. intros X. apply in_map_iff in X as (t' & E & X). apply I in X.
    assert (Y : tag_mem t seen = true) by (apply tag_mem_iff; exists t'; auto). congruence.
  - intros x X. apply in_app_iff in X as [X|[<-|[]]]; [right; exact (I x X)|left; reflexivity].
Qed.
Lemma adds_tkept : forall l ks0 res seen res' seen', fold_left add_tag_if_not_seen l (res, seen) = (res', seen') -> tkept (ks0 ++ res) seen -> tkept (ks0 ++ res') seen'.
Proof.
  induction l as [|t l IH]; intros ks0 res seen res' seen' H T; cbn [fold_left] in H; [injection H as <- <-; exact T|].
  unfold add_tag_if_not_seen at 2 in H. destruct (tag_mem t seen) eqn:E; apply (IH ks0) in H; try exact H; [exact T|]. rewrite app_assoc. apply tkept_add; [exact T|exact E].
Qed.
Lemma splits_tkept : forall (rec : str -> res (list tag)) splits ks0 seen ts seen',
  foldM (fun st (pr : str * str) => let* qs := rec (snd pr) in Ok (tags_step st qs)) ([], seen) splits = Ok (ts, seen') -> tkept ks0 seen -> tkept (ks0 ++ ts) seen'.
Proof.
  intros rec splits ks0 seen ts seen' H T.
  apply (foldM_inv (fun st : list tag * list tag => tkept (ks0 ++ fst st) (snd st))) in H; [exact H|cbn [fst snd]; rewrite app_nil_r; exact T|].
  intros [res s] x [res' s'] _ T1 E. apply bind_ok in E as (qs & _ & E). apply Ok_inj in E. unfold tags_step in E. exact (adds_tkept _ _ _ _ _ _ E T1).
Qed.
Definition kept_st (ks0 : list tag) (st : kstst) : Prop := tkept (ks0 ++ map snd (kt_res st)) (kt_seen st).
Lemma kst_step_kept : forall M st v st' ks0, kst_step M st v = Ok st' -> kept_st ks0 st -> kept_st ks0 st'.
Proof.
  intros M st [[cnt para] idx] st' ks0 H T. unfold kst_step in H. apply bind_ok in H as (t & _ & H). destruct (negb (is_productive t)); [apply Ok_inj in H; subst; exact T|].
  destruct (tag_mem _ _) eqn:E; apply Ok_inj in H; subst st'; unfold kept_st in *; cbn [kt_res kt_seen]; [exact T|]. rewrite map_app, app_assoc. cbn [map snd]. apply tkept_add; [exact T|exact E].
Qed.
Lemma kst_lengths_kept : forall M dawg lower ks0 is st st', kst_lengths M dawg lower st is = Ok st' -> kept_st ks0 st -> kept_st ks0 st'.
Proof.
  induction is as [|i is IH]; intros st st' H T; cbn [kst_lengths] in H; [apply Ok_inj in H; subst; exact T|]. apply bind_ok in H as (s1 & E1 & E2).
  assert (T1 : kept_st ks0 s1).
  { unfold kst_at in E1. apply (foldM_inv (kept_st ks0)) in E1; [exact E1|exact T|]. intros s [sfx vals] s' _ Ts E. apply (foldM_inv (kept_st ks0)) in E; [exact E|exact Ts|]. intros a x b _ Ta X. exact (kst_step_kept _ _ _ _ _ X Ta). }
  destruct (kt_found s1); [apply Ok_inj in E2; subst; exact T1|exact (IH _ _ E2 T1)].
Qed.
Lemma ks_tag_kept : forall M minlen word lower seen ts seen' ks0, ks_tag M minlen word lower seen = Ok (ts, seen') -> tkept ks0 seen -> tkept (ks0 ++ ts) seen'.
Proof.
  intros M minlen word lower seen ts seen' ks0 H T. unfold ks_tag in H. destruct (length word <? minlen); [apply Ok_inj in H; injection H as <- <-; rewrite app_nil_r; exact T|].
  apply bind_ok in H as (st & E & H). apply Ok_inj in H. injection H as <- <-.
  apply (foldM_inv (kept_st ks0)) in E; [|unfold kept_st; cbn [kt_res kt_seen map]; rewrite app_nil_r; exact T|intros a ip b _ Ta X; unfold kst_prefix in X; apply bind_ok in X as (dawg & _ & X); exact (kst_lengths_kept _ _ _ _ _ _ _ X Ta)].
  pose proof (sort_desc_perm cnt_tag_geb (kt_res st)) as P. destruct E as [N I]. split.
  - apply (Permutation_NoDup (l := map t_gr (ks0 ++ map snd (kt_res st)))); [|exact N]. apply Permutation_map, Permutation_app_head, Permutation_map, P.
  - intros x X. apply I. apply in_app_iff in X as [X|X]; apply in_app_iff; [left; exact X|right; apply (Permutation_in _ (Permutation_sym (Permutation_map snd P)) X)].
Qed.
(** ** the units *)
Section run.
Variables (recP : str -> res (list parse)) (recT : str -> res (list tag)) (M : morph) (word : str).
Let lower := u_lower (m_uni M) word.
Definition tonce (b : bunit) : Prop := forall i seen ts s, unit_tag recP recT M i b word lower seen = Ok (ts, s) -> NoDup (map t_gr ts).
Definition tquiet (b : bunit) : Prop := forall i seen ts s, unit_tag recP recT M i b word lower seen = Ok (ts, s) -> ts = [].
Lemma terminal_tonce : forall i b us seen r, tonce b -> run_tag recP recT M word lower i ((b, true) :: us) [] seen = Ok r ->
  (forall s, run_tag recP recT M word lower (S i) us [] s = Ok r -> NoDup (map t_gr r)) -> NoDup (map t_gr r).
Proof.
  intros i b us seen r O H K. cbn [run_tag] in H. apply bind_ok in H as ([ps s] & U & H). apply O in U. cbn [app andb] in H. destruct ps as [|p ps]; [exact (K s H)|]. apply Ok_inj in H. subst r. exact U.
Qed.
Lemma tquiet_next : forall i b tm us seen r, tquiet b -> run_tag recP recT M word lower i ((b, tm) :: us) [] seen = Ok r -> exists s, run_tag recP recT M word lower (S i) us [] s = Ok r.
Proof.
  intros i b tm us seen r Q H. cbn [run_tag] in H. apply bind_ok in H as ([ps s] & U & H). apply Q in U. subst ps. exists s. cbn [app] in H. rewrite andb_false_r in H. exact H.
Qed.
Lemma few_tonce : forall b, (forall i seen ts s, unit_tag recP recT M i b word lower seen = Ok (ts, s) -> length ts <= 1) -> tonce b.
Proof. intros b F i seen ps s H. apply F in H. destruct ps as [|p [|q ps]]; cbn [map]; [constructor|repeat constructor; intros []|cbn in H; lia]. Qed.
Lemma shape_tfew : forall U b w ts, shape_tags U b w = Ok ts -> length ts <= 1.
Proof. intros U b w ts H. unfold shape_tags in H. apply bind_ok in H as ([t|] & _ & H); apply Ok_inj in H; subst ts; cbn; lia. Qed.
Lemma shape_tonce : forall b score, b_cfg b = UNumber score \/ b_cfg b = UPunct score -> tonce b.
Proof.
  intros b score C. apply few_tonce. intros i seen ps s H. unfold unit_tag in H. destruct C as [C|C]; rewrite C in H; apply bind_ok in H as (qs & E & H); apply Ok_inj in H; injection H as -> <-; exact (shape_tfew _ _ _ _ E).
Qed.
Lemma adverb_tonce : forall b mult, b_cfg b = UHAdverb mult -> tonce b.
Proof.
  intros b mult C. apply few_tonce. intros i seen ps s H. unfold unit_tag in H. rewrite C in H. apply bind_ok in H as ([] & _ & H); cbn [negb] in H; [apply bind_ok in H as (t & _ & H); destruct (tag_mem t seen)|]; apply Ok_inj in H; injection H as <- _; cbn; lia.
Qed.
Lemma unkn_tonce : forall b, b_cfg b = UUnkn -> tonce b.
Proof.
  intros b C. apply few_tonce. intros i seen ps s H. unfold unit_tag in H. rewrite C in H. destruct seen as [|k seen]; [apply bind_ok in H as (t & _ & H)|]; apply Ok_inj in H; injection H as <- _; cbn; lia.
Qed.
Lemma particle_tquiet : forall b particles mult, b_cfg b = UParticle particles mult -> ~ In [] particles -> no_particle particles lower -> tquiet b.
Proof.
  intros b particles mult C N NP i seen ps s H. unfold unit_tag in H. rewrite C in H. unfold particle_tag in H. destruct (particle_splits particles lower) as [|[w pt] l] eqn:E; [apply Ok_inj in H; injection H as <- _; reflexivity|].
  assert (X : In (w, pt) (particle_splits particles lower)) by (rewrite E; left; reflexivity). apply (particle_splits_iff _ _ _ _ N) in X as (X1 & _ & X2 & X3). exfalso. exact (X3 (NP w pt X1 X2)).
Qed.
Lemma hyph_tonce : forall b prefixes mult, b_cfg b = UHyph prefixes mult -> tonce b.
Proof.
  intros b prefixes mult C i seen ps s H. unfold unit_tag in H. rewrite C in H. unfold default_tag in H. apply bind_ok in H as (pr & _ & H). apply Ok_inj in H.
  apply (adds_tkept _ []) in H; [|apply tkept_none]. exact (proj1 H).
Qed.
Lemma kp_tonce : forall b prefixes mult minrem, b_cfg b = UKnownPrefix prefixes mult minrem -> tonce b.
Proof.
  intros b prefixes mult minrem C i seen ps s H. unfold unit_tag in H. rewrite C in H. unfold kp_tag in H. apply (splits_tkept _ _ []) in H; [|apply tkept_none]. exact (proj1 H).
Qed.
Lemma dict_tquiet : forall b, b_cfg b = UDict -> word_is_known M word false = false -> tquiet b.
Proof.
  intros b C K i seen ps s H. unfold unit_tag in H. rewrite C in H. unfold dict_tag, lower in H.
  assert (E : similar_item_values (d_words (m_dict M)) (m_subst M) (u_lower (m_uni M) word) = []) by (unfold similar_item_values; rewrite (L_Adverb.unknown_items _ _ K); reflexivity).
  rewrite E in H. cbn [mapM rmap bind concat] in H. apply Ok_inj in H. injection H as <- _. reflexivity.
Qed.
Lemma init_tquiet : forall b first letters pat sc, b_cfg b = UInit first letters pat sc -> ~ In word letters -> tquiet b.
Proof.
  intros b first letters pat sc C N i seen ps s H. unfold unit_tag in H. rewrite C in H. destruct (smem word letters) eqn:S; [apply smem_In in S; contradiction|]. apply Ok_inj in H. injection H as <- _. reflexivity.
Qed.
Lemma roman_latin_tags : forall i ro la s1 s2 us seen r, initialised ro -> initialised la -> b_cfg ro = URoman s1 -> b_cfg la = ULatin s2 -> run_tag recP recT M word lower i ((ro, false) :: (la, true) :: us) [] seen = Ok r ->
  (forall s, run_tag recP recT M word lower (S (S i)) us [] s = Ok r -> NoDup (map t_gr r)) -> NoDup (map t_gr r).
Proof.
  intros i ro la s1 s2 us seen r (B1 & B1' & I1) (B2 & B2' & I2) C1 C2 H K. cbn [run_tag] in H. apply bind_ok in H as ([p1 k1] & U1 & H). cbn [app andb] in H. apply bind_ok in H as ([p2 k2] & U2 & H).
  unfold unit_tag in U1, U2. rewrite C1 in U1. rewrite C2 in U2. apply bind_ok in U1 as (q1 & U1 & X). apply Ok_inj in X. injection X as -> <-. apply bind_ok in U2 as (q2 & U2 & X). apply Ok_inj in X. injection X as -> <-.
  rewrite C1 in I1. rewrite C2 in I2. apply single_tags in I1 as (t1 & T1 & G1). apply single_tags in I2 as (t2 & T2 & G2). unfold shape_tags, shape_tag in U1, U2. rewrite C1, T1 in U1. rewrite C2, T2 in U2.
  assert (N : NoDup (map t_gr (p1 ++ p2))).
  { destruct (is_latin (m_uni M) word) as [lt|]; [|discriminate U2]. cbn [bind] in U2. destruct (is_roman_number word), lt; apply Ok_inj in U1; apply Ok_inj in U2; subst p1 p2; cbn [app map]; repeat constructor; cbn [In]; try tauto.
    rewrite G1, G2. intros [X|[]]. injection X as X. discriminate X. }
  cbn [andb] in H. destruct (p1 ++ p2) as [|p ps]; [exact (K _ H)|]. apply Ok_inj in H. subst r. exact N.
Qed.
Lemma last_tags : forall i b2 b3 b4 m2 m3 k seen r, b_cfg b2 = UUnknownPrefix m2 -> b_cfg b3 = UKnownSuffix m3 k -> b_cfg b4 = UUnkn ->
  run_tag recP recT M word lower i [(b2, false); (b3, true); (b4, true)] [] seen = Ok r -> NoDup (map t_gr r).
Proof.
  intros i b2 b3 b4 m2 m3 k seen r C2 C3 C4 H. cbn [run_tag] in H. apply bind_ok in H as ([p2 s2] & U2 & H). cbn [app andb] in H. apply bind_ok in H as ([p3 s3] & U3 & H). cbn [andb] in H.
  unfold unit_tag in U2, U3. rewrite C2 in U2. rewrite C3 in U3. unfold up_tag in U2. apply (splits_tkept _ _ []) in U2; [|apply tkept_none]. cbn [app] in U2. apply (ks_tag_kept _ _ _ _ _ _ _ p2) in U3; [|exact U2].
  destruct (p2 ++ p3) as [|p ps] eqn:E; [|apply Ok_inj in H; subst r; exact (proj1 U3)].
  apply bind_ok in H as ([p4 s4] & U4 & H). apply (unkn_tonce b4 C4) in U4. destruct p4 as [|p p4]; cbn [app andb] in H; apply Ok_inj in H; subst r; exact U4.
Qed.
Lemma tags_ru : forall r, has_units M RU_DEFAULT_UNITS -> word_is_known M word false = false -> ~ In word RU_INITIAL_LETTERS -> no_particle RU_PARTICLES lower ->
  run_tag recP recT M word lower 0 (m_units M) [] [] = Ok r -> NoDup (map t_gr r).
Proof.
  intros r HU WK NI NP H. destruct (heads_ru M HU) as (d & n & p & nu & pu & ro & la & a1 & a2 & a3 & b1 & b2 & b3 & b4 & Eu & IB & (D1 & D2 & D3 & D4 & D5 & D6 & D7) & A1 & A2 & A3 & C1 & C2 & C3 & C4).
  repeat match goal with K : Forall _ (_ :: _) |- _ => apply Forall_cons_iff in K as [? K] end. rewrite Eu in H. cbn [marked app] in H.
  apply tquiet_next in H as (s1 & H); [|exact (dict_tquiet d D1 WK)]. apply tquiet_next in H as (s2 & H); [|exact (init_tquiet n _ _ _ _ D2 NI)]. apply tquiet_next in H as (s3 & H); [|exact (init_tquiet p _ _ _ _ D3 NI)].
  eapply terminal_tonce; [|exact H|]; [eapply shape_tonce; left; exact D4|]. clear H. intros s4 H. eapply terminal_tonce; [|exact H|]; [eapply shape_tonce; right; exact D5|]. clear H. intros s5 H.
  eapply roman_latin_tags; [| | | |exact H|]; [assumption|assumption|exact D6|exact D7|]. clear H. intros s6 H.
  apply tquiet_next in H as (s7 & H); [|exact (particle_tquiet a1 _ _ A1 particles_nonempty NP)]. eapply terminal_tonce; [|exact H|]; [eapply adverb_tonce; exact A2|]. clear H. intros s8 H.
  eapply terminal_tonce; [|exact H|]; [eapply hyph_tonce; exact A3|]. clear H. intros s9 H. eapply terminal_tonce; [|exact H|]; [eapply kp_tonce; exact C1|]. clear H. intros s10 H.
  exact (last_tags _ _ _ _ _ _ _ _ _ C2 C3 C4 H).
Qed.
Lemma tags_uk : forall r, has_units M UK_DEFAULT_UNITS -> word_is_known M word false = false -> ~ In word UK_INITIAL_LETTERS -> no_particle UK_PARTICLES lower ->
  run_tag recP recT M word lower 0 (m_units M) [] [] = Ok r -> NoDup (map t_gr r).
Proof.
  intros r HU WK NI NP H. destruct (heads_uk M HU) as (d & n & p & nu & pu & ro & la & a1 & a3 & b1 & b2 & b3 & b4 & Eu & IB & (D1 & D2 & D3 & D4 & D5 & D6 & D7) & A1 & A3 & C1 & C2 & C3 & C4).
  repeat match goal with K : Forall _ (_ :: _) |- _ => apply Forall_cons_iff in K as [? K] end. rewrite Eu in H. cbn [marked app] in H.
  apply tquiet_next in H as (s1 & H); [|exact (dict_tquiet d D1 WK)]. apply tquiet_next in H as (s2 & H); [|exact (init_tquiet n _ _ _ _ D2 NI)]. apply tquiet_next in H as (s3 & H); [|exact (init_tquiet p _ _ _ _ D3 NI)].
  eapply roman_latin_tags; [| | | |exact H|]; [assumption|assumption|exact D6|exact D7|]. clear H. intros s6 H.
  eapply terminal_tonce; [|exact H|]; [eapply shape_tonce; left; exact D4|]. clear H. intros s4 H. eapply terminal_tonce; [|exact H|]; [eapply shape_tonce; right; exact D5|]. clear H. intros s5 H.
  apply tquiet_next in H as (s7 & H); [|exact (particle_tquiet a1 _ _ A1 uk_part NP)].
  eapply terminal_tonce; [|exact H|]; [eapply hyph_tonce; exact A3|]. clear H. intros s9 H. eapply terminal_tonce; [|exact H|]; [eapply kp_tonce; exact C1|]. clear H. intros s10 H.
  exact (last_tags _ _ _ _ _ _ _ _ _ C2 C3 C4 H).
Qed.
End run.
Lemma tags_once : forall M letters particles prefixes word ts, shipped M letters particles prefixes -> word_is_known M word false = false -> ~ In word letters -> no_particle particles (u_lower (m_uni M) word) ->
  morph_tag M word = Ok ts -> NoDup (map t_gr ts).
Proof.
  intros M letters particles prefixes word ts SH WK NI NP H. unfold morph_tag, fuel_for, tag_f in H. cbn [analyze fst snd] in H. apply bind_ok in H as (r & E & H).
  assert (N : NoDup (map t_gr r)). { destruct SH as [(HU & -> & -> & ->)|(HU & -> & -> & ->)]; [exact (tags_ru _ _ M word r HU WK NI NP E)|exact (tags_uk _ _ M word r HU WK NI NP E)]. }
  destruct (m_prob M) as [d|]; [|apply Ok_inj in H; subst ts; exact N]. apply Ok_inj in H. subst ts. unfold apply_to_tags.
  refine (Permutation_NoDup (Permutation_map t_gr _) N). apply sort_desc_perm.
Qed.
