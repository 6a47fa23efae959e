(** * Lemmas for C96: no reading of a word outside the dictionary is listed twice *)
From Coq Require Import String List NArith ZArith Bool QArith Lia Permutation.
From Verif Require Import Py Uni Tagset Dawg Utils Shapes Dict Units Analyzer ConfigRu ConfigUk Spec Spec2 Spec14 Spec15 Spec34 Spec35 Spec36 Spec38 Spec41 Spec43.
From Verif Require Import L_Base L_Run L_Parse L_Prob L_ByUnit L_ShapeU L_Units L_Known L_Adverb L_Words L_Stages L_Every.
Import ListNotations.
Local Open Scope nat_scope.
Local Open Scope list_scope.

(** ** keys *)
Lemma method_eqb_refl : forall m, method_eqb m m = true.
Proof.
  assert (U : forall r, uref_eqb r r = true) by (intros [n|n]; cbn; apply Nat.eqb_refl).
  fix IH 1. intros [r w p i|r s|r l rs|r ls rs]; cbn [method_eqb]; rewrite U; cbn [andb].
  - rewrite str_eqb_refl, !Nat.eqb_refl. reflexivity.
  - apply str_eqb_refl.
  - rewrite str_eqb_refl. cbn [andb]. induction rs as [|m rs IHr]; [reflexivity|]. rewrite IH. cbn [andb]. exact IHr.
  - apply andb_true_iff. split.
    + induction ls as [|m ls IHl]; [reflexivity|]. rewrite IH. cbn [andb]. exact IHl.
    + induction rs as [|m rs IHr]; [reflexivity|]. rewrite IH. cbn [andb]. exact IHr.
Qed.
Lemma methods_eqb_refl : forall l, list_eqb method_eqb l l = true.
Proof. induction l as [|m l IH]; [reflexivity|]. cbn [list_eqb]. rewrite method_eqb_refl. exact IH. Qed.
Lemma para_key_eqb_refl : forall k, para_key_eqb k k = true.
Proof. intros [|n|l]; cbn [para_key_eqb]; [reflexivity|apply Nat.eqb_refl|apply methods_eqb_refl]. Qed.
Definition sid (k : skey) : option (str * sset * para_key) := match k with SKey w t b => Some (w, t_gr t, b) | SFull _ => None end.
Definition as_key (k : skey) : Prop := exists w t b, k = SKey w t b.
Lemma sid_eq : forall k k', as_key k -> sid k' = sid k -> skey_eqb k k' = true.
Proof.
  intros k k' (w & t & b & ->) E. destruct k' as [w' t' b'|q]; [|discriminate E]. cbn [sid] in E. injection E as -> G ->. cbn [skey_eqb].
  rewrite str_eqb_refl, para_key_eqb_refl, (proj2 (tag_eqb_iff t t') (eq_sym G)). reflexivity.
Qed.
(** ** what the loops keep: the keys of the results are in the seen set, and no two of them are the same *)
Definition tracked (ks seen : list skey) : Prop := NoDup (map sid ks) /\ incl ks seen.
Lemma NoDup_snoc : forall {A} (l : list A) x, NoDup l -> ~ In x l -> NoDup (l ++ [x]).
Proof. intros A l x N H. apply (Permutation_NoDup (l := x :: l)); [apply Permutation_cons_append|constructor; assumption]. Qed.
Lemma tracked_add : forall ks seen k, tracked ks seen -> as_key k -> seen_mem k seen = false -> tracked (ks ++ [k]) (k :: seen).
Proof.
  intros ks seen k [N I] K F. split.
  - rewrite map_app. apply NoDup_snoc; [exact N|]. intros X. apply in_map_iff in X as (k' & E & X). apply I in X.
    assert (Y : seen_mem k seen = true) by (apply existsb_exists; exists k'; split; [exact X|exact (sid_eq k k' K E)]). congruence.
  - intros x X. apply in_app_iff in X as [X|[<-|[]]]; [right; exact (I x X)|left; reflexivity].
Qed.
Lemma tracked_none : forall seen, tracked [] seen. Proof. intros seen. split; [constructor|intros x []]. Qed.
Lemma key_of_key : forall p, as_key (key_of p). Proof. intros p. unfold as_key, key_of. eauto. Qed.
Lemma adds_tracked : forall l ks0 res seen res' seen', fold_left add_parse_if_not_seen l (res, seen) = (res', seen') -> tracked (ks0 ++ map key_of res) seen -> tracked (ks0 ++ map key_of res') seen'.
Proof.
  induction l as [|p l IH]; intros ks0 res seen res' seen' H T; cbn [fold_left] in H; [injection H as <- <-; exact T|].
  unfold add_parse_if_not_seen at 2 in H. fold (key_of p) in H. destruct (seen_mem (key_of p) seen) eqn:E; apply (IH ks0) in H; try exact H; [exact T|].
  rewrite map_app, app_assoc. apply tracked_add; [exact T|apply key_of_key|exact E].
Qed.
Lemma splits_tracked : forall (rec : str -> res (list parse)) self mult splits ks0 seen ps seen',
  foldM (fun st (pr : str * str) => let '(prefix, rest) := pr in let* qs := rec rest in Ok (prefix_step self mult prefix st qs)) ([], seen) splits = Ok (ps, seen') ->
  tracked ks0 seen -> tracked (ks0 ++ map key_of ps) seen'.
Proof.
  intros rec self mult splits ks0 seen ps seen' H T.
  apply (foldM_inv (fun st : list parse * list skey => tracked (ks0 ++ map key_of (fst st)) (snd st))) in H; [exact H|cbn [fst snd map]; rewrite app_nil_r; exact T|].
  intros [res s] [prefix rest] [res' s'] _ T1 E. apply bind_ok in E as (qs & _ & E). apply Ok_inj in E. unfold prefix_step in E. exact (adds_tracked _ _ _ _ _ _ E T1).
Qed.
Lemma ks_step_tracked : forall M self sub pid fw fs st v st' ks0, ks_step M self sub pid fw fs st v = Ok st' ->
  tracked (ks0 ++ map raw_key (ks_res st)) (ks_seen st) -> tracked (ks0 ++ map raw_key (ks_res st')) (ks_seen st').
Proof.
  intros M self sub pid fw fs st [[cnt para] idx] st' ks0 H T. unfold ks_step in H. apply bind_ok in H as (t & _ & H). destruct (negb (is_productive t)); [apply Ok_inj in H; subst; exact T|].
  destruct (seen_mem _ _) eqn:E; [apply Ok_inj in H; subst; exact T|]. apply bind_ok in H as (nf & _ & H). apply Ok_inj in H. subst st'. cbn [ks_res ks_seen].
  rewrite map_app, app_assoc. cbn [map]. apply tracked_add; [exact T|unfold as_key, raw_key; eauto|exact E].
Qed.
Lemma ks_lengths_tracked : forall M self sub pid dawg lower ks0 is st st', ks_lengths M self sub pid dawg lower st is = Ok st' ->
  tracked (ks0 ++ map raw_key (ks_res st)) (ks_seen st) -> tracked (ks0 ++ map raw_key (ks_res st')) (ks_seen st').
Proof.
  induction is as [|i is IH]; intros st st' H T; cbn [ks_lengths] in H; [apply Ok_inj in H; subst; exact T|]. apply bind_ok in H as (s1 & E1 & E2).
  assert (T1 : tracked (ks0 ++ map raw_key (ks_res s1)) (ks_seen s1)).
  { unfold ks_at in E1. apply (foldM_inv (fun s => tracked (ks0 ++ map raw_key (ks_res s)) (ks_seen s))) in E1; [exact E1|exact T|].
    intros s [sfx vals] s' _ Ts E. apply (foldM_inv (fun s => tracked (ks0 ++ map raw_key (ks_res s)) (ks_seen s))) in E; [exact E|exact Ts|]. intros a x b _ Ta X. exact (ks_step_tracked _ _ _ _ _ _ _ _ _ _ X Ta). }
  destruct (1 <? ks_total s1); [apply Ok_inj in E2; subst; exact T1|exact (IH _ _ E2 T1)].
Qed.
Lemma ks_prefix_tracked : forall M self sub mult lower acc ip acc' ks0, ks_prefix M self sub mult lower acc ip = Ok acc' ->
  tracked (ks0 ++ map key_of (fst acc)) (snd acc) -> tracked (ks0 ++ map key_of (fst acc')) (snd acc').
Proof.
  intros M self sub mult lower [r s] [pid pre] acc' ks0 H T. unfold ks_prefix in H. apply bind_ok in H as (dawg & _ & H). apply bind_ok in H as (st & E & H). apply Ok_inj in H. subst acc'. cbn [fst snd] in *.
  pose proof (ks_lengths_ok _ _ _ _ _ _ _ _ _ E (Forall_nil _)) as F. apply (ks_lengths_tracked _ _ _ _ _ _ (ks0 ++ map key_of r)) in E; [|cbn [ks_res ks_seen map]; rewrite app_nil_r; exact T].
  assert (X : map key_of (map (ks_score mult (ks_total st)) (ks_res st)) = map raw_key (ks_res st)) by (rewrite map_map; apply map_ext_in; intros raw I; rewrite Forall_forall in F; exact (ks_score_key _ _ _ (F raw I))).
  rewrite map_app, app_assoc, X. exact E.
Qed.
Lemma tracked_perm : forall ks0 a b seen, Permutation a b -> tracked (ks0 ++ a) seen -> tracked (ks0 ++ b) seen.
Proof.
  intros ks0 a b seen P [N I]. split; [apply (Permutation_NoDup (l := map sid (ks0 ++ a))); [apply Permutation_map, Permutation_app_head, P|exact N]|].
  intros x X. apply I. apply in_app_iff in X as [X|X]; apply in_app_iff; [left; exact X|right; apply (Permutation_in _ (Permutation_sym P) X)].
Qed.
Lemma ks_tracked : forall M self sub mult minlen word lower seen ps seen' ks0, ks_parse M self sub mult minlen word lower seen = Ok (ps, seen') -> tracked ks0 seen -> tracked (ks0 ++ map key_of ps) seen'.
Proof.
  intros M self sub mult minlen word lower seen ps seen' ks0 H T. unfold ks_parse in H. destruct (length word <? minlen); [apply Ok_inj in H; injection H as <- <-; cbn [map]; rewrite app_nil_r; exact T|].
  apply bind_ok in H as (r & E & H). apply Ok_inj in H. injection H as <- <-. apply (tracked_perm _ (map key_of (fst r))); [apply Permutation_map, sort_desc_perm|].
  apply (foldM_inv (fun a : list parse * list skey => tracked (ks0 ++ map key_of (fst a)) (snd a))) in E; [exact E|cbn [fst snd map]; rewrite app_nil_r; exact T|].
  intros a x b _ Ta X. exact (ks_prefix_tracked _ _ _ _ _ _ _ _ _ X Ta).
Qed.
(** ** from keys to identities *)
Definition key_basis (b : option (nat + list method)) : para_key := match b with None => PNone | Some (inl n) => PNum n | Some (inr l) => PMethods l end.
Lemma sid_key : forall p, sid (key_of p) = Some (p_word p, t_gr (p_tag p), key_basis (basis p)).
Proof. intros p. unfold key_of, para_key_of, basis. cbn [sid]. destruct (p_stack p) as [|[] l]; reflexivity. Qed.
Lemma identities : forall ps, NoDup (map sid (map key_of ps)) -> NoDup (map identity ps).
Proof.
  intros ps N. rewrite map_map in N. apply (NoDup_map_inv (fun x : str * sset * option (nat + list method) => Some (fst (fst x), snd (fst x), key_basis (snd x)))). rewrite map_map.
  rewrite (map_ext _ _ (fun p => sid_key p)) in N. exact N.
Qed.
(** ** the units *)
Section run.
Variables (recP : str -> res (list parse)) (recT : str -> res (list tag)) (M : morph) (word : str).
Let lower := u_lower (m_uni M) word.
Definition once (b : bunit) : Prop := forall i seen ps s, unit_parse recP recT M i b word lower seen = Ok (ps, s) -> NoDup (map identity ps).
Definition quiet (b : bunit) : Prop := forall i seen ps s, unit_parse recP recT M i b word lower seen = Ok (ps, s) -> ps = [].
Lemma terminal_once : forall i b us seen r, once b -> run_parse recP recT M word lower i ((b, true) :: us) [] seen = Ok r ->
  (forall s, run_parse recP recT M word lower (S i) us [] s = Ok r -> NoDup (map identity r)) -> NoDup (map identity r).
Proof.
  intros i b us seen r O H K. cbn [run_parse] in H. apply bind_ok in H as ([ps s] & U & H). apply O in U. cbn [app andb] in H. destruct ps as [|p ps]; [exact (K s H)|]. apply Ok_inj in H. subst r. exact U.
Qed.
Lemma quiet_next : forall i b tm us seen r, quiet b -> run_parse recP recT M word lower i ((b, tm) :: us) [] seen = Ok r -> exists s, run_parse recP recT M word lower (S i) us [] s = Ok r.
Proof.
  intros i b tm us seen r Q H. cbn [run_parse] in H. apply bind_ok in H as ([ps s] & U & H). apply Q in U. subst ps. exists s. cbn [app] in H. rewrite andb_false_r in H. exact H.
Qed.
Lemma few_once : forall b, (forall i seen ps s, unit_parse recP recT M i b word lower seen = Ok (ps, s) -> length ps <= 1) -> once b.
Proof. intros b F i seen ps s H. apply F in H. destruct ps as [|p [|q ps]]; cbn [map]; [constructor|repeat constructor; intros []|cbn in H; lia]. Qed.
Lemma shape_few : forall U self b score w lw ps, shape_parse U self b score w lw = Ok ps -> length ps <= 1.
Proof. intros U self b score w lw ps H. unfold shape_parse in H. apply bind_ok in H as ([t|] & _ & H); apply Ok_inj in H; subst ps; cbn; lia. Qed.
Lemma shape_once : forall b score, b_cfg b = UNumber score \/ b_cfg b = UPunct score -> once b.
Proof.
  intros b score C. apply few_once. intros i seen ps s H. unfold unit_parse in H. destruct C as [C|C]; rewrite C in H; apply bind_ok in H as (qs & E & H); apply Ok_inj in H; injection H as -> <-; exact (shape_few _ _ _ _ _ _ _ E).
Qed.
Lemma adverb_once : forall b mult, b_cfg b = UHAdverb mult -> once b.
Proof.
  intros b mult C. apply few_once. intros i seen ps s H. unfold unit_parse in H. rewrite C in H. apply bind_ok in H as ([] & _ & H); [apply bind_ok in H as (t & _ & H)|]; apply Ok_inj in H; injection H as <- _; cbn; lia.
Qed.
Lemma unkn_once : forall b, b_cfg b = UUnkn -> once b.
Proof.
  intros b C. apply few_once. intros i seen ps s H. unfold unit_parse in H. rewrite C in H. destruct seen as [|k seen]; [apply bind_ok in H as (t & _ & H)|]; apply Ok_inj in H; injection H as <- _; cbn; lia.
Qed.
Lemma particle_once : forall b particles mult, b_cfg b = UParticle particles mult -> once b.
Proof.
  intros b particles mult C i seen ps s H. unfold unit_parse in H. rewrite C in H. unfold particle_parse in H. destruct (particle_splits particles lower) as [|[w pt] l]; [apply Ok_inj in H; injection H as <- _; constructor|].
  apply bind_ok in H as (qs & _ & H). apply Ok_inj in H. apply (adds_tracked _ []) in H; [|apply tracked_none]. apply identities. exact (proj1 H).
Qed.
Lemma kp_once : forall b prefixes mult minrem, b_cfg b = UKnownPrefix prefixes mult minrem -> once b.
Proof.
  intros b prefixes mult minrem C i seen ps s H. unfold unit_parse in H. rewrite C in H. unfold kp_parse in H. apply (splits_tracked _ _ _ _ []) in H; [|apply tracked_none]. apply identities. exact (proj1 H).
Qed.
Lemma hyph_quiet : forall b prefixes mult, b_cfg b = UHyph prefixes mult -> ~ In [] prefixes -> not_compound prefixes lower -> quiet b.
Proof.
  intros b prefixes mult C N NC i seen ps s H. unfold unit_parse in H. rewrite C in H. unfold hyph_parse in H. destruct (hyph_should_parse M prefixes lower) eqn:E.
  - exfalso. apply (hyph_should_iff _ _ _ N) in E as ((l & r & O) & NS). exact (NS (NC l r O)).
  - cbn [negb] in H. apply Ok_inj in H. injection H as <- _. reflexivity.
Qed.
Lemma dict_quiet : forall b, b_cfg b = UDict -> word_is_known M word false = false -> quiet b.
Proof.
  intros b C K i seen ps s H. unfold unit_parse in H. rewrite C in H. unfold dict_parse, lower in H. rewrite (L_Adverb.unknown_items _ _ K) in H. cbn [mapM rmap bind concat] in H. apply Ok_inj in H. injection H as <- _. reflexivity.
Qed.
Lemma init_quiet : forall b first letters pat sc, b_cfg b = UInit first letters pat sc -> ~ In word letters -> quiet b.
Proof.
  intros b first letters pat sc C N i seen ps s H. rewrite (init_unit_parse _ _ _ _ _ _ _ _ _ _ _ _ _ _ C H). destruct (smem word letters) eqn:S; [apply smem_In in S; contradiction|reflexivity].
Qed.
(** Roman and Latin together *)
Lemma roman_latin : forall i ro la s1 s2 us seen r, initialised ro -> initialised la -> b_cfg ro = URoman s1 -> b_cfg la = ULatin s2 -> run_parse recP recT M word lower i ((ro, false) :: (la, true) :: us) [] seen = Ok r ->
  (forall s, run_parse recP recT M word lower (S (S i)) us [] s = Ok r -> NoDup (map identity r)) -> NoDup (map identity r).
Proof.
  intros i ro la s1 s2 us seen r I1 I2 C1 C2 H K. cbn [run_parse] in H. apply bind_ok in H as ([p1 k1] & U1 & H). cbn [app andb] in H. apply bind_ok in H as ([p2 k2] & U2 & H).
  unfold unit_parse in U1, U2. rewrite C1 in U1. rewrite C2 in U2. apply bind_ok in U1 as (q1 & U1 & X). apply Ok_inj in X. injection X as -> <-. apply bind_ok in U2 as (q2 & U2 & X). apply Ok_inj in X. injection X as -> <-.
  destruct (roman_unit _ _ _ _ _ _ _ I1 C1 U1) as (A & B). pose proof (latin_unit _ _ _ _ _ _ _ I2 C2 U2) as D.
  assert (N : NoDup (map identity (p1 ++ p2))).
  { destruct (is_roman_number word) eqn:E; [destruct (A eq_refl) as (t & T & ->)|rewrite (B eq_refl)]; (destruct D as [(_ & t2 & T2 & ->)|(_ & ->)]); cbn [app map]; repeat constructor; cbn [In]; try tauto.
    unfold identity. cbn [p_word p_tag basis p_stack]. rewrite T, T2. intros [X|[]]. injection X as X. discriminate X. }
  cbn [andb] in H. destruct (p1 ++ p2) as [|p ps]; [exact (K _ H)|]. apply Ok_inj in H. subst r. exact N.
Qed.
Lemma last_group : forall i b2 b3 b4 m2 m3 k seen r, b_cfg b2 = UUnknownPrefix m2 -> b_cfg b3 = UKnownSuffix m3 k -> b_cfg b4 = UUnkn ->
  run_parse recP recT M word lower i [(b2, false); (b3, true); (b4, true)] [] seen = Ok r -> NoDup (map identity r).
Proof.
  intros i b2 b3 b4 m2 m3 k seen r C2 C3 C4 H. cbn [run_parse] in H. apply bind_ok in H as ([p2 s2] & U2 & H). cbn [app andb] in H. apply bind_ok in H as ([p3 s3] & U3 & H). cbn [andb] in H.
  unfold unit_parse in U2, U3. rewrite C2 in U2. rewrite C3 in U3. unfold up_parse in U2. apply (splits_tracked _ _ _ _ []) in U2; [|apply tracked_none]. cbn [app] in U2.
  apply (ks_tracked _ _ _ _ _ _ _ _ _ _ (map key_of p2)) in U3; [|exact U2]. rewrite <- map_app in U3.
  destruct (p2 ++ p3) as [|p ps] eqn:E; [|apply Ok_inj in H; subst r; apply identities; exact (proj1 U3)].
  apply bind_ok in H as ([p4 s4] & U4 & H). apply (unkn_once b4 C4) in U4. destruct p4 as [|p p4]; cbn [app andb] in H; apply Ok_inj in H; subst r; exact U4.
Qed.
Lemma run_ru : forall r, has_units M RU_DEFAULT_UNITS -> word_is_known M word false = false -> ~ In word RU_INITIAL_LETTERS -> not_compound RU_KNOWN_PREFIXES lower ->
  run_parse recP recT M word lower 0 (m_units M) [] [] = Ok r -> NoDup (map identity r).
Proof.
  intros r HU WK NI NC H. destruct (heads_ru M HU) as (d & n & p & nu & pu & ro & la & a1 & a2 & a3 & b1 & b2 & b3 & b4 & Eu & IB & (D1 & D2 & D3 & D4 & D5 & D6 & D7) & A1 & A2 & A3 & C1 & C2 & C3 & C4).
  repeat match goal with K : Forall _ (_ :: _) |- _ => apply Forall_cons_iff in K as [? K] end. rewrite Eu in H. cbn [marked app] in H.
  apply quiet_next in H as (s1 & H); [|exact (dict_quiet d D1 WK)]. apply quiet_next in H as (s2 & H); [|exact (init_quiet n _ _ _ _ D2 NI)]. apply quiet_next in H as (s3 & H); [|exact (init_quiet p _ _ _ _ D3 NI)].
  eapply terminal_once; [|exact H|]; [eapply shape_once; left; exact D4|]. clear H. intros s4 H. eapply terminal_once; [|exact H|]; [eapply shape_once; right; exact D5|]. clear H. intros s5 H.
  eapply roman_latin; [| | | |exact H|]; [assumption|assumption|exact D6|exact D7|]. clear H. intros s6 H.
  eapply terminal_once; [|exact H|]; [eapply particle_once; exact A1|]. clear H. intros s7 H. eapply terminal_once; [|exact H|]; [eapply adverb_once; exact A2|]. clear H. intros s8 H.
  apply quiet_next in H as (s9 & H); [|exact (hyph_quiet a3 _ _ A3 ru_pre NC)]. eapply terminal_once; [|exact H|]; [eapply kp_once; exact C1|]. clear H. intros s10 H.
  exact (last_group _ _ _ _ _ _ _ _ _ C2 C3 C4 H).
Qed.
Lemma run_uk : forall r, has_units M UK_DEFAULT_UNITS -> word_is_known M word false = false -> ~ In word UK_INITIAL_LETTERS -> not_compound UK_KNOWN_PREFIXES lower ->
  run_parse recP recT M word lower 0 (m_units M) [] [] = Ok r -> NoDup (map identity r).
Proof.
  intros r HU WK NI NC H. destruct (heads_uk M HU) as (d & n & p & nu & pu & ro & la & a1 & a3 & b1 & b2 & b3 & b4 & Eu & IB & (D1 & D2 & D3 & D4 & D5 & D6 & D7) & A1 & A3 & C1 & C2 & C3 & C4).
  repeat match goal with K : Forall _ (_ :: _) |- _ => apply Forall_cons_iff in K as [? K] end. rewrite Eu in H. cbn [marked app] in H.
  apply quiet_next in H as (s1 & H); [|exact (dict_quiet d D1 WK)]. apply quiet_next in H as (s2 & H); [|exact (init_quiet n _ _ _ _ D2 NI)]. apply quiet_next in H as (s3 & H); [|exact (init_quiet p _ _ _ _ D3 NI)].
  eapply roman_latin; [| | | |exact H|]; [assumption|assumption|exact D6|exact D7|]. clear H. intros s6 H.
  eapply terminal_once; [|exact H|]; [eapply shape_once; left; exact D4|]. clear H. intros s4 H. eapply terminal_once; [|exact H|]; [eapply shape_once; right; exact D5|]. clear H. intros s5 H.
  eapply terminal_once; [|exact H|]; [eapply particle_once; exact A1|]. clear H. intros s7 H.
  apply quiet_next in H as (s9 & H); [|exact (hyph_quiet a3 _ _ A3 uk_pre NC)]. eapply terminal_once; [|exact H|]; [eapply kp_once; exact C1|]. clear H. intros s10 H.
  exact (last_group _ _ _ _ _ _ _ _ _ C2 C3 C4 H).
Qed.
End run.
Lemma readings_identity : forall a b, Permutation (map reading a) (map reading b) -> NoDup (map identity a) -> NoDup (map identity b).
Proof.
  intros a b P N. apply (Permutation_map (fun x : str * tag * str * list method => identity (MkParse (fst (fst (fst x))) (snd (fst (fst x))) (snd (fst x)) 0 (snd x)))) in P. rewrite !map_map in P.
  exact (Permutation_NoDup P N).
Qed.
Lemma readings_once : forall M letters particles prefixes word ps, shipped M letters particles prefixes -> word_is_known M word false = false -> ~ In word letters -> not_compound prefixes (u_lower (m_uni M) word) ->
  morph_parse M word = Ok ps -> NoDup (map identity ps).
Proof.
  intros M letters particles prefixes word ps SH WK NI NC H. unfold morph_parse, fuel_for, parse_f in H. cbn [analyze fst snd] in H. apply bind_ok in H as (r & E & H).
  assert (N : NoDup (map identity r)). { destruct SH as [(HU & -> & -> & ->)|(HU & -> & -> & ->)]; [exact (run_ru _ _ M word r HU WK NI NC E)|exact (run_uk _ _ M word r HU WK NI NC E)]. }
  destruct (m_prob M) as [d|]; [|apply Ok_inj in H; subst ps; exact N]. apply apply_reweighted in H as (P & _). exact (readings_identity _ _ P N).
Qed.
