(** * Lemmas for C72: without a P(t|w) table underflow changes no reading *)
From Coq Require Import String List NArith ZArith Bool QArith Qround Qabs Qpower Lia Lqa.
From Verif Require Import Py Uni Tagset Dawg Dict Utils Shapes Units Analyzer Rounding Doubles Spec Spec13 Spec21 Spec22 Spec31.
From Verif Require Import L_Base L_Made L_Run L_Words L_Rounding L_Rounding3 L_Rounding4 L_Rounding7 L_Dbl L_Dbl2.
Import ListNotations.
Local Open Scope nat_scope.
Local Open Scope list_scope.

Definition srel (x y : list parse * list skey) : Prop := Forall2 same_reading (fst x) (fst y) /\ Forall2 skr (snd x) (snd y).
Lemma same_refl : forall p, same_reading p p.
Proof. intros p. repeat split; reflexivity. Qed.
Lemma sadd_rel : forall st st' p q, srel st st' -> same_reading p q -> srel (add_parse_if_not_seen st p) (add_parse_if_not_seen st' q).
Proof.
  intros [r s] [r' s'] p q [A B] E. cbn [fst snd] in A, B. unfold add_parse_if_not_seen. rewrite (key_rel p q E). destruct (E) as (E1 & E3 & _). rewrite E1, E3.
  rewrite (seen_rel _ _ _ _ _ B). destruct (seen_mem _ s'); split; cbn [fst snd]; auto. - apply Forall2_app; [exact A|]. constructor; [exact E|constructor]. - constructor; [cbn; auto|exact B].
Qed.
Lemma sadds_rel : forall l l' st st', srel st st' -> Forall2 same_reading l l' -> srel (fold_left add_parse_if_not_seen l st) (fold_left add_parse_if_not_seen l' st').
Proof. intros l l' st st' H F. revert st st' H. induction F as [|p q l l' E F IH]; intros st st' H; [exact H|]. cbn [fold_left]. apply IH. apply sadd_rel; assumption. Qed.
Lemma sprefix_rel : forall fl fl' self m prefix st st' ps qs, srel st st' -> Forall2 same_reading ps qs -> srel (prefix_step_fl fl self m prefix st ps) (prefix_step_fl fl' self m prefix st' qs).
Proof.
  intros fl fl' self m prefix st st' ps qs S F. unfold prefix_step_fl. apply sadds_rel; [exact S|]. apply (F2_map same_reading).
  - apply F2_filter; [exact F|]. intros x y (_ & -> & _). reflexivity.
  - intros x y (W & T & N & K). unfold same_reading. cbn. rewrite W, T, N, K. repeat split; reflexivity.
Qed.
Definition kss (p q : parse) : Prop := same_reading p q /\ p_score p = p_score q.
Lemma sks_rel : forall M self sub m minlen word lower seen seen', small_numbers M -> (tiny 10 <= m)%Q -> (m <= 1)%Q -> Forall2 skr seen seen' ->
  rrel srel (ks_parse_fl dbl M self sub m minlen word lower seen) (ks_parse_fl b64 M self sub m minlen word lower seen').
Proof.
  intros M self sub m minlen word lower seen seen' SM A B S. unfold ks_parse_fl. destruct (length word <? minlen); [split; [constructor|exact S]|].
  apply (rrel_bind (fun x y => Forall2 kss (fst x) (fst y) /\ Forall2 skr (snd x) (snd y))).
  - apply rrel_foldM; [split; [constructor|exact S]|]. intros [a s] [a' s'] [pid prefix] _ [A1 B1]. cbn [fst snd] in A1, B1. unfold ks_prefix_fl.
    destruct (nth_res (d_pred (m_dict M)) pid) as [dawg|e] eqn:D; [|cbn; reflexivity]. cbn [bind]. apply nth_res_In in D. cbn [snd fst].
    set (st0 := {| ks_res := []; ks_seen := s; ks_total := 1 |}). set (st0' := {| ks_res := []; ks_seen := s'; ks_total := 1 |}).
    assert (Q0 : ksq st0 st0') by (split; [reflexivity|]; split; [exact B1|reflexivity]).
    assert (L := ks_lengths_srel M self sub pid dawg lower (ks_splits (m_dict M)) st0 st0' Q0).
    destruct (ks_lengths M self sub pid dawg lower st0 (ks_splits (m_dict M))) as [x|e] eqn:E1; destruct (ks_lengths M self sub pid dawg lower st0' (ks_splits (m_dict M))) as [y|e'] eqn:E2; cbn in L |- *; try contradiction; [|exact L].
    destruct L as (L1 & L2 & L3). split; [|exact L2]. cbn [fst snd]. apply Forall2_app; [exact A1|]. rewrite L1, L3.
    destruct (ks_lengths_bound _ _ _ _ _ _ _ _ _ E2 SM D) as [_ BD]; [constructor|reflexivity|]. destruct (ks_le _ _ _ _ _ _ _ _ _ E2) as [LE _]; [intros z []|cbn; lia|].
    assert (F : Forall2 eq (ks_res y) (ks_res y)) by (apply F2_same; auto).
    assert (X : forall l, incl l (ks_res y) -> Forall2 kss (map (ks_score_fl dbl m (ks_total y)) l) (map (ks_score_fl b64 m (ks_total y)) l)).
    { induction l as [|r l IH]; intros I; [constructor|]. cbn [map]. constructor; [|apply IH; intros z Z; apply I; right; exact Z]. split; [repeat split; reflexivity|]. cbn. apply ks_entry; [exact BD|specialize (LE r (I r (or_introl eq_refl))); lia|exact A|exact B]. }
    apply X. apply incl_refl.
  - intros [a s] [a' s'] [A1 B1]. cbn [fst snd] in *. split; cbn [fst snd]; [|exact B1]. apply (F2_weaken kss); [|intros x y [E _]; exact E]. apply F2_sort; [exact A1|]. intros x y x' y' [_ E] [_ E']. unfold score_geb. rewrite E, E'. reflexivity.
Qed.

Section sim.
Context (M : morph) (SM : small_numbers M) (recP recP' : str -> res (list parse)) (recT recT' : str -> res (list tag)).
Context (HP : forall w, rrel (Forall2 same_reading) (recP w) (recP' w)) (HT : forall w, recT w = recT' w).
Lemma shyph_rel : forall i skip m lower seen seen', Forall2 skr seen seen' -> rrel srel (hyph_parse_fl dbl recP M (Root i) skip m lower seen) (hyph_parse_fl b64 recP' M (Root i) skip m lower seen').
Proof.
  intros i skip m lower seen seen' S. unfold hyph_parse_fl. destruct (negb _); [split; [constructor|exact S]|]. destruct (split_once HY lower) as [lw [rw|]]; [|cbn; reflexivity].
  apply (rrel_bind (Forall2 same_reading)); [apply HP|]. intros ls ls' F. apply (rrel_bind (Forall2 same_reading)); [apply HP|]. intros rs rs' G. cbn. split; cbn [fst snd]; [|exact S]. apply Forall2_app.
  - unfold variable_both_fl. apply (F2_flat_map same_reading); [exact F|]. intros x y (W & T & N & K). rewrite T. destruct (tag_is_unknown (p_tag y)); [constructor|]. apply (F2_map same_reading).
    + apply F2_filter; [exact G|]. intros a c (_ & -> & _). reflexivity.
    + intros a c (W' & T' & N' & K'). unfold same_reading. cbn. rewrite W, T, N, K, W', N', K'. repeat split; reflexivity.
  - unfold fixed_left_fl. apply (F2_map same_reading).
    + apply F2_filter; [exact G|]. intros a c (_ & -> & _). reflexivity.
    + intros a c (W & T & N & K). unfold same_reading. cbn. rewrite W, T, N, K. repeat split; reflexivity.
Qed.
Lemma sunit_rel : forall i b word lower seen seen', not_tiny b -> Forall2 skr seen seen' ->
  rrel srel (unit_parse_fl dbl recP recT M i b word lower seen) (unit_parse_fl b64 recP' recT' M i b word lower seen').
Proof.
  intros i b word lower seen seen' [N0 N1] S. unfold unit_parse_fl.
  assert (SHP : forall x y, rrel srel (let* ps := shape_parse (m_uni M) (Root i) b x word lower in Ok (ps, seen)) (let* ps := shape_parse (m_uni M) (Root i) b y word lower in Ok (ps, seen'))).
  { intros x y. unfold shape_parse. destruct (shape_tag (m_uni M) b word) as [[t|]|e]; cbn; [split; cbn [fst snd]; [|exact S]|split; [constructor|exact S]|reflexivity]. constructor; [|constructor]. repeat split; reflexivity. }
  assert (AD : adverb_should_parse recT M lower = adverb_should_parse recT' M lower) by (unfold adverb_should_parse; rewrite HT; reflexivity).
  destruct (b_cfg b) as [|tp letters kk score|score|score|score|score|particles m|m|skip m|ps m minrem|m|m minlen|] eqn:C; cbn in N0, N1; try apply SHP.
  - destruct (dict_parse M (Root i) lower) as [ps|e] eqn:D; cbn; [|reflexivity]. split; [|exact S]. apply F2_same. intros; apply same_refl.
  - cbn. split; [|exact S]. cbn [fst]. destruct (smem word letters); [|constructor]. apply (F2_map eq); [apply F2_same; auto|]. intros t ? <-. repeat split; reflexivity.
  - unfold particle_parse_fl. destruct (particle_splits particles lower) as [|[w particle] r]; [split; [constructor|exact S]|]. apply (rrel_bind (Forall2 same_reading)); [apply HP|]. intros x y F. cbn. apply sadds_rel; [split; [constructor|exact S]|]. apply (F2_map same_reading); [exact F|]. intros a c (W & T & N & K). unfold same_reading. cbn. rewrite W, T, N, K. repeat split; reflexivity.
  - rewrite AD. apply rrel_same. intros ok. destruct ok; [|split; [constructor|exact S]]. apply rrel_same. intros t. cbn. split; cbn [fst snd]; [|constructor; [exact I|exact S]]. constructor; [|constructor]. repeat split; reflexivity.
  - apply shyph_rel. exact S.
  - unfold kp_parse_fl. apply rrel_foldM; [split; [constructor|exact S]|]. intros x y [prefix rest] _ E. apply (rrel_bind (Forall2 same_reading)); [apply HP|]. intros ps1 qs1 F. cbn. apply sprefix_rel; assumption.
  - unfold up_parse_fl. apply rrel_foldM; [split; [constructor|exact S]|]. intros x y [prefix rest] _ E. destruct (dict_parse M (Sub i) rest) as [ps|e] eqn:D; cbn; [|reflexivity]. apply sprefix_rel; [exact E|]. apply F2_same. intros; apply same_refl.
  - apply sks_rel; try assumption. 
  - destruct S as [|a a' s s' E S]; [|split; [constructor|constructor; assumption]]. apply rrel_same. intros t. cbn. split; cbn [fst snd]; [|constructor]. constructor; [|constructor]. repeat split; reflexivity.
Qed.
Lemma srun_rel : forall word lower us i acc acc' seen seen', Forall (fun bt => not_tiny (fst bt)) us -> Forall2 same_reading acc acc' -> Forall2 skr seen seen' ->
  rrel (Forall2 same_reading) (run_parse_fl dbl recP recT M word lower i us acc seen) (run_parse_fl b64 recP' recT' M word lower i us acc' seen').
Proof.
  intros word lower us. induction us as [|[b t] us IH]; intros i acc acc' seen seen' P A S; [exact A|]. cbn [run_parse_fl]. inversion P as [|? ? P1 P2]; subst. cbn [fst] in P1.
  apply (rrel_bind srel); [apply sunit_rel; assumption|]. intros [ps s] [ps' s'] [X Y]. cbn [fst snd] in X, Y.
  assert (Z : Forall2 same_reading (acc ++ ps) (acc' ++ ps')) by (apply Forall2_app; assumption).
  assert (E : match acc ++ ps with [] => false | _ => true end = match acc' ++ ps' with [] => false | _ => true end) by (destruct Z; reflexivity). rewrite E. destruct (t && _)%bool; [exact Z|]. apply IH; assumption.
Qed.
Lemma stag_rel : forall i b word lower seen, unit_tag_fl dbl recP recT M i b word lower seen = unit_tag_fl b64 recP' recT' M i b word lower seen.
Proof.
  intros i b word lower seen. unfold unit_tag_fl.
  assert (AD : adverb_should_parse recT M lower = adverb_should_parse recT' M lower) by (unfold adverb_should_parse; rewrite HT; reflexivity).
  destruct (b_cfg b) as [|tp letters kk score|score|score|score|score|particles m|m|skip m|ps m minrem|m|m minlen|] eqn:C; try (unfold unit_tag; rewrite C); try reflexivity.
  - unfold particle_tag. destruct (particle_splits particles lower) as [|[w ?] ?]; [reflexivity|]. rewrite HT. reflexivity.
  - rewrite AD. reflexivity.
  - assert (U := shyph_rel i skip m lower [] [] (Forall2_nil _)). unfold default_tag. destruct (hyph_parse_fl dbl recP M (Root i) skip m lower []) as [[x s]|e]; destruct (hyph_parse_fl b64 recP' M (Root i) skip m lower []) as [[y s']|e']; cbn in U |- *; try contradiction; [|congruence]. destruct U as [U _]. cbn [fst] in U.
    assert (T : map p_tag x = map p_tag y) by (clear -U; induction U as [|a c l l' (_ & T & _) F IH]; [reflexivity|]; cbn; rewrite T, IH; reflexivity). rewrite T. reflexivity.
  - unfold kp_tag. apply foldM_ext2. intros x a. rewrite HT. reflexivity.
Qed.
Lemma srun_tag_rel : forall word lower us i acc seen, run_tag_fl dbl recP recT M word lower i us acc seen = run_tag_fl b64 recP' recT' M word lower i us acc seen.
Proof.
  intros word lower us. induction us as [|[b t] us IH]; intros i acc seen; [reflexivity|]. cbn [run_tag_fl]. rewrite stag_rel.
  destruct (unit_tag_fl b64 recP' recT' M i b word lower seen) as [[ts s]|e]; cbn; [|reflexivity]. destruct (t && _)%bool; [reflexivity|]. apply IH.
Qed.
End sim.
Lemma sanalyze : forall M, small_numbers M -> Forall (fun bt => not_tiny (fst bt)) (m_units M) -> m_prob M = None -> forall n,
  (forall w, rrel (Forall2 same_reading) (fst (analyze_fl dbl n M) w) (fst (analyze_fl b64 n M) w)) /\ (forall w, snd (analyze_fl dbl n M) w = snd (analyze_fl b64 n M) w).
Proof.
  intros M SM NT NP. induction n as [|n [IH1 IH2]]; [split; intros; cbn; reflexivity|]. split; intros w; cbn [analyze_fl fst snd]; rewrite NP.
  - apply (rrel_bind (Forall2 same_reading)); [apply srun_rel; try assumption; constructor|]. intros x y F. exact F.
  - rewrite (srun_tag_rel M (fst (analyze_fl dbl n M)) (fst (analyze_fl b64 n M)) (snd (analyze_fl dbl n M)) (snd (analyze_fl b64 n M)) IH1 IH2). reflexivity.
Qed.
Lemma same_trans : forall a b c, same_readings a b -> same_readings b c -> same_readings a c.
Proof.
  intros [x|e] [y|e'] [z|e''] H K; cbn in *; try contradiction; try congruence. revert z K. induction H as [|p q l l' E F IH]; intros z K; inversion K; subst; [constructor|]. constructor; [|apply IH; assumption].
  destruct E as (E1 & E2 & E3 & E4). match goal with X : same_reading q _ |- _ => destruct X as (G1 & G2 & G3 & G4) end. repeat split; congruence.
Qed.
Lemma double_readings : forall M word, scores_prob M -> scores_not_tiny M -> small_numbers M -> m_prob M = None ->
  same_readings (parse_dbl M word) (morph_parse M word) /\ tag_dbl M word = morph_tag M word.
Proof.
  intros M word SP NT SM NP.
  assert (PS : scores_pos M) by (apply Forall_forall; intros bt I; unfold scores_prob in SP; rewrite Forall_forall in SP; apply SP; exact I).
  assert (U : Forall (fun bt => not_tiny (fst bt)) (m_units M)) by (apply Forall_forall; intros bt I; unfold scores_prob, scores_not_tiny in *; rewrite Forall_forall in SP, NT; split; [apply NT; exact I|apply SP; exact I]).
  destruct (sanalyze M SM U NP (fuel_for M word)) as [A B]. split.
  - apply (same_trans _ (parse_b64 M word)); [|apply parse_b64_same; assumption]. specialize (A word). unfold parse_dbl, parse_b64. destruct (fst (analyze_fl dbl (fuel_for M word) M) word), (fst (analyze_fl b64 (fuel_for M word) M) word); cbn in *; auto.
  - rewrite <- (tag_b64_same M word PS SM). apply B.
Qed.
