(** * Lemmas for C89: analyzers over dictionaries with the same content *)
From Coq Require Import String List NArith ZArith Bool QArith Lia Sorting.Permutation.
From Verif Require Import Py Uni Tagset Dawg Utils Shapes Dict Units Analyzer ConfigRu ConfigUk Compile Spec Spec2 Spec3 Spec14 Spec15 Spec34 Spec35 Spec36 Spec38 Spec39.
From Verif Require Import L_Base L_Words L_Para L_Groups L_Made L_Parse L_Stages L_Every L_Permute.
Import ListNotations.
Local Open Scope nat_scope.
Local Open Scope list_scope.

Definition same_rule (P Q : rule) : Prop := forall w g, P w g <-> Q w g.
Lemma first_rule_det : forall r1 r2 ps1 ps2, Forall2 same_rule r1 r2 -> first_rule r1 ps1 -> first_rule r2 ps2 -> forall w g, analysed ps1 w g <-> analysed ps2 w g.
Proof.
  intros r1 r2 ps1 ps2 F. induction F as [|P Q r1 r2 E F IH]; cbn [first_rule]; [intros []|]. intros [[A1 G1]|[A1 G1]] [[A2 G2]|[A2 G2]].
  - intros w g. pose proof (G1 w g) as X1. pose proof (G2 w g) as X2. pose proof (E w g) as X3. tauto.
  - exfalso. apply A2. destruct A1 as (w & g & X). exists w, g. apply E. exact X.
  - exfalso. apply A1. destruct A2 as (w & g & X). exists w, g. apply E. exact X.
  - apply IH; assumption.
Qed.
Lemma first_tags_det : forall r1 r2 ts1 ts2, Forall2 same_rule r1 r2 -> first_rule_tags r1 ts1 -> first_rule_tags r2 ts2 -> same_tags ts1 ts2.
Proof.
  intros r1 r2 ps1 ps2 F. induction F as [|P Q r1 r2 E F IH]; cbn [first_rule_tags]; [intros []|]. intros [[A1 G1]|[A1 G1]] [[A2 G2]|[A2 G2]].
  - intros g. rewrite G1, G2. split; intros (w & X); exists w; apply E; exact X.
  - exfalso. apply A2. destruct A1 as (w & g & X). exists w, g. apply E. exact X.
  - exfalso. apply A1. destruct A2 as (w & g & X). exists w, g. apply E. exact X.
  - apply IH; assumption.
Qed.
Lemma either_same : forall l1 l2, Forall2 same_rule l1 l2 -> same_rule (either l1) (either l2).
Proof.
  intros l1 l2 F w g. unfold either. split; intros (P & I & X).
  - induction F as [|A B l1 l2 E F IH]; [destruct I|]. destruct I as [<-|I]; [exists B; split; [left; reflexivity|apply E; exact X]|]. destruct (IH I) as (Q & J & Y). exists Q. split; [right; exact J|exact Y].
  - induction F as [|A B l1 l2 E F IH]; [destruct I|]. destruct I as [<-|I]; [exists A; split; [left; reflexivity|apply E; exact X]|]. destruct (IH I) as (Q & J & Y). exists Q. split; [right; exact J|exact Y].
Qed.
Lemma same_refl : forall P, same_rule P P. Proof. intros P w g. reflexivity. Qed.
(** ** the rules in terms of the content of the dictionary *)
Definition open_class (g : sset) : Prop := forall x, In x g -> ~ In x NON_PRODUCTIVE.
Lemma dictionary_content : forall M lower, same_rule (by_dictionary M lower) (fun w g => subst_of (m_subst M) lower w /\ form_in (m_dict M) w g).
Proof.
  intros M lower w g. unfold by_dictionary, form_in. split.
  - intros (vals & k & i & t & S0 & G & I & T & E). split; [exact S0|]. exists vals, k, i, t. auto.
  - intros (S0 & vals & k & i & t & G & I & T & E). exists vals, k, i, t. auto.
Qed.
Lemma unknown_prefix_content : forall M lower, same_rule (by_unknown_prefix M lower) (fun w g => exists prefix rest v, lower = prefix ++ rest /\ 1 <= length prefix <= 5 /\ 3 <= length rest /\
  subst_of (m_subst M) rest v /\ form_in (m_dict M) v g /\ open_class g /\ w = prefix ++ v).
Proof.
  intros M lower w g. unfold by_unknown_prefix, form_in. split.
  - intros (prefix & rest & v & vals & k & i & t & E & L1 & L2 & S0 & G & I & T & Pr & W & ->). exists prefix, rest, v. do 4 (split; [assumption|]). split; [exists vals, k, i, t; auto|]. split; [exact Pr|exact W].
  - intros (prefix & rest & v & E & L1 & L2 & S0 & (vals & k & i & t & G & I & T & <-) & Pr & W). exists prefix, rest, v, vals, k, i, t. repeat (split; [assumption|]). reflexivity.
Qed.
(** an ending with a record of an open class *)
Definition telling (M : morph) (pid : nat) (e : str) : Prop := exists fs c g, subst_of (m_subst M) e fs /\ ending_in (m_dict M) pid fs c g /\ open_class g.
Lemma records_in : forall M dawg pid e fs c k i, nth_error (d_pred (m_dict M)) pid = Some dawg ->
  (In (fs, (c, k, i)) (productive_records M dawg e) <-> subst_of (m_subst M) e fs /\ predicts (m_dict M) pid fs c k i /\ exists t, build_tag_info (m_dict M) k i = Ok t /\ open_class (t_gr t)).
Proof.
  intros M dawg pid e fs c k i N. unfold productive_records. rewrite filter_In. unfold pred_records. rewrite in_flat_map. unfold productiveb. cbn [fst snd]. split.
  - intros (([fs' vals] & I & J) & B). cbn [fst snd] in J. apply in_map_iff in J as (r & E & J). injection E as -> ->. apply similar_items_In in I as (V & G). apply variants_spec in V. split; [exact V|]. split; [exists dawg, vals; auto|].
    destruct (build_tag_info (m_dict M) k i) as [t|]; [|discriminate B]. exists t. split; [reflexivity|]. intros g Ig In0. rewrite forallb_forall in B. specialize (B g Ig). apply negb_true_iff in B. rewrite (proj2 (smem_In _ _) In0) in B. discriminate B.
  - intros (V & (dawg' & vals & N' & G & J) & t & T & O). rewrite N in N'. injection N' as <-. split.
    + exists (fs, vals). split; [apply similar_items_In; split; [apply variants_spec; exact V|exact G]|]. cbn [fst snd]. apply in_map. exact J.
    + rewrite T. apply forallb_forall. intros g Ig. apply negb_true_iff. destruct (smem g NON_PRODUCTIVE) eqn:Q; [|reflexivity]. exfalso. apply smem_In in Q. exact (O g Ig Q).
Qed.
Lemma telling_iff : forall M dawg pid e, nth_error (d_pred (m_dict M)) pid = Some dawg -> (telling M pid e <-> productive_records M dawg e <> []).
Proof.
  intros M dawg pid e N. split.
  - intros (fs & c & g & V & (k & i & t & R & T & <-) & O) X. assert (Y : In (fs, (c, k, i)) (productive_records M dawg e)) by (apply (records_in M dawg pid); eauto). rewrite X in Y. destruct Y.
  - intros X. destruct (productive_records M dawg e) as [|[fs [[c k] i]] l] eqn:E; [congruence|]. assert (Y : In (fs, (c, k, i)) (productive_records M dawg e)) by (rewrite E; left; reflexivity).
    apply (records_in M dawg pid _ _ _ _ _ N) in Y as (V & R & t & T & O). exists fs, c, (t_gr t). split; [exact V|]. split; [exists k, i, t; auto|exact O].
Qed.
Lemma ending_content : forall M word lower, length (d_pred (m_dict M)) = length (d_prefixes (m_dict M)) -> same_rule (by_ending M word lower) (fun w g =>
  4 <= length word /\ exists pid pre rest start e fs c, nth_error (d_prefixes (m_dict M)) pid = Some pre /\ lower = pre ++ rest /\ lower = start ++ e /\ e <> [] /\ length e <= d_maxsuf (m_dict M) /\
    (forall start' e', lower = start' ++ e' -> length e < length e' <= d_maxsuf (m_dict M) -> ~ telling M pid e') /\
    subst_of (m_subst M) e fs /\ ending_in (m_dict M) pid fs c g /\ open_class g /\ w = start ++ fs).
Proof.
  intros M word lower LE w g. unfold by_ending. split.
  - intros (L4 & pid & pre & rest & dawg & start & e & fs & c & k & i & t & Np & E & Nd & (E1 & E2 & E3 & E4 & E5) & I & T & W & ->). split; [exact L4|]. exists pid, pre, rest, start, e, fs, c.
    apply (records_in M dawg pid _ _ _ _ _ Nd) in I as (V & R & t' & T' & O). rewrite T' in T. apply Ok_inj in T. subst t'. do 5 (split; [assumption|]).
    split; [intros start' e' X Y Z; apply (telling_iff M dawg pid e' Nd) in Z; apply Z; exact (E5 start' e' X Y)|]. split; [exact V|]. split; [exists k, i, t; auto|]. split; [exact O|exact W].
  - intros (L4 & pid & pre & rest & start & e & fs & c & Np & E & E1 & E2 & E3 & E5 & V & (k & i & t & R & T & <-) & O & W). split; [exact L4|].
    destruct (nth_error (d_pred (m_dict M)) pid) as [dawg|] eqn:Nd; [|apply nth_error_None in Nd; assert (pid < length (d_prefixes (m_dict M))) by (apply nth_error_Some; congruence); lia].
    assert (I : In (fs, (c, k, i)) (productive_records M dawg e)) by (apply (records_in M dawg pid); eauto).
    exists pid, pre, rest, dawg, start, e, fs, c, k, i, t. do 3 (split; [assumption|]). split; [|repeat (split; [assumption|]); auto]. split; [exact E1|]. split; [exact E2|]. split; [exact E3|]. split; [intros X; rewrite X in I; destruct I|].
    intros start' e' X Y. destruct (productive_records M dawg e') eqn:Q; [reflexivity|]. exfalso. apply (E5 start' e' X Y). apply (telling_iff M dawg pid e' Nd). congruence.
Qed.
Lemma same_via : forall P P' Q Q', same_rule P P' -> same_rule Q Q' -> (forall w g, P' w g <-> Q' w g) -> same_rule P Q.
Proof. intros P P' Q Q' A B H w g. pose proof (A w g) as X. pose proof (B w g) as Y. pose proof (H w g) as Z. clear - X Y Z. tauto. Qed.
Section Two.
  Variables M1 M2 : morph.
  Hypothesis SC : same_content (m_dict M1) (m_dict M2). Hypothesis SS : m_subst M1 = m_subst M2.
  Lemma dictionary_same : forall lower, same_rule (by_dictionary M1 lower) (by_dictionary M2 lower).
  Proof. intros lower. apply (same_via _ _ _ _ (dictionary_content M1 lower) (dictionary_content M2 lower)). intros w g. rewrite SS. pose proof (sc_words _ _ SC w g). tauto. Qed.
  Lemma unknown_prefix_same : forall lower, same_rule (by_unknown_prefix M1 lower) (by_unknown_prefix M2 lower).
  Proof.
    intros lower. apply (same_via _ _ _ _ (unknown_prefix_content M1 lower) (unknown_prefix_content M2 lower)). intros w g. rewrite SS. split; intros (p & r & v & A & B & C & D & E & F); exists p, r, v; do 4 (split; [assumption|]); (split; [|exact F]); apply (sc_words _ _ SC); exact E.
  Qed.
  Lemma telling_same : forall pid e, telling M1 pid e <-> telling M2 pid e.
  Proof. intros pid e. unfold telling. rewrite SS. split; intros (fs & c & g & V & E & O); exists fs, c, g; (split; [exact V|]); (split; [|exact O]); apply (sc_pred _ _ SC); exact E. Qed.
  Lemma ending_same : forall word lower, same_rule (by_ending M1 word lower) (by_ending M2 word lower).
  Proof.
    intros word lower. apply (same_via _ _ _ _ (ending_content M1 word lower (sc_l1 _ _ SC)) (ending_content M2 word lower (sc_l2 _ _ SC))). intros w g. rewrite <- SS, <- (sc_pp _ _ SC), <- (sc_max _ _ SC).
    split; intros (L4 & pid & pre & rest & start & e & fs & c & A & B & C & D & E & F & G & H & I); (split; [exact L4|]); exists pid, pre, rest, start, e, fs, c; do 5 (split; [assumption|]);
      (split; [intros start' e' X Y Z; apply (F start' e' X Y); apply telling_same; exact Z|]); (split; [exact G|]); (split; [|exact I]); apply (sc_pred _ _ SC); exact H.
  Qed.
  Lemma analogy_same : forall word lower, same_rule (by_analogy M1 word lower) (by_analogy M2 word lower).
  Proof. intros word lower w g. unfold by_analogy. pose proof (unknown_prefix_same lower w g). pose proof (ending_same word lower w g). tauto. Qed.
  (** ** nested words *)
  Definition alike_at (w : str) : Prop := forall ps1 ps2, morph_parse M1 w = Ok ps1 -> morph_parse M2 w = Ok ps2 -> forall v g, analysed ps1 v g <-> analysed ps2 v g.
  Hypothesis T1 : answers_all M1. Hypothesis T2 : answers_all M2.
  Lemma nested_reading : forall w, alike_at w -> forall v g, (exists qs q, morph_parse M1 w = Ok qs /\ In q qs /\ p_word q = v /\ t_gr (p_tag q) = g) <-> (exists qs q, morph_parse M2 w = Ok qs /\ In q qs /\ p_word q = v /\ t_gr (p_tag q) = g).
  Proof.
    intros w A v g. destruct (T1 w) as ((ps1 & E1) & _), (T2 w) as ((ps2 & E2) & _). specialize (A ps1 ps2 E1 E2 v g). unfold analysed in A. split; intros (qs & q & E & I & W & G).
    - rewrite E1 in E. apply Ok_inj in E. subst qs. destruct (proj1 A) as (q' & I' & W' & G'); [exists q; auto|]. exists ps2, q'. auto.
    - rewrite E2 in E. apply Ok_inj in E. subst qs. destruct (proj2 A) as (q' & I' & W' & G'); [exists q; auto|]. exists ps1, q'. auto.
  Qed.
End Two.
(** one direction of the rules that look at shorter words *)
Section OneWay.
  Variables M1 M2 : morph. Variable lower : str.
  Hypothesis T1 : answers_all M1. Hypothesis T2 : answers_all M2.
  Hypothesis NR : forall a w c, lower = a ++ w ++ c -> w <> [] -> length w < length lower -> forall v g,
    (exists qs q, morph_parse M1 w = Ok qs /\ In q qs /\ p_word q = v /\ t_gr (p_tag q) = g) -> (exists qs q, morph_parse M2 w = Ok qs /\ In q qs /\ p_word q = v /\ t_gr (p_tag q) = g).
  Lemma particle_one : forall particles w g, ~ In [] particles -> by_particle M1 particles lower w g -> by_particle M2 particles lower w g.
  Proof.
    intros particles w g NE (rest & pt & qs & q & I & H & E & R & Pq & Iq & -> & ->). assert (LP : 0 < length pt) by (destruct pt; [contradiction|cbn; lia]).
    destruct (NR [] rest pt) with (v := p_word q) (g := t_gr (p_tag q)) as (qs' & q' & P' & I' & W' & G'); [exact E|exact R|rewrite E, app_length; lia|exists qs, q; auto|].
    exists rest, pt, qs', q'. do 6 (split; [assumption|]). rewrite W', G'. auto.
  Qed.
  Lemma known_prefix_one : forall prefixes w g, ~ In [] prefixes -> by_known_prefix M1 prefixes lower w g -> by_known_prefix M2 prefixes lower w g.
  Proof.
    intros prefixes w g NE (pre & rest & qs & q & I & E & L3 & Pq & Iq & Pr & -> & ->). assert (LP : 0 < length pre) by (destruct pre; [contradiction|cbn; lia]).
    destruct (NR pre rest []) with (v := p_word q) (g := t_gr (p_tag q)) as (qs' & q' & P' & I' & W' & G'); [rewrite app_nil_r; exact E|intros ->; cbn in L3; lia|rewrite E, app_length; lia|exists qs, q; auto|].
    exists pre, rest, qs', q'. do 5 (split; [assumption|]). split; [unfold productive in *; rewrite G'; exact Pr|]. rewrite W', G'. auto.
  Qed.
  Lemma hyphen_one : forall prefixes w g, by_hyphen M1 prefixes lower w g -> by_hyphen M2 prefixes lower w g.
  Proof.
    intros prefixes w g (NS & l & r & ls & rs & H & Pl & Pr & X). split; [exact NS|]. pose proof H as (E & NL & Nr & _). destruct (T2 l) as ((ls' & Pl') & _), (T2 r) as ((rs' & Pr') & _). exists l, r, ls', rs'. do 3 (split; [assumption|]).
    assert (LH : 0 < length (u "-")) by (cbn; lia).
    assert (RR : forall b, In b rs -> exists b', In b' rs' /\ p_word b' = p_word b /\ t_gr (p_tag b') = t_gr (p_tag b)).
    { intros b Ib. destruct (NR (l ++ u "-") r []) with (v := p_word b) (g := t_gr (p_tag b)) as (qs' & q' & P' & I' & W' & G'); [rewrite app_nil_r, <- app_assoc; exact E|exact Nr|rewrite E, !app_length; destruct l; [congruence|cbn [length]; lia]|exists rs, b; auto|].
      rewrite Pr' in P'. apply Ok_inj in P'. subst qs'. exists q'. auto. }
    assert (LL : forall a, In a ls -> exists a', In a' ls' /\ p_word a' = p_word a /\ t_gr (p_tag a') = t_gr (p_tag a)).
    { intros a Ia. destruct (NR [] l (u "-" ++ r)) with (v := p_word a) (g := t_gr (p_tag a)) as (qs' & q' & P' & I' & W' & G'); [exact E|exact NL|rewrite E, !app_length; lia|exists ls, a; auto|].
      rewrite Pl' in P'. apply Ok_inj in P'. subst qs'. exists q'. auto. }
    destruct X as [(a & b & Ia & Ib & HP & SF & -> & ->)|(b & Ib & HP & -> & ->)].
    - left. destruct (LL a Ia) as (a' & Ia' & Wa & Ga), (RR b Ib) as (b' & Ib' & Wb & Gb). exists a', b'. split; [exact Ia'|]. split; [exact Ib'|]. unfold has_pos, same_features, feature in *. rewrite Ga, Gb, Wa, Wb. auto.
    - right. destruct (RR b Ib) as (b' & Ib' & Wb & Gb). exists b'. split; [exact Ib'|]. unfold has_pos in *. rewrite Gb, Wb. auto.
  Qed.
  Lemma po_one : shipped_units M1 -> shipped_units M2 -> pred_counts_pos (m_dict M1) -> pred_counts_pos (m_dict M2) -> forall w g, by_po M1 lower w g -> by_po M2 lower w g.
  Proof.
    intros U1 U2 C1 C2 w g ((rest & ts & t & E & L2 & Pt & It & DA) & WG). split; [|exact WG]. destruct (T1 rest) as ((ps1 & P1) & _), (T2 rest) as ((ps2 & P2) & (ts2 & Q2)).
    pose proof (proj2 (shipped_agree (fuel_for M1 rest) M1 rest ps1 ts U1 C1 P1 Pt (t_gr t)) (in_map t_gr _ _ It)) as X. apply in_map_iff in X as (t0 & G0 & X). apply in_map_iff in X as (p & <- & Ip).
    destruct (NR (u "по-") rest []) with (v := p_word p) (g := t_gr t) as (qs' & q' & P' & I' & W' & G'); [rewrite app_nil_r; exact E|intros ->; cbn in L2; lia|rewrite E, app_length; cbn; lia|exists ps1, p; auto|].
    rewrite P2 in P'. apply Ok_inj in P'. subst qs'.
    assert (Y : In (t_gr t) (map t_gr ts2)) by (apply (shipped_agree (fuel_for M2 rest) M2 rest ps2 ts2 U2 C2 P2 Q2); rewrite <- G'; apply in_map, in_map; exact I').
    apply in_map_iff in Y as (t2 & G2 & I2). exists rest, ts2, t2. do 4 (split; [assumption|]). unfold dative_adjective in *. rewrite G2. exact DA.
  Qed.
End OneWay.
