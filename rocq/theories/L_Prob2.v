(** * The P(t|w) table: totals, and the analyzer that uses it *)
From Coq Require Import String List NArith ZArith Bool QArith Lia Permutation Sorted.
From Verif Require Import Py Uni Tagset Dawg Dict Units Analyzer ConfigRu ConfigUk Compile Preprocess Probability Spec Spec5 Spec6 L_Base L_Pre L_Made L_Groups L_Prob L_Probability L_Source.
Import ListNotations.
Local Open Scope nat_scope.
Local Open Scope list_scope.

Lemma times_sum : forall occ gs, different_sets gs -> list_sum (map (fun g => times g occ) gs) <= length occ.
Proof.
  induction occ as [|x occ IH]; intros gs D; simpl.
  - clear D. induction gs; simpl; auto.
  - specialize (IH gs D). assert (list_sum (map (fun g => times g (x :: occ)) gs) <= list_sum (map (fun g => times g occ) gs) + 1) as S.
    { clear IH. assert (list_sum (map (fun g => times g (x :: occ)) gs) = list_sum (map (fun g => times g occ) gs) + length (filter (fun g => seq_set g x) gs)) as ->.
      { clear D. induction gs as [|g gs IHg]; simpl; auto. unfold times at 1. simpl. destruct (seq_set g x); simpl; unfold times in *; lia. }
      enough (length (filter (fun g => seq_set g x) gs) <= 1) by lia.
      induction gs as [|g gs IHg]; simpl; auto. destruct D as [D1 D2]. destruct (seq_set g x) eqn:E; simpl; auto.
      enough (filter (fun g => seq_set g x) gs = []) as -> by (simpl; lia).
      destruct (filter (fun g => seq_set g x) gs) as [|h r] eqn:F; auto. exfalso.
      assert (In h (h :: r)) as I by (left; auto). rewrite <- F in I. apply filter_In in I as (I & J). specialize (D1 h I).
      rewrite seq_sym in J. rewrite (seq_trans _ _ _ E J) in D1. discriminate D1. }
    lia.
Qed.
Lemma kinds_pos : forall occ, occ <> [] -> 1 <= kinds occ.
Proof. intros [|x occ] H; [congruence|]. clear H. revert x. induction occ as [|y occ IH]; intro x; simpl in *; [lia|]. destruct (_ || _); auto. Qed.
Lemma total_estimates : forall occ n gs, occ <> [] -> different_sets gs -> length gs <= n ->
  (total (map (estimate_of occ n) gs) <= 1)%Q.
Proof.
  intros occ n gs N D L. pose proof (times_sum occ gs D) as S. pose proof (kinds_pos occ N) as K.
  set (d := length occ + Nat.max n (kinds occ)).
  assert (forall l, (total (map (estimate_of occ n) l) == Z.of_nat (list_sum (map (fun g => times g occ) l) + length l) # Pos.of_nat d)%Q) as E.
  { induction l as [|g l IH]; [reflexivity|]. cbn [map total fold_right]. fold (total (map (estimate_of occ n) l)). rewrite IH.
    unfold estimate_of. fold d. unfold Qeq, Qplus. cbn [Qnum Qden map length list_sum fold_right]. change (fold_right Init.Nat.add 0) with list_sum.
    rewrite Pos2Z.inj_mul. nia. }
  rewrite E. unfold Qle. cbn [Qnum Qden].
  assert (Zpos (Pos.of_nat d) = Z.of_nat d) as ->.
  { rewrite <- (Nat2Pos.id d) at 2 by (unfold d; lia). rewrite positive_nat_Z. auto. }
  unfold d. lia.
Qed.

Lemma table_scores : forall M c mf T n word ps0 ts ps,
  m_prob M = None -> has_units M RU_DEFAULT_UNITS -> probability_table M c mf = Ok T -> colon_free M ->
  let w := u_lower (m_uni M) word in
  u_lower (m_uni M) w = w -> in_dictionary M w -> ~ In word RU_INITIAL_LETTERS -> ~ In w RU_INITIAL_LETTERS ->
  informative M c mf w -> morph_parse M w = Ok ps0 -> morph_tag M w = Ok ts -> one_spelling ps0 ->
  parse_f n (with_table M T) word = Ok ps ->
  Permutation (map reading ps0) (map reading ps) /\
  ((exists p, In p ps0 /\ ~ (prob T w (t_str (p_tag p)) == 0)%Q) ->
   StronglySorted (fun a b => p_score b <= p_score a)%Q ps /\
   forall p, In p ps -> truncates (estimate_of (occurrences M c w) (length ts) (t_gr (p_tag p))) (p_score p)).
Proof.
  intros M c mf T n word ps0 ts ps HP HU HT CF w LW ID NI NI2 INF P0 TT OS H.
  destruct (ru_word_prob n (with_table M T) T word ps HU eq_refl ID NI H) as (r & E & A).
  change (u_lower (m_uni (with_table M T)) word) with w in *.
  assert (r = ps0) as ->.
  { change (dict_parse (with_table M T) (Root 0) w) with (dict_parse M (Root 0) w) in E. unfold morph_parse, fuel_for in P0.
    unfold parse_f in P0. simpl in P0. rewrite HP in P0. apply bind_ok in P0 as (r' & E' & P0). apply Ok_inj in P0. subst r'.
    destruct (ru_head M HU) as (b0 & b1 & b2 & us & Eu & H0 & H1 & H2). rewrite Eu in E'. rewrite LW in E'.
    pose proof (run_ru _ _ _ _ _ b0 b1 b2 us _ H0 H1 H2 ID NI2 E') as X. rewrite E in X. apply Ok_inj in X. exact X. }
  apply apply_reweighted in A as (A1 & A2 & _). split; [exact A1|]. intros EX. destruct (A2 EX) as (B1 & B2 & _). split; [exact B2|].
  intros p I. apply Permutation_sym in B1. apply (Permutation_in _ B1) in I. apply in_map_iff in I as (q & <- & I). cbn [p_tag p_score].
  exact (stored_complete _ _ _ _ _ _ _ _ HT CF INF P0 TT OS I).
Qed.

(** a constructed analyzer whose tag table and unit tags have no colon *)
Definition no_colonb (s : str) : bool := negb (mem_char (chr ":") s).
Lemma colon_free_check : forall M, forallb (fun t => no_colonb (t_str t)) (d_gramtab (m_dict M)) = true ->
  forallb (fun bt => forallb (fun t => no_colonb (t_str t)) (b_tags (fst bt) ++ b_masc (fst bt) ++ b_femn (fst bt))) (m_units M) = true -> colon_free M.
Proof.
  intros M H1 H2 w ps p P I. destruct (tags_have_source _ _ _ _ P I) as ([S|(b & tm & S1 & S2)] & _).
  - rewrite forallb_forall in H1. specialize (H1 _ S). unfold no_colonb in H1. intro X. apply mem_char_In in X. rewrite X in H1. discriminate H1.
  - rewrite forallb_forall in H2. specialize (H2 _ S1). rewrite forallb_forall in H2. cbn [fst] in H2. specialize (H2 _ S2). unfold no_colonb in H2.
    intro X. apply mem_char_In in X. rewrite X in H2. discriminate H2.
Qed.
