(** * Parsing does not raise (C09) *)
From Coq Require Import String List NArith ZArith Bool Arith Lia QArith Permutation.
From Verif Require Import Py Uni Tagset Dawg Utils Shapes Dict Units Analyzer Spec L_Base L_Run L_Made L_Words.
Import ListNotations.
Local Open Scope nat_scope.
Local Open Scope list_scope.

Definition tot {A} (x : res A) : Prop := exists a, x = Ok a.
Lemma tot_ok : forall {A} (a : A), tot (Ok a).
Proof. intros; eexists; eauto. Qed.
Lemma tot_bind : forall {A B} (x : res A) (f : A -> res B), tot x -> (forall a, x = Ok a -> tot (f a)) -> tot (bind x f).
Proof. intros A B x f (a & E) H. rewrite E. simpl. auto. Qed.
Lemma tot_rmap : forall {A B} (f : A -> B) (x : res A), tot x -> tot (rmap f x).
Proof. intros A B f x (a & ->). eexists; simpl; eauto. Qed.
Lemma tot_mapM : forall {A B} (f : A -> res B) l, (forall x, In x l -> tot (f x)) -> tot (mapM f l).
Proof. intros. apply mapM_exists. auto. Qed.
Lemma tot_foldM : forall {A S} (f : S -> A -> res S) l s, (forall s x, In x l -> tot (f s x)) -> tot (foldM f s l).
Proof.
  induction l as [|x l IH]; intros s H; simpl; [apply tot_ok|].
  apply tot_bind; [apply H; left; auto|]. intros y _. apply IH. intros; apply H; right; auto.
Qed.
Lemma tot_nth : forall {A} (l : list A) i, i < length l -> tot (nth_res l i).
Proof. intros. apply nth_res_lt; auto. Qed.
Ltac tt := repeat (match goal with
  | |- tot (Ok _) => apply tot_ok
  | |- tot (bind _ _) => apply tot_bind; [|intros ? ?]
  | |- tot (rmap _ _) => apply tot_rmap
  | |- tot (match ?x with _ => _ end) => destruct x
  | |- tot (if ?x then _ else _) => destruct x
  end).

(** ** Dictionary lookups *)
Section WfDict.
  Variable D : dict.
  Hypothesis wf : wf_dict D.

  Lemma wf_para_rows : forall p idx, In p (d_paradigms D) -> idx < length p / 3 ->
    exists sid tid pid suffix t prefix,
      nth_error p idx = Some sid /\ nth_error p (length p / 3 + idx) = Some tid /\
      nth_error p (length p / 3 * 2 + idx) = Some pid /\
      nth_error (d_suffixes D) sid = Some suffix /\ nth_error (d_gramtab D) tid = Some t /\
      nth_error (d_prefixes D) pid = Some prefix.
  Proof.
    intros p idx Hp Hi. destruct wf as (W & _). destruct (W p Hp) as (s & t & q & -> & L1 & L2 & B1 & B2 & B3).
    assert (L : length (s ++ t ++ q) / 3 = length t).
    { rewrite !app_length. replace (length s + (length t + length q)) with (length t * 3) by lia. apply Nat.div_mul. lia. }
    rewrite L in *.
    destruct (nth_error s idx) as [sid|] eqn:E1; [|apply nth_error_None in E1; lia].
    destruct (nth_error t idx) as [tid|] eqn:E2; [|apply nth_error_None in E2; lia].
    destruct (nth_error q idx) as [pid|] eqn:E3; [|apply nth_error_None in E3; lia].
    apply nth_error_In in E1 as I1. apply nth_error_In in E2 as I2. apply nth_error_In in E3 as I3.
    apply B1, nth_error_Some in I1. apply B2, nth_error_Some in I2. apply B3, nth_error_Some in I3.
    destruct (nth_error (d_suffixes D) sid) as [suffix|] eqn:F1; [|congruence].
    destruct (nth_error (d_gramtab D) tid) as [tg|] eqn:F2; [|congruence].
    destruct (nth_error (d_prefixes D) pid) as [prefix|] eqn:F3; [|congruence].
    exists sid, tid, pid, suffix, tg, prefix.
    split; [rewrite nth_error_app1; auto; lia|]. split; [|split; [|auto]].
    - rewrite nth_error_app2, nth_error_app1 by lia. rewrite <- E2. f_equal. lia.
    - rewrite !nth_error_app2 by lia. rewrite <- E3. f_equal. lia.
  Qed.

  Lemma valid_row : forall para idx, valid_form D para idx -> exists prefix t suffix, para_row D para idx prefix t suffix.
  Proof.
    intros para idx (p & E & L). destruct (wf_para_rows p idx (nth_error_In _ _ E) L) as (sid & tid & pid & sf & t & pre & H).
    exists pre, t, sf, p, sid, tid, pid. tauto.
  Qed.
  Lemma row_tag_info : forall para idx pre t sf, para_row D para idx pre t sf -> build_tag_info D para idx = Ok t.
  Proof.
    intros para idx pre t sf (p & sid & tid & pid & E & L & E1 & E2 & E3 & F1 & F2 & F3).
    unfold build_tag_info, nth_res. rewrite E. cbn [bind]. rewrite E2. cbn [bind]. rewrite F2. auto.
  Qed.
  Lemma tot_tag_info : forall para idx, valid_form D para idx -> exists t, build_tag_info D para idx = Ok t /\ In t (d_gramtab D).
  Proof.
    intros para idx H. destruct (valid_row _ _ H) as (pre & t & sf & R). exists t. split; [eapply row_tag_info; eauto|].
    destruct R as (p & sid & tid & pid & E & L & E1 & E2 & E3 & F1 & F2 & F3). eapply nth_error_In; eauto.
  Qed.
  Lemma tot_stem : forall para idx p w, nth_error (d_paradigms D) para = Some p -> idx < length p / 3 -> tot (build_stem D p idx w).
  Proof.
    intros para idx p w E L. destruct (wf_para_rows p idx (nth_error_In _ _ E) L) as (sid & tid & pid & sf & t & pre & E1 & E2 & E3 & F1 & F2 & F3).
    unfold build_stem, nth_res. rewrite E3. cbn [bind]. rewrite F3. cbn [bind]. rewrite E1. cbn [bind]. rewrite F1. cbn [bind]. tt.
  Qed.
  Lemma tot_normal_form : forall para idx w, valid_form D para idx -> tot (build_normal_form D para idx w).
  Proof.
    intros para idx w (p & E & L). unfold build_normal_form. destruct (idx =? 0); [apply tot_ok|].
    unfold nth_res at 1. rewrite E. cbn [bind]. apply tot_bind; [eapply tot_stem; eauto|]. intros stem _.
    destruct (wf_para_rows p 0 (nth_error_In _ _ E)) as (sid & tid & pid & sf & t & pre & E1 & E2 & E3 & F1 & F2 & F3); [lia|].
    unfold nth_res. rewrite E3. cbn [bind]. rewrite E1. cbn [bind]. rewrite F3. cbn [bind]. rewrite F1. cbn [bind]. apply tot_ok.
  Qed.
End WfDict.

Lemma sget_pair : forall {V} k (v : V) d, sget k d = Some v -> In (k, v) d.
Proof. intros V k v d H. unfold sget in H. apply (dget_In str_eqb str_eqb_eq) in H. auto. Qed.

Section WfMorph.
  Variable M : morph.
  Hypothesis wf : wf_dict (m_dict M).
  Hypothesis names : names_ok (m_uni M).

  Lemma words_valid : forall w vals para idx, sget w (d_words (m_dict M)) = Some vals -> In (para, idx) vals ->
    valid_form (m_dict M) para idx.
  Proof. intros w vals para idx H1 H2. destruct wf as (_ & W & _). eapply W; eauto. apply sget_pair; eauto. Qed.
  Lemma pred_valid : forall dawg w vals c para idx, In dawg (d_pred (m_dict M)) -> sget w dawg = Some vals -> In (c, para, idx) vals ->
    valid_form (m_dict M) para idx.
  Proof. intros dawg w vals c para idx H H1 H2. destruct wf as (_ & _ & W & _). eapply W; eauto. apply sget_pair; eauto. Qed.

  Lemma tot_dict : forall s l, tot (dict_parse M s l).
  Proof.
    intros s l. unfold dict_parse. apply tot_rmap, tot_mapM. intros [w vals] H. apply similar_items_In in H as [_ H].
    apply tot_mapM. intros [para idx] Hi. pose proof (words_valid _ _ _ _ H Hi) as V.
    destruct (tot_tag_info _ wf _ _ V) as (t & E & _). destruct (tot_normal_form _ wf _ _ w V) as (nf & E').
    rewrite E'. simpl. rewrite E. simpl. apply tot_ok.
  Qed.
  Lemma tot_dict_tag : forall l, tot (dict_tag M l).
  Proof.
    intros l. unfold dict_tag. apply tot_rmap, tot_mapM. intros vals H. unfold similar_item_values in H.
    apply in_map_iff in H as ([w vals'] & <- & H). apply similar_items_In in H as [_ H].
    apply tot_mapM. intros [para idx] Hi. pose proof (words_valid _ _ _ _ H Hi) as V.
    destruct (tot_tag_info _ wf _ _ V) as (t & E & _). exists t. auto.
  Qed.
  Lemma tot_latin : forall s, tot (all_latin (m_uni M) s).
  Proof.
    induction s as [|c s IH]; simpl; [apply tot_ok|]. destruct (u_alpha (m_uni M) c) eqn:E; auto.
    unfold is_latin_char. specialize (names c E). destruct (u_latin (m_uni M) c); [|congruence]. simpl. destruct b; auto. apply tot_ok.
  Qed.
  Lemma tot_shape : forall b w, unit_tags_ok b -> tot (shape_tag (m_uni M) b w).
  Proof.
    intros b w H. unfold unit_tags_ok in H. unfold shape_tag, is_latin.
    destruct (b_cfg b); try apply tot_ok.
    - destruct (number_shape _ _) as [[]|]; try apply tot_ok; apply tot_rmap, tot_nth; lia.
    - destruct (is_punctuation _ _); try apply tot_ok. apply tot_rmap, tot_nth. destruct (b_tags b); [congruence|simpl; lia].
    - apply tot_bind; [destruct (existsb _ _); [apply tot_latin|apply tot_ok]|]. intros [] _; [|apply tot_ok].
      apply tot_rmap, tot_nth. destruct (b_tags b); [congruence|simpl; lia].
    - destruct (is_roman_number _); try apply tot_ok. apply tot_rmap, tot_nth. destruct (b_tags b); [congruence|simpl; lia].
  Qed.
  Lemma tot_ks_lengths : forall self sub pid dawg lower is st, In dawg (d_pred (m_dict M)) ->
    tot (ks_lengths M self sub pid dawg lower st is).
  Proof.
    intros self sub pid dawg lower is; induction is as [|j is IH]; intros st Hd; simpl; [apply tot_ok|].
    apply tot_bind; [|intros; tt; auto]. unfold ks_at. apply tot_foldM. intros s [fs vals] H.
    apply similar_items_In in H as [_ H]. apply tot_foldM. intros s' [[c p] k] Hk.
    pose proof (pred_valid _ _ _ _ _ _ Hd H Hk) as V.
    unfold ks_step. destruct (tot_tag_info _ wf _ _ V) as (t & -> & _). simpl.
    destruct (negb _); [apply tot_ok|]. destruct (seen_mem _ _); [apply tot_ok|].
    destruct (tot_normal_form _ wf _ _ (slice_to lower (- Z.of_nat j) ++ fs) V) as (nf & ->). apply tot_ok.
  Qed.
  Lemma tot_kst_lengths : forall dawg lower is st, In dawg (d_pred (m_dict M)) -> tot (kst_lengths M dawg lower st is).
  Proof.
    intros dawg lower is; induction is as [|j is IH]; intros st Hd; simpl; [apply tot_ok|].
    apply tot_bind; [|intros; tt; auto]. unfold kst_at. apply tot_foldM. intros s [fs vals] H.
    apply similar_items_In in H as [_ H]. apply tot_foldM. intros s' [[c p] k] Hk.
    pose proof (pred_valid _ _ _ _ _ _ Hd H Hk) as V.
    unfold kst_step. destruct (tot_tag_info _ wf _ _ V) as (t & -> & _). simpl. tt.
  Qed.
  Lemma tot_pred : forall lower pid pre, In (pid, pre) (ks_prefixes (m_dict M) lower) ->
    exists dawg, nth_res (d_pred (m_dict M)) pid = Ok dawg /\ In dawg (d_pred (m_dict M)).
  Proof.
    intros lower pid pre H. apply ks_prefixes_In in H as [H _].
    assert (L : pid < length (d_pred (m_dict M))).
    { destruct wf as (_ & _ & _ & W). apply Nat.lt_le_trans with (length (d_prefixes (m_dict M))); auto.
      apply nth_error_Some. congruence. }
    destruct (nth_res_lt _ _ L) as (dawg & E). exists dawg. split; auto. apply nth_res_ok in E. eapply nth_error_In; eauto.
  Qed.
  Hypothesis known : forall g, In g (map u ["ADJF"; "sing"; "datv"]%string) -> In g (tc_known (m_tc M)).
  Lemma tot_any : forall ts, tot (any_contains (m_tc M) (map u ["ADJF"; "sing"; "datv"]%string) ts).
  Proof.
    induction ts as [|t ts IH]; cbn [any_contains]; [apply tot_ok|].
    apply tot_bind; [|intros [] _; auto; apply tot_ok].
    unfold contains_set, assert_known. destruct (ssub _ (t_gr t)); [apply tot_ok|].
    rewrite (proj2 (ssub_incl _ _) known). apply tot_ok.
  Qed.
End WfMorph.

Section Tot.
  Variables (recP : str -> res (list parse)) (recT : str -> res (list tag)).
  Variables (M : morph) (i : nat) (b : bunit) (word lower : str).
  Hypothesis wf : wf_dict (m_dict M).
  Hypothesis names : names_ok (m_uni M).
  Hypothesis known : forall g, In g (map u ["ADJF"; "sing"; "datv"]%string) -> In g (tc_known (m_tc M)).
  Hypothesis shortOk : forall w, short lower w -> tot (recP w) /\ tot (recT w).
  Hypothesis nonempty : prefixes_nonempty b.
  Hypothesis tags : unit_tags_ok b.
  Lemma adverb_tot : tot (adverb_should_parse recT M lower).
  Proof.
    unfold adverb_should_parse. destruct (Nat.ltb_spec (length lower) 5); [apply tot_ok|]. cbn [orb].
    destruct (negb _); [apply tot_ok|]. apply tot_bind; [|intros; apply tot_any; auto].
    apply shortOk. change 3%Z with (Z.of_nat 3). rewrite slice_from_pos.
    rewrite <- (firstn_skipn 3 lower) at 1. apply short_suffix.
    destruct lower; simpl in *; [lia|congruence].
  Qed.
  Lemma hyph_tot : forall skip mult seen, tot (hyph_parse recP M (Root i) skip mult lower seen).
  Proof.
    intros. unfold hyph_parse. destruct (hyph_should_parse M skip lower) eqn:HS; cbn [negb]; [|apply tot_ok].
    destruct (split_once HY lower) as [lw [rw|]] eqn:E.
    - apply split_once_spec in E as [E _]. apply tot_bind.
      + apply shortOk. rewrite E. split; [exists [], (HY :: rw); auto|rewrite app_length; simpl; lia].
      + intros ls _. apply tot_bind; [|intros; apply tot_ok]. apply shortOk.
        rewrite E. split; [exists (lw ++ [HY]), []; rewrite app_nil_r, <- app_assoc; auto|rewrite app_length; simpl; lia].
    - exfalso. unfold hyph_should_parse in HS. apply andb_true_iff in HS as [HS _]. apply andb_true_iff in HS as [HS _].
      apply andb_true_iff in HS as [HS _]. apply mem_char_In in HS.
      clear -E HS. revert lw E. induction lower as [|c s IH]; intros lw E; [destruct HS|]. simpl in E.
      destruct (N.eqb_spec c HY) as [->|N]; [discriminate|]. destruct HS as [HS|HS]; [congruence|].
      destruct (split_once HY s) as [x [y|]] eqn:F; [discriminate|]. eapply IH; eauto.
  Qed.
  Lemma unit_parse_tot : forall seen, tot (unit_parse recP recT M i b word lower seen).
  Proof.
    intros seen. unfold unit_parse. pose proof (tot_shape M names b word tags) as TS. unfold unit_tags_ok in tags.
    destruct (b_cfg b) eqn:C; try (unfold shape_parse; tt; auto; fail).
    - tt. apply tot_dict; auto.
    - unfold particle_parse. destruct (particle_splits particles lower) as [|[w pt] r] eqn:E; [apply tot_ok|].
      tt. apply shortOk. eapply particle_short; eauto. rewrite E. left; eauto.
    - apply tot_bind; [apply adverb_tot|intros a _; destruct a; tt].
      apply tot_nth. destruct (b_tags b); [congruence|simpl; lia].
    - apply hyph_tot.
    - unfold kp_parse. apply tot_foldM. intros st [pre rest] Hin. tt. apply shortOk. eapply kp_short; eauto.
    - unfold up_parse. apply tot_foldM. intros st [pre rest] _. tt; apply tot_dict; auto.
    - unfold ks_parse. destruct (_ <? _); [apply tot_ok|]. apply tot_bind; [|intros; tt].
      apply tot_foldM. intros acc [pid pre] Hin. unfold ks_prefix.
      destruct (tot_pred M wf _ _ _ Hin) as (dawg & -> & Hd). cbn [bind]. tt. apply tot_ks_lengths; auto.
    - destruct seen; [|apply tot_ok]. apply tot_bind; [|intros; apply tot_ok]. apply tot_nth. destruct (b_tags b); [congruence|simpl; lia].
  Qed.
  Lemma unit_tag_tot : forall seen, tot (unit_tag recP recT M i b word lower seen).
  Proof.
    intros seen. unfold unit_tag. pose proof (tot_shape M names b word tags) as TS. unfold unit_tags_ok in tags.
    destruct (b_cfg b) eqn:C; try (unfold shape_tags; tt; auto; fail).
    - tt; apply tot_dict_tag; auto.
    - unfold particle_tag. destruct (particle_splits particles lower) as [|[w pt] r] eqn:E; [apply tot_ok|].
      tt. apply shortOk. eapply particle_short; eauto. rewrite E. left; eauto.
    - apply tot_bind; [apply adverb_tot|intros a _; destruct a; cbn [negb]; tt].
      apply tot_nth. destruct (b_tags b); [congruence|simpl; lia].
    - unfold default_tag. apply tot_bind; [apply hyph_tot|]. intros; tt.
    - unfold kp_tag. apply tot_foldM. intros st [pre rest] Hin. tt. apply shortOk. eapply kp_short; eauto.
    - unfold up_tag. apply tot_foldM. intros st [pre rest] _. tt; apply tot_dict_tag; auto.
    - unfold ks_tag. destruct (_ <? _); [apply tot_ok|]. apply tot_bind; [|intros; tt].
      apply tot_foldM. intros acc [pid pre] Hin. unfold kst_prefix. cbn [fst].
      destruct (tot_pred M wf _ _ _ Hin) as (dawg & -> & Hd). cbn [bind]. tt. apply tot_kst_lengths; auto.
    - destruct seen; [|apply tot_ok]. apply tot_bind; [|intros; apply tot_ok]. apply tot_nth. destruct (b_tags b); [congruence|simpl; lia].
  Qed.
End Tot.

Section TotRun.
  Variables (recP : str -> res (list parse)) (recT : str -> res (list tag)).
  Variables (M : morph) (word lower : str).
  Hypothesis wf : wf_dict (m_dict M).
  Hypothesis names : names_ok (m_uni M).
  Hypothesis known : forall g, In g (map u ["ADJF"; "sing"; "datv"]%string) -> In g (tc_known (m_tc M)).
  Hypothesis shortOk : forall w, short lower w -> tot (recP w) /\ tot (recT w).
  Lemma run_parse_tot : forall us i acc seen,
    Forall (fun bt => unit_tags_ok (fst bt) /\ prefixes_nonempty (fst bt)) us ->
    tot (run_parse recP recT M word lower i us acc seen).
  Proof.
    induction us as [|[b tm] us IH]; intros i acc seen F; simpl; [apply tot_ok|].
    inversion F as [|x l [H1 H2] F2]; subst. apply tot_bind; [apply unit_parse_tot; auto|].
    intros [ps s] _. destruct (tm && _); auto. apply tot_ok.
  Qed.
  Lemma run_tag_tot : forall us i acc seen,
    Forall (fun bt => unit_tags_ok (fst bt) /\ prefixes_nonempty (fst bt)) us ->
    tot (run_tag recP recT M word lower i us acc seen).
  Proof.
    induction us as [|[b tm] us IH]; intros i acc seen F; simpl; [apply tot_ok|].
    inversion F as [|x l [H1 H2] F2]; subst. apply tot_bind; [apply unit_tag_tot; auto|].
    intros [ps s] _. destruct (tm && _); auto. apply tot_ok.
  Qed.
End TotRun.

Lemma analyze_tot : forall n M word, wf_morph M -> m_prob M = None ->
  length (u_lower (m_uni M) word) < n -> tot (parse_f n M word) /\ tot (tag_f n M word).
Proof.
  intros n M word (W1 & W2 & W3 & W4 & W5) HP. revert word. induction n as [|n IH]; intros word L; [lia|].
  unfold parse_f, tag_f. simpl. rewrite HP.
  assert (S : forall w, short (u_lower (m_uni M) word) w -> tot (fst (analyze n M) w) /\ tot (snd (analyze n M) w)).
  { intros w ((a & c & E) & Lw). apply IH. rewrite (W3 word a w c E). lia. }
  split.
  - apply tot_bind; [apply run_parse_tot; auto|intros; apply tot_ok].
  - apply tot_bind; [apply run_tag_tot; auto|intros; apply tot_ok].
Qed.

(** ** With an estimator: positive scores *)
Lemma Qsum_acc : forall l a, (fold_left Qplus l a == a + fold_left Qplus l 0)%Q.
Proof.
  induction l as [|x l IH]; intro a; simpl; [ring|]. rewrite IH, (IH (0 + x)%Q). ring.
Qed.
Lemma Qsum_cons : forall x l, (Qsum (x :: l) == x + Qsum l)%Q.
Proof. intros. unfold Qsum. simpl. rewrite Qsum_acc. ring. Qed.
Lemma Qsum_nonneg : forall l, (forall x, In x l -> (0 <= x)%Q) -> (0 <= Qsum l)%Q.
Proof.
  induction l as [|x l IH]; intros H; [apply Qle_refl|]. rewrite Qsum_cons.
  apply (Qplus_le_compat 0 x 0 (Qsum l)); [apply H; left; auto|apply IH; intros; apply H; right; auto].
Qed.
Lemma Qsum_pos : forall l, l <> [] -> (forall x, In x l -> (0 < x)%Q) -> (0 < Qsum l)%Q.
Proof.
  intros [|x l] N H; [congruence|]. rewrite Qsum_cons.
  apply Qlt_le_trans with (x + 0)%Q; [rewrite Qplus_0_r; apply H; left; auto|].
  apply Qplus_le_compat; [apply Qle_refl|]. apply Qsum_nonneg. intros; apply Qlt_le_weak; apply H; right; auto.
Qed.
Lemma Qsum_zero : forall l, (forall x, In x l -> (x == 0)%Q) -> (Qsum l == 0)%Q.
Proof.
  induction l as [|x l IH]; intros H; [reflexivity|]. rewrite Qsum_cons, (H x) by (left; auto).
  rewrite IH; [ring|intros; apply H; right; auto].
Qed.

Lemma prob_nonneg : forall d w t, (0 <= prob d w t)%Q.
Proof. intros. unfold prob. destruct (sget _ _); unfold Qle; simpl; lia. Qed.
Lemma Qsum_zero_inv : forall l, (forall x, In x l -> (0 <= x)%Q) -> (Qsum l == 0)%Q -> forall x, In x l -> (x == 0)%Q.
Proof.
  induction l as [|y l IH]; intros N H x Hx; [destruct Hx|]. rewrite Qsum_cons in H.
  assert (A : (0 <= y)%Q) by (apply N; left; auto).
  assert (B : (0 <= Qsum l)%Q) by (apply Qsum_nonneg; intros; apply N; right; auto).
  assert (E1 : (y == 0)%Q).
  { apply Qle_antisym; auto. rewrite <- H. rewrite <- (Qplus_0_r y) at 1. apply Qplus_le_compat; [apply Qle_refl|auto]. }
  assert (E2 : (Qsum l == 0)%Q) by (rewrite <- H, E1; ring).
  destruct Hx as [<-|Hx]; auto. apply IH; auto. intros; apply N; right; auto.
Qed.
(** the two branches of the re-weighting *)
Lemma combine_map_In : forall {A B} (f : A -> B) l q s, In (q, s) (combine l (map f l)) -> In q l /\ s = f q.
Proof.
  induction l as [|x l IH]; intros q s H; [destruct H|]. simpl in H. destruct H as [H|H].
  - inversion H; subst. split; [left|]; auto.
  - destruct (IH _ _ H). split; [right|]; auto.
Qed.
Lemma combine_map_In_l : forall {A B} (f : A -> B) l q, In q l -> In (q, f q) (combine l (map f l)).
Proof. induction l as [|x l IH]; intros q H; [destruct H|]. simpl. destruct H as [<-|H]; auto. Qed.
Lemma apply_tot : forall d lower ps, (forall p, In p ps -> (0 < p_score p)%Q) -> tot (apply_to_parses d lower ps).
Proof.
  intros d lower ps H. destruct ps as [|p0 ps0]; [eexists; reflexivity|].
  unfold apply_to_parses. set (ps := p0 :: ps0) in *.
  destruct (Qeq_bool (Qsum (map _ ps)) 0); [|eexists; reflexivity].
  destruct (Qeq_bool (Qsum (map p_score ps)) 0) eqn:E2; [|eexists; reflexivity].
  assert (S : (0 < Qsum (map p_score ps))%Q).
  { apply Qsum_pos; [discriminate|]. intros x Hx. apply in_map_iff in Hx as (p & <- & Hp). apply H; auto. }
  apply Qeq_bool_iff in E2. rewrite E2 in S. destruct (Qlt_irrefl _ S).
Qed.
Lemma apply_good : forall d lower ps r,
  (forall p, In p ps -> (0 < p_score p)%Q) -> apply_to_parses d lower ps = Ok r ->
  ((forall p, In p r -> prob d lower (t_str (p_tag p)) == 0)%Q \/
   (forall p, In p r -> 0 < prob d lower (t_str (p_tag p)))%Q) ->
  forall p, In p r -> (0 < p_score p)%Q.
Proof.
  intros d lower ps r H E NM. destruct ps as [|p0 ps0]; [inversion E; subst; intros p []|].
  unfold apply_to_parses in E. set (ps := p0 :: ps0) in *.
  assert (S : (0 < Qsum (map p_score ps))%Q).
  { apply Qsum_pos; [discriminate|]. intros x Hx. apply in_map_iff in Hx as (p & <- & Hp). apply H; auto. }
  destruct (Qeq_bool (Qsum (map (fun p => prob d lower (t_str (p_tag p))) ps)) 0) eqn:E1.
  - destruct (Qeq_bool (Qsum (map p_score ps)) 0) eqn:E2; [discriminate|]. apply Ok_inj in E. subst r.
    intros p Hp. apply in_map_iff in Hp as (q & <- & Hq). cbn [with_score p_score].
    apply Qmult_lt_0_compat; [apply H; auto|]. unfold Qdiv. rewrite Qmult_1_l. apply Qinv_lt_0_compat; auto.
  - apply Ok_inj in E. destruct NM as [Z|P].
    + assert (Qeq_bool (Qsum (map (fun p => prob d lower (t_str (p_tag p))) ps)) 0 = true); [|congruence].
      apply Qeq_bool_iff, Qsum_zero. intros x Hx. apply in_map_iff in Hx as (p & <- & Hp).
      specialize (Z (with_score p (prob d lower (t_str (p_tag p))))). cbn [with_score p_tag] in Z. apply Z.
      subst r. apply sort_desc_In. apply in_map_iff. exists (p, prob d lower (t_str (p_tag p))). split; [auto|].
      apply (combine_map_In_l (fun p => prob d lower (t_str (p_tag p)))); auto.
    + intros p Hp. specialize (P p Hp). subst r. apply sort_desc_In in Hp. apply in_map_iff in Hp as ([q s] & <- & Hq).
      apply combine_map_In in Hq as [Hq ->]. exact P.
Qed.

Section MadePos.
  Variables (recP : str -> res (list parse)) (recT : str -> res (list tag)).
  Variables (M : morph) (i : nat) (b : bunit) (tm : bool) (word lower : str).
  Hypothesis wf : wf_dict (m_dict M).
  Hypothesis hb : nth_error (m_units M) i = Some (b, tm).
  Hypothesis pos : scores_pos M.
  Hypothesis counts : pred_counts_pos (m_dict M).
  Let good (p : parse) := (0 < p_score p)%Q.
  Hypothesis recGood : forall w ps p, recP w = Ok ps -> In p ps -> good p.

  Lemma upos : (0 < unit_score (b_cfg b))%Q.
  Proof. unfold scores_pos in pos. rewrite Forall_forall in pos. apply nth_error_In in hb. apply (pos _ hb). Qed.
  Lemma dict_good : forall self l p, dict_entry M self l p -> good p.
  Proof. intros self l p (w & vals & para & idx & nf & t & H1 & H2 & H3 & H4 & H5 & ->). reflexivity. Qed.
  Lemma made_good : forall p, made recP recT M i b word lower p -> good p.
  Proof.
    intros p Md. pose proof upos as U. unfold good.
    destruct Md.
    - eapply dict_good; eauto.
    - rewrite H in U. exact U.
    - destruct H as [H|[H|[H|H]]]; rewrite H in U; exact U.
    - rewrite H in U. pose proof (recGood _ _ _ H5 H6). apply Qmult_lt_0_compat; auto.
    - rewrite H in U. exact U.
    - rewrite H in U. pose proof (recGood _ _ _ H2 H4). apply Qmult_lt_0_compat; auto.
    - rewrite H in U. pose proof (recGood _ _ _ H2 H3). apply Qmult_lt_0_compat; auto.
    - rewrite H in U. pose proof (recGood _ _ _ H1 H2). apply Qmult_lt_0_compat; auto.
    - rewrite H in U. pose proof (dict_good _ _ _ H1). apply Qmult_lt_0_compat; auto.
    - rewrite H in U. destruct H1 as (pid & pre & dawg & j & fs & vals & cnt & para & idx & t & nf & total & H1).
      destruct H1 as (_ & _ & Hd & _ & _ & Hs & Hv & Ht & _ & _ & Hc & ->). cbn [p_score p_tag].
      apply nth_error_In in Hd.
      apply Qmult_lt_0_compat; auto. unfold Qlt. simpl. pose proof (counts _ _ _ _ _ _ Hd (sget_pair _ _ _ Hs) Hv). lia.
    - reflexivity.
  Qed.
End MadePos.

Lemma analyze_tot_prob : forall n M d word, wf_morph M -> m_prob M = Some d -> no_mixture M d ->
  scores_pos M -> pred_counts_pos (m_dict M) ->
  length (u_lower (m_uni M) word) < n -> tot (parse_f n M word) /\ tot (tag_f n M word).
Proof.
  intros n M d word (W1 & W2 & W3 & W4 & W5) HP NM SP PC. revert word.
  assert (Good : forall n word ps p, parse_f n M word = Ok ps -> In p ps -> (0 < p_score p)%Q).
  { induction n0 as [|m IHm]; intros w ps p E Hp; [discriminate|].
    pose proof (NM _ _ _ E) as NMw.
    unfold parse_f in E. simpl in E. rewrite HP in E.
    apply bind_ok in E as (r & Er & E).
    assert (Gr : forall p, In p r -> (0 < p_score p)%Q).
    { intros q Hq. eapply run_parse_made in Er as [[]|(j & b & tm & N & Md)]; eauto.
      eapply made_good; eauto. }
    apply (apply_good _ _ _ _ Gr E NMw); auto. }
  induction n as [|n IH]; intros word L; [lia|].
  assert (S : forall w, short (u_lower (m_uni M) word) w -> tot (fst (analyze n M) w) /\ tot (snd (analyze n M) w)).
  { intros w ((a & c & E) & Lw). apply IH. rewrite (W3 word a w c E). lia. }
  unfold parse_f, tag_f. simpl. rewrite HP. split.
  - apply tot_bind; [apply run_parse_tot; auto|]. intros r Er.
    apply apply_tot. intros q Hq. eapply run_parse_made in Er as [[]|(j & b & tm & N & Md)]; eauto.
    eapply made_good; eauto.
  - apply tot_bind; [apply run_tag_tot; auto|intros; apply tot_ok].
Qed.
