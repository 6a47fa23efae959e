(** * Lemmas for C97: every reading has its own derivation *)
From Coq Require Import String List NArith ZArith Bool QArith Lia Permutation.
From Verif Require Import Py Uni Tagset Dawg Utils Shapes Dict Units Analyzer ConfigRu ConfigUk Compile Spec Spec2 Spec3 Spec14 Spec15 Spec34 Spec35 Spec36 Spec38 Spec41 Spec43 Spec44.
From Verif Require Import L_Base L_Made L_Run L_Parse L_Prob L_ByUnit L_ShapeU L_Units L_Known L_Adverb L_Words L_Groups L_Stages L_Every L_Compile2 L_Twice L_Twice3.
Import ListNotations.
Local Open Scope nat_scope.
Local Open Scope list_scope.

Definition ends_in (self : uref) (p : parse) : Prop := exists l m, p_stack p = l ++ [m] /\ m_unit m = self.
Definition own (self : uref) (ps : list parse) : Prop := NoDup (map p_stack ps) /\ Forall (ends_in self) ps.
Lemma NoDup_stacks : forall ps, NoDup (map identity ps) -> (forall p q, In p ps -> In q ps -> p_stack p = p_stack q -> identity p = identity q) -> NoDup (map p_stack ps).
Proof.
  induction ps as [|p ps IH]; intros N H; cbn [map] in *; [constructor|]. inversion N as [|x l X Y]. subst x l. constructor.
  - intros I. apply in_map_iff in I as (q & E & I). apply X. rewrite (H p q (or_introl eq_refl) (or_intror I) (eq_sym E)). exact (in_map identity _ _ I).
  - apply IH; [exact Y|]. intros a b A B. apply H; right; assumption.
Qed.
Lemma same_element : forall ps p q, NoDup (map p_stack ps) -> In p ps -> In q ps -> p_stack p = p_stack q -> p = q.
Proof.
  induction ps as [|x ps IH]; intros p q N I J E; [destruct I|]. cbn [map] in N. inversion N as [|y l X Y]. subst y l.
  destruct I as [->|I], J as [->|J]; [reflexivity| | |exact (IH p q Y I J E)]; exfalso; apply X.
  - rewrite E. exact (in_map p_stack _ _ J).
  - rewrite <- E. exact (in_map p_stack _ _ I).
Qed.
Lemma adds_from : forall l st p, In p (fst (fold_left add_parse_if_not_seen l st)) -> In p l \/ In p (fst st).
Proof.
  induction l as [|x l IH]; intros [res seen] p I; cbn [fold_left] in I; [right; exact I|]. apply IH in I as [I|I]; [left; right; exact I|].
  unfold add_parse_if_not_seen in I. destruct (seen_mem _ _) in I; [right; exact I|]. cbn [fst] in *. apply in_app_iff in I as [I|[<-|[]]]; [right; exact I|left; left; reflexivity].
Qed.
Lemma ends_last : forall self l m p, p_stack p = l ++ [m] -> m_unit m = self -> ends_in self p. Proof. intros self l m p E U. exists l, m. auto. Qed.
Lemma few_own : forall self ps, length ps <= 1 -> Forall (ends_in self) ps -> own self ps.
Proof. intros self ps L F. split; [|exact F]. destruct ps as [|p [|q ps]]; cbn [map]; [constructor|repeat constructor; intros []|cbn in L; lia]. Qed.
Lemma own_none : forall self, own self []. Proof. intros self. split; constructor. Qed.
(** ** prefixes *)
Lemma splits_own : forall (rec : str -> res (list parse)) self mult lower splits seen ps seen',
  (forall pr, In pr splits -> lower = fst pr ++ snd pr) -> (forall pr qs, In pr splits -> rec (snd pr) = Ok qs -> NoDup (map p_stack qs)) ->
  foldM (fun st (pr : str * str) => let '(prefix, rest) := pr in let* qs := rec rest in Ok (prefix_step self mult prefix st qs)) ([], seen) splits = Ok (ps, seen') -> own self ps.
Proof.
  intros rec self mult lower splits seen ps seen' SP RN H.
  assert (F : forall p, In p ps -> exists prefix rest qs q, In (prefix, rest) splits /\ rec rest = Ok qs /\ In q qs /\ p = prefixed self mult prefix q).
  { refine (foldM_inv (fun st : list parse * list skey => forall p, In p (fst st) -> exists prefix rest qs q, In (prefix, rest) splits /\ rec rest = Ok qs /\ In q qs /\ p = prefixed self mult prefix q) _ _ _ _ _ _ H); [intros p []|].
    intros st [prefix rest] st' I T E p J. apply bind_ok in E as (qs & R & E). apply Ok_inj in E. subst st'. unfold prefix_step in J. apply adds_from in J as [J|J]; [|exact (T p J)].
    apply in_map_iff in J as (q & <- & J). apply filter_In in J as [J _]. exists prefix, rest, qs, q. auto. }
  split.
  - apply (splits_tracked _ _ _ _ []) in H; [|apply tracked_none]. apply NoDup_stacks; [apply identities; exact (proj1 H)|].
    intros p q I J E. destruct (F p I) as (x & r & a & p0 & X & R & A & ->). destruct (F q J) as (x' & r' & a' & q0 & X' & R' & A' & ->). unfold prefixed in E. cbn [p_stack] in E.
    apply app_inj_tail in E as (E & X0). injection X0 as X0. subst x'. pose proof (SP _ X) as L. rewrite (SP _ X') in L. cbn [fst snd] in L. apply app_inv_head in L. subst r'. rewrite R in R'. apply Ok_inj in R'. subst a'.
    rewrite (same_element a p0 q0 (RN _ _ X R) A A' E). reflexivity.
  - apply Forall_forall. intros p I. destruct (F p I) as (x & r & a & q & _ & _ & _ & ->). eapply ends_last; reflexivity.
Qed.
(** ** endings *)
Definition raw_row (M : morph) (self sub : uref) (r : ksraw) : Prop := exists para idx s, k_stack r = [MDict sub (k_word r) para idx; MStr self s] /\ build_tag_info (m_dict M) para idx = Ok (k_tag r).
Lemma ks_step_row : forall M self sub pid fw fs st v st', ks_step M self sub pid fw fs st v = Ok st' -> Forall (raw_row M self sub) (ks_res st) -> Forall (raw_row M self sub) (ks_res st').
Proof.
  intros M self sub pid fw fs st [[cnt para] idx] st' H T. unfold ks_step in H. apply bind_ok in H as (t & B & H). destruct (negb (is_productive t)); [apply Ok_inj in H; subst; exact T|].
  destruct (seen_mem _ _) eqn:E; [apply Ok_inj in H; subst; exact T|]. apply bind_ok in H as (nf & _ & H). apply Ok_inj in H. subst st'. cbn [ks_res].
  apply Forall_app. split; [exact T|]. constructor; [|constructor]. exists para, idx, fs. split; [reflexivity|exact B].
Qed.
Lemma ks_lengths_row : forall M self sub pid dawg lower is st st', ks_lengths M self sub pid dawg lower st is = Ok st' -> Forall (raw_row M self sub) (ks_res st) -> Forall (raw_row M self sub) (ks_res st').
Proof.
  induction is as [|i is IH]; intros st st' H T; cbn [ks_lengths] in H; [apply Ok_inj in H; subst; exact T|]. apply bind_ok in H as (s1 & E1 & E2).
  assert (T1 : Forall (raw_row M self sub) (ks_res s1)).
  { unfold ks_at in E1. refine (foldM_inv (fun s => Forall (raw_row M self sub) (ks_res s)) _ _ _ _ T _ E1). intros s [sfx vals] s' _ Ts E.
    refine (foldM_inv (fun s => Forall (raw_row M self sub) (ks_res s)) _ _ _ _ Ts _ E). intros a x b _ Ta X. exact (ks_step_row _ _ _ _ _ _ _ _ _ X Ta). }
  destruct (1 <? ks_total s1); [apply Ok_inj in E2; subst; exact T1|exact (IH _ _ E2 T1)].
Qed.
Definition ks_row (M : morph) (self sub : uref) (p : parse) : Prop := exists para idx s, p_stack p = [MDict sub (p_word p) para idx; MStr self s] /\ build_tag_info (m_dict M) para idx = Ok (p_tag p).
Lemma ks_rows : forall M self sub mult minlen word lower seen ps seen', ks_parse M self sub mult minlen word lower seen = Ok (ps, seen') -> Forall (ks_row M self sub) ps.
Proof.
  intros M self sub mult minlen word lower seen ps seen' H. unfold ks_parse in H. destruct (length word <? minlen); [apply Ok_inj in H; injection H as <- <-; constructor|].
  apply bind_ok in H as (r & E & H). apply Ok_inj in H. injection H as <- _. apply (Permutation_Forall (x := fst r)); [apply sort_desc_perm|].
  refine (foldM_inv (fun a : list parse * list skey => Forall (ks_row M self sub) (fst a)) _ _ _ _ _ _ E); [constructor|].
  intros a [pid pre] b _ T X. unfold ks_prefix in X. apply bind_ok in X as (dawg & _ & X). apply bind_ok in X as (st & L & X). apply Ok_inj in X. subst b. cbn [fst]. apply Forall_app. split; [exact T|].
  apply ks_lengths_row in L; [|constructor]. rewrite Forall_forall in L. apply Forall_forall. intros p I. apply in_map_iff in I as (raw & <- & I). apply L in I as (para & idx & s & K1 & K2). exists para, idx, s. split; [exact K1|exact K2].
Qed.
Lemma ks_own : forall M self sub mult minlen word lower seen ps seen', ks_parse M self sub mult minlen word lower seen = Ok (ps, seen') -> own self ps.
Proof.
  intros M self sub mult minlen word lower seen ps seen' H. pose proof (ks_rows _ _ _ _ _ _ _ _ _ _ H) as F. rewrite Forall_forall in F. split.
  - apply (ks_tracked _ _ _ _ _ _ _ _ _ _ []) in H; [|apply tracked_none]. apply NoDup_stacks; [apply identities; exact (proj1 H)|].
    intros p q I J E. destruct (F p I) as (pa & ix & s & P1 & P2). destruct (F q J) as (pa' & ix' & s' & Q1 & Q2). rewrite P1, Q1 in E. injection E as E1 <- <- _. rewrite P2 in Q2. apply Ok_inj in Q2.
    unfold identity, basis. rewrite P1, Q1, Q2, E1. reflexivity.
  - apply Forall_forall. intros p I. destruct (F p I) as (pa & ix & s & P1 & _). apply (ends_last _ [MDict sub (p_word p) pa ix] (MStr self s)); [exact P1|reflexivity].
Qed.
(** ** dictionary rows *)
Lemma dict_own : forall M self lower ps, entries_distinct (m_dict M) -> subst_proper (m_subst M) -> dict_parse M self lower = Ok ps -> own self ps.
Proof.
  intros M self lower ps ED SP H. split; [exact (entries_once _ _ _ ED SP _ H)|]. apply Forall_forall. intros p I. destruct (dict_stacks _ _ _ _ _ H I) as (w & pa & ix & E). apply (ends_last _ [] (MDict self w pa ix)); [exact E|reflexivity].
Qed.
(** ** compounds *)
Lemma NoDup_filter : forall {A} (f : A -> bool) (g : A -> list method) l, NoDup (map g l) -> NoDup (map g (filter f l)).
Proof.
  intros A f g l. induction l as [|x l IH]; intros N; cbn [filter]; [constructor|]. cbn [map] in N. inversion N as [|y k X Y]. subst y k. destruct (f x); [|exact (IH Y)]. cbn [map]. constructor; [|exact (IH Y)].
  intros I. apply X. apply in_map_iff in I as (z & E & I). apply filter_In in I as [I _]. rewrite <- E. exact (in_map g _ _ I).
Qed.
Lemma both_own : forall self mult ls rs, NoDup (map p_stack ls) -> NoDup (map p_stack rs) -> NoDup (map p_stack (variable_both self mult ls rs)).
Proof.
  intros self mult ls rs NL NR. unfold variable_both. induction ls as [|l ls IH]; cbn [flat_map]; [constructor|]. cbn [map] in NL. inversion NL as [|y k X Y]. subst y k.
  destruct (tag_is_unknown (p_tag l)); [exact (IH Y)|]. rewrite map_app. apply NoDup_app_disj; [|exact (IH Y)|].
  - rewrite map_map. cbn [both_parse p_stack]. pose proof (NoDup_filter (fun r => seq_set (similarity_features (p_tag l)) (similarity_features (p_tag r))) p_stack rs NR) as N.
    apply (NoDup_map_inj (fun s => [MHyphBoth self (p_stack l) s])) in N; [rewrite map_map in N; exact N|]. intros a b E. injection E as E. exact E.
  - intros x I J. apply in_map_iff in I as (p & E1 & I). apply in_map_iff in I as (r & E2 & _). subst p x. apply in_map_iff in J as (q & E3 & J). apply in_flat_map in J as (l' & I' & J).
    destruct (tag_is_unknown (p_tag l')); [destruct J|]. apply in_map_iff in J as (r' & E4 & _). subst q. cbn [both_parse p_stack] in E3. injection E3 as E3 _. apply X. rewrite <- E3. exact (in_map p_stack _ _ I').
Qed.
Lemma fixed_own : forall self mult left rs, NoDup (map p_stack rs) -> NoDup (map p_stack (fixed_left self mult left rs)).
Proof.
  intros self mult left rs N. unfold fixed_left. rewrite map_map. cbn [fixed_left_parse p_stack]. apply (NoDup_filter (fun r => negb (tag_is_unknown (p_tag r)))) in N.
  apply (NoDup_map_inj (fun s => [MHyphFixed self left s])) in N; [rewrite map_map in N; exact N|]. intros a b E. injection E as E. exact E.
Qed.
Lemma compound_own : forall self mult left ls rs, NoDup (map p_stack ls) -> NoDup (map p_stack rs) -> own self (variable_both self mult ls rs ++ fixed_left self mult left rs).
Proof.
  intros self mult left ls rs NL NR. split.
  - rewrite map_app. apply NoDup_app_disj; [apply both_own; assumption|apply fixed_own; exact NR|]. intros x I J. apply in_map_iff in I as (p & E1 & I). apply in_map_iff in J as (q & E2 & J). subst x.
    unfold variable_both in I. apply in_flat_map in I as (l & _ & I). destruct (tag_is_unknown (p_tag l)); [destruct I|]. apply in_map_iff in I as (r & <- & _). unfold fixed_left in J. apply in_map_iff in J as (r' & <- & _). discriminate E2.
  - apply Forall_app. split; apply Forall_forall; intros p I.
    + unfold variable_both in I. apply in_flat_map in I as (l & _ & I). destruct (tag_is_unknown (p_tag l)); [destruct I|]. apply in_map_iff in I as (r & <- & _). eapply (ends_last _ []); reflexivity.
    + unfold fixed_left in I. apply in_map_iff in I as (r & <- & _). eapply (ends_last _ []); reflexivity.
Qed.
(** ** any unit *)
Section run.
Variables (recP : str -> res (list parse)) (recT : str -> res (list tag)) (M : morph) (word : str).
Let lower := u_lower (m_uni M) word.
Hypothesis ED : entries_distinct (m_dict M).
Hypothesis SP : subst_proper (m_subst M).
Hypothesis REC : forall a w b ps, lower = a ++ w ++ b -> recP w = Ok ps -> NoDup (map p_stack ps).
Lemma shape_own : forall U self b score w lw ps, shape_parse U self b score w lw = Ok ps -> own self ps.
Proof.
  intros U self b score w lw ps H. unfold shape_parse in H. apply bind_ok in H as ([t|] & _ & H); apply Ok_inj in H; subst ps; [|apply own_none].
  apply few_own; [cbn; lia|]. constructor; [|constructor]. eapply (ends_last _ []); reflexivity.
Qed.
Lemma unit_own : forall i b seen ps s, (forall first letters pat sc, b_cfg b = UInit first letters pat sc -> ~ In word letters) -> unit_parse recP recT M i b word lower seen = Ok (ps, s) -> own (Root i) ps.
Proof.
  intros i b seen ps s NI H. unfold unit_parse in H. destruct (b_cfg b) as [|first letters pat sc|sc|sc|sc|sc|particles mult|mult|skip mult|prefixes mult minrem|mult|mult minlen|] eqn:C.
  - apply bind_ok in H as (qs & D & H). apply Ok_inj in H. injection H as <- _. exact (dict_own _ _ _ _ ED SP D).
  - pose proof (NI _ _ _ _ eq_refl) as N. destruct (smem word letters) eqn:E; [apply smem_In in E; contradiction|]. apply Ok_inj in H. injection H as <- _. apply own_none.
  - apply bind_ok in H as (qs & D & H). apply Ok_inj in H. injection H as <- _. exact (shape_own _ _ _ _ _ _ _ D).
  - apply bind_ok in H as (qs & D & H). apply Ok_inj in H. injection H as <- _. exact (shape_own _ _ _ _ _ _ _ D).
  - apply bind_ok in H as (qs & D & H). apply Ok_inj in H. injection H as <- _. exact (shape_own _ _ _ _ _ _ _ D).
  - apply bind_ok in H as (qs & D & H). apply Ok_inj in H. injection H as <- _. exact (shape_own _ _ _ _ _ _ _ D).
  - unfold particle_parse in H. destruct (particle_splits particles lower) as [|[w pt] l] eqn:E; [apply Ok_inj in H; injection H as <- _; apply own_none|].
    apply bind_ok in H as (qs & R & H). apply Ok_inj in H.
    assert (X : In (w, pt) (particle_splits particles lower)) by (rewrite E; left; reflexivity). apply particle_splits_In in X as (_ & _ & W & X1 & X2). destruct (split_particle _ _ _ W X1 X2) as [X _].
    assert (NQ : NoDup (map p_stack qs)) by exact (REC [] w pt qs X R).
    assert (F : forall p, In p ps -> exists q, In q qs /\ p = suffixed (Root i) mult pt q).
    { intros p I. change ps with (fst (ps, s)) in I. rewrite <- H in I. apply adds_from in I as [I|[]]. apply in_map_iff in I as (q & <- & I). exists q. auto. }
    split.
    + apply (adds_tracked _ []) in H; [|apply tracked_none]. apply NoDup_stacks; [apply identities; exact (proj1 H)|]. intros p q I J Q. destruct (F p I) as (p0 & I0 & ->). destruct (F q J) as (q0 & J0 & ->).
      unfold suffixed in Q. cbn [p_stack] in Q. apply app_inj_tail in Q as (Q & _). rewrite (same_element qs p0 q0 NQ I0 J0 Q). reflexivity.
    + apply Forall_forall. intros p I. destruct (F p I) as (q & _ & ->). eapply ends_last; reflexivity.
  - apply bind_ok in H as ([] & _ & H); [apply bind_ok in H as (t & _ & H)|]; apply Ok_inj in H; injection H as <- _; [|apply own_none]. apply few_own; [cbn; lia|]. constructor; [|constructor]. eapply (ends_last _ []); reflexivity.
  - unfold hyph_parse in H. destruct (hyph_should_parse M skip lower); cbn [negb] in H; [|apply Ok_inj in H; injection H as <- _; apply own_none].
    destruct (split_once HY lower) as [lw [rw|]] eqn:E; [|discriminate H]. apply split_once_spec in E as [E _]. apply bind_ok in H as (ls & L & H). apply bind_ok in H as (rs & R & H). apply Ok_inj in H. injection H as <- _.
    apply compound_own; [exact (REC [] lw (HY :: rw) ls E L)|]. refine (REC (lw ++ [HY]) rw [] rs _ R). rewrite app_nil_r, <- app_assoc. exact E.
  - unfold kp_parse in H. apply (splits_own _ _ _ lower) in H; [exact H|intros [x r] I; apply kp_splits_In in I as (_ & I & _); exact I|].
    intros [x r] qs I R. apply kp_splits_In in I as (_ & I & _). cbn [snd] in R. refine (REC x r [] qs _ R). rewrite app_nil_r. exact I.
  - unfold up_parse in H. apply (splits_own _ _ _ lower) in H; [exact H|intros [x r] I; apply word_splits_In in I as (I & _); exact I|].
    intros [x r] qs I R. exact (proj1 (dict_own _ _ _ _ ED SP R)).
  - exact (ks_own _ _ _ _ _ _ _ _ _ _ H).
  - destruct seen as [|k seen]; [apply bind_ok in H as (t & _ & H)|]; apply Ok_inj in H; injection H as <- _; [|apply own_none]. apply few_own; [cbn; lia|]. constructor; [|constructor]. eapply (ends_last _ []); reflexivity.
Qed.
Lemma run_own : forall us i acc seen r, (forall b tm first letters pat sc, In (b, tm) us -> b_cfg b = UInit first letters pat sc -> ~ In word letters) -> NoDup (map p_stack acc) -> (forall p, In p acc -> exists j, j < i /\ ends_in (Root j) p) ->
  run_parse recP recT M word lower i us acc seen = Ok r -> NoDup (map p_stack r).
Proof.
  induction us as [|[b tm] us IH]; intros i acc seen r NI NA OA H; cbn [run_parse] in H; [apply Ok_inj in H; subst r; exact NA|]. apply bind_ok in H as ([ps s] & U & H).
  apply unit_own in U as (NP & OP); [|intros first letters pat sc C; exact (NI b tm first letters pat sc (or_introl eq_refl) C)]. rewrite Forall_forall in OP.
  assert (N : NoDup (map p_stack (acc ++ ps))).
  { rewrite map_app. apply NoDup_app_disj; [exact NA|exact NP|]. intros x I J. apply in_map_iff in I as (p & <- & I). apply in_map_iff in J as (q & E & J). destruct (OA p I) as (j & J1 & l & m & E1 & E2). destruct (OP q J) as (l' & m' & E3 & E4).
    rewrite E1, E3 in E. apply app_inj_tail in E as (_ & E). subst m'. rewrite E2 in E4. injection E4 as E4. lia. }
  destruct (tm && _); [apply Ok_inj in H; subst r; exact N|]. refine (IH (S i) _ _ r _ N _ H); [intros b' tm' f l p sc I C; exact (NI b' tm' f l p sc (or_intror I) C)|].
  intros p I. apply in_app_iff in I as [I|I]; [destruct (OA p I) as (j & J1 & J2); exists j; split; [lia|exact J2]|exists i; split; [lia|exact (OP p I)]].
Qed.
End run.
Lemma stacks_once : forall M, lower_stable (m_uni M) -> entries_distinct (m_dict M) -> subst_proper (m_subst M) -> initials_upper M -> forall f word ps, not_initial M word -> parse_f f M word = Ok ps -> NoDup (map p_stack ps).
Proof.
  intros M LS ED SP IU. induction f as [|f IH]; intros word ps NI H; [discriminate H|]. unfold parse_f in H. cbn [analyze fst snd] in H. apply bind_ok in H as (r & E & H).
  assert (N : NoDup (map p_stack r)).
  { apply (run_own _ _ _ _ ED SP) in E; [exact E| |intros b tm first letters pat sc I C; exact (NI b tm first letters pat sc I C)|constructor|intros p []].
    intros a w b qs L R. apply (IH w qs); [|exact R]. intros b' tm first letters pat sc I C J. apply (IU b' tm first letters pat sc w I C J). exact (LS word a w b L). }
  destruct (m_prob M) as [d|]; [|apply Ok_inj in H; subst ps; exact N]. apply apply_reweighted in H as (P & _).
  apply (Permutation_map (fun x : str * tag * str * list method => snd x)) in P. rewrite !map_map in P. exact (Permutation_NoDup P N).
Qed.
Lemma compiled_entries : forall o src links lxs x D, join_lexemes src links = Ok lxs -> compile_parsed_dict o src links = Ok x -> loaded x D -> entries_distinct D.
Proof.
  intros o src links lxs x D J C L. unfold compile_parsed_dict in C. rewrite J in C. cbn [bind] in C. apply compile_lexemes_inv in C as (st & ks & C & _). pose proof (compiled_content _ _ _ _ _ _ C L) as T.
  intros w vals G. apply L_Made.sget_In in G. exact (proj2 (ct_vals _ _ _ T w vals G)).
Qed.
