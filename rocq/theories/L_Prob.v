(** * Re-weighting (C19) and de-duplication (C04) *)
From Coq Require Import String List NArith ZArith Bool QArith Lia Permutation Sorting.Sorted.
From Verif Require Import Py Uni Tagset Dawg Utils Shapes Dict Units Analyzer ConfigRu ConfigUk Spec L_Base L_Run L_Made L_Total L_Groups.
Import ListNotations.
Local Open Scope nat_scope.
Local Open Scope list_scope.

Lemma Qsum_total : forall l, (Qsum l == total l)%Q.
Proof. induction l as [|x l IH]; [reflexivity|]. rewrite Qsum_cons. simpl. rewrite IH. reflexivity. Qed.
Lemma sorted_impl : forall {A} (R S : A -> A -> Prop) l, (forall a b, R a b -> S a b) -> StronglySorted R l -> StronglySorted S l.
Proof.
  intros A R S l H St. induction St as [|a l St IH F]; constructor; auto. eapply Forall_impl; [|exact F]. auto.
Qed.
Lemma filter_ext' : forall {A} (f g : A -> bool) l, (forall x, f x = g x) -> filter f l = filter g l.
Proof. intros. induction l as [|x l IH]; simpl; auto. rewrite H, IH. auto. Qed.
Lemma key_stable : forall {A} (key : A -> Q) l,
  stable_desc key l (sort_desc (fun a b => Qgeb (key a) (key b)) l).
Proof.
  intros A key l. set (geb := fun a b => Qgeb (key a) (key b)).
  assert (T : forall x y, geb x y = false -> geb y x = true) by (intros; apply Qgeb_total; auto).
  assert (Tr : forall x y z, geb x y = true -> geb y z = true -> geb x z = true) by (intros x y z; apply Qgeb_trans).
  split; [apply sort_desc_perm|]. split.
  - eapply sorted_impl; [|apply (sort_desc_sorted geb T Tr)]. intros a b H. apply Qgeb_le; auto.
  - intro k.
    assert (C : (exists x, In x l /\ (key x == k)%Q) \/ forall x, In x l -> Qeq_bool (key x) k = false).
    { clear T Tr. induction l as [|x l IH]; [right; intros x []|]. destruct (Qeq_bool (key x) k) eqn:E.
      - left. exists x. split; [left; auto|apply Qeq_bool_iff; auto].
      - destruct IH as [(y & Hy & Ey)|IH]; [left; exists y; split; [right|]; auto|]. right. intros y [<-|Hy]; auto. }
    destruct C as [(x & Hx & Ex)|C].
    + transitivity (filter (fun y => geb x y && geb y x) (sort_desc geb l)).
      * apply filter_ext'. intro y. destruct (Qeq_bool (key y) k) eqn:E.
        -- apply Qeq_bool_iff in E. symmetry. apply andb_true_iff. split; apply Qgeb_le; rewrite Ex, E; apply Qle_refl.
        -- symmetry. apply not_true_is_false. intro H. apply andb_true_iff in H as [H1 H2]. apply Qgeb_le in H1, H2.
           assert (key y == k)%Q by (rewrite <- Ex; apply Qle_antisym; auto). apply Qeq_bool_iff in H. congruence.
      * change (fun y => geb x y && geb y x) with (same_key geb x). rewrite (sort_desc_stable geb T Tr x l). apply filter_ext'. intro y. destruct (Qeq_bool (key y) k) eqn:E.
        -- apply Qeq_bool_iff in E. apply andb_true_iff. split; apply Qgeb_le; rewrite Ex, E; apply Qle_refl.
        -- apply not_true_is_false. intro H. apply andb_true_iff in H as [H1 H2]. apply Qgeb_le in H1, H2.
           assert (key y == k)%Q by (rewrite <- Ex; apply Qle_antisym; auto). apply Qeq_bool_iff in H. congruence.
    + assert (F : forall l', (forall x, In x l' -> Qeq_bool (key x) k = false) -> filter (fun x => Qeq_bool (key x) k) l' = []).
      { induction l' as [|y l' IH]; intros H; simpl; auto. rewrite (H y) by (left; auto). apply IH. intros; apply H; right; auto. }
      rewrite !F; auto. intros x Hx. apply C. apply sort_desc_In in Hx. auto.
Qed.
Lemma map_combine_score : forall (f : parse -> Q) ps,
  map (fun pq => with_score (fst pq) (snd pq)) (combine ps (map f ps)) = map (fun p => with_score p (f p)) ps.
Proof. induction ps as [|p ps IH]; simpl; auto. rewrite IH. auto. Qed.
Lemma reading_with_score : forall p s, reading (with_score p s) = reading p.
Proof. auto. Qed.
Lemma apply_reweighted : forall d lower raw ps, apply_to_parses d lower raw = Ok ps -> reweighted d lower raw ps.
Proof.
  intros d lower raw ps H. unfold reweighted. set (pr := fun p => prob d lower (t_str (p_tag p))).
  destruct raw as [|p0 raw0].
  { simpl in H. apply Ok_inj in H. subst. split; [constructor|]. split; [intros (p & [] & _)|].
    intros _. split; [auto|]. split; [congruence|]. exists 1%Q. constructor. }
  unfold apply_to_parses in H. set (raw := p0 :: raw0) in *. fold pr in H.
  assert (NN : forall x, In x (map pr raw) -> (0 <= x)%Q).
  { intros x Hx. apply in_map_iff in Hx as (p & <- & _). apply prob_nonneg. }
  destruct (Qeq_bool (Qsum (map pr raw)) 0) eqn:E1.
  - apply Qeq_bool_iff in E1. pose proof (Qsum_zero_inv _ NN E1) as Z.
    destruct (Qeq_bool (Qsum (map p_score raw)) 0) eqn:E2; [discriminate|]. apply Ok_inj in H.
    set (s := Qsum (map p_score raw)) in *.
    assert (R : map reading ps = map reading raw) by (subst ps; rewrite map_map; apply map_ext; auto).
    split; [rewrite R; auto|]. split.
    { intros (p & Hp & Np). destruct Np. apply Z. apply in_map_iff. exists p. auto. }
    intros _. split; [auto|]. split.
    + intros _. rewrite <- Qsum_total. subst ps. rewrite map_map. cbn [with_score p_score].
      assert (NZ : ~ (s == 0)%Q) by (intro E; apply Qeq_bool_iff in E; congruence).
      assert (G : forall l, (Qsum (map (fun p => p_score p * (1 / s)) l) == Qsum (map p_score l) * (1 / s))%Q).
      { induction l as [|x l IH]; [simpl; unfold Qsum; simpl; field; auto|]. cbn [map]. rewrite !Qsum_cons, IH. ring. }
      rewrite G. fold s. field. auto.
    + exists (1 / s)%Q. subst ps. clearbody s raw. clear. induction raw as [|x l IH]; simpl; constructor; auto. unfold with_score. simpl. ring.
  - apply Ok_inj in H. rewrite map_combine_score in H. split; [|split].
    + subst ps. rewrite <- (sort_desc_perm score_geb (map (fun p => with_score p (pr p)) raw)). rewrite map_map. auto.
    + intros _. subst ps. apply (key_stable p_score).
    + intros Z. exfalso. assert (Qeq_bool (Qsum (map pr raw)) 0 = true); [|congruence].
      apply Qeq_bool_iff, Qsum_zero. intros x Hx. apply in_map_iff in Hx as (p & <- & Hp). apply Z; auto.
Qed.
Lemma parse_reweighted : forall n M d word ps, m_prob M = Some d -> parse_f (S n) M word = Ok ps ->
  exists outs, tried (parse_f n M) (tag_f n M) M word (u_lower (m_uni M) word) 0 (m_units M) [] outs /\
    first_success (m_units M) outs /\ reweighted d (u_lower (m_uni M) word) (concat outs) ps.
Proof.
  intros n M d word ps HP H. apply parse_first_success in H as (outs & T & F & H). rewrite HP in H. exists outs.
  split; [auto|]. split; [auto|]. apply apply_reweighted; auto.
Qed.
Lemma tag_reordered : forall n M d word ts, m_prob M = Some d -> tag_f (S n) M word = Ok ts ->
  exists outs, tried_tags (parse_f n M) (tag_f n M) M word (u_lower (m_uni M) word) 0 (m_units M) [] outs /\
    first_success (m_units M) outs /\
    stable_desc (fun t => prob d (u_lower (m_uni M) word) (t_str t)) (concat outs) ts.
Proof.
  intros n M d word ps HP H. apply tag_first_success in H as (outs & T & F & H). rewrite HP in H. exists outs.
  split; [auto|]. split; [auto|]. subst. apply key_stable.
Qed.

(** ** C04 *)
Lemma dedup_from_spec : forall l seen, NoDup (dedup_from seen l) /\
  (forall x, In x (dedup_from seen l) <-> In x l /\ ~ In x seen) /\
  forall i j x y, nth_error (dedup_from seen l) i = Some x -> nth_error (dedup_from seen l) j = Some y -> i < j ->
    first_pos x l < first_pos y l.
Proof.
  induction l as [|a l IH]; intros seen; simpl.
  - split; [constructor|]. split; [tauto|]. intros [|i] j x y H; discriminate.
  - destruct (smem a seen) eqn:E.
    + apply smem_In in E. destruct (IH seen) as (N & I & O). split; [auto|]. split.
      * intro x. rewrite I. split; [tauto|]. intros [[<-|H] H2]; tauto.
      * intros i j x y Hx Hy L. pose proof (O i j x y Hx Hy L).
        assert (a <> x) by (intros <-; apply nth_error_In in Hx; apply I in Hx; tauto).
        assert (a <> y) by (intros <-; apply nth_error_In in Hy; apply I in Hy; tauto).
        rewrite !(proj2 (str_eqb_neq _ _)); auto. lia.
    + apply smem_false in E. destruct (IH (a :: seen)) as (N & I & O). split; [|split].
      * constructor; auto. intro H. apply I in H as [_ H]. apply H. left; auto.
      * intro x. simpl. rewrite I. simpl. split.
        -- intros [<-|[H1 H2]]; split; auto; tauto.
        -- intros [[<-|H1] H2]; [left; auto|]. destruct (str_eq_dec a x); [left; auto|right; split; [auto|tauto]].
      * intros [|i] [|j] x y Hx Hy L; simpl in *; try lia.
        -- inversion Hx; subst x. rewrite str_eqb_refl. assert (a <> y) by (intros <-; apply nth_error_In in Hy; apply I in Hy; simpl in Hy; tauto).
           rewrite (proj2 (str_eqb_neq _ _)); auto. lia.
        -- assert (L' : i < j) by lia. pose proof (O i j x y Hx Hy L').
           assert (a <> x) by (intros <-; apply nth_error_In in Hx; apply I in Hx; simpl in Hx; tauto).
           assert (a <> y) by (intros <-; apply nth_error_In in Hy; apply I in Hy; simpl in Hy; tauto).
           rewrite !(proj2 (str_eqb_neq _ _)); auto. lia.
Qed.
Lemma normal_forms_dedup : forall M word, 
  match morph_parse M word with
  | Ok ps => exists nfs, morph_normal_forms M word = Ok nfs /\ dedup_of (map p_nf ps) nfs
  | Err e => morph_normal_forms M word = Err e
  end.
Proof.
  intros M word. unfold morph_normal_forms. destruct (morph_parse M word) as [ps|e]; [|auto]. eexists. split; [reflexivity|].
  destruct (dedup_from_spec (map p_nf ps) []) as (N & I & O). split; [auto|]. split; [|auto]. intro x. rewrite I. simpl. tauto.
Qed.

(** ** dictionary words, with an estimator *)
Lemma parse_some : forall n M d word ps, m_prob M = Some d -> parse_f (S n) M word = Ok ps ->
  exists r, run_parse (parse_f n M) (tag_f n M) M word (u_lower (m_uni M) word) 0 (m_units M) [] [] = Ok r /\
    apply_to_parses d (u_lower (m_uni M) word) r = Ok ps.
Proof.
  intros n M d word ps HP H. unfold parse_f in H. simpl in H. rewrite HP in H. apply bind_ok in H as (r & E & H).
  exists r. split; [exact E|exact H].
Qed.
Lemma ru_word_prob : forall n M d word ps, has_units M RU_DEFAULT_UNITS -> m_prob M = Some d ->
  in_dictionary M (u_lower (m_uni M) word) -> ~ In word RU_INITIAL_LETTERS -> parse_f n M word = Ok ps ->
  exists r, dict_parse M (Root 0) (u_lower (m_uni M) word) = Ok r /\ apply_to_parses d (u_lower (m_uni M) word) r = Ok ps.
Proof.
  intros n M d word ps HU HP ID NI H. destruct n as [|n]; [discriminate H|].
  destruct (parse_some _ _ _ _ _ HP H) as (r & E & A). apply ru_head in HU as (b0 & b1 & b2 & us & Eu & H0 & H1 & H2).
  rewrite Eu in E. exists r. split; [|exact A]. exact (run_ru _ _ _ _ _ b0 b1 b2 us _ H0 H1 H2 ID NI E).
Qed.
Lemma uk_word_prob : forall n M d word ps, has_units M UK_DEFAULT_UNITS -> m_prob M = Some d ->
  in_dictionary M (u_lower (m_uni M) word) -> ~ In word UK_INITIAL_LETTERS ->
  is_roman_number word = false -> is_latin (m_uni M) word = Ok false -> parse_f n M word = Ok ps ->
  exists r, dict_parse M (Root 0) (u_lower (m_uni M) word) = Ok r /\ apply_to_parses d (u_lower (m_uni M) word) r = Ok ps.
Proof.
  intros n M d word ps HU HP ID NI NR NL H. destruct n as [|n]; [discriminate H|].
  destruct (parse_some _ _ _ _ _ HP H) as (r & E & A). apply uk_head in HU as (b0 & b1 & b2 & b3 & b4 & us & Eu & H0 & H1 & H2 & H3 & H4).
  rewrite Eu in E. exists r. split; [|exact A]. exact (run_uk _ _ _ _ _ b0 b1 b2 b3 b4 us _ H0 H1 H2 H3 H4 ID NI NR NL E).
Qed.
Lemma dictionary_word_prob : forall n M d word ps,
  (has_units M RU_DEFAULT_UNITS /\ ~ In word RU_INITIAL_LETTERS) \/
  (has_units M UK_DEFAULT_UNITS /\ ~ In word UK_INITIAL_LETTERS /\ is_roman_number word = false /\ is_latin (m_uni M) word = Ok false) ->
  m_prob M = Some d -> wf_dict (m_dict M) -> consistent_dict (m_dict M) ->
  in_dictionary M (u_lower (m_uni M) word) -> parse_f n M word = Ok ps ->
  exists found, dictionary_readings M (u_lower (m_uni M) word) found /\ reweighted d (u_lower (m_uni M) word) found ps.
Proof.
  intros n M d word ps HU HP W Cn ID H.
  assert (X : exists r, dict_parse M (Root 0) (u_lower (m_uni M) word) = Ok r /\ apply_to_parses d (u_lower (m_uni M) word) r = Ok ps).
  { destruct HU as [(HU & NI)|(HU & NI & NR & NL)].
    - exact (ru_word_prob _ _ _ _ _ HU HP ID NI H).
    - exact (uk_word_prob _ _ _ _ _ HU HP ID NI NR NL H). }
  destruct X as (r & E & A). exists r. split; [exact (dict_parse_readings _ _ _ W Cn E)|exact (apply_reweighted _ _ _ _ A)].
Qed.
