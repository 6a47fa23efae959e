(** * The word of a parse (C03), productivity (C07), recursion depth (C08) *)
From Coq Require Import String List NArith ZArith Bool Arith Lia QArith Permutation.
From Verif Require Import Py Uni Tagset Dawg Utils Shapes Dict Units Analyzer Spec L_Base L_Run L_Made.
Import ListNotations.
Local Open Scope nat_scope.
Local Open Scope list_scope.

Lemma subst_of_refl : forall r a, subst_of r a a.
Proof. induction a; constructor; auto. Qed.
Lemma subst_of_app : forall r a b c d, subst_of r a b -> subst_of r c d -> subst_of r (a ++ c) (b ++ d).
Proof. intros. apply Forall2_app; auto. Qed.
Lemma subst_of_length : forall r a b, subst_of r a b -> length b = length a.
Proof. induction 1; simpl; auto. Qed.

Lemma variants_cons : forall r c s v, In v (variants r (c :: s)) <->
  exists y t, v = y :: t /\ (y = c \/ rget c r = Some y) /\ In t (variants r s).
Proof.
  intros r c s v. unfold variants. cbn [alts]. simpl In at 1. rewrite in_app_iff, !in_map_iff. split.
  - intros [<-|[H|(t & <- & Ht)]].
    + exists c, s. split; auto. split; auto. left; auto.
    + destruct (rget c r) as [c'|] eqn:E; [|destruct H]. simpl in H. destruct H as [<-|H].
      * exists c', s. split; auto. split; auto. left; auto.
      * apply in_map_iff in H as (t & <- & Ht). exists c', t. split; auto. split; auto. right; auto.
    + exists c, t. split; auto. split; auto. right; auto.
  - intros (y & t & -> & Hy & Ht). destruct Hy as [->|E].
    + destruct Ht as [<-|Ht]; auto. right; right. eauto.
    + right; left. rewrite E. simpl. destruct Ht as [<-|Ht]; auto. right. apply in_map_iff. eauto.
Qed.
Lemma variants_spec : forall r s v, In v (variants r s) <-> subst_of r s v.
Proof.
  intros r; induction s as [|c s IH]; intros v.
  - unfold variants. simpl. split.
    + intros [<-|[]]. constructor.
    + intro H. inversion H. auto.
  - rewrite variants_cons. split.
    + intros (y & t & -> & Hy & Ht). constructor; auto. apply IH; auto.
    + intro H. inversion H; subst. exists y, l'. split; auto. split; auto. apply IH; auto.
Qed.

(** pieces of a lower-cased word *)
Definition piece (w lower : str) : Prop := exists a c, lower = a ++ w ++ c.

Lemma split_particle : forall lower particle w,
  w <> [] -> slice_to lower (- Z.of_nat (length particle)) = w -> suffixb particle lower = true ->
  lower = w ++ particle /\ particle <> [].
Proof.
  intros lower particle w Hw Hs Hf. destruct particle as [|c pt].
  - simpl in Hs. rewrite slice_to_0 in Hs. congruence.
  - apply suffixb_spec in Hf as (r & ->). rewrite slice_to_app in Hs by congruence. subst. split; auto. congruence.
Qed.

Section WordOf.
  Variable M : morph.
  Hypothesis stable : lower_stable (m_uni M).
  Notation U := (m_uni M) (only parsing).
  Let R := m_subst M.

  Lemma dict_entry_subst : forall self lower p, dict_entry M self lower p -> subst_of R lower (p_word p).
  Proof.
    intros self lower p (w & vals & para & idx & nf & t & H1 & _ & _ & _ & _ & ->). simpl. apply variants_spec; auto.
  Qed.

  Lemma parse_f_subst : forall f word ps p, parse_f f M word = Ok ps -> In p ps ->
    subst_of R (u_lower U word) (p_word p).
  Proof.
    induction f as [|f IH]; intros word ps p H Hp; [discriminate|].
    destruct (parse_f_made _ _ _ _ _ H Hp) as (i & b & tm & p0 & q & _ & Md & ->). cbn [with_score p_word].
    assert (IH' : forall w a c qs x, u_lower U word = a ++ w ++ c -> parse_f f M w = Ok qs -> In x qs -> subst_of R w (p_word x)).
    { intros w a c qs x E H1 H2. specialize (IH w qs x H1 H2). rewrite (stable word a w c E) in IH. auto. }
    clear H Hp. destruct Md.
    - eapply dict_entry_subst; eauto.
    - apply subst_of_refl.
    - apply subst_of_refl.
    - destruct (split_particle _ _ _ H2 H3 H4) as [E _].
      assert (S : subst_of R w (p_word p)) by (eapply (IH' w [] particle); eauto).
      rewrite E. simpl. apply subst_of_app; auto. apply subst_of_refl.
    - apply subst_of_refl.
    - apply split_once_spec in H1 as [E _]. rewrite E. simpl. unfold hyphen_join.
      apply subst_of_app; [eapply (IH' lw [] (HY :: rw)); eauto|].
      constructor; auto. eapply (IH' rw (lw ++ [HY]) []); eauto. rewrite app_nil_r, <- app_assoc. auto.
    - apply split_once_spec in H1 as [E _]. rewrite E. simpl. unfold hyphen_join.
      apply subst_of_app; [apply subst_of_refl|].
      constructor; auto. eapply (IH' rw (lw ++ [HY]) []); eauto. rewrite app_nil_r, <- app_assoc. auto.
    - apply kp_splits_In in H0 as (_ & E & _). simpl. rewrite E.
      apply subst_of_app; [apply subst_of_refl|]. eapply (IH' rest prefix []); eauto. rewrite app_nil_r. auto.
    - apply word_splits_In in H0 as (E & _ & _). simpl. rewrite E.
      apply subst_of_app; [apply subst_of_refl|]. eapply dict_entry_subst; eauto.
    - destruct H1 as (pid & pre & dawg & j & fs & vals & cnt & para & idx & t & nf & total & H1).
      destruct H1 as (_ & _ & _ & Hj & Hfs & _ & _ & _ & _ & _ & _ & ->). simpl.
      apply variants_spec in Hfs. rewrite <- (slice_split_neg (u_lower U word) j) at 1 by lia.
      apply subst_of_app; auto. apply subst_of_refl.
    - apply subst_of_refl.
  Qed.
End WordOf.

(** ** C07 *)
Lemma made_productive : forall recP recT M i b word lower p,
  predicting (b_cfg b) -> made recP recT M i b word lower p -> is_productive (p_tag p) = true.
Proof.
  intros recP recT M i b word lower p Hc Md. destruct Md; simpl; auto;
    repeat match goal with H : _ \/ _ |- _ => destruct H | H : b_cfg b = _ |- _ => rewrite H in Hc; simpl in Hc; clear H end;
    try contradiction.
  destruct H1 as (pid & pre & dawg & j & fs & vals & cnt & para & idx & t & nf & total & H1).
  destruct H1 as (_ & _ & _ & _ & _ & _ & _ & _ & Hp & _ & _ & ->). auto.
Qed.
Lemma is_productive_spec : forall t, is_productive t = true <-> (forall g, In g (t_gr t) -> ~ In g NON_PRODUCTIVE).
Proof.
  intro t. unfold is_productive. split.
  - intros H g H1 H2. assert (In g (sinter (t_gr t) NON_PRODUCTIVE)) by (apply sinter_In; auto).
    destruct (sinter _ _); [destruct H0|discriminate].
  - intros H. destruct (sinter _ _) as [|g l] eqn:E; auto.
    assert (Hg : In g (sinter (t_gr t) NON_PRODUCTIVE)) by (rewrite E; left; auto).
    apply sinter_In in Hg as [H1 H2]. destruct (H g H1 H2).
Qed.
Lemma last_opt_app : forall {A} (l : list A) x, last_opt (l ++ [x]) = Some x.
Proof. intros. unfold last_opt. rewrite rev_app_distr. auto. Qed.
Lemma made_by_unit : forall recP recT M i b word lower p, made recP recT M i b word lower p -> made_by p = Some (Root i).
Proof.
  intros recP recT M i b word lower p Md. unfold made_by. destruct Md; simpl; try rewrite last_opt_app; auto.
  - destruct H0 as (w & vals & para & idx & nf & t & _ & _ & _ & _ & _ & ->). auto.
  - destruct H1 as (pid & pre & dawg & j & fs & vals & cnt & para & idx & t & nf & total & H1).
    destruct H1 as (_ & _ & _ & _ & _ & _ & _ & _ & _ & _ & _ & ->). auto.
Qed.

(** ** C08: recursive calls are on strictly shorter pieces *)
Definition short (lower w : str) : Prop := piece w lower /\ length w < length lower.

Lemma short_suffix : forall a w, a <> [] -> short (a ++ w) w.
Proof.
  intros a w H. split; [exists a, []; rewrite app_nil_r; auto|]. rewrite app_length. destruct a; [congruence|simpl; lia].
Qed.

Lemma kp_short : forall M b lower prefixes mult minrem prefix rest, prefixes_nonempty b ->
  b_cfg b = UKnownPrefix prefixes mult minrem ->
  In (prefix, rest) (kp_splits M prefixes minrem lower) -> short lower rest.
Proof.
  intros M b lower prefixes mult minrem prefix rest N H H0. apply kp_splits_In in H0 as (H1 & -> & _).
  apply short_suffix. intros ->. unfold prefixes_nonempty in N. rewrite H in N. auto.
Qed.
Lemma particle_short : forall lower particles w pt, In (w, pt) (particle_splits particles lower) -> short lower w.
Proof.
  intros. apply particle_splits_In in H as (_ & _ & H1 & H2 & H3).
  destruct (split_particle _ _ _ H1 H2 H3) as [-> N]. split; [exists [], pt; auto|].
  rewrite app_length. destruct pt; [congruence|simpl; lia].
Qed.

Section FuelIrrelevant.
  Variables (recP recP' : str -> res (list parse)) (recT recT' : str -> res (list tag)).
  Variables (M : morph) (i : nat) (b : bunit) (word lower : str).
  Hypothesis same : forall w, short lower w -> recP w = recP' w /\ recT w = recT' w.
  Hypothesis nonempty : prefixes_nonempty b.

  Lemma adverb_same : adverb_should_parse recT M lower = adverb_should_parse recT' M lower.
  Proof.
    unfold adverb_should_parse. destruct (Nat.ltb_spec (length lower) 5); auto. simpl.
    destruct (negb _); auto. destruct (same (slice_from lower 3)) as [_ ->]; auto.
    change 3%Z with (Z.of_nat 3). rewrite slice_from_pos.
    rewrite <- (firstn_skipn 3 lower) at 1. apply short_suffix.
    destruct lower; simpl in *; [lia|congruence].
  Qed.
  Lemma hyph_same : forall skip mult seen,
    hyph_parse recP M (Root i) skip mult lower seen = hyph_parse recP' M (Root i) skip mult lower seen.
  Proof.
    intros. unfold hyph_parse. destruct (negb _); auto.
    destruct (split_once HY lower) as [lw [rw|]] eqn:E; auto. apply split_once_spec in E as [E _].
    destruct (same lw) as [-> _]. { rewrite E. split; [exists [], (HY :: rw); auto|rewrite app_length; simpl; lia]. }
    destruct (same rw) as [-> _]; auto.
    { rewrite E. split; [exists (lw ++ [HY]), []; rewrite app_nil_r, <- app_assoc; auto|rewrite app_length; simpl; lia]. }
  Qed.
  Lemma unit_parse_same : forall seen,
    unit_parse recP recT M i b word lower seen = unit_parse recP' recT' M i b word lower seen.
  Proof.
    intros seen. unfold unit_parse. destruct (b_cfg b) eqn:C; auto.
    - unfold particle_parse. destruct (particle_splits particles lower) as [|[w pt] r] eqn:E; auto.
      destruct (same w) as [-> _]; auto. eapply particle_short. rewrite E. left; eauto.
    - rewrite adverb_same. auto.
    - apply hyph_same.
    - unfold kp_parse. apply foldM_ext. intros st [prefix rest] Hin.
      destruct (same rest) as [-> _]; auto. eapply kp_short; eauto.
  Qed.
  Lemma unit_tag_same : forall seen,
    unit_tag recP recT M i b word lower seen = unit_tag recP' recT' M i b word lower seen.
  Proof.
    intros seen. unfold unit_tag. destruct (b_cfg b) eqn:C; auto.
    - unfold particle_tag. destruct (particle_splits particles lower) as [|[w pt] r] eqn:E; auto.
      destruct (same w) as [_ ->]; auto. eapply particle_short. rewrite E. left; eauto.
    - rewrite adverb_same. auto.
    - rewrite hyph_same. auto.
    - unfold kp_tag. apply foldM_ext. intros st [prefix rest] Hin.
      destruct (same rest) as [_ E]; [eapply kp_short; eauto|]. simpl. rewrite E. auto.
  Qed.
End FuelIrrelevant.

Lemma run_parse_same : forall recP recP' recT recT' M word lower us i acc seen,
  (forall w, short lower w -> recP w = recP' w /\ recT w = recT' w) ->
  Forall (fun bt => prefixes_nonempty (fst bt)) us ->
  run_parse recP recT M word lower i us acc seen = run_parse recP' recT' M word lower i us acc seen.
Proof.
  intros recP recP' recT recT' M word lower; induction us as [|[b tm] us IH]; intros i acc seen H F; simpl; auto.
  inversion F; subst. rewrite (unit_parse_same recP recP' recT recT'); auto.
  destruct (unit_parse recP' recT' M i b word lower seen) as [[ps s]|]; simpl; auto.
  destruct (tm && _); auto.
Qed.
Lemma run_tag_same : forall recP recP' recT recT' M word lower us i acc seen,
  (forall w, short lower w -> recP w = recP' w /\ recT w = recT' w) ->
  Forall (fun bt => prefixes_nonempty (fst bt)) us ->
  run_tag recP recT M word lower i us acc seen = run_tag recP' recT' M word lower i us acc seen.
Proof.
  intros recP recP' recT recT' M word lower; induction us as [|[b tm] us IH]; intros i acc seen H F; simpl; auto.
  inversion F; subst. rewrite (unit_tag_same recP recP' recT recT'); auto.
  destruct (unit_tag recP' recT' M i b word lower seen) as [[ps s]|]; simpl; auto.
  destruct (tm && _); auto.
Qed.

Lemma fuel_irrelevant : forall M n m word,
  lower_stable (m_uni M) -> Forall (fun bt => prefixes_nonempty (fst bt)) (m_units M) ->
  length (u_lower (m_uni M) word) < n -> length (u_lower (m_uni M) word) < m ->
  parse_f n M word = parse_f m M word /\ tag_f n M word = tag_f m M word.
Proof.
  intros M n; induction n as [|n IH]; intros [|m] word St F Hn Hm; try lia.
  unfold parse_f, tag_f. simpl. set (lower := u_lower (m_uni M) word) in *.
  assert (S : forall w, short lower w -> fst (analyze n M) w = fst (analyze m M) w /\ snd (analyze n M) w = snd (analyze m M) w).
  { intros w ((a & c & E) & L). fold (parse_f n M) (parse_f m M) (tag_f n M) (tag_f m M). apply IH; auto.
    - rewrite (St word a w c E). lia.
    - rewrite (St word a w c E). lia. }
  rewrite (run_parse_same _ (fst (analyze m M)) _ (snd (analyze m M))) by auto.
  rewrite (run_tag_same _ (fst (analyze m M)) _ (snd (analyze m M))) by auto. auto.
Qed.

(** ** RecursionError never comes from anything but exhausted fuel *)
Definition noRec {A} (x : res A) : Prop := x <> Err RecursionError.
Lemma noRec_ok : forall {A} (a : A), noRec (Ok a).
Proof. intros; discriminate. Qed.
Lemma noRec_bind : forall {A B} (x : res A) (f : A -> res B), noRec x -> (forall a, x = Ok a -> noRec (f a)) -> noRec (bind x f).
Proof. unfold noRec. intros A B [a|e] f H1 H2; simpl; auto. congruence. Qed.
Lemma noRec_rmap : forall {A B} (f : A -> B) (x : res A), noRec x -> noRec (rmap f x).
Proof. unfold noRec. intros A B f [a|e] H; simpl; congruence. Qed.
Lemma noRec_nth : forall {A} (l : list A) i, noRec (nth_res l i).
Proof. unfold noRec, nth_res. intros. destruct (nth_error l i); congruence. Qed.
Lemma noRec_mapM : forall {A B} (f : A -> res B) l, (forall x, In x l -> noRec (f x)) -> noRec (mapM f l).
Proof.
  induction l as [|x l IH]; intros H; simpl; [discriminate|].
  apply noRec_bind; [apply H; left; auto|]. intros y _. apply noRec_bind; [apply IH; intros; apply H; right; auto|].
  intros; apply noRec_ok.
Qed.
Lemma noRec_foldM : forall {A S} (f : S -> A -> res S) l s, (forall s x, In x l -> noRec (f s x)) -> noRec (foldM f s l).
Proof.
  induction l as [|x l IH]; intros s H; simpl; [discriminate|].
  apply noRec_bind; [apply H; left; auto|]. intros y _. apply IH. intros; apply H; right; auto.
Qed.
Create HintDb norec.
#[export] Hint Resolve noRec_ok noRec_nth : norec.
Ltac nr := repeat (match goal with
  | |- noRec (Ok _) => apply noRec_ok
  | |- noRec (nth_res _ _) => apply noRec_nth
  | |- noRec (bind _ _) => apply noRec_bind; [|intros ? ?]
  | |- noRec (mapM _ _) => apply noRec_mapM; intros ? ?
  | |- noRec (foldM _ _ _) => apply noRec_foldM; intros ? ? ?
  | |- noRec (rmap _ _) => apply noRec_rmap
  | |- noRec (match ?x with _ => _ end) => destruct x
  | |- noRec (if ?x then _ else _) => destruct x
  | |- noRec (Err _) => unfold noRec; discriminate
  end).
Lemma noRec_tag : forall D p i, noRec (build_tag_info D p i).
Proof. intros. unfold build_tag_info. nr. Qed.
Lemma noRec_stem : forall D p i w, noRec (build_stem D p i w).
Proof. intros. unfold build_stem. nr. Qed.
Lemma noRec_nf : forall D p i w, noRec (build_normal_form D p i w).
Proof. intros. unfold build_normal_form. destruct (i =? 0); nr; apply noRec_stem. Qed.
Lemma noRec_dict : forall M s l, noRec (dict_parse M s l).
Proof. intros. unfold dict_parse. nr; auto using noRec_tag, noRec_nf. Qed.
Lemma noRec_dict_tag : forall M l, noRec (dict_tag M l).
Proof. intros. unfold dict_tag. nr; auto using noRec_tag, noRec_nf. Qed.
Lemma noRec_all_latin : forall U s, noRec (all_latin U s).
Proof. induction s; simpl; nr; auto. unfold is_latin_char. nr. Qed.
Lemma noRec_shape : forall U b w, noRec (shape_tag U b w).
Proof. intros. unfold shape_tag, is_latin. destruct (b_cfg b); nr; apply noRec_all_latin. Qed.
Lemma noRec_ks_lengths : forall M self sub pid dawg lower is st, noRec (ks_lengths M self sub pid dawg lower st is).
Proof.
  induction is as [|j is IH]; intros st; simpl; nr; auto.
  unfold ks_at. apply noRec_foldM. intros s [fs vals] _. apply noRec_foldM. intros s' [[c p] k] _.
  unfold ks_step. nr; auto using noRec_tag, noRec_nf.
Qed.
Lemma noRec_kst_lengths : forall M dawg lower is st, noRec (kst_lengths M dawg lower st is).
Proof.
  induction is as [|j is IH]; intros st; simpl; nr; auto.
  unfold kst_at. apply noRec_foldM. intros s [fs vals] _. apply noRec_foldM. intros s' [[c p] k] _.
  unfold kst_step. nr; auto using noRec_tag.
Qed.
Lemma noRec_contains : forall C gs t, noRec (contains_set C gs t).
Proof. intros. unfold contains_set, assert_known, assert_initialized. nr. Qed.
Lemma noRec_any : forall C gs ts, noRec (any_contains C gs ts).
Proof. induction ts; simpl; nr; auto using noRec_contains. Qed.

Section NoRec.
  Variables (recP : str -> res (list parse)) (recT : str -> res (list tag)).
  Variables (M : morph) (i : nat) (b : bunit) (word lower : str).
  Hypothesis shortOk : forall w, short lower w -> noRec (recP w) /\ noRec (recT w).
  Hypothesis nonempty : prefixes_nonempty b.
  Lemma adverb_noRec : noRec (adverb_should_parse recT M lower).
  Proof.
    unfold adverb_should_parse. destruct (Nat.ltb_spec (length lower) 5); [discriminate|]. simpl.
    destruct (negb _); [discriminate|]. apply noRec_bind; [|intros; apply noRec_any].
    apply shortOk. change 3%Z with (Z.of_nat 3). rewrite slice_from_pos.
    rewrite <- (firstn_skipn 3 lower) at 1. apply short_suffix.
    destruct lower; simpl in *; [lia|congruence].
  Qed.
  Lemma hyph_noRec : forall skip mult seen, noRec (hyph_parse recP M (Root i) skip mult lower seen).
  Proof.
    intros. unfold hyph_parse. destruct (negb _); [discriminate|].
    destruct (split_once HY lower) as [lw [rw|]] eqn:E; [|discriminate]. apply split_once_spec in E as [E _].
    apply noRec_bind.
    - apply shortOk. rewrite E. split; [exists [], (HY :: rw); auto|rewrite app_length; simpl; lia].
    - intros ls _. apply noRec_bind; [|intros; apply noRec_ok]. apply shortOk.
      rewrite E. split; [exists (lw ++ [HY]), []; rewrite app_nil_r, <- app_assoc; auto|rewrite app_length; simpl; lia].
  Qed.
  Lemma unit_parse_noRec : forall seen, noRec (unit_parse recP recT M i b word lower seen).
  Proof.
    intros seen. unfold unit_parse. destruct (b_cfg b) eqn:C; try (unfold shape_parse; nr; apply noRec_shape).
    - nr; apply noRec_dict.
    - unfold particle_parse. destruct (particle_splits particles lower) as [|[w pt] r] eqn:E; [discriminate|].
      nr. apply shortOk. eapply particle_short; eauto. rewrite E. left; eauto.
    - apply noRec_bind; [apply adverb_noRec|intros a _; destruct a; nr].
    - apply hyph_noRec.
    - unfold kp_parse. apply noRec_foldM. intros st [pre rest] Hin. nr. apply shortOk. eapply kp_short; eauto.
    - unfold up_parse. nr; apply noRec_dict.
    - unfold ks_parse. destruct (_ <? _); [discriminate|]. apply noRec_bind; [|intros; nr].
      apply noRec_foldM. intros acc [pid pre] _. unfold ks_prefix. nr; apply noRec_ks_lengths.
  Qed.
  Lemma unit_tag_noRec : forall seen, noRec (unit_tag recP recT M i b word lower seen).
  Proof.
    intros seen. unfold unit_tag. destruct (b_cfg b) eqn:C; try (unfold shape_tags; nr; apply noRec_shape).
    - nr; apply noRec_dict_tag.
    - unfold particle_tag. destruct (particle_splits particles lower) as [|[w pt] r] eqn:E; [discriminate|].
      nr. apply shortOk. eapply particle_short; eauto. rewrite E. left; eauto.
    - apply noRec_bind; [apply adverb_noRec|intros a _; destruct a; nr].
    - unfold default_tag. apply noRec_bind; [apply hyph_noRec|]. intros; nr.
    - unfold kp_tag. apply noRec_foldM. intros st [pre rest] Hin. nr. apply shortOk. eapply kp_short; eauto.
    - unfold up_tag. nr; apply noRec_dict_tag.
    - unfold ks_tag. destruct (_ <? _); [discriminate|]. apply noRec_bind; [|intros; nr].
      apply noRec_foldM. intros acc [pid pre] _. unfold kst_prefix. nr; apply noRec_kst_lengths.
  Qed.
End NoRec.

Lemma run_parse_noRec : forall recP recT M word lower us i acc seen,
  (forall w, short lower w -> noRec (recP w) /\ noRec (recT w)) ->
  Forall (fun bt => prefixes_nonempty (fst bt)) us ->
  noRec (run_parse recP recT M word lower i us acc seen).
Proof.
  intros recP recT M word lower; induction us as [|[b tm] us IH]; intros i acc seen H F; simpl; [discriminate|].
  inversion F; subst. apply noRec_bind; [apply unit_parse_noRec; auto|]. intros [ps s] _. destruct (tm && _); auto. discriminate.
Qed.
Lemma run_tag_noRec : forall recP recT M word lower us i acc seen,
  (forall w, short lower w -> noRec (recP w) /\ noRec (recT w)) ->
  Forall (fun bt => prefixes_nonempty (fst bt)) us ->
  noRec (run_tag recP recT M word lower i us acc seen).
Proof.
  intros recP recT M word lower; induction us as [|[b tm] us IH]; intros i acc seen H F; simpl; [discriminate|].
  inversion F; subst. apply noRec_bind; [apply unit_tag_noRec; auto|]. intros [ps s] _. destruct (tm && _); auto. discriminate.
Qed.
Lemma enough_fuel : forall M n word,
  lower_stable (m_uni M) -> Forall (fun bt => prefixes_nonempty (fst bt)) (m_units M) ->
  length (u_lower (m_uni M) word) < n ->
  parse_f n M word <> Err RecursionError /\ tag_f n M word <> Err RecursionError.
Proof.
  intros M n; induction n as [|n IH]; intros word St F Hn; [lia|].
  unfold parse_f, tag_f. simpl. set (lower := u_lower (m_uni M) word) in *.
  assert (S : forall w, short lower w -> noRec (fst (analyze n M) w) /\ noRec (snd (analyze n M) w)).
  { intros w ((a & c & E) & L). apply IH; auto. rewrite (St word a w c E). lia. }
  split.
  - apply noRec_bind; [apply run_parse_noRec; auto|]. intros r _. destruct (m_prob M); nr.
    unfold apply_to_parses. destruct r; [discriminate|]. destruct (Qeq_bool _ _); [|discriminate].
    destruct (Qeq_bool _ _); discriminate.
  - apply noRec_bind; [apply run_tag_noRec; auto|]. intros r _. destruct (m_prob M); nr.
Qed.
