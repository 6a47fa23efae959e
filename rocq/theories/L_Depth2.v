(** * Lemmas for C79: with prefixes and particles of at least two characters, half the length is enough *)
From Coq Require Import String List NArith ZArith Bool QArith Lia.
From Verif Require Import Py Uni Tagset Dawg Dict Shapes Units Analyzer ConfigRu ConfigUk Spec Spec2 Spec29.
From Verif Require Import L_Base L_Run L_Config L_Words L_Groups L_Made L_ByUnit L_Parse.
Import ListNotations.
Local Open Scope nat_scope.
Local Open Scope list_scope.

Definition two_long (c : ucfg) : bool :=
  match c with
  | UKnownPrefix ps _ _ | UParticle ps _ => forallb (fun p : str => 2 <=? length p) ps
  | _ => true
  end.
Definition shorter2 (lower w : str) : Prop := piece w lower /\ length w + 2 <= length lower.
Lemma shorter2_suffix : forall a w, 2 <= length a -> shorter2 (a ++ w) w.
Proof. intros a w H. split; [exists a, []; rewrite app_nil_r; auto|]. rewrite app_length. lia. Qed.
Lemma long_in : forall ps (p : str), forallb (fun p : str => 2 <=? length p) ps = true -> In p ps -> 2 <= length p.
Proof. intros ps p F I. rewrite forallb_forall in F. apply Nat.leb_le. exact (F _ I). Qed.

Lemma particle_short2 : forall lower particles w pt, forallb (fun p : str => 2 <=? length p) particles = true -> In (w, pt) (particle_splits particles lower) -> shorter2 lower w.
Proof.
  intros lower particles w pt F I. apply particle_splits_In in I as (IP & _ & H1 & H2 & H3).
  destruct (split_particle _ _ _ H1 H2 H3) as [-> N]. split; [exists [], pt; auto|].
  assert (L := long_in _ _ F IP). rewrite app_length. lia.
Qed.
Lemma kp_short2 : forall M lower prefixes minrem prefix rest, forallb (fun p : str => 2 <=? length p) prefixes = true ->
  In (prefix, rest) (kp_splits M prefixes minrem lower) -> shorter2 lower rest.
Proof.
  intros M lower prefixes minrem prefix rest F I. apply kp_splits_In in I as (IP & E & _). rewrite E.
  apply shorter2_suffix. exact (long_in _ _ F IP).
Qed.
Lemma adverb_short2 : forall lower, 5 <= length lower -> shorter2 lower (slice_from lower 3).
Proof.
  intros lower H. change 3%Z with (Z.of_nat 3). rewrite slice_from_pos.
  rewrite <- (firstn_skipn 3 lower) at 1. apply shorter2_suffix. rewrite firstn_length. lia.
Qed.
Lemma hyph_short2 : forall M skip lower, hyph_should_parse M skip lower = true -> exists l r, split_once HY lower = (l, Some r) /\ shorter2 lower l /\ shorter2 lower r.
Proof.
  intros M skip lower SP.
  assert (O : exists l r, one_inner_hyphen lower l r). { apply inner_hyphen. unfold hyph_should_parse in SP. apply andb_true_iff in SP. apply SP. }
  destruct O as (l & r & O). exists l, r. split; [exact (split_once_inner _ _ _ O)|]. destruct O as (E & NL & NR & _).
  assert (LL : 1 <= length l) by (destruct l; [congruence|simpl; lia]). assert (LR : 1 <= length r) by (destruct r; [congruence|simpl; lia]).
  rewrite E. split.
  - split; [exists [], (u "-" ++ r); auto|rewrite !app_length; simpl; lia].
  - split; [exists (l ++ u "-"), []; rewrite app_nil_r, <- app_assoc; auto|rewrite !app_length; simpl; lia].
Qed.

Section Same2.
  Variables (recP recP' : str -> res (list parse)) (recT recT' : str -> res (list tag)).
  Variables (M : morph) (i : nat) (b : bunit) (word lower : str).
  Hypothesis same : forall w, shorter2 lower w -> recP w = recP' w /\ recT w = recT' w.
  Hypothesis long : two_long (b_cfg b) = true.
  Lemma adverb_same2 : adverb_should_parse recT M lower = adverb_should_parse recT' M lower.
  Proof.
    unfold adverb_should_parse. destruct (Nat.ltb_spec (length lower) 5); auto. simpl.
    destruct (negb _); auto. destruct (same (slice_from lower 3)) as [_ ->]; auto. apply adverb_short2. assumption.
  Qed.
  Lemma hyph_same2 : forall skip mult seen,
    hyph_parse recP M (Root i) skip mult lower seen = hyph_parse recP' M (Root i) skip mult lower seen.
  Proof.
    intros. unfold hyph_parse. destruct (hyph_should_parse M skip lower) eqn:SP; cbn [negb]; auto.
    destruct (hyph_short2 M skip lower SP) as (l & r & -> & SL & SR). destruct (same l SL) as [-> _]. destruct (same r SR) as [-> _]. reflexivity.
  Qed.
  Lemma unit_parse_same2 : forall seen,
    unit_parse recP recT M i b word lower seen = unit_parse recP' recT' M i b word lower seen.
  Proof.
    intros seen. unfold unit_parse. destruct (b_cfg b) eqn:C; auto.
    - unfold particle_parse. destruct (particle_splits particles lower) as [|[w pt] r] eqn:E; auto.
      destruct (same w) as [-> _]; auto. apply (particle_short2 lower particles w pt long). rewrite E. left; reflexivity.
    - rewrite adverb_same2. auto.
    - apply hyph_same2.
    - unfold kp_parse. apply foldM_ext. intros st [prefix rest] Hin.
      destruct (same rest) as [-> _]; auto. eapply kp_short2; [exact long|exact Hin].
  Qed.
  Lemma unit_tag_same2 : forall seen,
    unit_tag recP recT M i b word lower seen = unit_tag recP' recT' M i b word lower seen.
  Proof.
    intros seen. unfold unit_tag. destruct (b_cfg b) eqn:C; auto.
    - unfold particle_tag. destruct (particle_splits particles lower) as [|[w pt] r] eqn:E; auto.
      destruct (same w) as [_ ->]; auto. apply (particle_short2 lower particles w pt long). rewrite E. left; reflexivity.
    - rewrite adverb_same2. auto.
    - rewrite hyph_same2. auto.
    - unfold kp_tag. apply foldM_ext. intros st [prefix rest] Hin.
      destruct (same rest) as [_ E]; [eapply kp_short2; [exact long|exact Hin]|]. simpl. rewrite E. auto.
  Qed.
End Same2.
Lemma run_parse_same2 : forall recP recP' recT recT' M word lower us i acc seen,
  (forall w, shorter2 lower w -> recP w = recP' w /\ recT w = recT' w) -> Forall (fun bt => two_long (b_cfg (fst bt)) = true) us ->
  run_parse recP recT M word lower i us acc seen = run_parse recP' recT' M word lower i us acc seen.
Proof.
  intros recP recP' recT recT' M word lower; induction us as [|[b tm] us IH]; intros i acc seen H F; simpl; auto.
  inversion F; subst. rewrite (unit_parse_same2 recP recP' recT recT'); auto.
  destruct (unit_parse recP' recT' M i b word lower seen) as [[ps s]|]; simpl; auto.
  destruct (tm && _); auto.
Qed.
Lemma run_tag_same2 : forall recP recP' recT recT' M word lower us i acc seen,
  (forall w, shorter2 lower w -> recP w = recP' w /\ recT w = recT' w) -> Forall (fun bt => two_long (b_cfg (fst bt)) = true) us ->
  run_tag recP recT M word lower i us acc seen = run_tag recP' recT' M word lower i us acc seen.
Proof.
  intros recP recP' recT recT' M word lower; induction us as [|[b tm] us IH]; intros i acc seen H F; simpl; auto.
  inversion F; subst. rewrite (unit_tag_same2 recP recP' recT recT'); auto.
  destruct (unit_tag recP' recT' M i b word lower seen) as [[ps s]|]; simpl; auto.
  destruct (tm && _); auto.
Qed.
Lemma half_irrelevant : forall M n m word,
  lower_stable (m_uni M) -> Forall (fun bt => two_long (b_cfg (fst bt)) = true) (m_units M) ->
  length (u_lower (m_uni M) word) < 2 * n -> length (u_lower (m_uni M) word) < 2 * m ->
  parse_f n M word = parse_f m M word /\ tag_f n M word = tag_f m M word.
Proof.
  intros M n; induction n as [|n IH]; intros [|m] word St F Hn Hm; try lia.
  unfold parse_f, tag_f. simpl. set (lower := u_lower (m_uni M) word) in *.
  assert (S : forall w, shorter2 lower w -> fst (analyze n M) w = fst (analyze m M) w /\ snd (analyze n M) w = snd (analyze m M) w).
  { intros w ((a & c & E) & L). fold (parse_f n M) (parse_f m M) (tag_f n M) (tag_f m M). apply IH; auto; rewrite (St word a w c E); lia. }
  rewrite (run_parse_same2 _ (fst (analyze m M)) _ (snd (analyze m M))) by auto.
  rewrite (run_tag_same2 _ (fst (analyze m M)) _ (snd (analyze m M))) by auto. auto.
Qed.

Lemma shipped_long : forall M, shipped_units M -> Forall (fun bt => two_long (b_cfg (fst bt)) = true) (m_units M).
Proof.
  assert (R : forallb (fun ct : ucfg * bool => two_long (fst ct)) (flat_cfg RU_DEFAULT_UNITS) = true) by (vm_compute; reflexivity).
  assert (K : forallb (fun ct : ucfg * bool => two_long (fst ct)) (flat_cfg UK_DEFAULT_UNITS) = true) by (vm_compute; reflexivity).
  assert (G : forall M items, has_units M items -> forallb (fun ct : ucfg * bool => two_long (fst ct)) (flat_cfg items) = true -> Forall (fun bt => two_long (b_cfg (fst bt)) = true) (m_units M)).
  { clear. intros M items H B. apply has_units_cfg in H. rewrite <- H in B. clear H. apply Forall_forall. intros bt I. rewrite forallb_forall in B.
    exact (B (b_cfg (fst bt), snd bt) (in_map (fun bt => (b_cfg (fst bt), snd bt)) _ _ I)). }
  intros M [H|H]; [exact (G M _ H R)|exact (G M _ H K)].
Qed.
Lemma shipped_half : forall M word n, lower_stable (m_uni M) -> shipped_units M -> length (u_lower (m_uni M) word) < 2 * n ->
  parse_f n M word <> Err RecursionError /\ tag_f n M word <> Err RecursionError /\
  parse_f n M word = morph_parse M word /\ tag_f n M word = morph_tag M word.
Proof.
  intros M word n St SU L.
  destruct (half_irrelevant M n (fuel_for M word) word St (shipped_long M SU) L) as [A B]; [unfold fuel_for; lia|].
  fold (morph_parse M word) in A. fold (morph_tag M word) in B. destruct (shipped_facts M SU) as (_ & _ & F).
  destruct (enough_fuel M (fuel_for M word) word St F) as [C D]; [unfold fuel_for; lia|].
  split; [rewrite A; exact C|]. split; [rewrite B; exact D|]. split; assumption.
Qed.
