(** * Lemmas for C79: every allowance of nested calls is exceeded by some word; half the length is enough *)
From Coq Require Import String List NArith ZArith Bool QArith Lia.
From Verif Require Import Py Uni Tagset Dawg Dict Shapes Units Analyzer ConfigRu ConfigUk Trace Spec Spec14 Spec21 Spec29.
From Verif Require Import L_Base L_Run L_Config L_Words L_Groups L_Made L_Case L_ByUnit L_Parse L_Trace L_Trace2 L_Trace3 L_Trace4 L_Trace5.
Import ListNotations.
Local Open Scope nat_scope.
Local Open Scope list_scope.

(** ** The units before KnownPrefixAnalyzer say nothing *)
Definition short_letters (c : ucfg) : bool :=
  match c with
  | UDict | UNumber _ | UPunct _ | ULatin _ | URoman _ | UParticle _ _ | UHAdverb _ | UHyph _ _ => true
  | UInit _ l _ _ => forallb (fun x : str => length x <=? 1) l
  | _ => false
  end.
Definition quiet_word (M : morph) (w : str) : Prop :=
  u_lower (m_uni M) w = w /\ (exists c r, w = c :: r /\ foreign_letter (m_uni M) c) /\ 2 <= length w /\ ~ In (chr "-") w /\ word_is_known M w false = false.

Lemma adverb_quiet : forall recT M w, ~ In (chr "-") w -> adverb_should_parse recT M w = Ok false.
Proof.
  intros recT M w NH. unfold adverb_should_parse. assert (P : prefixb (u "по-") w = false).
  { destruct (prefixb (u "по-") w) eqn:P; [|reflexivity]. apply prefixb_spec in P as (z & Z). exfalso. apply NH. rewrite Z. apply in_or_app. left. vm_compute. tauto. }
  rewrite P. rewrite orb_true_r. reflexivity.
Qed.
Lemma letters_quiet : forall (w : str) l, 2 <= length w -> forallb (fun x : str => length x <=? 1) l = true -> smem w l = false.
Proof.
  intros w l L F. apply smem_false. intros X. rewrite forallb_forall in F. specialize (F _ X). apply Nat.leb_le in F. lia.
Qed.
Lemma short_quiet : forall M us w, quiet_word M w -> forallb (fun bt : bunit * bool => short_letters (b_cfg (fst bt))) us = true -> quiet_units M us w w.
Proof.
  intros M us w (LW & (c & r & E & F) & N2 & NH & K) EA recP recT j b tm I. rewrite forallb_forall in EA. specialize (EA _ I). cbn [fst] in EA.
  destruct (foreign_shape (m_uni M) c r F) as (S1 & S2 & S3 & S4). rewrite <- E in S1, S2, S3, S4.
  assert (MH : mem_char HY w = false) by (apply mem_char_false; exact NH).
  unfold unit_parse. destruct (b_cfg b) as [|f l pat sc|sc|sc|sc|sc|pp m|m|sk m|ps m mr|m|m ml|] eqn:C; try discriminate EA.
  - rewrite (dict_quiet M (Root j) w LW K). reflexivity.
  - rewrite (letters_quiet w l N2 EA). reflexivity.
  - unfold shape_parse, shape_tag. rewrite C, ?S1, ?S2, ?S3, ?S4. reflexivity.
  - unfold shape_parse, shape_tag. rewrite C, ?S1, ?S2, ?S3, ?S4. reflexivity.
  - unfold shape_parse, shape_tag. rewrite C, ?S1, ?S2, ?S3, ?S4. reflexivity.
  - unfold shape_parse, shape_tag. rewrite C, ?S1, ?S2, ?S3, ?S4. reflexivity.
  - unfold particle_parse, particle_splits. rewrite MH. reflexivity.
  - rewrite (adverb_quiet recT M w NH). reflexivity.
  - unfold hyph_parse, hyph_should_parse. rewrite MH. reflexivity.
Qed.
Lemma short_quiet_tags : forall M us w, quiet_word M w -> forallb (fun bt : bunit * bool => short_letters (b_cfg (fst bt))) us = true -> quiet_tags M us w w.
Proof.
  intros M us w (LW & (c & r & E & F) & N2 & NH & K) EA recP recT j b tm I. rewrite forallb_forall in EA. specialize (EA _ I). cbn [fst] in EA.
  destruct (foreign_shape (m_uni M) c r F) as (S1 & S2 & S3 & S4). rewrite <- E in S1, S2, S3, S4.
  assert (MH : mem_char HY w = false) by (apply mem_char_false; exact NH).
  unfold unit_tag. destruct (b_cfg b) as [|f l pat sc|sc|sc|sc|sc|pp m|m|sk m|ps m mr|m|m ml|] eqn:C; try discriminate EA.
  - rewrite (item_values_nil M w LW K). reflexivity.
  - rewrite (letters_quiet w l N2 EA). reflexivity.
  - unfold shape_tags, shape_tag. rewrite C, ?S1, ?S2, ?S3, ?S4. reflexivity.
  - unfold shape_tags, shape_tag. rewrite C, ?S1, ?S2, ?S3, ?S4. reflexivity.
  - unfold shape_tags, shape_tag. rewrite C, ?S1, ?S2, ?S3, ?S4. reflexivity.
  - unfold shape_tags, shape_tag. rewrite C, ?S1, ?S2, ?S3, ?S4. reflexivity.
  - unfold particle_tag, particle_splits. rewrite MH. reflexivity.
  - rewrite (adverb_quiet recT M w NH). reflexivity.
  - unfold hyph_parse, hyph_should_parse. rewrite MH. reflexivity.
Qed.

(** ** Errors of the known-prefix unit *)
Lemma foldM_first_err : forall {A S} (f : S -> A -> res S) l s e, l <> [] -> (forall s x, In x l -> f s x = Err e) -> foldM f s l = Err e.
Proof. intros A S f [|x l] s e N H; [congruence|]. simpl. rewrite (H s x); [reflexivity|left; reflexivity]. Qed.
Lemma run_quiet_err : forall recP recT M w us b tm us2 i e, quiet_units M us w w ->
  (forall j, unit_parse recP recT M j b w w [] = Err e) -> run_parse recP recT M w w i (us ++ (b, tm) :: us2) [] [] = Err e.
Proof.
  intros recP recT M w us b tm us2. induction us as [|[b' t'] us IH]; intros i e Q H.
  - cbn [app run_parse]. rewrite H. reflexivity.
  - cbn [app run_parse]. rewrite (Q recP recT i b' t' (or_introl eq_refl)).
    cbn [bind app]. rewrite andb_false_r. apply IH; auto. intros r1 r2 j b2 t2 I. apply (Q r1 r2 j b2 t2). right. exact I.
Qed.
Lemma run_quiet_tags_err : forall recP recT M w us b tm us2 i e, quiet_tags M us w w ->
  (forall j, unit_tag recP recT M j b w w [] = Err e) -> run_tag recP recT M w w i (us ++ (b, tm) :: us2) [] [] = Err e.
Proof.
  intros recP recT M w us b tm us2. induction us as [|[b' t'] us IH]; intros i e Q H.
  - cbn [app run_tag]. rewrite H. reflexivity.
  - cbn [app run_tag]. rewrite (Q recP recT i b' t' (or_introl eq_refl)).
    cbn [bind app]. rewrite andb_false_r. apply IH; auto. intros r1 r2 j b2 t2 I. apply (Q r1 r2 j b2 t2). right. exact I.
Qed.
(** a word whose only analysis is through one remainder raises what the remainder raises *)
Lemma chain_step : forall n M us b tm us2 prefixes mult minrem w rest e,
  m_units M = us ++ (b, tm) :: us2 -> b_cfg b = UKnownPrefix prefixes mult minrem ->
  quiet_word M w -> forallb (fun bt : bunit * bool => short_letters (b_cfg (fst bt))) us = true ->
  kp_splits M prefixes minrem w <> [] -> (forall pr, In pr (kp_splits M prefixes minrem w) -> snd pr = rest) ->
  parse_f n M rest = Err e -> tag_f n M rest = Err e -> parse_f (S n) M w = Err e /\ tag_f (S n) M w = Err e.
Proof.
  intros n M us b tm us2 prefixes mult minrem w rest e U C Q EA NE ALL P T. unfold parse_f, tag_f. cbn [analyze fst snd].
  assert (L : u_lower (m_uni M) w = w) by apply Q. rewrite L, U. split.
  - rewrite (run_quiet_err _ _ _ _ _ _ _ _ _ e (short_quiet M us w Q EA)); [reflexivity|].
    intros j. unfold unit_parse. rewrite C. unfold kp_parse. apply foldM_first_err; [exact NE|]. intros st [p r] I.
    assert (E := ALL _ I). cbn [snd] in E. subst r. fold (parse_f n M). rewrite P. reflexivity.
  - rewrite (run_quiet_tags_err _ _ _ _ _ _ _ _ _ e (short_quiet_tags M us w Q EA)); [reflexivity|].
    intros j. unfold unit_tag. rewrite C. unfold kp_tag. apply foldM_first_err; [exact NE|]. intros st [p r] I.
    assert (E := ALL _ I). cbn [snd] in E |- *. subst r. fold (tag_f n M). rewrite T. reflexivity.
Qed.

(** ** The words "не", "нене", "ненене" ... *)
Definition ne (k : nat) : str := repeated k (u "не").
Lemma ne_length : forall k, length (ne k) = 2 * k.
Proof. induction k as [|k IH]; [reflexivity|]. unfold ne in *. cbn [repeated]. rewrite app_length, IH. cbn. lia. Qed.
Lemma ne_chars : forall k c, In c (ne k) -> In c (u "не").
Proof. induction k as [|k IH]; intros c H; [destruct H|]. unfold ne in *. cbn [repeated] in H. apply in_app_or in H as [H|H]; auto. Qed.
Lemma ne_no_hyphen : forall k, ~ In (chr "-") (ne k).
Proof. intros k H. apply ne_chars in H. vm_compute in H. destruct H as [H|[H|[]]]; discriminate H. Qed.
Lemma longest_bound : forall M w vals, In (w, vals) (d_words (m_dict M)) -> length w <= longest_word M.
Proof.
  intros M w vals. unfold longest_word. generalize (d_words (m_dict M)) as l. induction l as [|x l IH]; intros H; [destruct H|].
  cbn [map fold_right]. destruct H as [->|H]; [cbn [fst]; lia|]. specialize (IH H). lia.
Qed.
Lemma subst_length : forall rp a b, subst_of rp a b -> length b = length a.
Proof. intros rp a b H. induction H; simpl; auto. Qed.
Lemma long_unknown : forall M w, u_lower (m_uni M) w = w -> longest_word M < length w -> word_is_known M w false = false.
Proof.
  intros M w L LT. destruct (word_is_known M w false) eqn:K; [exfalso|reflexivity]. unfold word_is_known in K. rewrite L in K.
  apply known_iff in K as (v & vals & SV & G). apply L_Agree.sget_In in G. apply longest_bound in G. apply subst_length in SV. lia.
Qed.
Lemma ne_quiet : forall M k, plain_ne (m_uni M) -> longest_word M < 2 * k -> quiet_word M (ne k).
Proof.
  intros M k [F L] LT. split; [exact (L k)|]. split.
  - destruct k as [|k]; [lia|]. exists (chr "н"). eexists. split; [reflexivity|exact F].
  - split; [rewrite ne_length; lia|]. split; [apply ne_no_hyphen|]. apply long_unknown; [exact (L k)|rewrite ne_length; exact LT].
Qed.
(** the prefixes of "нене..." in a list: only "не" *)
Definition only_ne (ps : list str) : bool :=
  forallb (fun p => str_eqb p (u "не") || negb (prefixb p (u "нене") || prefixb (u "нене") p)) ps.
Lemma prefix_compare : forall (p q r s : str), p ++ r = q ++ s -> (exists t, p = q ++ t) \/ (exists t, q = p ++ t).
Proof.
  induction p as [|x p IH]; intros q r s H; [right; exists q; reflexivity|]. destruct q as [|y q]; [left; exists (x :: p); reflexivity|].
  cbn in H. injection H as -> H. destruct (IH _ _ _ H) as [(t & ->)|(t & ->)]; [left|right]; exists t; reflexivity.
Qed.
Lemma ne_splits : forall M ps k pr, only_ne ps = true -> In pr (kp_splits M ps 3 (ne (S (S k)))) -> snd pr = ne (S k).
Proof.
  intros M ps k [p r] ON I. apply kp_splits_In in I as (I & E & _). unfold only_ne in ON. rewrite forallb_forall in ON. specialize (ON _ I).
  apply orb_true_iff in ON as [ON|ON].
  - apply str_eqb_eq in ON. subst p. cbn [snd]. change (ne (S (S k))) with (u "не" ++ ne (S k)) in E. apply app_inv_head in E. symmetry. exact E.
  - exfalso. apply negb_true_iff in ON. apply orb_false_iff in ON as [A B].
    assert (E2 : p ++ r = u "нене" ++ ne k) by (rewrite <- E; reflexivity).
    destruct (prefix_compare _ _ _ _ E2) as [(t & T)|(t & T)].
    + assert (X : prefixb (u "нене") p = true) by (apply prefixb_spec; exists t; exact T). rewrite X in B. discriminate B.
    + assert (X : prefixb p (u "нене") = true) by (apply prefixb_spec; exists t; exact T). rewrite X in A. discriminate A.
Qed.
Lemma ne_splits_some : forall M ps k, In (u "не") ps -> kp_splits M ps 3 (ne (S (S (S k)))) <> [].
Proof.
  intros M ps k I E. assert (X : In (u "не", ne (S (S k))) (kp_splits M ps 3 (ne (S (S (S k)))))).
  { change (ne (S (S (S k)))) with (u "не" ++ ne (S (S k))). apply kp_splits_complete; [exact I|discriminate|rewrite ne_length; lia]. }
  rewrite E in X. destruct X.
Qed.
Lemma chain_limit : forall M us b tm us2 ps mult, m_units M = us ++ (b, tm) :: us2 -> b_cfg b = UKnownPrefix ps mult 3 ->
  forallb (fun bt : bunit * bool => short_letters (b_cfg (fst bt))) us = true -> only_ne ps = true -> In (u "не") ps -> plain_ne (m_uni M) ->
  forall n k, longest_word M < 2 * S k -> 2 <= k -> parse_f n M (ne (n + k)) = Err RecursionError /\ tag_f n M (ne (n + k)) = Err RecursionError.
Proof.
  intros M us b tm us2 ps mult U C EA ON I NE. induction n as [|n IH]; intros k LK K2; [split; reflexivity|].
  destruct (IH k LK K2) as [P T]. destruct k as [|[|k]]; [lia|lia|].
  replace (S n + S (S k)) with (S (S (S (n + k)))) in * by lia. replace (n + S (S k)) with (S (S (n + k))) in * by lia.
  refine (chain_step n M us b tm us2 ps mult 3 _ (ne (S (S (n + k)))) _ U C _ EA _ _ P T).
  - apply ne_quiet; [exact NE|lia].
  - apply ne_splits_some. exact I.
  - intros pr. apply ne_splits. exact ON.
Qed.

(** ** The shipped unit lists *)
Lemma prefix_shape : forall M items ps k, has_units M items ->
  (exists a b2 tm, flat_cfg items = a ++ (UKnownPrefix ps k 3, tm) :: b2 /\ forallb (fun ct : ucfg * bool => short_letters (fst ct)) a = true) ->
  exists us b tm us2, m_units M = us ++ (b, tm) :: us2 /\ b_cfg b = UKnownPrefix ps k 3 /\ forallb (fun bt : bunit * bool => short_letters (b_cfg (fst bt))) us = true.
Proof.
  intros M items ps k H (a & b2 & tm & X & EA). apply has_units_cfg in H. rewrite X in H. clear X.
  assert (G : forall (l : list (bunit * bool)) a, forallb (fun ct : ucfg * bool => short_letters (fst ct)) a = true -> map (fun bt => (b_cfg (fst bt), snd bt)) l = a ++ (UKnownPrefix ps k 3, tm) :: b2 ->
     exists us b us2, l = us ++ (b, tm) :: us2 /\ b_cfg b = UKnownPrefix ps k 3 /\ forallb (fun bt : bunit * bool => short_letters (b_cfg (fst bt))) us = true).
  { clear. intros l a. revert l. induction a as [|[c t] a IH]; intros l EA H.
    - apply map_cons_inv in H as ([b t] & l2 & -> & F & _). cbn in F. injection F as F1 F2. subst t. exists [], b, l2. split; [reflexivity|]. split; [exact F1|reflexivity].
    - cbn [app] in H. apply map_cons_inv in H as ([b t'] & l2 & -> & F & H). cbn [forallb] in EA. apply andb_true_iff in EA as [E1 E2]. destruct (IH l2 E2 H) as (us & b' & us2 & -> & B & EU).
      cbn in F. injection F as F1 F2. exists ((b, t') :: us), b', us2. split; [reflexivity|]. split; [exact B|]. cbn [forallb fst]. rewrite F1. cbn in E1. rewrite E1. exact EU. }
  destruct (G _ _ EA H) as (us & b & us2 & E1 & E2 & E3). exists us, b, tm, us2. auto.
Qed.
Lemma ru_flat : exists a b2 tm, flat_cfg RU_DEFAULT_UNITS = a ++ (UKnownPrefix RU_KNOWN_PREFIXES (75#100) 3, tm) :: b2 /\ forallb (fun ct : ucfg * bool => short_letters (fst ct)) a = true.
Proof.
  exists (firstn 10 (flat_cfg RU_DEFAULT_UNITS)), (skipn 11 (flat_cfg RU_DEFAULT_UNITS)). eexists. split; [unfold RU_DEFAULT_UNITS, flat_cfg, ru_units; cbn [mapM flatten_item mark_last bind concat app firstn skipn]; reflexivity|].
  vm_compute. reflexivity.
Qed.
Lemma uk_flat : exists a b2 tm, flat_cfg UK_DEFAULT_UNITS = a ++ (UKnownPrefix UK_KNOWN_PREFIXES (75#100) 3, tm) :: b2 /\ forallb (fun ct : ucfg * bool => short_letters (fst ct)) a = true.
Proof.
  exists (firstn 9 (flat_cfg UK_DEFAULT_UNITS)), (skipn 10 (flat_cfg UK_DEFAULT_UNITS)). eexists. split; [unfold UK_DEFAULT_UNITS, flat_cfg, uk_units; cbn [mapM flatten_item mark_last bind concat app firstn skipn]; reflexivity|].
  vm_compute. reflexivity.
Qed.
Lemma only_ne_shipped : only_ne RU_KNOWN_PREFIXES = true /\ only_ne UK_KNOWN_PREFIXES = true.
Proof. split; vm_compute; reflexivity. Qed.
Lemma has_ne : In (u "не") RU_KNOWN_PREFIXES /\ In (u "не") UK_KNOWN_PREFIXES.
Proof.
  assert (S1 : smem (u "не") RU_KNOWN_PREFIXES = true) by (vm_compute; reflexivity). assert (S2 : smem (u "не") UK_KNOWN_PREFIXES = true) by (vm_compute; reflexivity).
  split; [exact (proj1 (smem_In _ _) S1)|exact (proj1 (smem_In _ _) S2)].
Qed.
Lemma shipped_limit : forall M, shipped_units M -> plain_ne (m_uni M) -> forall n,
  let word := repeated (n + 2 + longest_word M) (u "не") in parse_f n M word = Err RecursionError /\ tag_f n M word = Err RecursionError.
Proof.
  intros M SU NE n. cbv zeta. change (repeated (n + 2 + longest_word M) (u "не")) with (ne (n + 2 + longest_word M)). rewrite <- Nat.add_assoc.
  destruct SU as [H|H].
  - destruct (prefix_shape M _ _ _ H ru_flat) as (us & b & tm & us2 & U & C & EA).
    exact (chain_limit M us b tm us2 _ _ U C EA (proj1 only_ne_shipped) (proj1 has_ne) NE n (2 + longest_word M) ltac:(lia) ltac:(lia)).
  - destruct (prefix_shape M _ _ _ H uk_flat) as (us & b & tm & us2 & U & C & EA).
    exact (chain_limit M us b tm us2 _ _ U C EA (proj2 only_ne_shipped) (proj2 has_ne) NE n (2 + longest_word M) ltac:(lia) ltac:(lia)).
Qed.
