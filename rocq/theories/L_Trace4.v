(** * Lemmas for C71: the Russian units *)
From Coq Require Import String List NArith ZArith Bool QArith Lia.
From Verif Require Import Py Uni Tagset Dawg Dict Shapes Units Analyzer ConfigRu ConfigUk Trace Spec Spec14 Spec21.
From Verif Require Import L_Base L_Config L_Words L_Groups L_Made L_Case L_Trace L_Trace2 L_Trace3.
Import ListNotations.
Local Open Scope nat_scope.
Local Open Scope list_scope.

Lemma unknown_items : forall M w, u_lower (m_uni M) w = w -> word_is_known M w false = false -> similar_items (d_words (m_dict M)) (m_subst M) w = [].
Proof.
  intros M w L K. unfold word_is_known in K. rewrite L in K. cbn [negb] in K. destruct (similar_items (d_words (m_dict M)) (m_subst M) w) as [|[v vals] l] eqn:E; [reflexivity|exfalso].
  assert (I : In (v, vals) (similar_items (d_words (m_dict M)) (m_subst M) w)) by (rewrite E; left; reflexivity).
  apply similar_items_In in I as [V G]. apply variants_spec in V.
  assert (X : dict_word_is_known (m_dict M) w (Some (m_subst M)) = true) by (apply known_iff; eauto). rewrite X in K. discriminate K.
Qed.
Lemma dict_quiet : forall M self w, u_lower (m_uni M) w = w -> word_is_known M w false = false -> dict_parse M self w = Ok [].
Proof. intros M self w L K. unfold dict_parse. rewrite (unknown_items M w L K). reflexivity. Qed.
Lemma smem_false : forall w l, ~ In w l -> smem w l = false.
Proof. intros w l N. destruct (smem w l) eqn:E; [|reflexivity]. apply smem_In in E. contradiction. Qed.

Definition early (c : ucfg) : bool :=
  match c with
  | UDict | UNumber _ | UPunct _ | ULatin _ | URoman _ | UParticle _ _ | UHAdverb _ | UHyph _ _ => true
  | UInit _ l _ _ => forallb (fun x => smem x RU_INITIAL_LETTERS) l
  | _ => false
  end.
Lemma early_quiet : forall M us w, unheard M w -> forallb (fun bt : bunit * bool => early (b_cfg (fst bt))) us = true -> quiet_units M us w w.
Proof.
  intros M us w (LW & (c & r & E & F) & NI & NH & K) EA recP recT j b tm I. rewrite forallb_forall in EA. specialize (EA _ I). cbn [fst] in EA.
  destruct (foreign_shape (m_uni M) c r F) as (S1 & S2 & S3 & S4). rewrite <- E in S1, S2, S3, S4.
  assert (MH : mem_char HY w = false) by (apply mem_char_false; exact NH).
  unfold unit_parse. destruct (b_cfg b) as [|f l pat sc|sc|sc|sc|sc|pp m|m|sk m|ps m mr|m|m ml|] eqn:C; try discriminate EA.
  - rewrite (dict_quiet M (Root j) w LW K). reflexivity.
  - rewrite smem_false; [reflexivity|]. intros X. apply NI. cbn in EA. rewrite forallb_forall in EA. specialize (EA _ X). apply smem_In. exact EA.
  - unfold shape_parse, shape_tag. rewrite C, ?S1, ?S2, ?S3, ?S4. reflexivity.
  - unfold shape_parse, shape_tag. rewrite C, ?S1, ?S2, ?S3, ?S4. reflexivity.
  - unfold shape_parse, shape_tag. rewrite C, ?S1, ?S2, ?S3, ?S4. reflexivity.
  - unfold shape_parse, shape_tag. rewrite C, ?S1, ?S2, ?S3, ?S4. reflexivity.
  - unfold particle_parse, particle_splits. rewrite MH. reflexivity.
  - unfold adverb_should_parse. assert (P : prefixb (u "по-") w = false).
    { destruct (prefixb (u "по-") w) eqn:P; [|reflexivity]. apply prefixb_spec in P as (z & Z). exfalso. apply NH. rewrite Z. apply in_or_app. left. vm_compute. tauto. }
    rewrite P. rewrite orb_true_r. reflexivity.
  - unfold hyph_parse, hyph_should_parse. rewrite MH. reflexivity.
Qed.

Lemma ru_shape : forall M, has_units M RU_DEFAULT_UNITS -> exists us b tm us2 mult, m_units M = us ++ (b, tm) :: us2 /\ b_cfg b = UKnownPrefix RU_KNOWN_PREFIXES mult 3 /\
  forallb (fun bt : bunit * bool => early (b_cfg (fst bt))) us = true.
Proof.
  intros M H. apply has_units_cfg in H. 
  assert (X : exists a b2 tm, flat_cfg RU_DEFAULT_UNITS = a ++ (UKnownPrefix RU_KNOWN_PREFIXES (75#100) 3, tm) :: b2 /\ forallb (fun ct : ucfg * bool => early (fst ct)) a = true).
  { exists (firstn 10 (flat_cfg RU_DEFAULT_UNITS)), (skipn 11 (flat_cfg RU_DEFAULT_UNITS)). eexists. split; [unfold RU_DEFAULT_UNITS, flat_cfg, ru_units; cbn [mapM flatten_item mark_last bind concat app firstn skipn]; reflexivity|].
    vm_compute. reflexivity. }
  destruct X as (a & b2 & tm & X & EA). rewrite X in H. clear X.
  assert (G : forall (l : list (bunit * bool)) a, forallb (fun ct : ucfg * bool => early (fst ct)) a = true -> map (fun bt => (b_cfg (fst bt), snd bt)) l = a ++ (UKnownPrefix RU_KNOWN_PREFIXES (75#100) 3, tm) :: b2 ->
     exists us b us2, l = us ++ (b, tm) :: us2 /\ b_cfg b = UKnownPrefix RU_KNOWN_PREFIXES (75#100) 3 /\ forallb (fun bt : bunit * bool => early (b_cfg (fst bt))) us = true).
  { clear. intros l a. revert l. induction a as [|[c t] a IH]; intros l EA H.
    - apply map_cons_inv in H as ([b t] & l2 & -> & F & _). cbn in F. injection F as F1 F2. subst t. exists [], b, l2. split; [reflexivity|]. split; [exact F1|reflexivity].
    - cbn [app] in H. apply map_cons_inv in H as ([b t'] & l2 & -> & F & H). cbn [forallb] in EA. apply andb_true_iff in EA as [E1 E2]. destruct (IH l2 E2 H) as (us & b' & us2 & -> & B & EU).
      cbn in F. injection F as F1 F2. exists ((b, t') :: us), b', us2. split; [reflexivity|]. split; [exact B|]. cbn [forallb fst]. rewrite F1. cbn in E1. rewrite E1. exact EU. }
  destruct (G _ _ EA H) as (us & b & us2 & E1 & E2 & E3). exists us, b, tm, us2, (75#100)%Q. auto.
Qed.
Lemma ru_doubling : forall M x y tail, has_units M RU_DEFAULT_UNITS -> In x RU_KNOWN_PREFIXES -> In y RU_KNOWN_PREFIXES -> In (x ++ y) RU_KNOWN_PREFIXES -> x <> [] -> y <> [] -> 3 <= length tail ->
  (forall k, unheard M (repeated (S k) (x ++ y) ++ tail) /\ unheard M (y ++ repeated k (x ++ y) ++ tail)) ->
  forall k n ps, parse_f n M (repeated k (x ++ y) ++ tail) = Ok ps -> 2 ^ k <= length (fst (fst (analyze_t n M) (repeated k (x ++ y) ++ tail))).
Proof.
  intros M x y tail H Ix Iy Ixy Nx Ny LT UN. destruct (ru_shape M H) as (us & b & tm & us2 & mult & U & C & EA).
  apply (doubling M us b tm us2 RU_KNOWN_PREFIXES mult 3); auto. intros k. cbv zeta. destruct (UN k) as [U1 U2].
  assert (E : repeated (S k) (x ++ y) ++ tail = x ++ y ++ repeated k (x ++ y) ++ tail) by (cbn [repeated]; rewrite <- !app_assoc; reflexivity). rewrite E in U1.
  split; [apply U1|]. split; [apply U2|]. split; apply early_quiet; auto.
Qed.
