(** * Lemmas for C71: the lower bound for tag() *)
From Coq Require Import String List NArith ZArith Bool QArith Lia.
From Verif Require Import Py Uni Tagset Dawg Dict Shapes Units Analyzer ConfigRu ConfigUk Trace Spec Spec14 Spec21.
From Verif Require Import L_Base L_Config L_Words L_Groups L_Made L_Case L_Trace L_Trace2 L_Trace3 L_Trace4.
Import ListNotations.
Local Open Scope nat_scope.
Local Open Scope list_scope.

Lemma kp_tag_full : forall (tT : str -> tr (list tag)) l st r, snd (tfold (fun st (pr : str * str) => tbind (tT (snd pr)) (fun ts => tlift (Ok (tags_step st ts)))) st l) = Ok r ->
  (forall pr, In pr l -> exists ps, snd (tT (snd pr)) = Ok ps) /\
  length (fst (tfold (fun st (pr : str * str) => tbind (tT (snd pr)) (fun ts => tlift (Ok (tags_step st ts)))) st l)) = list_sum (map (fun pr => length (fst (tT (snd pr)))) l).
Proof.
  intros tT l. induction l as [|[prefix rest] l IH]; intros st r H; [split; [intros pr []|reflexivity]|].
  cbn [tfold snd] in H |- *. rewrite snd_tbind, snd_tbind in H. rewrite fst_tbind, fst_tbind, snd_tbind. destruct (snd (tT rest)) as [ps|e] eqn:E; [|discriminate H]. cbn [bind snd fst tlift] in H |- *.
  destruct (IH _ _ H) as [A B]. split.
  - intros pr [<-|I]; [exists ps; exact E|auto].
  - rewrite app_nil_r, app_length. change (list_sum (map (fun pr : str * str => length (fst (tT (snd pr)))) ((prefix, rest) :: l))) with (length (fst (tT rest)) + list_sum (map (fun pr : str * str => length (fst (tT (snd pr)))) l)). rewrite <- B. reflexivity.
Qed.
Definition quiet_tags (M : morph) (us : list (bunit * bool)) (w lower : str) : Prop :=
  forall recP recT j b tm, In (b, tm) us -> unit_tag recP recT M j b w lower [] = Ok ([], []).
Lemma run_quiet_tags : forall tP tT M w lower us b tm us2 i r, quiet_tags M us w lower ->
  snd (run_tag_t tP tT M w lower i (us ++ (b, tm) :: us2) [] []) = Ok r ->
  exists out, snd (unit_tag_t tP tT M (i + length us) b w lower []) = Ok out /\
   length (fst (unit_tag_t tP tT M (i + length us) b w lower [])) <= length (fst (run_tag_t tP tT M w lower i (us ++ (b, tm) :: us2) [] [])).
Proof.
  intros tP tT M w lower us b tm us2. induction us as [|[b' tm'] us IH]; intros i r Q H.
  - cbn [app length]. rewrite Nat.add_0_r. cbn [app run_tag_t] in H |- *. rewrite snd_tbind in H. rewrite fst_tbind, app_length. destruct (snd (unit_tag_t tP tT M i b w lower [])) as [out|e]; [|discriminate H]. exists out. split; [reflexivity|lia].
  - cbn [app run_tag_t] in H |- *. rewrite snd_tbind in H. rewrite fst_tbind, app_length.
    assert (E : snd (unit_tag_t tP tT M i b' w lower []) = Ok ([], [])).
    { rewrite (unit_tag_snd (fun w => snd (tP w)) (fun w => snd (tT w))) by auto. apply (Q _ _ i b' tm'). left; reflexivity. }
    rewrite E in H |- *. cbn [bind app] in H |- *. rewrite andb_false_r in H |- *.
    destruct (IH (S i) r) as (out & O & L); [intros recP recT j b0 tm0 I; apply (Q recP recT j b0 tm0); right; exact I|exact H|].
    exists out. cbn [length]. rewrite Nat.add_succ_r. rewrite Nat.add_succ_l in O, L. split; [exact O|lia].
Qed.
Lemma prefix_work_tags : forall M us b tm us2 prefixes mult minrem w f ps, m_units M = us ++ (b, tm) :: us2 -> b_cfg b = UKnownPrefix prefixes mult minrem ->
  u_lower (m_uni M) w = w -> quiet_tags M us w w -> tag_f (S f) M w = Ok ps ->
  (forall pr, In pr (kp_splits M prefixes minrem w) -> exists qs, tag_f f M (snd pr) = Ok qs) /\
  list_sum (map (fun pr => length (fst (snd (analyze_t f M) (snd pr)))) (kp_splits M prefixes minrem w)) < length (fst (snd (analyze_t (S f) M) w)).
Proof.
  intros M us b tm us2 prefixes mult minrem w f ps U C LW Q H. rewrite <- (proj2 (analyze_snd (S f) M w)) in H. cbn [analyze_t fst snd enter] in H |- *. rewrite LW in H |- *.
  rewrite snd_tbind in H. apply bind_ok in H as (r & H & _). rewrite U in H |- *.
  destruct (run_quiet_tags (fst (analyze_t f M)) (snd (analyze_t f M)) M w w us b tm us2 0 r Q H) as (out & O & L).
  unfold unit_tag_t in O, L. rewrite C in O, L. unfold kp_tag_t in O, L. apply kp_tag_full in O as [O1 O2]. rewrite O2 in L. split.
  - intros pr I. destruct (O1 pr I) as (qs & E). exists qs. rewrite (proj2 (analyze_snd f M (snd pr))) in E. exact E.
  - cbn [length]. rewrite fst_tbind, app_length. lia.
Qed.
Lemma doubling_tags : forall M us b tm us2 prefixes mult minrem x y tail, m_units M = us ++ (b, tm) :: us2 -> b_cfg b = UKnownPrefix prefixes mult minrem ->
  In x prefixes -> In y prefixes -> In (x ++ y) prefixes -> x <> [] -> y <> [] -> minrem <= length tail ->
  (forall k, let v := repeated k (x ++ y) ++ tail in u_lower (m_uni M) (x ++ y ++ v) = x ++ y ++ v /\ u_lower (m_uni M) (y ++ v) = y ++ v /\ quiet_tags M us (x ++ y ++ v) (x ++ y ++ v) /\ quiet_tags M us (y ++ v) (y ++ v)) ->
  forall k f ps, tag_f f M (repeated k (x ++ y) ++ tail) = Ok ps -> 2 ^ k <= length (fst (snd (analyze_t f M) (repeated k (x ++ y) ++ tail))).
Proof.
  intros M us b tm us2 prefixes mult minrem x y tail U C Ix Iy Ixy Nx Ny LT QU. induction k as [|k IH]; intros f ps H.
  { destruct f; cbn; lia. }
  set (v := repeated k (x ++ y) ++ tail) in *. assert (LV : minrem <= length v) by (unfold v; rewrite app_length; lia).
  assert (E : repeated (S k) (x ++ y) ++ tail = x ++ y ++ v) by (unfold v; cbn [repeated]; rewrite <- !app_assoc; reflexivity). rewrite E in H |- *.
  destruct (QU k) as (L1 & L2 & Q1 & Q2). fold v in L1, L2, Q1, Q2.
  destruct f as [|f]; [discriminate H|].
  destruct (prefix_work_tags M us b tm us2 prefixes mult minrem (x ++ y ++ v) f ps U C L1 Q1 H) as [O W].
  assert (I1 : In (x, y ++ v) (kp_splits M prefixes minrem (x ++ y ++ v))) by (apply kp_splits_complete; auto; rewrite app_length; lia).
  assert (I2 : In (x ++ y, v) (kp_splits M prefixes minrem (x ++ y ++ v))) by (rewrite app_assoc; apply kp_splits_complete; auto; destruct x; [congruence|discriminate]).
  assert (NE : (x, y ++ v) <> (x ++ y, v)). { intros X. injection X as X _. apply (f_equal (@length _)) in X. rewrite app_length in X. destruct y; [congruence|cbn in X; lia]. }
  assert (SUM := sum_two _ (fun pr : str * str => length (fst (snd (analyze_t f M) (snd pr)))) _ _ I1 I2 NE). cbn [snd] in SUM.
  destruct (O _ I2) as (q2 & P2). cbn [snd] in P2. assert (B2 := IH f q2 P2).
  destruct (O _ I1) as (q1 & P1). cbn [snd] in P1. destruct f as [|f]; [discriminate P1|].
  destruct (prefix_work_tags M us b tm us2 prefixes mult minrem (y ++ v) f q1 U C L2 Q2 P1) as [O' W'].
  assert (I3 : In (y, v) (kp_splits M prefixes minrem (y ++ v))) by (apply kp_splits_complete; auto).
  destruct (O' _ I3) as (q3 & P3). cbn [snd] in P3. assert (B3 := IH f q3 P3).
  assert (ONE : length (fst (snd (analyze_t f M) v)) <= list_sum (map (fun pr : str * str => length (fst (snd (analyze_t f M) (snd pr)))) (kp_splits M prefixes minrem (y ++ v)))).
  { clear -I3. change (length (fst (snd (analyze_t f M) v))) with ((fun pr : str * str => length (fst (snd (analyze_t f M) (snd pr)))) (y, v)). generalize (fun pr : str * str => length (fst (snd (analyze_t f M) (snd pr)))) as g. intros g.
    induction (kp_splits M prefixes minrem (y ++ v)) as [|z l IH]; [destruct I3|]. cbn. fold (list_sum (map g l)). destruct I3 as [->|I]; [lia|]. specialize (IH I). unfold list_sum in *. lia. }
  cbn [Nat.pow]. lia.
Qed.
Lemma item_values_nil : forall M w, u_lower (m_uni M) w = w -> word_is_known M w false = false -> dict_tag M w = Ok [].
Proof.
  intros M w L K. unfold dict_tag. assert (E := unknown_items M w L K). unfold similar_item_values. rewrite E. reflexivity.
Qed.
Lemma early_quiet_tags : forall M us w, unheard M w -> forallb (fun bt : bunit * bool => early (b_cfg (fst bt))) us = true -> quiet_tags M us w w.
Proof.
  intros M us w (LW & (c & r & E & F) & NI & NH & K) EA recP recT j b tm I. rewrite forallb_forall in EA. specialize (EA _ I). cbn [fst] in EA.
  destruct (foreign_shape (m_uni M) c r F) as (S1 & S2 & S3 & S4). rewrite <- E in S1, S2, S3, S4.
  assert (MH : mem_char HY w = false) by (apply mem_char_false; exact NH).
  unfold unit_tag. destruct (b_cfg b) as [|f l pat sc|sc|sc|sc|sc|pp m|m|sk m|ps m mr|m|m ml|] eqn:C; try discriminate EA.
  - rewrite (item_values_nil M w LW K). reflexivity.
  - rewrite smem_false; [reflexivity|]. intros X. apply NI. cbn in EA. rewrite forallb_forall in EA. specialize (EA _ X). apply smem_In. exact EA.
  - unfold shape_tags, shape_tag. rewrite C, ?S1, ?S2, ?S3, ?S4. reflexivity.
  - unfold shape_tags, shape_tag. rewrite C, ?S1, ?S2, ?S3, ?S4. reflexivity.
  - unfold shape_tags, shape_tag. rewrite C, ?S1, ?S2, ?S3, ?S4. reflexivity.
  - unfold shape_tags, shape_tag. rewrite C, ?S1, ?S2, ?S3, ?S4. reflexivity.
  - unfold particle_tag, particle_splits. rewrite MH. reflexivity.
  - unfold adverb_should_parse. assert (P : prefixb (u "по-") w = false).
    { destruct (prefixb (u "по-") w) eqn:P; [|reflexivity]. apply prefixb_spec in P as (z & Z). exfalso. apply NH. rewrite Z. apply in_or_app. left. vm_compute. tauto. }
    rewrite P. rewrite orb_true_r. reflexivity.
  - unfold hyph_parse, hyph_should_parse. rewrite MH. reflexivity.
Qed.
Lemma ru_doubling_both : forall M x y tail, has_units M RU_DEFAULT_UNITS -> In x RU_KNOWN_PREFIXES -> In y RU_KNOWN_PREFIXES -> In (x ++ y) RU_KNOWN_PREFIXES -> x <> [] -> y <> [] -> 3 <= length tail ->
  (forall k, unheard M (repeated (S k) (x ++ y) ++ tail) /\ unheard M (y ++ repeated k (x ++ y) ++ tail)) ->
  forall k, (forall ps, morph_parse M (repeated k (x ++ y) ++ tail) = Ok ps -> 2 ^ k <= length (parse_trace M (repeated k (x ++ y) ++ tail))) /\
    (forall ts, morph_tag M (repeated k (x ++ y) ++ tail) = Ok ts -> 2 ^ k <= length (tag_trace M (repeated k (x ++ y) ++ tail))).
Proof.
  intros M x y tail H Ix Iy Ixy Nx Ny LT UN k. split; intros ps P.
  - eapply ru_doubling; eauto.
  - destruct (ru_shape M H) as (us & b & tm & us2 & mult & U & C & EA).
    refine (doubling_tags M us b tm us2 RU_KNOWN_PREFIXES mult 3 x y tail U C Ix Iy Ixy Nx Ny LT _ k _ ps P). intros j. cbv zeta. destruct (UN j) as [U1 U2].
    assert (E : repeated (S j) (x ++ y) ++ tail = x ++ y ++ repeated j (x ++ y) ++ tail) by (cbn [repeated]; rewrite <- !app_assoc; reflexivity). rewrite E in U1.
    split; [apply U1|]. split; [apply U2|]. split; apply early_quiet_tags; auto.
Qed.
