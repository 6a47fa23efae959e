(** * Where parses come from: soundness of the units *)
From Coq Require Import String List NArith ZArith Bool Arith Lia QArith Permutation.
From Verif Require Import Py Uni Tagset Dawg Utils Shapes Dict Units Analyzer Spec L_Base L_Run.
Import ListNotations.
Local Open Scope nat_scope.
Local Open Scope list_scope.

Lemma sget_In : forall {V} k (v : V) d, sget k d = Some v -> In (k, v) d.
Proof. intros. eapply dget_In; eauto. apply str_eqb_eq. Qed.
Lemma similar_items_In : forall {V} (d : rdawg V) r k w vals,
  In (w, vals) (similar_items d r k) <-> In w (variants r k) /\ sget w d = Some vals.
Proof.
  intros. unfold similar_items. rewrite in_flat_map. split.
  - intros (v & Hv & H). destruct (sget v d) eqn:E; simpl in H; [|tauto]. destruct H as [H|[]]. inversion H; subst. auto.
  - intros [H1 H2]. exists w. split; auto. rewrite H2. left; auto.
Qed.

(** A dictionary reading of [lower] *)
Definition dict_entry (M : morph) (self : uref) (lower : str) (p : parse) : Prop :=
  exists w vals para idx nf t,
    In w (variants (m_subst M) lower) /\ sget w (d_words (m_dict M)) = Some vals /\ In (para, idx) vals /\
    build_normal_form (m_dict M) para idx w = Ok nf /\ build_tag_info (m_dict M) para idx = Ok t /\
    p = {| p_word := w; p_tag := t; p_nf := nf; p_score := 1; p_stack := [MDict self w para idx] |}.

Lemma dict_parse_entry : forall M self lower ps p,
  dict_parse M self lower = Ok ps -> In p ps -> dict_entry M self lower p.
Proof.
  intros M self lower ps p H Hp. unfold dict_parse in H. apply rmap_ok in H as (a & H & ->).
  apply in_concat in Hp as (l & Hl & Hp). eapply mapM_In in H as ([w vals] & Hw & H); eauto.
  apply similar_items_In in Hw as [Hw Hv].
  eapply mapM_In in H as ([para idx] & Hpi & H); eauto.
  apply bind_ok in H as (nf & E1 & H). apply bind_ok in H as (t & E2 & H). apply Ok_inj in H.
  exists w, vals, para, idx, nf, t. repeat split; auto.
Qed.
Lemma dict_parse_complete : forall M self lower ps w vals para idx,
  dict_parse M self lower = Ok ps -> In w (variants (m_subst M) lower) ->
  sget w (d_words (m_dict M)) = Some vals -> In (para, idx) vals ->
  exists nf t, build_normal_form (m_dict M) para idx w = Ok nf /\ build_tag_info (m_dict M) para idx = Ok t /\
    In {| p_word := w; p_tag := t; p_nf := nf; p_score := 1; p_stack := [MDict self w para idx] |} ps.
Proof.
  intros M self lower ps w vals para idx H Hw Hv Hi. unfold dict_parse in H. apply rmap_ok in H as (a & H & ->).
  assert (Hs : In (w, vals) (similar_items (d_words (m_dict M)) (m_subst M) lower)) by (apply similar_items_In; auto).
  eapply mapM_In_l in H as (l & H & Hl); eauto. simpl in H.
  eapply mapM_In_l in H as (q & H & Hq); eauto. simpl in H.
  apply bind_ok in H as (nf & E1 & H). apply bind_ok in H as (t & E2 & H). apply Ok_inj in H. subst.
  exists nf, t. repeat split; auto. apply in_concat. eauto.
Qed.

(** A suffix-prediction reading *)
Definition ks_entry (M : morph) (self sub : uref) (mult : Q) (lower : str) (p : parse) : Prop :=
  exists pid pre dawg j fs vals cnt para idx t nf total,
    nth_error (d_prefixes (m_dict M)) pid = Some pre /\ prefixb pre lower = true /\
    nth_error (d_pred (m_dict M)) pid = Some dawg /\ 1 <= j <= d_maxsuf (m_dict M) /\
    In fs (variants (m_subst M) (slice_from lower (- Z.of_nat j))) /\
    sget fs dawg = Some vals /\ In (cnt, para, idx) vals /\
    build_tag_info (m_dict M) para idx = Ok t /\ is_productive t = true /\
    let w := slice_to lower (- Z.of_nat j) ++ fs in
    build_normal_form (m_dict M) para idx w = Ok nf /\ cnt < total /\
    p = {| p_word := w; p_tag := t; p_nf := nf;
           p_score := (Z.of_nat cnt # Pos.of_nat total) * mult;
           p_stack := [MDict sub w para idx; MStr self fs] |}.

(** what a raw prediction must look like *)
Definition raw_from (M : morph) (self sub : uref) (dawg : rdawg (nat * nat * nat)) (lower : str) (r : ksraw) : Prop :=
  exists j fs vals para idx,
    1 <= j <= d_maxsuf (m_dict M) /\
    In fs (variants (m_subst M) (slice_from lower (- Z.of_nat j))) /\
    sget fs dawg = Some vals /\ In (k_cnt r, para, idx) vals /\
    build_tag_info (m_dict M) para idx = Ok (k_tag r) /\ is_productive (k_tag r) = true /\
    k_word r = slice_to lower (- Z.of_nat j) ++ fs /\
    build_normal_form (m_dict M) para idx (k_word r) = Ok (k_nf r) /\
    k_stack r = [MDict sub (k_word r) para idx; MStr self fs].
Definition raw_inv M self sub dawg lower (st : ksst) : Prop :=
  1 <= ks_total st /\ forall r, In r (ks_res st) -> raw_from M self sub dawg lower r /\ k_cnt r < ks_total st.

Lemma ks_at_inv : forall M self sub pid dawg lower st j st',
  1 <= j <= d_maxsuf (m_dict M) ->
  raw_inv M self sub dawg lower st -> ks_at M self sub pid dawg lower st j = Ok st' -> raw_inv M self sub dawg lower st'.
Proof.
  intros M self sub pid dawg lower st j st' Hj I H. unfold ks_at in H.
  eapply (foldM_inv (raw_inv M self sub dawg lower)); [exact I| |exact H]. clear I H st st'.
  intros st [fs vals] st' Hin I H. apply similar_items_In in Hin as [Hfs Hv].
  eapply (foldM_inv (raw_inv M self sub dawg lower)); [exact I| |exact H]. clear I H st st'.
  intros st [[cnt para] idx] st' Hin [I0 I] H. unfold ks_step in H.
  apply bind_ok in H as (t & Et & H). destruct (negb (is_productive t)) eqn:Pr.
  - inversion H; subst. split; auto.
  - apply negb_false_iff in Pr. destruct (seen_mem _ _).
    + apply Ok_inj in H. subst st'. split; simpl; [lia|]. intros r Hr. destruct (I r Hr). split; auto. lia.
    + apply bind_ok in H as (nf & Enf & H). apply Ok_inj in H. subst st'. split; simpl; [lia|]. intros r Hr.
      apply in_app_iff in Hr as [Hr|[<-|[]]].
      * destruct (I r Hr). split; auto. lia.
      * split; [|simpl; lia]. exists j, fs, vals, para, idx. simpl. repeat split; auto; lia.
Qed.
Lemma ks_lengths_inv : forall M self sub pid dawg lower is st st',
  (forall j, In j is -> 1 <= j <= d_maxsuf (m_dict M)) ->
  raw_inv M self sub dawg lower st -> ks_lengths M self sub pid dawg lower st is = Ok st' -> raw_inv M self sub dawg lower st'.
Proof.
  induction is as [|j is IH]; simpl; intros st st' Hj I H.
  - inversion H; subst; auto.
  - apply bind_ok in H as (s1 & E1 & H). eapply ks_at_inv in E1; eauto.
    destruct (1 <? ks_total s1); [inversion H; subst; auto|eauto].
Qed.
Lemma ks_splits_range : forall D j, In j (ks_splits D) <-> 1 <= j <= d_maxsuf D.
Proof. intros. unfold ks_splits. rewrite <- in_rev, in_seq. lia. Qed.
Lemma ks_prefixes_In : forall D w pid pre, In (pid, pre) (ks_prefixes D w) <->
  nth_error (d_prefixes D) pid = Some pre /\ prefixb pre w = true.
Proof. intros. unfold ks_prefixes. rewrite filter_In, <- in_rev, enum_In. simpl. tauto. Qed.

Lemma ks_parse_entry : forall M self sub mult minlen word lower seen ps seen' p,
  ks_parse M self sub mult minlen word lower seen = Ok (ps, seen') -> In p ps ->
  ks_entry M self sub mult lower p /\ minlen <= length word.
Proof.
  intros M self sub mult minlen word lower seen ps seen' p H Hp. unfold ks_parse in H.
  destruct (Nat.ltb_spec (length word) minlen).
  - inversion H; subst. destruct Hp.
  - split; [|auto]. apply bind_ok in H as (r & E & H). inversion H; subst. apply sort_desc_In in Hp.
    revert p Hp. eapply (foldM_inv (fun acc => forall p, In p (fst acc) -> ks_entry M self sub mult lower p)); [| |exact E].
    + intros p [].
    + clear E. intros acc [pid pre] acc' Hin I F p Hp. apply ks_prefixes_In in Hin as [Hpre Hb].
      unfold ks_prefix in F. apply bind_ok in F as (dawg & Hd & F). apply bind_ok in F as (st & E & F).
      apply Ok_inj in F. subst acc'. simpl in Hp. apply in_app_iff in Hp as [Hp|Hp]; auto.
      apply in_map_iff in Hp as (raw & <- & Hraw).
      eapply ks_lengths_inv in E as [_ E].
      * destruct (E raw Hraw) as ((j & fs & vals & para & idx & H1 & H2 & H3 & H4 & H5 & H6 & H7 & H8 & H9) & Hc).
        exists pid, pre, dawg, j, fs, vals, (k_cnt raw), para, idx, (k_tag raw), (k_nf raw), (ks_total st).
        apply nth_res_ok in Hd. rewrite H7 in H8, H9. simpl in *. repeat (split; [auto; tauto|]).
        unfold ks_score. rewrite H7, H9. auto.
      * intros j Hj. apply ks_splits_range; auto.
      * split; simpl; [lia|]. intros r0 [].
Qed.

(** prefix matchers only report prefixes of the word that are in the list *)
Lemma nonempty_prefixes_In : forall s p, In p (nonempty_prefixes s) <-> p <> [] /\ exists r, s = p ++ r.
Proof.
  induction s as [|c s IH]; intros p; simpl.
  - split; [tauto|]. intros (H & r & E). destruct p; [congruence|discriminate].
  - rewrite in_map_iff. split.
    + intros [<-|(q & <- & Hq)].
      * split; [congruence|]. exists s; auto.
      * apply IH in Hq as (_ & r & ->). split; [congruence|]. exists r; auto.
    + intros (H & r & E). destruct p as [|x p]; [congruence|]. inversion E; subst.
      destruct p as [|y p]; [left; auto|right]. exists (y :: p). split; auto. apply IH. split; [congruence|eauto].
Qed.
Lemma matcher_prefixes_In : forall ext ps w p, In p (matcher_prefixes ext ps w) -> In p ps /\ exists r, w = p ++ r.
Proof.
  intros ext ps w p H. destruct ext; simpl in H.
  - unfold dawg_prefixes in H. apply filter_In in H as [H1 H2]. apply nonempty_prefixes_In in H1 as [_ H1].
    apply smem_In in H2. auto.
  - unfold py_prefixes in H. destruct (py_is_prefixed ps w); [|destruct H].
    apply filter_In in H as [H1 H2]. apply prefixb_spec in H2. auto.
Qed.
Lemma kp_splits_In : forall M prefixes minrem w prefix rest, In (prefix, rest) (kp_splits M prefixes minrem w) ->
  In prefix prefixes /\ w = prefix ++ rest /\ minrem <= length rest.
Proof.
  intros. unfold kp_splits in H. apply filter_In in H as [H1 H2]. apply in_map_iff in H1 as (p & E & H1).
  inversion E; subst. apply sort_desc_In in H1. apply matcher_prefixes_In in H1 as [H1 (r & ->)].
  rewrite skipn_app_exact in *. simpl in H2. apply negb_true_iff, Nat.ltb_ge in H2. auto.
Qed.
Lemma word_splits_In : forall w prefix rest, In (prefix, rest) (word_splits w) <->
  w = prefix ++ rest /\ 1 <= length prefix <= 5 /\ 3 <= length rest.
Proof.
  intros. unfold word_splits, word_splits_with. rewrite in_map_iff. split.
  - intros (i & E & Hi). inversion E; subst. apply in_seq in Hi.
    rewrite firstn_skipn, firstn_length, skipn_length. split; auto. lia.
  - intros (-> & H1 & H2). exists (length prefix). rewrite firstn_app_exact, skipn_app_exact. split; auto.
    apply in_seq. rewrite app_length. lia.
Qed.

(** ** What a unit can return.  [recP]/[recT]: the analyses of shorter words. *)
Inductive made (recP : str -> res (list parse)) (recT : str -> res (list tag)) (M : morph)
          (i : nat) (b : bunit) (word lower : str) : parse -> Prop :=
| made_dict : forall p, b_cfg b = UDict -> dict_entry M (Root i) lower p -> made recP recT M i b word lower p
| made_init : forall first letters pat score t,
    b_cfg b = UInit first letters pat score -> In word letters -> In t (b_tags b) ->
    made recP recT M i b word lower
         {| p_word := lower; p_tag := t; p_nf := lower; p_score := score; p_stack := [MStr (Root i) word] |}
| made_shape : forall score t,
    (b_cfg b = UNumber score \/ b_cfg b = UPunct score \/ b_cfg b = ULatin score \/ b_cfg b = URoman score) ->
    shape_tag (m_uni M) b word = Ok (Some t) ->
    made recP recT M i b word lower
         {| p_word := lower; p_tag := t; p_nf := lower; p_score := score; p_stack := [MStr (Root i) word] |}
| made_particle : forall particles mult w particle ps p,
    b_cfg b = UParticle particles mult -> In particle particles ->
    In HY lower -> w <> [] -> slice_to lower (- Z.of_nat (length particle)) = w -> suffixb particle lower = true ->
    recP w = Ok ps -> In p ps ->
    made recP recT M i b word lower (suffixed (Root i) mult particle p)
| made_adverb : forall mult t,
    b_cfg b = UHAdverb mult -> adverb_should_parse recT M lower = Ok true -> nth_error (b_tags b) 0 = Some t ->
    made recP recT M i b word lower
         {| p_word := lower; p_tag := t; p_nf := lower; p_score := mult; p_stack := [MStr (Root i) word] |}
| made_both : forall skip mult lw rw ls rs l r,
    b_cfg b = UHyph skip mult -> hyph_should_parse M skip lower = true -> split_once HY lower = (lw, Some rw) ->
    recP lw = Ok ls -> recP rw = Ok rs -> In l ls -> In r rs ->
    tag_is_unknown (p_tag l) = false ->
    seq_set (similarity_features (p_tag l)) (similarity_features (p_tag r)) = true ->
    made recP recT M i b word lower (both_parse (Root i) mult l r)
| made_fixed : forall skip mult lw rw rs r,
    b_cfg b = UHyph skip mult -> hyph_should_parse M skip lower = true -> split_once HY lower = (lw, Some rw) ->
    recP rw = Ok rs -> In r rs -> tag_is_unknown (p_tag r) = false ->
    made recP recT M i b word lower (fixed_left_parse (Root i) mult lw r)
| made_kp : forall prefixes mult minrem prefix rest ps p,
    b_cfg b = UKnownPrefix prefixes mult minrem ->
    In (prefix, rest) (kp_splits M prefixes minrem lower) ->
    recP rest = Ok ps -> In p ps -> is_productive (p_tag p) = true ->
    made recP recT M i b word lower (prefixed (Root i) mult prefix p)
| made_up : forall mult prefix rest p,
    b_cfg b = UUnknownPrefix mult -> In (prefix, rest) (word_splits lower) ->
    dict_entry M (Sub i) rest p -> is_productive (p_tag p) = true ->
    made recP recT M i b word lower (prefixed (Root i) mult prefix p)
| made_ks : forall mult minlen p,
    b_cfg b = UKnownSuffix mult minlen -> minlen <= length word ->
    ks_entry M (Root i) (Sub i) mult lower p -> made recP recT M i b word lower p
| made_unkn : forall t,
    b_cfg b = UUnkn -> nth_error (b_tags b) 0 = Some t ->
    made recP recT M i b word lower
         {| p_word := lower; p_tag := t; p_nf := lower; p_score := 1; p_stack := [MStr (Root i) word] |}.

Lemma prefix_fold_In : forall (rec : str -> res (list parse)) self mult splits st st' p,
  foldM (fun st (pr : str * str) => let '(prefix, rest) := pr in
           let* ps := rec rest in Ok (prefix_step self mult prefix st ps)) st splits = Ok st' ->
  In p (fst st') ->
  In p (fst st) \/ exists prefix rest ps q, In (prefix, rest) splits /\ rec rest = Ok ps /\ In q ps /\
                     is_productive (p_tag q) = true /\ p = prefixed self mult prefix q.
Proof.
  induction splits as [|[prefix rest] splits IH]; intros st st' p H Hp; simpl in H.
  - inversion H; subst; auto.
  - apply bind_ok in H as (s1 & E & H). apply bind_ok in E as (ps & R & E). apply Ok_inj in E.
    destruct (IH _ _ _ H Hp) as [Hs|(pr & re & qs & q & A & B & C & D)].
    + destruct st as [r s], s1 as [r1 s1]. unfold prefix_step in E. apply add_parses_spec in E as (new & -> & _ & N & _).
      simpl in *. apply in_app_iff in Hs as [Hs|Hs]; auto. right. apply N in Hs.
      apply in_map_iff in Hs as (q & <- & Hq). apply filter_In in Hq as [Hq Pr].
      exists prefix, rest, ps, q. repeat split; auto.
    + right. exists pr, re, qs, q. split; [right; auto|]. split; [auto|]. split; [auto|]. exact D.
Qed.

Lemma split_once_spec : forall c s a r, split_once c s = (a, Some r) -> s = a ++ c :: r /\ ~ In c a.
Proof.
  induction s as [|x s IH]; simpl; intros a r H; [discriminate|].
  destruct (N.eqb_spec x c).
  - inversion H; subst. auto.
  - destruct (split_once c s) as [a' b'] eqn:E. inversion H; subst. destruct (IH a' r eq_refl) as [-> N].
    split; auto. intros [H'|H']; auto.
Qed.

Lemma particle_splits_In : forall particles lower w pt, In (w, pt) (particle_splits particles lower) ->
  In pt particles /\ In HY lower /\ w <> [] /\ slice_to lower (- Z.of_nat (length pt)) = w /\ suffixb pt lower = true.
Proof.
  intros particles lower w pt H. unfold particle_splits in H. destruct (mem_char HY lower) eqn:E; [|destruct H].
  apply filter_In in H as [H1 H2]. apply in_map_iff in H1 as (p & Ep & H1). apply filter_In in H1 as [H1 H3].
  inversion Ep; subst. simpl in H2. apply mem_char_In in E. repeat split; auto. intro N. rewrite N in H2. discriminate.
Qed.

Lemma unit_parse_made : forall recP recT M i b word lower seen ps seen' p,
  unit_parse recP recT M i b word lower seen = Ok (ps, seen') -> In p ps -> made recP recT M i b word lower p.
Proof.
  intros recP recT M i b word lower seen ps seen' p H Hp. unfold unit_parse in H.
  assert (SH : forall score,
    (b_cfg b = UNumber score \/ b_cfg b = UPunct score \/ b_cfg b = ULatin score \/ b_cfg b = URoman score) ->
    (let* ps := shape_parse (m_uni M) (Root i) b score word lower in Ok (ps, seen)) = Ok (ps, seen') ->
    made recP recT M i b word lower p).
  { intros score Hc H'. unfold shape_parse in H'.
    destruct (shape_tag (m_uni M) b word) as [[t|]|] eqn:E; simpl in H'; try discriminate; inversion H'; subst.
    - destruct Hp as [<-|[]]. eapply made_shape; eauto.
    - destruct Hp. }
  destruct (b_cfg b) eqn:C; try (eapply SH; eauto; tauto).
  - apply bind_ok in H as (qs & E & H). inversion H; subst. apply made_dict; auto. eapply dict_parse_entry; eauto.
  - inversion H; subst. destruct (smem word letters) eqn:S; [|destruct Hp].
    apply in_map_iff in Hp as (t & <- & Ht). eapply made_init; eauto. apply smem_In; auto.
  - unfold particle_parse in H. destruct (particle_splits particles lower) as [|[w pt] r] eqn:E.
    + inversion H; subst. destruct Hp.
    + assert (Hin : In (w, pt) (particle_splits particles lower)) by (rewrite E; left; auto).
      apply particle_splits_In in Hin as (A1 & A2 & A3 & A4 & A5).
      apply bind_ok in H as (qs & R & H). apply Ok_inj in H. apply add_parses_spec in H as (new & E1 & _ & N & _).
      simpl in E1. subst new. apply N in Hp. apply in_map_iff in Hp as (q & <- & Hq).
      eapply made_particle; eauto.
  - apply bind_ok in H as (ok & E & H). destruct ok.
    + apply bind_ok in H as (t & Et & H). inversion H; subst. destruct Hp as [<-|[]].
      apply nth_res_ok in Et. eapply made_adverb; eauto.
    + inversion H; subst. destruct Hp.
  - unfold hyph_parse in H. destruct (hyph_should_parse M skip lower) eqn:S; simpl in H; [|inversion H; subst; destruct Hp].
    destruct (split_once HY lower) as [lw [rw|]] eqn:E; [|discriminate].
    apply bind_ok in H as (ls & R1 & H). apply bind_ok in H as (rs & R2 & H). inversion H; subst.
    apply in_app_iff in Hp as [Hp|Hp].
    + unfold variable_both in Hp. apply in_flat_map in Hp as (l & Hl & Hp).
      destruct (tag_is_unknown (p_tag l)) eqn:Un; [destruct Hp|].
      apply in_map_iff in Hp as (r & <- & Hr). apply filter_In in Hr as [Hr Hf].
      eapply made_both; eauto.
    + unfold fixed_left in Hp. apply in_map_iff in Hp as (r & <- & Hr). apply filter_In in Hr as [Hr Hf].
      eapply made_fixed; eauto. apply negb_true_iff; auto.
  - unfold kp_parse in H. eapply prefix_fold_In in H as [H|(pr & re & qs & q & A & B & C' & D & ->)]; eauto.
    + destruct H.
    + eapply made_kp; eauto.
  - unfold up_parse in H. eapply prefix_fold_In in H as [H|(pr & re & qs & q & A & B & C' & D & ->)]; eauto.
    + destruct H.
    + eapply made_up; eauto. eapply dict_parse_entry; eauto.
  - eapply ks_parse_entry in H as [H1 H2]; eauto. eapply made_ks; eauto.
  - destruct seen.
    + apply bind_ok in H as (t & Et & H). inversion H; subst. destruct Hp as [<-|[]].
      apply nth_res_ok in Et. eapply made_unkn; eauto.
    + inversion H; subst. destruct Hp.
Qed.

Lemma run_parse_made : forall recP recT M word lower us i acc seen r p,
  run_parse recP recT M word lower i us acc seen = Ok r -> In p r ->
  In p acc \/ exists j b tm, nth_error us j = Some (b, tm) /\ made recP recT M (i + j) b word lower p.
Proof.
  intros recP recT M word lower; induction us as [|[b tm] us IH]; intros i acc seen r p H Hp; simpl in H.
  - inversion H; subst; auto.
  - apply bind_ok in H as ([ps seen'] & E & H).
    assert (St : In p (acc ++ ps) -> In p acc \/ exists j b0 tm0, nth_error ((b, tm) :: us) j = Some (b0, tm0) /\
                                      made recP recT M (i + j) b0 word lower p).
    { intro Hq. apply in_app_iff in Hq as [Hq|Hq]; auto. right. exists 0, b, tm. split; auto.
      rewrite Nat.add_0_r. eapply unit_parse_made; eauto. }
    destruct (tm && _).
    + inversion H; subst. auto.
    + destruct (IH _ _ _ _ _ H Hp) as [Ha|(j & b0 & tm0 & N & Md)]; auto.
      right. exists (S j), b0, tm0. split; auto. rewrite <- Nat.add_succ_comm. auto.
Qed.

(** scores may be replaced by the estimator *)
Lemma apply_to_parses_In : forall d lower ps r p, apply_to_parses d lower ps = Ok r -> In p r ->
  exists p0 q, In p0 ps /\ p = with_score p0 q.
Proof.
  intros d lower ps r p H Hp. unfold apply_to_parses in H. destruct ps as [|p1 ps1]; [inversion H; subst; destruct Hp|].
  set (ps := p1 :: ps1) in *. destruct (Qeq_bool _ _).
  - destruct (Qeq_bool _ _); [discriminate|]. apply Ok_inj in H. subst r.
    apply in_map_iff in Hp as (p0 & <- & Hp). exists p0. eexists. split; [exact Hp|reflexivity].
  - apply Ok_inj in H. subst r. apply sort_desc_In in Hp. apply in_map_iff in Hp as ([p0 q] & <- & Hp).
    apply in_combine_l in Hp. exists p0, q. split; auto.
Qed.
Lemma with_score_same : forall p, with_score p (p_score p) = p.
Proof. intros []; auto. Qed.

Lemma parse_f_made : forall f M word ps p, parse_f (S f) M word = Ok ps -> In p ps ->
  exists i b tm p0 q, nth_error (m_units M) i = Some (b, tm) /\
    made (parse_f f M) (tag_f f M) M i b word (u_lower (m_uni M) word) p0 /\ p = with_score p0 q.
Proof.
  intros f M word ps p H Hp. unfold parse_f in H. simpl in H. apply bind_ok in H as (r & E & H).
  assert (X : exists p0 q, In p0 r /\ p = with_score p0 q).
  { destruct (m_prob M) as [d|].
    - eapply apply_to_parses_In; eauto.
    - inversion H; subst. exists p, (p_score p). rewrite with_score_same. auto. }
  destruct X as (p0 & q & H0 & ->). eapply run_parse_made in E as [[]|(j & b & tm & N & Md)]; eauto.
  exists j, b, tm, p0, q. auto.
Qed.
