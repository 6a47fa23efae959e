(** * Compiled dictionaries are well formed; compilation fails only on size limits *)
From Coq Require Import String List NArith ZArith QArith Bool Lia Permutation.
From Verif Require Import Py Uni Tagset Dawg Utils Dict Units Analyzer Compile Spec Spec2 Spec3 L_Base L_Para L_Text L_Lexeme L_Compile L_Compile2 L_Compile3.
Import ListNotations.
Local Open Scope nat_scope.
Local Open Scope list_scope.

(** ** ending hits *)
Lemma tail_suffix : forall n w, exists r, w = r ++ tail_of n w.
Proof. intros. exists (firstn (length w - n) w). symmetry. apply firstn_skipn. Qed.
Lemma tail_len : forall n w, n <= length w -> length (tail_of n w) = n.
Proof. intros. unfold tail_of. rewrite skipn_length. lia. Qed.
Lemma tail_app : forall r e, tail_of (length e) (r ++ e) = e.
Proof. intros. unfold tail_of. rewrite app_length. replace (length r + length e - length e) with (length r) by lia. rewrite skipn_app, skipn_all, Nat.sub_diag. auto. Qed.
Lemma hits_at_least : forall pre sf maxlen e r, length pre + length sf < length (r ++ e) -> Nat.max (length sf) 1 <= length e <= maxlen ->
  1 <= ending_hits pre sf maxlen e (r ++ e).
Proof.
  intros pre sf maxlen e r H1 H2. unfold ending_hits. rewrite (proj2 (Nat.ltb_lt _ _) H1). change (length (filter ?f ?l)) with (count_if f l).
  apply count_pos. exists (length e). split; [apply in_seq; lia|]. apply str_eqb_eq. apply tail_app.
Qed.
Lemma hits_exact : forall pre sf maxlen e w, maxlen <= length w ->
  (ending_hits pre sf maxlen e w = 1 /\ length pre + length sf < length w /\ Nat.max (length sf) 1 <= length e <= maxlen /\ exists r, w = r ++ e) \/
  (ending_hits pre sf maxlen e w = 0 /\ ~ (length pre + length sf < length w /\ Nat.max (length sf) 1 <= length e <= maxlen /\ exists r, w = r ++ e)).
Proof.
  intros pre sf maxlen e w Lw. unfold ending_hits. destruct (Nat.ltb_spec (length pre + length sf) (length w)) as [H|H]; [|right; split; [auto|lia]].
  set (lo := Nat.max (length sf) 1).
  assert (X : forall n k, k + n <= S (length w) -> length (filter (fun n => str_eqb (tail_of n w) e) (seq k n)) = if (k <=? length e) && (length e <? k + n) && suffixb e w then 1 else 0).
  { induction n as [|n IH]; intros k Hk.
    - simpl. destruct (Nat.leb_spec k (length e)); simpl; auto. rewrite (proj2 (Nat.ltb_ge _ _)) by lia. auto.
    - cbn [seq filter]. destruct (str_eqb (tail_of k w) e) eqn:Q.
      + apply str_eqb_eq in Q. assert (Le : length e = k) by (rewrite <- Q; apply tail_len; lia). cbn [length]. rewrite IH by lia.
        rewrite (proj2 (Nat.leb_gt (S k) _)) by lia. cbn [andb]. rewrite (proj2 (Nat.leb_le k _)), (proj2 (Nat.ltb_lt _ (k + S n))) by lia.
        cbn [andb]. assert (S : suffixb e w = true) by (apply suffixb_spec; rewrite <- Q; apply tail_suffix). rewrite S. auto.
      + rewrite IH by lia. destruct (Nat.eq_dec (length e) k) as [Ek|Nk].
        * assert (S : suffixb e w = false). { destruct (suffixb e w) eqn:S; auto. apply suffixb_spec in S as (r & ->). rewrite <- Ek, tail_app in Q. rewrite (proj2 (str_eqb_eq e e) eq_refl) in Q. discriminate. }
          rewrite S, !andb_false_r. auto.
        * replace (k + S n) with (S k + n) by lia. destruct (Nat.leb_spec k (length e)), (Nat.leb_spec (S k) (length e)); auto; lia. }
  destruct (Nat.le_gt_cases lo (S maxlen)) as [G|G].
  - rewrite X by lia. replace (lo + (S maxlen - lo)) with (S maxlen) by lia.
    destruct (Nat.leb_spec lo (length e)) as [A|A]; cbn [andb]; [|right; split; [auto|lia]].
    destruct (Nat.ltb_spec (length e) (S maxlen)) as [B|B]; cbn [andb]; [|right; split; [auto|lia]].
    destruct (suffixb e w) eqn:Sf.
    + left. apply suffixb_spec in Sf. split; [auto|]. split; [auto|]. split; [lia|auto].
    + right. split; auto. intros (_ & _ & r). apply suffixb_spec in r. congruence.
  - replace (S maxlen - lo) with 0 by lia. right. split; [reflexivity|]. lia.
Qed.
Lemma hit_suffix : forall pre sf maxlen e w stem, w = pre ++ stem ++ sf -> 1 <= ending_hits pre sf maxlen e w -> exists r, e = r ++ sf.
Proof.
  intros pre sf maxlen e w stem Ew H. unfold ending_hits in H. destruct (_ <? _); [|lia]. change (length (filter ?f ?l)) with (count_if f l) in H. apply count_pos in H as (n & I & Q).
  apply in_seq in I. apply str_eqb_eq in Q. subst e w. unfold tail_of. rewrite !app_length.
  rewrite app_assoc, skipn_app, app_length. replace (length pre + (length stem + length sf) - n - (length pre + length stem)) with 0 by lia. simpl. eauto.
Qed.

(** ** well-formedness *)
Lemma wf_paradigms : forall o lxs x st ks D, Compiled o lxs x st ks -> loaded x D -> forall p, In p (d_paradigms D) -> wf_paradigm D p.
Proof.
  intros o lxs x st ks D C L p H. pose proof L as (L1 & L2 & L3 & L4 & _). rewrite L1 in H. apply In_nth_error in H as (k & Nk).
  destruct (Forall2_nth_r _ _ _ (cc_para _ _ _ _ _ C) k _ Nk) as (rows & Nr & Lin).
  destruct (iv_para _ _ _ _ (cc_inv _ _ _ _ _ C) k rows Nr) as (para & lx & stem & G & _ & _). destruct (iv_ids _ _ _ _ (cc_inv _ _ _ _ _ C) para k G) as (rows' & Nr' & GR).
  rewrite Nr in Nr'. injection Nr' as <-. destruct (linearize_spec _ _ _ _ Lin) as (ss & ts & qs & -> & E1 & E2 & E3 & R).
  assert (Row : forall i, i < length rows -> exists a t b, nth_error ss i = Some a /\ nth_error ts i = Some t /\ nth_error qs i = Some b /\
     a < length (d_suffixes D) /\ t < length (d_gramtab D) /\ b < length (d_prefixes D)).
  { intros i Li. destruct (nth_error rows i) as [[[s t] q]|] eqn:N; [|apply nth_error_None in N; lia].
    destruct (R i s t q N) as (a & b & A1 & A2 & A3 & A4 & A5). exists a, t, b. split; [auto|]. split; [auto|]. split; [auto|].
    split; [rewrite L4; apply nth_error_Some; congruence|]. split; [|rewrite L3, (cc_opt _ _ _ _ _ C); apply nth_error_Some; congruence].
    destruct (Forall2_nth_r _ _ _ GR i _ N) as ([[s' t'] q'] & _ & (_ & _ & Gt)). rewrite <- (cc_gram _ _ _ _ _ C), <- L2 in Gt.
    rewrite <- (map_length t_str). apply nth_error_Some. congruence. }
  exists ss, ts, qs. split; [auto|]. split; [lia|]. split; [lia|].
  split; [|split]; intros y Hy; apply In_nth_error in Hy as (i & Ni);
  (assert (Li : i < length rows); [rewrite <- ?E1, <- ?E2, <- ?E3; match goal with N : nth_error ?l ?i = Some _ |- _ => assert (i < length l) by (apply nth_error_Some; congruence); lia end|];
   destruct (Row i Li) as (a & t & b & A1 & A2 & A3 & A4 & A5 & A6); congruence).
Qed.
Lemma stored_row : forall D lxs ks w k i, Content D lxs ks -> stored D w k i -> exists pre tg sf stem, para_row D k i pre tg sf /\ w = pre ++ stem ++ sf.
Proof.
  intros D lxs ks w k i C S. apply (ct_stored _ _ _ C) in S as (j & lx & t & N1 & N2 & N3).
  destruct (Forall2_nth _ _ _ (ct_desc _ _ _ C) j _ N1) as (k' & Nk & De). rewrite N2 in Nk. injection Nk as <-.
  destruct De as (stem & p & Np & Lp & R). destruct (R i w t N3) as (pre & tg & sf & R1 & R2 & R3). exists pre, tg, sf, stem. auto.
Qed.
Lemma pred_nodup : forall o lxs x st ks D, Compiled o lxs x st ks -> Predicted o x st -> loaded x D -> length (d_pred D) = length (d_prefixes D) /\
  forall dawg, In dawg (d_pred D) -> NoDup (map fst dawg) /\ forall e vals, In (e, vals) dawg -> vals <> [] /\ NoDup vals.
Proof.
  intros o lxs x st ks D C Pd L. destruct (prediction_events _ _ _ _ _ _ C L Pd) as (evss & F & X). pose proof L as (L1 & L2 & L3 & L4 & L5 & L6 & L7).
  rewrite L6, L3, (cc_opt _ _ _ _ _ C), X. split; [rewrite map_length, seq_length; auto|]. intros dawg H. apply in_map_iff in H as (pid & <- & _).
  split; [apply rdawg_nodup|]. intros e vals H. apply (rdawg_In _ form3_eqb_eq pack_form3) in H as (H1 & H2 & _). auto.
Qed.
Lemma pred_record : forall o lxs x st ks D, Compiled o lxs x st ks -> Predicted o x st -> loaded x D -> forall pid dawg e vals c k i,
  nth_error (d_pred D) pid = Some dawg -> In (e, vals) dawg -> In (c, k, i) vals ->
  1 <= c /\ exists pre tg sf r, nth_error (d_prefixes D) pid = Some pre /\ para_row D k i pre tg sf /\ e = r ++ sf.
Proof.
  intros o lxs x st ks D C Pd L pid dawg e vals c k i N I V. destruct (pred_nodup _ _ _ _ _ _ C Pd L) as (_ & ND). destruct (ND dawg) as (ND1 & _); [eapply nth_error_In; eauto|].
  assert (P : predicts D pid e c k i) by (exists dawg, vals; split; auto; split; auto; apply (In_dget str_eqb str_eqb_eq); auto).
  apply (predicts_iff _ _ _ _ _ _ C Pd L) in P as (Pn & Pop & Pc & (pre & tg & sf & R & Ec) & _). split; auto. exists pre, tg, sf.
  assert (Np : nth_error (d_prefixes D) pid = Some pre).
  { destruct Pn as (p & A1 & A2 & A3). destruct R as (p' & a & b & q & B1 & B2 & B3 & B4 & B5 & B6 & B7 & B8). rewrite A1 in B1. injection B1 as <-. rewrite A3 in B5. injection B5 as <-. auto. }
  assert (Y : exists en, In en (all_entries lxs ks) /\ snd en = (k, i) /\ 1 <= ending_hits pre sf (o_max_suffix o) e (fst en)).
  { rewrite Ec in Pc. clear - Pc. induction (all_entries lxs ks) as [|en es IH]; [simpl in Pc; lia|]. cbn [filter] in Pc. destruct ((fst (snd en) =? k) && (snd (snd en) =? i)) eqn:Q.
    - cbn [map] in Pc. rewrite lsum_cons in Pc. destruct (Nat.eq_dec (ending_hits pre sf (o_max_suffix o) e (fst en)) 0) as [Z|NZ].
      + rewrite Z in Pc. destruct (IH Pc) as (y & Y1 & Y2). exists y. split; [right; auto|auto].
      + exists en. apply andb_true_iff in Q as [Q1 Q2]. apply Nat.eqb_eq in Q1, Q2. split; [left; auto|]. split; [destruct en as [w [a b]]; simpl in *; congruence|lia].
    - destruct (IH Pc) as (y & Y1 & Y2). exists y. split; [right; auto|auto]. }
  destruct Y as ([w [k' i']] & I1 & Es & H). simpl in Es, H. injection Es as -> ->.
  pose proof (compiled_content _ _ _ _ _ _ C L) as Ct.
  assert (S : stored D w k i). { apply (ct_stored _ _ _ Ct). apply all_entries_In; auto. exact (f2_len (ct_desc _ _ _ Ct)). }
  destruct (stored_row _ _ _ _ _ _ Ct S) as (pre' & tg' & sf' & stem & R' & Ew). destruct (para_row_fun _ _ _ _ _ _ _ _ _ R R') as (Q1 & Q2 & Q3). subst pre' tg' sf'.
  destruct (hit_suffix _ _ _ _ _ _ Ew H) as (r & Er). exists r. auto.
Qed.
Lemma compiled_wf : forall o lxs x st ks D, Compiled o lxs x st ks -> Predicted o x st -> loaded x D ->
  wf_dict D /\ consistent_dict D /\ no_empty_entry D /\ NoDup (map fst (d_words D)) /\ pred_counts_pos D /\ pred_consistent D.
Proof.
  intros o lxs x st ks D C Pd L. pose proof (compiled_content _ _ _ _ _ _ C L) as Ct. pose proof (ct_nodup _ _ _ Ct) as ND.
  assert (Cons : consistent_dict D).
  { intros w vals k i H I. destruct (stored_row D lxs ks w k i Ct) as (pre & tg & sf & stem & R & E); [apply stored_In; eauto|]. eauto 8. }
  assert (Nth : forall dawg, In dawg (d_pred D) -> exists pid, nth_error (d_pred D) pid = Some dawg) by (intros; apply In_nth_error; auto).
  split; [|split; [exact Cons|split; [intros w vals H; apply (ct_vals _ _ _ Ct) in H; tauto|split; [exact ND|split]]]].
  - split; [eapply wf_paradigms; eauto|]. split; [|split].
    + intros w vals k i H I. destruct (Cons _ _ _ _ H I) as (pre & tg & sf & stem & R & _). eapply para_row_valid; eauto.
    + intros dawg e vals c k i H1 H2 H3. destruct (Nth _ H1) as (pid & N). destruct (pred_record _ _ _ _ _ _ C Pd L _ _ _ _ _ _ _ N H2 H3) as (_ & pre & tg & sf & r & _ & R & _). eapply para_row_valid; eauto.
    + rewrite (proj1 (pred_nodup _ _ _ _ _ _ C Pd L)). lia.
  - intros dawg e vals c p i H1 H2 H3. destruct (Nth _ H1) as (pid & N). eapply pred_record; eauto.
  - intros pid dawg e vals cnt para idx H1 H2 H3. destruct (pred_record _ _ _ _ _ _ C Pd L _ _ _ _ _ _ _ H1 H2 H3) as (_ & pre & tg & sf & r & P). eauto 8.
Qed.

(** ** failures *)
Lemma compile_lexeme_total : forall pp st done ks lx, Inv pp st done ks -> lx <> [] -> exists st', compile_lexeme pp st lx = Ok st'.
Proof.
  intros pp st done ks lx I N. destruct (to_paradigm_total lx pp N) as (stem & para & T). unfold compile_lexeme. rewrite T. cbn [bind].
  destruct (fold_left add_gram para (c_gramtab st, c_tag_ids st)) as [gt ids] eqn:G.
  destruct (add_grams done _ _ _ _ _ G (iv_tags _ _ _ _ I) (iv_gt _ _ _ _ I)) as (A & B & _ & F).
  unfold din. destruct (dget paradigm_eqb para (c_para_ids st)) as [k|] eqn:Dk.
  - cbn [bind]. unfold dget_res. rewrite Dk. cbn [bind]. eauto.
  - destruct (mapM_exists (fun row : prow => let '(s, t, p) := row in let* i := dget_res str_eqb t ids in Ok (s, i, p)) para) as (rows & Er).
    { intros [[s t] p] H. unfold dget_res. destruct (dget str_eqb t ids) eqn:E; [simpl; eauto|exfalso; eapply F; eauto]. }
    rewrite Er. cbn [bind]. unfold dget_res. rewrite (dget_dset_same paradigm_eqb paradigm_eqb_eq). cbn [bind]. eauto.
Qed.
Lemma compile_loop_total : forall pp lxs, (forall lx, In lx lxs -> lx <> []) -> exists st, foldM (compile_lexeme pp) c_init lxs = Ok st.
Proof.
  intros pp lxs H.
  assert (X : forall l st done ks, Inv pp st done ks -> (forall lx, In lx l -> lx <> []) -> exists st', foldM (compile_lexeme pp) st l = Ok st').
  { induction l as [|lx l IH]; intros st done ks I Hl; simpl; [eauto|]. destruct (compile_lexeme_total _ _ _ _ lx I) as (st' & E); [apply Hl; left; auto|].
    destruct (compile_lexeme_inv _ _ _ _ _ _ I E) as (k & I'). rewrite E. cbn [bind]. eapply IH; [exact I'|]. intros; apply Hl; right; auto. }
  exact (X lxs c_init [] [] (inv_init pp) H).
Qed.
Lemma mapM_or : forall {A B} (f : A -> res B) (P : exn -> Prop) l, (forall a, In a l -> (exists b, f a = Ok b) \/ exists e, f a = Err e /\ P e) ->
  (exists r, mapM f l = Ok r) \/ exists e, mapM f l = Err e /\ P e.
Proof.
  intros A B f P. induction l as [|a l IH]; intros H; simpl; [left; eauto|]. destruct (H a) as [(b & E)|(e & E & Pe)]; [left; auto| |].
  - rewrite E. cbn [bind]. destruct IH as [(r & Er)|(e & Ee & Pe)]; [intros; apply H; right; auto| |]; [rewrite Er; cbn [bind]; left; eauto|rewrite Ee; cbn [bind]; right; eauto].
  - rewrite E. cbn [bind]. right; eauto.
Qed.
Definition size_error (e : exn) : Prop := e = OverflowError \/ e = StructError.
Lemma linearize_total : forall o lxs st ks k rows, Inv (o_prefixes o) st lxs ks -> In [] (o_prefixes o) -> nth_error (c_paradigms st) k = Some rows ->
  (exists flat, linearize (index_dict (all_suffixes (c_paradigms st))) (index_dict (o_prefixes o)) rows = Ok flat) \/
  exists e, linearize (index_dict (all_suffixes (c_paradigms st))) (index_dict (o_prefixes o)) rows = Err e /\ size_error e.
Proof.
  intros o lxs st ks k rows I Ne N. unfold linearize.
  destruct (iv_para _ _ _ _ I k rows N) as (para & lx & stem & G & _ & T). destruct (iv_ids _ _ _ _ I para k G) as (rows' & N' & GR). rewrite N in N'. injection N' as <-.
  destruct (to_paradigm_spec _ _ _ _ T) as (_ & Pr & _).
  match goal with |- context [mapM ?f rows] => destruct (mapM_exists f rows) as (r & E) end.
  { intros [[s t] q] H. assert (Hs : In s (all_suffixes (c_paradigms st))).
    { apply sorted_set_In. apply in_flat_map. exists rows. split; [eapply nth_error_In; eauto|]. apply in_map_iff. exists (s, t, q). auto. }
    assert (Hq : In q (o_prefixes o)).
    { apply In_nth_error in H as (i & Hi). destruct (Forall2_nth_r _ _ _ GR i _ Hi) as ([[s' t'] q'] & Ni & (_ & -> & _)). apply nth_error_In in Ni. destruct (Pr _ Ni) as [E0|E0]; simpl in E0; [subst; auto|auto]. }
    destruct (index_dict_total _ _ Hs) as (a & Ea). destruct (index_dict_total _ _ Hq) as (b & Eb). unfold dget_res. rewrite Ea, Eb. simpl. eauto. }
  rewrite E. cbn [bind]. match goal with |- context [forallb fits16 ?l] => destruct (forallb fits16 l) end; cbn [guard bind]; [left; eauto|right]. exists OverflowError. split; [reflexivity|left; auto].
Qed.
Lemma compile_fails_only_on_size : forall o lxs, In [] (o_prefixes o) -> (forall lx, In lx lxs -> lx <> []) ->
  (exists x, compile_lexemes o lxs = Ok x) \/ exists e, compile_lexemes o lxs = Err e /\ size_error e.
Proof.
  intros o lxs Ne H. unfold compile_lexemes. destruct (compile_loop_total (o_prefixes o) lxs H) as (st & E). rewrite E. cbn [bind].
  destruct (compile_loop_inv _ _ _ E) as (ks & I).
  destruct (mapM_or (linearize (index_dict (all_suffixes (c_paradigms st))) (index_dict (o_prefixes o))) size_error (c_paradigms st)) as [(paras & P)|(e & P & Se)].
  { intros rows Hr. apply In_nth_error in Hr as (k & N). eapply linearize_total; eauto. }
  2: { rewrite P. cbn [bind]. right; eauto. }
  rewrite P. cbn [bind].
  set (x := {| x_gramtab := c_gramtab st; x_suffixes := all_suffixes (c_paradigms st); x_paradigms := paras; x_words := rdawg_of form_eqb pack_form (c_words st); x_pred := []; x_options := o |}).
  assert (C : Compiled o lxs x st ks) by (constructor; auto; apply mapM_ok; exact P).
  set (D := MkDict paras (map (fun t => MkTag t []) (c_gramtab st)) (o_prefixes o) (all_suffixes (c_paradigms st)) (x_words x) [] (o_max_suffix o)).
  assert (L : loaded x D). { split; [reflexivity|]. split; [simpl; rewrite map_map; cbn [t_str]; apply map_id|]. repeat split. }
  assert (PD : exists pd, prediction_data (c_words st) (c_pop st) (c_gramtab st) paras (all_suffixes (c_paradigms st)) (o_prefixes o) (o_min_freq o) (o_min_pop o) (o_max_suffix o) = Ok pd).
  { unfold prediction_data. destruct (mapM_exists (word_events paras (c_gramtab st) (all_suffixes (c_paradigms st)) (o_prefixes o) (c_pop st) (o_min_pop o) (o_max_suffix o)) (c_words st)) as (evss & Ev).
    - intros en He. rewrite (iv_words _ _ _ _ I) in He. destruct (entry_row_ex _ _ _ _ _ _ C L en He) as (pre & tg & sf & pid & R).
      eexists. exact (word_events_ok _ _ _ _ _ _ C L en pre tg sf pid He R).
    - rewrite Ev. cbn [bind]. eauto. }
  destruct PD as (pd & PD). rewrite PD. cbn [bind]. unfold words_dawg. match goal with |- context [guard ?b StructError] => destruct b end; cbn [guard bind]; [|right; exists StructError; split; [reflexivity|right; auto]].
  destruct (mapM_or pred_dawg size_error pd) as [(pds & Ep)|(e & Ep & Se)].
  - intros a Ha. unfold pred_dawg. match goal with |- context [guard ?b StructError] => destruct b end; cbn [guard bind]; [left; eauto|right; exists StructError; split; [reflexivity|right; auto]].
  - rewrite Ep. cbn [bind]. left; eauto.
  - rewrite Ep. cbn [bind]. right; eauto.
Qed.
