(** * Lemmas about the unit loop (C01, C57) and the seen sets *)
From Coq Require Import String List NArith ZArith Bool Arith Lia QArith Permutation.
From Verif Require Import Py Uni Tagset Dawg Utils Shapes Dict Units Analyzer Spec L_Base.
Import ListNotations.
Local Open Scope nat_scope.
Local Open Scope list_scope.

Definition key_of (p : parse) : skey := SKey (p_word p) (p_tag p) (para_key_of p).

(** ** equalities *)
Lemma tag_eqb_iff : forall a b, tag_eqb a b = true <-> t_gr a = t_gr b.
Proof. intros. unfold tag_eqb. apply strs_eqb_eq. Qed.
Lemma tag_eqb_refl : forall a, tag_eqb a a = true.
Proof. intros; apply tag_eqb_iff; auto. Qed.
Lemma tag_mem_iff : forall t l, tag_mem t l = true <-> exists t', In t' l /\ t_gr t' = t_gr t.
Proof.
  intros. unfold tag_mem. rewrite existsb_exists. split; intros (x & H1 & H2); exists x; split; auto.
  - apply tag_eqb_iff in H2. auto.
  - apply tag_eqb_iff. auto.
Qed.
Lemma skey_eqb_tag : forall w t k s, skey_eqb (SKey w t k) s = true ->
  exists t' k', s = SKey w t' k' /\ t_gr t' = t_gr t.
Proof.
  intros w t k [w' t' k'|p] H; simpl in H; [|discriminate].
  apply andb_true_iff in H as [H _]. apply andb_true_iff in H as [H1 H2].
  apply str_eqb_eq in H1. apply tag_eqb_iff in H2. subst. eauto.
Qed.
Lemma seen_mem_tag : forall w t k seen, seen_mem (SKey w t k) seen = true ->
  exists t' k', In (SKey w t' k') seen /\ t_gr t' = t_gr t.
Proof.
  intros. unfold seen_mem in H. apply existsb_exists in H as (s & Hs & E).
  apply skey_eqb_tag in E as (t' & k' & -> & Et). eauto.
Qed.

(** ** add_parse_if_not_seen over a list *)
Lemma add_parses_spec : forall l res seen res' seen',
  fold_left add_parse_if_not_seen l (res, seen) = (res', seen') ->
  exists new, res' = res ++ new /\ seen' = rev (map key_of new) ++ seen
    /\ (forall p, In p new -> In p l)
    /\ (forall p, In p l -> In p new \/ seen_mem (key_of p) seen' = true).
Proof.
  induction l as [|p l IH]; intros res seen res' seen' H; simpl in H.
  - inversion H; subst. exists []. rewrite app_nil_r. simpl. repeat split; auto.
  - fold (key_of p) in H. destruct (seen_mem (key_of p) seen) eqn:E.
    + apply IH in H as (new & -> & -> & H3 & H4). exists new. repeat split; auto.
      * intros q Hq. right. auto.
      * intros q [<-|Hq]; auto. right. unfold seen_mem in *. rewrite existsb_app, E. apply orb_true_r.
    + apply IH in H as (new & -> & -> & H3 & H4). exists (p :: new). repeat split.
      * rewrite <- app_assoc. auto.
      * simpl. rewrite <- app_assoc. auto.
      * intros q [<-|Hq]; [left|right]; auto.
      * intros q [<-|Hq]; [left; left; auto|]. destruct (H4 q Hq) as [H|H]; [left; right; auto|].
        right. auto.
Qed.

Lemma add_tags_spec : forall l res seen res' seen',
  fold_left add_tag_if_not_seen l (res, seen) = (res', seen') ->
  exists new, res' = res ++ new /\ seen' = rev new ++ seen
    /\ (forall t, In t new -> In t l)
    /\ (forall t, In t l -> In t new \/ tag_mem t seen' = true).
Proof.
  induction l as [|p l IH]; intros res seen res' seen' H; simpl in H.
  - inversion H; subst. exists []. rewrite app_nil_r. simpl. repeat split; auto.
  - destruct (tag_mem p seen) eqn:E.
    + apply IH in H as (new & -> & -> & H3 & H4). exists new. repeat split; auto.
      * intros q Hq. right. auto.
      * intros q [<-|Hq]; auto. right. unfold tag_mem in *. rewrite existsb_app, E. apply orb_true_r.
    + apply IH in H as (new & -> & -> & H3 & H4). exists (p :: new). repeat split.
      * rewrite <- app_assoc. auto.
      * simpl. rewrite <- app_assoc. auto.
      * intros q [<-|Hq]; [left|right]; auto.
      * intros q [<-|Hq]; [left; left; auto|]. destruct (H4 q Hq) as [H|H]; [left; right; auto|].
        right. auto.
Qed.

(** ** Unit-level invariant: what a unit adds to the seen set are the keys of parses it returned *)
Definition seen_ext (seen : list skey) (ps : list parse) (seen' : list skey) : Prop :=
  exists ks, seen' = ks ++ seen /\
    forall k, In k ks -> exists p, In p ps /\ (k = key_of p \/ k = SFull p).
Definition tseen_ext (seen : list tag) (ts : list tag) (seen' : list tag) : Prop :=
  exists ks, seen' = ks ++ seen /\ forall k, In k ks -> In k ts.

Lemma seen_ext_refl : forall seen ps, seen_ext seen ps seen.
Proof. intros. exists []. split; auto. intros k []. Qed.
Lemma tseen_ext_refl : forall seen ps, tseen_ext seen ps seen.
Proof. intros. exists []. split; auto. intros k []. Qed.
Lemma seen_ext_trans : forall a ps b qs c rs, seen_ext a ps b -> seen_ext b qs c ->
  (forall p, In p ps \/ In p qs -> In p rs) -> seen_ext a rs c.
Proof.
  intros a ps b qs c rs (k1 & -> & H1) (k2 & -> & H2) H. exists (k2 ++ k1). split; [apply app_assoc|].
  intros k Hk. apply in_app_iff in Hk as [Hk|Hk].
  - destruct (H2 k Hk) as (p & Hp & E). exists p; split; auto.
  - destruct (H1 k Hk) as (p & Hp & E). exists p; split; auto.
Qed.
Lemma tseen_ext_trans : forall a ps b qs c rs, tseen_ext a ps b -> tseen_ext b qs c ->
  (forall p, In p ps \/ In p qs -> In p rs) -> tseen_ext a rs c.
Proof.
  intros a ps b qs c rs (k1 & -> & H1) (k2 & -> & H2) H. exists (k2 ++ k1). split; [apply app_assoc|].
  intros k Hk. apply in_app_iff in Hk as [Hk|Hk]; auto.
Qed.

Lemma add_parses_ext : forall l res seen res' seen',
  fold_left add_parse_if_not_seen l (res, seen) = (res', seen') ->
  (exists new, res' = res ++ new) /\ seen_ext seen res' seen'.
Proof.
  intros l res seen res' seen' H. apply add_parses_spec in H as (new & -> & -> & _ & _).
  split; [eauto|]. exists (rev (map key_of new)). split; auto. intros k Hk.
  apply in_rev in Hk. apply in_map_iff in Hk as (p & <- & Hp). exists p. split; auto. apply in_app_iff; auto.
Qed.
Lemma add_tags_ext : forall l res seen res' seen',
  fold_left add_tag_if_not_seen l (res, seen) = (res', seen') ->
  (exists new, res' = res ++ new) /\ tseen_ext seen res' seen'.
Proof.
  intros l res seen res' seen' H. apply add_tags_spec in H as (new & -> & -> & _ & _).
  split; [eauto|]. exists (rev new). split; auto. intros k Hk.
  apply in_rev in Hk. apply in_app_iff; auto.
Qed.

(** folding steps that each extend the result and the seen set *)
Lemma foldM_ext_seen : forall {A} (f : list parse * list skey -> A -> res (list parse * list skey)) l st st',
  (forall st x st', f st x = Ok st' -> (exists new, fst st' = fst st ++ new) /\ seen_ext (snd st) (fst st') (snd st')) ->
  foldM f st l = Ok st' ->
  (exists new, fst st' = fst st ++ new) /\ seen_ext (snd st) (fst st') (snd st').
Proof.
  intros A f l; induction l as [|x l IH]; intros st st' Hf H; simpl in H.
  - inversion H; subst. split; [exists []; rewrite app_nil_r; auto|apply seen_ext_refl].
  - apply bind_ok in H as (s1 & E1 & E2). destruct (Hf _ _ _ E1) as [(n1 & N1) X1].
    destruct (IH _ _ Hf E2) as [(n2 & N2) X2]. split.
    + rewrite N2, N1. exists (n1 ++ n2). rewrite <- app_assoc. auto.
    + eapply seen_ext_trans; eauto. intros p [Hp|Hp]; auto. rewrite N2. apply in_app_iff; auto.
Qed.
Lemma foldM_ext_tseen : forall {A} (f : list tag * list tag -> A -> res (list tag * list tag)) l st st',
  (forall st x st', f st x = Ok st' -> (exists new, fst st' = fst st ++ new) /\ tseen_ext (snd st) (fst st') (snd st')) ->
  foldM f st l = Ok st' ->
  (exists new, fst st' = fst st ++ new) /\ tseen_ext (snd st) (fst st') (snd st').
Proof.
  intros A f l; induction l as [|x l IH]; intros st st' Hf H; simpl in H.
  - inversion H; subst. split; [exists []; rewrite app_nil_r; auto|apply tseen_ext_refl].
  - apply bind_ok in H as (s1 & E1 & E2). destruct (Hf _ _ _ E1) as [(n1 & N1) X1].
    destruct (IH _ _ Hf E2) as [(n2 & N2) X2]. split.
    + rewrite N2, N1. exists (n1 ++ n2). rewrite <- app_assoc. auto.
    + eapply tseen_ext_trans; eauto. intros p [Hp|Hp]; auto. rewrite N2. apply in_app_iff; auto.
Qed.

Lemma kp_parse_ext : forall recP M self ps mult minrem lower seen out,
  kp_parse recP M self ps mult minrem lower seen = Ok out -> seen_ext seen (fst out) (snd out).
Proof.
  intros until out. unfold kp_parse. intro H.
  apply foldM_ext_seen in H as [_ H]; [auto|].
  intros [r s] [prefix rest] [r' s'] E. apply bind_ok in E as (q & _ & E). injection E as E.
  unfold prefix_step in E. apply add_parses_ext in E. exact E.
Qed.
Lemma up_parse_ext : forall M self sub mult lower seen out,
  up_parse M self sub mult lower seen = Ok out -> seen_ext seen (fst out) (snd out).
Proof.
  intros until out. unfold up_parse. intro H.
  apply foldM_ext_seen in H as [_ H]; [auto|].
  intros [r s] [prefix rest] [r' s'] E. apply bind_ok in E as (q & _ & E). injection E as E.
  unfold prefix_step in E. apply add_parses_ext in E. exact E.
Qed.
Lemma kp_tag_ext : forall recT M ps minrem lower seen out,
  kp_tag recT M ps minrem lower seen = Ok out -> tseen_ext seen (fst out) (snd out).
Proof.
  intros until out. unfold kp_tag. intro H.
  apply foldM_ext_tseen in H as [_ H]; [auto|].
  intros [r s] x [r' s'] E. apply bind_ok in E as (q & _ & E). injection E as E.
  unfold tags_step in E. apply add_tags_ext in E. exact E.
Qed.
Lemma up_tag_ext : forall M lower seen out,
  up_tag M lower seen = Ok out -> tseen_ext seen (fst out) (snd out).
Proof.
  intros until out. unfold up_tag. intro H.
  apply foldM_ext_tseen in H as [_ H]; [auto|].
  intros [r s] x [r' s'] E. apply bind_ok in E as (q & _ & E). injection E as E.
  unfold tags_step in E. apply add_tags_ext in E. exact E.
Qed.

(** *** KnownSuffixAnalyzer: raw results *)
Definition raw_key (r : ksraw) : skey :=
  SKey (k_word r) (k_tag r) (match k_stack r with MDict _ _ para _ :: _ => PNum para | _ => PNone end).
(** results grow and their keys are what was added to the seen set *)
Definition ks_grows (st st' : ksst) : Prop :=
  exists new, ks_res st' = ks_res st ++ new /\ ks_seen st' = rev (map raw_key new) ++ ks_seen st.
Lemma ks_grows_refl : forall st, ks_grows st st.
Proof. intro. exists []. rewrite app_nil_r. auto. Qed.
Lemma ks_grows_trans : forall a b c, ks_grows a b -> ks_grows b c -> ks_grows a c.
Proof.
  intros a b c (n1 & A1 & A2) (n2 & B1 & B2). exists (n1 ++ n2).
  rewrite B1, A1, B2, A2, map_app, rev_app_distr, !app_assoc. auto.
Qed.
Lemma ks_step_grows : forall M self sub pid fw fs st v st',
  ks_step M self sub pid fw fs st v = Ok st' -> ks_grows st st'.
Proof.
  intros M self sub pid fw fs st [[cnt para] idx] st' H. unfold ks_step in H.
  apply bind_ok in H as (t & _ & H). destruct (negb (is_productive t)).
  - inversion H; subst. apply ks_grows_refl.
  - destruct (seen_mem _ _).
    + inversion H; subst. exists []. simpl. rewrite app_nil_r. auto.
    + apply bind_ok in H as (nf & _ & H). inversion H; subst. eexists [_]. simpl. split; auto.
Qed.
Lemma foldM_grows : forall {A} (f : ksst -> A -> res ksst) l st st',
  (forall st x st', f st x = Ok st' -> ks_grows st st') -> foldM f st l = Ok st' -> ks_grows st st'.
Proof.
  induction l as [|x l IH]; simpl; intros st st' Hf H.
  - inversion H; subst. apply ks_grows_refl.
  - apply bind_ok in H as (s1 & E1 & E2). eapply ks_grows_trans; eauto.
Qed.
Lemma ks_at_grows : forall M self sub pid dawg lower st i st',
  ks_at M self sub pid dawg lower st i = Ok st' -> ks_grows st st'.
Proof.
  intros. unfold ks_at in H. eapply foldM_grows; [|exact H].
  intros s [fs vals] s' E. simpl in E. eapply foldM_grows; [|exact E]. intros; eapply ks_step_grows; eauto.
Qed.
Lemma ks_lengths_grows : forall M self sub pid dawg lower is st st',
  ks_lengths M self sub pid dawg lower st is = Ok st' -> ks_grows st st'.
Proof.
  induction is as [|i is IH]; simpl; intros st st' H.
  - inversion H; subst. apply ks_grows_refl.
  - apply bind_ok in H as (s1 & E1 & E2). apply ks_at_grows in E1.
    destruct (1 <? ks_total s1).
    + inversion E2; subst. auto.
    + eapply ks_grows_trans; eauto.
Qed.
Definition raw_ok (r : ksraw) : Prop := exists sub para idx m, k_stack r = [MDict sub (k_word r) para idx; m].
Lemma ks_score_key : forall mult total r, raw_ok r -> key_of (ks_score mult total r) = raw_key r.
Proof.
  intros mult total [c w t nf pid st] (sub & para & idx & m & E). simpl in E. subst.
  unfold key_of, raw_key, para_key_of. simpl. auto.
Qed.
Lemma ks_step_ok : forall M self sub pid fw fs st v st',
  ks_step M self sub pid fw fs st v = Ok st' -> Forall raw_ok (ks_res st) -> Forall raw_ok (ks_res st').
Proof.
  intros M self sub pid fw fs st [[cnt para] idx] st' H F. unfold ks_step in H.
  apply bind_ok in H as (t & _ & H). destruct (negb (is_productive t)).
  - inversion H; subst. auto.
  - destruct (seen_mem _ _).
    + inversion H; subst. auto.
    + apply bind_ok in H as (nf & _ & H). inversion H; subst. simpl. apply Forall_app. split; auto.
      constructor; auto. exists sub, para, idx, (MStr self fs). auto.
Qed.
Lemma ks_lengths_ok : forall M self sub pid dawg lower is st st',
  ks_lengths M self sub pid dawg lower st is = Ok st' -> Forall raw_ok (ks_res st) -> Forall raw_ok (ks_res st').
Proof.
  induction is as [|i is IH]; simpl; intros st st' H F.
  - inversion H; subst; auto.
  - apply bind_ok in H as (s1 & E1 & E2).
    assert (F1 : Forall raw_ok (ks_res s1)).
    { unfold ks_at in E1. eapply (foldM_inv (fun s => Forall raw_ok (ks_res s))); [exact F| |exact E1].
      intros s [sfx vals] s' _ Fs E. simpl in E.
      eapply (foldM_inv (fun s => Forall raw_ok (ks_res s))); [exact Fs| |exact E].
      intros. eapply ks_step_ok; eauto. }
    destruct (1 <? ks_total s1); [inversion E2; subst; auto|eauto].
Qed.
Lemma ks_prefix_ext : forall M self sub mult lower acc ip acc',
  ks_prefix M self sub mult lower acc ip = Ok acc' ->
  (exists new, fst acc' = fst acc ++ new) /\ seen_ext (snd acc) (fst acc') (snd acc').
Proof.
  intros M self sub mult lower [r s] [pid pre] acc' H. unfold ks_prefix in H. simpl in H.
  apply bind_ok in H as (dawg & _ & H). apply bind_ok in H as (st & E & H). inversion H; subst; simpl.
  split; [eauto|]. pose proof (ks_lengths_ok _ _ _ _ _ _ _ _ _ E (Forall_nil _)) as F.
  apply ks_lengths_grows in E as (new & E1 & E2). simpl in *. rewrite E2.
  exists (rev (map raw_key new)). split; auto. intros k Hk. apply in_rev in Hk.
  apply in_map_iff in Hk as (raw & <- & Hr). exists (ks_score mult (ks_total st) raw). split.
  - apply in_app_iff. right. apply in_map. rewrite E1. auto.
  - left. symmetry. apply ks_score_key. rewrite E1 in F. rewrite Forall_forall in F. auto.
Qed.
Lemma ks_parse_ext : forall M self sub mult minlen word lower seen out,
  ks_parse M self sub mult minlen word lower seen = Ok out -> seen_ext seen (fst out) (snd out).
Proof.
  intros. unfold ks_parse in H. destruct (length word <? minlen).
  - inversion H; subst. apply seen_ext_refl.
  - apply bind_ok in H as (r & E & H). inversion H; subst. simpl.
    apply foldM_ext_seen in E as [_ (ks & E1 & E2)]; [|intros; eapply ks_prefix_ext; eauto].
    simpl in *. exists ks. split; auto. intros k Hk. destruct (E2 k Hk) as (p & Hp & Ep).
    exists p. split; auto. apply sort_desc_In. auto.
Qed.

Definition kt_grows (st st' : kstst) : Prop :=
  exists new, kt_res st' = kt_res st ++ new /\ kt_seen st' = rev (map snd new) ++ kt_seen st.
Lemma kt_grows_refl : forall st, kt_grows st st.
Proof. intro. exists []. rewrite app_nil_r. auto. Qed.
Lemma kt_grows_trans : forall a b c, kt_grows a b -> kt_grows b c -> kt_grows a c.
Proof.
  intros a b c (n1 & A1 & A2) (n2 & B1 & B2). exists (n1 ++ n2).
  rewrite B1, A1, B2, A2, map_app, rev_app_distr, !app_assoc. auto.
Qed.
Lemma foldM_kgrows : forall {A} (f : kstst -> A -> res kstst) l st st',
  (forall st x st', f st x = Ok st' -> kt_grows st st') -> foldM f st l = Ok st' -> kt_grows st st'.
Proof.
  induction l as [|x l IH]; simpl; intros st st' Hf H.
  - inversion H; subst. apply kt_grows_refl.
  - apply bind_ok in H as (s1 & E1 & E2). eapply kt_grows_trans; eauto.
Qed.
Lemma kst_step_grows : forall M st v st', kst_step M st v = Ok st' -> kt_grows st st'.
Proof.
  intros M st [[cnt para] idx] st' H. unfold kst_step in H.
  apply bind_ok in H as (t & _ & H). destruct (negb (is_productive t)).
  - inversion H; subst. apply kt_grows_refl.
  - destruct (tag_mem _ _); inversion H; subst.
    + exists []. simpl. rewrite app_nil_r. auto.
    + eexists [_]. simpl. split; auto.
Qed.
Lemma kst_at_grows : forall M dawg lower st i st', kst_at M dawg lower st i = Ok st' -> kt_grows st st'.
Proof.
  intros. unfold kst_at in H.
  apply kt_grows_trans with {| kt_res := kt_res st; kt_seen := kt_seen st; kt_found := false |}.
  - exists []. simpl. rewrite app_nil_r. auto.
  - eapply foldM_kgrows; [|exact H]. intros s sv s' E. eapply foldM_kgrows; [|exact E].
    intros; eapply kst_step_grows; eauto.
Qed.
Lemma kst_lengths_grows : forall M dawg lower is st st', kst_lengths M dawg lower st is = Ok st' -> kt_grows st st'.
Proof.
  induction is as [|i is IH]; simpl; intros st st' H.
  - inversion H; subst. apply kt_grows_refl.
  - apply bind_ok in H as (s1 & E1 & E2). apply kst_at_grows in E1. destruct (kt_found s1).
    + inversion E2; subst; auto.
    + eapply kt_grows_trans; eauto.
Qed.
Lemma ks_tag_ext : forall M minlen word lower seen out,
  ks_tag M minlen word lower seen = Ok out -> tseen_ext seen (fst out) (snd out).
Proof.
  intros. unfold ks_tag in H. destruct (length word <? minlen).
  - inversion H; subst. apply tseen_ext_refl.
  - apply bind_ok in H as (r & E & H). inversion H; subst. simpl.
    apply foldM_kgrows in E as (new & E1 & E2).
    + simpl in *. exists (rev (map snd new)). split; auto. intros k Hk. apply in_rev in Hk.
      apply in_map_iff in Hk as (x & <- & Hx). apply in_map. apply sort_desc_In. rewrite E1. auto.
    + intros s x s' F. unfold kst_prefix in F. apply bind_ok in F as (d & _ & F).
      eapply kst_lengths_grows; eauto.
Qed.

Lemma unit_parse_ext : forall recP recT M i b word lower seen out,
  unit_parse recP recT M i b word lower seen = Ok out -> seen_ext seen (fst out) (snd out).
Proof.
  intros recP recT M i b word lower seen out H. unfold unit_parse in H.
  destruct (b_cfg b) eqn:C.
  - apply bind_ok in H as (ps & _ & H). inversion H; subst. apply seen_ext_refl.
  - inversion H; subst. apply seen_ext_refl.
  - apply bind_ok in H as (ps & _ & H). inversion H; subst. apply seen_ext_refl.
  - apply bind_ok in H as (ps & _ & H). inversion H; subst. apply seen_ext_refl.
  - apply bind_ok in H as (ps & _ & H). inversion H; subst. apply seen_ext_refl.
  - apply bind_ok in H as (ps & _ & H). inversion H; subst. apply seen_ext_refl.
  - unfold particle_parse in H. destruct (particle_splits particles lower) as [|[w pt] r].
    + inversion H; subst. apply seen_ext_refl.
    + apply bind_ok in H as (ps & _ & H). inversion H. destruct (fold_left _ _ _) eqn:E.
      apply add_parses_ext in E. subst. tauto.
  - apply bind_ok in H as (ok & _ & H). destruct ok.
    + apply bind_ok in H as (t & _ & H). inversion H; subst. simpl.
      eexists [_]. split; [reflexivity|]. intros k [<-|[]]. eexists. split; [left; reflexivity|auto].
    + inversion H; subst. apply seen_ext_refl.
  - unfold hyph_parse in H. destruct (negb _).
    + inversion H; subst. apply seen_ext_refl.
    + destruct (split_once HY lower) as [lw [rw|]]; [|discriminate].
      apply bind_ok in H as (ls & _ & H). apply bind_ok in H as (rs & _ & H). inversion H; subst.
      apply seen_ext_refl.
  - eapply kp_parse_ext; eauto.
  - eapply up_parse_ext; eauto.
  - eapply ks_parse_ext; eauto.
  - destruct seen.
    + apply bind_ok in H as (t & _ & H). inversion H; subst. apply seen_ext_refl.
    + inversion H; subst. apply seen_ext_refl.
Qed.

Lemma unit_tag_ext : forall recP recT M i b word lower seen out,
  unit_tag recP recT M i b word lower seen = Ok out -> tseen_ext seen (fst out) (snd out).
Proof.
  intros recP recT M i b word lower seen out H. unfold unit_tag in H.
  destruct (b_cfg b) eqn:C.
  - apply bind_ok in H as (ps & _ & H). inversion H; subst. apply tseen_ext_refl.
  - inversion H; subst. apply tseen_ext_refl.
  - apply bind_ok in H as (ps & _ & H). inversion H; subst. apply tseen_ext_refl.
  - apply bind_ok in H as (ps & _ & H). inversion H; subst. apply tseen_ext_refl.
  - apply bind_ok in H as (ps & _ & H). inversion H; subst. apply tseen_ext_refl.
  - apply bind_ok in H as (ps & _ & H). inversion H; subst. apply tseen_ext_refl.
  - unfold particle_tag in H. destruct (particle_splits particles lower) as [|[w pt] r].
    + inversion H; subst. apply tseen_ext_refl.
    + apply bind_ok in H as (ps & _ & H). inversion H. apply tseen_ext_refl.
  - apply bind_ok in H as (ok & _ & H). destruct ok; simpl in H.
    + apply bind_ok in H as (t & _ & H). destruct (tag_mem t seen); inversion H; subst; simpl.
      * apply tseen_ext_refl.
      * exists [t]. split; auto.
    + inversion H; subst. apply tseen_ext_refl.
  - unfold default_tag in H. apply bind_ok in H as (pr & _ & H). inversion H.
    destruct (fold_left _ _ _) eqn:E. apply add_tags_ext in E. subst. tauto.
  - eapply kp_tag_ext; eauto.
  - eapply up_tag_ext; eauto.
  - eapply ks_tag_ext; eauto.
  - destruct seen.
    + apply bind_ok in H as (t & _ & H). inversion H; subst. apply tseen_ext_refl.
    + inversion H; subst. apply tseen_ext_refl.
Qed.

(** ** C01 *)
Lemma run_parse_nonempty : forall recP recT M word lower us i acc seen r,
  (seen <> [] -> acc <> []) ->
  (exists b t, last us (MkUnit UDict [] [] [], true) = (b, t) /\ b_cfg b = UUnkn) ->
  run_parse recP recT M word lower i us acc seen = Ok r -> r <> [].
Proof.
  intros recP recT M word lower; induction us as [|[b tm] us IH]; intros i acc seen r Hs (b0 & t0 & L & Hb) H.
  - simpl in L. inversion L; subst. discriminate.
  - simpl in H. apply bind_ok in H as ([ps seen'] & E & H).
    pose proof (unit_parse_ext _ _ _ _ _ _ _ _ _ E) as (ks & E1 & E2). simpl in E1, E2.
    assert (Hs' : seen' <> [] -> acc ++ ps <> []).
    { intros Hn. subst seen'. destruct ks as [|k ks].
      - specialize (Hs Hn). destruct acc; simpl; congruence.
      - destruct (E2 k) as (p & Hp & _); [left; auto|]. destruct ps; [destruct Hp|]. destruct acc; discriminate. }
    destruct us as [|u1 us].
    + simpl in L. inversion L; subst. unfold unit_parse in E. rewrite Hb in E.
      assert (N : acc ++ ps <> []).
      { destruct seen as [|k seen].
        - apply bind_ok in E as (t & _ & E). inversion E; subst. destruct acc; discriminate.
        - inversion E; subst. rewrite app_nil_r. apply Hs. discriminate. }
      simpl in H. destruct (t0 && _); inversion H; subst; auto.
    + destruct (tm && _) eqn:T.
      * inversion H; subst. apply andb_true_iff in T as [_ T]. destruct (acc ++ ps); congruence.
      * eapply IH; eauto.
Qed.
Lemma run_tag_nonempty : forall recP recT M word lower us i acc seen r,
  (seen <> [] -> acc <> []) ->
  (exists b t, last us (MkUnit UDict [] [] [], true) = (b, t) /\ b_cfg b = UUnkn) ->
  run_tag recP recT M word lower i us acc seen = Ok r -> r <> [].
Proof.
  intros recP recT M word lower; induction us as [|[b tm] us IH]; intros i acc seen r Hs (b0 & t0 & L & Hb) H.
  - simpl in L. inversion L; subst. discriminate.
  - simpl in H. apply bind_ok in H as ([ps seen'] & E & H).
    pose proof (unit_tag_ext _ _ _ _ _ _ _ _ _ E) as (ks & E1 & E2). simpl in E1, E2.
    assert (Hs' : seen' <> [] -> acc ++ ps <> []).
    { intros Hn. subst seen'. destruct ks as [|k ks].
      - specialize (Hs Hn). destruct acc; simpl; congruence.
      - specialize (E2 k (or_introl eq_refl)). destruct ps; [destruct E2|]. destruct acc; discriminate. }
    destruct us as [|u1 us].
    + simpl in L. inversion L; subst. unfold unit_tag in E. rewrite Hb in E.
      assert (N : acc ++ ps <> []).
      { destruct seen as [|k seen].
        - apply bind_ok in E as (t & _ & E). inversion E; subst. destruct acc; discriminate.
        - inversion E; subst. rewrite app_nil_r. apply Hs. discriminate. }
      simpl in H. destruct (t0 && _); inversion H; subst; auto.
    + destruct (tm && _) eqn:T.
      * inversion H; subst. apply andb_true_iff in T as [_ T]. destruct (acc ++ ps); congruence.
      * eapply IH; eauto.
Qed.

(** apply_to_parses keeps the number of parses *)
Lemma apply_to_parses_length : forall d lower ps r, apply_to_parses d lower ps = Ok r -> length r = length ps.
Proof.
  intros d lower ps r H. unfold apply_to_parses in H. destruct ps as [|p ps]; [inversion H; auto|].
  destruct (Qeq_bool _ _).
  - destruct (Qeq_bool _ _); [discriminate|]. apply Ok_inj in H; subst r. apply map_length.
  - apply Ok_inj in H; subst r. rewrite sort_desc_length, map_length, combine_length, map_length. simpl. lia.
Qed.

Lemma ends_last : forall M, ends_with_unkn M ->
  exists b t, last (m_units M) (MkUnit UDict [] [] [], true) = (b, t) /\ b_cfg b = UUnkn.
Proof.
  intros M (us & b & t & E & H). exists b, t. rewrite E, last_last. auto.
Qed.
Lemma parse_f_nonempty : forall fuel M word ps,
  ends_with_unkn M -> parse_f fuel M word = Ok ps -> ps <> [].
Proof.
  intros [|f] M word ps HM H; unfold parse_f in H; simpl in H; [discriminate|].
  apply bind_ok in H as (r & E & H). eapply run_parse_nonempty in E; [|congruence|apply ends_last; auto].
  destruct (m_prob M) as [d|].
  - apply apply_to_parses_length in H. destruct ps, r; simpl in *; congruence.
  - inversion H; subst; auto.
Qed.
Lemma tag_f_nonempty : forall fuel M word ts,
  ends_with_unkn M -> tag_f fuel M word = Ok ts -> ts <> [].
Proof.
  intros [|f] M word ps HM H; unfold tag_f in H; simpl in H; [discriminate|].
  apply bind_ok in H as (r & E & H). eapply run_tag_nonempty in E; [|congruence|apply ends_last; auto].
  destruct (m_prob M) as [d|]; inversion H; subst; auto.
  unfold apply_to_tags. intro N. apply sort_desc_nil in N. auto.
Qed.
