(** * tag() and parse() agree (C02) *)
From Coq Require Import String List NArith ZArith Bool Arith Lia QArith Permutation.
From Verif Require Import Py Uni Tagset Dawg Utils Shapes Dict Units Analyzer Spec L_Base L_Run.
Import ListNotations.
Local Open Scope nat_scope.
Local Open Scope list_scope.

(** Tags are compared by their grammemes (tag equality). *)
Definition G (ts : list tag) : list (list str) := map t_gr ts.
Definition GP (ps : list parse) : list (list str) := map (fun p => t_gr (p_tag p)) ps.
Definition eqs (a b : list (list str)) : Prop := forall g, In g a <-> In g b.

Definition pkeys_in (seen : list skey) (g : list (list str)) : Prop :=
  forall w t k, In (SKey w t k) seen -> In (t_gr t) g.
Definition tkeys_in (seen : list tag) (g : list (list str)) : Prop :=
  forall t, In t seen -> In (t_gr t) g.

Lemma GP_map : forall ps, GP ps = G (map p_tag ps).
Proof. intros. unfold GP, G. rewrite map_map. auto. Qed.

Lemma add_parses_inv : forall l X res seen res' seen',
  fold_left add_parse_if_not_seen l (res, seen) = (res', seen') ->
  pkeys_in seen (X ++ GP res) ->
  pkeys_in seen' (X ++ GP res') /\
  (forall g, In g (X ++ GP res') <-> In g (X ++ GP res) \/ In g (GP l)).
Proof.
  intros l X res seen res' seen' H K. apply add_parses_spec in H as (new & -> & -> & H1 & H2).
  unfold GP at 1 2. rewrite map_app. fold (GP res) (GP new).
  assert (K' : pkeys_in (rev (map key_of new) ++ seen) (X ++ GP res ++ GP new)).
  { intros w t k Hk. apply in_app_iff in Hk as [Hk|Hk].
    - apply in_rev in Hk. apply in_map_iff in Hk as (p & E & Hp). unfold key_of in E. inversion E; subst.
      rewrite !in_app_iff. right; right. apply in_map_iff. eauto.
    - apply K in Hk. rewrite app_assoc, in_app_iff. auto. }
  split; auto. intro g. split.
  - rewrite app_assoc, in_app_iff. intros [H|H]; auto. right.
    apply in_map_iff in H as (p & <- & Hp). apply in_map_iff. eauto.
  - intros [H|H].
    + rewrite app_assoc, in_app_iff. auto.
    + apply in_map_iff in H as (p & <- & Hp). destruct (H2 p Hp) as [Hn|Hn].
      * rewrite !in_app_iff. right; right. apply in_map_iff; eauto.
      * unfold key_of in Hn. apply seen_mem_tag in Hn as (t' & k' & Hin & <-). eapply K'; eauto.
Qed.

Lemma add_tags_inv : forall l X res seen res' seen',
  fold_left add_tag_if_not_seen l (res, seen) = (res', seen') ->
  tkeys_in seen (X ++ G res) ->
  tkeys_in seen' (X ++ G res') /\
  (forall g, In g (X ++ G res') <-> In g (X ++ G res) \/ In g (G l)).
Proof.
  intros l X res seen res' seen' H K. apply add_tags_spec in H as (new & -> & -> & H1 & H2).
  unfold G at 1 2. rewrite map_app. fold (G res) (G new).
  assert (K' : tkeys_in (rev new ++ seen) (X ++ G res ++ G new)).
  { intros t Hk. apply in_app_iff in Hk as [Hk|Hk].
    - apply in_rev in Hk. rewrite !in_app_iff. right; right. apply in_map_iff. eauto.
    - apply K in Hk. rewrite app_assoc, in_app_iff. auto. }
  split; auto. intro g. split.
  - rewrite app_assoc, in_app_iff. intros [H|H]; auto. right.
    apply in_map_iff in H as (p & <- & Hp). apply in_map_iff. eauto.
  - intros [H|H].
    + rewrite app_assoc, in_app_iff. auto.
    + apply in_map_iff in H as (p & <- & Hp). destruct (H2 p Hp) as [Hn|Hn].
      * rewrite !in_app_iff. right; right. apply in_map_iff; eauto.
      * apply tag_mem_iff in Hn as (t' & Hin & <-). apply K'; auto.
Qed.

Definition inv (gP gT : list (list str)) (sP : list skey) (sT : list tag) : Prop :=
  eqs gP gT /\ pkeys_in sP gP /\ tkeys_in sT gT.

(** ** Dictionary lookup *)
Lemma mapM_concat : forall {A B C} (f : A -> res (list B)) (g : A -> res (list C)) (h : B -> C) l r s,
  (forall x y z, In x l -> f x = Ok y -> g x = Ok z -> map h y = z) ->
  mapM f l = Ok r -> mapM g l = Ok s -> map h (concat r) = concat s.
Proof.
  induction l as [|x l IH]; simpl; intros r s Hfg Hr Hs.
  - inversion Hr; inversion Hs; auto.
  - apply bind_ok in Hr as (y & E1 & Hr). apply bind_ok in Hr as (ys & E2 & Hr).
    apply bind_ok in Hs as (z & F1 & Hs). apply bind_ok in Hs as (zs & F2 & Hs).
    inversion Hr; inversion Hs; subst. simpl. rewrite map_app. f_equal; eauto.
Qed.

Lemma mapM_map : forall {A B C} (f : B -> res C) (h : A -> B) l, mapM f (map h l) = mapM (fun x => f (h x)) l.
Proof. induction l; simpl; auto. rewrite IHl. auto. Qed.

Lemma dict_tags : forall M self lower ps ts,
  dict_parse M self lower = Ok ps -> dict_tag M lower = Ok ts -> map p_tag ps = ts.
Proof.
  intros M self lower ps ts HP HT. unfold dict_parse in HP. unfold dict_tag, similar_item_values in HT.
  apply rmap_ok in HP as (a & HP & ->). apply rmap_ok in HT as (b & HT & ->).
  rewrite mapM_map in HT. eapply mapM_concat; [|exact HP|exact HT].
  intros [w vals] y z _ Hy Hz. simpl in Hy, Hz.
  clear HP HT. revert y z Hy Hz. induction vals as [|[para idx] vals IH]; simpl; intros y z Hy Hz.
  - inversion Hy; inversion Hz; auto.
  - apply bind_ok in Hy as (p & E1 & Hy). apply bind_ok in Hy as (q & E2 & Hy).
    apply bind_ok in Hz as (t & F1 & Hz). apply bind_ok in Hz as (zs & F2 & Hz).
    inversion Hy; inversion Hz; subst. simpl. f_equal; eauto.
    apply bind_ok in E1 as (nf & _ & E1). rewrite F1 in E1. simpl in E1. inversion E1; auto.
Qed.

Lemma is_productive_gr : forall a b, t_gr a = t_gr b -> is_productive a = is_productive b.
Proof. intros. unfold is_productive. rewrite H. auto. Qed.

(** a set of tags filtered by productivity *)
Lemma GP_filter : forall ps ts g, eqs (GP ps) (G ts) ->
  (In g (GP (filter (fun p => is_productive (p_tag p)) ps)) <-> In g (G (filter is_productive ts))).
Proof.
  intros ps ts g E. unfold GP, G. rewrite !in_map_iff. split; intros (x & <- & Hx); apply filter_In in Hx as [H1 H2].
  - assert (In (t_gr (p_tag x)) (G ts)) by (apply E; apply in_map_iff; eauto).
    apply in_map_iff in H as (t & Et & Ht). exists t. split; auto. apply filter_In. split; auto.
    rewrite (is_productive_gr t (p_tag x)); auto.
  - assert (In (t_gr x) (GP ps)) by (apply E; apply in_map_iff; eauto).
    apply in_map_iff in H as (t & Et & Ht). exists t. split; auto. apply filter_In. split; auto.
    rewrite (is_productive_gr (p_tag t) x); auto.
Qed.

Lemma GP_retag : forall (f : parse -> parse) ps, (forall p, p_tag (f p) = p_tag p) -> GP (map f ps) = GP ps.
Proof. intros. unfold GP. rewrite map_map. apply map_ext. intro; rewrite H; auto. Qed.

(** ** Prefix units *)
Section PrefixAgree.
  Variables (recP : str -> res (list parse)) (recT : str -> res (list tag)).
  Hypothesis rec_agree : forall w ps ts, recP w = Ok ps -> recT w = Ok ts -> eqs (GP ps) (G ts).
  Variables (self : uref) (mult : Q) (X Y : list (list str)).

  Lemma prefix_fold_inv : forall splits stP stT stP' stT',
    foldM (fun st (pr : str * str) => let '(prefix, rest) := pr in
             let* ps := recP rest in Ok (prefix_step self mult prefix st ps)) stP splits = Ok stP' ->
    foldM (fun st (pr : str * str) => let* ts := recT (snd pr) in Ok (tags_step st ts)) stT splits = Ok stT' ->
    inv (X ++ GP (fst stP)) (Y ++ G (fst stT)) (snd stP) (snd stT) ->
    inv (X ++ GP (fst stP')) (Y ++ G (fst stT')) (snd stP') (snd stT').
  Proof.
    induction splits as [|[prefix rest] splits IH]; simpl; intros stP stT stP' stT' HP HT I.
    - inversion HP; inversion HT; subst; auto.
    - apply bind_ok in HP as (s1 & E1 & HP). apply bind_ok in E1 as (ps & R1 & E1). apply Ok_inj in E1.
      apply bind_ok in HT as (s2 & E2 & HT). apply bind_ok in E2 as (ts & R2 & E2). apply Ok_inj in E2.
      eapply IH; eauto. clear IH HP HT. destruct stP as [r s], stT as [r2 s2'], s1 as [r1 s1], s2 as [r3 s3].
      destruct I as (I1 & I2 & I3). simpl in *.
      unfold prefix_step in E1. apply add_parses_inv with (X := X) in E1 as [K1 K2]; auto.
      unfold tags_step in E2. apply add_tags_inv with (X := Y) in E2 as [L1 L2]; auto.
      repeat split; auto; intro H.
      + apply L2. apply K2 in H as [H|H]; [left; apply I1; auto|right].
        rewrite GP_retag in H by auto. eapply GP_filter; eauto.
      + apply K2. apply L2 in H as [H|H]; [left; apply I1; auto|right].
        rewrite GP_retag by auto. eapply GP_filter; eauto.
  Qed.
End PrefixAgree.

(** ** Suffix prediction *)
Definition GR (rs : list ksraw) : list (list str) := map (fun r => t_gr (k_tag r)) rs.
Definition GC (rs : list (nat * tag)) : list (list str) := map (fun r => t_gr (snd r)) rs.

Section SuffixAgree.
  Variables (M : morph) (self sub : uref) (pid : nat) (X Y : list (list str)).
  Definition rel (st : ksst) (stT : kstst) : Prop :=
    inv (X ++ GR (ks_res st)) (Y ++ GC (kt_res stT)) (ks_seen st) (kt_seen stT)
    /\ 1 <= ks_total st /\ (1 <? ks_total st) = kt_found stT.

  Lemma ks_step_rel : forall fw fs st stT c p i st' stT', 1 <= c ->
    ks_step M self sub pid fw fs st (c, p, i) = Ok st' -> kst_step M stT (c, p, i) = Ok stT' ->
    rel st stT -> rel st' stT'.
  Proof.
    intros fw fs st stT c p i st' stT' Hc HP HT ((I1 & I2 & I3) & T1 & T2).
    unfold ks_step in HP. unfold kst_step in HT.
    apply bind_ok in HP as (t & Et & HP). rewrite Et in HT. simpl in HT.
    destruct (negb (is_productive t)).
    { inversion HP; inversion HT; subst. repeat split; auto; apply I1. }
    assert (Tot : (1 <? ks_total st + c) = true) by (apply Nat.ltb_lt; lia).
    (* parse side: the set of grammeme tuples gains t *)
    assert (P : ks_total st' = ks_total st + c /\
                pkeys_in (ks_seen st') (X ++ GR (ks_res st')) /\
                forall g, In g (X ++ GR (ks_res st')) <-> In g (X ++ GR (ks_res st)) \/ g = t_gr t).
    { destruct (seen_mem (SKey fw t (PNum p)) (ks_seen st)) eqn:S.
      - apply Ok_inj in HP. subst st'. simpl. split; auto. split; auto. intro g. split; auto.
        intros [H| ->]; auto. apply seen_mem_tag in S as (t' & k' & Hin & <-). eapply I2; eauto.
      - apply bind_ok in HP as (nf & _ & HP). apply Ok_inj in HP. subst st'. simpl.
        unfold GR. rewrite map_app. simpl. fold (GR (ks_res st)). split; auto. split.
        + intros w t0 k [E|H]; [inversion E; subst|].
          * rewrite !in_app_iff. simpl; auto.
          * apply I2 in H. rewrite app_assoc, in_app_iff. auto.
        + intro g. rewrite app_assoc, in_app_iff. simpl. intuition. }
    assert (Q : kt_found stT' = true /\
                tkeys_in (kt_seen stT') (Y ++ GC (kt_res stT')) /\
                forall g, In g (Y ++ GC (kt_res stT')) <-> In g (Y ++ GC (kt_res stT)) \/ g = t_gr t).
    { destruct (tag_mem t (kt_seen stT)) eqn:S; apply Ok_inj in HT; subst stT'; simpl.
      - split; auto. split; auto. intro g. split; auto.
        intros [H| ->]; auto. apply tag_mem_iff in S as (t' & Hin & <-). apply I3; auto.
      - unfold GC. rewrite map_app. simpl. fold (GC (kt_res stT)). split; auto. split.
        + intros t0 [E|H]; [subst|].
          * rewrite !in_app_iff. simpl; auto.
          * apply I3 in H. rewrite app_assoc, in_app_iff. auto.
        + intro g. rewrite app_assoc, in_app_iff. simpl. intuition. }
    destruct P as (P1 & P2 & P3), Q as (Q1 & Q2 & Q3). split; [|split].
    - split; [|split]; auto. intro g. rewrite P3, Q3. rewrite (I1 g). tauto.
    - lia.
    - rewrite P1, Q1. auto.
  Qed.

  Lemma ks_fold_rel : forall fw fs vals st stT st' stT',
    (forall c p i, In (c, p, i) vals -> 1 <= c) ->
    foldM (ks_step M self sub pid fw fs) st vals = Ok st' -> foldM (kst_step M) stT vals = Ok stT' ->
    rel st stT -> rel st' stT'.
  Proof.
    induction vals as [|[[c p] i] vals IH]; intros st stT st' stT' Hc HP HT R.
    - simpl in HP, HT. inversion HP; inversion HT; subst; auto.
    - cbn [foldM] in HP, HT. apply bind_ok in HP as (s1 & E1 & HP). apply bind_ok in HT as (s2 & E2 & HT).
      eapply IH; [|exact HP|exact HT|].
      + intros; eapply Hc; right; eauto.
      + eapply ks_step_rel; [|exact E1|exact E2|exact R]. eapply Hc; left; eauto.
  Qed.

  Lemma sget_In : forall {V} k (v : V) d, sget k d = Some v -> In (k, v) d.
  Proof. intros. eapply dget_In; eauto. apply str_eqb_eq. Qed.
  Lemma similar_items_In : forall {V} (d : rdawg V) r k w vals, In (w, vals) (similar_items d r k) -> In (w, vals) d /\ In w (variants r k).
  Proof.
    intros. unfold similar_items in H. apply in_flat_map in H as (v & Hv & H).
    destruct (sget v d) eqn:E; simpl in H; [|tauto]. destruct H as [H|[]]. inversion H; subst.
    split; auto. eapply sget_In; eauto.
  Qed.

  Lemma items_rel : forall items st stT st' stT' start,
    (forall e vals c p i, In (e, vals) items -> In (c, p, i) vals -> 1 <= c) ->
    foldM (fun st (sv : str * list (nat * nat * nat)) => let '(fixed_suffix, vals) := sv in
             foldM (ks_step M self sub pid (start ++ fixed_suffix) fixed_suffix) st vals) st items = Ok st' ->
    foldM (fun st sv => foldM (kst_step M) st (snd sv)) stT items = Ok stT' ->
    rel st stT -> rel st' stT'.
  Proof.
    induction items as [|[e vals] items IH]; intros st stT st' stT' start Hc HP HT R.
    - simpl in HP, HT. inversion HP; inversion HT; subst; auto.
    - cbn [foldM] in HP, HT. apply bind_ok in HP as (s1 & E1 & HP). apply bind_ok in HT as (s2 & E2 & HT).
      simpl in E2. eapply IH; [|exact HP|exact HT|].
      + intros; eapply Hc; [right|]; eauto.
      + eapply ks_fold_rel; [|exact E1|exact E2|exact R]. intros; eapply Hc; [left|]; eauto.
  Qed.

  Lemma lengths_rel : forall dawg lower is st stT st' stT',
    (forall e vals c p i, In (e, vals) dawg -> In (c, p, i) vals -> 1 <= c) ->
    ks_lengths M self sub pid dawg lower st is = Ok st' -> kst_lengths M dawg lower stT is = Ok stT' ->
    inv (X ++ GR (ks_res st)) (Y ++ GC (kt_res stT)) (ks_seen st) (kt_seen stT) -> ks_total st = 1 ->
    inv (X ++ GR (ks_res st')) (Y ++ GC (kt_res stT')) (ks_seen st') (kt_seen stT').
  Proof.
    induction is as [|i is IH]; intros st stT st' stT' Hc HP HT I T.
    - simpl in HP, HT. inversion HP; inversion HT; subst; auto.
    - simpl in HP, HT. apply bind_ok in HP as (s1 & E1 & HP). apply bind_ok in HT as (s2 & E2 & HT).
      unfold ks_at in E1. unfold kst_at in E2.
      assert (R : rel s1 s2).
      { eapply items_rel; [|exact E1|exact E2|].
        - intros e vals c p j H1 H2. apply similar_items_In in H1 as [H1 _]. eauto.
        - split; [exact I|]. simpl. rewrite T. auto. }
      destruct R as (R1 & R2 & R3). rewrite R3 in HP. destruct (kt_found s2).
      + inversion HP; inversion HT; subst. auto.
      + eapply IH; eauto. apply Nat.ltb_ge in R3. lia.
  Qed.
End SuffixAgree.

Lemma GP_score : forall mult tot rs, GP (map (ks_score mult tot) rs) = GR rs.
Proof. intros. unfold GP, GR. rewrite map_map. auto. Qed.
Lemma GP_app : forall a b, GP (a ++ b) = GP a ++ GP b.
Proof. intros. unfold GP. apply map_app. Qed.
Lemma G_app : forall a b, G (a ++ b) = G a ++ G b.
Proof. intros. unfold G. apply map_app. Qed.

Lemma ks_prefixes_rel : forall M self sub mult lower X Y ips acc stT acc' stT',
  pred_counts_pos (m_dict M) ->
  foldM (ks_prefix M self sub mult lower) acc ips = Ok acc' ->
  foldM (kst_prefix M lower) stT ips = Ok stT' ->
  inv (X ++ GP (fst acc)) (Y ++ GC (kt_res stT)) (snd acc) (kt_seen stT) ->
  inv (X ++ GP (fst acc')) (Y ++ GC (kt_res stT')) (snd acc') (kt_seen stT').
Proof.
  induction ips as [|[pid pre] ips IH]; intros acc stT acc' stT' Hc HP HT I.
  - simpl in HP, HT. inversion HP; inversion HT; subst; auto.
  - cbn [foldM] in HP, HT. apply bind_ok in HP as (s1 & E1 & HP). apply bind_ok in HT as (s2 & E2 & HT).
    eapply IH; [auto|exact HP|exact HT|]. clear IH HP HT.
    unfold ks_prefix in E1. unfold kst_prefix in E2. simpl in E1, E2.
    apply bind_ok in E1 as (dawg & D1 & E1). rewrite D1 in E2. simpl in E2.
    apply bind_ok in E1 as (st & E1 & E3). apply Ok_inj in E3. subst s1. simpl.
    rewrite GP_app, GP_score, app_assoc.
    eapply (lengths_rel M self sub pid (X ++ GP (fst acc)) Y); [|exact E1|exact E2| |reflexivity].
    + intros e vals c p i H1 H2. apply nth_res_ok in D1. apply nth_error_In in D1. eapply Hc; eauto.
    + simpl. rewrite app_nil_r. exact I.
Qed.

(** ** One unit *)
Section UnitAgree.
  Variables (recP : str -> res (list parse)) (recT : str -> res (list tag)).
  Hypothesis rec_agree : forall w ps ts, recP w = Ok ps -> recT w = Ok ts -> eqs (GP ps) (G ts).
  Variables (M : morph) (i : nat) (b : bunit) (word lower : str).
  Hypothesis counts : pred_counts_pos (m_dict M).

  Lemma inv_same : forall X Y sP sT ps, inv X Y sP sT -> inv (X ++ GP ps) (Y ++ G (map p_tag ps)) sP sT.
  Proof.
    intros X Y sP sT ps (I1 & I2 & I3). rewrite GP_map. repeat split.
    - intro H. rewrite in_app_iff in *. destruct H; auto. left; apply I1; auto.
    - intro H. rewrite in_app_iff in *. destruct H; auto. left; apply I1; auto.
    - intros w t k H. apply in_app_iff. left. eapply I2; eauto.
    - intros t H. apply in_app_iff. left. eapply I3; eauto.
  Qed.

  Lemma inv_same' : forall X Y sP sT ps ts, map p_tag ps = ts -> inv X Y sP sT -> inv (X ++ GP ps) (Y ++ G ts) sP sT.
  Proof. intros; subst. apply inv_same; auto. Qed.

  Lemma unit_agree : forall X Y sP sT ps sP' ts sT',
    (b_cfg b = UUnkn -> (sP = [] <-> sT = [])) ->
    inv X Y sP sT ->
    unit_parse recP recT M i b word lower sP = Ok (ps, sP') ->
    unit_tag recP recT M i b word lower sT = Ok (ts, sT') ->
    inv (X ++ GP ps) (Y ++ G ts) sP' sT'.
  Proof.
    intros X Y sP sT ps sP' ts sT' U I HP HT. unfold unit_parse in HP. unfold unit_tag in HT.
    assert (SH : forall score, 
      (let* ps := shape_parse (m_uni M) (Root i) b score word lower in Ok (ps, sP)) = Ok (ps, sP') ->
      (let* ts := shape_tags (m_uni M) b word in Ok (ts, sT)) = Ok (ts, sT') ->
      inv (X ++ GP ps) (Y ++ G ts) sP' sT').
    { intros score HP' HT'. unfold shape_parse in HP'. unfold shape_tags in HT'.
      destruct (shape_tag (m_uni M) b word) as [[t|]|]; simpl in HP', HT'; try discriminate;
        inversion HP'; inversion HT'; subst; apply inv_same'; auto. }
    destruct (b_cfg b) eqn:C; try (eapply SH; eauto; fail).
    - apply bind_ok in HP as (ps0 & E1 & HP). apply bind_ok in HT as (ts0 & E2 & HT).
      inversion HP; inversion HT; subst. rewrite <- (dict_tags _ _ _ _ _ E1 E2). apply inv_same; auto.
    - inversion HP; inversion HT; subst. destruct (smem word letters).
      + apply inv_same'; auto. rewrite map_map. apply map_id.
      + apply inv_same'; auto.
    - (* particle *)
      unfold particle_parse in HP. unfold particle_tag in HT.
      destruct (particle_splits particles lower) as [|[w pt] r].
      + inversion HP; inversion HT; subst. apply inv_same'; auto.
      + apply bind_ok in HP as (qs & E1 & HP). apply bind_ok in HT as (rs & E2 & HT).
        apply Ok_inj in HP. inversion HT; subst. destruct I as (I1 & I2 & I3).
        apply add_parses_inv with (X := X) in HP as [K1 K2]; [|simpl; rewrite app_nil_r; auto].
        rewrite GP_retag in K2 by auto. simpl in K2. rewrite app_nil_r in K2.
        specialize (rec_agree _ _ _ E1 E2). split; [|split]; auto.
        * intro g. rewrite K2, in_app_iff. rewrite (I1 g), (rec_agree g). tauto.
        * intros t H. apply in_app_iff. left. auto.
    - (* adverb *)
      destruct (adverb_should_parse recT M lower) as [ok|]; simpl in HP, HT; [|discriminate].
      destruct ok; simpl in HT.
      + apply bind_ok in HP as (t & E1 & HP). rewrite E1 in HT. simpl in HT.
        destruct I as (I1 & I2 & I3). inversion HP; subst. clear HP.
        assert (J : forall g, In g (X ++ [t_gr t]) <-> In g Y \/ g = t_gr t).
        { intro g. rewrite in_app_iff, (I1 g). simpl. intuition. }
        destruct (tag_mem t sT) eqn:S; inversion HT; subst; simpl.
        * split; [|split].
          -- intro g. rewrite app_nil_r, J. split; [|auto]. intros [H| ->]; auto.
             apply tag_mem_iff in S as (t' & Hin & <-). auto.
          -- intros w0 t0 k [E|H]; [discriminate|]. apply in_app_iff. left. eapply I2; eauto.
          -- intros t0 H. rewrite app_nil_r. auto.
        * split; [|split].
          -- intro g. rewrite J, in_app_iff. simpl. intuition.
          -- intros w0 t0 k [E|H]; [discriminate|]. apply in_app_iff. left. eapply I2; eauto.
          -- intros t0 [<-|H]; apply in_app_iff; simpl; auto.
      + inversion HP; inversion HT; subst. apply inv_same'; auto.
    - (* hyphenated words *)
      unfold default_tag in HT. apply bind_ok in HT as ([qs sx] & E2 & HT). simpl in HT.
      assert (qs = ps /\ sP' = sP) as [-> ->].
      { unfold hyph_parse in *. destruct (negb _).
        - inversion HP; inversion E2; subst; auto.
        - destruct (split_once HY lower) as [lw [rw|]]; [|discriminate].
          apply bind_ok in HP as (l1 & A1 & HP). apply bind_ok in HP as (l2 & A2 & HP).
          apply bind_ok in E2 as (l3 & A3 & E2). apply bind_ok in E2 as (l4 & A4 & E2).
          rewrite A1 in A3. rewrite A2 in A4. inversion A3; inversion A4; subst.
          inversion HP; inversion E2; subst; auto. }
      apply Ok_inj in HT. destruct I as (I1 & I2 & I3).
      apply add_tags_inv with (X := Y) in HT as [K1 K2]; [|simpl; rewrite app_nil_r; auto].
      simpl in K2. rewrite app_nil_r in K2. split; [|split]; auto.
      + intro g. rewrite K2, in_app_iff, GP_map. rewrite (I1 g). tauto.
      + intros w0 t0 k H. apply in_app_iff. left. eapply I2; eauto.
    - (* known prefix *)
      unfold kp_parse in HP. unfold kp_tag in HT.
      eapply (prefix_fold_inv recP recT rec_agree (Root i) mult X Y) in HP; [|exact HT|].
      + exact HP.
      + simpl. rewrite !app_nil_r. exact I.
    - (* unknown prefix *)
      unfold up_parse in HP. unfold up_tag in HT.
      eapply (prefix_fold_inv (dict_parse M (Sub i)) (dict_tag M)) with (X := X) (Y := Y) in HP; [|  |exact HT|].
      + exact HP.
      + intros w qs rs E1 E2. rewrite <- (dict_tags _ _ _ _ _ E1 E2), GP_map. intro; tauto.
      + simpl. rewrite !app_nil_r. exact I.
    - (* known suffix *)
      unfold ks_parse in HP. unfold ks_tag in HT. destruct (length word <? minlen).
      + inversion HP; inversion HT; subst. apply inv_same'; auto.
      + apply bind_ok in HP as (acc' & E1 & HP). apply bind_ok in HT as (st' & E2 & HT).
        inversion HP; inversion HT; subst. clear HP HT.
        eapply (ks_prefixes_rel M (Root i) (Sub i) mult lower X Y) in E1; [|auto|exact E2|].
        * assert (EP : forall g, In g (X ++ GP (sort_desc score_geb (fst acc'))) <-> In g (X ++ GP (fst acc'))).
          { intro g. rewrite !in_app_iff. unfold GP. rewrite !in_map_iff.
            split; (intros [H|(x & <- & H)]; [auto|right; exists x; split; auto; apply sort_desc_In in H || apply sort_desc_In; auto]). }
          assert (ET : forall g, In g (Y ++ G (map snd (sort_desc cnt_tag_geb (kt_res st')))) <-> In g (Y ++ GC (kt_res st'))).
          { intro g. rewrite !in_app_iff. unfold G, GC. rewrite map_map, !in_map_iff.
            split; (intros [H|(x & <- & H)]; [auto|right; exists x; split; auto; apply sort_desc_In in H || apply sort_desc_In; auto]). }
          destruct E1 as (J1 & J2 & J3). split; [|split].
          -- intro g. rewrite EP, ET. apply J1.
          -- intros w t k H. apply EP. eapply J2; eauto.
          -- intros t H. apply ET. auto.
        * simpl. rewrite !app_nil_r. exact I.
    - (* unknown word *)
      specialize (U eq_refl). destruct sP as [|k sP].
      + destruct U as [U _]. rewrite U in HT by auto. simpl in HT.
        apply bind_ok in HP as (t & E1 & HP). rewrite E1 in HT. simpl in HT.
        inversion HP; inversion HT; subst. rewrite U in I by auto. apply inv_same'; auto.
      + destruct sT as [|t sT]; [destruct U as [_ U]; discriminate U; auto|].
        inversion HP; inversion HT; subst. apply inv_same'; auto.
  Qed.
End UnitAgree.

Lemma run_agree : forall recP recT M word lower us i start accP accT sP sT rP rT,
  (forall w ps ts, recP w = Ok ps -> recT w = Ok ts -> eqs (GP ps) (G ts)) ->
  pred_counts_pos (m_dict M) ->
  unkn_isolated start us ->
  (start = true -> sP = [] /\ sT = []) ->
  (accP = [] -> sP = []) -> (accT = [] -> sT = []) ->
  inv (GP accP) (G accT) sP sT ->
  run_parse recP recT M word lower i us accP sP = Ok rP ->
  run_tag recP recT M word lower i us accT sT = Ok rT ->
  eqs (GP rP) (G rT).
Proof.
  intros recP recT M word lower; induction us as [|[b tm] us IH];
    intros i start accP accT sP sT rP rT Hrec Hc Hu Hs HeP HeT I HP HT.
  - simpl in HP, HT. inversion HP; inversion HT; subst. destruct I; auto.
  - simpl in HP, HT, Hu. destruct Hu as [Hu1 Hu2].
    apply bind_ok in HP as ([ps sP'] & E1 & HP). apply bind_ok in HT as ([ts sT'] & E2 & HT).
    assert (I' : inv (GP (accP ++ ps)) (G (accT ++ ts)) sP' sT').
    { rewrite GP_app, G_app. eapply unit_agree; eauto. intro C. specialize (Hu1 C).
      destruct (Hs Hu1) as [-> ->]. tauto. }
    assert (NE : accP ++ ps = [] <-> accT ++ ts = []).
    { destruct I' as (J & _ & _). split; intro H.
      - destruct (accT ++ ts) as [|t l]; auto. exfalso. rewrite H in J. apply (J (t_gr t)). left; auto.
      - destruct (accP ++ ps) as [|p l]; auto. exfalso. rewrite H in J. apply (J (t_gr (p_tag p))). left; auto. }
    pose proof (unit_parse_ext _ _ _ _ _ _ _ _ _ E1) as (k1 & F1 & F1').
    pose proof (unit_tag_ext _ _ _ _ _ _ _ _ _ E2) as (k2 & F2 & F2'). simpl in *.
    assert (HeP' : accP ++ ps = [] -> sP' = []).
    { intro H. apply app_eq_nil in H as [-> ->]. rewrite HeP in F1 by auto. subst. rewrite app_nil_r.
      destruct k1 as [|k k1]; auto. destruct (F1' k) as (p & [] & _). left; auto. }
    assert (HeT' : accT ++ ts = [] -> sT' = []).
    { intro H. apply app_eq_nil in H as [-> ->]. rewrite HeT in F2 by auto. subst. rewrite app_nil_r.
      destruct k2 as [|k k2]; auto. destruct (F2' k). left; auto. }
    assert (BB : (match accP ++ ps with [] => false | _ => true end) = (match accT ++ ts with [] => false | _ => true end)).
    { destruct (accP ++ ps), (accT ++ ts); auto; exfalso; destruct NE as [N1 N2];
      [discriminate (N1 eq_refl)|discriminate (N2 eq_refl)]. }
    rewrite BB in HP. destruct (tm && _) eqn:T.
    + inversion HP; inversion HT; subst. destruct I'; auto.
    + eapply IH; [auto|auto|exact Hu2| |exact HeP'|exact HeT'|exact I'|exact HP|exact HT].
      intros ->. simpl in T. destruct (accT ++ ts) eqn:ET; [|discriminate]. split; [apply HeP'; apply NE; auto|auto].
Qed.

Lemma map_combine_tag : forall (ps : list parse) (qs : list Q), length qs = length ps ->
  map (fun p => p_tag p) (map (fun pq => with_score (fst pq) (snd pq)) (combine ps qs)) = map p_tag ps.
Proof.
  induction ps as [|p ps IH]; intros [|q qs] H; simpl in *; try discriminate; auto. f_equal; auto.
Qed.

Lemma apply_to_parses_GP : forall d lower ps r, apply_to_parses d lower ps = Ok r -> eqs (GP r) (GP ps).
Proof.
  intros d lower ps r H. unfold apply_to_parses in H. destruct ps as [|p0 ps0]; [inversion H; intro; tauto|].
  set (ps := p0 :: ps0) in *. destruct (Qeq_bool _ _).
  - destruct (Qeq_bool _ _); [discriminate|]. apply Ok_inj in H. subst r.
    rewrite GP_retag by auto. intro; tauto.
  - apply Ok_inj in H. subst r. intro g.
    set (qs := map (fun p => prob d lower (t_str (p_tag p))) ps).
    pose proof (map_combine_tag ps qs (map_length _ _)) as E.
    rewrite (GP_map ps), <- E. rewrite (GP_map (sort_desc _ _)). unfold G.
    split; intros Hx; apply in_map_iff in Hx as (t & <- & Hx); apply in_map_iff in Hx as (x & <- & Hx);
      apply in_map; apply in_map; [apply sort_desc_In in Hx|apply sort_desc_In]; auto.
Qed.
Lemma apply_to_tags_G : forall d lower ts, eqs (G (apply_to_tags d lower ts)) (G ts).
Proof.
  intros d lower ts g. unfold apply_to_tags, G. rewrite !in_map_iff.
  split; intros (x & <- & Hx); exists x; split; auto; [apply sort_desc_In in Hx|apply sort_desc_In]; auto.
Qed.

Lemma analyze_agree : forall fuel M word ps ts,
  pred_counts_pos (m_dict M) -> unkn_isolated true (m_units M) ->
  parse_f fuel M word = Ok ps -> tag_f fuel M word = Ok ts -> eqs (GP ps) (G ts).
Proof.
  intros fuel M word ps ts Hc Hu. revert word ps ts.
  induction fuel as [|f IH]; intros word ps ts HP HT; unfold parse_f, tag_f in *; simpl in HP, HT; [discriminate|].
  apply bind_ok in HP as (rP & EP & HP). apply bind_ok in HT as (rT & ET & HT).
  assert (A : eqs (GP rP) (G rT)).
  { eapply run_agree with (start := true); [|exact Hc|exact Hu| | | | |exact EP|exact ET]; auto.
    repeat split; auto; intros H; try contradiction; intros k H1 H2; contradiction. }
  destruct (m_prob M) as [d|].
  - apply apply_to_parses_GP in HP. apply Ok_inj in HT. subst ts. intro g.
    rewrite (HP g), (apply_to_tags_G d _ rT g). apply A.
  - inversion HP; inversion HT; subst; auto.
Qed.
