(** * Suffix prediction (C58) *)
From Coq Require Import String List NArith ZArith Bool QArith Lia Permutation Sorted Lqa.
From Verif Require Import Py Uni Tagset Dawg Utils Shapes Dict Units Analyzer Spec Spec2.
From Verif Require Import L_Base L_Run L_Made L_Words L_Prob.
Import ListNotations.
Local Open Scope nat_scope.
Local Open Scope list_scope.

Definition rec_step M self sub pid start (st : ksst) (r : str * (nat * nat * nat)) : res ksst :=
  ks_step M self sub pid (start ++ fst r) (fst r) st (snd r).
Lemma foldM_map : forall {A B S} (f : S -> B -> res S) (g : A -> B) l s, foldM f s (map g l) = foldM (fun s x => f s (g x)) s l.
Proof. induction l; intros s; simpl; auto. destruct (f s (g a)); simpl; auto. Qed.
Lemma ks_at_records : forall M self sub pid dawg lower st j,
  ks_at M self sub pid dawg lower st j =
  foldM (rec_step M self sub pid (slice_to lower (- Z.of_nat j))) st (pred_records M dawg (slice_from lower (- Z.of_nat j))).
Proof.
  intros M self sub pid dawg lower st j. unfold ks_at, pred_records.
  set (start := slice_to lower (- Z.of_nat j)). generalize (similar_items dawg (m_subst M) (slice_from lower (- Z.of_nat j))).
  intros l. revert st. induction l as [|[fs vals] l IH]; intros st; [reflexivity|]. cbn [foldM flat_map fst snd].
  rewrite foldM_app, foldM_map.
  change (foldM (fun s x => rec_step M self sub pid start s (fs, x)) st vals) with (foldM (ks_step M self sub pid (start ++ fs) fs) st vals).
  destruct (foldM (ks_step M self sub pid (start ++ fs) fs) st vals); cbn [bind]; auto.
Qed.
Lemma productiveb_is : forall D r t, build_tag_info D (snd (fst (snd r))) (snd (snd r)) = Ok t -> productiveb D r = is_productive t.
Proof.
  intros D r t E. unfold productiveb. rewrite E. destruct (is_productive t) eqn:P.
  - apply forallb_forall. intros g Hg. pose proof (proj1 (is_productive_spec t) P g Hg) as N. apply negb_true_iff.
    destruct (smem g NON_PRODUCTIVE) eqn:S; auto. apply (proj1 (smem_In _ _)) in S. tauto.
  - destruct (forallb _ (t_gr t)) eqn:F; auto. rewrite forallb_forall in F. rewrite <- P. symmetry. apply is_productive_spec.
    intros g Hg S. apply (proj2 (smem_In _ _)) in S. specialize (F g Hg). rewrite S in F. discriminate.
Qed.
(** one raw result per new record *)
Definition raw_of (M : morph) (self sub : uref) (pid : nat) (start : str) (rs : list (str * (nat * nat * nat))) (raw : ksraw) : Prop :=
  exists fs cnt para idx, In (fs, (cnt, para, idx)) rs /\ k_cnt raw = cnt /\ k_word raw = start ++ fs /\
    build_tag_info (m_dict M) para idx = Ok (k_tag raw) /\ build_normal_form (m_dict M) para idx (start ++ fs) = Ok (k_nf raw) /\
    k_stack raw = [MDict sub (start ++ fs) para idx; MStr self fs].
Lemma raw_of_mono : forall M self sub pid start rs rs' raw, incl rs rs' -> raw_of M self sub pid start rs raw -> raw_of M self sub pid start rs' raw.
Proof. intros M self sub pid start rs rs' raw H (fs & cnt & para & idx & I & R). exists fs, cnt, para, idx. split; auto. Qed.
Definition keyed (M : morph) (start : str) (seen : list skey) (r : str * (nat * nat * nat)) : Prop :=
  exists t, build_tag_info (m_dict M) (snd (fst (snd r))) (snd (snd r)) = Ok t /\
    seen_mem (SKey (start ++ fst r) t (PNum (snd (fst (snd r))))) seen = true.
Lemma seen_mem_app : forall k a b, seen_mem k b = true -> seen_mem k (a ++ b) = true.
Proof. intros. unfold seen_mem in *. rewrite existsb_app, H. apply orb_true_r. Qed.
Lemma key_refl : forall w t n, skey_eqb (SKey w t (PNum n)) (SKey w t (PNum n)) = true.
Proof. intros. simpl. rewrite (proj2 (str_eqb_eq w w) eq_refl), tag_eqb_refl, Nat.eqb_refl. auto. Qed.

Lemma records_fold : forall M self sub pid start rs st st',
  foldM (rec_step M self sub pid start) st rs = Ok st' ->
  let ok := filter (productiveb (m_dict M)) rs in
  ks_total st' = ks_total st + sum_counts ok /\
  (exists new, ks_res st' = ks_res st ++ new /\ ks_seen st' = rev (map raw_key new) ++ ks_seen st /\
     forall raw, In raw new -> raw_of M self sub pid start ok raw) /\
  (forall r, In r ok -> keyed M start (ks_seen st') r) /\
  (ok = [] -> st' = st).
Proof.
  intros M self sub pid start rs. induction rs as [|r rs IH]; intros st st' H; cbn [foldM filter] in *.
  - apply Ok_inj in H. subst. cbn [sum_counts]. split; [lia|]. split; [exists []; rewrite app_nil_r; split; auto; split; auto; intros ? []|]. split; [intros ? []|auto].
  - apply bind_ok in H as (s1 & E & H). destruct (IH _ _ H) as (T & (new & N1 & N2 & N3) & K & Z). clear IH.
    unfold rec_step, ks_step in E. destruct r as [fs [[cnt para] idx]]. cbn [fst snd] in E.
    apply bind_ok in E as (t & Et & E). assert (P : productiveb (m_dict M) (fs, (cnt, para, idx)) = is_productive t) by (apply productiveb_is; exact Et).
    rewrite P. destruct (is_productive t) eqn:Pr; cbn [negb] in E.
    + destruct (seen_mem _ _) eqn:S.
      * apply Ok_inj in E. subst s1. cbn [ks_total ks_res ks_seen] in *. cbn [sum_counts]. unfold record_count at 1. cbn [fst snd].
        split; [lia|]. split.
        -- exists new. split; auto. split; auto. intros raw Hr. eapply raw_of_mono; [|apply N3; auto]. intros x Hx; right; auto.
        -- split; [|discriminate]. intros r [<-|Hr]; auto. exists t. split; auto. cbn [fst snd]. rewrite N2. apply seen_mem_app. auto.
      * apply bind_ok in E as (nf & En & E). apply Ok_inj in E. subst s1. cbn [ks_total ks_res ks_seen] in *. cbn [sum_counts]. unfold record_count at 1. cbn [fst snd].
        split; [lia|]. set (raw := MkRaw _ _ _ _ _ _) in *.
        assert (RK : raw_key raw = SKey (start ++ fs) t (PNum para)) by reflexivity. split.
        -- exists (raw :: new). split; [rewrite N1, <- app_assoc; auto|]. split.
           ++ rewrite N2. cbn [map rev]. rewrite <- app_assoc. cbn [app]. rewrite RK. auto.
           ++ intros x [<-|Hx].
              ** exists fs, cnt, para, idx. split; [left; auto|]. repeat (split; [reflexivity|]). split; [exact Et|]. split; [exact En|reflexivity].
              ** eapply raw_of_mono; [|apply N3; auto]. intros y Hy; right; auto.
        -- split; [|discriminate]. intros r [<-|Hr]; auto. exists t. split; auto. cbn [fst snd]. rewrite N2. apply seen_mem_app.
           unfold seen_mem. cbn [existsb]. rewrite key_refl. auto.
    + apply Ok_inj in E. subst s1. split; [auto|]. split; [exists new; auto|]. auto.
Qed.
Lemma counts_pos : forall M dawg e, pred_counts_pos (m_dict M) -> In dawg (d_pred (m_dict M)) ->
  productive_records M dawg e <> [] -> 1 <= sum_counts (productive_records M dawg e).
Proof.
  intros M dawg e P Hd H. unfold productive_records in *.
  destruct (filter _ _) as [|[fs [[cnt para] idx]] l] eqn:E; [congruence|]. cbn [sum_counts]. unfold record_count at 1. cbn [fst snd].
  assert (I : In (fs, (cnt, para, idx)) (filter (productiveb (m_dict M)) (pred_records M dawg e))) by (rewrite E; left; auto).
  apply filter_In in I as [I _]. unfold pred_records in I. apply in_flat_map in I as ([fs' vals] & I1 & I2).
  apply in_map_iff in I2 as (v & Ev & Hv). cbn [fst snd] in *. inversion Ev; subst. apply similar_items_In in I1 as [_ I1].
  apply sget_In in I1. specialize (P _ _ _ _ _ _ Hd I1 Hv). lia.
Qed.

Definition end_of (lower : str) (j : nat) : str := slice_from lower (- Z.of_nat j).
Definition start_of (lower : str) (j : nat) : str := slice_to lower (- Z.of_nat j).
(** the loop over ending lengths stops at the first informative one *)
Lemma lengths_fold : forall M self sub pid dawg lower js st st', pred_counts_pos (m_dict M) -> In dawg (d_pred (m_dict M)) ->
  ks_lengths M self sub pid dawg lower st js = Ok st' -> ks_total st = 1 ->
  (st' = st /\ forall j, In j js -> productive_records M dawg (end_of lower j) = []) \/
  (exists a j b, js = a ++ j :: b /\ (forall j', In j' a -> productive_records M dawg (end_of lower j') = []) /\
     productive_records M dawg (end_of lower j) <> [] /\
     foldM (rec_step M self sub pid (start_of lower j)) st (pred_records M dawg (end_of lower j)) = Ok st').
Proof.
  intros M self sub pid dawg lower js st st' P Hd. revert st. induction js as [|j js IH]; intros st H T; cbn [ks_lengths] in H.
  - apply Ok_inj in H. left. split; auto. intros ? [].
  - apply bind_ok in H as (s1 & E & H). rewrite ks_at_records in E. fold (start_of lower j) (end_of lower j) in E.
    destruct (records_fold _ _ _ _ _ _ _ _ E) as (Tt & _ & _ & Z). fold (productive_records M dawg (end_of lower j)) in Tt, Z.
    destruct (list_eq_dec (A:=str * (nat * nat * nat))
       (fun a b : str * (nat * nat * nat) => ltac:(decide equality; [decide equality; [apply Nat.eq_dec|decide equality; apply Nat.eq_dec]|apply (list_eq_dec N.eq_dec)]))
       (productive_records M dawg (end_of lower j)) []) as [N|N].
    + specialize (Z N). subst s1. rewrite T in H. cbn in H. destruct (IH st H T) as [[-> A]|(a & j' & b & -> & A & B & C)].
      * left. split; auto. intros k [<-|Hk]; auto.
      * right. exists (j :: a), j', b. split; auto. split; auto. intros k [<-|Hk]; auto.
    + pose proof (counts_pos M dawg _ P Hd N) as C. rewrite T in Tt.
      assert (L : 1 <? ks_total s1 = true) by (apply Nat.ltb_lt; lia). rewrite L in H. apply Ok_inj in H. subst s1.
      right. exists [], j, js. split; auto. split; [intros ? []|auto].
Qed.
Lemma end_of_eq : forall lower j, 1 <= j -> end_of lower j = skipn (length lower - j) lower /\ start_of lower j = firstn (length lower - j) lower.
Proof. intros. unfold end_of, start_of. rewrite slice_from_neg, slice_to_neg by lia. auto. Qed.
Lemma ks_longest : forall M dawg lower a j b, lower <> [] -> ks_splits (m_dict M) = a ++ j :: b ->
  (forall j', In j' a -> productive_records M dawg (end_of lower j') = []) -> productive_records M dawg (end_of lower j) <> [] ->
  longest_informative M dawg lower (start_of lower j) (end_of lower j).
Proof.
  intros M dawg lower a j b L E A B. assert (Hj : 1 <= j <= d_maxsuf (m_dict M)) by (apply ks_splits_range; rewrite E; apply in_app_iff; right; left; auto).
  destruct (end_of_eq lower j) as [Ee Es]; [lia|]. assert (Len : length lower <> 0) by (destruct lower; [congruence|discriminate]).
  split; [rewrite Ee, Es, firstn_skipn; auto|]. split; [intros Z; apply (f_equal (@length _)) in Z; rewrite Ee, skipn_length in Z; cbn [length] in Z; lia|].
  split; [rewrite Ee, skipn_length; lia|]. split; auto. intros s' e' El [Lt Le].
  rewrite Ee, skipn_length in Lt. assert (Le' : length e' <= length lower) by (rewrite El, app_length; lia).
  assert (In' : In (length e') a).
  { assert (In (length e') (ks_splits (m_dict M))) by (apply ks_splits_range; lia). rewrite E in H. apply in_app_iff in H as [H|[H|H]]; auto; [lia|].
    exfalso. unfold ks_splits in E. clear - H E Lt Le'.
    assert (S : StronglySorted gt (rev (seq 1 (d_maxsuf (m_dict M))))).
    { clear. generalize 1. induction (d_maxsuf (m_dict M)) as [|n IH]; intros s; [constructor|]. cbn [seq rev].
      assert (X : forall l x, StronglySorted gt l -> (forall y, In y l -> y > x) -> StronglySorted gt (l ++ [x])).
      { induction l as [|y l IHl]; intros x Sl Hl; cbn [app]; [repeat constructor|]. inversion Sl; subst. constructor; [apply IHl; auto; intros; apply Hl; right; auto|].
        apply Forall_app. split; auto. constructor; auto. apply Hl. left; auto. }
      refine (X _ _ (IH (S s)) _). intros y Hy. apply in_rev in Hy. apply in_seq in Hy. lia. }
    rewrite E in S. clear E. induction a as [|x a IHa]; cbn [app] in S; inversion S; subst; [|auto].
    rewrite Forall_forall in H3. specialize (H3 _ H). lia. }
  specialize (A _ In'). replace (end_of lower (length e')) with e' in A; auto.
  destruct (end_of_eq lower (length e')) as [-> _]; [lia|]. rewrite El, app_length. replace (length s' + length e' - length e') with (length s') by lia.
  rewrite skipn_app_exact. auto.
Qed.
Lemma longest_unique : forall M dawg lower s e s' e', longest_informative M dawg lower s e -> longest_informative M dawg lower s' e' -> s = s' /\ e = e'.
Proof.
  intros M dawg lower s e s' e' (A1 & A2 & A3 & A4 & A5) (B1 & B2 & B3 & B4 & B5).
  assert (length e = length e').
  { destruct (lt_eq_lt_dec (length e) (length e')) as [[H|H]|H]; auto; exfalso.
    - apply B4. apply (A5 s'); auto. - apply A4. apply (B5 s); auto. }
  rewrite A1 in B1. assert (length s = length s') by (apply (f_equal (@length _)) in B1; rewrite !app_length in B1; lia).
  pose proof B1 as B1'. apply (f_equal (firstn (length s))) in B1. rewrite firstn_app_exact, H0, firstn_app_exact in B1. subst s'.
  apply app_inv_head in B1'. auto.
Qed.
Lemma score_eq : forall cnt total mult, 1 <= total -> ((Z.of_nat cnt # Pos.of_nat total) * mult == inject_Z (Z.of_nat cnt) / inject_Z (Z.of_nat total) * mult)%Q.
Proof.
  intros cnt total mult H. apply Qmult_comp; [|reflexivity]. unfold Qdiv, Qeq, Qmult, Qinv, inject_Z. simpl.
  destruct total; [lia|]. rewrite <- Pos.of_nat_succ. simpl. rewrite Z.mul_1_r. lia.
Qed.

Lemma prefix_fold : forall M self sub mult lower acc pid pre acc', pred_counts_pos (m_dict M) -> lower <> [] ->
  nth_error (d_prefixes (m_dict M)) pid = Some pre -> prefixb pre lower = true ->
  ks_prefix M self sub mult lower acc (pid, pre) = Ok acc' ->
  (exists new k, fst acc' = fst acc ++ new /\ snd acc' = k ++ snd acc /\
     (forall x, In x k -> exists p, In p new /\ key_of p = x) /\
     forall p, In p new -> predicted M self sub mult lower p) /\
  (forall dawg start e r, nth_error (d_pred (m_dict M)) pid = Some dawg -> longest_informative M dawg lower start e ->
     In r (productive_records M dawg e) -> keyed M start (snd acc') r).
Proof.
  intros M self sub mult lower acc pid pre acc' P L Hp Hb H. unfold ks_prefix in H.
  apply bind_ok in H as (dawg & Hd & H). apply bind_ok in H as (st & E & H). apply Ok_inj in H. subst acc'. apply nth_res_ok in Hd. cbn [fst snd].
  pose proof (ks_lengths_ok _ _ _ _ _ _ _ _ _ E (Forall_nil _)) as RO. rewrite Forall_forall in RO.
  pose proof (nth_error_In _ _ Hd) as HdI.
  destruct (lengths_fold _ _ _ _ _ _ _ _ _ P HdI E eq_refl) as [[-> A]|(a & j & b & Ej & A & B & F)].
  - cbn [ks_res ks_seen map]. split; [exists [], []; rewrite app_nil_r; split; auto; split; auto; split; intros ? []|].
    intros dawg' start e r Hd' (B1 & B2 & B3 & B4 & _) Hr. rewrite Hd in Hd'. inversion Hd'; subst dawg'. exfalso. apply B4.
    specialize (A (length e)). destruct e as [|c e]; [congruence|]. rewrite <- (A (proj2 (ks_splits_range _ _) (conj (le_n_S _ _ (Nat.le_0_l _)) B3))).
    f_equal. destruct (end_of_eq lower (length (c :: e))) as [-> _]; [simpl; lia|]. rewrite B1, app_length.
    replace (length start + length (c :: e) - length (c :: e)) with (length start) by lia. rewrite skipn_app_exact. auto.
  - pose proof (ks_longest _ _ _ _ _ _ L Ej A B) as Lg.
    destruct (records_fold _ _ _ _ _ _ _ _ F) as (Tt & (new & N1 & N2 & N3) & K & _). cbn [ks_res ks_seen ks_total app] in *.
    fold (productive_records M dawg (end_of lower j)) in Tt, N3, K. split.
    + exists (map (ks_score mult (ks_total st)) new), (rev (map raw_key new)). rewrite N1. split; auto. split; auto. split.
      * intros x Hx. apply in_rev in Hx. apply in_map_iff in Hx as (raw & <- & Hr). exists (ks_score mult (ks_total st) raw).
        split; [apply in_map; auto|]. apply ks_score_key. apply RO. rewrite N1. auto.
      * intros p Hin. apply in_map_iff in Hin as (raw & <- & Hr). destruct (N3 raw Hr) as (fs & cnt & para & idx & I & C & W & Tg & Nf & Sk).
        apply prefixb_spec in Hb as (rest & Er).
        exists pid, pre, rest, dawg, (start_of lower j), (end_of lower j), fs, cnt, para, idx.
        cbn [ks_score p_word p_tag p_nf p_stack p_score]. repeat (split; [assumption|]).
        rewrite Tt, C. apply score_eq. lia.
    + intros dawg' start e r Hd' Lg' Hr. rewrite Hd in Hd'. inversion Hd'; subst dawg'.
      destruct (longest_unique _ _ _ _ _ _ _ Lg Lg') as [<- <-]. apply K. auto.
Qed.
Lemma keyed_mono : forall M start seen k r, keyed M start seen r -> keyed M start (k ++ seen) r.
Proof. intros M start seen k r (t & A & B). exists t. split; auto. apply seen_mem_app. auto. Qed.

Lemma score_sorted : forall l, StronglySorted (fun a b => (p_score b <= p_score a)%Q) (sort_desc score_geb l).
Proof. intros l. exact (proj1 (proj2 (key_stable p_score l))). Qed.
(** KnownSuffixAnalyzer.parse *)
Lemma ks_unit : forall M self sub mult minlen word lower seen ps seen', pred_counts_pos (m_dict M) -> lower <> [] ->
  ks_parse M self sub mult minlen word lower seen = Ok (ps, seen') ->
  (length word < minlen -> ps = []) /\
  StronglySorted (fun a b => (p_score b <= p_score a)%Q) ps /\
  (forall p, In p ps -> predicted M self sub mult lower p) /\
  (minlen <= length word -> forall pid pre rest dawg start e fs cnt para idx t,
     nth_error (d_prefixes (m_dict M)) pid = Some pre -> lower = pre ++ rest ->
     nth_error (d_pred (m_dict M)) pid = Some dawg -> longest_informative M dawg lower start e ->
     In (fs, (cnt, para, idx)) (productive_records M dawg e) -> build_tag_info (m_dict M) para idx = Ok t ->
     seen_mem (SKey (start ++ fs) t (PNum para)) seen = true \/
     exists p idx' m, In p ps /\ p_word p = start ++ fs /\ t_gr (p_tag p) = t_gr t /\ p_stack p = [MDict sub (start ++ fs) para idx'; m]).
Proof.
  intros M self sub mult minlen word lower seen ps seen' P L H. unfold ks_parse in H. destruct (Nat.ltb_spec (length word) minlen) as [Lt|Ge].
  - apply Ok_inj in H. inversion H; subst. split; auto. split; [constructor|]. split; [intros ? []|]. lia.
  - apply bind_ok in H as (r & E & H). apply Ok_inj in H. inversion H; subst. clear H. split; [lia|].
    assert (X : forall l acc acc', foldM (ks_prefix M self sub mult lower) acc l = Ok acc' ->
      (forall pid pre, In (pid, pre) l -> nth_error (d_prefixes (m_dict M)) pid = Some pre /\ prefixb pre lower = true) ->
      (exists new k, fst acc' = fst acc ++ new /\ snd acc' = k ++ snd acc /\
         (forall x, In x k -> exists p, In p new /\ key_of p = x) /\
         forall p, In p new -> predicted M self sub mult lower p) /\
      (forall pid pre dawg start e r, In (pid, pre) l -> nth_error (d_pred (m_dict M)) pid = Some dawg -> longest_informative M dawg lower start e ->
         In r (productive_records M dawg e) -> keyed M start (snd acc') r)).
    { induction l as [|[pid pre] l IH]; intros acc acc' Hf Hl; cbn [foldM] in Hf.
      - apply Ok_inj in Hf. subst. split; [exists [], []; rewrite app_nil_r; split; auto; split; auto; split; intros ? []|intros ? ? ? ? ? ? []].
      - apply bind_ok in Hf as (a1 & E1 & Hf). destruct (Hl pid pre (or_introl eq_refl)) as [H1 H2].
        destruct (prefix_fold _ _ _ _ _ _ _ _ _ P L H1 H2 E1) as ((n1 & k1 & A1 & A2 & A3 & A4) & A5).
        destruct (IH _ _ Hf (fun p q Hpq => Hl p q (or_intror Hpq))) as ((n2 & k2 & B1 & B2 & B3 & B4) & B5). split.
        + exists (n1 ++ n2), (k2 ++ k1). rewrite B1, A1, B2, A2, !app_assoc. split; auto. split; auto. split.
          * intros x Hx. apply in_app_iff in Hx as [Hx|Hx]; [destruct (B3 x Hx) as (p & Hp & Ep)|destruct (A3 x Hx) as (p & Hp & Ep)]; exists p; split; auto; apply in_app_iff; auto.
          * intros p Hp. apply in_app_iff in Hp as [Hp|Hp]; auto.
        + intros pid' pre' dawg start e rr [Hi|Hi] Hd Lg Hr; [inversion Hi; subst pid' pre'; rewrite B2; apply keyed_mono; eapply A5; eauto|eapply B5; eauto]. }
    destruct (X _ _ _ E) as ((new & k & N1 & N2 & N3 & N4) & K). { intros pid pre Hi. apply ks_prefixes_In in Hi. auto. }
    cbn [fst snd app] in *. split; [|split].
    + rewrite N1. apply score_sorted.
    + intros p Hp. apply sort_desc_In in Hp. apply N4. rewrite <- N1. auto.
    + intros _ pid pre rest dawg start e fs cnt para idx t Hpid Er Hd Lg Hr Et.
      destruct (K pid pre dawg start e (fs, (cnt, para, idx))) as (t' & Et' & S); auto.
      { apply ks_prefixes_In. split; auto. rewrite Er. apply prefixb_app. }
      cbn [fst snd] in *. rewrite Et in Et'. inversion Et'; subst t'. rewrite N2 in S. unfold seen_mem in S. rewrite existsb_app in S.
      apply orb_true_iff in S as [S|S]; [right|left; exact S]. apply existsb_exists in S as (x & Hx & Ex).
      destruct (N3 x Hx) as (p & Hp & <-). destruct (N4 p Hp) as (pid' & pre' & rest' & dawg' & s' & e' & fs' & c' & para' & idx' & Q1 & Q2 & Q3 & Q4 & Q5 & Q6 & Q7 & Q8 & Q9 & Q10).
      unfold key_of in Ex. cbn [skey_eqb] in Ex. apply andb_true_iff in Ex as [Ex Ek]. apply andb_true_iff in Ex as [Ew Eg].
      apply str_eqb_eq in Ew. apply tag_eqb_iff in Eg. unfold para_key_of in Ek. rewrite Q9 in Ek. simpl in Ek. apply Nat.eqb_eq in Ek. subst para'.
      exists p, idx', (MStr self fs'). split; [apply sort_desc_In; rewrite N1; auto|]. split; [auto|]. split; [auto|].
      rewrite Q9. rewrite Q6 in Ew. rewrite <- Ew. auto.
Qed.

Lemma sum_ge : forall l r, In r l -> record_count r <= sum_counts l.
Proof. induction l as [|x l IH]; intros r H; [destruct H|destruct H as [<-|H]]; cbn [sum_counts]; [lia|]. specialize (IH r H). lia. Qed.
Lemma predicted_bounds : forall M self sub mult lower p, pred_counts_pos (m_dict M) -> (0 < mult)%Q ->
  predicted M self sub mult lower p -> (0 < p_score p < mult)%Q.
Proof.
  intros M self sub mult lower p P Hm (pid & pre & rest & dawg & s & e & fs & c & para & idx & Q1 & Q2 & Q3 & Q4 & Q5 & Q6 & Q7 & Q8 & Q9 & Q10).
  rewrite Q10. pose proof (sum_ge _ _ Q5) as L. unfold record_count in L. cbn [fst snd] in L.
  assert (C : 1 <= c).
  { apply filter_In in Q5 as [I _]. unfold pred_records in I. apply in_flat_map in I as ([fs' vals] & I1 & I2).
    apply in_map_iff in I2 as (v & Ev & Hv). cbn [fst snd] in *. inversion Ev; subst. apply similar_items_In in I1 as [_ I1].
    apply sget_In in I1. apply (P _ _ _ _ _ _ (nth_error_In _ _ Q3) I1 Hv). }
  set (T := 1 + sum_counts (productive_records M dawg e)) in *.
  assert (F1 : (0 < inject_Z (Z.of_nat c) / inject_Z (Z.of_nat T))%Q).
  { apply Qlt_shift_div_l; [unfold Qlt; simpl; lia|]. unfold Qlt; simpl. lia. }
  assert (F2 : (inject_Z (Z.of_nat c) / inject_Z (Z.of_nat T) < 1)%Q).
  { apply Qlt_shift_div_r; [unfold Qlt; simpl; lia|]. unfold Qlt; simpl. lia. }
  split.
  - setoid_replace 0%Q with (0 * mult)%Q by ring. apply Qmult_lt_compat_r; auto.
  - setoid_replace mult with (1 * mult)%Q at 2 by ring. apply Qmult_lt_compat_r; auto.
Qed.
Lemma run_parse_from : forall recP recT M word lower us i acc seen r p,
  run_parse recP recT M word lower i us acc seen = Ok r -> In p r ->
  In p acc \/ exists j b tm s ps s', nth_error us j = Some (b, tm) /\ unit_parse recP recT M (i + j) b word lower s = Ok (ps, s') /\ In p ps.
Proof.
  intros recP recT M word lower; induction us as [|[b tm] us IH]; intros i acc seen r p H Hp; cbn [run_parse] in H.
  - apply Ok_inj in H. subst; auto.
  - apply bind_ok in H as ([ps s] & E & H).
    assert (St : In p (acc ++ ps) -> In p acc \/ exists j b0 tm0 s0 ps0 s', nth_error ((b, tm) :: us) j = Some (b0, tm0) /\
              unit_parse recP recT M (i + j) b0 word lower s0 = Ok (ps0, s') /\ In p ps0).
    { intros I. apply in_app_iff in I as [I|I]; auto. right. exists 0, b, tm, seen, ps, s. rewrite Nat.add_0_r. split; auto. }
    destruct (tm && _).
    + apply Ok_inj in H. subst r. auto.
    + destruct (IH _ _ _ _ _ H Hp) as [I|(j & b' & tm' & s0 & ps0 & s' & N & U & I)]; auto.
      right. exists (S j), b', tm', s0, ps0, s'. rewrite Nat.add_succ_r. split; auto.
Qed.
Lemma ks_sound : forall M word ps p i b tm mult minlen, pred_counts_pos (m_dict M) -> u_lower (m_uni M) word <> [] ->
  morph_parse M word = Ok ps -> In p ps -> made_by p = Some (Root i) -> nth_error (m_units M) i = Some (b, tm) ->
  b_cfg b = UKnownSuffix mult minlen ->
  minlen <= length word /\ exists p0, predicted M (Root i) (Sub i) mult (u_lower (m_uni M) word) p0 /\
    content p = content p0 /\ (m_prob M = None -> p = p0).
Proof.
  intros M word ps p i b tm mult minlen P L H Hp Mb Hi C. unfold morph_parse, fuel_for, parse_f in H. cbn [analyze fst snd] in H.
  apply bind_ok in H as (r & E & H).
  assert (X : exists p0, In p0 r /\ content p = content p0 /\ (m_prob M = None -> p = p0)).
  { destruct (m_prob M) as [d|].
    - destruct (apply_to_parses_In _ _ _ _ _ H Hp) as (p0 & q & H0 & ->). exists p0. split; auto. split; auto. discriminate.
    - apply Ok_inj in H. subst. exists p. auto. }
  destruct X as (p0 & H0 & Ec & En).
  eapply run_parse_from in E as [[]|(j & b' & tm' & s & qs & s' & N & U & I)]; eauto.
  assert (J : Some (Root (0 + j)) = Some (Root i)).
  { rewrite <- (made_by_unit _ _ _ _ _ _ _ _ (unit_parse_made _ _ _ _ _ _ _ _ _ _ _ U I)). rewrite <- Mb. unfold made_by. injection Ec as _ _ _ ->. auto. }
  injection J as ->. rewrite N in Hi. injection Hi as -> ->. unfold unit_parse in U. rewrite C in U.
  destruct (ks_unit _ _ _ _ _ _ _ _ _ _ P L U) as (A & _ & B & _). split.
  - destruct (Nat.lt_ge_cases (length word) minlen); auto. rewrite (A H1) in I. destruct I.
  - exists p0. auto.
Qed.
