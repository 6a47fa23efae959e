(** * Lemmas for C72: floating point scores stay between 0 and 1 *)
From Coq Require Import String List NArith ZArith Bool QArith Qround Qabs Qpower Lia Lqa.
From Verif Require Import Py Uni Tagset Dawg Dict Utils Shapes Units Analyzer Rounding Spec Spec13 Spec22.
From Verif Require Import L_Base L_Made L_Score L_Rounding L_Rounding3 L_Rounding6.
Import ListNotations.
Local Open Scope nat_scope.
Local Open Scope list_scope.

Lemma round_float : forall m e, (2 ^ 52 <= m <= 2 ^ 53)%Z -> (round_pos (inject_Z m * pow2 e) == inject_Z m * pow2 e)%Q.
Proof.
  intros m e B. assert (P := pow2_pos e). set (a := (inject_Z m * pow2 e)%Q).
  assert (M0 : (inject_Z (2 ^ 52) <= inject_Z m)%Q) by (rewrite <- Zle_Qle; lia). change (inject_Z (2 ^ 52)) with (4503599627370496 # 1)%Q in M0.
  assert (A : (0 < a)%Q) by (unfold a; nra). destruct (exp_spec a A) as [E1 E2].
  assert (P52 : (pow2 (e + 52) == pow2 e * (4503599627370496 # 1))%Q) by (rewrite pow2_plus, (pow2_Z 52) by lia; reflexivity).
  assert (P53 : (pow2 (e + 53) == pow2 e * (9007199254740992 # 1))%Q) by (rewrite pow2_plus, (pow2_Z 53) by lia; reflexivity).
  assert (P54 : (pow2 (e + 54) == pow2 e * (18014398509481984 # 1))%Q) by (rewrite pow2_plus, (pow2_Z 54) by lia; reflexivity).
  destruct (Z.eq_dec m (2 ^ 53)) as [->|NE].
  - assert (AE : (a == pow2 (e + 53))%Q) by (unfold a; rewrite P53; change (inject_Z (2 ^ 53)) with (9007199254740992 # 1)%Q; ring).
    assert (X : binary_exp a = (e + 53)%Z). { apply (exp_unique a); try assumption; [lra|]. replace (e + 53 + 1)%Z with (e + 54)%Z by lia. lra. }
    unfold round_pos. rewrite X. replace (e + 53 - 52)%Z with (e + 1)%Z by lia. assert (P1 := pow2_pos (e + 1)).
    assert (P11 : (pow2 (e + 1) == pow2 e * (2 # 1))%Q) by (rewrite pow2_plus, (pow2_Z 1) by lia; reflexivity).
    assert (D : (a / pow2 (e + 1) == inject_Z (2 ^ 52))%Q) by (change (inject_Z (2 ^ 52)) with (4503599627370496 # 1)%Q; unfold a; change (inject_Z (2 ^ 53)) with (9007199254740992 # 1)%Q; rewrite P11; field; lra).
    rewrite (nearest_comp _ _ D), nearest_Z, AE, P53, P11. change (inject_Z (2 ^ 52)) with (4503599627370496 # 1)%Q. ring.
  - assert (M1 : (inject_Z m < inject_Z (2 ^ 53))%Q) by (rewrite <- Zlt_Qlt; lia). change (inject_Z (2 ^ 53)) with (9007199254740992 # 1)%Q in M1.
    assert (X : binary_exp a = (e + 52)%Z). { apply (exp_unique a); try assumption; [unfold a; nra|]. replace (e + 52 + 1)%Z with (e + 53)%Z by lia. unfold a. nra. }
    unfold round_pos. rewrite X. replace (e + 52 - 52)%Z with e by lia. assert (D : (a / pow2 e == inject_Z m)%Q) by (unfold a; field; lra). rewrite (nearest_comp _ _ D), nearest_Z. reflexivity.
Qed.
Lemma b64_idem : forall x, (0 <= x)%Q -> (b64 (b64 x) == b64 x)%Q.
Proof.
  intros x X. destruct (Qlt_le_dec 0 x) as [P|P].
  - assert (E : (b64 x == round_pos x)%Q) by (unfold b64; assert (E : (x ?= 0)%Q = Gt) by (apply Qgt_alt; exact P); rewrite E; reflexivity).
    assert (BP := fl_pos b64 b64_rounding x P). assert (E2 : (b64 (b64 x) == round_pos (b64 x))%Q) by (unfold b64 at 1; assert (E' : (b64 x ?= 0)%Q = Gt) by (apply Qgt_alt; exact BP); rewrite E'; reflexivity).
    rewrite E2. rewrite (round_pos_comp (b64 x) (round_pos x)) by (assumption || exact E). rewrite E. unfold round_pos at 2 3. apply round_float.
    destruct (exp_spec x P) as [E3 E4]. assert (P2 := pow2_pos (binary_exp x - 52)).
    assert (B1 : (pow2 (binary_exp x) == inject_Z (2 ^ 52) * pow2 (binary_exp x - 52))%Q) by (rewrite <- (pow2_Z 52) by lia; rewrite <- pow2_plus; replace (52 + (binary_exp x - 52))%Z with (binary_exp x) by lia; reflexivity).
    assert (B2 : (pow2 (binary_exp x + 1) == inject_Z (2 ^ 53) * pow2 (binary_exp x - 52))%Q) by (rewrite <- (pow2_Z 53) by lia; rewrite <- pow2_plus; replace (53 + (binary_exp x - 52))%Z with (binary_exp x + 1)%Z by lia; reflexivity).
    assert (L1 : (inject_Z (2 ^ 52) <= x / pow2 (binary_exp x - 52))%Q) by (apply Qle_shift_div_l; [exact P2|lra]).
    assert (L2 : (x / pow2 (binary_exp x - 52) <= inject_Z (2 ^ 53))%Q) by (apply Qle_shift_div_r; [exact P2|lra]).
    apply nearest_mono in L1. apply nearest_mono in L2. rewrite nearest_Z in L1, L2. lia.
  - assert (Z : (x == 0)%Q) by lra. assert (Z1 := fl_zero b64 b64_rounding x Z). rewrite (fl_zero b64 b64_rounding _ Z1). symmetry. exact Z1.
Qed.
Lemma b64_le1 : forall x, (0 <= x)%Q -> (x <= 1 + ulp)%Q -> (b64 x <= 1)%Q.
Proof. intros x X L. apply (Qle_trans _ (b64 (1 + ulp))); [apply b64_mono_pos; assumption|]. assert (E : Qle_bool (b64 (1 + ulp)) 1 = true) by (vm_compute; reflexivity). apply Qle_bool_iff in E. exact E. Qed.

Definition isf (x : Q) : Prop := (0 <= x)%Q /\ (x <= 1)%Q /\ (b64 x == x)%Q.
Definition isf0 (x : Q) : Prop := (0 <= x)%Q /\ (b64 x == x)%Q.
Definition good (p : parse) : Prop := isf (p_score p).
Lemma isf_fl : forall x, (0 <= x)%Q -> (x <= 1)%Q -> isf (b64 x).
Proof. intros x X L. split; [apply fl_nonneg; [exact b64_rounding|exact X]|]. split; [apply b64_le1; [exact X|unfold ulp; lra]|apply b64_idem; exact X]. Qed.
Lemma isf_times : forall x y, isf x -> isf y -> isf (b64 (x * y)%Q).
Proof. intros x y (X1 & X2 & _) (Y1 & Y2 & _). destruct (mult01 x y) as [A B]; [split; assumption|split; assumption|]. apply isf_fl; assumption. Qed.
Lemma isf_one : isf 1.
Proof. split; [discriminate|]. split; [discriminate|]. apply Qeq_bool_iff. vm_compute. reflexivity. Qed.
Definition allgood (r : res (list parse)) : Prop := forall ps p, r = Ok ps -> In p ps -> good p.

Section unit01.
Context (recP : str -> res (list parse)) (recT : str -> res (list tag)) (M : morph).
Context (HP : forall w, allgood (recP w)).
Definition outgood (r : res (list parse * list skey)) : Prop := forall ps s p, r = Ok (ps, s) -> In p ps -> good p.
Lemma adds_good : forall l st p, (forall q, In q l -> good q) -> (forall q, In q (fst st) -> good q) -> In p (fst (fold_left add_parse_if_not_seen l st)) -> good p.
Proof.
  induction l as [|x l IH]; intros [r s] p L S I; [apply S; exact I|]. cbn [fold_left] in I. apply (IH (add_parse_if_not_seen (r, s) x) p); [intros; apply L; right; assumption| |exact I].
  intros q Q. unfold add_parse_if_not_seen in Q. destruct (seen_mem _ s); [apply S; exact Q|]. cbn [fst] in Q. apply in_app_iff in Q as [Q|[<-|[]]]; [apply S; exact Q|apply L; left; reflexivity].
Qed.
Lemma prefix_step_good : forall self m prefix st ps p, (0 <= m <= 1)%Q -> (forall q, In q ps -> good q) -> (forall q, In q (fst st) -> good q) -> In p (fst (prefix_step_fl b64 self m prefix st ps)) -> good p.
Proof.
  intros self m prefix st ps p B G S I. apply (adds_good _ _ _) in I; [exact I| |exact S]. intros q Q. apply in_map_iff in Q as (x & <- & X). apply filter_In in X as [X _]. unfold good. cbn. apply isf_times; [apply G; exact X|apply isf_fl; apply B].
Qed.
Lemma foldM_good : forall {A} (f : list parse * list skey -> A -> res (list parse * list skey)) l st r, foldM f st l = Ok r -> (forall q, In q (fst st) -> good q) ->
  (forall st a r, In a l -> f st a = Ok r -> (forall q, In q (fst st) -> good q) -> forall q, In q (fst r) -> good q) -> forall q, In q (fst r) -> good q.
Proof.
  intros A f l. induction l as [|a l IH]; intros st r H S K; [cbn in H; apply Ok_inj in H; subst; exact S|]. cbn [foldM] in H. apply bind_ok in H as (st1 & H1 & H). apply (IH st1 r H); [apply (K st a st1 (or_introl eq_refl) H1 S)|]. intros; eapply K; eauto. right; assumption.
Qed.
Lemma ks_le : forall self sub pid dawg lower is s s', ks_lengths M self sub pid dawg lower s is = Ok s' -> (forall r, In r (ks_res s) -> k_cnt r <= ks_total s) -> 1 <= ks_total s -> (forall r, In r (ks_res s') -> k_cnt r <= ks_total s') /\ 1 <= ks_total s'.
Proof.
  assert (V : forall self sub pid fw fs vals s s', foldM (ks_step M self sub pid fw fs) s vals = Ok s' -> (forall r, In r (ks_res s) -> k_cnt r <= ks_total s) -> 1 <= ks_total s -> (forall r, In r (ks_res s') -> k_cnt r <= ks_total s') /\ 1 <= ks_total s').
  { intros self sub pid fw fs vals. induction vals as [|[[cnt para] idx] vals IH]; intros s s' H G T; [cbn in H; apply Ok_inj in H; subst; auto|]. cbn [foldM] in H. apply bind_ok in H as (s1 & H1 & H).
    assert (X : (forall r, In r (ks_res s1) -> k_cnt r <= ks_total s1) /\ 1 <= ks_total s1); [|destruct X; eapply IH; eauto].
    unfold ks_step in H1. apply bind_ok in H1 as (t & _ & H1). destruct (negb (is_productive t)); [apply Ok_inj in H1; subst; auto|].
    destruct (seen_mem _ _); [apply Ok_inj in H1; subst; cbn; split; [intros r I; specialize (G r I); lia|lia]|]. apply bind_ok in H1 as (nf & _ & H1). apply Ok_inj in H1. subst. cbn. split; [|lia]. intros r I. apply in_app_iff in I as [I|[<-|[]]]; [specialize (G r I); lia|cbn; lia]. }
  intros self sub pid dawg lower is. induction is as [|i is IH]; intros s s' H G T; [cbn in H; apply Ok_inj in H; subst; auto|]. cbn [ks_lengths] in H. apply bind_ok in H as (s1 & H1 & H).
  assert (X : (forall r, In r (ks_res s1) -> k_cnt r <= ks_total s1) /\ 1 <= ks_total s1).
  { unfold ks_at in H1. clear H IH. revert s H1 G T. generalize (similar_items dawg (m_subst M) (slice_from lower (- Z.of_nat i))). intros l. induction l as [|[fs vals] l IHl]; intros s H1 G T; [cbn in H1; apply Ok_inj in H1; subst; auto|].
    cbn [foldM] in H1. apply bind_ok in H1 as (s2 & H2 & H1). destruct (V _ _ _ _ _ _ _ _ H2 G T) as [Y1 Y2]. exact (IHl s2 H1 Y1 Y2). }
  destruct X as [X1 X2]. destruct (1 <? ks_total s1); [apply Ok_inj in H; subst; auto|]. eapply IH; eauto.
Qed.
Lemma dict_good : forall self w ps p, dict_parse M self w = Ok ps -> In p ps -> good p.
Proof. intros self w ps p H I. apply dict_parse_entry with (p := p) in H; [|exact I]. destruct H as (w' & vals & para & idx & nf & t & H1 & H2 & H3 & H4 & H5 & ->). exact isf_one. Qed.
Lemma unit_good : forall i b word lower seen, (0 < unit_score (b_cfg b) <= 1)%Q -> outgood (unit_parse_fl b64 recP recT M i b word lower seen).
Proof.
  intros i b word lower seen [P0 P1] ps s p H I. unfold unit_parse_fl in H.
  assert (LIT : forall q, (0 < q)%Q -> (q <= 1)%Q -> isf (b64 q)) by (intros q A B; apply isf_fl; lra).
  assert (SH : forall q, (0 < q)%Q -> (q <= 1)%Q -> (let* ps := shape_parse (m_uni M) (Root i) b (b64 q) word lower in Ok (ps, seen)) = Ok (ps, s) -> good p).
  { intros q A B E. apply bind_ok in E as (l & E1 & E). apply Ok_inj in E. injection E as <- _. unfold shape_parse in E1. apply bind_ok in E1 as (o & _ & E1). destruct o; apply Ok_inj in E1; subst l; [destruct I as [<-|[]]|destruct I]. unfold good. cbn. apply LIT; assumption. }
  destruct (b_cfg b) as [|tp letters k score|score|score|score|score|particles m|m|skip m|prs m minrem|m|m minlen|] eqn:C; cbn in P0, P1; try (eapply SH; eassumption).
  - apply bind_ok in H as (l & H1 & H). apply Ok_inj in H. injection H as <- _. exact (dict_good _ _ _ _ H1 I).
  - apply Ok_inj in H. injection H as <- _. destruct (smem word letters); [|destruct I]. apply in_map_iff in I as (t & <- & _). unfold good. cbn. apply LIT; assumption.
  - unfold particle_parse_fl in H. destruct (particle_splits particles lower) as [|[w particle] r]; [apply Ok_inj in H; injection H as <- _; destruct I|]. apply bind_ok in H as (l & H1 & H). apply Ok_inj in H. apply (f_equal fst) in H. cbn [fst] in H. rewrite <- H in I.
    apply adds_good in I; [exact I| |intros q []]. intros q Q. apply in_map_iff in Q as (x & <- & X). unfold good. cbn. apply isf_times; [exact (HP w l x H1 X)|apply LIT; assumption].
  - apply bind_ok in H as (ok & _ & H). destruct ok; [|apply Ok_inj in H; injection H as <- _; destruct I]. apply bind_ok in H as (t & _ & H). apply Ok_inj in H. injection H as <- _. destruct I as [<-|[]]. unfold good. cbn. apply LIT; assumption.
  - unfold hyph_parse_fl in H. destruct (negb _); [apply Ok_inj in H; injection H as <- _; destruct I|]. destruct (split_once HY lower) as [lw [rw|]]; [|discriminate H]. apply bind_ok in H as (ls & H1 & H). apply bind_ok in H as (rs & H2 & H). apply Ok_inj in H. injection H as <- _.
    apply in_app_iff in I as [I|I].
    + unfold variable_both_fl in I. apply in_flat_map in I as (l & L & I). destruct (tag_is_unknown (p_tag l)); [destruct I|]. apply in_map_iff in I as (r & <- & _). unfold good. cbn. apply isf_times; [exact (HP lw ls l H1 L)|apply LIT; assumption].
    + unfold fixed_left_fl in I. apply in_map_iff in I as (r & <- & I). apply filter_In in I as [I _]. unfold good. cbn. apply isf_times; [exact (HP rw rs r H2 I)|apply LIT; assumption].
  - unfold kp_parse_fl in H. apply (foldM_good _ _ _ _ H) with (q := p); [intros q []| |exact I]. intros st [prefix rest] r _ E G q Q. apply bind_ok in E as (l & E1 & E). apply Ok_inj in E. subst r. apply prefix_step_good in Q; [exact Q|split; lra| |exact G]. intros x X. exact (HP rest l x E1 X).
  - unfold up_parse_fl in H. apply (foldM_good _ _ _ _ H) with (q := p); [intros q []| |exact I]. intros st [prefix rest] r _ E G q Q. apply bind_ok in E as (l & E1 & E). apply Ok_inj in E. subst r. apply prefix_step_good in Q; [exact Q|split; lra| |exact G]. intros x X. exact (dict_good _ _ _ _ E1 X).
  - unfold ks_parse_fl in H. destruct (length word <? minlen); [apply Ok_inj in H; injection H as <- _; destruct I|]. apply bind_ok in H as (r & H1 & H). apply Ok_inj in H. injection H as <- _. apply sort_desc_In in I.
    apply (foldM_good _ _ _ _ H1) with (q := p); [intros q []| |exact I]. intros st [pid pre] r' _ E G q Q. unfold ks_prefix_fl in E. apply bind_ok in E as (dawg & _ & E). apply bind_ok in E as (st' & E1 & E). apply Ok_inj in E. subst r'. cbn [fst] in Q. apply in_app_iff in Q as [Q|Q]; [apply G; exact Q|].
    apply in_map_iff in Q as (x & <- & X). destruct (ks_le _ _ _ _ _ _ _ _ E1) as [K1 K2]; [intros y []|cbn; lia|]. specialize (K1 x X). unfold good. cbn. apply isf_times; [|apply LIT; assumption].
    assert (PP : Zpos (Pos.of_nat (ks_total st')) = Z.of_nat (ks_total st')) by (rewrite <- positive_nat_Z, Nat2Pos.id by lia; reflexivity). apply isf_fl; unfold Qle; cbn [Qnum Qden]; rewrite ?PP; lia.
  - destruct seen; [|apply Ok_inj in H; injection H as <- _; destruct I]. apply bind_ok in H as (t & _ & H). apply Ok_inj in H. injection H as <- _. destruct I as [<-|[]]. exact isf_one.
Qed.
Lemma run_good : forall word lower us i acc seen, Forall (fun bt => (0 < unit_score (b_cfg (fst bt)) <= 1)%Q) us -> (forall p, In p acc -> good p) -> allgood (run_parse_fl b64 recP recT M word lower i us acc seen).
Proof.
  intros word lower us. induction us as [|[b t] us IH]; intros i acc seen P A ps p H I; cbn [run_parse_fl] in H; [apply Ok_inj in H; subst; auto|]. inversion P as [|? ? P1 P2]; subst. apply bind_ok in H as ([l s] & H1 & H).
  assert (G : forall q, In q (acc ++ l) -> good q) by (intros q Q; apply in_app_iff in Q as [Q|Q]; [auto|]; exact (unit_good i b word lower seen P1 l s q H1 Q)).
  destruct (t && _)%bool; [apply Ok_inj in H; subst; auto|]. exact (IH _ _ _ P2 G ps p H I).
Qed.
End unit01.

Lemma sum_ge : forall l s, isf0 s -> (forall x, In x l -> isf0 x) -> let r := fold_left (fun s x => b64 (s + x)%Q) l s in isf0 r /\ (s <= r)%Q /\ forall x, In x l -> (x <= r)%Q.
Proof.
  induction l as [|x l IH]; intros s S G; [cbn; split; [exact S|split; [lra|intros y []]]|]. cbn [fold_left]. destruct S as [S1 S2]. destruct (G x (or_introl eq_refl)) as [X1 X2].
  assert (S' : isf0 (b64 (s + x)%Q)) by (split; [apply fl_nonneg; [exact b64_rounding|lra]|apply b64_idem; lra]). destruct (IH (b64 (s + x)%Q) S') as (A & B & C); [intros; apply G; right; assumption|].
  assert (M1 := b64_mono_pos s (s + x)%Q S1 ltac:(lra)). assert (M2 := b64_mono_pos x (s + x)%Q X1 ltac:(lra)). split; [exact A|]. split; [lra|]. intros y [<-|Y]; [lra|apply C; exact Y].
Qed.
Lemma est_good : forall M d lower ps r, m_prob M = Some d -> table_prob M -> (forall p, In p ps -> good p) -> apply_to_parses_fl b64 d lower ps = Ok r -> forall p, In p r -> good p.
Proof.
  intros M d lower ps r P T G H p I. unfold apply_to_parses_fl in H. destruct ps as [|p1 ps1]; [apply Ok_inj in H; subst; destruct I|]. set (ps := p1 :: ps1) in *. clearbody ps. destruct (Qeq_bool _ 0).
  - destruct (Qeq_bool (sum_fl b64 (map p_score ps)) 0) eqn:Z; [discriminate H|]. apply Ok_inj in H. subst r. apply in_map_iff in I as (x & <- & X). unfold good. cbn.
    destruct (sum_ge (map p_score ps) 0%Q) as (A & _ & B); [split; [lra|reflexivity]|intros y Y; apply in_map_iff in Y as (z & <- & Z1); destruct (G z Z1) as (Y1 & _ & Y2); split; assumption|]. fold (sum_fl b64 (map p_score ps)) in A, B. set (s := sum_fl b64 (map p_score ps)) in *. specialize (B _ (in_map p_score _ _ X)).
    destruct A as [A _]. assert (SP : (0 < s)%Q) by (apply Qle_lt_or_eq in A as [A|A]; [exact A|]; symmetry in A; apply Qeq_bool_iff in A; congruence).
    destruct (G x X) as (X1 & X2 & X3). assert (I1 : (0 < 1 / s)%Q) by (apply Qlt_shift_div_l; [exact SP|lra]). destruct (fl_near b64 b64_rounding (1 / s)%Q) as [_ F]; [lra|]. assert (F0 := fl_pos b64 b64_rounding _ I1).
    assert (Y0 : (0 <= p_score x * b64 (1 / s))%Q) by nra.
    assert (Y1 : (p_score x * b64 (1 / s) <= 1 + ulp)%Q).
    { apply (Qle_trans _ (p_score x * (1 / s * (1 + ulp)))); [rewrite (Qmult_comm (p_score x)), (Qmult_comm (p_score x) (1 / s * (1 + ulp))); apply Qmult_le_compat_r; assumption|]. assert (Q1 : (p_score x * (1 / s) <= 1)%Q) by (setoid_replace (p_score x * (1 / s))%Q with (p_score x / s)%Q by (field; lra); apply Qle_shift_div_r; [exact SP|lra]).
      setoid_replace (p_score x * (1 / s * (1 + ulp)))%Q with ((p_score x * (1 / s)) * (1 + ulp))%Q by ring. unfold ulp. lra. }
    split; [apply fl_nonneg; [exact b64_rounding|exact Y0]|]. split; [apply b64_le1; assumption|apply b64_idem; exact Y0].
  - apply Ok_inj in H. subst r. apply sort_desc_In in I. apply in_map_iff in I as ([x q] & <- & I). unfold good. cbn. apply in_combine_r in I. apply in_map_iff in I as (y & <- & _). unfold prob_fl. destruct (prob01 M d lower (t_str (p_tag y)) P T). apply isf_fl; assumption.
Qed.
Lemma analyze_good : forall M, scores_prob M -> table_prob M -> forall n w, allgood (fst (analyze_fl b64 n M) w).
Proof.
  intros M S T. induction n as [|n IH]; intros w ps p H I; [discriminate H|]. cbn [analyze_fl fst] in H. apply bind_ok in H as (r & H1 & H).
  assert (G : forall q, In q r -> good q). { intros q Q. refine (run_good (fst (analyze_fl b64 n M)) (snd (analyze_fl b64 n M)) M IH _ _ _ _ _ _ S _ r q H1 Q). intros x []. }
  destruct (m_prob M) as [d|] eqn:P; [eapply est_good; eauto|]. apply Ok_inj in H. subst. auto.
Qed.
Lemma parse_b64_range : forall M w ps p, scores_prob M -> table_prob M -> parse_b64 M w = Ok ps -> In p ps -> (0 <= p_score p <= 1)%Q /\ (b64 (p_score p) == p_score p)%Q.
Proof. intros M w ps p S T H I. destruct (analyze_good M S T _ _ ps p H I) as (A & B & C). auto. Qed.
