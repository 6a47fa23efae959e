(** * Lemmas for C72: parse and tag with doubles *)
From Coq Require Import String List NArith ZArith Bool QArith Qround Qabs Qpower Lia Lqa.
From Verif Require Import Py Uni Tagset Dawg Dict Utils Shapes Units Analyzer Rounding Doubles Spec Spec13 Spec21 Spec22 Spec31.
From Verif Require Import L_Base L_Made L_Run L_Words L_Score L_Rounding L_Rounding3 L_Rounding4 L_Rounding6 L_Rounding7 L_Dbl L_Dbl2.
Import ListNotations.
Local Open Scope nat_scope.
Local Open Scope list_scope.

Lemma F2_len : forall {A B} (P : A -> B -> Prop) l r, Forall2 P l r -> length l = length r.
Proof. intros A B P l r H. induction H; cbn; [reflexivity|]. f_equal. assumption. Qed.
(** ** sums *)
Lemma zero_sum : forall (fl : Q -> Q) l s, (forall x, (x == 0)%Q -> (fl x == 0)%Q) -> (s == 0)%Q -> (forall x, In x l -> (x == 0)%Q) -> (fold_left (fun s x => fl (s + x)%Q) l s == 0)%Q.
Proof. intros fl l. induction l as [|x l IH]; intros s Z S H; [exact S|]. cbn [fold_left]. apply IH; [exact Z| |intros; apply H; right; assumption]. apply Z. rewrite S, (H x (or_introl eq_refl)). reflexivity. Qed.
Lemma dbl_zero : forall x, (x == 0)%Q -> (dbl x == 0)%Q.
Proof. intros x E. unfold dbl. apply Qeq_alt in E. rewrite E. reflexivity. Qed.
Lemma b64_zero : forall x, (x == 0)%Q -> (b64 x == 0)%Q.
Proof. intros x E. apply (fl_zero b64 b64_rounding). exact E. Qed.
Lemma all_zero_or : forall l, (forall x, In x l -> (x == 0)%Q) \/ exists x, In x l /\ ~ (x == 0)%Q.
Proof.
  induction l as [|x l IH]; [left; intros x []|]. destruct (Qeq_dec x 0) as [E|N]; [|right; exists x; split; [left; reflexivity|exact N]]. destruct IH as [H|(y & I & N)]; [left; intros y [<-|I]; auto|right; exists y; split; [right; exact I|exact N]].
Qed.
Lemma sum_dbl : forall c l s j, c <= 1022 -> (forall x, In x l -> lo c x /\ (x <= 1)%Q) -> lo c s -> (s <= inject_Z (Z.of_nat j))%Q -> (Z.of_nat (j + length l) <= 2 ^ 53)%Z ->
  fold_left (fun s x => dbl (s + x)%Q) l s = fold_left (fun s x => b64 (s + x)%Q) l s /\ lo c (fold_left (fun s x => b64 (s + x)%Q) l s) /\
  (fold_left (fun s x => b64 (s + x)%Q) l s <= inject_Z (Z.of_nat (j + length l)))%Q.
Proof.
  intros c l. induction l as [|x l IH]; intros s j C G LS0 J B; [cbn; rewrite Nat.add_0_r; auto|]. cbn [fold_left length] in *. destruct (G x (or_introl eq_refl)) as [L U]. assert (LS := lo_plus c s x LS0 L). assert (N := lo_nonneg _ _ LS).
  assert (J1 : (inject_Z (Z.of_nat (S j)) == inject_Z (Z.of_nat j) + 1)%Q) by (rewrite Nat2Z.inj_succ, <- Z.add_1_r, inject_Z_plus; reflexivity).
  assert (U1 : (s + x <= inject_Z (Z.of_nat (S j)))%Q) by (rewrite J1; lra).
  assert (P53 : (inject_Z (Z.of_nat (S j)) <= pow2 1023)%Q). { apply (Qle_trans _ (pow2 53)); [|apply pow2_mono; lia]. rewrite (pow2_Z 53) by lia. rewrite <- Zle_Qle. lia. }
  rewrite (dbl_lo c (s + x)) by (assumption || lra).
  assert (M := b64_mono_pos (s + x) (inject_Z (Z.of_nat (S j))) N U1). rewrite (b64_int (Z.of_nat (S j))) in M by lia.
  destruct (IH (b64 (s + x)%Q) (S j)) as (X & Y & Z); [exact C|intros; apply G; right; assumption|apply lo_b64; exact LS|exact M|lia|]. replace (j + S (length l)) with (S j + length l) by lia. auto.
Qed.

Section est.
Context (M : morph) (d : cpd) (PD : m_prob M = Some d) (TP : table_prob M).
Lemma prob_lo : forall lower t, lo 20 (prob d lower t) /\ (0 <= prob d lower t <= 1)%Q.
Proof.
  intros lower t. split; [|exact (prob01 M d lower t PD TP)]. unfold prob. destruct (sget (prob_key lower t) d) as [n|]; [|left; reflexivity]. destruct (N.eq_dec n 0) as [->|NZ]; [left; reflexivity|right].
  change (tiny 20) with (1 # 1048576)%Q. unfold Qle. cbn [Qnum Qden]. change (Zpos MULTIPLIER) with 1000000%Z. lia.
Qed.
Lemma prob_dbl : forall lower t, prob_fl dbl d lower t = prob_fl b64 d lower t.
Proof. intros lower t. destruct (prob_lo lower t) as [L U]. unfold prob_fl. apply (dbl_lo2 20); [lia|exact L|lra]. Qed.
Lemma est_tags_dbl : forall lower ts, apply_to_tags_fl dbl d lower ts = apply_to_tags_fl b64 d lower ts.
Proof.
  intros lower ts. unfold apply_to_tags_fl. induction ts as [|t ts IH]; [reflexivity|]. cbn [sort_desc]. rewrite IH. generalize (sort_desc (fun a b => Qgeb (prob_fl b64 d lower (t_str a)) (prob_fl b64 d lower (t_str b))) ts). intros l. induction l as [|y l IH2]; [reflexivity|]. cbn [insert_desc]. rewrite !prob_dbl, IH2. reflexivity.
Qed.
Lemma probs_dbl : forall lower ps, map (fun p => prob_fl dbl d lower (t_str (p_tag p))) ps = map (fun p => prob_fl b64 d lower (t_str (p_tag p))) ps.
Proof. intros lower ps. apply map_eq_in. intros p _. apply prob_dbl. Qed.
(** [r]: the result of rounding without bounds; the number of readings matters only if there is one *)
Lemma est_dbl : forall c k lower ps, (forall p, In p ps -> plo c p /\ good p) -> 43 <= c -> c + k <= 1022 -> k <= 52 ->
  (forall r, apply_to_parses_fl b64 d lower ps = Ok r -> length r <= 2 ^ k) ->
  apply_to_parses_fl dbl d lower ps = apply_to_parses_fl b64 d lower ps /\ forall r p, apply_to_parses_fl b64 d lower ps = Ok r -> In p r -> plo (c + k) p.
Proof.
  intros c k lower ps G C0 CK K LEN. destruct ps as [|p1 ps1]; [cbn; split; [reflexivity|]; intros r p H I; apply Ok_inj in H; subst; destruct I|].
  assert (SHAPE : forall fl, apply_to_parses_fl fl d lower (p1 :: ps1) =
    (let ps := p1 :: ps1 in let probs := map (fun p => prob_fl fl d lower (t_str (p_tag p))) ps in
     if Qeq_bool (sum_fl fl probs) 0%Q then
      let s := sum_fl fl (map p_score ps) in
      if Qeq_bool s 0%Q then Err ZeroDivisionError
      else Ok (map (fun p => with_score p (fl (p_score p * fl (1 / s)))%Q) ps)
     else Ok (sort_desc score_geb (map (fun pq => with_score (fst pq) (snd pq)) (combine ps probs))))) by reflexivity.
  rewrite !SHAPE in *. clear SHAPE. revert G LEN. generalize (p1 :: ps1). clear p1 ps1. intros ps G LEN. cbv zeta in *. rewrite probs_dbl.
  set (probs := map (fun p => prob_fl b64 d lower (t_str (p_tag p))) ps) in *.
  assert (PB : forall x, In x probs -> lo c x /\ (x <= 1)%Q).
  { intros x I. apply in_map_iff in I as (p & <- & _). destruct (prob_lo lower (t_str (p_tag p))) as [L U]. split; [apply (lo_mono 20); [lia|apply lo_b64; exact L]|]. unfold prob_fl. apply b64_le1; [lra|unfold ulp; lra]. }
  assert (SB : forall x, In x (map p_score ps) -> lo c x /\ (x <= 1)%Q) by (intros x I; apply in_map_iff in I as (p & <- & I); destruct (G p I) as [L (_ & U & _)]; auto).
  assert (LP : length probs = length ps) by apply map_length.
  assert (POW : (Z.of_nat (2 ^ k) <= 2 ^ 53)%Z). { rewrite Nat2Z.inj_pow. apply Z.pow_le_mono_r; lia. }
  assert (EQP : Qeq_bool (sum_fl dbl probs) 0 = Qeq_bool (sum_fl b64 probs) 0 /\ (Qeq_bool (sum_fl b64 probs) 0 = false -> length ps <= 2 ^ k)).
  { destruct (Qeq_bool (sum_fl b64 probs) 0) eqn:Z.
    - split; [|discriminate]. apply Qeq_bool_iff in Z. destruct (all_zero_or probs) as [A|(x & I & N)]; [apply Qeq_bool_iff; apply zero_sum; [exact dbl_zero|reflexivity|exact A]|].
      exfalso. destruct (sum_ge probs 0%Q) as (_ & _ & X); [split; [lra|reflexivity]| |].
      + intros y Y. apply in_map_iff in Y as (p & <- & _). destruct (prob_lo lower (t_str (p_tag p))) as [_ [U _]]. split; [apply fl_nonneg; [exact b64_rounding|exact U]|apply b64_idem; exact U].
      + specialize (X x I). fold (sum_fl b64 probs) in X. destruct (PB x I) as [L _]. apply lo_nonneg in L. apply N. lra.
    - assert (B : length ps <= 2 ^ k). { specialize (LEN _ eq_refl). rewrite sort_desc_length, map_length, combine_length, LP, Nat.min_id in LEN. exact LEN. }
      split; [|intros _; exact B]. destruct (sum_dbl c probs 0%Q 0) as (X & _ & _); [lia|exact PB|left; reflexivity|apply Qle_refl|rewrite LP; lia|]. unfold sum_fl in *. rewrite X. exact Z. }
  destruct EQP as [EQP LENP]. rewrite EQP. destruct (Qeq_bool (sum_fl b64 probs) 0) eqn:ZP.
  - assert (EQS : sum_fl dbl (map p_score ps) = sum_fl b64 (map p_score ps) /\ (sum_fl b64 (map p_score ps) <= inject_Z (Z.of_nat (2 ^ k)))%Q /\ lo c (sum_fl b64 (map p_score ps)) \/ (Qeq_bool (sum_fl dbl (map p_score ps)) 0 = true /\ Qeq_bool (sum_fl b64 (map p_score ps)) 0 = true)).
    { destruct (all_zero_or (map p_score ps)) as [A|(x & I & N)].
      - right. split; apply Qeq_bool_iff; apply zero_sum; try reflexivity; try exact A; [exact dbl_zero|exact b64_zero].
      - left. destruct (sum_ge (map p_score ps) 0%Q) as (_ & _ & X); [split; [lra|reflexivity]| |].
        + intros y Y. apply in_map_iff in Y as (p & <- & Y). destruct (G p Y) as [_ (U1 & _ & U2)]. split; assumption.
        + specialize (X x I). fold (sum_fl b64 (map p_score ps)) in X. destruct (SB x I) as [L _]. apply lo_nonneg in L.
          assert (Z : Qeq_bool (sum_fl b64 (map p_score ps)) 0 = false) by (destruct (Qeq_bool (sum_fl b64 (map p_score ps)) 0) eqn:Z; [apply Qeq_bool_iff in Z; exfalso; apply N; lra|reflexivity]).
          rewrite Z in LEN. specialize (LEN _ eq_refl). rewrite map_length in LEN.
          destruct (sum_dbl c (map p_score ps) 0%Q 0) as (E & Y1 & Y2); [lia|exact SB|left; reflexivity|apply Qle_refl|rewrite map_length; lia|]. unfold sum_fl in *. split; [exact E|]. split; [|exact Y1].
          apply (Qle_trans _ _ _ Y2). rewrite <- Zle_Qle, map_length. lia. }
    destruct EQS as [(E & U & L)|[E1 E2]]; [|rewrite E1, E2; split; [reflexivity|]; intros r p H; discriminate H]. rewrite E. destruct (Qeq_bool (sum_fl b64 (map p_score ps)) 0) eqn:ZS; [split; [reflexivity|]; intros r p H; discriminate H|].
    assert (NZ : ~ (sum_fl b64 (map p_score ps) == 0)%Q) by (intros Z; apply Qeq_bool_iff in Z; congruence). apply lo_pos in L; [|exact NZ].
    assert (GS : forall p, In p ps -> (p_score p <= sum_fl b64 (map p_score ps))%Q).
    { destruct (sum_ge (map p_score ps) 0%Q) as (_ & _ & X); [split; [lra|reflexivity]| |].
      - intros y Y. apply in_map_iff in Y as (p & <- & Y). destruct (G p Y) as [_ (U1 & _ & U2)]. split; assumption.
      - intros p I. apply (X (p_score p)). apply in_map. exact I. }
    set (s := sum_fl b64 (map p_score ps)) in *. clearbody s. assert (TC := tiny_pos c). assert (SP : (0 < s)%Q) by lra.
    assert (PK : (inject_Z (Z.of_nat (2 ^ k)) == pow2 (Z.of_nat k))%Q) by (rewrite pow2_Z by lia; rewrite Nat2Z.inj_pow; reflexivity). rewrite PK in U.
    assert (TK : (tiny k * pow2 (Z.of_nat k) == 1)%Q) by (unfold tiny; rewrite <- pow2_plus; replace (- Z.of_nat k + Z.of_nat k)%Z with 0%Z by lia; reflexivity).
    assert (TCc : (tiny c * pow2 (Z.of_nat c) == 1)%Q) by (unfold tiny; rewrite <- pow2_plus; replace (- Z.of_nat c + Z.of_nat c)%Z with 0%Z by lia; reflexivity).
    assert (TKP := tiny_pos k). assert (PCP := pow2_pos (Z.of_nat c)).
    assert (I1 : (tiny k <= 1 / s)%Q).
    { apply Qle_shift_div_l; [exact SP|]. rewrite <- TK. rewrite (Qmult_comm (tiny k) s), (Qmult_comm (tiny k)). apply Qmult_le_compat_r; lra. }
    assert (I2 : (1 / s <= pow2 1023)%Q).
    { apply (Qle_trans _ (pow2 (Z.of_nat c))); [|apply pow2_mono; lia]. apply Qle_shift_div_r; [exact SP|]. rewrite <- TCc. rewrite (Qmult_comm (tiny c)). rewrite (Qmult_comm (pow2 (Z.of_nat c)) s), (Qmult_comm (pow2 (Z.of_nat c)) (tiny c)). apply Qmult_le_compat_r; lra. }
    rewrite (dbl_lo k (1 / s)) by (lia || (right; exact I1) || exact I2).
    assert (LQ : (tiny k <= b64 (1 / s))%Q). { destruct (lo_b64 k (1 / s)) as [Z|Z]; [right; exact I1| |exact Z]. assert (P := fl_pos b64 b64_rounding (1 / s)%Q ltac:(lra)). lra. }
    destruct (fl_near b64 b64_rounding (1 / s)%Q ltac:(lra)) as [_ F].
    assert (V : forall p, In p ps -> lo (c + k) (p_score p * b64 (1 / s)) /\ (p_score p * b64 (1 / s) <= 2)%Q).
    { intros p I. destruct (G p I) as [L0 (X0 & X1 & _)]. split; [apply lo_times; [exact L0|right; exact LQ]|]. specialize (GS p I).
      apply (Qle_trans _ (p_score p * (1 / s * (1 + ulp)))); [rewrite (Qmult_comm (p_score p)), (Qmult_comm (p_score p) (1 / s * (1 + ulp))); apply Qmult_le_compat_r; assumption|]. assert (Q1 : (p_score p * (1 / s) <= 1)%Q) by (setoid_replace (p_score p * (1 / s))%Q with (p_score p / s)%Q by (field; lra); apply Qle_shift_div_r; [exact SP|lra]).
      setoid_replace (p_score p * (1 / s * (1 + ulp)))%Q with ((p_score p * (1 / s)) * (1 + ulp))%Q by ring. unfold ulp. lra. }
    split.
    + f_equal. apply map_eq_in. intros p I. destruct (V p I) as [V1 V2]. rewrite (dbl_lo2 (c + k)) by (assumption || lia). reflexivity.
    + intros r p H I. apply Ok_inj in H. subst r. apply in_map_iff in I as (x & <- & X). unfold plo. cbn. apply lo_b64. apply V. exact X.
  - split; [reflexivity|]. intros r p H I. apply Ok_inj in H. subst r. apply sort_desc_In in I. apply in_map_iff in I as ([x q] & <- & I). unfold plo. cbn. apply in_combine_r in I. apply (lo_mono c); [lia|]. apply PB. exact I.
Qed.
End est.

Section all.
Context (M : morph) (word : str) (k : nat) (ST : lower_stable (m_uni M)) (PN : Forall (fun bt => prefixes_nonempty (fst bt)) (m_units M)).
Context (SP : scores_prob M) (NT : scores_not_tiny M) (TP : table_prob M) (SM : small_numbers M) (FEW : few_readings M word k) (K52 : k <= 52).
Lemma units_ok : Forall (fun bt => not_tiny (fst bt) /\ prefixes_nonempty (fst bt)) (m_units M).
Proof.
  apply Forall_forall. intros bt I. unfold scores_prob, scores_not_tiny in *. rewrite Forall_forall in SP, NT, PN. split; [|apply PN; exact I]. split; [apply NT; exact I|apply SP; exact I].
Qed.
Lemma scores_pos_of : scores_pos M.
Proof. apply Forall_forall. intros bt I. unfold scores_prob in SP. rewrite Forall_forall in SP. apply SP. exact I. Qed.
Lemma analyze_dbl : forall n w, 43 + S k * n <= 1022 -> length (u_lower (m_uni M) w) < n -> (w = word \/ piece_of (u_lower (m_uni M) word) w) ->
  fst (analyze_fl dbl n M) w = fst (analyze_fl b64 n M) w /\ snd (analyze_fl dbl n M) w = snd (analyze_fl b64 n M) w /\
  forall ps p, fst (analyze_fl b64 n M) w = Ok ps -> In p ps -> plo (43 + S k * n) p.
Proof.
  induction n as [|n IH]; intros w B L W; [lia|].
  assert (RUNP : forall ps, fst (analyze_fl b64 (S n) M) w = Ok ps -> m_prob M <> None -> length ps <= 2 ^ k).
  { intros ps E NP. assert (R := proj1 (analyze_rel b64 b64_rounding M SM scores_pos_of (S n)) w). rewrite E in R.
    destruct (parse_f (S n) M w) as [qs|e] eqn:F; [|destruct R]. cbn [rrel] in R. rewrite (F2_len _ _ _ R). apply (FEW NP w qs W).
    unfold morph_parse. change (fst (analyze (fuel_for M w) M) w) with (parse_f (fuel_for M w) M w). rewrite <- F. apply (fuel_irrelevant M _ _ w ST PN); [unfold fuel_for; lia|exact L]. }
  cbn [analyze_fl fst snd] in RUNP |- *. set (lower := u_lower (m_uni M) w) in *.
  assert (B' : 43 + S k * n <= 1022) by (cbn in B |- *; nia).
  assert (PW : forall v, short lower v -> v = word \/ piece_of (u_lower (m_uni M) word) v).
  { intros v [(a & e & E) _]. right. destruct W as [->|(a' & e' & E')]; [exists a, e; exact E|]. unfold lower in E. rewrite (ST word a' w e' E') in E. exists (a' ++ a), (e ++ e'). rewrite E', E, !app_assoc. reflexivity. }
  assert (SAME : forall v, short lower v -> fst (analyze_fl dbl n M) v = fst (analyze_fl b64 n M) v /\ snd (analyze_fl dbl n M) v = snd (analyze_fl b64 n M) v /\ (forall ps p, fst (analyze_fl b64 n M) v = Ok ps -> In p ps -> plo (43 + S k * n) p)).
  { intros v SV. apply IH; [exact B'| |apply PW; exact SV]. destruct SV as [(a & e & E) LS]. rewrite (ST w a v e E). lia. }
  assert (HP := analyze_good M SP TP n).
  destruct (run_dbl (fst (analyze_fl dbl n M)) (fst (analyze_fl b64 n M)) (snd (analyze_fl dbl n M)) (snd (analyze_fl b64 n M)) M SM lower (43 + S k * n) SAME HP ltac:(lia) ltac:(cbn in B |- *; nia) w (m_units M) 0 [] [] units_ok (fun p (F : In p []) => match F with end)) as [X Y].
  assert (Z := run_tag_dbl (fst (analyze_fl dbl n M)) (fst (analyze_fl b64 n M)) (snd (analyze_fl dbl n M)) (snd (analyze_fl b64 n M)) M lower (43 + S k * n) SAME HP ltac:(lia) ltac:(cbn in B |- *; nia) w (m_units M) 0 [] [] units_ok).
  assert (RG : forall rs q, run_parse_fl b64 (fst (analyze_fl b64 n M)) (snd (analyze_fl b64 n M)) M w lower 0 (m_units M) [] [] = Ok rs -> In q rs -> good q).
  { intros rs q E I. refine (run_good (fst (analyze_fl b64 n M)) (snd (analyze_fl b64 n M)) M HP _ _ _ _ _ _ SP _ rs q E I). intros x []. }
  rewrite X, Z. clear Z. set (r := run_parse_fl b64 (fst (analyze_fl b64 n M)) (snd (analyze_fl b64 n M)) M w lower 0 (m_units M) [] []) in *.
  destruct (m_prob M) as [d|] eqn:D.
  - split; [|split].
    + destruct r as [rs|e]; [|reflexivity]. cbn [bind] in *. apply (est_dbl M d D TP (S (43 + S k * n)) k lower rs); [|lia|cbn in B |- *; nia|exact K52|intros r0 E; apply RUNP; [exact E|discriminate]]. intros p I. split; [exact (Y rs p eq_refl I)|exact (RG rs p eq_refl I)].
    + destruct (run_tag_fl b64 _ _ _ _ _ _ _ _ _) as [ts|e]; [|reflexivity]. cbn [bind]. f_equal. apply (est_tags_dbl M d D TP).
    + intros ps p H I. destruct r as [rs|e]; [|discriminate H]. cbn [bind] in *. replace (43 + S k * S n) with (S (43 + S k * n) + k) by (cbn; nia).
      refine (proj2 (est_dbl M d D TP (S (43 + S k * n)) k lower rs _ _ _ K52 _) ps p H I); [|lia|cbn in B |- *; nia|intros r0 E; apply RUNP; [exact E|discriminate]]. intros q J. split; [exact (Y rs q eq_refl J)|exact (RG rs q eq_refl J)].
  - split; [reflexivity|]. split; [reflexivity|]. intros ps p H I. destruct r as [rs|e]; [|discriminate H]. cbn [bind] in H. apply Ok_inj in H. subst. apply (lo_mono (S (43 + S k * n))); [cbn; nia|]. exact (Y ps p eq_refl I).
Qed.
End all.
Lemma double_same : forall M word k, wf_morph M -> scores_prob M -> scores_not_tiny M -> table_prob M -> small_numbers M -> few_readings M word k ->
  k <= 52 -> 43 + (k + 1) * (length (u_lower (m_uni M) word) + 1) <= 1022 ->
  parse_dbl M word = parse_b64 M word /\ tag_dbl M word = tag_b64 M word.
Proof.
  intros M word k (_ & _ & ST & F & _) SP NT TP SM FEW K B.
  assert (PN : Forall (fun bt => prefixes_nonempty (fst bt)) (m_units M)) by (apply Forall_forall; intros bt I; rewrite Forall_forall in F; apply (F bt I)).
  destruct (analyze_dbl M word k ST PN SP NT TP SM FEW K (fuel_for M word) word) as (X & Y & _); [unfold fuel_for; nia|unfold fuel_for; lia|left; reflexivity|]. split; [exact X|exact Y].
Qed.
