(** * Lemmas for C72: rounded scores compare like exact ones *)
From Coq Require Import String List NArith ZArith Bool QArith Qround Qabs Qpower Lia Lqa.
From Verif Require Import Py Uni Tagset Dawg Dict Utils Shapes Units Analyzer Rounding Spec Spec22.
From Verif Require Import L_Base L_Rounding.
Import ListNotations.
Local Open Scope Q_scope.

Section cmp.
Context (fl : Q -> Q) (R : rounding fl).

(** two roundings *)
Lemma fl2_near : forall x m, 0 <= x -> 0 <= m -> x * m * ((1 - ulp) * (1 - ulp)) <= fl (fl x * m) /\ fl (fl x * m) <= x * m * ((1 + ulp) * (1 + ulp)).
Proof.
  intros x m X P. destruct (fl_near fl R x X) as [A B]. assert (N := fl_nonneg fl R x X). assert (NM : 0 <= fl x * m) by nra. destruct (fl_near fl R (fl x * m) NM) as [C D].
  assert (A' : x * (1 - ulp) * m <= fl x * m) by (apply Qmult_le_compat_r; assumption). assert (B' : fl x * m <= x * (1 + ulp) * m) by (apply Qmult_le_compat_r; assumption).
  unfold ulp in *. split.
  - eapply Qle_trans; [|exact C]. setoid_replace (x * m * ((1 - (1 # 9007199254740992)) * (1 - (1 # 9007199254740992)))) with ((x * (1 - (1 # 9007199254740992)) * m) * (1 - (1 # 9007199254740992))) by ring. apply Qmult_le_compat_r; [exact A'|discriminate].
  - eapply Qle_trans; [exact D|]. setoid_replace (x * m * ((1 + (1 # 9007199254740992)) * (1 + (1 # 9007199254740992)))) with ((x * (1 + (1 # 9007199254740992)) * m) * (1 + (1 # 9007199254740992))) by ring. apply Qmult_le_compat_r; [exact B'|discriminate].
Qed.
Definition frac (c t : Z) : Q := inject_Z c / inject_Z t.
Lemma gap : forall c t c' t', (0 <= c < 2 ^ 16)%Z -> (0 <= c' < 2 ^ 16)%Z -> (0 < t < 2 ^ 33)%Z -> (0 < t' < 2 ^ 33)%Z ->
  frac c' t' < frac c t -> frac c' t' * ((1 + ulp) * (1 + ulp)) < frac c t * ((1 - ulp) * (1 - ulp)).
Proof.
  intros c t c' t' C C' T T' L. unfold frac in *.
  assert (PT : 0 < inject_Z t) by (change 0 with (inject_Z 0); rewrite <- Zlt_Qlt; lia). assert (PT' : 0 < inject_Z t') by (change 0 with (inject_Z 0); rewrite <- Zlt_Qlt; lia).
  assert (I : (c' * t < c * t')%Z).
  { rewrite Zlt_Qlt, !inject_Z_mult. apply (Qmult_lt_r _ _ (inject_Z t * inject_Z t')) in L; [|nra].
    setoid_replace (inject_Z c' / inject_Z t' * (inject_Z t * inject_Z t')) with (inject_Z c' * inject_Z t) in L by (field; lra).
    setoid_replace (inject_Z c / inject_Z t * (inject_Z t * inject_Z t')) with (inject_Z c * inject_Z t') in L by (field; lra). exact L. }
  assert (I' : (c' * t + 1 <= c * t')%Z) by lia. rewrite Zle_Qle, inject_Z_plus, !inject_Z_mult in I'. change (inject_Z 1) with 1 in I'.
  assert (B : (c' * t <= 2 ^ 49)%Z). { change (2 ^ 49)%Z with (2 ^ 16 * 2 ^ 33)%Z. apply Z.mul_le_mono_nonneg; lia. } rewrite Zle_Qle, inject_Z_mult in B. change (inject_Z (2 ^ 49)) with (562949953421312 # 1) in B.
  apply (Qmult_lt_r _ _ (inject_Z t * inject_Z t')); [nra|].
  setoid_replace (inject_Z c' / inject_Z t' * ((1 + ulp) * (1 + ulp)) * (inject_Z t * inject_Z t')) with (inject_Z c' * inject_Z t * ((1 + ulp) * (1 + ulp))) by (field; lra).
  setoid_replace (inject_Z c / inject_Z t * ((1 - ulp) * (1 - ulp)) * (inject_Z t * inject_Z t')) with (inject_Z c * inject_Z t' * ((1 - ulp) * (1 - ulp))) by (field; lra).
  set (x := inject_Z c' * inject_Z t) in *. set (y := inject_Z c * inject_Z t') in *. assert (X0 : 0 <= x). { unfold x. rewrite <- inject_Z_mult. change 0 with (inject_Z 0). rewrite <- Zle_Qle. nia. } unfold ulp. lra.
Qed.
Lemma frac_pair : forall c t, (0 < t)%nat -> Z.of_nat c # Pos.of_nat t == frac (Z.of_nat c) (Z.of_nat t).
Proof.
  intros c t H. unfold frac. rewrite (Qmake_Qdiv (Z.of_nat c) (Pos.of_nat t)). replace (Zpos (Pos.of_nat t)) with (Z.of_nat t); [reflexivity|]. rewrite <- (Nat2Pos.id t) at 1 by lia. rewrite positive_nat_Z. reflexivity.
Qed.
(** scores of predicted readings *)
Lemma cmp_frac : forall m c t c' t', 0 < m -> (Z.of_nat c < 2 ^ 16)%Z -> (Z.of_nat c' < 2 ^ 16)%Z -> (0 < Z.of_nat t < 2 ^ 33)%Z -> (0 < Z.of_nat t' < 2 ^ 33)%Z ->
  Qle_bool (fl (fl (Z.of_nat c' # Pos.of_nat t') * fl m)) (fl (fl (Z.of_nat c # Pos.of_nat t) * fl m)) =
  Qle_bool ((Z.of_nat c' # Pos.of_nat t') * m) ((Z.of_nat c # Pos.of_nat t) * m).
Proof.
  intros m c t c' t' M C C' T T'. set (x := Z.of_nat c # Pos.of_nat t). set (y := Z.of_nat c' # Pos.of_nat t').
  assert (X0 : 0 <= x) by (unfold x, Qle; cbn; lia). assert (Y0 : 0 <= y) by (unfold y, Qle; cbn; lia).
  assert (FM := fl_pos fl R m M).
  assert (G : forall a b a' b', (Z.of_nat a < 2 ^ 16)%Z -> (Z.of_nat a' < 2 ^ 16)%Z -> (0 < Z.of_nat b < 2 ^ 33)%Z -> (0 < Z.of_nat b' < 2 ^ 33)%Z ->
     (Z.of_nat a' # Pos.of_nat b') < (Z.of_nat a # Pos.of_nat b) -> fl (fl (Z.of_nat a' # Pos.of_nat b') * fl m) < fl (fl (Z.of_nat a # Pos.of_nat b) * fl m)).
  { intros a b a' b' A A' B B' L. rewrite (frac_pair a b), (frac_pair a' b') in L by lia. apply gap in L; try lia. rewrite <- (frac_pair a b), <- (frac_pair a' b') in L by lia.
    destruct (fl2_near (Z.of_nat a' # Pos.of_nat b') (fl m)) as [_ H1]; [unfold Qle; cbn; lia|lra|]. destruct (fl2_near (Z.of_nat a # Pos.of_nat b) (fl m)) as [H2 _]; [unfold Qle; cbn; lia|lra|].
    eapply Qle_lt_trans; [exact H1|]. eapply Qlt_le_trans; [|exact H2].
    set (p := Z.of_nat a' # Pos.of_nat b') in *. set (q := Z.of_nat a # Pos.of_nat b) in *. 
    setoid_replace (p * fl m * ((1 + ulp) * (1 + ulp))) with (p * ((1 + ulp) * (1 + ulp)) * fl m) by ring. setoid_replace (q * fl m * ((1 - ulp) * (1 - ulp))) with (q * ((1 - ulp) * (1 - ulp)) * fl m) by ring. apply Qmult_lt_r; assumption. }
  destruct (Q_dec y x) as [[L|L]|E].
  - assert (S := G _ _ _ _ C C' T T' L). fold x y in S. rewrite (proj2 (Qle_bool_iff _ _)) by (apply Qlt_le_weak; exact S). symmetry. apply Qle_bool_iff. apply Qmult_le_compat_r; lra.
  - assert (S := G _ _ _ _ C' C T' T L). fold x y in S. destruct (Qle_bool (fl (fl y * fl m)) (fl (fl x * fl m))) eqn:Q1; [apply Qle_bool_iff in Q1; lra|].
    destruct (Qle_bool (y * m) (x * m)) eqn:Q2; [|reflexivity]. apply Qle_bool_iff in Q2. apply (Qmult_lt_r _ _ m M) in L. lra.
  - destruct R as [P _]. assert (E1 : fl (fl y * fl m) == fl (fl x * fl m)) by (apply P; rewrite (P y x E); reflexivity).
    rewrite (proj2 (Qle_bool_iff _ _)) by (rewrite E1; apply Qle_refl). symmetry. apply Qle_bool_iff. rewrite E. apply Qle_refl.
Qed.
(** probabilities *)
Lemma cmp_prob : forall n n' D, (0 <= n < 2 ^ 50)%Z -> (0 <= n' < 2 ^ 50)%Z -> Qle_bool (fl (n' # D)) (fl (n # D)) = Qle_bool (n' # D) (n # D).
Proof.
  intros n n' D N N'.
  assert (G : forall a b, (0 <= a < 2 ^ 50)%Z -> (0 <= b < 2 ^ 50)%Z -> (b < a)%Z -> fl (b # D) < fl (a # D)).
  { intros a b A B L. destruct (fl_near fl R (a # D)) as [H1 _]; [unfold Qle; cbn; lia|]. destruct (fl_near fl R (b # D)) as [_ H2]; [unfold Qle; cbn; lia|].
    eapply Qle_lt_trans; [exact H2|]. eapply Qlt_le_trans; [|exact H1]. rewrite (Qmake_Qdiv a D), (Qmake_Qdiv b D).
    assert (PD : 0 < inject_Z (Zpos D)) by reflexivity. apply (Qmult_lt_r _ _ (inject_Z (Zpos D)) PD).
    setoid_replace (inject_Z b / inject_Z (Zpos D) * (1 + ulp) * inject_Z (Zpos D)) with (inject_Z b * (1 + ulp)) by (field; lra).
    setoid_replace (inject_Z a / inject_Z (Zpos D) * (1 - ulp) * inject_Z (Zpos D)) with (inject_Z a * (1 - ulp)) by (field; lra).
    assert (I : (b + 1 <= a)%Z) by lia. rewrite Zle_Qle, inject_Z_plus in I. change (inject_Z 1) with 1 in I.
    assert (I2 : (b <= 2 ^ 50)%Z) by lia. rewrite Zle_Qle in I2. change (inject_Z (2 ^ 50)) with (1125899906842624 # 1) in I2.
    assert (I3 : (0 <= b)%Z) by lia. rewrite Zle_Qle in I3. change (inject_Z 0) with 0 in I3. unfold ulp. lra. }
  assert (C : forall a b, (a # D) <= (b # D) <-> (a <= b)%Z) by (intros a b; unfold Qle; cbn [Qnum Qden]; symmetry; apply Z.mul_le_mono_pos_r; reflexivity).
  destruct (Z.lt_trichotomy n' n) as [L|[->|L]].
  - rewrite (proj2 (Qle_bool_iff (n' # D) (n # D))) by (apply (proj2 (C n' n)); lia). apply Qle_bool_iff. apply Qlt_le_weak. apply G; assumption.
  - rewrite (proj2 (Qle_bool_iff (n # D) (n # D))) by apply Qle_refl. apply Qle_bool_iff. apply Qle_refl.
  - destruct (Qle_bool (n' # D) (n # D)) eqn:Q1; [apply Qle_bool_iff in Q1; apply (proj1 (C n' n)) in Q1; lia|]. destruct (Qle_bool (fl (n' # D)) (fl (n # D))) eqn:Q2; [|reflexivity].
    apply Qle_bool_iff in Q2. assert (X := G n' n N' N L). lra.
Qed.
(** similarity *)
Definition sim_exact (a b : Z) : Q := inject_Z a - (1 # 10) * inject_Z b.
Definition sim_fl (a b : Z) : Q := fl (inject_Z a - fl (fl (1 # 10) * inject_Z b)).
Lemma sim_near : forall a b, (0 <= a <= 2 ^ 40)%Z -> (0 <= b <= 2 ^ 40)%Z -> Qabs (sim_fl a b - sim_exact a b) <= 1 # 100.
Proof.
  intros a b A B. unfold sim_fl, sim_exact. set (p := inject_Z a). set (q := inject_Z b).
  assert (P1 : 0 <= p) by (unfold p; change 0 with (inject_Z 0); rewrite <- Zle_Qle; lia). assert (Q1 : 0 <= q) by (unfold q; change 0 with (inject_Z 0); rewrite <- Zle_Qle; lia).
  assert (P2 : p <= 1099511627776 # 1) by (unfold p; change (1099511627776 # 1) with (inject_Z (2 ^ 40)); rewrite <- Zle_Qle; lia). assert (Q2 : q <= 1099511627776 # 1) by (unfold q; change (1099511627776 # 1) with (inject_Z (2 ^ 40)); rewrite <- Zle_Qle; lia).
  destruct (fl2_near (1 # 10) q) as [L U]; [discriminate|exact Q1|]. set (z := fl (fl (1 # 10) * q)) in *. unfold ulp in L, U.
  destruct R as [_ E]. specialize (E (p - z)). assert (ZB : Qabs (p - z) <= 2199023255552 # 1) by (apply Qabs_Qle_condition; split; lra).
  assert (E' : Qabs (fl (p - z) - (p - z)) <= ulp * (2199023255552 # 1)). { eapply Qle_trans; [exact E|]. unfold ulp. lra. }
  apply Qabs_Qle_condition in E'. unfold ulp in E'. destruct E' as [E1 E2]. apply Qabs_Qle_condition. split; lra.
Qed.
Lemma cmp_sim : forall a b a' b', (0 <= a <= 2 ^ 40)%Z -> (0 <= b <= 2 ^ 40)%Z -> (0 <= a' <= 2 ^ 40)%Z -> (0 <= b' <= 2 ^ 40)%Z ->
  (sim_exact a b == sim_exact a' b' -> a = a' /\ b = b') -> Qle_bool (sim_fl a b) (sim_fl a' b') = Qle_bool (sim_exact a b) (sim_exact a' b').
Proof.
  intros a b a' b' A B A' B' TIE. assert (N1 := sim_near a b A B). assert (N2 := sim_near a' b' A' B'). apply Qabs_Qle_condition in N1. apply Qabs_Qle_condition in N2.
  assert (D : sim_exact a b == inject_Z (10 * a - b) * (1 # 10)) by (unfold sim_exact; unfold Zminus; rewrite inject_Z_plus, inject_Z_mult, inject_Z_opp; change (inject_Z 10) with (10 # 1); ring).
  assert (D' : sim_exact a' b' == inject_Z (10 * a' - b') * (1 # 10)) by (unfold sim_exact; unfold Zminus; rewrite inject_Z_plus, inject_Z_mult, inject_Z_opp; change (inject_Z 10) with (10 # 1); ring).
  destruct (Z.lt_trichotomy (10 * a - b) (10 * a' - b')) as [L|[E|L]].
  - assert (L' : (10 * a - b + 1 <= 10 * a' - b')%Z) by lia. rewrite Zle_Qle, inject_Z_plus in L'. change (inject_Z 1) with 1 in L'.
    rewrite (proj2 (Qle_bool_iff (sim_exact a b) _)) by lra. apply Qle_bool_iff. lra.
  - destruct TIE as [-> ->]; [rewrite D, D', E; reflexivity|]. rewrite (proj2 (Qle_bool_iff (sim_exact a' b') _)) by apply Qle_refl. apply Qle_bool_iff. apply Qle_refl.
  - assert (L' : (10 * a' - b' + 1 <= 10 * a - b)%Z) by lia. rewrite Zle_Qle, inject_Z_plus in L'. change (inject_Z 1) with 1 in L'.
    destruct (Qle_bool (sim_exact a b) (sim_exact a' b')) eqn:Q1; [apply Qle_bool_iff in Q1; lra|]. destruct (Qle_bool (sim_fl a b) (sim_fl a' b')) eqn:Q2; [|reflexivity]. apply Qle_bool_iff in Q2. lra.
Qed.
End cmp.
