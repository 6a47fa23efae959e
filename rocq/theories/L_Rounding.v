(** * Lemmas for C72: rounding to 53 bits *)
From Coq Require Import String List NArith ZArith Bool QArith Qround Qabs Qpower Lia Lqa.
From Verif Require Import Py Uni Tagset Dawg Dict Utils Shapes Units Analyzer Rounding.
Import ListNotations.
Local Open Scope Z_scope.
Local Open Scope Q_scope.

Lemma pow2_pos : forall e, 0 < pow2 e.
Proof. intros e. unfold pow2. apply Qpower_0_lt. reflexivity. Qed.
Lemma pow2_plus : forall a b, pow2 (a + b) == pow2 a * pow2 b.
Proof. intros a b. unfold pow2. apply Qpower_plus. discriminate. Qed.
Lemma pow2_Z : forall z, (0 <= z)%Z -> pow2 z == inject_Z (2 ^ z).
Proof. intros z H. unfold pow2. change (2 : Q) with (inject_Z 2). symmetry. apply Qpower.Zpower_Qpower. exact H. Qed.
Lemma pow2_mono : forall a b, (a <= b)%Z -> pow2 a <= pow2 b.
Proof.
  intros a b H. replace b with (a + (b - a))%Z by lia. rewrite pow2_plus. rewrite (pow2_Z (b - a)) by lia.
  assert (K : 1 <= inject_Z (2 ^ (b - a))). { change 1 with (inject_Z 1). rewrite <- Zle_Qle. apply (Z.pow_le_mono_r 2 0 (b - a)); lia. }
  assert (P := pow2_pos a). nra.
Qed.
Lemma exp_spec : forall a, 0 < a -> pow2 (binary_exp a) <= a /\ a < pow2 (binary_exp a + 1).
Proof.
  intros [n d] H. unfold Qlt in H. cbn in H. rewrite Z.mul_1_r in H. unfold binary_exp. cbn [Qnum Qden].
  set (ln := Z.log2 n). set (ld := Z.log2 (Zpos d)). set (e := (ln - ld)%Z).
  destruct (Z.log2_spec n H) as [N1 N2]. destruct (Z.log2_spec (Zpos d)) as [D1 D2]; [reflexivity|]. fold ln in N1, N2. fold ld in D1, D2.
  assert (LN : (0 <= ln)%Z) by apply Z.log2_nonneg. assert (LD : (0 <= ld)%Z) by apply Z.log2_nonneg.
  assert (A : (n # d) * inject_Z (Zpos d) == inject_Z n) by (unfold Qeq; cbn; lia).
  assert (P0 : 0 < n # d) by (unfold Qlt; cbn; lia).
  assert (Q1 : pow2 ln <= inject_Z n) by (rewrite pow2_Z by exact LN; rewrite <- Zle_Qle; exact N1).
  assert (Q2 : inject_Z n < pow2 (ln + 1)) by (rewrite pow2_Z by lia; rewrite <- Zlt_Qlt; exact N2).
  assert (Q3 : pow2 ld <= inject_Z (Zpos d)) by (rewrite pow2_Z by exact LD; rewrite <- Zle_Qle; exact D1).
  assert (Q4 : inject_Z (Zpos d) < pow2 (ld + 1)) by (rewrite pow2_Z by lia; rewrite <- Zlt_Qlt; exact D2).
  assert (U : n # d < pow2 (e + 1)).
  { apply Qnot_le_lt. intros C. assert (E : pow2 (ln + 1) == pow2 (e + 1) * pow2 ld) by (rewrite <- pow2_plus; unfold e; replace (ln - ld + 1 + ld)%Z with (ln + 1)%Z by lia; reflexivity).
    assert (P1 := pow2_pos ld). assert (X : (n # d) * pow2 ld <= (n # d) * inject_Z (Zpos d)) by nra. rewrite A in X. assert (Y : pow2 (e + 1) * pow2 ld <= (n # d) * pow2 ld) by nra. rewrite <- E in Y. lra. }
  assert (L : pow2 (e - 1) < n # d).
  { apply Qnot_le_lt. intros C. assert (E : pow2 ln == pow2 (e - 1) * pow2 (ld + 1)) by (rewrite <- pow2_plus; unfold e; replace (ln - ld - 1 + (ld + 1))%Z with ln by lia; reflexivity).
    assert (P1 := pow2_pos (e - 1)). assert (X : (n # d) * inject_Z (Zpos d) <= pow2 (e - 1) * inject_Z (Zpos d)). { assert (0 < inject_Z (Zpos d)) by reflexivity. nra. } rewrite A in X. assert (Y : pow2 (e - 1) * inject_Z (Zpos d) < pow2 (e - 1) * pow2 (ld + 1)) by nra. rewrite <- E in Y. lra. }
  destruct (Qle_bool (pow2 e) (n # d)) eqn:B.
  - apply Qle_bool_iff in B. split; assumption.
  - assert (B' : n # d < pow2 e). { apply Qnot_le_lt. intros C. apply Qle_bool_iff in C. congruence. } split; [apply Qlt_le_weak; exact L|]. replace (e - 1 + 1)%Z with e by lia. exact B'.
Qed.
Lemma exp_unique : forall a e e', pow2 e <= a -> a < pow2 (e + 1) -> pow2 e' <= a -> a < pow2 (e' + 1) -> e = e'.
Proof.
  intros a e e' H1 H2 H3 H4. destruct (Z.lt_trichotomy e e') as [L|[E|L]]; [|exact E|]; exfalso.
  - assert (X := pow2_mono (e + 1) e' ltac:(lia)). lra.
  - assert (X := pow2_mono (e' + 1) e ltac:(lia)). lra.
Qed.
Lemma exp_comp : forall a b, 0 < a -> a == b -> binary_exp a = binary_exp b.
Proof.
  intros a b H E. destruct (exp_spec a H) as [A1 A2]. assert (H' : 0 < b) by (rewrite <- E; exact H). destruct (exp_spec b H') as [B1 B2].
  apply (exp_unique a); [exact A1|exact A2|lra|lra].
Qed.
Lemma nearest_comp : forall x y, x == y -> nearest_int x = nearest_int y.
Proof.
  intros x y E. unfold nearest_int. assert (F : Qfloor x = Qfloor y) by (apply Qfloor_comp; exact E). rewrite F.
  assert (C : (x - inject_Z (Qfloor y) ?= 1 # 2) = (y - inject_Z (Qfloor y) ?= 1 # 2)) by (apply Qcompare_comp; [rewrite E; reflexivity|reflexivity]). rewrite C. reflexivity.
Qed.
Lemma nearest_err : forall y, Qabs (inject_Z (nearest_int y) - y) <= 1 # 2.
Proof.
  intros y. unfold nearest_int. assert (F1 := Qfloor_le y). assert (F2 := Qlt_floor y). rewrite inject_Z_plus in F2. change (inject_Z 1) with 1 in F2. set (f := Qfloor y) in *. apply Qabs_Qle_condition.
  assert (P : inject_Z (f + 1) == inject_Z f + 1) by (rewrite inject_Z_plus; reflexivity).
  destruct (y - inject_Z f ?= 1 # 2) eqn:C.
  - apply Qeq_alt in C. destruct (Z.even f); [|rewrite P]; split; lra.
  - apply Qlt_alt in C. split; lra.
  - apply Qgt_alt in C. rewrite P. split; lra.
Qed.
Definition ulp : Q := 1 # 9007199254740992.
Lemma round_pos_err : forall a, 0 < a -> Qabs (round_pos a - a) <= ulp * a.
Proof.
  intros a H. unfold round_pos. destruct (exp_spec a H) as [E1 E2]. set (e := (binary_exp a - 52)%Z) in *. assert (P := pow2_pos e).
  assert (N := nearest_err (a / pow2 e)). set (m := inject_Z (nearest_int (a / pow2 e))) in *.
  assert (D : a == (a / pow2 e) * pow2 e) by (field; lra).
  assert (X : m * pow2 e - a == (m - a / pow2 e) * pow2 e) by (rewrite D at 2; field; lra). rewrite X, Qabs_Qmult. rewrite (Qabs_pos (pow2 e)) by lra.
  assert (Y : pow2 e * inject_Z (2 ^ 52) == pow2 (binary_exp a)). { rewrite <- (pow2_Z 52) by lia. rewrite <- pow2_plus. unfold e. replace (binary_exp a - 52 + 52)%Z with (binary_exp a) by lia. reflexivity. }
  change (inject_Z (2 ^ 52)) with (4503599627370496 # 1) in Y. unfold ulp.
  assert (Z1 : Qabs (m - a / pow2 e) * pow2 e <= (1 # 2) * pow2 e) by (apply Qmult_le_compat_r; [exact N|lra]).
  assert (Z2 : pow2 e == (1 # 4503599627370496) * pow2 (binary_exp a)) by (rewrite <- Y; ring). apply (Qle_trans _ _ _ Z1). rewrite Z2. lra.
Qed.
Lemma round_pos_comp : forall a b, 0 < a -> a == b -> round_pos a == round_pos b.
Proof.
  intros a b H E. unfold round_pos. rewrite (exp_comp a b H E). rewrite (nearest_comp (a / pow2 (binary_exp b - 52)) (b / pow2 (binary_exp b - 52))) by (rewrite E; reflexivity). reflexivity.
Qed.

(** what the proofs use of a rounding function *)
Definition rounding (fl : Q -> Q) : Prop :=
  (forall x y, x == y -> fl x == fl y) /\ (forall x, Qabs (fl x - x) <= ulp * Qabs x).
Lemma b64_rounding : rounding b64.
Proof.
  split.
  - intros x y E. unfold b64. assert (C : (x ?= 0) = (y ?= 0)) by (apply Qcompare_comp; [exact E|reflexivity]). rewrite <- C. destruct (x ?= 0) eqn:D; [reflexivity| |].
    + apply Qlt_alt in D. rewrite (round_pos_comp (- x) (- y)); [reflexivity|lra|rewrite E; reflexivity].
    + apply Qgt_alt in D. apply round_pos_comp; assumption.
  - intros x. unfold b64. destruct (x ?= 0) eqn:D.
    + apply Qeq_alt in D. rewrite D. discriminate.
    + apply Qlt_alt in D. assert (R := round_pos_err (- x) ltac:(lra)). setoid_replace (- round_pos (- x) - x) with (- (round_pos (- x) - - x)) by ring. rewrite Qabs_opp. rewrite (Qabs_neg x) by lra. exact R.
    + apply Qgt_alt in D. rewrite (Qabs_pos x) by lra. apply round_pos_err. exact D.
Qed.
Lemma id_rounding : rounding (fun x => x).
Proof. split; [auto|]. intros x. setoid_replace (x - x) with 0 by ring. assert (P := Qabs_nonneg x). cbn. unfold ulp. change (Qabs 0) with 0. nra. Qed.

Section facts.
Context (fl : Q -> Q) (R : rounding fl).
Lemma fl_near : forall x, 0 <= x -> x * (1 - ulp) <= fl x /\ fl x <= x * (1 + ulp).
Proof.
  intros x H. destruct R as [_ E]. specialize (E x). rewrite (Qabs_pos x H) in E. apply Qabs_Qle_condition in E. destruct E. split; lra.
Qed.
Lemma fl_zero : forall x, x == 0 -> fl x == 0.
Proof. intros x H. destruct (fl_near x) as [A B]; [lra|]. unfold ulp in A, B. lra. Qed.
Lemma fl_pos : forall x, 0 < x -> 0 < fl x.
Proof. intros x H. destruct (fl_near x) as [A _]; [lra|]. assert (U : 0 < 1 - ulp) by reflexivity. nra. Qed.
Lemma fl_nonneg : forall x, 0 <= x -> 0 <= fl x.
Proof. intros x H. destruct (fl_near x H) as [A _]. assert (U : 0 < 1 - ulp) by reflexivity. nra. Qed.
End facts.
