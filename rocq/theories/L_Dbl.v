(** * Lemmas for C72: where doubles agree with unbounded exponents *)
From Coq Require Import String List NArith ZArith Bool QArith Qround Qabs Qpower Lia Lqa.
From Verif Require Import Py Uni Tagset Dawg Dict Utils Shapes Units Analyzer Rounding Doubles Spec Spec13 Spec22 Spec31.
From Verif Require Import L_Base L_Rounding L_Rounding3 L_Rounding6 L_Rounding7.
Import ListNotations.
Local Open Scope nat_scope.
Local Open Scope list_scope.

Definition tiny (c : nat) : Q := pow2 (- Z.of_nat c).
Definition lo (c : nat) (x : Q) : Prop := (x == 0)%Q \/ (tiny c <= x)%Q.
Lemma tiny_pos : forall c, (0 < tiny c)%Q.
Proof. intros c. apply pow2_pos. Qed.
Lemma tiny_mono : forall c d, c <= d -> (tiny d <= tiny c)%Q.
Proof. intros c d H. apply pow2_mono. lia. Qed.
Lemma tiny_plus : forall c d, (tiny (c + d) == tiny c * tiny d)%Q.
Proof. intros c d. unfold tiny. rewrite <- pow2_plus. replace (- Z.of_nat (c + d))%Z with (- Z.of_nat c + - Z.of_nat d)%Z by lia. reflexivity. Qed.
Lemma lo_mono : forall c d x, c <= d -> lo c x -> lo d x.
Proof. intros c d x H [E|L]; [left; exact E|right]. assert (T := tiny_mono c d H). lra. Qed.
Lemma lo_nonneg : forall c x, lo c x -> (0 <= x)%Q.
Proof. intros c x [E|L]; [lra|]. assert (T := tiny_pos c). lra. Qed.
Lemma lo_pos : forall c x, lo c x -> ~ (x == 0)%Q -> (tiny c <= x)%Q.
Proof. intros c x [E|L] N; [contradiction|exact L]. Qed.
Lemma lo_times : forall c d x y, lo c x -> lo d y -> lo (c + d) (x * y).
Proof.
  intros c d x y [E|L] [F|K]; [left; rewrite E; ring|left; rewrite E; ring|left; rewrite F; ring|right]. rewrite tiny_plus. assert (A := tiny_pos c). assert (B := tiny_pos d).
  apply (Qle_trans _ (x * tiny d)); [apply Qmult_le_compat_r; lra|]. rewrite (Qmult_comm x), (Qmult_comm x). apply Qmult_le_compat_r; lra.
Qed.
Lemma lo_plus : forall c x y, lo c x -> lo c y -> lo c (x + y).
Proof. intros c x y H K. assert (A := lo_nonneg _ _ H). assert (B := lo_nonneg _ _ K). destruct H as [E|L]; [|right; lra]. destruct K as [F|K]; [left; lra|right; lra]. Qed.
(** powers of two and small integers are floats *)
Lemma b64_comp : forall x y, (x == y)%Q -> (b64 x == b64 y)%Q.
Proof. exact (proj1 b64_rounding). Qed.
Lemma b64_float : forall m e, (2 ^ 52 <= m <= 2 ^ 53)%Z -> (b64 (inject_Z m * pow2 e) == inject_Z m * pow2 e)%Q.
Proof.
  intros m e B. unfold b64. assert (P := pow2_pos e). assert (M : (0 < inject_Z m)%Q) by (change 0%Q with (inject_Z 0); rewrite <- Zlt_Qlt; lia).
  assert (X : (0 < inject_Z m * pow2 e)%Q) by (apply Qmult_lt_0_compat; assumption). assert (E : (inject_Z m * pow2 e ?= 0)%Q = Gt) by (apply Qgt_alt; exact X). rewrite E. apply round_float. exact B.
Qed.
Lemma b64_pow2 : forall e, (b64 (pow2 e) == pow2 e)%Q.
Proof.
  intros e. assert (E : (pow2 e == inject_Z (2 ^ 52) * pow2 (e - 52))%Q) by (rewrite <- (pow2_Z 52) by lia; rewrite <- pow2_plus; replace (52 + (e - 52))%Z with e by lia; reflexivity).
  rewrite (b64_comp _ _ E), E. apply b64_float. lia.
Qed.
Lemma b64_int : forall n, (0 <= n <= 2 ^ 53)%Z -> (b64 (inject_Z n) == inject_Z n)%Q.
Proof.
  intros n H. destruct (Z.eq_dec n 0) as [->|NZ]; [reflexivity|]. destruct (Z.log2_spec n) as [L1 L2]; [lia|]. assert (L0 := Z.log2_nonneg n). set (l := Z.log2 n) in *.
  assert (LB : (l <= 53)%Z) by (apply (Z.pow_le_mono_r_iff 2); lia).
  destruct (Z.eq_dec l 53) as [->|LN].
  - assert (n = 2 ^ 53)%Z as -> by lia. assert (E : (inject_Z (2 ^ 53) == pow2 53)%Q) by (rewrite pow2_Z by lia; reflexivity). rewrite (b64_comp _ _ E), E. apply b64_pow2.
  - assert (E : (inject_Z n == inject_Z (n * 2 ^ (52 - l)) * pow2 (- (52 - l)))%Q).
    { rewrite inject_Z_mult, <- (pow2_Z (52 - l)) by lia. rewrite <- Qmult_assoc, <- pow2_plus. replace (52 - l + - (52 - l))%Z with 0%Z by lia. change (pow2 0) with 1%Q. ring. }
    rewrite (b64_comp _ _ E), E. apply b64_float. assert (P : (0 < 2 ^ (52 - l))%Z) by (apply Z.pow_pos_nonneg; lia).
    assert (A : (2 ^ 52 = 2 ^ l * 2 ^ (52 - l))%Z) by (rewrite <- Z.pow_add_r by lia; f_equal; lia). assert (B : (2 ^ 53 = 2 ^ Z.succ l * 2 ^ (52 - l))%Z) by (rewrite <- Z.pow_add_r by lia; f_equal; lia). rewrite A, B. split; apply Z.mul_le_mono_nonneg_r; lia.
Qed.
Lemma lo_b64 : forall c x, lo c x -> lo c (b64 x).
Proof.
  intros c x [E|L]; [left; apply (fl_zero b64 b64_rounding); exact E|right]. assert (P := tiny_pos c). assert (M := b64_mono_pos (tiny c) x ltac:(lra) L). unfold tiny in *. rewrite (b64_pow2 (- Z.of_nat c)) in M. exact M.
Qed.
Lemma hi_b64 : forall e x, (0 <= x)%Q -> (x <= pow2 e)%Q -> (b64 x <= pow2 e)%Q.
Proof. intros e x X H. assert (M := b64_mono_pos x (pow2 e) X H). rewrite (b64_pow2 e) in M. exact M. Qed.

Lemma dbl_b64 : forall x, ((x == 0) \/ (pow2 (-1022) <= x /\ x <= pow2 1023))%Q -> dbl x = b64 x.
Proof.
  intros x [E|[A B]].
  - unfold dbl, b64. apply Qeq_alt in E. rewrite E. reflexivity.
  - unfold dbl, b64. assert (P := pow2_pos (-1022)). assert (E : (x ?= 0)%Q = Gt) by (apply Qgt_alt; lra). rewrite E. unfold dbl_pos.
    assert (O : Qle_bool (pow2 1024 - pow2 970) x = false).
    { destruct (Qle_bool (pow2 1024 - pow2 970) x) eqn:K; [|reflexivity]. apply Qle_bool_iff in K. exfalso. assert (F : (pow2 1024 - pow2 970 <= pow2 1023)%Q) by (apply (Qle_trans _ x); assumption).
      revert F. apply Qlt_not_le. vm_compute. reflexivity. }
    rewrite O. apply Qle_bool_iff in A. rewrite A. reflexivity.
Qed.
Lemma dbl_lo : forall c x, c <= 1022 -> lo c x -> (x <= pow2 1023)%Q -> dbl x = b64 x.
Proof. intros c x C [E|L] H; apply dbl_b64; [left; exact E|right]. split; [|exact H]. assert (T := tiny_mono c 1022 C). unfold tiny in *. change (- Z.of_nat 1022)%Z with (-1022)%Z in T. lra. Qed.
Lemma pow_1023 : (2 <= pow2 1023)%Q.
Proof. change 2%Q with (pow2 1). apply pow2_mono. lia. Qed.
Lemma dbl_lo2 : forall c x, c <= 1022 -> lo c x -> (x <= 2)%Q -> dbl x = b64 x.
Proof. intros c x C L H. apply (dbl_lo c); [exact C|exact L|]. assert (P := pow_1023). lra. Qed.
