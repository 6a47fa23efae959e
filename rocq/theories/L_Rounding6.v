(** * Lemmas for C72: the probability table; rounding is monotone *)
From Coq Require Import String List NArith ZArith Bool QArith Qround Qabs Qpower Lia Lqa.
From Verif Require Import Py Uni Tagset Dawg Dict Utils Shapes Units Analyzer Compile Preprocess Json Probability Rounding Spec Spec5 Spec22.
From Verif Require Import L_Base L_Probability L_Rounding L_Rounding2 L_Rounding3.
Import ListNotations.
Local Open Scope nat_scope.
Local Open Scope list_scope.

(** ** monotonicity *)
Lemma nearest_mono : forall x y, (x <= y)%Q -> (nearest_int x <= nearest_int y)%Z.
Proof.
  intros x y H. assert (F := Qfloor_resp_le _ _ H). destruct (Z.eq_dec (Qfloor x) (Qfloor y)) as [E|NE].
  - unfold nearest_int. rewrite E. set (f := Qfloor y) in *. destruct (x - inject_Z f ?= 1 # 2)%Q eqn:A; destruct (y - inject_Z f ?= 1 # 2)%Q eqn:B; try (destruct (Z.even f)); try lia; exfalso.
    all: repeat match goal with H : (_ ?= _)%Q = Eq |- _ => apply Qeq_alt in H | H : (_ ?= _)%Q = Lt |- _ => apply Qlt_alt in H | H : (_ ?= _)%Q = Gt |- _ => apply Qgt_alt in H end; lra.
  - assert (X : (nearest_int x <= Qfloor x + 1)%Z) by (unfold nearest_int; destruct (_ ?= _)%Q; try destruct (Z.even _); lia).
    assert (Y : (Qfloor y <= nearest_int y)%Z) by (unfold nearest_int; destruct (_ ?= _)%Q; try destruct (Z.even _); lia). lia.
Qed.
Lemma nearest_Z : forall z, nearest_int (inject_Z z) = z.
Proof. intros z. unfold nearest_int. rewrite Qfloor_Z. assert (E : (inject_Z z - inject_Z z ?= 1 # 2)%Q = Lt) by (apply Qlt_alt; unfold Qminus; rewrite Qplus_opp_r; reflexivity). rewrite E. reflexivity. Qed.
Lemma round_bounds : forall a, (0 < a)%Q -> (pow2 (binary_exp a) <= round_pos a <= pow2 (binary_exp a + 1))%Q.
Proof.
  intros a H. unfold round_pos. destruct (exp_spec a H) as [E1 E2]. set (e := (binary_exp a - 52)%Z). assert (P := pow2_pos e).
  assert (B1 : (pow2 (binary_exp a) == inject_Z (2 ^ 52) * pow2 e)%Q) by (rewrite <- (pow2_Z 52) by lia; rewrite <- pow2_plus; unfold e; replace (52 + (binary_exp a - 52))%Z with (binary_exp a) by lia; reflexivity).
  assert (B2 : (pow2 (binary_exp a + 1) == inject_Z (2 ^ 53) * pow2 e)%Q) by (rewrite <- (pow2_Z 53) by lia; rewrite <- pow2_plus; unfold e; replace (53 + (binary_exp a - 52))%Z with (binary_exp a + 1)%Z by lia; reflexivity).
  assert (L1 : (inject_Z (2 ^ 52) <= a / pow2 e)%Q) by (apply Qle_shift_div_l; [exact P|lra]).
  assert (L2 : (a / pow2 e <= inject_Z (2 ^ 53))%Q) by (apply Qle_shift_div_r; [exact P|lra]).
  apply nearest_mono in L1. apply nearest_mono in L2. rewrite nearest_Z in L1, L2. rewrite Zle_Qle in L1, L2. rewrite B1, B2. split; apply Qmult_le_compat_r; try assumption; lra.
Qed.
Lemma round_pos_mono : forall a b, (0 < a)%Q -> (a <= b)%Q -> (round_pos a <= round_pos b)%Q.
Proof.
  intros a b A L. assert (B : (0 < b)%Q) by lra. destruct (exp_spec a A) as [E1 E2]. destruct (exp_spec b B) as [F1 F2].
  destruct (Z.lt_trichotomy (binary_exp a) (binary_exp b)) as [C|[C|C]].
  - destruct (round_bounds a A) as [_ X]. destruct (round_bounds b B) as [Y _]. assert (Z := pow2_mono (binary_exp a + 1) (binary_exp b) ltac:(lia)). lra.
  - unfold round_pos. rewrite C. assert (P := pow2_pos (binary_exp b - 52)). apply Qmult_le_compat_r; [|lra]. rewrite <- Zle_Qle. apply nearest_mono. apply Qmult_le_compat_r; [exact L|]. apply Qlt_le_weak. apply Qinv_lt_0_compat. exact P.
  - exfalso. assert (Z := pow2_mono (binary_exp b + 1) (binary_exp a) ltac:(lia)). lra.
Qed.
Lemma b64_mono_pos : forall x y, (0 <= x)%Q -> (x <= y)%Q -> (b64 x <= b64 y)%Q.
Proof.
  intros x y X L. destruct (Qlt_le_dec 0 x) as [P|P].
  - unfold b64. assert (E : (x ?= 0)%Q = Gt) by (apply Qgt_alt; exact P). assert (E' : (y ?= 0)%Q = Gt) by (apply Qgt_alt; lra). rewrite E, E'. apply round_pos_mono; assumption.
  - assert (Z : (x == 0)%Q) by lra. rewrite (fl_zero b64 b64_rounding x Z). apply fl_nonneg; [exact b64_rounding|lra].
Qed.
(** ** stored values *)
Lemma quot_floor : forall y, (0 <= y)%Q -> Z.quot (Qnum y) (Zpos (Qden y)) = Qfloor y.
Proof. intros [n d] H. unfold Qfloor. cbn [Qnum Qden]. apply Z.quot_div_nonneg; [unfold Qle in H; cbn in H; lia|reflexivity]. Qed.
Lemma value_floor : forall fl (R : rounding fl) p, (0 <= p)%Q -> cpd_value_fl fl p = Qfloor (fl (p * (1000000 # 1))%Q).
Proof. intros fl R p H. unfold cpd_value_fl. apply quot_floor. apply fl_nonneg; [exact R|]. change (inject_Z (Zpos MULTIPLIER)) with (1000000 # 1). lra. Qed.
Lemma exact_floor : forall p, (0 <= p)%Q -> cpd_value p = Qfloor (p * (1000000 # 1))%Q.
Proof. intros [n d] H. unfold cpd_value. unfold Qmult, Qfloor. cbn [Qnum Qden]. rewrite Pos.mul_1_r. apply Z.quot_div_nonneg; [unfold Qle in H; cbn in H; change (Zpos MULTIPLIER) with 1000000%Z; lia|reflexivity]. Qed.
Lemma value_mono : forall x y, (0 <= x)%Q -> (x <= y)%Q -> (cpd_value_fl b64 (b64 x) <= cpd_value_fl b64 (b64 y))%Z.
Proof.
  intros x y X L. assert (M := b64_mono_pos x y X L). assert (BX := fl_nonneg b64 b64_rounding x X). rewrite !(value_floor b64 b64_rounding) by lra. apply Qfloor_resp_le. apply b64_mono_pos; lra.
Qed.
Lemma value_near : forall fl (R : rounding fl) x, (0 <= x)%Q -> (x <= 1)%Q -> (Z.abs (cpd_value_fl fl (fl x) - cpd_value x) <= 1)%Z.
Proof.
  intros fl R x X1 X2. assert (FX := fl_nonneg fl R x X1). rewrite (value_floor fl R) by exact FX. rewrite exact_floor by exact X1.
  destruct (fl_near fl R x X1) as [A1 A2]. assert (Y : (0 <= fl x * (1000000 # 1))%Q) by lra. destruct (fl_near fl R _ Y) as [B1 B2].
  set (z := fl (fl x * (1000000 # 1))%Q) in *.
  assert (D : (x * (1000000 # 1) - 1 < z /\ z < x * (1000000 # 1) + 1)%Q).
  { unfold ulp in *. split; lra. }
  assert (F1 := Qfloor_le z). assert (F2 := Qlt_floor z). assert (G1 := Qfloor_le (x * (1000000 # 1))). assert (G2 := Qlt_floor (x * (1000000 # 1))). set (f := Qfloor z) in *. set (g := Qfloor (x * (1000000 # 1))) in *. rewrite inject_Z_plus in F2, G2. change (inject_Z 1) with 1%Q in F2, G2.
  assert (H1 : (inject_Z f < inject_Z (g + 2))%Q) by (rewrite inject_Z_plus; change (inject_Z 2) with (2 # 1); lra).
  assert (H2 : (inject_Z g < inject_Z (f + 2))%Q) by (rewrite inject_Z_plus; change (inject_Z 2) with (2 # 1); lra). rewrite <- Zlt_Qlt in H1, H2. lia.
Qed.

Section table.
Context (fl : Q -> Q) (R : rounding fl).
(** entries for one word *)
Definition ent (D : positive) (a b : tag * Q) : Prop := fst a = fst b /\ exists n, (0 <= n < 2 ^ 50)%Z /\ (n # D <= 1)%Q /\ snd a = fl (n # D)%Q /\ snd b = (n # D)%Q.
Lemma dset_ent : forall D t n l l', Forall2 (ent D) l l' -> (0 <= n < 2 ^ 50)%Z -> (n # D <= 1)%Q -> Forall2 (ent D) (dset tag_eqb t (fl (n # D)%Q) l) (dset tag_eqb t (n # D)%Q l').
Proof.
  intros D t n l l' F N U. induction F as [|[k v] [k' v'] l l' E F IH]; cbn [dset].
  - constructor; [|constructor]. split; [reflexivity|]. exists n. auto.
  - destruct E as (E1 & E2). cbn [fst] in E1. subst k'. destruct (tag_eqb t k).
    + constructor; [|exact F]. split; [reflexivity|]. exists n. auto.
    + constructor; [|exact IH]. split; [reflexivity|exact E2].
Qed.
Lemma probs_ent : forall fd b ps, (forall g, (Z.of_nat (fd_count fd g + 1) < 2 ^ 50)%Z) -> (forall g, (laplace fd b g <= 1)%Q) -> forall l l', Forall2 (ent (Pos.of_nat (fd_N fd + b))) l l' ->
  Forall2 (ent (Pos.of_nat (fd_N fd + b))) (fold_left (fun acc p => dset tag_eqb (p_tag p) (laplace_fl fl fd b (t_gr (p_tag p))) acc) ps l) (fold_left (fun acc p => dset tag_eqb (p_tag p) (laplace fd b (t_gr (p_tag p))) acc) ps l').
Proof.
  intros fd b ps H1 H2. induction ps as [|p ps IH]; intros l l' F; [exact F|]. cbn [fold_left]. apply IH. unfold laplace_fl, laplace. apply dset_ent; [exact F|split; [lia|apply H1]|apply H2].
Qed.
Lemma ent_eq : forall D a b a' b', ent D a b -> ent D a' b' -> Qeq_bool (snd a) (snd a') = Qeq_bool (snd b) (snd b').
Proof.
  intros D a b a' b' (_ & n & N & _ & A & B) (_ & n' & N' & _ & A' & B'). rewrite A, B, A', B'. assert (X := cmp_prob fl R n n' D N N'). assert (Y := cmp_prob fl R n' n D N' N).
  destruct (Qeq_bool (n # D) (n' # D)) eqn:E.
  - apply Qeq_bool_iff in E. apply Qeq_bool_iff. apply (proj1 R). exact E.
  - destruct (Qeq_bool (fl (n # D)) (fl (n' # D))) eqn:F; [|reflexivity]. apply Qeq_bool_iff in F.
    rewrite (proj2 (Qle_bool_iff (fl (n' # D)%Q) _)) in X by (rewrite F; apply Qle_refl). rewrite (proj2 (Qle_bool_iff (fl (n # D)%Q) _)) in Y by (rewrite F; apply Qle_refl). symmetry in X, Y. apply Qle_bool_iff in X. apply Qle_bool_iff in Y.
    assert (Z : (n # D == n' # D)%Q) by (apply Qle_antisym; assumption). apply Qeq_bool_iff in Z. congruence.
Qed.
Lemma same_ent : forall D l l', Forall2 (ent D) l l' -> all_the_same l = all_the_same l'.
Proof.
  intros D l l' F. destruct F as [|[t q] [t' q'] l l' E F]; [reflexivity|]. cbn [all_the_same]. induction F as [|a b l l' E' F IH]; [reflexivity|]. cbn [forallb]. rewrite IH. f_equal. exact (ent_eq D a b (t, q) (t', q') E' E).
Qed.
Lemma estimate_count : forall M c d cf w fd b, estimate M c = Ok (d, cf) -> In (w, (fd, b)) d -> (forall g, fd_count fd g <= length c) /\ (forall g, (laplace fd b g <= 1)%Q).
Proof.
  intros M c d cf w fd b H I. apply (estimate_get _ _ _ _ H) in I as (N & -> & ts & _ & ->). split; intros g.
  - rewrite fd_count_of. unfold times. assert (FL : forall (f : sset -> bool) l, length (filter f l) <= length l) by (intros f l; induction l as [|x l IH]; [cbn; lia|]; cbn [filter]; destruct (f x); cbn [length]; lia). eapply Nat.le_trans; [apply FL|]. unfold occurrences. assert (X : forall l, length (flat_map (fun x : str * list str => map tag2grammemes (snd x)) (filter (counts_for M w) l)) <= length l); [|apply X].
    induction l as [|[v ts'] l IH]; [cbn; lia|]. cbn [filter]. destruct (counts_for M w (v, ts')) eqn:C; [|cbn [length]; lia]. cbn [flat_map]. rewrite app_length, map_length. cbn [snd length]. unfold counts_for in C. cbn [snd] in C. destruct ts' as [|t [|t' r]]; try discriminate C. cbn [length]. lia.
  - rewrite laplace_of. apply estimate_range. exact N.
Qed.
Lemma table_rel : forall M c mf, (Z.of_nat (length c) < 2 ^ 49)%Z -> rrel same_table (probability_table_fl fl M c mf) (probability_table M c mf).
Proof.
  intros M c mf SZ. unfold probability_table_fl, probability_table. destruct (estimate M c) as [[d cf]|e] eqn:E; [|cbn; reflexivity]. cbn [bind fst]. unfold build_cpd_fl, build_cpd.
  assert (IN : forall x, In x (filter (fun wd : str * (fdist * nat) => mf <=? fd_N (fst (snd wd))) d) -> In x d) by (intros x X; apply filter_In in X; apply X).
  revert IN. generalize (filter (fun wd : str * (fdist * nat) => mf <=? fd_N (fst (snd wd))) d). intros ws IN.
  apply (rrel_bind (Forall2 (fun a b : str * list (tag * Q) => fst a = fst b /\ exists D, Forall2 (ent D) (snd a) (snd b)))).
  - induction ws as [|[w [fd b]] ws IH]; [constructor|]. cbn [mapM]. 
    apply (rrel_bind (fun a b : str * list (tag * Q) => fst a = fst b /\ exists D, Forall2 (ent D) (snd a) (snd b))).
    + cbn [fst snd]. unfold tag_probabilities_fl, tag_probabilities. destruct (morph_parse M w) as [ps|e]; cbn; [|reflexivity]. split; [reflexivity|]. exists (Pos.of_nat (fd_N fd + b)).
      destruct (estimate_count _ _ _ _ _ _ _ E (IN _ (or_introl eq_refl))) as [C1 C2]. apply probs_ent; [|exact C2|constructor]. intros g. specialize (C1 g). lia.
    + intros x y XY. apply (rrel_bind (Forall2 (fun a b : str * list (tag * Q) => fst a = fst b /\ exists D, Forall2 (ent D) (snd a) (snd b)))); [apply IH; intros z Z; apply IN; right; exact Z|]. intros xs ys F. cbn. constructor; assumption.
  - intros x y F. cbn. unfold same_table, cpd_build. rewrite map_map. 
    assert (F' := F2_filter _ (fun wt : str * list (tag * Q) => negb (all_the_same (snd wt))) (fun wt : str * list (tag * Q) => negb (all_the_same (snd wt))) _ _ F (fun a b E0 => match E0 with conj _ (ex_intro _ D G) => f_equal negb (same_ent D _ _ G) end)).
    revert F'. generalize (filter (fun wt : str * list (tag * Q) => negb (all_the_same (snd wt))) x), (filter (fun wt : str * list (tag * Q) => negb (all_the_same (snd wt))) y). clear -R. intros l l' F.
    induction F as [|[w tq] [w' tq'] l l' (E & D & G) F IH]; [constructor|]. cbn [flat_map]. rewrite map_app. apply Forall2_app; [|exact IH]. cbn [fst snd] in E, G |- *. subst w'. rewrite map_map.
    apply (F2_map (ent D)); [exact G|]. intros [t q] [t' q'] (E1 & n & N & U & A & B). cbn [fst snd] in E1, A, B |- *. subst. split; [reflexivity|].
    assert (V := value_near fl R (n # D)%Q ltac:(unfold Qle; cbn; lia) U). set (a := cpd_value_fl fl (fl (n # D))%Q) in *. set (b := cpd_value (n # D)%Q) in *. lia.
Qed.
End table.
