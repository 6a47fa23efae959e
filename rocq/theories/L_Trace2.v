(** * Lemmas for C71: bounds *)
From Coq Require Import String List NArith ZArith Bool QArith Lia Permutation.
From Verif Require Import Py Uni Tagset Dawg Dict Units Analyzer Trace Spec Spec21.
From Verif Require Import L_Base L_Words L_Made L_Trace.
Import ListNotations.
Local Open Scope nat_scope.
Local Open Scope list_scope.

Lemma sort_desc_length : forall {A} (g : A -> A -> bool) l, length (sort_desc g l) = length l.
Proof. intros. symmetry. apply Permutation_length. apply sort_desc_perm. Qed.
Lemma unit_calls_short : forall M b lower w, prefixes_nonempty b -> In w (unit_calls M (b_cfg b) lower) -> L_Words.short lower w.
Proof.
  intros M b lower w PN I. destruct (b_cfg b) eqn:C; try (destruct I; fail); cbn [unit_calls] in I.
  - destruct (particle_splits particles lower) as [|[w' pt] r] eqn:E; [destruct I|]. destruct I as [<-|[]]. apply (particle_short lower particles w' pt). rewrite E. left; reflexivity.
  - destruct (Nat.ltb_spec (length lower) 5) as [L|L]; [destruct I|]. cbn [orb] in I. destruct (negb _); [destruct I|]. destruct I as [<-|[]].
    change 3%Z with (Z.of_nat 3). rewrite slice_from_pos. rewrite <- (firstn_skipn 3 lower) at 1. apply short_suffix. destruct lower; cbn in *; [lia|congruence].
  - destruct (negb _); [destruct I|]. destruct (split_once HY lower) as [lw [rw|]] eqn:E; [|destruct I]. destruct (split_once_spec _ _ _ _ E) as [-> _].
    destruct I as [<-|[<-|[]]].
    + split; [exists [], (HY :: rw); reflexivity|]. rewrite app_length. cbn. lia.
    + change (lw ++ HY :: rw) with (lw ++ [HY] ++ rw). rewrite app_assoc. apply short_suffix. destruct lw; discriminate.
  - apply in_map_iff in I as ([prefix rest] & <- & I). apply (kp_short M b lower prefixes mult minrem prefix rest PN C I).
Qed.
Lemma all_calls_short : forall M us lower w, Forall (fun bt => prefixes_nonempty (fst bt)) us -> In w (all_calls M us lower) -> L_Words.short lower w.
Proof.
  intros M us lower w F I. unfold all_calls in I. apply in_flat_map in I as (bt & Ib & I). rewrite Forall_forall in F. apply (unit_calls_short M (fst bt) lower w (F bt Ib) I).
Qed.
Lemma short_lower : forall U w x, lower_stable U -> L_Words.short (u_lower U w) x -> u_lower U x = x.
Proof. intros U w x St ((a & c & E) & _). exact (St w a x c E). Qed.

Lemma passed_In : forall tP tT cs t x, passed tP tT cs t -> In x t -> exists w, In w cs /\ (In x (fst (tP w)) \/ In x (fst (tT w))).
Proof.
  intros tP tT cs t x H. induction H as [cs|w cs t H IH|w cs t H IH]; intros I; [destruct I| |]; apply in_app_or in I as [I|I].
  - exists w. split; [left; reflexivity|auto].
  - destruct (IH I) as (w' & I' & X). exists w'. split; [right; exact I'|exact X].
  - exists w. split; [left; reflexivity|auto].
  - destruct (IH I) as (w' & I' & X). exists w'. split; [right; exact I'|exact X].
Qed.
Lemma passed_length : forall tP tT cs t n, passed tP tT cs t -> (forall w, In w cs -> length (fst (tP w)) <= n /\ length (fst (tT w)) <= n) -> length t <= length cs * n.
Proof.
  intros tP tT cs t n H. induction H as [cs|w cs t H IH|w cs t H IH]; intros B; [cbn; lia| |]; rewrite app_length; cbn [length]; destruct (B w (or_introl eq_refl)) as [B1 B2];
   specialize (IH (fun w' I => B w' (or_intror I))); lia.
Qed.

(** ** Only pieces of the word are analysed *)
Lemma trace_pieces : forall f M w x, lower_stable (m_uni M) -> Forall (fun bt => prefixes_nonempty (fst bt)) (m_units M) ->
  In x (fst (fst (analyze_t f M) w)) \/ In x (fst (snd (analyze_t f M) w)) -> x = w \/ L_Words.short (u_lower (m_uni M) w) x.
Proof.
  intros f M. induction f as [|f IH]; intros w x St F I; [destruct I as [[<-|[]]|[<-|[]]]; left; reflexivity|].
  destruct (analyze_passed f M w) as (es & es' & I1 & I2 & _ & _ & t & t' & E1 & E2 & P1 & P2). rewrite E1, E2 in I.
  assert (X : x = w \/ exists c, In c (all_calls M (m_units M) (u_lower (m_uni M) w)) /\ (In x (fst (fst (analyze_t f M) c)) \/ In x (fst (snd (analyze_t f M) c)))).
  { destruct I as [[<-|I]|[<-|I]]; auto; right; [destruct (passed_In _ _ _ _ x P1 I) as (c & Ic & X)|destruct (passed_In _ _ _ _ x P2 I) as (c & Ic & X)]; exists c; auto. }
  destruct X as [X|(c & Ic & X)]; [auto|]. right. assert (S := all_calls_short M _ _ c F Ic). destruct (IH c x St F X) as [->|S']; [exact S|].
  rewrite (short_lower _ _ _ St S) in S'. destruct S as ((a & b & E) & L). destruct S' as ((a' & b' & E') & L'). split; [|lia]. exists (a ++ a'), (b' ++ b). rewrite E, E', <- !app_assoc. reflexivity.
Qed.

(** ** An exponential upper bound *)
Lemma nonempty_prefixes_NoDup : forall s, NoDup (nonempty_prefixes s).
Proof.
  induction s as [|c s IH]; [constructor|]. cbn [nonempty_prefixes]. constructor.
  - intros I. apply in_map_iff in I as (x & E & I). injection E as ->. apply nonempty_prefixes_In in I as [N _]. congruence.
  - apply FinFun.Injective_map_NoDup; [|exact IH]. intros x y E. congruence.
Qed.
Lemma filter_length_le : forall {A} (P : A -> bool) l, length (filter P l) <= length l.
Proof. intros A P l. induction l as [|x l IH]; [cbn; lia|]. cbn [filter]. destruct (P x); cbn [length]; lia. Qed.
Lemma matcher_length : forall ext ps w, length (matcher_prefixes ext ps w) <= length ps.
Proof.
  intros [] ps w; cbn [matcher_prefixes].
  - apply NoDup_incl_length; [apply NoDup_filter, nonempty_prefixes_NoDup|]. intros x I. apply filter_In in I as [_ I]. apply smem_In. exact I.
  - unfold py_prefixes. destruct (py_is_prefixed ps w); [apply filter_length_le|cbn; lia].
Qed.
Lemma unit_calls_length : forall M c lower, length (unit_calls M c lower) <= unit_branches c.
Proof.
  intros M c lower. destruct c; cbn [unit_calls unit_branches length]; try lia.
  - destruct (particle_splits particles lower) as [|[w' pt] r]; cbn; lia.
  - destruct (_ || _); cbn; lia.
  - destruct (negb _); [cbn; lia|]. destruct (split_once HY lower) as [lw [rw|]]; cbn; lia.
  - rewrite map_length. unfold kp_splits. eapply Nat.le_trans; [apply filter_length_le|]. rewrite map_length, sort_desc_length. apply matcher_length.
Qed.
Lemma all_calls_length : forall M us lower, length (all_calls M us lower) <= list_sum (map (fun bt => unit_branches (b_cfg (fst bt))) us).
Proof.
  intros M us lower. induction us as [|bt us IH]; [cbn; lia|]. cbn [all_calls flat_map map list_sum fold_right]. rewrite app_length. fold (all_calls M us lower). assert (X := unit_calls_length M (b_cfg (fst bt)) lower). cbn in IH. unfold list_sum in IH |- *. lia.
Qed.
Lemma trace_length : forall f M w, lower_stable (m_uni M) -> Forall (fun bt => prefixes_nonempty (fst bt)) (m_units M) ->
  length (fst (fst (analyze_t f M) w)) <= S (branches M) ^ S (length (u_lower (m_uni M) w)) /\
  length (fst (snd (analyze_t f M) w)) <= S (branches M) ^ S (length (u_lower (m_uni M) w)).
Proof.
  intros f M. induction f as [|f IH]; intros w St F.
  { assert (X := Nat.pow_nonzero (S (branches M)) (S (length (u_lower (m_uni M) w))) ltac:(lia)). cbn [analyze_t fst snd enter tlift length]. lia. }
  destruct (analyze_passed f M w) as (es & es' & I1 & I2 & L1 & L2 & t & t' & E1 & E2 & P1 & P2). rewrite E1, E2.
  assert (LB := all_calls_length M (m_units M) (u_lower (m_uni M) w)). fold (branches M) in LB.
  set (n := length (u_lower (m_uni M) w)) in *.
  assert (B : forall c, In c (all_calls M (m_units M) (u_lower (m_uni M) w)) -> length (fst (fst (analyze_t f M) c)) <= S (branches M) ^ n /\ length (fst (snd (analyze_t f M) c)) <= S (branches M) ^ n).
  { intros c Ic. assert (S1 := all_calls_short M _ _ c F Ic). destruct (IH c St F) as [A1 A2]. rewrite (short_lower _ _ _ St S1) in A1, A2. destruct S1 as [_ S1]. fold n in S1.
    assert (X : S (branches M) ^ S (length c) <= S (branches M) ^ n) by (apply Nat.pow_le_mono_r; lia). lia. }
  assert (T1 := passed_length _ _ _ _ (S (branches M) ^ n) P1 (fun c Ic => B c (I1 c Ic))).
  assert (T2 := passed_length _ _ _ _ (S (branches M) ^ n) P2 (fun c Ic => B c (I2 c Ic))).
  assert (NZ := Nat.pow_nonzero (S (branches M)) n ltac:(lia)). cbn [length]. rewrite Nat.pow_succ_r by lia. cbn [Nat.mul]. split; nia.
Qed.

(** ** A linear bound *)
Lemma free_splits : forall M ps minrem lower, NoDup ps -> prefix_free ps -> ~ In [] ps -> length (kp_splits M ps minrem lower) <= 1.
Proof.
  intros M ps minrem lower ND PF NE. unfold kp_splits. eapply Nat.le_trans; [apply filter_length_le|]. rewrite map_length, sort_desc_length.
  assert (SP : forall p q, In p ps -> In q ps -> (exists r, lower = p ++ r) -> (exists r, lower = q ++ r) -> p = q).
  { intros p q Ip Iq (r & E) (r' & E'). rewrite E in E'. destruct (Nat.le_ge_cases (length p) (length q)) as [L|L].
    - apply (PF p q Ip Iq). exists (skipn (length p) q). assert (X := f_equal (firstn (length p)) E'). rewrite firstn_app_exact, firstn_app in X. replace (length p - length q) with 0 in X by lia. cbn in X. rewrite app_nil_r in X. rewrite X at 1. symmetry. apply firstn_skipn.
    - symmetry. apply (PF q p Iq Ip). exists (skipn (length q) p). symmetry in E'. assert (X := f_equal (firstn (length q)) E'). rewrite firstn_app_exact, firstn_app in X. replace (length q - length p) with 0 in X by lia. cbn in X. rewrite app_nil_r in X. rewrite X at 1. symmetry. apply firstn_skipn. }
  assert (NDm : NoDup (matcher_prefixes (m_ext M) ps lower)).
  { destruct (m_ext M); cbn [matcher_prefixes]; [apply NoDup_filter, nonempty_prefixes_NoDup|]. unfold py_prefixes. destruct (py_is_prefixed ps lower); [apply NoDup_filter; exact ND|constructor]. }
  destruct (matcher_prefixes (m_ext M) ps lower) as [|p [|q r]] eqn:E; [cbn; lia|cbn; lia|]. exfalso.
  assert (Ip : In p (matcher_prefixes (m_ext M) ps lower)) by (rewrite E; left; reflexivity). assert (Iq : In q (matcher_prefixes (m_ext M) ps lower)) by (rewrite E; right; left; reflexivity).
  apply matcher_prefixes_In in Ip as [Ip Ep]. apply matcher_prefixes_In in Iq as [Iq Eq]. assert (X := SP p q Ip Iq Ep Eq). subst q. inversion NDm as [|? ? N _]. apply N. left; reflexivity.
Qed.
Lemma hyphen_free_calls : forall M c lower, ~ In (chr "-") lower -> (forall ps m r, c = UKnownPrefix ps m r -> NoDup ps /\ prefix_free ps /\ ~ In [] ps) -> length (unit_calls M c lower) <= if prefix_unit c then 1 else 0.
Proof.
  intros M c lower NH K. assert (MH : mem_char HY lower = false).
  { apply mem_char_false. exact NH. }
  destruct c; cbn [unit_calls prefix_unit length]; try lia.
  - unfold particle_splits. rewrite MH. cbn. lia.
  - destruct (prefixb (u "по-") lower) eqn:P; [|cbn [negb]; rewrite orb_true_r; cbn; lia]. exfalso. apply prefixb_spec in P as (r & ->). apply NH. right; right; left; reflexivity.
  - unfold hyph_should_parse. rewrite MH. cbn. lia.
  - rewrite map_length. destruct (K prefixes mult minrem eq_refl) as (A & B & C). apply free_splits; assumption.
Qed.
Lemma linear_calls : forall M us lower, ~ In (chr "-") lower -> (forall bt ps m r, In bt us -> b_cfg (fst bt) = UKnownPrefix ps m r -> NoDup ps /\ prefix_free ps /\ ~ In [] ps) ->
  length (all_calls M us lower) <= length (filter (fun bt => prefix_unit (b_cfg (fst bt))) us).
Proof.
  intros M us lower NH. induction us as [|bt us IH]; intros K; [cbn; lia|]. cbn [all_calls flat_map filter]. rewrite app_length. fold (all_calls M us lower).
  assert (X := hyphen_free_calls M (b_cfg (fst bt)) lower NH (fun ps m r => K bt ps m r (or_introl eq_refl))). specialize (IH (fun bt' ps m r I => K bt' ps m r (or_intror I))).
  destruct (prefix_unit (b_cfg (fst bt))); cbn [length]; lia.
Qed.
Lemma trace_linear : forall f M w, lower_stable (m_uni M) ->
  (forall bt ps m r, In bt (m_units M) -> b_cfg (fst bt) = UKnownPrefix ps m r -> NoDup ps /\ prefix_free ps /\ ~ In [] ps) ->
  length (filter (fun bt => prefix_unit (b_cfg (fst bt))) (m_units M)) <= 1 -> ~ In (chr "-") (u_lower (m_uni M) w) ->
  length (fst (fst (analyze_t f M) w)) <= S (length (u_lower (m_uni M) w)) /\ length (fst (snd (analyze_t f M) w)) <= S (length (u_lower (m_uni M) w)).
Proof.
  intros f M. induction f as [|f IH]; intros w St K ONE NH; [cbn; lia|].
  assert (F : Forall (fun bt => prefixes_nonempty (fst bt)) (m_units M)).
  { apply Forall_forall. intros bt I. unfold prefixes_nonempty. destruct (b_cfg (fst bt)) eqn:C; try exact Logic.I. exact (proj2 (proj2 (K bt _ _ _ I C))). }
  destruct (analyze_passed f M w) as (es & es' & I1 & I2 & L1 & L2 & t & t' & E1 & E2 & P1 & P2). rewrite E1, E2.
  assert (LB := linear_calls M (m_units M) (u_lower (m_uni M) w) NH K).
  set (n := length (u_lower (m_uni M) w)) in *.
  assert (B : forall c, In c (all_calls M (m_units M) (u_lower (m_uni M) w)) -> length (fst (fst (analyze_t f M) c)) <= n /\ length (fst (snd (analyze_t f M) c)) <= n).
  { intros c Ic. assert (S1 := all_calls_short M _ _ c F Ic). assert (LC := short_lower _ _ _ St S1).
    destruct (IH c St K ONE) as [A1 A2]. { rewrite LC. destruct S1 as ((a & b & E) & _). intros X. apply NH. rewrite E. apply in_or_app. right. apply in_or_app. left. exact X. }
    rewrite LC in A1, A2. destruct S1 as [_ S1]. fold n in S1. lia. }
  assert (T1 := passed_length _ _ _ _ n P1 (fun c Ic => B c (I1 c Ic))). assert (T2 := passed_length _ _ _ _ n P2 (fun c Ic => B c (I2 c Ic))).
  cbn [length]. split; nia.
Qed.
