(** * Lemmas for C72: units, estimator, parse and tag *)
From Coq Require Import String List NArith ZArith Bool QArith Qround Qabs Qpower Lia Lqa.
From Verif Require Import Py Uni Tagset Dawg Dict Utils Shapes Units Analyzer Rounding Spec Spec22.
From Verif Require Import L_Base L_Rounding L_Rounding2 L_Rounding3.
Import ListNotations.
Local Open Scope nat_scope.
Local Open Scope list_scope.

Section sim.
Context (fl : Q -> Q) (R : rounding fl) (M : morph) (SM : small_numbers M).
Context (recP recP' : str -> res (list parse)) (recT recT' : str -> res (list tag)).
Context (k : option nat) (HP : forall w, rrel (Forall2 (rel k)) (recP w) (recP' w)) (HT : forall w, recT w = recT' w).

Lemma adverb_ext : forall lower, adverb_should_parse recT M lower = adverb_should_parse recT' M lower.
Proof. intros lower. unfold adverb_should_parse. rewrite HT. reflexivity. Qed.

Lemma unit_rel : forall i b word lower seen seen', (0 < unit_score (b_cfg b))%Q -> Forall2 skr seen seen' ->
  rrel (orel (bump k)) (unit_parse_fl fl recP recT M i b word lower seen) (unit_parse recP' recT' M i b word lower seen').
Proof.
  intros i b word lower seen seen' PS S. unfold unit_parse_fl, unit_parse. 
  assert (SHP : forall s, (0 < s)%Q -> rrel (orel (bump k)) (let* ps := shape_parse (m_uni M) (Root i) b (fl s) word lower in Ok (ps, seen)) (let* ps := shape_parse (m_uni M) (Root i) b s word lower in Ok (ps, seen'))).
  { intros s P. unfold shape_parse. destruct (shape_tag (m_uni M) b word) as [[t|]|e]; cbn; [split; cbn [fst snd]; [|exact S]|split; [constructor|exact S]|reflexivity].
    constructor; [|constructor]. split; [repeat split; reflexivity|]. cbn. split; [apply lit_rel; assumption|apply lit_near; assumption]. }
  destruct (b_cfg b) as [|tp letters kk score|score|score|score|score|particles m|m|skip m|ps m minrem|m|m minlen|] eqn:C; cbn in PS.
  - destruct (dict_parse M (Root i) lower) as [ps|e] eqn:D; cbn; [|reflexivity]. split; [|exact S]. eapply dict_parse_one; exact D.
  - cbn. split; [|exact S]. cbn [fst]. destruct (smem word letters); [|constructor]. assert (F : Forall2 (@eq tag) (b_tags b) (b_tags b)) by (apply F2_same; auto). apply (F2_map eq); [exact F|]. intros t ? <-.
    split; [repeat split; reflexivity|]. cbn. split; [apply lit_rel; assumption|apply lit_near; assumption].
  - apply SHP. exact PS.
  - apply SHP. exact PS.
  - apply SHP. exact PS.
  - apply SHP. exact PS.
  - unfold particle_parse_fl, particle_parse. destruct (particle_splits particles lower) as [|[w particle] r]; [split; [constructor|exact S]|]. apply (rrel_bind (Forall2 (rel k))); [apply HP|]. intros x y F. cbn. apply adds_rel; [split; [constructor|exact S]|]. apply (F2_map (rel k)); [exact F|]. intros. apply suffixed_rel; assumption.
  - rewrite adverb_ext. apply rrel_same. intros ok. destruct ok; [|split; [constructor|exact S]]. apply rrel_same. intros t. cbn. split; cbn [fst snd]; [|constructor; [exact I|exact S]]. constructor; [|constructor]. split; [repeat split; reflexivity|]. cbn. split; [apply lit_rel; assumption|apply lit_near; assumption].
  - unfold hyph_parse_fl, hyph_parse. destruct (negb _); [split; [constructor|exact S]|]. destruct (split_once HY lower) as [lw [rw|]]; [|cbn; reflexivity].
    apply (rrel_bind (Forall2 (rel k))); [apply HP|]. intros ls ls' F. apply (rrel_bind (Forall2 (rel k))); [apply HP|]. intros rs rs' G. cbn. split; cbn [fst snd]; [|exact S]. apply Forall2_app.
    + unfold variable_both_fl, variable_both. apply (F2_flat_map (rel k)); [exact F|]. intros x y E. rewrite (rel_tag _ _ _ E). destruct (tag_is_unknown (p_tag y)); [constructor|]. apply (F2_map (rel k)); [|intros; apply both_rel; assumption]. apply F2_filter; [exact G|]. intros a c K. rewrite (rel_tag _ _ _ K). reflexivity.
    + unfold fixed_left_fl, fixed_left. apply (F2_map (rel k)); [|intros; apply fixed_rel; assumption]. apply F2_filter; [exact G|]. intros a c K. rewrite (rel_tag _ _ _ K). reflexivity.
  - unfold kp_parse_fl, kp_parse. apply rrel_foldM; [split; [constructor|exact S]|]. intros x y [prefix rest] _ E. apply (rrel_bind (Forall2 (rel k))); [apply HP|]. intros ps1 qs1 F. cbn. apply prefix_step_rel; assumption.
  - unfold up_parse_fl, up_parse. apply rrel_foldM; [split; [constructor|exact S]|]. intros x y [prefix rest] _ E. destruct (dict_parse M (Sub i) rest) as [ps|e] eqn:D; cbn; [|reflexivity]. apply prefix_step_rel; try assumption. eapply dict_parse_one; exact D.
  - apply ks_parse_rel; assumption.
  - destruct S as [|a a' s s' E S]; [|split; [constructor|constructor; assumption]]. apply rrel_same. intros t. cbn. split; cbn [fst snd]; [|constructor]. constructor; [|constructor]. apply one_rel. reflexivity.
Qed.
Lemma run_rel : forall word lower us i acc acc' seen seen', Forall (fun bt => (0 < unit_score (b_cfg (fst bt)))%Q) us -> Forall2 (rel (bump k)) acc acc' -> Forall2 skr seen seen' ->
  rrel (Forall2 (rel (bump k))) (run_parse_fl fl recP recT M word lower i us acc seen) (run_parse recP' recT' M word lower i us acc' seen').
Proof.
  intros word lower us. induction us as [|[b t] us IH]; intros i acc acc' seen seen' P A S; [exact A|]. cbn [run_parse_fl run_parse]. inversion P as [|? ? P1 P2]; subst. cbn [fst] in P1.
  apply (rrel_bind (orel (bump k))); [apply unit_rel; assumption|]. intros [ps s] [ps' s'] [X Y]. cbn [fst snd] in X, Y.
  assert (Z : Forall2 (rel (bump k)) (acc ++ ps) (acc' ++ ps')) by (apply Forall2_app; assumption).
  assert (E : match acc ++ ps with [] => false | _ => true end = match acc' ++ ps' with [] => false | _ => true end) by (destruct Z; reflexivity). rewrite E. destruct (t && _)%bool; [exact Z|]. apply IH; assumption.
Qed.
Lemma map_rel_tag : forall j l l', Forall2 (rel j) l l' -> map p_tag l = map p_tag l'.
Proof. intros j l l' F. induction F as [|p q l l' E F IH]; [reflexivity|]. cbn. rewrite (rel_tag _ _ _ E), IH. reflexivity. Qed.
Lemma foldM_ext2 : forall {A B} (f g : A -> B -> res A) l s, (forall x a, f x a = g x a) -> foldM f s l = foldM g s l.
Proof. intros A B f g l. induction l as [|a l IH]; intros s H; [reflexivity|]. cbn [foldM]. rewrite H. destruct (g s a); [cbn; apply IH; exact H|reflexivity]. Qed.
Lemma unit_tag_rel : forall i b word lower seen, (0 < unit_score (b_cfg b))%Q -> unit_tag_fl fl recP recT M i b word lower seen = unit_tag recP' recT' M i b word lower seen.
Proof.
  intros i b word lower seen PS. assert (U := unit_rel i b word lower [] [] PS (Forall2_nil _)). unfold unit_parse_fl, unit_parse in U. unfold unit_tag_fl, unit_tag.
  destruct (b_cfg b) as [|tp letters kk score|score|score|score|score|particles m|m|skip m|ps m minrem|m|m minlen|] eqn:C; cbn in PS; try reflexivity.
  - unfold particle_tag. destruct (particle_splits particles lower) as [|[w ?] ?]; [reflexivity|]. rewrite HT. reflexivity.
  - rewrite adverb_ext. reflexivity.
  - unfold default_tag. destruct (hyph_parse_fl fl recP M (Root i) skip m lower []) as [[x s]|e]; destruct (hyph_parse recP' M (Root i) skip m lower []) as [[y s']|e']; cbn in U |- *; try contradiction; [|congruence]. destruct U as [U _]. cbn [fst] in U. rewrite (map_rel_tag _ _ _ U). reflexivity.
  - unfold kp_tag. apply foldM_ext2. intros x a. rewrite HT. reflexivity.
Qed.
Lemma run_tag_rel : forall word lower us i acc seen, Forall (fun bt => (0 < unit_score (b_cfg (fst bt)))%Q) us ->
  run_tag_fl fl recP recT M word lower i us acc seen = run_tag recP' recT' M word lower i us acc seen.
Proof.
  intros word lower us. induction us as [|[b t] us IH]; intros i acc seen P; [reflexivity|]. cbn [run_tag_fl run_tag]. inversion P as [|? ? P1 P2]; subst. cbn [fst] in P1. rewrite unit_tag_rel by exact P1.
  destruct (unit_tag recP' recT' M i b word lower seen) as [[ts s]|e]; cbn; [|reflexivity]. destruct (t && _)%bool; [reflexivity|]. apply IH. exact P2.
Qed.
End sim.

Section est.
Context (fl : Q -> Q) (R : rounding fl).
Lemma sum_zero : forall l l' s s', Forall2 (fun x y => (0 <= x /\ 0 <= y /\ (x == 0 <-> y == 0))%Q) l l' -> (0 <= s)%Q -> (0 <= s')%Q -> (s == 0 <-> s' == 0)%Q ->
  let a := fold_left (fun s x => fl (s + x)%Q) l s in let b := fold_left Qplus l' s' in (0 <= a)%Q /\ (0 <= b)%Q /\ (a == 0 <-> b == 0)%Q.
Proof.
  intros l l' s s' F. revert s s'. induction F as [|x y l l' (X & Y & E) F IH]; intros s s' S S' Z; [cbn; tauto|]. cbn [fold_left]. apply IH.
  - apply fl_nonneg; [exact R|lra].
  - lra.
  - rewrite (fl_iff fl R) by lra. split; intros H.
    + assert (H1 : (x == 0)%Q) by lra. assert (H2 : (s == 0)%Q) by lra. apply E in H1. apply Z in H2. lra.
    + assert (H1 : (y == 0)%Q) by lra. assert (H2 : (s' == 0)%Q) by lra. apply E in H1. apply Z in H2. lra.
Qed.
Lemma sums : forall l l', Forall2 (fun x y => (0 <= x /\ 0 <= y /\ (x == 0 <-> y == 0))%Q) l l' -> (0 <= sum_fl fl l)%Q /\ (0 <= Qsum l')%Q /\ (sum_fl fl l == 0 <-> Qsum l' == 0)%Q.
Proof. intros l l' F. apply (sum_zero l l' 0%Q 0%Q F); [lra|lra|tauto]. Qed.
Lemma Qeq_bool_iff2 : forall x y, (x == 0 <-> y == 0)%Q -> Qeq_bool x 0 = Qeq_bool y 0.
Proof.
  intros x y H. destruct (Qeq_bool x 0) eqn:A, (Qeq_bool y 0) eqn:B; try reflexivity.
  - apply Qeq_bool_iff in A. apply H in A. apply Qeq_bool_iff in A. congruence.
  - apply Qeq_bool_iff in B. apply H in B. apply Qeq_bool_iff in B. congruence.
Qed.
Context (d : cpd) (SD : forall k n, sget k d = Some n -> (Z.of_N n < 2 ^ 50)%Z).
Lemma prob_num : forall lower t, exists n, (0 <= n < 2 ^ 50)%Z /\ prob d lower t = (n # MULTIPLIER)%Q.
Proof.
  intros lower t. unfold prob. destruct (sget (prob_key lower t) d) as [n|] eqn:E; [|exists 0%Z; split; [lia|reflexivity]]. exists (Z.of_N n). split; [|reflexivity]. apply SD in E. lia.
Qed.
Lemma prob_geb : forall lower t t', Qgeb (prob_fl fl d lower t) (prob_fl fl d lower t') = Qgeb (prob d lower t) (prob d lower t').
Proof.
  intros lower t t'. unfold Qgeb, prob_fl. destruct (prob_num lower t) as (n & N & ->). destruct (prob_num lower t') as (n' & N' & ->). apply cmp_prob; assumption.
Qed.
Lemma prob_rel : forall lower t, (0 <= prob_fl fl d lower t)%Q /\ (0 <= prob d lower t)%Q /\ (prob_fl fl d lower t == 0 <-> prob d lower t == 0)%Q.
Proof.
  intros lower t. unfold prob_fl. assert (P : (0 <= prob d lower t)%Q) by (destruct (prob_num lower t) as (n & N & ->); unfold Qle; cbn; lia). split; [apply fl_nonneg; assumption|]. split; [exact P|]. apply fl_iff; assumption.
Qed.
Lemma est_rel : forall k lower ps qs, Forall2 (rel k) ps qs -> rrel (Forall2 (rel None)) (apply_to_parses_fl fl d lower ps) (apply_to_parses d lower qs).
Proof.
  intros k lower ps qs F. unfold apply_to_parses_fl, apply_to_parses. destruct F as [|p q ps qs E0 F0]; [constructor|]. assert (F : Forall2 (rel k) (p :: ps) (q :: qs)) by (constructor; assumption). clear E0 F0. revert F. generalize (p :: ps), (q :: qs). clear p ps q qs. intros ps qs F.
  assert (FP : Forall2 (fun x y => (0 <= x /\ 0 <= y /\ (x == 0 <-> y == 0))%Q) (map (fun p => prob_fl fl d lower (t_str (p_tag p))) ps) (map (fun p => prob d lower (t_str (p_tag p))) qs)) by (apply (F2_map (rel k)); [exact F|]; intros x y E; rewrite (rel_tag _ _ _ E); apply prob_rel).
  assert (FS : Forall2 (fun x y => (0 <= x /\ 0 <= y /\ (x == 0 <-> y == 0))%Q) (map p_score ps) (map p_score qs)) by (apply (F2_map (rel k)); [exact F|]; intros x y (_ & E & _); exact E).
  destruct (sums _ _ FP) as (_ & _ & Z1). rewrite (Qeq_bool_iff2 _ _ Z1). destruct (Qeq_bool (Qsum _) 0).
  - destruct (sums _ _ FS) as (A & B & Z2). rewrite (Qeq_bool_iff2 _ _ Z2). destruct (Qeq_bool (Qsum (map p_score qs)) 0) eqn:QB; [cbn; reflexivity|]. cbn. apply (F2_map (rel k)); [exact F|].
    intros x y (S & (X & Y & E) & _). split; [exact S|]. cbn. split; [|exact I].
    set (a := sum_fl fl (map p_score ps)) in *. set (b := Qsum (map p_score qs)) in *.
    assert (BP : (0 < b)%Q) by (destruct (Qlt_le_dec 0 b) as [L|L]; [exact L|]; assert (b == 0)%Q as K by lra; apply Qeq_bool_iff in K; congruence).
    assert (AP : (0 < a)%Q) by (destruct (Qlt_le_dec 0 a) as [L|L]; [exact L|]; assert (a == 0)%Q as K by lra; apply Z2 in K; lra).
    assert (IA : (0 < 1 / a)%Q) by (apply Qlt_shift_div_l; [exact AP|lra]). assert (IB : (0 < 1 / b)%Q) by (apply Qlt_shift_div_l; [exact BP|lra]). assert (FA := fl_pos fl R _ IA).
    assert (X1 : (0 <= p_score x * fl (1 / a))%Q) by nra. split; [apply fl_nonneg; assumption|]. split; [nra|]. rewrite (fl_iff fl R _ X1). split; intros H; apply Qmult_integral in H as [H|H]; try lra; apply E in H; rewrite H; ring.
  - cbn. apply (F2_weaken (fun x y => rel None x y /\ exists t, p_score x = prob_fl fl d lower t /\ p_score y = prob d lower t)); [|intros x y [E _]; exact E]. apply F2_sort.
    + clear FP FS Z1. induction F as [|p q ps qs E F IH]; [constructor|]. cbn [map combine]. constructor; [|exact IH]. cbn [fst snd]. rewrite (rel_tag _ _ _ E). split; [|exists (t_str (p_tag q)); split; reflexivity]. destruct E as (S & _). split; [exact S|]. cbn. split; [apply prob_rel|exact I].
    + intros x y x' y' (_ & t & A & B) (_ & t' & A' & B'). unfold score_geb. rewrite A, B, A', B'. apply prob_geb.
Qed.
Lemma est_tags : forall lower ts, apply_to_tags_fl fl d lower ts = apply_to_tags d lower ts.
Proof.
  intros lower ts. unfold apply_to_tags_fl, apply_to_tags. induction ts as [|t ts IH]; [reflexivity|]. cbn [sort_desc]. rewrite IH. generalize (sort_desc (fun a b => Qgeb (prob d lower (t_str a)) (prob d lower (t_str b))) ts). intros l. induction l as [|y l IH2]; [reflexivity|]. cbn [insert_desc]. rewrite prob_geb, IH2. reflexivity.
Qed.
End est.

Section all.
Context (fl : Q -> Q) (R : rounding fl) (M : morph) (SM : small_numbers M) (SP : scores_pos M).
Definition level (n : nat) : option nat := match m_prob M with None => Some (3 * n) | Some _ => None end.
Lemma level_bump : forall n, match m_prob M with None => bump (level n) = level (S n) | Some _ => True end.
Proof. intros n. unfold level. destruct (m_prob M); [exact I|]. cbn [bump]. f_equal. lia. Qed.
Lemma analyze_rel : forall n, (forall w, rrel (Forall2 (rel (level n))) (fst (analyze_fl fl n M) w) (parse_f n M w)) /\ (forall w, snd (analyze_fl fl n M) w = tag_f n M w).
Proof.
  induction n as [|n [IH1 IH2]]; [split; intros; cbn; reflexivity|]. split; intros w; unfold parse_f, tag_f; cbn [analyze_fl analyze fst snd].
  - apply (rrel_bind (Forall2 (rel (bump (level n))))); [apply run_rel; try assumption; constructor|]. intros x y F. assert (L := level_bump n). destruct (m_prob M) as [d|] eqn:D; [|rewrite <- L; exact F].
    unfold level. rewrite D. apply (est_rel fl R d) with (k := bump (level n)); [|exact F]. intros k v H. apply (proj2 SM d k v); [exact D|exact H].
  - rewrite (run_tag_rel fl R M SM (fst (analyze_fl fl n M)) (fst (analyze n M)) (snd (analyze_fl fl n M)) (snd (analyze n M)) (level n)) by assumption.
    destruct (run_tag _ _ _ _ _ _ _ _ _) as [ts|e]; cbn; [|reflexivity]. destruct (m_prob M) as [d|] eqn:D; [|reflexivity]. rewrite est_tags; [reflexivity|exact R|]. intros k v H. apply (proj2 SM d k v); [exact D|exact H].
Qed.
End all.

Lemma same_of_rrel : forall k a b, rrel (Forall2 (rel k)) a b -> same_readings a b.
Proof. intros k [x|e] [y|e'] H; cbn in *; auto. apply (F2_weaken (rel k)); [exact H|]. intros p q [S _]. exact S. Qed.
Lemma parse_b64_same : forall M w, scores_pos M -> small_numbers M -> same_readings (parse_b64 M w) (morph_parse M w).
Proof. intros M w SP SM. apply (same_of_rrel (level M (fuel_for M w))). apply (proj1 (analyze_rel b64 b64_rounding M SM SP (fuel_for M w))). Qed.
Lemma tag_b64_same : forall M w, scores_pos M -> small_numbers M -> tag_b64 M w = morph_tag M w.
Proof. intros M w SP SM. apply (proj2 (analyze_rel b64 b64_rounding M SM SP (fuel_for M w))). Qed.
Lemma parse_b64_near : forall M w ps qs, scores_pos M -> small_numbers M -> m_prob M = None -> parse_b64 M w = Ok ps -> morph_parse M w = Ok qs ->
  Forall2 (fun p q => off_by (3 * S (length (u_lower (m_uni M) w))) (p_score p) (p_score q)) ps qs.
Proof.
  intros M w ps qs SP SM NP A B. assert (H := proj1 (analyze_rel b64 b64_rounding M SM SP (fuel_for M w)) w). unfold parse_b64 in A. unfold morph_parse in B. rewrite A, B in H. cbn [rrel] in H.
  apply (F2_weaken (rel (level M (fuel_for M w)))); [exact H|]. intros p q (_ & _ & N). unfold level, fuel_for in N. rewrite NP in N. exact N.
Qed.
