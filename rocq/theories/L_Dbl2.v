(** * Lemmas for C72: units and estimator with doubles *)
From Coq Require Import String List NArith ZArith Bool QArith Qround Qabs Qpower Lia Lqa.
From Verif Require Import Py Uni Tagset Dawg Dict Utils Shapes Units Analyzer Rounding Doubles Spec Spec13 Spec22 Spec31.
From Verif Require Import L_Base L_Made L_Run L_Words L_Score L_Rounding L_Rounding3 L_Rounding6 L_Rounding7 L_Dbl.
Import ListNotations.
Local Open Scope nat_scope.
Local Open Scope list_scope.

Lemma lit_lo : forall c m, (tiny c <= m)%Q -> (m <= 1)%Q -> c <= 1022 -> dbl m = b64 m /\ (tiny c <= b64 m)%Q /\ (0 <= b64 m <= 1)%Q.
Proof.
  intros c m A B C. assert (T := tiny_pos c). assert (L : lo c m) by (right; exact A). split; [apply (dbl_lo2 c); [exact C|exact L|lra]|].
  assert (P := fl_pos b64 b64_rounding m ltac:(lra)). split; [|split; [lra|apply b64_le1; [lra|unfold ulp; lra]]]. destruct (lo_b64 c m L) as [E|K]; [lra|exact K].
Qed.
(** a reading's score times a multiplier *)
Lemma times_lo : forall c d x m, lo c x -> (0 <= x <= 1)%Q -> (tiny d <= m)%Q -> (m <= 1)%Q -> c + d <= 1022 ->
  dbl (x * dbl m) = b64 (x * b64 m) /\ lo (c + d) (b64 (x * b64 m)).
Proof.
  intros c d x m L X A B C. destruct (lit_lo d m A B ltac:(lia)) as (E & F & G). rewrite E. assert (K : lo (c + d) (x * b64 m)) by (apply lo_times; [exact L|right; exact F]).
  split; [|apply lo_b64; exact K]. apply (dbl_lo2 (c + d)); [exact C|exact K|]. destruct (mult01 x (b64 m)) as [_ H]; [exact X|exact G|]. lra.
Qed.
Lemma half_tiny : (tiny 1 == 1 # 2)%Q.
Proof. reflexivity. Qed.
Lemma map_eq_in : forall {A B} (f g : A -> B) l, (forall x, In x l -> f x = g x) -> map f l = map g l.
Proof. intros. apply map_ext_in. assumption. Qed.
Definition plo (c : nat) (p : parse) : Prop := lo c (p_score p).
Lemma adds_lo : forall c l st p, (forall q, In q l -> plo c q) -> (forall q, In q (fst st) -> plo c q) -> In p (fst (fold_left add_parse_if_not_seen l st)) -> plo c p.
Proof.
  intros c. induction l as [|x l IH]; intros [r s] p L S I; [apply S; exact I|]. cbn [fold_left] in I. apply (IH (add_parse_if_not_seen (r, s) x) p); [intros; apply L; right; assumption| |exact I].
  intros q Q. unfold add_parse_if_not_seen in Q. destruct (seen_mem _ s); [apply S; exact Q|]. cbn [fst] in Q. apply in_app_iff in Q as [Q|[<-|[]]]; [apply S; exact Q|apply L; left; reflexivity].
Qed.
Lemma foldM_lo : forall {A} c (f : list parse * list skey -> A -> res (list parse * list skey)) l st r, foldM f st l = Ok r -> (forall q, In q (fst st) -> plo c q) ->
  (forall st a r, In a l -> f st a = Ok r -> (forall q, In q (fst st) -> plo c q) -> forall q, In q (fst r) -> plo c q) -> forall q, In q (fst r) -> plo c q.
Proof.
  intros A c f l. induction l as [|a l IH]; intros st r H S K; [cbn in H; apply Ok_inj in H; subst; exact S|]. cbn [foldM] in H. apply bind_ok in H as (st1 & H1 & H). apply (IH st1 r H); [apply (K st a st1 (or_introl eq_refl) H1 S)|]. intros; eapply K; eauto. right; assumption.
Qed.
Lemma foldM_ext_in : forall {A B} (f g : A -> B -> res A) l s, (forall x a, In a l -> f x a = g x a) -> foldM f s l = foldM g s l.
Proof. intros A B f g l. induction l as [|a l IH]; intros s H; [reflexivity|]. cbn [foldM]. rewrite (H s a (or_introl eq_refl)). destruct (g s a); [|reflexivity]. cbn [bind]. apply IH. intros; apply H; right; assumption. Qed.

(** prefixed readings *)
Lemma prefix_step_dbl : forall c d self m prefix st ps, (forall q, In q ps -> plo c q /\ good q) -> (tiny d <= m)%Q -> (m <= 1)%Q -> c + d <= 1022 ->
  prefix_step_fl dbl self m prefix st ps = prefix_step_fl b64 self m prefix st ps /\
  ((forall q, In q (fst st) -> plo (c + d) q) -> forall q, In q (fst (prefix_step_fl b64 self m prefix st ps)) -> plo (c + d) q).
Proof.
  intros c d self m prefix st ps G A B C.
  assert (K : forall p, In p ps -> dbl (p_score p * dbl m) = b64 (p_score p * b64 m) /\ lo (c + d) (b64 (p_score p * b64 m))).
  { intros p I. destruct (G p I) as [L (X & Y & _)]. apply times_lo; auto. }
  split.
  - unfold prefix_step_fl. f_equal. apply map_eq_in. intros p I. apply filter_In in I as [I _]. unfold prefixed_fl. rewrite (proj1 (K p I)). reflexivity.
  - intros S q I. apply (adds_lo (c + d)) in I; [exact I| |exact S]. intros x X. apply in_map_iff in X as (p & <- & X). apply filter_In in X as [X _]. unfold plo. cbn. apply K. exact X.
Qed.
Lemma dict_lo : forall M self w ps p, dict_parse M self w = Ok ps -> In p ps -> plo 0 p /\ good p.
Proof.
  intros M self w ps p H I. split; [|exact (dict_good M self w ps p H I)]. apply dict_parse_entry with (p := p) in H; [|exact I]. destruct H as (w' & vals & para & idx & nf & t & H1 & H2 & H3 & H4 & H5 & ->). right. cbn. unfold tiny. cbn. lra.
Qed.
(** predicted readings *)
Lemma frac_lo : forall c t, (0 < Z.of_nat t < 2 ^ 33)%Z -> (Z.of_nat c <= Z.of_nat t)%Z -> lo 33 (Z.of_nat c # Pos.of_nat t) /\ (0 <= Z.of_nat c # Pos.of_nat t <= 1)%Q.
Proof.
  intros c t T C. assert (PP : Zpos (Pos.of_nat t) = Z.of_nat t) by (rewrite <- positive_nat_Z, Nat2Pos.id by lia; reflexivity). split; [|unfold Qle; cbn [Qnum Qden]; rewrite ?PP; lia].
  destruct (Nat.eq_dec c 0) as [->|N]; [left; reflexivity|right]. change (tiny 33) with (1 # 8589934592)%Q. unfold Qle. cbn [Qnum Qden]. rewrite PP. change (2 ^ 33)%Z with 8589934592%Z in T. assert (1 <= Z.of_nat c)%Z by lia. lia.
Qed.
Lemma ks_entry : forall m c t, (0 < Z.of_nat t < 2 ^ 33)%Z -> (Z.of_nat c <= Z.of_nat t)%Z -> (tiny 10 <= m)%Q -> (m <= 1)%Q ->
  dbl (dbl (Z.of_nat c # Pos.of_nat t) * dbl m) = b64 (b64 (Z.of_nat c # Pos.of_nat t) * b64 m) /\ lo 43 (b64 (b64 (Z.of_nat c # Pos.of_nat t) * b64 m)).
Proof.
  intros m c t T C A B. destruct (frac_lo c t T C) as [L X]. rewrite (dbl_lo2 33 (Z.of_nat c # Pos.of_nat t)) by (lia || exact L || lra). apply (times_lo 33 10); [apply lo_b64; exact L| |exact A|exact B|lia].
  split; [apply fl_nonneg; [exact b64_rounding|lra]|apply b64_le1; [lra|unfold ulp; lra]].
Qed.
Lemma ks_parse_dbl : forall M self sub m minlen word lower seen, small_numbers M -> (tiny 10 <= m)%Q -> (m <= 1)%Q ->
  ks_parse_fl dbl M self sub m minlen word lower seen = ks_parse_fl b64 M self sub m minlen word lower seen /\
  forall ps s p, ks_parse_fl b64 M self sub m minlen word lower seen = Ok (ps, s) -> In p ps -> plo 43 p.
Proof.
  intros M self sub m minlen word lower seen SM A B.
  assert (K : forall pid dawg st0 st r, nth_res (d_pred (m_dict M)) pid = Ok dawg -> ks_res st0 = [] -> ks_total st0 = 1 -> ks_lengths M self sub pid dawg lower st0 (ks_splits (m_dict M)) = Ok st -> In r (ks_res st) ->
     ks_score_fl dbl m (ks_total st) r = ks_score_fl b64 m (ks_total st) r /\ plo 43 (ks_score_fl b64 m (ks_total st) r)).
  { intros pid dawg st0 st r D E0 T0 E I. assert (ID := nth_res_In _ _ _ D). destruct (ks_lengths_bound M self sub pid dawg lower (ks_splits (m_dict M)) st0 st E SM ID) as [_ T]; [rewrite E0; constructor|exact T0|].
    destruct (ks_le _ _ _ _ _ _ _ _ _ E) as [L _]; [rewrite E0; intros y []|rewrite T0; lia|]. specialize (L r I). destruct (ks_entry m (k_cnt r) (ks_total st) T) as [X Y]; [lia|exact A|exact B|]. split; [|exact Y]. unfold ks_score_fl. rewrite X. reflexivity. }
  assert (STEP : forall st ip, ks_prefix_fl dbl M self sub m lower st ip = ks_prefix_fl b64 M self sub m lower st ip).
  { intros st [pid pre]. unfold ks_prefix_fl. destruct (nth_res (d_pred (m_dict M)) pid) as [dawg|e] eqn:D; [|reflexivity]. cbn [bind]. destruct (ks_lengths _ _ _ _ _ _ _ _) as [x|e] eqn:E; [|reflexivity]. cbn [bind]. do 3 f_equal. apply map_eq_in. intros r I. apply (K pid dawg _ x r D) in E; [apply E|reflexivity|reflexivity|exact I]. }
  split.
  - unfold ks_parse_fl. destruct (length word <? minlen); [reflexivity|]. rewrite (foldM_ext_in (ks_prefix_fl dbl M self sub m lower) (ks_prefix_fl b64 M self sub m lower)) by (intros; apply STEP). reflexivity.
  - intros ps s p H I. unfold ks_parse_fl in H. destruct (length word <? minlen); [apply Ok_inj in H; injection H as <- _; destruct I|]. apply bind_ok in H as (r & H1 & H). apply Ok_inj in H. injection H as <- _. apply sort_desc_In in I.
    apply (foldM_lo 43 _ _ _ _ H1) with (q := p); [intros q []| |exact I]. intros st [pid pre] r' _ E G q Q. unfold ks_prefix_fl in E. apply bind_ok in E as (dawg & D & E). apply bind_ok in E as (st' & E1 & E). apply Ok_inj in E. subst r'. cbn [fst] in Q. apply in_app_iff in Q as [Q|Q]; [apply G; exact Q|].
    apply in_map_iff in Q as (x & <- & X). apply (K pid dawg _ st' x D) in E1; [apply E1|reflexivity|reflexivity|exact X].
Qed.

Section unit.
Context (recP recP' : str -> res (list parse)) (recT recT' : str -> res (list tag)) (M : morph) (SM : small_numbers M) (lower : str) (c : nat).
Context (SAME : forall w, short lower w -> recP w = recP' w /\ recT w = recT' w /\ (forall ps p, recP' w = Ok ps -> In p ps -> plo c p)).
Context (HP : forall w, allgood (recP' w)) (C0 : 43 <= c) (C1 : S c <= 1022).

Definition not_tiny (b : bunit) : Prop := (if nesting (b_cfg b) then 1 # 2 <= unit_score (b_cfg b) else 1 # 1024 <= unit_score (b_cfg b))%Q /\ (unit_score (b_cfg b) <= 1)%Q.
Lemma nested_ok : forall w ps, short lower w -> recP' w = Ok ps -> forall q, In q ps -> plo c q /\ good q.
Proof. intros w ps S E q I. split; [exact (proj2 (proj2 (SAME w S)) ps q E I)|exact (HP w ps q E I)]. Qed.
Lemma nested_times : forall w ps m p, short lower w -> recP' w = Ok ps -> In p ps -> (1 # 2 <= m)%Q -> (m <= 1)%Q ->
  dbl (p_score p * dbl m) = b64 (p_score p * b64 m) /\ lo (S c) (b64 (p_score p * b64 m)).
Proof.
  intros w ps m p S E I A B. destruct (nested_ok w ps S E p I) as [L (X & Y & _)]. rewrite <- Nat.add_1_r. apply (times_lo c 1); [exact L|split; assumption|rewrite half_tiny; exact A|exact B|lia].
Qed.
Lemma hyph_dbl : forall i skip m seen, (1 # 2 <= m)%Q -> (m <= 1)%Q ->
  hyph_parse_fl dbl recP M (Root i) skip m lower seen = hyph_parse_fl b64 recP' M (Root i) skip m lower seen /\
  forall ps s p, hyph_parse_fl b64 recP' M (Root i) skip m lower seen = Ok (ps, s) -> In p ps -> plo (S c) p.
Proof.
  intros i skip m seen A B. unfold hyph_parse_fl. destruct (negb _); [split; [reflexivity|]; intros ps s p H I; apply Ok_inj in H; injection H as <- _; destruct I|].
  destruct (split_once HY lower) as [lw [rw|]] eqn:E; [|split; [reflexivity|]; intros ps s p H; discriminate H]. apply split_once_spec in E as [E _].
  assert (SL : short lower lw). { rewrite E. split; [exists [], (HY :: rw); auto|rewrite app_length; simpl; lia]. }
  assert (SR : short lower rw). { rewrite E. split; [exists (lw ++ [HY]), []; rewrite app_nil_r, <- app_assoc; auto|rewrite app_length; simpl; lia]. }
  rewrite (proj1 (SAME lw SL)), (proj1 (SAME rw SR)). destruct (recP' lw) as [ls|e] eqn:EL; [|split; [reflexivity|]; intros ps s p H; discriminate H]. destruct (recP' rw) as [rs|e] eqn:ER; [|split; [reflexivity|]; intros ps s p H; discriminate H]. cbn [bind].
  assert (KL := fun p I => nested_times lw ls m p SL EL I A B). assert (KR := fun p I => nested_times rw rs m p SR ER I A B). split.
  - f_equal. f_equal. f_equal.
    + unfold variable_both_fl. revert KL. clear. induction ls as [|l ls IH]; intros K; [reflexivity|]. cbn [flat_map]. rewrite IH by (intros; apply K; right; assumption). f_equal. destruct (tag_is_unknown (p_tag l)); [reflexivity|]. apply map_eq_in. intros r _. unfold both_parse_fl. rewrite (proj1 (K l (or_introl eq_refl))). reflexivity.
    + unfold fixed_left_fl. apply map_eq_in. intros r I. apply filter_In in I as [I _]. unfold fixed_left_parse_fl. rewrite (proj1 (KR r I)). reflexivity.
  - intros ps s p H I. apply Ok_inj in H. injection H as <- _. apply in_app_iff in I as [I|I].
    + unfold variable_both_fl in I. apply in_flat_map in I as (l & L & I). destruct (tag_is_unknown (p_tag l)); [destruct I|]. apply in_map_iff in I as (r & <- & _). unfold plo. cbn. apply KL. exact L.
    + unfold fixed_left_fl in I. apply in_map_iff in I as (r & <- & I). apply filter_In in I as [I _]. unfold plo. cbn. apply KR. exact I.
Qed.
Lemma rec_same : forall w, short lower w -> recP w = recP' w /\ recT w = recT' w.
Proof. intros w S. destruct (SAME w S) as (A & B & _). auto. Qed.
Lemma unit_dbl : forall i b word seen, not_tiny b -> prefixes_nonempty b ->
  unit_parse_fl dbl recP recT M i b word lower seen = unit_parse_fl b64 recP' recT' M i b word lower seen /\
  forall ps s p, unit_parse_fl b64 recP' recT' M i b word lower seen = Ok (ps, s) -> In p ps -> plo (S c) p.
Proof.
  intros i b word seen [N0 N1] PN. unfold unit_parse_fl.
  assert (T10 : (tiny 10 == 1 # 1024)%Q) by reflexivity.
  assert (LIT : forall q, (1 # 1024 <= q)%Q -> (q <= 1)%Q -> dbl q = b64 q /\ lo (S c) (b64 q)).
  { intros q A B. destruct (lit_lo 10 q) as (X & Y & _); [rewrite T10; exact A|exact B|lia|]. split; [exact X|]. apply (lo_mono 10); [lia|right; exact Y]. }
  assert (ONE : lo (S c) 1). { apply (lo_mono 0); [lia|]. right. unfold tiny. cbn. lra. }
  assert (SH : forall q, (1 # 1024 <= q)%Q -> (q <= 1)%Q ->
     (let* ps := shape_parse (m_uni M) (Root i) b (dbl q) word lower in Ok (ps, seen)) = (let* ps := shape_parse (m_uni M) (Root i) b (b64 q) word lower in Ok (ps, seen)) /\
     forall ps s p, (let* ps := shape_parse (m_uni M) (Root i) b (b64 q) word lower in Ok (ps, seen)) = Ok (ps, s) -> In p ps -> plo (S c) p).
  { intros q A B. destruct (LIT q A B) as [E L]. rewrite E. split; [reflexivity|]. intros ps s p H I. apply bind_ok in H as (l & E1 & H). apply Ok_inj in H. injection H as <- _. unfold shape_parse in E1. apply bind_ok in E1 as (o & _ & E1). destruct o; apply Ok_inj in E1; subst l; [destruct I as [<-|[]]|destruct I]. exact L. }
  destruct (b_cfg b) as [|tp letters k score|score|score|score|score|particles m|m|skip m|prs m minrem|m|m minlen|] eqn:C; cbn in N0, N1; try (apply SH; assumption).
  - split; [reflexivity|]. intros ps s p H I. apply bind_ok in H as (l & H1 & H). apply Ok_inj in H. injection H as <- _. apply (lo_mono 0); [lia|]. exact (proj1 (dict_lo _ _ _ _ _ H1 I)).
  - destruct (LIT score N0 N1) as [E L]. rewrite E. split; [reflexivity|]. intros ps s p H I. apply Ok_inj in H. injection H as <- _. destruct (smem word letters); [|destruct I]. apply in_map_iff in I as (t & <- & _). exact L.
  - unfold particle_parse_fl. destruct (particle_splits particles lower) as [|[w particle] r] eqn:E; [split; [reflexivity|]; intros ps s p H I; apply Ok_inj in H; injection H as <- _; destruct I|].
    assert (SW : short lower w) by (eapply particle_short; rewrite E; left; reflexivity). rewrite (proj1 (SAME w SW)). destruct (recP' w) as [l|e] eqn:EW; [|split; [reflexivity|]; intros ps s p H; discriminate H]. cbn [bind].
    assert (K := fun p I => nested_times w l m p SW EW I N0 N1). split.
    + do 2 f_equal. apply map_eq_in. intros p I. unfold suffixed_fl. rewrite (proj1 (K p I)). reflexivity.
    + intros ps s p H I. apply Ok_inj in H. apply (f_equal fst) in H. cbn [fst] in H. rewrite <- H in I. apply (adds_lo (S c)) in I; [exact I| |intros q []]. intros q Q. apply in_map_iff in Q as (x & <- & X). unfold plo. cbn. apply K. exact X.
  - rewrite (adverb_same recP recP' recT recT' M lower rec_same). destruct (LIT m N0 N1) as [E L]. rewrite E. split; [reflexivity|]. intros ps s p H I. apply bind_ok in H as (ok & _ & H). destruct ok; [|apply Ok_inj in H; injection H as <- _; destruct I]. apply bind_ok in H as (t & _ & H). apply Ok_inj in H. injection H as <- _. destruct I as [<-|[]]. exact L.
  - apply hyph_dbl; assumption.
  - unfold kp_parse_fl. assert (KS : forall prefix rest, In (prefix, rest) (kp_splits M prs minrem lower) -> short lower rest) by (intros prefix rest I; exact (kp_short M b lower prs m minrem prefix rest PN C I)). split.
    + apply foldM_ext_in. intros st [prefix rest] I. specialize (KS _ _ I). rewrite (proj1 (SAME rest KS)). destruct (recP' rest) as [l|e] eqn:ER; [|reflexivity]. cbn [bind]. f_equal. apply (prefix_step_dbl c 1); [exact (nested_ok rest l KS ER)|rewrite half_tiny; exact N0|exact N1|lia].
    + intros ps s p H I. apply (foldM_lo (S c) _ _ _ _ H) with (q := p); [intros q []| |exact I]. intros st [prefix rest] r J E G q Q. specialize (KS _ _ J). apply bind_ok in E as (l & E1 & E). apply Ok_inj in E. subst r. rewrite <- Nat.add_1_r in *. apply (prefix_step_dbl c 1) in Q; [exact Q|exact (nested_ok rest l KS E1)|rewrite half_tiny; exact N0|exact N1|lia|exact G].
  - unfold up_parse_fl. split.
    + apply foldM_ext_in. intros st [prefix rest] _. destruct (dict_parse M (Sub i) rest) as [l|e] eqn:D; [|reflexivity]. cbn [bind]. f_equal. apply (prefix_step_dbl 0 10); [intros q; exact (dict_lo _ _ _ _ q D)|rewrite T10; exact N0|exact N1|lia].
    + intros ps s p H I. apply (lo_mono 10); [lia|]. apply (foldM_lo 10 _ _ _ _ H) with (q := p); [intros q []| |exact I]. intros st [prefix rest] r _ E G q Q. apply bind_ok in E as (l & E1 & E). apply Ok_inj in E. subst r. apply (prefix_step_dbl 0 10) in Q; [exact Q|intros x; exact (dict_lo _ _ _ _ x E1)|rewrite T10; exact N0|exact N1|lia|exact G].
  - destruct (ks_parse_dbl M (Root i) (Sub i) m minlen word lower seen SM) as [X Y]; [rewrite T10; exact N0|exact N1|]. split; [exact X|]. intros ps s p H I. apply (lo_mono 43); [lia|]. exact (Y ps s p H I).
  - split; [reflexivity|]. intros ps s p H I. destruct seen; [|apply Ok_inj in H; injection H as <- _; destruct I]. apply bind_ok in H as (t & _ & H). apply Ok_inj in H. injection H as <- _. destruct I as [<-|[]]. exact ONE.
Qed.
Lemma unit_tag_dbl : forall i b word seen, not_tiny b -> prefixes_nonempty b -> unit_tag_fl dbl recP recT M i b word lower seen = unit_tag_fl b64 recP' recT' M i b word lower seen.
Proof.
  intros i b word seen [N0 N1] PN. unfold unit_tag_fl. assert (U := unit_tag_same recP recP' recT recT' M i b word lower rec_same PN seen). destruct (b_cfg b) eqn:C; try exact U. cbn in N0, N1. f_equal. apply hyph_dbl; assumption.
Qed.
Lemma run_dbl : forall word us i acc seen, Forall (fun bt => not_tiny (fst bt) /\ prefixes_nonempty (fst bt)) us -> (forall p, In p acc -> plo (S c) p) ->
  run_parse_fl dbl recP recT M word lower i us acc seen = run_parse_fl b64 recP' recT' M word lower i us acc seen /\
  forall ps p, run_parse_fl b64 recP' recT' M word lower i us acc seen = Ok ps -> In p ps -> plo (S c) p.
Proof.
  intros word us. induction us as [|[b t] us IH]; intros i acc seen P A; cbn [run_parse_fl].
  - split; [reflexivity|]. intros ps p H I. apply Ok_inj in H. subst. auto.
  - inversion P as [|? ? [P1 P2] P3]; subst. destruct (unit_dbl i b word seen P1 P2) as [X Y]. rewrite X. destruct (unit_parse_fl b64 recP' recT' M i b word lower seen) as [[l s]|e] eqn:E; [|split; [reflexivity|]; intros ps p H; discriminate H]. cbn [bind].
    assert (G : forall q, In q (acc ++ l) -> plo (S c) q) by (intros q Q; apply in_app_iff in Q as [Q|Q]; [auto|exact (Y l s q eq_refl Q)]).
    destruct (t && _)%bool; [|apply IH; assumption]. split; [reflexivity|]. intros ps p H I. apply Ok_inj in H. subst. auto.
Qed.
Lemma run_tag_dbl : forall word us i acc seen, Forall (fun bt => not_tiny (fst bt) /\ prefixes_nonempty (fst bt)) us ->
  run_tag_fl dbl recP recT M word lower i us acc seen = run_tag_fl b64 recP' recT' M word lower i us acc seen.
Proof.
  intros word us. induction us as [|[b t] us IH]; intros i acc seen P; cbn [run_tag_fl]; [reflexivity|]. inversion P as [|? ? [P1 P2] P3]; subst. rewrite (unit_tag_dbl i b word seen P1 P2). destruct (unit_tag_fl b64 recP' recT' M i b word lower seen) as [[l s]|e]; [|reflexivity]. cbn [bind]. destruct (t && _)%bool; [reflexivity|]. apply IH. exact P3.
Qed.
End unit.
