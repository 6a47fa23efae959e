(** * Scores (lemmas for C63) *)
From Coq Require Import String List NArith ZArith Bool QArith Lia Lqa Sorting.Sorted Sorting.Permutation.
From Verif Require Import Py Uni Tagset Dawg Utils Shapes Dict Units Analyzer ConfigRu ConfigUk Compile Spec Spec13 Ex.
From Verif Require Import L_Base L_Ex L_Made L_Total L_Config L_Parse L_ExU.
Import ListNotations.
Local Open Scope nat_scope.
Local Open Scope list_scope.

Lemma mult01 : forall a b, (0 <= a <= 1 -> 0 <= b <= 1 -> 0 <= a * b <= 1)%Q.
Proof.
  intros a b [A A1] [B B1]. split; [apply Qmult_le_0_compat; auto|]. apply Qle_trans with (a * 1)%Q; [|lra].
  destruct (Qlt_le_dec 0 a) as [P|P]; [apply Qmult_le_l; auto|]. assert (E : (a == 0)%Q) by lra. rewrite E. lra.
Qed.

Section Made01.
  Variables (recP : str -> res (list parse)) (recT : str -> res (list tag)).
  Variables (M : morph) (i : nat) (b : bunit) (tm : bool) (word lower : str).
  Hypothesis hb : nth_error (m_units M) i = Some (b, tm).
  Hypothesis pos : scores_prob M.
  Let good (p : parse) := (0 <= p_score p <= 1)%Q.
  Hypothesis recGood : forall w ps p, recP w = Ok ps -> In p ps -> good p.

  Lemma u01 : (0 <= unit_score (b_cfg b) <= 1)%Q.
  Proof. unfold scores_prob in pos. rewrite Forall_forall in pos. apply nth_error_In in hb. destruct (pos _ hb) as [A B]. simpl in A, B. split; auto. apply Qlt_le_weak. auto. Qed.
  Lemma dict01 : forall self l p, dict_entry M self l p -> good p.
  Proof. intros self l p (w & vals & para & idx & nf & t & H1 & H2 & H3 & H4 & H5 & ->). unfold good. simpl. lra. Qed.
  Lemma made01 : forall p, made recP recT M i b word lower p -> good p.
  Proof.
    intros p Md. pose proof u01 as U. unfold good.
    destruct Md.
    - eapply dict01; eauto.
    - rewrite H in U. exact U.
    - destruct H as [H|[H|[H|H]]]; rewrite H in U; exact U.
    - rewrite H in U. pose proof (recGood _ _ _ H5 H6). apply mult01; auto.
    - rewrite H in U. exact U.
    - rewrite H in U. pose proof (recGood _ _ _ H2 H4). apply mult01; auto.
    - rewrite H in U. pose proof (recGood _ _ _ H2 H3). apply mult01; auto.
    - rewrite H in U. pose proof (recGood _ _ _ H1 H2). apply mult01; auto.
    - rewrite H in U. pose proof (dict01 _ _ _ H1). apply mult01; auto.
    - rewrite H in U. destruct H1 as (pid & pre & dawg & j & fs & vals & cnt & para & idx & t & nf & total & H1).
      destruct H1 as (_ & _ & Hd & _ & _ & Hs & Hv & Ht & _ & _ & Hc & ->). cbn [p_score p_tag].
      apply mult01; auto. split; unfold Qle; simpl; try lia.
    - simpl. lra.
  Qed.
End Made01.

Lemma Qsum_acc : forall l a, (fold_left Qplus l a == a + Qsum l)%Q.
Proof.
  unfold Qsum. induction l as [|x l IH]; intro a; simpl; [lra|]. rewrite (IH (a + x)%Q), (IH (0 + x)%Q). lra.
Qed.
Lemma Qsum_cons : forall x l, (Qsum (x :: l) == x + Qsum l)%Q.
Proof. intros. unfold Qsum at 1. simpl. rewrite Qsum_acc. lra. Qed.
Lemma Qsum_ge : forall l, (forall x, In x l -> (0 <= x)%Q) -> (0 <= Qsum l)%Q /\ forall x, In x l -> (x <= Qsum l)%Q.
Proof.
  induction l as [|x l IH]; intro H; [split; [unfold Qsum; simpl; lra|intros x []]|].
  destruct IH as [A B]; [intros; apply H; right; auto|]. pose proof (H x (or_introl eq_refl)) as X. split; [rewrite Qsum_cons; lra|].
  intros y [<-|Y]; rewrite Qsum_cons; [lra|]. pose proof (B y Y). lra.
Qed.

Lemma prob01 : forall M d w t, m_prob M = Some d -> table_prob M -> (0 <= prob d w t <= 1)%Q.
Proof.
  intros M d w t P T. unfold prob. destruct (sget (prob_key w t) d) as [n|] eqn:G.
  - apply sget_In in G. specialize (T d _ _ P G). unfold MULTIPLIER. split; unfold Qle; simpl; lia.
  - split; unfold Qle; simpl; unfold MULTIPLIER; lia.
Qed.

Lemma apply01 : forall M d lower ps r, m_prob M = Some d -> table_prob M -> (forall p, In p ps -> (0 <= p_score p <= 1)%Q) ->
  apply_to_parses d lower ps = Ok r -> forall p, In p r -> (0 <= p_score p <= 1)%Q.
Proof.
  intros M d lower ps r P T G H p Hp. unfold apply_to_parses in H. destruct ps as [|p1 ps1]; [inversion H; subst; destruct Hp|].
  set (ps := p1 :: ps1) in *. destruct (Qeq_bool _ _).
  - destruct (Qeq_bool (Qsum (map p_score ps)) 0) eqn:Z; [discriminate|]. apply Ok_inj in H. subst r.
    apply in_map_iff in Hp as (p0 & <- & Hp). cbn [p_score with_score].
    destruct (Qsum_ge (map p_score ps)) as [A B]. { intros x X. apply in_map_iff in X as (y & <- & Y). apply G; auto. }
    specialize (B _ (in_map p_score _ _ Hp)). revert A B Z. generalize (Qsum (map p_score ps)). intros s A B Z.
    assert (S : (0 < s)%Q). { apply Qle_lt_or_eq in A as [A|A]; auto. symmetry in A. apply Qeq_bool_iff in A. congruence. }
    pose proof (G _ Hp) as [X _]. unfold Qdiv. rewrite Qmult_1_l. split.
    + apply Qmult_le_0_compat; auto. apply Qlt_le_weak, Qinv_lt_0_compat; auto.
    + apply Qle_shift_div_r; auto. lra.
  - apply Ok_inj in H. subst r. apply sort_desc_In in Hp. apply in_map_iff in Hp as ([p0 q] & <- & Hp). cbn [p_score with_score fst snd].
    apply in_combine_r in Hp. apply in_map_iff in Hp as (y & <- & _). eapply prob01; eauto.
Qed.

Lemma parse01 : forall M, scores_prob M -> table_prob M -> forall n word ps p, parse_f n M word = Ok ps -> In p ps -> (0 <= p_score p <= 1)%Q.
Proof.
  intros M S T. induction n as [|m IHm]; intros w ps p E Hp; [discriminate|].
  unfold parse_f in E. simpl in E. apply bind_ok in E as (r & Er & E).
  assert (Gr : forall p, In p r -> (0 <= p_score p <= 1)%Q).
  { intros q Hq. eapply run_parse_made in Er as [[]|(j & b & tm & N & Md)]; eauto. eapply made01; eauto. }
  destruct (m_prob M) as [d|] eqn:P.
  - eapply apply01; eauto.
  - apply Ok_inj in E. subst. auto.
Qed.
Lemma parse_pos : forall M, m_prob M = None -> scores_prob M -> pred_counts_pos (m_dict M) ->
  forall n word ps p, parse_f n M word = Ok ps -> In p ps -> (0 < p_score p)%Q.
Proof.
  intros M P S C. induction n as [|m IHm]; intros w ps p E Hp; [discriminate|].
  unfold parse_f in E. simpl in E. apply bind_ok in E as (r & Er & E). rewrite P in E. apply Ok_inj in E. subst r.
  eapply run_parse_made in Er as [[]|(j & b & tm & N & Md)]; eauto. eapply made_good; eauto.
  unfold scores_prob in S. unfold scores_pos. rewrite Forall_forall in *. intros x X. apply S in X. tauto.
Qed.

Definition cfg01b (c : ucfg) : bool := Qgtb (unit_score c) 0 && Qle_bool (unit_score c) 1.
Lemma cfg01b_ok : forall M l, map (fun bt => (b_cfg (fst bt), snd bt)) (m_units M) = l -> forallb (fun ct : ucfg * bool => cfg01b (fst ct)) l = true -> scores_prob M.
Proof.
  intros M l E H. subst l. rewrite forallb_forall in H. apply Forall_forall. intros bt B.
  specialize (H _ (in_map (fun bt => (b_cfg (fst bt), snd bt)) _ _ B)). cbn [fst] in H. unfold cfg01b in H. apply andb_true_iff in H as [A C].
  split; [apply Qgtb_lt; exact A|apply Qle_bool_iff; exact C].
Qed.
Lemma shipped01 : forall M, shipped_units M -> scores_prob M.
Proof. intros M [H|H]; apply has_units_cfg in H; apply (cfg01b_ok M _ H); vm_compute; reflexivity. Qed.

(** with the documented order: by P(t|w) when there is information about the word *)
Lemma sorted_nth : forall ps, StronglySorted (fun a b => score_geb a b = true) ps -> sorted_by_score ps.
Proof.
  induction 1 as [|p ps S IH F]; intros i j a b A B L; [destruct i; discriminate A|].
  destruct j as [|j]; [lia|]. cbn [nth_error] in B. destruct i as [|i].
  - injection A as <-. rewrite Forall_forall in F. apply nth_error_In in B. specialize (F _ B). unfold score_geb, Qgeb in F. apply Qle_bool_iff. exact F.
  - cbn [nth_error] in A. apply (IH i j a b A B). lia.
Qed.

Lemma Qsum_zero : forall l, (forall x, In x l -> (0 <= x)%Q) -> (Qsum l == 0)%Q -> forall x, In x l -> (x == 0)%Q.
Proof. intros l H Z x X. destruct (Qsum_ge l H) as [_ B]. specialize (B x X). specialize (H x X). lra. Qed.
Lemma prob_nonneg : forall d w t, (0 <= prob d w t)%Q.
Proof. intros. unfold prob. destruct (sget (prob_key w t) d); unfold Qle; simpl; lia. Qed.

Lemma known_sorted : forall M d word ps p, m_prob M = Some d -> morph_parse M word = Ok ps -> In p ps ->
  ~ (prob d (u_lower (m_uni M) word) (t_str (p_tag p)) == 0)%Q ->
  sorted_by_score ps /\ forall q, In q ps -> (p_score q == prob d (u_lower (m_uni M) word) (t_str (p_tag q)))%Q.
Proof.
  intros M d word ps p P E Hp NZ. unfold morph_parse, fuel_for, parse_f in E. cbn [analyze fst] in E. apply bind_ok in E as (r & _ & E).
  rewrite P in E. unfold apply_to_parses in E. destruct r as [|p1 r1]; [apply Ok_inj in E; subst; destruct Hp|].
  set (r := p1 :: r1) in *. set (lower := u_lower (m_uni M) word) in *.
  destruct (Qeq_bool (Qsum (map (fun p => prob d lower (t_str (p_tag p))) r)) 0) eqn:Z.
  - exfalso. apply NZ. apply Qeq_bool_iff in Z. destruct (Qeq_bool _ _); [discriminate E|]. apply Ok_inj in E. subst ps.
    apply in_map_iff in Hp as (p0 & <- & Hp). cbn [p_tag with_score]. refine (Qsum_zero _ _ Z _ _).
    + intros x X. apply in_map_iff in X as (y & <- & _). apply prob_nonneg.
    + apply (in_map (fun p => prob d lower (t_str (p_tag p))) _ _ Hp).
  - apply Ok_inj in E. subst ps. split.
    + apply sorted_nth. apply sort_desc_sorted; unfold score_geb, Qgeb.
      * intros x y H. apply Qle_bool_iff. destruct (Qlt_le_dec (p_score x) (p_score y)) as [L|L]; [lra|]. apply Qle_bool_iff in L. congruence.
      * intros x y z A B. apply Qle_bool_iff in A. apply Qle_bool_iff in B. apply Qle_bool_iff. lra.
    + intros q Hq. apply sort_desc_In in Hq. apply in_map_iff in Hq as ([p0 x] & <- & Hq). cbn [fst snd with_score p_score p_tag].
      revert Hq. generalize r. clear. induction r as [|a r IH]; [intros []|]. cbn [map combine]. intros [H|H]; [injection H as <- <-; reflexivity|auto].
Qed.

Lemma demo_np_shipped : shipped_units demo_np.
Proof. left. pose proof demo_np_eq as E. apply construct_units in E as (E & _). exact E. Qed.
Definition unsortedb (ps : list parse) (i j : nat) : bool :=
  match nth_error ps i, nth_error ps j with Some p, Some q => Nat.ltb i j && Qgtb (p_score q) (p_score p) | _, _ => false end.
Lemma unsortedb_ok : forall ps i j, unsortedb ps i j = true -> ~ sorted_by_score ps.
Proof.
  intros ps i j H S. unfold unsortedb in H. destruct (nth_error ps i) as [p|] eqn:I; [|discriminate H]. destruct (nth_error ps j) as [q|] eqn:J; [|discriminate H].
  apply andb_true_iff in H as [L G]. apply Nat.ltb_lt in L. apply Qgtb_lt in G. specialize (S i j p q I J L). lra.
Qed.
Definition un1 : list parse := Eval vm_compute in get_ok [] (morph_parse demo (u "зюкот-крот")).
Definition un2 : list parse := Eval vm_compute in get_ok [] (morph_parse demo_np (u "зюкота-кота")).
Lemma demo_np_table : table_prob demo_np.
Proof.
  intros d k n P H. rewrite demo_np_prob in P. injection P as <-. assert (X : forallb (fun kn : str * N => N.leb (snd kn) 1000000) demo_cpd = true) by (vm_compute; reflexivity).
  rewrite forallb_forall in X. apply N.leb_le. exact (X _ H).
Qed.
Lemma unsorted : exists M1 M2 w1 w2 ps1 ps2, shipped_units M1 /\ shipped_units M2 /\ m_prob M1 = None /\ m_prob M2 <> None /\ table_prob M2 /\
  morph_parse M1 w1 = Ok ps1 /\ morph_parse M2 w2 = Ok ps2 /\ ~ sorted_by_score ps1 /\ ~ sorted_by_score ps2.
Proof.
  exists demo, demo_np, (u "зюкот-крот"), (u "зюкота-кота"), un1, un2. split; [exact demo_shipped|]. split; [exact demo_np_shipped|]. split; [vm_compute; reflexivity|].
  split; [rewrite demo_np_prob; intro H; discriminate H|]. split; [exact demo_np_table|]. split; [vm_compute; reflexivity|]. split; [vm_compute; reflexivity|].
  split; [apply (unsortedb_ok un1 0 1)|apply (unsortedb_ok un2 0 2)]; vm_compute; reflexivity.
Qed.
Lemma score_case : shipped_units demo /\ pred_counts_pos (m_dict demo) /\ table_prob demo /\ table_prob demo_np /\
  (exists p q, morph_parse demo_np (u "кота") = Ok [p; q] /\ ~ (prob demo_cpd (u_lower (m_uni demo_np) (u "кота")) (t_str (p_tag p)) == 0)%Q) /\
  (exists ps, morph_parse demo (u "зюкот-крот") = Ok ps /\ map p_score ps = [75 # 200; 75 # 100]%Q).
Proof.
  split; [exact demo_shipped|]. split; [apply pred_counts_posb_ok; vm_compute; reflexivity|]. split; [|split; [exact demo_np_table|split]].
  - intros d k n P. exfalso. assert (X : m_prob demo = None) by (vm_compute; reflexivity). rewrite X in P. discriminate P.
  - do 2 eexists. split; [vm_compute; reflexivity|]. intro H. apply Qeq_bool_iff in H. vm_compute in H. discriminate H.
  - exists un1. split; vm_compute; reflexivity.
Qed.
