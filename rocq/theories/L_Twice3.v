(** * Lemmas for C96: a known word's readings are different rows of the dictionary *)
From Coq Require Import String List NArith ZArith Bool QArith Lia Permutation.
From Verif Require Import Py Uni Tagset Dawg Utils Shapes Dict Units Analyzer ConfigRu ConfigUk Spec Spec2 Spec14 Spec15 Spec34 Spec35 Spec36 Spec38 Spec41 Spec43.
From Verif Require Import L_Base L_Made L_Run L_Parse L_Prob L_ByUnit L_ShapeU L_Units L_Known L_Adverb L_Words L_Groups L_Stages L_Every L_Twice.
Import ListNotations.
Local Open Scope nat_scope.
Local Open Scope list_scope.

Definition trail (p : parse) : sset * list method := (t_gr (p_tag p), p_stack p).
Lemma entries_once : forall M self lower, (forall w vals, sget w (d_words (m_dict M)) = Some vals -> NoDup vals) -> subst_proper (m_subst M) -> forall ps, dict_parse M self lower = Ok ps -> NoDup (map p_stack ps).
Proof.
  intros M self lower NV SP ps H. unfold dict_parse in H. apply rmap_ok in H as (a & H & ->). unfold similar_items in H. pose proof (variants_NoDup (m_subst M) lower SP) as NW.
  assert (K : NoDup (map p_stack (concat a)) /\ forall p, In p (concat a) -> exists v para idx, In v (variants (m_subst M) lower) /\ p_stack p = [MDict self v para idx]); [|exact (proj1 K)].
  revert a H NW. induction (variants (m_subst M) lower) as [|v vs IH]; intros a H NW; cbn [flat_map] in H.
  - cbn [mapM] in H. apply Ok_inj in H. subst a. split; [constructor|intros p []].
  - rewrite mapM_app in H. apply bind_ok in H as (x & E1 & H). apply bind_ok in H as (y & E2 & H). apply Ok_inj in H. subst a. inversion NW as [|v' vs' NI NW']. subst v' vs'.
    destruct (IH y E2 NW') as (A & B). clear IH.
    assert (X : NoDup (map p_stack (concat x)) /\ forall p, In p (concat x) -> exists para idx, p_stack p = [MDict self v para idx]).
    { destruct (sget v (d_words (m_dict M))) as [vals|] eqn:E; [|cbn [mapM] in E1; apply Ok_inj in E1; subst x; split; [constructor|intros p []]].
      apply NV in E. clear A B E2. cbn [mapM] in E1. apply bind_ok in E1 as (l & E1 & H). apply Ok_inj in H. subst x. cbn [concat]. rewrite app_nil_r.
      assert (Y : map p_stack l = map (fun pi : nat * nat => [MDict self v (fst pi) (snd pi)]) vals).
      { revert l E1. clear E. induction vals as [|[para idx] vals IH]; intros l H; cbn [mapM] in H; [apply Ok_inj in H; subst l; reflexivity|].
        apply bind_ok in H as (p & E & H). apply bind_ok in H as (r & Er & H). apply Ok_inj in H. subst l. apply bind_ok in E as (nf & _ & E). apply bind_ok in E as (t & _ & E). apply Ok_inj in E. subst p.
        cbn [map p_stack fst snd]. f_equal. exact (IH r Er). }
      split.
      - rewrite Y. apply NoDup_map_inj; [|exact E]. intros [p1 i1] [p2 i2] Q. cbn [fst snd] in Q. injection Q as -> ->. reflexivity.
      - intros p I. apply (in_map p_stack) in I. rewrite Y in I. apply in_map_iff in I as ([para idx] & Q & _). exists para, idx. symmetry. exact Q. }
    destruct X as (X1 & X2). rewrite concat_app, map_app. split.
    + apply NoDup_app_disj; [exact X1|exact A|]. intros s I J. apply in_map_iff in I as (p & <- & I). apply in_map_iff in J as (q & Q & J). destruct (X2 p I) as (pa & ix & P1). destruct (B q J) as (v2 & pa2 & ix2 & V & P2).
      rewrite P1, P2 in Q. injection Q as Q _ _. subst v2. contradiction.
    + intros p I. apply in_app_iff in I as [I|I]; [destruct (X2 p I) as (pa & ix & Q); exists v, pa, ix; split; [left; reflexivity|exact Q]|destruct (B p I) as (v2 & pa & ix & V & Q); exists v2, pa, ix; split; [right; exact V|exact Q]].
Qed.
Lemma trails_of_stacks : forall ps, NoDup (map p_stack ps) -> NoDup (map trail ps).
Proof. intros ps N. apply (NoDup_map_inv snd). rewrite map_map. exact N. Qed.
Lemma dict_stacks : forall M self lower ps p, dict_parse M self lower = Ok ps -> In p ps -> exists w para idx, p_stack p = [MDict self w para idx].
Proof.
  intros M self lower ps p H I. destruct (dict_parse_entry _ _ _ _ _ H I) as (v & vals & para & idx & nf & t & D1 & D2 & D3 & D4 & D5 & ->). cbn [p_stack]. eauto.
Qed.
Section run.
Variables (recP : str -> res (list parse)) (recT : str -> res (list tag)) (M : morph) (word : str).
Let lower := u_lower (m_uni M) word.
Lemma quiet_acc : forall i b us acc seen r, quiet recP recT M word b -> run_parse recP recT M word lower i ((b, false) :: us) acc seen = Ok r -> exists s, run_parse recP recT M word lower (S i) us acc s = Ok r.
Proof. intros i b us acc seen r Q H. cbn [run_parse] in H. apply bind_ok in H as ([ps s] & U & H). apply Q in U. subst ps. exists s. rewrite app_nil_r in H. exact H. Qed.
Lemma quiet_end : forall i b us p acc seen r, quiet recP recT M word b -> run_parse recP recT M word lower i ((b, true) :: us) (p :: acc) seen = Ok r -> r = p :: acc.
Proof. intros i b us p acc seen r Q H. cbn [run_parse] in H. apply bind_ok in H as ([ps s] & U & H). apply Q in U. subst ps. rewrite app_nil_r in H. cbn [andb] in H. apply Ok_inj in H. symmetry. exact H. Qed.
Lemma dict_first : forall b us r, b_cfg b = UDict -> run_parse recP recT M word lower 0 ((b, false) :: us) [] [] = Ok r -> exists ps, dict_parse M (Root 0) lower = Ok ps /\ run_parse recP recT M word lower 1 us ps [] = Ok r.
Proof.
  intros b us r C H. cbn [run_parse] in H. apply bind_ok in H as ([ps s] & U & H). unfold unit_parse in U. rewrite C in U. apply bind_ok in U as (qs & D & U). apply Ok_inj in U. injection U as -> <-. exists ps. split; [exact D|exact H].
Qed.
Lemma rows_ru : forall r ps, has_units M RU_DEFAULT_UNITS -> ~ In word RU_INITIAL_LETTERS -> dict_parse M (Root 0) lower = Ok ps -> ps <> [] ->
  run_parse recP recT M word lower 0 (m_units M) [] [] = Ok r -> r = ps.
Proof.
  intros r ps HU NI D NE H. destruct (heads_ru M HU) as (d & n & p & nu & pu & ro & la & a1 & a2 & a3 & b1 & b2 & b3 & b4 & Eu & IB & (D1 & D2 & D3 & _) & _).
  rewrite Eu in H. cbn [marked app] in H. apply (dict_first d _ _ D1) in H as (qs & D' & H). rewrite D in D'. apply Ok_inj in D'. subst qs.
  apply quiet_acc in H as (s2 & H); [|exact (init_quiet recP recT M word n _ _ _ _ D2 NI)]. destruct ps as [|q ps]; [contradiction|]. exact (quiet_end _ _ _ _ _ _ _ (init_quiet recP recT M word p _ _ _ _ D3 NI) H).
Qed.
Lemma rows_uk : forall r ps, has_units M UK_DEFAULT_UNITS -> ~ In word UK_INITIAL_LETTERS -> dict_parse M (Root 0) lower = Ok ps -> ps <> [] ->
  run_parse recP recT M word lower 0 (m_units M) [] [] = Ok r -> NoDup (map p_stack ps) -> NoDup (map trail r).
Proof.
  intros r ps HU NI D NE H N. destruct (heads_uk M HU) as (d & n & p & nu & pu & ro & la & a1 & a3 & b1 & b2 & b3 & b4 & Eu & IB & (D1 & D2 & D3 & _ & _ & D6 & D7) & _).
  repeat match goal with K : Forall _ (_ :: _) |- _ => apply Forall_cons_iff in K as [? K] end.
  rewrite Eu in H. cbn [marked app] in H. apply (dict_first d _ _ D1) in H as (qs & D' & H). rewrite D in D'. apply Ok_inj in D'. subst qs.
  apply quiet_acc in H as (s2 & H); [|exact (init_quiet recP recT M word n _ _ _ _ D2 NI)]. apply quiet_acc in H as (s3 & H); [|exact (init_quiet recP recT M word p _ _ _ _ D3 NI)].
  cbn [run_parse] in H. apply bind_ok in H as ([p1 k1] & U1 & H). cbn [andb] in H. apply bind_ok in H as ([p2 k2] & U2 & H). unfold unit_parse in U1, U2. rewrite D6 in U1. rewrite D7 in U2.
  apply bind_ok in U1 as (q1 & U1 & X). apply Ok_inj in X. injection X as -> <-. apply bind_ok in U2 as (q2 & U2 & X). apply Ok_inj in X. injection X as -> <-.
  match goal with I1 : initialised ro, I2 : initialised la |- _ => destruct (roman_unit _ _ _ _ _ _ _ I1 D6 U1) as (A & B); pose proof (latin_unit _ _ _ _ _ _ _ I2 D7 U2) as L end.
  assert (NR : NoDup (map trail (p1 ++ p2)) /\ forall q, In q (p1 ++ p2) -> exists se x, p_stack q = [MStr se x]).
  { destruct (is_roman_number word) eqn:E; [destruct (A eq_refl) as (t & T & ->)|rewrite (B eq_refl)]; (destruct L as [(_ & t2 & T2 & ->)|(_ & ->)]); cbn [app map]; split;
      try (intros q I; cbn [In] in I; repeat destruct I as [<-|I]; try contradiction; cbn [p_stack]; eauto; fail); repeat constructor; cbn [In]; try tauto.
    unfold trail. cbn [p_tag p_stack]. rewrite T, T2. intros [X|[]]. injection X as X. discriminate X. }
  destruct NR as (NR & SR).
  assert (NN : NoDup (map trail ((ps ++ p1) ++ p2))).
  { rewrite <- app_assoc, map_app. apply NoDup_app_disj; [apply trails_of_stacks; exact N|exact NR|]. intros x I J. apply in_map_iff in I as (q & <- & I). apply in_map_iff in J as (q' & Q & J).
    destruct (dict_stacks _ _ _ _ _ D I) as (w & pa & ix & S1). destruct (SR q' J) as (se & x & S2). unfold trail in Q. rewrite S1, S2 in Q. discriminate Q. }
  destruct ((ps ++ p1) ++ p2) as [|q l] eqn:E; [apply app_eq_nil in E as [E _]; apply app_eq_nil in E as [E _]; contradiction|]. cbn [andb] in H. apply Ok_inj in H. subst r. exact NN.
Qed.
End run.
Lemma known_items : forall M word self ps, word_is_known M word false = true -> (forall w vals, sget w (d_words (m_dict M)) = Some vals -> vals <> []) -> dict_parse M self (u_lower (m_uni M) word) = Ok ps -> ps <> [].
Proof.
  intros M word self ps K NE D X. subst ps. pose proof (dict_parse_list _ _ _ _ D) as L. cbn [map] in L. unfold word_is_known in K. apply known_iff in K as (v & vals & S1 & G).
  pose proof (NE _ _ G) as NV. destruct vals as [|x vals]; [exact (NV eq_refl)|]. apply variants_spec in S1.
  assert (I : In (v, [MDict self v (fst x) (snd x)]) []); [|exact I]. rewrite L. apply in_flat_map. exists v. split; [exact S1|]. unfold entries_of. rewrite G. left. reflexivity.
Qed.
Lemma known_once : forall M letters particles prefixes word ps, shipped M letters particles prefixes -> subst_proper (m_subst M) ->
  (forall w vals, sget w (d_words (m_dict M)) = Some vals -> vals <> [] /\ NoDup vals) -> word_is_known M word false = true -> ~ In word letters -> morph_parse M word = Ok ps -> NoDup (map trail ps).
Proof.
  intros M letters particles prefixes word ps SH SP NV WK NI H. unfold morph_parse, fuel_for, parse_f in H. cbn [analyze fst snd] in H. apply bind_ok in H as (r & E & H).
  assert (N : NoDup (map trail r)).
  { assert (D : exists qs, dict_parse M (Root 0) (u_lower (m_uni M) word) = Ok qs).
    { destruct SH as [(HU & _)|(HU & _)]; [destruct (heads_ru M HU) as (d & n & p & nu & pu & ro & la & a1 & a2 & a3 & b1 & b2 & b3 & b4 & Eu & _ & (D1 & _) & _)|destruct (heads_uk M HU) as (d & n & p & nu & pu & ro & la & a1 & a3 & b1 & b2 & b3 & b4 & Eu & _ & (D1 & _) & _)];
        rewrite Eu in E; cbn [marked app] in E; apply (dict_first _ _ M word d _ _ D1) in E as (qs & D & _); exists qs; exact D. }
    destruct D as (qs & D). pose proof (known_items _ _ _ _ WK (fun w vals X => proj1 (NV w vals X)) D) as NE. pose proof (entries_once _ _ _ (fun w vals X => proj2 (NV w vals X)) SP _ D) as NS.
    destruct SH as [(HU & -> & -> & ->)|(HU & -> & -> & ->)]; [rewrite (rows_ru _ _ M word r qs HU NI D NE E); apply trails_of_stacks; exact NS|exact (rows_uk _ _ M word r qs HU NI D NE E NS)]. }
  destruct (m_prob M) as [d|]; [|apply Ok_inj in H; subst ps; exact N]. apply apply_reweighted in H as (P & _).
  apply (Permutation_map (fun x : str * tag * str * list method => (t_gr (snd (fst (fst x))), snd x))) in P. rewrite !map_map in P. exact (Permutation_NoDup P N).
Qed.
