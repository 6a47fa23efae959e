(** * Lemmas for C98: what a reading is made by *)
From Coq Require Import String List NArith ZArith Bool QArith Lia Permutation.
From Verif Require Import Py Uni Tagset Dawg Utils Shapes Dict Units Analyzer ConfigRu ConfigUk Compile Spec Spec2 Spec3 Spec14 Spec15 Spec43 Spec44 Spec45.
From Verif Require Import L_Base L_Made L_Run L_Parse L_Prob L_ByUnit L_Units L_Words L_Groups L_Twice L_Twice3 L_Twice4 L_Members.
Import ListNotations.
Local Open Scope nat_scope.
Local Open Scope list_scope.

Definition cleanp (M : morph) (p : parse) : Prop := clean M (p_stack p).
Lemma clean_one : forall M m, no_initial_unit M (m_unit m) -> (forall r l rs, m = MHyphFixed r l rs -> clean M rs) -> (forall r ls rs, m = MHyphBoth r ls rs -> clean M ls /\ clean M rs) -> clean M [m].
Proof.
  intros M m U F B. unfold clean, stack_units. cbn [flat_map]. rewrite app_nil_r. destruct m as [r w pa ix|r s|r l rs|r ls rs]; cbn [method_units m_unit] in *; constructor; try exact U; try constructor.
  - exact (F _ _ _ eq_refl).
  - apply Forall_app. exact (B _ _ _ eq_refl).
Qed.
Lemma clean_str : forall M r s, no_initial_unit M r -> clean M [MStr r s]. Proof. intros M r s U. apply clean_one; [exact U|discriminate|discriminate]. Qed.
Lemma sub_clean : forall M i, no_initial_unit M (Sub i). Proof. intros M i j b tm f l p s E. discriminate E. Qed.
Lemma adds_clean : forall M l st, Forall (cleanp M) l -> Forall (cleanp M) (fst st) -> Forall (cleanp M) (fst (fold_left add_parse_if_not_seen l st)).
Proof. intros M l st L F. rewrite Forall_forall in *. intros p I. apply adds_from in I as [I|I]; auto. Qed.
Lemma splits_clean : forall M (rec : str -> res (list parse)) self mult splits seen ps seen', no_initial_unit M self -> (forall pr qs, In pr splits -> rec (snd pr) = Ok qs -> Forall (cleanp M) qs) ->
  foldM (fun st (pr : str * str) => let '(prefix, rest) := pr in let* qs := rec rest in Ok (prefix_step self mult prefix st qs)) ([], seen) splits = Ok (ps, seen') -> Forall (cleanp M) ps.
Proof.
  intros M rec self mult splits seen ps seen' U R H. refine (foldM_inv (fun st : list parse * list skey => Forall (cleanp M) (fst st)) _ _ _ _ _ _ H); [constructor|].
  intros st [prefix rest] st' I T E. apply bind_ok in E as (qs & Q & E). apply Ok_inj in E. subst st'. unfold prefix_step. apply adds_clean; [|exact T]. pose proof (R _ _ I Q) as F. rewrite Forall_forall in F.
  apply Forall_forall. intros p J. apply in_map_iff in J as (q & <- & J). apply filter_In in J as [J _]. unfold cleanp, prefixed. cbn [p_stack]. apply clean_app. split; [exact (F q J)|apply clean_str; exact U].
Qed.
Lemma dict_clean : forall M self lower ps, no_initial_unit M self -> dict_parse M self lower = Ok ps -> Forall (cleanp M) ps.
Proof.
  intros M self lower ps U H. apply Forall_forall. intros p I. destruct (dict_stacks _ _ _ _ _ H I) as (w & pa & ix & E). unfold cleanp. rewrite E. apply clean_one; [exact U|discriminate|discriminate].
Qed.
Section run.
Variables (recP : str -> res (list parse)) (recT : str -> res (list tag)) (M : morph) (word : str).
Let lower := u_lower (m_uni M) word.
Hypothesis REC : forall a w b ps, lower = a ++ w ++ b -> recP w = Ok ps -> Forall (cleanp M) ps.
Lemma shape_clean : forall U self b score w lw ps, no_initial_unit M self -> shape_parse U self b score w lw = Ok ps -> Forall (cleanp M) ps.
Proof.
  intros U self b score w lw ps N H. unfold shape_parse in H. apply bind_ok in H as ([t|] & _ & H); apply Ok_inj in H; subst ps; constructor; [|constructor]. apply clean_str. exact N.
Qed.
Lemma unit_clean : forall i b tm seen ps s, nth_error (m_units M) i = Some (b, tm) -> (forall first letters pat sc, b_cfg b = UInit first letters pat sc -> ~ In word letters) -> unit_parse recP recT M i b word lower seen = Ok (ps, s) -> Forall (cleanp M) ps.
Proof.
  intros i b tm seen ps s NB NI H. unfold unit_parse in H.
  assert (U : (forall first letters pat sc, b_cfg b <> UInit first letters pat sc) -> no_initial_unit M (Root i)).
  { intros X j b' tm' f l pt sc E NB'. injection E as <-. rewrite NB in NB'. injection NB' as <- <-. apply X. }
  destruct (b_cfg b) as [|first letters pat sc|sc|sc|sc|sc|particles mult|mult|skip mult|prefixes mult minrem|mult|mult minlen|] eqn:C;
    try (assert (UR : no_initial_unit M (Root i)) by (apply U; discriminate)).
  - apply bind_ok in H as (qs & D & H). apply Ok_inj in H. injection H as <- _. exact (dict_clean _ _ _ _ UR D).
  - pose proof (NI _ _ _ _ eq_refl) as N. destruct (smem word letters) eqn:E; [apply smem_In in E; contradiction|]. apply Ok_inj in H. injection H as <- _. constructor.
  - apply bind_ok in H as (qs & D & H). apply Ok_inj in H. injection H as <- _. exact (shape_clean _ _ _ _ _ _ _ UR D).
  - apply bind_ok in H as (qs & D & H). apply Ok_inj in H. injection H as <- _. exact (shape_clean _ _ _ _ _ _ _ UR D).
  - apply bind_ok in H as (qs & D & H). apply Ok_inj in H. injection H as <- _. exact (shape_clean _ _ _ _ _ _ _ UR D).
  - apply bind_ok in H as (qs & D & H). apply Ok_inj in H. injection H as <- _. exact (shape_clean _ _ _ _ _ _ _ UR D).
  - unfold particle_parse in H. destruct (particle_splits particles lower) as [|[w pt] l] eqn:E; [apply Ok_inj in H; injection H as <- _; constructor|].
    apply bind_ok in H as (qs & R & H). apply Ok_inj in H. assert (X : In (w, pt) (particle_splits particles lower)) by (rewrite E; left; reflexivity). apply particle_splits_In in X as (_ & _ & W & X1 & X2). destruct (split_particle _ _ _ W X1 X2) as [X _].
    pose proof (REC [] w pt qs X R) as F. rewrite Forall_forall in F. change ps with (fst (ps, s)). rewrite <- H. apply adds_clean; [|constructor].
    apply Forall_forall. intros p I. apply in_map_iff in I as (q & <- & I). unfold cleanp, suffixed. cbn [p_stack]. apply clean_app. split; [exact (F q I)|apply clean_str; exact UR].
  - apply bind_ok in H as ([] & _ & H); [apply bind_ok in H as (t & _ & H)|]; apply Ok_inj in H; injection H as <- _; constructor; [|constructor]. apply clean_str. exact UR.
  - unfold hyph_parse in H. destruct (hyph_should_parse M skip lower); cbn [negb] in H; [|apply Ok_inj in H; injection H as <- _; constructor].
    destruct (split_once HY lower) as [lw [rw|]] eqn:E; [|discriminate H]. apply split_once_spec in E as [E _]. apply bind_ok in H as (ls & L & H). apply bind_ok in H as (rs & R & H). apply Ok_inj in H. injection H as <- _.
    assert (FL : Forall (cleanp M) ls) by exact (REC [] lw (HY :: rw) ls E L).
    assert (FR : Forall (cleanp M) rs). { refine (REC (lw ++ [HY]) rw [] rs _ R). rewrite app_nil_r, <- app_assoc. exact E. }
    rewrite Forall_forall in FL, FR. apply Forall_app. split; apply Forall_forall; intros p I.
    + unfold variable_both in I. apply in_flat_map in I as (l & IL & I). destruct (tag_is_unknown (p_tag l)); [destruct I|]. apply in_map_iff in I as (r & <- & I). apply filter_In in I as [I _].
      unfold cleanp. cbn [both_parse p_stack]. apply clean_one; [exact UR|discriminate|]. intros r0 a b0 Q. injection Q as _ <- <-. split; [exact (FL l IL)|exact (FR r I)].
    + unfold fixed_left in I. apply in_map_iff in I as (r & <- & I). apply filter_In in I as [I _]. unfold cleanp. cbn [fixed_left_parse p_stack]. apply clean_one; [exact UR| |discriminate]. intros r0 a b0 Q. injection Q as _ _ <-. exact (FR r I).
  - unfold kp_parse in H. apply (splits_clean M) in H; [exact H|exact UR|]. intros [x r] qs I R. apply kp_splits_In in I as (_ & I & _). cbn [snd] in R. refine (REC x r [] qs _ R). rewrite app_nil_r. exact I.
  - unfold up_parse in H. apply (splits_clean M) in H; [exact H|exact UR|]. intros [x r] qs I R. exact (dict_clean _ _ _ _ (sub_clean M i) R).
  - apply ks_rows in H. rewrite Forall_forall in H. apply Forall_forall. intros p I. destruct (H p I) as (pa & ix & e & E & _). unfold cleanp. rewrite E. apply (clean_app M [_] [_]).
    split; [apply clean_one; [exact (sub_clean M i)|discriminate|discriminate]|apply clean_str; exact UR].
  - destruct seen as [|k seen]; [apply bind_ok in H as (t & _ & H)|]; apply Ok_inj in H; injection H as <- _; constructor; [|constructor]. apply clean_str. exact UR.
Qed.
Lemma run_clean : forall us i acc seen r, (forall k bt, nth_error us k = Some bt -> nth_error (m_units M) (i + k) = Some bt) -> not_initial M word -> Forall (cleanp M) acc ->
  run_parse recP recT M word lower i us acc seen = Ok r -> Forall (cleanp M) r.
Proof.
  induction us as [|[b tm] us IH]; intros i acc seen r NU NI FA H; cbn [run_parse] in H; [apply Ok_inj in H; subst r; exact FA|]. apply bind_ok in H as ([ps s] & U & H).
  pose proof (NU 0 (b, tm) eq_refl) as NB. rewrite Nat.add_0_r in NB. apply (unit_clean _ _ _ _ _ _ NB) in U; [|intros first letters pat sc C; exact (NI b tm first letters pat sc (nth_error_In _ _ NB) C)].
  assert (F : Forall (cleanp M) (acc ++ ps)) by (apply Forall_app; split; assumption). destruct (tm && _); [apply Ok_inj in H; subst r; exact F|].
  refine (IH (S i) _ _ r _ NI F H). intros k bt X. cbn [Nat.add]. rewrite plus_n_Sm. apply NU. exact X.
Qed.
End run.
Lemma readings_clean : forall M, lower_stable (m_uni M) -> initials_upper M -> forall f word ps, not_initial M word -> parse_f f M word = Ok ps -> Forall (cleanp M) ps.
Proof.
  intros M LS IU. induction f as [|f IH]; intros word ps NI H; [discriminate H|]. unfold parse_f in H. cbn [analyze fst snd] in H. apply bind_ok in H as (r & E & H).
  assert (F : Forall (cleanp M) r).
  { apply run_clean in E; [exact E| |intros k bt X; exact X|exact NI|constructor]. intros a w b qs L R. apply (IH w qs); [|exact R]. intros b' tm first letters pat sc I C J. apply (IU b' tm first letters pat sc w I C J). exact (LS word a w b L). }
  destruct (m_prob M) as [d|]; [|apply Ok_inj in H; subst ps; exact F]. apply apply_reweighted in H as (P & _). apply Forall_forall. intros p I.
  apply (in_map reading) in I. apply (Permutation_in _ (Permutation_sym P)) in I. apply in_map_iff in I as (q & E2 & I). rewrite Forall_forall in F. apply F in I. unfold cleanp in *. unfold reading in E2. injection E2 as _ _ _ E2. rewrite <- E2. exact I.
Qed.
Lemma parse_lexeme_once : forall M word ps p lex, lower_stable (m_uni M) -> initials_upper M -> not_initial M word -> morph_parse M word = Ok ps -> In p ps -> get_lexeme M p = Ok lex -> NoDup (map p_stack lex).
Proof.
  intros M word ps p lex LS IU NI H I L. apply (lexeme_once M p lex); [|exact L]. pose proof (readings_clean M LS IU _ _ _ NI H) as F. rewrite Forall_forall in F. exact (F p I).
Qed.
