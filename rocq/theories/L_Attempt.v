(** * Attempts to create an analyzer: lemmas for C87 *)
From Coq Require Import String List NArith ZArith Bool Lia QArith.
From Verif Require Import Py Uni Tagset Dawg Utils Shapes Dict Units Analyzer ConfigRu ConfigUk Json Storage Create Attempt Spec Spec9 Spec18 Spec37.
From Verif Require Import L_Base L_Tagset L_Tags2 L_ByUnit L_Create L_Reinit L_Reinit2 L_Create2.
Import ListNotations.
Local Open Scope nat_scope.
Local Open Scope list_scope.

(** ** one unit *)
Lemma register_adds : forall C c, register C c = adds C (registers c).
Proof.
  intros C c. unfold register. generalize (registers c) as l. intros l. revert C. induction l as [|[[a b] o] l IH]; intros C; [reflexivity|]. cbn [fold_left fst snd adds]. apply IH.
Qed.
Lemma registers_names : forall c, map (fun x => fst (fst x)) (registers c) = map fst (unit_aliases c).
Proof. intros c. destruct c; try reflexivity. destruct first; reflexivity. Qed.
Lemma adds_known : forall l C g, In g (tc_known (adds C l)) <-> In g (tc_known C) \/ In g (map (fun x => fst (fst x)) l).
Proof.
  induction l as [|[[a b] o] l IH]; intros C g; [cbn; tauto|]. change (adds C ((a, b, o) :: l)) with (adds (add_known C a b o) l). rewrite IH, add_known_In. cbn [map fst In]. intuition congruence.
Qed.
Lemma register_known : forall C c g, In g (tc_known (register C c)) <-> In g (tc_known C) \/ unit_adds c g.
Proof. intros. rewrite register_adds, adds_known, registers_names. reflexivity. Qed.
Lemma adds_extra : forall l C, tc_extra (adds C l) = tc_extra C.
Proof. induction l as [|[[a b] o] l IH]; intros C; [reflexivity|]. change (adds C ((a, b, o) :: l)) with (adds (add_known C a b o) l). rewrite IH. unfold add_known. destruct (_ && _); reflexivity. Qed.
Lemma bind_registers : forall C c C' b, bind_unit C c = Ok (C', b) -> C' = register C c.
Proof.
  intros C c C' b H. destruct c as [|first letters pat sc| | | | | | | | | | |]; cbn [bind_unit] in H; try (apply Ok_inj in H; injection H as <- _; reflexivity).
  - apply bind_ok in H as (tags & _ & H). destruct first.
    + apply bind_ok in H as (? & _ & H). apply bind_ok in H as (? & _ & H). apply bind_ok in H as (? & _ & H). apply Ok_inj in H. injection H as <- _. reflexivity.
    + apply Ok_inj in H. injection H as <- _. reflexivity.
  - apply bind_ok in H as (? & _ & H). apply bind_ok in H as (? & _ & H). apply Ok_inj in H. injection H as <- _. reflexivity.
  - apply bind_ok in H as ([C1 x] & E & H). apply Ok_inj in H. injection H as <- _. unfold init_single in E. apply bind_ok in E as (? & _ & E). apply Ok_inj in E. injection E as <- _. reflexivity.
  - apply bind_ok in H as ([C1 x] & E & H). apply Ok_inj in H. injection H as <- _. unfold init_single in E. apply bind_ok in E as (? & _ & E). apply Ok_inj in E. injection E as <- _. reflexivity.
  - apply bind_ok in H as ([C1 x] & E & H). apply Ok_inj in H. injection H as <- _. unfold init_single in E. apply bind_ok in E as (? & _ & E). apply Ok_inj in E. injection E as <- _. reflexivity.
  - apply bind_ok in H as (t & _ & H). apply Ok_inj in H. injection H as <- _. reflexivity.
  - apply bind_ok in H as ([C1 x] & E & H). apply Ok_inj in H. injection H as <- _. unfold init_single in E. apply bind_ok in E as (? & _ & E). apply Ok_inj in E. injection E as <- _. reflexivity.
Qed.
(** ** agreement with the model of successful constructions *)
Definition needs_length (l : list ucfg) : Prop := exists mult n, In (UKnownSuffix mult n) l.
Lemma bind_seq_ok : forall ms l C C' us, bind_seq ms C l = (C', Ok us) <-> bind_all C l = Ok (C', us) /\ (needs_length (map fst l) -> exists n, ms = Ok n).
Proof.
  intros ms l. induction l as [|[c t] l IH]; intros C C' us.
  - cbn. split; [intros H; injection H as <- <-; split; [reflexivity|intros (m & n & [])]|intros [H _]; injection H as <- <-; reflexivity].
  - cbn [bind_seq bind_all map fst]. unfold bind_one. 
    assert (K : (exists m n, c = UKnownSuffix m n) \/ (forall m n, c <> UKnownSuffix m n)) by (destruct c; try (right; intros; discriminate); left; eauto).
    destruct (bind_unit C c) as [[C1 b]|e] eqn:B.
    2:{ split.
        - intros H. exfalso. destruct K as [(m & n & ->)|K]; [discriminate B|]. destruct c; cbn [rmap bind] in H; try discriminate H. eapply K; reflexivity.
        - intros [H _]. discriminate H. }
    pose proof (bind_registers _ _ _ _ B) as E1. subst C1. cbn [rmap snd bind fst].
    destruct K as [(m & n & ->)|K].
    + destruct ms as [k|e]; cbn [bind].
      * destruct (bind_seq (Ok k) (register C (UKnownSuffix m n)) l) as [C2 y] eqn:S. destruct (IH (register C (UKnownSuffix m n)) C2 us) as [A1 A2]. split.
        -- intros H. destruct y as [us'|e]; [|discriminate H]. cbn [bind] in H. injection H as <- <-. destruct (IH (register C (UKnownSuffix m n)) C2 us') as [D1 D2]. destruct (D1 S) as [D3 _]. rewrite D3. cbn [bind fst snd]. split; [reflexivity|eauto].
        -- intros [H _]. apply bind_ok in H as ([C3 us'] & H1 & H). cbn [fst snd] in H. apply Ok_inj in H. injection H as <- <-. destruct (IH (register C (UKnownSuffix m n)) C3 us') as [_ D2]. rewrite D2 in S; [injection S as <- <-; reflexivity|]. split; [exact H1|eauto].
      * split; [intros H; discriminate H|]. intros [_ H]. destruct H as (k & H); [exists m, n; left; reflexivity|discriminate H].
    + assert (Q : match c with UKnownSuffix _ _ => let* _ := ms in Ok b | _ => Ok b end = Ok b) by (destruct c; try reflexivity; exfalso; eapply K; reflexivity). rewrite Q.
      destruct (bind_seq ms (register C c) l) as [C2 y] eqn:S. split.
      * intros H. destruct y as [us'|e]; [|discriminate H]. cbn [bind] in H. injection H as <- <-. destruct (IH (register C c) C2 us') as [D1 _]. destruct (D1 S) as [D3 D4]. rewrite D3. cbn [bind fst snd]. split; [reflexivity|].
        intros (m & n & [X|X]); [exfalso; eapply K; exact X|]. apply D4. exists m, n. exact X.
      * intros [H H']. apply bind_ok in H as ([C3 us'] & H1 & H). cbn [fst snd] in H. apply Ok_inj in H. injection H as <- <-. destruct (IH (register C c) C3 us') as [_ D2]. rewrite D2 in S; [injection S as <- <-; reflexivity|]. split; [exact H1|].
        intros (m & n & X). apply H'. exists m, n. right. exact X.
Qed.
Lemma bind_all_app : forall l r C, bind_all C (l ++ r) = let* x := bind_all C l in let* y := bind_all (fst x) r in Ok (fst y, snd x ++ snd y).
Proof.
  induction l as [|[c t] l IH]; intros r C; cbn [app bind_all bind fst snd].
  - destruct (bind_all C r) as [[C' us]|]; reflexivity.
  - destruct (bind_unit C c) as [[C1 b]|]; [|reflexivity]. cbn [bind fst snd]. rewrite IH. destruct (bind_all C1 l) as [[C2 us]|]; [|reflexivity]. cbn [bind fst snd]. destruct (bind_all C2 r) as [[C3 vs]|]; reflexivity.
Qed.
Lemma flatten_fst : forall it l, flatten_item it = Ok l -> map fst l = match it with One c => [c] | Group g => g end.
Proof. intros [c|[|c g]] l H; cbn in H; try discriminate H; apply Ok_inj in H; subst l; [reflexivity|]. exact (mark_last_fst (c :: g)). Qed.
Lemma bind_items_ok : forall ms items C C' us, bind_items ms C items = (C', Ok us) <-> init_units C items = Ok (C', us) /\ (needs_length (items_units items) -> exists n, ms = Ok n).
Proof.
  intros ms items. induction items as [|it items IH]; intros C C' us.
  - cbn. split; [intros H; injection H as <- <-; split; [reflexivity|intros (m & n & [])]|intros [H _]; injection H as <- <-; reflexivity].
  - cbn [bind_items]. unfold init_units. cbn [mapM]. unfold bind_item. destruct (flatten_item it) as [l|e] eqn:F.
    2:{ cbn [bind]. split; [intros H; discriminate H|intros [H _]; discriminate H]. }
    cbn [bind]. pose proof (flatten_fst _ _ F) as FF. change (items_units (it :: items)) with ((match it with One c => [c] | Group g => g end) ++ items_units items). rewrite <- FF.
    destruct (bind_seq ms C l) as [C1 [us1|e]] eqn:S1.
    + apply bind_seq_ok in S1 as [S1 N1]. destruct (bind_items ms C1 items) as [C2 [us2|e]] eqn:S2.
      * apply IH in S2 as [S2 N2]. unfold init_units in S2. apply bind_ok in S2 as (fl & M & S2). rewrite M. cbn [bind concat]. rewrite bind_all_app, S1. cbn [bind fst snd]. rewrite S2. cbn [bind fst snd]. split.
        -- intros H. injection H as <- <-. split; [reflexivity|]. intros (m & n & X). apply in_app_or in X as [X|X]; [apply N1|apply N2]; exists m, n; exact X.
        -- intros [H _]. apply Ok_inj in H. injection H as <- <-. reflexivity.
      * split; [intros H; discriminate H|]. intros [H N]. exfalso. apply bind_ok in H as (fl & M & H). apply bind_ok in M as (fl' & M & X). apply Ok_inj in X. subst fl. cbn [concat] in H. rewrite bind_all_app, S1 in H. cbn [bind fst snd] in H.
        apply bind_ok in H as ([C3 us3] & H & _). assert (Y : bind_items ms C1 items = (C3, Ok us3)); [|rewrite Y in S2; discriminate S2]. apply IH. unfold init_units. rewrite M. split; [exact H|]. intros (m & n & X). apply N. exists m, n. apply in_or_app. right. exact X.
    + split; [intros H; discriminate H|]. intros [H N]. exfalso. apply bind_ok in H as (fl & M & H). apply bind_ok in M as (fl' & M & X). apply Ok_inj in X. subst fl. cbn [concat] in H. rewrite bind_all_app in H. apply bind_ok in H as ([C3 us3] & H & _).
      assert (Y : bind_seq ms C l = (C3, Ok us3)); [|rewrite Y in S1; discriminate S1]. apply bind_seq_ok. split; [exact H|]. intros (m & n & X). apply N. exists m, n. apply in_or_app. left. exact X.
Qed.
(** ** the class after binding, with or without exception *)
Lemma bind_seq_state : forall ms l C, exists fin rest, map fst l = fin ++ rest /\ fst (bind_seq ms C l) = fold_left register fin C /\ (forall us, snd (bind_seq ms C l) = Ok us -> rest = []).
Proof.
  intros ms l. induction l as [|[c t] l IH]; intros C.
  - exists [], []. split; [reflexivity|]. split; [reflexivity|]. reflexivity.
  - cbn [bind_seq map fst]. destruct (bind_one ms C c) as [C1 x] eqn:B. assert (E : C1 = register C c) by (unfold bind_one in B; injection B as <- _; reflexivity). subst C1. destruct x as [b|e].
    + destruct (IH (register C c)) as (fin & rest & A1 & A2 & A3). destruct (bind_seq ms (register C c) l) as [C2 y] eqn:S. cbn [fst snd] in A2, A3. exists (c :: fin), rest. split; [rewrite A1; reflexivity|]. split; [exact A2|].
      cbn [snd]. intros us H. destruct y as [us'|e]; [exact (A3 us' eq_refl)|discriminate H].
    + exists [c], (map fst l). split; [reflexivity|]. split; [reflexivity|]. intros us H. discriminate H.
Qed.
Lemma bind_items_state : forall ms items C, exists fin rest, items_units items = fin ++ rest /\ fst (bind_items ms C items) = fold_left register fin C /\ (forall us, snd (bind_items ms C items) = Ok us -> rest = []).
Proof.
  intros ms items. induction items as [|it items IH]; intros C.
  - exists [], []. split; [reflexivity|]. split; [reflexivity|]. reflexivity.
  - cbn [bind_items]. unfold bind_item. change (items_units (it :: items)) with ((match it with One c => [c] | Group g => g end) ++ items_units items). destruct (flatten_item it) as [l|e] eqn:F.
    + rewrite <- (flatten_fst _ _ F). destruct (bind_seq_state ms l C) as (f1 & r1 & A1 & A2 & A3). destruct (bind_seq ms C l) as [C1 [us1|e]] eqn:S1; cbn [fst snd] in A2, A3.
      * pose proof (A3 us1 eq_refl) as ->. rewrite app_nil_r in A1. destruct (IH C1) as (f2 & r2 & B1 & B2 & B3). destruct (bind_items ms C1 items) as [C2 y] eqn:S2. cbn [fst snd] in *. exists (f1 ++ f2), r2.
        split; [rewrite A1, B1, app_assoc; reflexivity|]. split; [rewrite fold_left_app, <- A2; exact B2|]. intros us H. destruct y as [us'|e]; [exact (B3 us' eq_refl)|discriminate H].
      * exists f1, (r1 ++ items_units items). split; [rewrite A1, app_assoc; reflexivity|]. split; [exact A2|]. intros us H. discriminate H.
    + exists [], ((match it with One c => [c] | Group g => g end) ++ items_units items). split; [reflexivity|]. split; [reflexivity|]. intros us H. discriminate H.
Qed.
Lemma registered_known : forall l C g, In g (tc_known (fold_left register l C)) <-> In g (tc_known C) \/ exists c, In c l /\ unit_adds c g.
Proof.
  induction l as [|c l IH]; intros C g; cbn [fold_left]; [split; [auto|intros [H|(c & [] & _)]; exact H]|]. rewrite IH, register_known. split.
  - intros [[H|H]|(d & I & H)]; [left; exact H|right; exists c; split; [left; reflexivity|exact H]|right; exists d; split; [right; exact I|exact H]].
  - intros [H|(d & [<-|I] & H)]; [auto|auto|right; exists d; auto].
Qed.
Lemma registered_rest : forall l C, tc_extra (fold_left register l C) = tc_extra C /\ forall g, incompat_of (fold_left register l C) g = incompat_of C g.
Proof.
  induction l as [|c l IH]; intros C; cbn [fold_left]; [split; reflexivity|]. destruct (IH (register C c)) as [A B]. rewrite register_adds in *. split; [rewrite A; apply adds_extra|]. intros g. rewrite B. apply add_known_incompat.
Qed.
(** ** one attempt *)
Lemma load_cases : forall io big d C C1 r, load_dict io big d C = (C1, r) -> (C1 = C /\ exists e, r = Err e) \/ exists j rows, read_json d (u "grammemes.json") = Ok j /\ as_rows j = Ok rows /\ C1 = init_grammemes C rows.
Proof.
  intros io big d C C1 r H. unfold load_dict in H.
  destruct (let* m := load_meta d (u "meta.json") in _) as [[m rows]|e] eqn:E; [|injection H as <- <-; left; eauto]. right.
  apply bind_ok in E as (m' & _ & E). apply bind_ok in E as (x & _ & E). apply bind_ok in E as (j & J & E). apply bind_ok in E as (rows' & R & E). apply Ok_inj in E. injection E as _ ->. injection H as <- _. exists j, rows. auto.
Qed.
Lemma choices_ok : forall W a p lang l ws lg pr sub items, choices W a p lang l = (ws, Ok (lg, pr, sub, items)) <->
  get_prob_estimator W (a_est a) (ld_meta l) p = Ok pr /\ snd (sub_choice W a lg) = Ok sub /\ snd (unit_choice W a lg) = Ok items /\
  lg = snd (choose_language (meta_get (u "language_code") (ld_meta l)) lang) /\
  ws = fst (choose_language (meta_get (u "language_code") (ld_meta l)) lang) ++ fst (sub_choice W a lg) ++ fst (unit_choice W a lg).
Proof.
  intros W a p lang l ws lg pr sub items. unfold choices.
  destruct (choose_language (meta_get (u "language_code") (ld_meta l)) lang) as [w1 lg1]. cbn [quiet wbind snd fst].
  destruct (get_prob_estimator W (a_est a) (ld_meta l) p) as [pr1|e]; cbn [quiet wbind snd fst]; [|split; [intros H; discriminate H|intros (H & _); discriminate H]].
  fold (sub_choice W a lg1). fold (unit_choice W a lg1).
  destruct (sub_choice W a lg1) as [w2 [sub1|e]] eqn:S; cbn [quiet wbind snd fst]; [|split; [intros H; discriminate H|intros (_ & H & _ & E & _); subst lg; rewrite S in H; discriminate H]].
  destruct (unit_choice W a lg1) as [w3 [us|e]] eqn:V; cbn [quiet wbind snd fst]; [|split; [intros H; discriminate H|intros (_ & _ & H & E & _); subst lg; rewrite V in H; discriminate H]].
  split.
  - intros H. injection H as <- <- <- <- <-. rewrite S, V. cbn [fst snd]. rewrite app_nil_r. repeat (split; [reflexivity|]). reflexivity.
  - intros (H1 & H2 & H3 & -> & ->). rewrite S in *. rewrite V in *. cbn [fst snd] in *. injection H1 as <-. injection H2 as <-. injection H3 as <-. rewrite app_nil_r. reflexivity.
Qed.
Lemma choice_asked : forall W a lg items, snd (unit_choice W a lg) = Ok items -> asked_units a items.
Proof.
  intros W a lg items H. unfold unit_choice in H. destruct (a_units a) as [us|] eqn:U; [apply Ok_inj in H; subst; left; exact U|]. right. split; [exact U|].
  destruct (lang_default_config W lg) as [w [c|e]] eqn:K; cbn [snd rmap] in H; [|discriminate H]. apply Ok_inj in H. subst items. exists lg. apply (config_units W). rewrite K. reflexivity.
Qed.
Lemma attempt_state : forall W C a ws C' r, attempt W C a = (ws, C', r) -> (C' = C /\ exists e, r = Err e) \/
  exists rows fin, its_table W a rows /\ C' = fold_left register fin (init_grammemes C rows) /\ (forall z, r = Ok z -> fin = items_units (z_units z)) /\
    (fin = [] \/ exists items more, asked_units a items /\ items_units items = fin ++ more).
Proof.
  intros W C a ws C' r H. unfold attempt in H. rewrite create_lang in H. destruct (choose_dictionary_path _ _ _) as [p|e] eqn:P; [|injection H as _ <- <-; left; eauto]. apply picks_iff in P.
  destruct (load_dict _ _ _ C) as [C1 x] eqn:L. destruct (load_cases _ _ _ _ _ _ L) as [(-> & e & ->)|(j & rows & J & R & ->)]; [injection H as _ <- <-; left; eauto|]. right.
  assert (T : its_table W a rows) by (exists p, j; auto).
  destruct x as [l|e]; [|injection H as _ <- <-; exists rows, []; split; [exact T|]; split; [reflexivity|]; split; [intros z X; discriminate X|left; reflexivity]].
  destruct (choices W a p (requested a) l) as [ws' [[[[lg pr] sub] items]|e]] eqn:K; [|injection H as _ <- <-; exists rows, []; split; [exact T|]; split; [reflexivity|]; split; [intros z X; discriminate X|left; reflexivity]].
  apply choices_ok in K as (_ & _ & K & _). apply choice_asked in K.
  destruct (bind_items_state (max_suffix_length (ld_meta l)) items (init_grammemes C rows)) as (fin & rest & A1 & A2 & A3). destruct (bind_items _ _ items) as [C2 y]. cbn [fst snd] in A2, A3. injection H as _ <- <-.
  exists rows, fin. split; [exact T|]. split; [exact A2|]. split; [|right; exists items, rest; auto].
  intros z X. destruct y as [us|e]; [|discriminate X]. cbn [bind] in X. apply Ok_inj in X. subst z. cbn [z_units]. rewrite A1, (A3 us eq_refl), app_nil_r. reflexivity.
Qed.
Lemma attempt_known : forall W C a ws C' r, attempt W C a = (ws, C', r) -> (C' = C /\ exists e, r = Err e) \/
  exists rows fin, its_table W a rows /\ (forall g, In g (tc_known C') <-> In g (map g_name rows) \/ exists c, In c fin /\ unit_adds c g) /\
    (forall z, r = Ok z -> fin = items_units (z_units z)) /\ (fin = [] \/ exists items more, asked_units a items /\ items_units items = fin ++ more).
Proof.
  intros W C a ws C' r H. destruct (attempt_state W C a ws C' r H) as [X|(rows & fin & T & -> & F & A)]; [left; exact X|right]. exists rows, fin. split; [exact T|]. split; [|auto]. intros g. rewrite registered_known, init_known. reflexivity.
Qed.
(** ** successful attempts *)
Lemma attempt_create : forall W C a ws C' z, create W C a = (ws, C', Ok z) -> attempt W C a = (ws, C', Ok z).
Proof.
  intros W C a ws C' z H. apply create_ok in H as (p & l & C1 & [P L D E S V I Z Wn (R1 & R2 & R3 & R4 & R5 & R6)]). unfold attempt. rewrite create_lang, (proj2 (picks_iff W a p) P), L.
  rewrite (proj2 (choices_ok W a p (requested a) l ws (z_lang z) (m_prob (z_morph z)) (m_subst (z_morph z)) (z_units z))); [|repeat (split; [assumption|]); assumption].
  unfold dictionary in D. apply bind_ok in D as (n & N & D). apply Ok_inj in D. rewrite N. rewrite (proj2 (bind_items_ok (Ok n) (z_units z) C1 C' (m_units (z_morph z)))); [|split; [exact I|eauto]]. cbn [bind]. 
  destruct z as [[mu me md ms mp mb mt] zl zp za zr zu]. cbn in *. subst. reflexivity.
Qed.
Lemma create_attempt : forall W C a ws C' z, attempt W C a = (ws, C', Ok z) -> create W C a = (ws, C', Ok z) \/
  (~ needs_length (items_units (z_units z)) /\ exists p m e, picks W a p /\ load_meta (w_folder W p) (u "meta.json") = Ok m /\ max_suffix_length m = Err e).
Proof.
  intros W C a ws C' z H. unfold attempt in H. rewrite create_lang in H. destruct (choose_dictionary_path _ _ _) as [p|e] eqn:P; [|discriminate H]. apply picks_iff in P.
  destruct (load_dict _ _ _ C) as [C1 [l|e]] eqn:L; [|discriminate H].
  destruct (choices W a p (requested a) l) as [ws' [[[[lg pr] sub] items]|e]] eqn:K; [|discriminate H]. apply choices_ok in K as (K1 & K2 & K3 & K4 & K5).
  destruct (bind_items _ _ items) as [C2 [us|e]] eqn:B; [|discriminate H]. cbn [bind] in H. injection H as <- <- <-. apply bind_items_ok in B as [B N].
  destruct (max_suffix_length (ld_meta l)) as [n|e] eqn:X.
  - left. apply create_ok. exists p, l, C1. constructor; cbn [z_morph z_lang z_units m_dict m_prob m_subst m_units]; auto.
    + unfold dictionary. rewrite X. reflexivity.
    + cbn. repeat (split; [reflexivity|]). reflexivity.
  - right. split; [intros Y; destruct (N Y) as (k & Z); discriminate Z|]. exists p, (ld_meta l), e. split; [exact P|]. split; [|exact X].
    unfold load_dict in L. destruct (let* m := load_meta (w_folder W p) (u "meta.json") in _) as [[m rows]|e'] eqn:E; [|discriminate L]. apply bind_ok in E as (m' & Y & E). apply bind_ok in E as (x & _ & E). apply bind_ok in E as (j & _ & E). apply bind_ok in E as (rows' & _ & E). apply Ok_inj in E. injection E as -> _.
    injection L as _ L. repeat (apply bind_ok in L as (? & _ & L)). apply Ok_inj in L. subst l. exact Y.
Qed.
