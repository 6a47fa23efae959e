(** * Creating and pickling analyzers: whole statements *)
From Coq Require Import String List NArith ZArith Bool Lia QArith.
From Verif Require Import Py Uni Tagset Dawg Utils Shapes Dict Units Analyzer ConfigRu ConfigUk Json Storage Create Spec9.
From Verif Require Import L_Base L_Tagset L_ByUnit L_Storage L_Create.
Import ListNotations.
Local Open Scope nat_scope.
Local Open Scope list_scope.

(** ** C56 *)
Lemma created_folder : forall W C a p, picks W a p ->
  (forall C1 e, load_dict (w_io W) (w_big W) (w_folder W p) C = (C1, Err e) -> create W C a = ([], C1, Err e)) /\
  (forall ws C' z, create W C a = (ws, C', Ok z) ->
     exists C1 l, load_dict (w_io W) (w_big W) (w_folder W p) C = (C1, Ok l) /\ dictionary l = Ok (m_dict (z_morph z))).
Proof.
  intros W C a p P. split; [intros C1 e L; exact (create_unreadable _ _ _ _ _ _ P L)|]. intros ws C' z H. apply create_ok in H as (p' & l & C1 & [P' L D _ _ _ _ _ _ _]).
  rewrite (picks_fun _ _ _ _ P P'). exists C1, l. auto.
Qed.
Lemma declares_get : forall m dl, declares m dl -> meta_get (u "language_code") m = dl.
Proof. intros m dl [(H & ->)|H]; unfold meta_get; rewrite H; reflexivity. Qed.
Lemma config_units : forall W lg us, snd (lang_default_config W lg) = Ok us -> language_units lg (c_units us) /\ language_substitutes lg (c_sub us).
Proof.
  intros W lg us H. unfold lang_default_config in H. destruct lg as [|b|z|t|l|x|x]; try discriminate H. unfold language_units, language_substitutes.
  assert (K : JStr l = JStr (u "uk") <-> l = u "uk") by (split; [intros E; injection E; auto|intros ->; auto]). rewrite !K.
  destruct (str_eqb l (u "ru-old")) eqn:A.
  - apply str_eqb_eq in A. subst l. replace (str_eqb (u "ru") (u "ru")) with true in H by reflexivity. apply Ok_inj in H. subst us. split; right; (split; [discriminate|reflexivity]).
  - destruct (str_eqb l (u "ru")) eqn:B; [apply str_eqb_eq in B; subst l; apply Ok_inj in H; subst us; split; right; (split; [discriminate|reflexivity])|].
    destruct (str_eqb l (u "uk")) eqn:D; [apply str_eqb_eq in D; subst l; apply Ok_inj in H; subst us; split; left; (split; reflexivity)|].
    cbn [snd] in H. apply Ok_inj in H. subst us. split; right; (split; [intros ->; rewrite str_eqb_refl in D; discriminate D|reflexivity]).
Qed.
Lemma config_warn : forall W lg c, In (WUnknownLanguage c) (fst (lang_default_config W lg)) <-> lg = JStr c /\ unknown_language W c.
Proof.
  intros W lg c. unfold lang_default_config, unknown_language. destruct lg as [|b|z|t|l|x|x]; try (split; [intros []|intros (H & _); discriminate H]).
  destruct (str_eqb l (u "ru-old")) eqn:A.
  - apply str_eqb_eq in A. subst l. replace (str_eqb (u "ru") (u "ru")) with true by reflexivity. split; [intros []|]. intros (H & N & _). injection H as <-. exfalso. apply N. right. left. reflexivity.
  - destruct (str_eqb l (u "ru")) eqn:B; [apply str_eqb_eq in B; subst l; split; [intros []|intros (H & N & _); injection H as <-; exfalso; apply N; left; reflexivity]|].
    destruct (str_eqb l (u "uk")) eqn:D; [apply str_eqb_eq in D; subst l; split; [intros []|intros (H & N & _); injection H as <-; exfalso; apply N; right; right; left; reflexivity]|].
    cbn [fst]. assert (NI : ~ In l [u "ru"; u "ru-old"; u "uk"]).
    { intros [H|[H|[H|[]]]]; subst l; [rewrite str_eqb_refl in B; discriminate B|rewrite str_eqb_refl in A; discriminate A|rewrite str_eqb_refl in D; discriminate D]. }
    destruct (smem l (w_attrs W)) eqn:S.
    + split; [intros []|]. intros (H & _ & N). injection H as ->. exfalso. apply N. apply smem_In. exact S.
    + split; [intros [H|[]]; injection H as ->|intros (H & _); injection H as ->; left; reflexivity]. split; [auto|]. split; [exact NI|]. intro I. apply smem_In in I. rewrite I in S. discriminate S.
Qed.
Lemma config_only : forall W lg w, In w (fst (lang_default_config W lg)) -> exists c, w = WUnknownLanguage c.
Proof.
  intros W lg w H. unfold lang_default_config in H. destruct lg; try (destruct H). destruct (str_eqb (if str_eqb s (u "ru-old") then u "ru" else s) (u "ru")); [destruct H|]. destruct (str_eqb _ (u "uk")); [destruct H|].
  destruct (smem _ _); [destruct H|]. destruct H as [<-|[]]. eauto.
Qed.
Lemma choose_warn : forall dl lang w, In w (fst (choose_language dl lang)) <-> (w = WNoLanguage /\ lang = None /\ dl = JNull) \/ (exists l, w = WMismatch dl l /\ lang = Some l /\ dl <> JStr l).
Proof.
  intros dl lang w. unfold choose_language. destruct lang as [l|].
  - cbn [fst]. assert (K : (In w (match dl with JStr d => if str_eqb d l then [] else [WMismatch dl l] | _ => [WMismatch dl l] end)) <-> w = WMismatch dl l /\ dl <> JStr l).
    { destruct dl as [|b|z|t|d|x|x]; try (split; [intros [<-|[]]; split; [reflexivity|discriminate]|intros [-> _]; left; reflexivity]).
      destruct (str_eqb d l) eqn:E; [apply str_eqb_eq in E; subst d; split; [intros []|intros [_ N]; exfalso; apply N; reflexivity]|].
      split; [intros [<-|[]]; split; [reflexivity|intros X; injection X as ->; rewrite str_eqb_refl in E; discriminate E]|intros [-> _]; left; reflexivity]. }
    rewrite K. split; [intros [-> N]; right; exists l; auto|]. intros [(_ & H & _)|(l' & -> & H & N)]; [discriminate H|]. injection H as ->. auto.
  - destruct dl; cbn [fst]; (split; [intros H; try destruct H as [<-|[]]; try destruct H; left; auto|intros [(-> & _ & H)|(l0 & _ & H & _)]; try discriminate H; try (left; reflexivity)]).
Qed.
Lemma created_language : forall W C a ws C' z p m dl, create W C a = (ws, C', Ok z) -> picks W a p ->
  load_meta (w_folder W p) (u "meta.json") = Ok m -> declares m dl ->
  (requested a = None -> dl = JNull -> z_lang z = JStr (u "ru")) /\ (requested a = None -> dl <> JNull -> z_lang z = dl) /\ (forall l, requested a = Some l -> z_lang z = JStr l) /\
  (In WNoLanguage ws <-> requested a = None /\ dl = JNull) /\
  (forall d l, In (WMismatch d l) ws <-> requested a = Some l /\ d = dl /\ dl <> JStr l) /\
  (forall c, In (WUnknownLanguage c) ws <-> z_lang z = JStr c /\ unknown_language W c /\ (a_units a = None \/ a_sub a = SubAuto)).
Proof.
  intros W C a ws C' z p m dl H P LM DL. apply create_ok in H as (p' & l & C1 & [P' L _ _ _ _ _ Z WN _]). rewrite <- (picks_fun _ _ _ _ P P') in L.
  assert (ld_meta l = m) as EM.
  { unfold load_dict in L. rewrite LM in L. cbn [bind] in L. destruct (assert_format m); [|discriminate L]. cbn [bind] in L. destruct (read_json _ (u "grammemes.json")); [|discriminate L]. cbn [bind] in L.
    destruct (as_rows _); [|discriminate L]. cbn [bind] in L. injection L as _ L. repeat (apply bind_ok in L as (? & _ & L)). apply Ok_inj in L. subst l. reflexivity. }
  rewrite EM, (declares_get _ _ DL) in *. clear EM L. split; [|split; [|split]].
  - intros R ->. rewrite R in Z. exact Z.
  - intros R N. rewrite R in Z. cbn [choose_language] in Z. destruct dl; try exact Z. destruct (N eq_refl).
  - intros q R. rewrite R in Z. exact Z.
  - assert (S1 : forall w, In w (fst (sub_choice W a (z_lang z)) ++ fst (unit_choice W a (z_lang z))) <-> In w (fst (lang_default_config W (z_lang z))) /\ (a_units a = None \/ a_sub a = SubAuto)).
    { intros w. rewrite in_app_iff. unfold sub_choice, unit_choice. destruct (lang_default_config W (z_lang z)) as [w0 c]. destruct (a_sub a) as [|r], (a_units a) as [us|]; cbn [quiet fst]; (split; [intros [H|H]; try destruct H; auto|intros (H & [K|K]); try discriminate K; auto]). }
    assert (S2 : forall w, In w ws <-> In w (fst (choose_language dl (requested a))) \/ (In w (fst (lang_default_config W (z_lang z))) /\ (a_units a = None \/ a_sub a = SubAuto))).
    { intros w. rewrite WN, in_app_iff, S1. reflexivity. }
    split; [|split].
    + rewrite S2, choose_warn. split.
      * intros [[(_ & A)|(q & A & _)]|(A & _)]; [exact A|discriminate A|]. apply config_only in A as (c & A). discriminate A.
      * intros A. left. left. auto.
    + intros d q. rewrite S2, choose_warn. split.
      * intros [[(A & _)|(q' & A & B)]|(A & _)]; [discriminate A| |apply config_only in A as (c & A); discriminate A]. injection A as -> ->. tauto.
      * intros (A & -> & B). left. right. exists q. auto.
    + intros c. rewrite S2, choose_warn, config_warn. split.
      * intros [[(A & _)|(q & A & _)]|((A & B) & D)]; [discriminate A|discriminate A|auto].
      * intros (A & B & D). right. auto.
Qed.
Lemma created_defaults : forall W C a ws C' z, create W C a = (ws, C', Ok z) ->
  (forall us, a_units a = Some us -> z_units z = us) /\ (a_units a = None -> language_units (z_lang z) (z_units z)) /\
  (forall r, a_sub a = SubGiven r -> m_subst (z_morph z) = r) /\ (a_sub a = SubAuto -> language_substitutes (z_lang z) (m_subst (z_morph z))) /\
  (exists C1, init_units C1 (z_units z) = Ok (C', m_units (z_morph z))) /\ m_uni (z_morph z) = w_uni W.
Proof.
  intros W C a ws C' z H. apply create_ok in H as (p' & l & C1 & [P' L _ _ SB UN IN Z WN (R & _)]). unfold sub_choice in SB. unfold unit_choice in UN.
  split; [|split; [|split; [|split; [|split; [eauto|exact R]]]]].
  - intros us E. rewrite E in UN. apply Ok_inj in UN. auto.
  - intros E. rewrite E in UN. destruct (lang_default_config W (z_lang z)) as [w [c|]] eqn:K; cbn [snd rmap] in UN; [|discriminate UN]. apply Ok_inj in UN. rewrite <- UN. apply (config_units W). rewrite K. reflexivity.
  - intros r E. rewrite E in SB. apply Ok_inj in SB. auto.
  - intros E. rewrite E in SB. destruct (lang_default_config W (z_lang z)) as [w [c|]] eqn:K; cbn [snd rmap] in SB; [|discriminate SB]. apply Ok_inj in SB. rewrite <- SB. apply (config_units W). rewrite K. reflexivity.
Qed.

(** ** C29 *)
Lemma requested_reduce : forall z a, z_path_arg z = a_path a -> z_lang_arg z = a_lang a -> requested (reduce z) = requested a.
Proof. intros z a H1 H2. unfold requested. cbn [reduce a_lang a_path]. rewrite H1, H2. reflexivity. Qed.
Lemma picks_reduce : forall W z a p, z_path_arg z = a_path a -> z_lang_arg z = a_lang a -> picks W (reduce z) p <-> picks W a p.
Proof. intros W z a p H1 H2. rewrite <- !picks_iff, (requested_reduce z a H1 H2). cbn [reduce a_path]. rewrite H1. reflexivity. Qed.
Lemma unpickle_forgets : forall W C a ws C' z ws0 C0 z0, create W C a = (ws, C', Ok z) -> create W C (forget a) = (ws0, C0, Ok z0) ->
  exists ws', create W C (reduce z) = (ws', C0, Ok z0).
Proof.
  intros W C a ws C' z ws0 C0 z0 H H0. apply create_ok in H as (p & l & C1 & [P L D _ _ UN IN Z _ (R1 & R2 & R3 & R4 & R5 & R6)]).
  apply create_ok in H0 as (p0 & l0 & C10 & [P0 L0 D0 E0 S0 UN0 IN0 Z0 _ (Q1 & Q2 & Q3 & Q4 & Q5 & Q6)]).
  assert (PF : picks W (forget a) p <-> picks W a p) by (rewrite <- !picks_iff; reflexivity). assert (p0 = p) as -> by (eapply picks_fun; [exact P0|apply PF; exact P]).
  rewrite L in L0. injection L0 as <- <-. assert (EZ : z_lang z0 = z_lang z) by (rewrite Z, Z0; reflexivity).
  assert (EU : z_units z0 = z_units z).
  { unfold unit_choice in UN, UN0. cbn [forget a_units] in UN0. rewrite EZ in UN0. rewrite UN in UN0. apply Ok_inj in UN0. auto. }
  eexists. apply create_ok. exists p, l, C1. constructor; auto.
  - apply (picks_reduce W z a); auto.
  - cbn [unit_choice reduce a_units quiet snd]. rewrite EU. reflexivity.
  - rewrite (requested_reduce z a R4 R5). exact Z0.
  - cbn [forget reduce a_path a_lang a_result] in *. repeat split; congruence.
Qed.
Lemma forget_same : forall a, a_est a = EstAuto -> a_sub a = SubAuto -> forget a = a.
Proof. intros [p l r us e s] H1 H2. cbn in *. subst. reflexivity. Qed.
Lemma load_dict_sim : forall io big d C D C1 l, load_dict io big d C = (C1, Ok l) -> exists D1, load_dict io big d D = (D1, Ok l) /\ sim C1 D1.
Proof.
  intros io big d C D C1 l H. unfold load_dict in *. destruct (let* m := load_meta d (u "meta.json") in _) as [[m rows]|e]; [|discriminate H]. injection H as <- H. exists (init_grammemes D rows). split; [|apply init_sim].
  f_equal. rewrite <- H. pose proof (init_sim C D rows) as S. destruct (load_gramtab m d) as [texts|]; [|reflexivity]. cbn [bind].
  assert (X : mapM (mk_tag (init_grammemes D rows)) texts = mapM (mk_tag (init_grammemes C rows)) texts).
  { clear - S. unfold sim in S. rewrite S. clear. induction texts as [|t ts IH]; [reflexivity|]. cbn [mapM]. rewrite IH. reflexivity. }
  rewrite X. reflexivity.
Qed.
Lemma config_world : forall W W' lg, snd (lang_default_config W' lg) = snd (lang_default_config W lg).
Proof. intros W W' lg. unfold lang_default_config. destruct lg; try reflexivity. destruct (str_eqb _ (u "ru")); [reflexivity|]. destruct (str_eqb _ (u "uk")); reflexivity. Qed.
Lemma unpickle_elsewhere : forall W W' C D a ws C' z p p', create W C a = (ws, C', Ok z) -> a_est a = EstAuto -> a_sub a = SubAuto ->
  picks W a p -> picks W' (reduce z) p' -> w_folder W' p' = w_folder W p -> same_libraries W W' ->
  exists ws' D' z', create W' D (reduce z) = (ws', D', Ok z') /\ same_analyzer z z'.
Proof.
  intros W W' C D a ws C' z p p' H EA SA P P' F [I1 I2 I3 I4 I5]. apply create_ok in H as (p0 & l & C1 & [P0 L DD E S UN IN Z _ (R1 & R2 & R3 & R4 & R5 & R6)]).
  rewrite <- (picks_fun _ _ _ _ P P0) in *. clear P0 p0. destruct (load_dict_sim _ _ _ _ D _ _ L) as (D1 & LD & SM).
  assert (X : init_units D1 (z_units z) = Ok (upd D1 C', m_units (z_morph z))).
  { unfold sim in SM. rewrite SM at 1. rewrite init_units_upd, IN. reflexivity. }
  set (M' := set_tc (z_morph z) (upd D1 (m_tc (z_morph z)))). set (z' := MkAnalyzer M' (z_lang z) (z_path_arg z) (z_lang_arg z) (z_result z) (z_units z)).
  eexists. exists (upd D1 C'), z'. split.
  - apply create_ok. exists p', l, D1. constructor; auto.
    + rewrite F, I1, I2. exact LD.
    + rewrite EA in E. cbn [reduce a_est z' z_morph M' set_tc m_prob]. unfold get_prob_estimator, default_estimator in *. rewrite F, I5. exact E.
    + cbn [z' z_morph M' set_tc m_subst z_lang]. unfold sub_choice in *. cbn [reduce a_sub]. rewrite SA in S. pose proof (config_world W W' (z_lang z)) as K. destruct (lang_default_config W' (z_lang z)) as [w1 c1], (lang_default_config W (z_lang z)) as [w2 c2]. cbn [snd] in *. rewrite K. exact S.
    + rewrite (requested_reduce z a R4 R5). exact Z.
    + cbn. rewrite R3. repeat split; auto; congruence.
  - constructor; try reflexivity.
    + intros w. cbn [z' z_morph]. unfold morph_parse, fuel_for. change (m_uni M') with (m_uni (z_morph z)). apply analyze_upd.
    + intros w. cbn [z' z_morph]. unfold morph_tag, fuel_for. change (m_uni M') with (m_uni (z_morph z)). apply analyze_upd.
    + intros q. cbn [z' z_morph]. unfold get_lexeme. destruct (last_unit (p_stack q)); [|reflexivity]. cbn [bind]. apply lexeme_upd.
Qed.

Lemma json_true_iff : forall v, json_true v = false <-> counts_as_false v.
Proof.
  intros v. unfold counts_as_false. split.
  - destruct v as [|b|z|s|s|l|l]; cbn [json_true]; intros H.
    + auto.
    + destruct b; [discriminate H|auto].
    + apply negb_false_iff, Z.eqb_eq in H. subst. auto.
    + do 6 right. exists s. split; [auto|]. intros c I [A B]. assert (X : existsb (fun c => ((49 <=? c) && (c <=? 57))%N) s = true); [|congruence].
      apply existsb_exists. exists c. split; [auto|]. apply andb_true_iff. split; apply N.leb_le; auto.
    + destruct s; [auto|discriminate H].
    + destruct l; [auto 6|discriminate H].
    + destruct l; [auto 7|discriminate H].
  - intros [->|[->|[->|[->|[->|[->|(s & -> & H)]]]]]]; try reflexivity. cbn [json_true]. destruct (existsb (fun c => ((49 <=? c) && (c <=? 57))%N) s) eqn:E; [|reflexivity]. exfalso.
    apply existsb_exists in E as (c & I & E). apply andb_true_iff in E as [A B]. apply N.leb_le in A, B. apply (H c I). auto.
Qed.
Lemma announces_iff : forall m, json_true (meta_get (u "P(t|w)") m) = true <-> announces_estimates m.
Proof.
  intros m. unfold announces_estimates, meta_get. destruct (sget (u "P(t|w)") m) as [v|].
  - rewrite <- not_false_iff_true, json_true_iff. split; [intros H; exists v; auto|]. intros (v' & E & H). injection E as <-. exact H.
  - split; [discriminate|]. intros (v & E & _). discriminate E.
Qed.
Lemma loaded_meta : forall io big d C C1 l m, load_dict io big d C = (C1, Ok l) -> load_meta d (u "meta.json") = Ok m -> ld_meta l = m.
Proof.
  intros io big d C C1 l m L LM. unfold load_dict in L. rewrite LM in L. cbn [bind] in L. destruct (assert_format m); [|discriminate L]. cbn [bind] in L. destruct (read_json _ (u "grammemes.json")); [|discriminate L]. cbn [bind] in L.
  destruct (as_rows _); [|discriminate L]. cbn [bind] in L. injection L as _ L. repeat (apply bind_ok in L as (? & _ & L)). apply Ok_inj in L. subst l. reflexivity.
Qed.
Lemma created_estimator : forall W C a ws C' z p m, create W C a = (ws, C', Ok z) -> picks W a p ->
  load_meta (w_folder W p) (u "meta.json") = Ok m -> right_table W a p m (m_prob (z_morph z)).
Proof.
  intros W C a ws C' z p m H P LM. apply create_ok in H as (p' & l & C1 & [P' L _ E _ _ _ _ _ _]). rewrite <- (picks_fun _ _ _ _ P P') in *.
  rewrite (loaded_meta _ _ _ _ _ _ _ L LM) in E. unfold right_table. unfold get_prob_estimator in E. destruct (a_est a) as [| |load].
  - pose proof (announces_iff m) as A. destruct (json_true (meta_get (u "P(t|w)") m)).
    + apply bind_ok in E as (c & E & X). apply Ok_inj in X. unfold default_estimator in E. apply bind_ok in E as (b & R & E). unfold read_file in R. destruct (sget _ (w_folder W p)) as [b'|] eqn:S; [|discriminate R].
      apply Ok_inj in R. subst b'. split; [intros _; exists b, c; auto|]. intros N. destruct N. apply A. reflexivity.
    + apply Ok_inj in E. split; [intros N; apply A in N; discriminate N|auto].
  - apply Ok_inj in E. auto.
  - apply bind_ok in E as (c & E & X). apply Ok_inj in X. exists c. auto.
Qed.
