(** * Lemmas for C92: the two layouts of a dictionary folder *)
From Coq Require Import String List NArith ZArith Bool Lia QArith.
From Verif Require Import Py Uni Tagset Dawg Dict Utils Shapes Units Analyzer ConfigRu ConfigUk Compile Json Storage Create Preprocess Probability AddProb Spec3 Spec4 Spec5 Spec9 Spec16 Spec40.
From Verif Require Import L_Base L_Tagset L_Storage L_Storage2 L_Storage3 L_Create L_Create2 L_Probability L_AddProb.
Import ListNotations.
Local Open Scope nat_scope.
Local Open Scope list_scope.

Lemma prefixes_found : forall d m pp, states_prefixes d m pp -> load_prefixes m d = Ok pp.
Proof.
  intros d m pp H. unfold load_prefixes. destruct H as [(o & A & B)|([A|(o & A & B)] & R)].
  - rewrite A, B. apply as_strs_ok.
  - rewrite A, R. cbn [bind]. apply as_strs_ok.
  - rewrite A, B, R. cbn [bind]. apply as_strs_ok.
Qed.
Lemma length_found : forall m n, states_length m n -> max_suffix_length m = Ok (Z.to_nat n).
Proof.
  intros m n H. unfold max_suffix_length. destruct H as [(o & A & B)|([A|(o & A & B)] & q & Q & R)].
  - rewrite A. unfold dget_res. fold (@sget jval). rewrite B. reflexivity.
  - rewrite A, Q. unfold dget_res. fold (@sget jval). rewrite R. reflexivity.
  - rewrite A, Q. unfold dget_res. fold (@sget jval). rewrite B, R. reflexivity.
Qed.
Lemma pred_old : forall i, pred_name i <> META /\ pred_name i <> OLD_PREFIXES.
Proof. intros i. split; apply pred_name_other; apply not_pred; reflexivity. Qed.
Lemma load_layout : forall io big d d' m m' pp C, same_elsewhere d d' m m' -> states_prefixes d m pp -> states_prefixes d' m' pp ->
  load_dict io big d' C = (fst (load_dict io big d C), rmap (set_meta m') (snd (load_dict io big d C))).
Proof.
  intros io big d d' m m' pp C [L L' A K G] P P'.
  assert (R : forall f, f <> META -> f <> OLD_PREFIXES -> read_json d' f = read_json d f) by (intros f F1 F2; unfold read_json, read_file; rewrite (A f F1 F2); reflexivity).
  unfold load_dict. change (u "meta.json") with META. rewrite L, L'. cbn [bind].
  assert (EF : assert_format m' = assert_format m) by (unfold assert_format; rewrite (K (u "format_version")) by discriminate; reflexivity). rewrite EF.
  destruct (assert_format m) as [x|e]; [|reflexivity]. cbn [bind]. rewrite (R (u "grammemes.json")) by discriminate.
  destruct (read_json d (u "grammemes.json")) as [j|e]; [|reflexivity]. cbn [bind]. destruct (as_rows j) as [rows|e]; [|reflexivity]. cbn [bind fst snd]. f_equal.
  assert (EG : load_gramtab m' d' = load_gramtab m d).
  { unfold load_gramtab. rewrite (K (u "gramtab_formats")) by discriminate. destruct (sget (u "gramtab_formats") m) as [v|] eqn:S; [|reflexivity]. destruct v; try reflexivity.
    destruct (sget (u "opencorpora-int") l) as [v|] eqn:S2; [|reflexivity]. destruct v; try reflexivity. cbn [as_str bind]. destruct (G l s eq_refl S2) as [G1 G2]. rewrite (R s G1 G2). reflexivity. }
  assert (EI : forall n, load_preds io d' n = load_preds io d n).
  { intros n. unfold load_preds. apply mapM_ext_in. intros i _. destruct (pred_old i) as [F1 F2]. rewrite (A _ F1 F2). reflexivity. }
  assert (F : forall f, f <> META -> f <> OLD_PREFIXES -> read_file d' f = read_file d f) by (intros f F1 F2; unfold read_file; rewrite (A f F1 F2); reflexivity).
  rewrite EG. destruct (load_gramtab m d) as [texts|e]; [|reflexivity]. cbn [bind]. destruct (mapM _ texts) as [gt|e]; [|reflexivity]. cbn [bind].
  rewrite (R (u "suffixes.json")) by discriminate. destruct (read_json d (u "suffixes.json")) as [js|e]; [|reflexivity]. cbn [bind]. destruct (as_strs js) as [suf|e]; [|reflexivity]. cbn [bind].
  rewrite (F (u "paradigms.array")) by discriminate. destruct (read_file d (u "paradigms.array")) as [pb|e]; [|reflexivity]. cbn [bind]. destruct (load_paradigms big pb) as [pa|e]; [|reflexivity]. cbn [bind].
  rewrite (F (u "words.dawg")) by discriminate. destruct (read_file d (u "words.dawg")) as [wb|e]; [|reflexivity]. cbn [bind]. destruct (io_read_words io wb) as [wd|e]; [|reflexivity]. cbn [bind].
  rewrite (prefixes_found _ _ _ P), (prefixes_found _ _ _ P'). cbn [bind]. rewrite EI. destruct (load_preds io d (length pp)) as [pd|e]; reflexivity.
Qed.
Lemma finish_layout : forall W a path lang l d' m m' n C, ld_meta l = m -> same_elsewhere (w_folder W path) d' m m' -> states_length m n -> states_length m' n ->
  finish (set_folder W path d') a path lang (set_meta m' l) C = finish W a path lang l C.
Proof.
  intros W a path lang l d' m m' n C E [L L' A K G] S1 S2. unfold finish. assert (ED : dictionary (set_meta m' l) = dictionary l).
  { unfold dictionary. cbn [set_meta ld_meta]. rewrite E, (length_found _ _ S1), (length_found _ _ S2). reflexivity. }
  rewrite ED. destruct (dictionary l) as [D|e]; [|reflexivity]. cbn [wbind Create.quiet snd fst app set_meta ld_meta].
  assert (EM : forall k, k <> COMPILE -> k <> PREDICTION -> meta_get k m' = meta_get k (ld_meta l)) by (intros k K1 K2; unfold meta_get; rewrite E, (K k K1 K2); reflexivity).
  rewrite (EM (u "language_code")) by discriminate.
  assert (EP : get_prob_estimator (set_folder W path d') (a_est a) m' path = get_prob_estimator W (a_est a) (ld_meta l) path).
  { unfold get_prob_estimator. destruct (a_est a); try reflexivity. rewrite (EM (u "P(t|w)")) by discriminate. destruct (json_true _); [|reflexivity]. unfold default_estimator. rewrite set_folder_at. unfold read_file. rewrite (A (u "p_t_given_w.intdawg")) by discriminate. reflexivity. }
  rewrite EP. reflexivity.
Qed.
Lemma create_layout : forall W C a path d' m m' pp n, picks W a path -> same_elsewhere (w_folder W path) d' m m' ->
  states_prefixes (w_folder W path) m pp -> states_prefixes d' m' pp -> states_length m n -> states_length m' n ->
  create (set_folder W path d') C a = create W C a.
Proof.
  intros W C a path d' m m' pp n P S P1 P2 N1 N2. rewrite (create_at _ _ _ path (picks_set W path d' a path P)), set_folder_at, (create_at W C a path P).
  change (w_io (set_folder W path d')) with (w_io W). change (w_big (set_folder W path d')) with (w_big W). rewrite (load_layout _ _ _ _ _ _ _ C S P1 P2).
  destruct (load_dict (w_io W) (w_big W) (w_folder W path) C) as [C1 [l|e]] eqn:EL; cbn [fst snd rmap]; [|reflexivity].
  pose proof (load_meta_kept _ _ _ _ _ _ EL) as LM. rewrite (se_meta _ _ _ _ S) in LM. apply Ok_inj in LM. rewrite (finish_layout W a path _ l d' m m' n C1 (eq_sym LM) S N1 N2). reflexivity.
Qed.
(** neither place states them *)
Lemma prefixes_missing : forall io big d m C, load_meta d META = Ok m -> no_option_field m (u "paradigm_prefixes") -> sget OLD_PREFIXES d = None -> exists e, snd (load_dict io big d C) = Err e.
Proof.
  intros io big d m C L N F. destruct (load_dict io big d C) as [C1 [l|e]] eqn:E; [exfalso|exists e; reflexivity]. unfold load_dict in E. change (u "meta.json") with META in E. rewrite L in E. cbn [bind] in E.
  destruct (assert_format m); [|discriminate E]. cbn [bind] in E. destruct (read_json d (u "grammemes.json")) as [j|]; [|discriminate E]. cbn [bind] in E. destruct (as_rows j); [|discriminate E]. cbn [bind] in E.
  injection E as _ E. assert (X : load_prefixes m d = Err FileError).
  { unfold load_prefixes. assert (R : read_json d OLD_PREFIXES = Err FileError) by (unfold read_json, read_file; rewrite F; reflexivity). rewrite R. destruct N as [N0|(o & N0 & N1)]; rewrite N0; rewrite ?N1; reflexivity. }
  rewrite X in E. repeat (apply bind_ok' in E as (? & ? & E)). match goal with H : Err FileError = Ok _ |- _ => discriminate H end.
Qed.
Lemma length_missing : forall l, no_option_field (ld_meta l) (u "max_suffix_length") -> sget PREDICTION (ld_meta l) = None -> dictionary l = Err KeyError.
Proof.
  intros l N F. unfold dictionary, max_suffix_length. rewrite F. destruct N as [N0|(o & N0 & E)]; rewrite N0; [reflexivity|]. unfold dget_res. fold (@sget jval). rewrite E. reflexivity.
Qed.
Lemma create_missing : forall W C a path m, picks W a path -> load_meta (w_folder W path) META = Ok m ->
  (no_option_field m (u "paradigm_prefixes") /\ sget OLD_PREFIXES (w_folder W path) = None) \/ (no_option_field m (u "max_suffix_length") /\ sget PREDICTION m = None) ->
  forall ws C' z, create W C a <> (ws, C', Ok z).
Proof.
  intros W C a path m P L H ws C' z E. rewrite (create_at W C a path P) in E. destruct (load_dict (w_io W) (w_big W) (w_folder W path) C) as [C1 [l|e]] eqn:EL; [|discriminate E].
  destruct H as [(N & F)|(N & F)].
  - destruct (prefixes_missing (w_io W) (w_big W) _ _ C L N F) as (e & X). rewrite EL in X. discriminate X.
  - pose proof (load_meta_kept _ _ _ _ _ _ EL) as LM. rewrite L in LM. apply Ok_inj in LM. subst m. unfold finish in E. rewrite (length_missing l N F) in E. discriminate E.
Qed.
