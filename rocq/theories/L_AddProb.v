(** * Lemmas: adding P(t|w) estimates (C66) *)
From Coq Require Import String List NArith ZArith Bool Lia QArith.
From Verif Require Import Py Uni Tagset Dawg Dict Utils Shapes Units Analyzer ConfigRu ConfigUk Json Storage Create Preprocess Probability AddProb Spec3 Spec4 Spec5 Spec9 Spec16.
From Verif Require Import L_Base L_Tagset L_Storage L_Storage2 L_Storage3 L_Create L_Create2 L_Probability.
Import ListNotations.
Local Open Scope nat_scope.
Local Open Scope list_scope.

(** ** the folder with another table and other meta data *)
Definition apart (f : str) : Prop := f <> META /\ f <> TABLE.
Definition agree (d d' : folder) : Prop := forall f, apart f -> sget f d' = sget f d.
Definition keys_agree (m m' : meta) : Prop := forall k, prefixb (u "P(t|w)") k = false -> sget k m' = sget k m.
Definition set_meta (m : meta) (l : loaded_dictionary) : loaded_dictionary :=
  MkLoaded m (ld_gramtab l) (ld_suffixes l) (ld_paradigms l) (ld_words l) (ld_pred l) (ld_prefixes l).
Lemma mapM_ext_in : forall {A B} (f g : A -> res B) l, (forall x, In x l -> f x = g x) -> mapM f l = mapM g l.
Proof. intros A B f g l. induction l as [|x l IH]; intros H; [reflexivity|]. cbn [mapM]. rewrite (H x (or_introl eq_refl)), IH; [reflexivity|]. intros y Y. apply H. right. exact Y. Qed.
Lemma pred_apart : forall i, apart (pred_name i).
Proof. intros i. split; apply pred_name_other; apply not_pred; reflexivity. Qed.
Lemma bind_ext : forall {A B} (r r' : res A) (f g : A -> res B), r = r' -> (forall a, f a = g a) -> bind r f = bind r' g.
Proof. intros A B r r' f g -> H. destruct r'; [apply H|reflexivity]. Qed.
Lemma load_again : forall io big d d' m m' C, agree d d' -> gramtab_apart d -> load_meta d META = Ok m -> load_meta d' META = Ok m' -> keys_agree m m' ->
  load_dict io big d' C = (fst (load_dict io big d C), rmap (set_meta m') (snd (load_dict io big d C))).
Proof.
  intros io big d d' m m' C A G L L' K.
  assert (R : forall f, apart f -> read_json d' f = read_json d f) by (intros f F; unfold read_json, read_file; rewrite (A f F); reflexivity).
  unfold load_dict. change (u "meta.json") with META. rewrite L, L'. cbn [bind].
  assert (EF : assert_format m' = assert_format m) by (unfold assert_format; rewrite (K (u "format_version") eq_refl); reflexivity). rewrite EF.
  destruct (assert_format m) as [x|e]; [|reflexivity]. cbn [bind]. rewrite (R (u "grammemes.json")) by (split; discriminate).
  destruct (read_json d (u "grammemes.json")) as [j|e]; [|reflexivity]. cbn [bind]. destruct (as_rows j) as [rows|e]; [|reflexivity]. cbn [bind fst snd]. f_equal.
  assert (EG : load_gramtab m' d' = load_gramtab m d).
  { unfold load_gramtab. rewrite (K (u "gramtab_formats") eq_refl). destruct (sget (u "gramtab_formats") m) as [v|] eqn:S; [|reflexivity]. destruct v; try reflexivity.
    destruct (sget (u "opencorpora-int") l) as [v|] eqn:S2; [|reflexivity]. destruct v; try reflexivity. cbn [as_str bind]. rewrite R; [reflexivity|]. exact (G m l s L S S2). }
  assert (EP : load_prefixes m' d' = load_prefixes m d).
  { unfold load_prefixes. rewrite (K (u "compile_options") eq_refl). rewrite (R (u "paradigm-prefixes.json")) by (split; discriminate). reflexivity. }
  assert (EI : forall n, load_preds io d' n = load_preds io d n).
  { intros n. unfold load_preds. apply mapM_ext_in. intros i _. rewrite (A _ (pred_apart i)). reflexivity. }
  assert (F : forall f, apart f -> read_file d' f = read_file d f) by (intros f P; unfold read_file; rewrite (A f P); reflexivity).
  rewrite EG. destruct (load_gramtab m d) as [texts|e]; [|reflexivity]. cbn [bind]. destruct (mapM _ texts) as [gt|e]; [|reflexivity]. cbn [bind].
  rewrite (R (u "suffixes.json")) by (split; discriminate). destruct (read_json d (u "suffixes.json")) as [js|e]; [|reflexivity]. cbn [bind]. destruct (as_strs js) as [suf|e]; [|reflexivity]. cbn [bind].
  rewrite (F (u "paradigms.array")) by (split; discriminate). destruct (read_file d (u "paradigms.array")) as [pb|e]; [|reflexivity]. cbn [bind]. destruct (load_paradigms big pb) as [pa|e]; [|reflexivity]. cbn [bind].
  rewrite (F (u "words.dawg")) by (split; discriminate). destruct (read_file d (u "words.dawg")) as [wb|e]; [|reflexivity]. cbn [bind]. destruct (io_read_words io wb) as [wd|e]; [|reflexivity]. cbn [bind].
  rewrite EP. destruct (load_prefixes m d) as [pr|e]; [|reflexivity]. cbn [bind]. rewrite EI. destruct (load_preds io d (length pr)) as [pd|e]; reflexivity.
Qed.
Lemma load_meta_kept : forall io big d C C1 l, load_dict io big d C = (C1, Ok l) -> load_meta d META = Ok (ld_meta l).
Proof.
  intros io big d C C1 l H. unfold load_dict in H. change (u "meta.json") with META in H.
  destruct (load_meta d META) as [m|e]; [|discriminate H]. cbn [bind] in H. destruct (assert_format m); [|discriminate H]. cbn [bind] in H.
  destruct (read_json d (u "grammemes.json")) as [j|e]; [|discriminate H]. cbn [bind] in H. destruct (as_rows j) as [rows|e]; [|discriminate H]. cbn [bind] in H.
  injection H as _ H. repeat (apply bind_ok' in H as (? & _ & H)). apply Ok_inj in H. subst l. reflexivity.
Qed.
Lemma dictionary_again : forall l m', keys_agree (ld_meta l) m' -> dictionary (set_meta m' l) = dictionary l.
Proof.
  intros l m' K. unfold dictionary. cbn [set_meta ld_meta]. assert (E : max_suffix_length m' = max_suffix_length (ld_meta l)).
  { unfold max_suffix_length. rewrite (K (u "compile_options") eq_refl), (K (u "prediction_options") eq_refl). reflexivity. }
  rewrite E. reflexivity.
Qed.
(** ** creating an analyzer from it *)
Lemma wbind_map : forall A B B' (x : warned A) (f : A -> warned B') (g : A -> warned B) (h : B -> B'), (forall a, f a = (fst (g a), rmap h (snd (g a)))) ->
  wbind x f = (fst (wbind x g), rmap h (snd (wbind x g))).
Proof. intros A B B' [w [a|e]] f g h H; [|reflexivity]. unfold wbind. cbn [snd fst]. rewrite H. reflexivity. Qed.
Lemma finish_again : forall W a path lang l m' d' C T, a_est a = EstAuto -> keys_agree (ld_meta l) m' ->
  get_prob_estimator (set_folder W path d') EstAuto m' path = Ok (Some T) ->
  finish (set_folder W path d') a path lang (set_meta m' l) C =
  (fst (finish W (no_estimator a) path lang l C), rmap (fun cz => (fst cz, analyzer_with (snd cz) T)) (snd (finish W (no_estimator a) path lang l C))).
Proof.
  intros W a path lang l m' d' C T E K P. unfold finish. rewrite (dictionary_again l m' K). destruct (dictionary l) as [D|e]; [|reflexivity].
  assert (EL : meta_get (u "language_code") m' = meta_get (u "language_code") (ld_meta l)) by (unfold meta_get; rewrite (K (u "language_code") eq_refl); reflexivity).
  cbn [wbind Create.quiet snd fst app set_meta ld_meta]. rewrite EL. destruct (choose_language _ lang) as [w lg]. cbn [wbind snd fst].
  rewrite E, P. cbn [no_estimator a_est a_sub a_units a_path a_lang a_result get_prob_estimator wbind Create.quiet snd fst app].
  change (lang_default_config (set_folder W path d') lg) with (lang_default_config W lg). change (w_uni (set_folder W path d')) with (w_uni W). change (w_ext (set_folder W path d')) with (w_ext W).
  match goal with |- (w ++ fst ?x, snd ?x) = (w ++ fst ?y, rmap ?h (snd ?y)) => assert (X : x = (fst y, rmap h (snd y))); [|rewrite X; reflexivity] end.
  apply wbind_map. intros sub. apply wbind_map. intros items. apply wbind_map. intros b. reflexivity.
Qed.
Lemma set_folder_at : forall W path d, w_folder (set_folder W path d) path = d.
Proof. intros. cbn [set_folder w_folder]. rewrite str_eqb_refl. reflexivity. Qed.
Lemma create_at : forall W C a p, picks W a p -> create W C a =
  let '(C1, r) := load_dict (w_io W) (w_big W) (w_folder W p) C in
  match r with Err e => ([], C1, Err e) | Ok l => let '(w, x) := finish W a p (requested a) l C1 in match x with Err e => (w, C1, Err e) | Ok (C2, z) => (w, C2, Ok z) end end.
Proof. intros W C a p P. apply picks_iff in P. unfold create. rewrite create_lang, P. reflexivity. Qed.
Lemma picks_set : forall W path d a p, picks W a p -> picks (set_folder W path d) a p.
Proof. intros W path d a p P. apply picks_iff. apply picks_iff in P. exact P. Qed.
Lemma create_again : forall W a path d' m m' D T ws D' r, a_est a = EstAuto -> picks W a path ->
  agree (w_folder W path) d' -> gramtab_apart (w_folder W path) -> load_meta (w_folder W path) META = Ok m -> load_meta d' META = Ok m' -> keys_agree m m' ->
  get_prob_estimator (set_folder W path d') EstAuto m' path = Ok (Some T) ->
  create W D (no_estimator a) = (ws, D', r) -> create (set_folder W path d') D a = (ws, D', rmap (fun z => analyzer_with z T) r).
Proof.
  intros W a path d' m m' D T ws D' r E P A G L L' K ET H. rewrite (create_at _ _ _ path (picks_set W path d' a path P)), set_folder_at.
  rewrite (create_at W D (no_estimator a) path) in H by (apply picks_iff; apply picks_iff in P; exact P).
  change (w_io (set_folder W path d')) with (w_io W). change (w_big (set_folder W path d')) with (w_big W). rewrite (load_again _ _ _ _ _ _ D A G L L' K).
  destruct (load_dict (w_io W) (w_big W) (w_folder W path) D) as [C1 [l|e]] eqn:EL; cbn [fst snd rmap]; [|injection H as <- <- <-; reflexivity].
  pose proof (load_meta_kept _ _ _ _ _ _ EL) as LM. rewrite L in LM. apply Ok_inj in LM. subst m.
  rewrite (finish_again W a path (requested a) l m' d' C1 T E K ET). change (requested (no_estimator a)) with (requested a) in H.
  destruct (finish W (no_estimator a) path (requested a) l C1) as [w [[C2 z]|e]]; cbn [fst snd rmap] in *; injection H as <- <- <-; reflexivity.
Qed.
(** only the table file differs, and it is not looked at *)
Lemma finish_other : forall W a path lang l d' C, json_true (meta_get (u "P(t|w)") (ld_meta l)) = false -> a_est a = EstAuto ->
  finish (set_folder W path d') a path lang l C = finish W a path lang l C.
Proof.
  intros W a path lang l d' C J E. unfold finish. destruct (dictionary l) as [D|e]; [|reflexivity]. cbn [wbind Create.quiet snd fst app].
  destruct (choose_language _ lang) as [w lg]. cbn [wbind snd fst]. rewrite E. unfold get_prob_estimator. rewrite J. reflexivity.
Qed.
Lemma create_other : forall W a path d' D, a_est a = EstAuto -> picks W a path -> ~ declares_table (w_folder W path) ->
  agree (w_folder W path) d' -> gramtab_apart (w_folder W path) -> sget META d' = sget META (w_folder W path) ->
  create (set_folder W path d') D a = create W D a.
Proof.
  intros W a path d' D E P N A G S. rewrite (create_at _ _ _ path (picks_set W path d' a path P)), set_folder_at, (create_at W D a path P).
  change (w_io (set_folder W path d')) with (w_io W). change (w_big (set_folder W path d')) with (w_big W).
  assert (LM : load_meta d' META = load_meta (w_folder W path) META) by (unfold load_meta, read_file; rewrite S; reflexivity).
  destruct (load_meta (w_folder W path) META) as [m|e] eqn:L.
  - rewrite (load_again _ _ _ _ m m D A G L LM) by (intros k _; reflexivity). destruct (load_dict (w_io W) (w_big W) (w_folder W path) D) as [C1 [l|e]] eqn:EL; cbn [fst snd rmap]; [|reflexivity].
    pose proof (load_meta_kept _ _ _ _ _ _ EL) as M. rewrite L in M. apply Ok_inj in M. subst m. assert (set_meta (ld_meta l) l = l) as -> by (destruct l; reflexivity).
    rewrite finish_other; [reflexivity| |exact E]. destruct (json_true _) eqn:J; [|reflexivity]. exfalso. apply N. exists (ld_meta l). auto.
  - assert (X : forall d, load_meta d META = Err e -> load_dict (w_io W) (w_big W) d D = (D, Err e)) by (intros d H; unfold load_dict; change (u "meta.json") with META; rewrite H; reflexivity).
    rewrite (X _ L), (X _ LM). reflexivity.
Qed.
Lemma create_bad : forall W a path d' D e, picks W a path -> load_meta d' META = Err e -> create (set_folder W path d') D a = ([], D, Err e).
Proof.
  intros W a path d' D e P L. rewrite (create_at _ _ _ path (picks_set W path d' a path P)), set_folder_at.
  assert (X : forall d io b, load_meta d META = Err e -> load_dict io b d D = (D, Err e)) by (intros d io b H; unfold load_dict; change (u "meta.json") with META; rewrite H; reflexivity).
  rewrite (X d' _ _ L). reflexivity.
Qed.
