(** * Lemmas: saving and loading a dictionary folder *)
From Coq Require Import String List NArith ZArith Bool Lia ZifyBool ZifyN ZifyNat.
From Verif Require Import Py Uni Tagset Dawg Dict Compile Json Storage Spec3 Spec4 L_Base L_Tagset L_Json L_Json2 L_Utf8 L_Storage.
Import ListNotations.
Local Open Scope nat_scope.
Local Open Scope list_scope.

(** ** Complete saves *)
Definition writes (fs : list (str * list N)) : list fop := flat_map (fun fb => write_ops (fst fb) (snd fb)) fs.
Lemma sthen_ok : forall a b : saving, snd (sthen a b) = Ok tt -> snd a = Ok tt /\ snd b = Ok tt /\ fst (sthen a b) = fst a ++ fst b.
Proof. intros [oa [[]|e]] [ob rb]; unfold sthen; cbn [fst snd]; intros H; [auto|discriminate]. Qed.
Lemma json_write_ok : forall f v, snd (json_write f v) = Ok tt -> exists b, json_bytes v = Ok b /\ fst (json_write f v) = write_ops f b.
Proof. intros f v. unfold json_write. destruct (json_bytes v) as [b|e]; cbn [fst snd]; [eauto|discriminate]. Qed.
Definition pred_files (io : dawgio) (l : list (rdawg (nat * nat * nat))) : list (str * list N) := map (fun id => (pred_name (fst id), io_pred io (snd id))) (enum l).
Definition saved_files (io : dawgio) (big : bool) (aliases : list (str * str)) (rows : list grow) (x : compiled) (info : saveinfo) (fs : list (str * list N)) : Prop :=
  exists bg be bi bs bm,
    json_bytes (grammemes_json rows) = Ok bg /\
    json_bytes (jstrs (map (from_internal_ext (alias_map aliases rows)) (x_gramtab x))) = Ok be /\
    json_bytes (jstrs (x_gramtab x)) = Ok bi /\ paras_fit (x_paradigms x) /\
    json_bytes (jstrs (x_suffixes x)) = Ok bs /\ json_bytes (meta_json (save_meta x info)) = Ok bm /\
    fs = [(u "grammemes.json", bg); (u "gramtab-opencorpora-ext.json", be); (u "gramtab-opencorpora-int.json", bi);
          (u "paradigms.array", pbytes big (x_paradigms x)); (u "suffixes.json", bs); (u "words.dawg", io_words io (x_words x))]
         ++ pred_files io (x_pred x) ++ [(u "meta.json", bm)].
Lemma writes_app : forall a b, writes (a ++ b) = writes a ++ writes b.
Proof. intros a b. apply flat_map_app. Qed.
Lemma writes_map : forall {A} (f : A -> str * list N) l, writes (map f l) = flat_map (fun a => write_ops (fst (f a)) (snd (f a))) l.
Proof. intros A f l. unfold writes. induction l as [|a l IH]; [reflexivity|]. cbn [map flat_map]. rewrite IH. reflexivity. Qed.
Lemma save_ok : forall io big al rows x info, snd (save_compiled_dict io big al rows x info) = Ok tt ->
  exists fs, saved_files io big al rows x info fs /\ fst (save_compiled_dict io big al rows x info) = writes fs.
Proof.
  intros io big al rows x info H. unfold save_compiled_dict in *.
  apply sthen_ok in H as (H1 & H & ->). apply json_write_ok in H1 as (bg & B1 & ->).
  apply sthen_ok in H as (H1 & H & ->). apply json_write_ok in H1 as (be & B2 & ->).
  apply sthen_ok in H as (H1 & H & ->). apply json_write_ok in H1 as (bi & B3 & ->).
  apply sthen_ok in H as (H1 & H & ->).
  assert (PF : paras_fit (x_paradigms x)).
  { destruct (fits16 (length (x_paradigms x)) && forallb (fun p => fits16 (length p)) (x_paradigms x)) eqn:E.
    - apply andb_true_iff in E as [E1 E2]. split; [apply fits_iff; exact E1|]. intros p Hp. apply fits_iff. rewrite forallb_forall in E2. auto.
    - rewrite save_paradigms_err in H1; [discriminate|]. intros [P1 P2]. apply fits_iff in P1. rewrite P1 in E. cbn [andb] in E. rewrite (proj2 (forallb_forall _ _)) in E; [discriminate|].
      intros p Hp. apply fits_iff. auto. }
  rewrite (save_paradigms_ok _ _ _ PF) in *. cbn [fst].
  apply sthen_ok in H as (H2 & H & ->). apply json_write_ok in H2 as (bs & B5 & ->).
  apply sthen_ok in H as (_ & H & ->). apply sthen_ok in H as (_ & H & ->). cbn [fst].
  apply json_write_ok in H as (bm & B6 & E6). unfold write_meta. rewrite E6.
  eexists. split; [exists bg, be, bi, bs, bm; repeat (split; [first [eassumption|reflexivity]|]); reflexivity|].
  rewrite !writes_app. unfold pred_files. rewrite writes_map. cbn [writes flat_map fst snd]. rewrite !app_nil_r, <- !app_assoc. reflexivity.
Qed.
(** names are distinct *)
Lemma dec_N_inj : forall a b, dec_N a = dec_N b -> a = b.
Proof. intros a b H. apply N2Z.inj. rewrite <- (int_of_dec false a), <- (int_of_dec false b), H. reflexivity. Qed.
Lemma pred_name_inj : forall i j, pred_name i = pred_name j -> i = j.
Proof. intros i j H. unfold pred_name in H. apply app_inv_head in H. apply app_inv_tail in H. apply dec_N_inj in H. lia. Qed.
Lemma pred_name_other : forall i f, ~ (exists r, f = u "prediction-suffixes-" ++ r) -> pred_name i <> f.
Proof. intros i f H E. apply H. rewrite <- E. unfold pred_name. eauto. Qed.
Lemma not_pred : forall f, prefixb (u "prediction-suffixes-") f = false -> ~ exists r, f = u "prediction-suffixes-" ++ r.
Proof. intros f H [r ->]. assert (X : forall p s, prefixb p (p ++ s) = true) by (induction p as [|c p IH]; intros s; [reflexivity|cbn [prefixb app]; rewrite N.eqb_refl; exact (IH s)]). rewrite X in H. discriminate. Qed.
Lemma pred_files_names : forall io l f, In f (map fst (pred_files io l)) -> exists i, f = pred_name i.
Proof. intros io l f H. unfold pred_files in H. rewrite map_map in H. apply in_map_iff in H as (a & <- & _). eexists. reflexivity. Qed.
Lemma nodup_app : forall {A} (a b : list A), NoDup a -> NoDup b -> (forall x, In x a -> ~ In x b) -> NoDup (a ++ b).
Proof.
  intros A a b Ha Hb D. induction Ha as [|x a Hx Ha IH]; [exact Hb|]. cbn [app]. constructor.
  - rewrite in_app_iff. intros [H|H]; [contradiction|]. exact (D x (or_introl eq_refl) H).
  - apply IH. intros y Hy. apply D. right. exact Hy.
Qed.
Lemma pred_files_nodup : forall io l, NoDup (map fst (pred_files io l)).
Proof.
  intros io l. unfold pred_files. rewrite map_map. cbn [fst]. rewrite <- (map_map fst pred_name). apply FinFun.Injective_map_NoDup; [intros i j; apply pred_name_inj|].
  assert (X : forall {B} (l : list B) s, map fst (enum_from s l) = seq s (length l)) by (intros B l'; induction l' as [|a l' IH]; intros s; [reflexivity|cbn [length seq enum_from map fst]; rewrite IH; reflexivity]).
  unfold enum. rewrite X. apply seq_NoDup.
Qed.
Lemma files_nodup : forall io big al rows x info fs, saved_files io big al rows x info fs -> NoDup (map fst fs).
Proof.
  intros io big al rows x info fs (bg & be & bi & bs & bm & _ & _ & _ & _ & _ & _ & ->). rewrite !map_app. apply nodup_app.
  - cbn [map fst]. repeat constructor; cbn [In]; intuition discriminate.
  - apply nodup_app; [apply pred_files_nodup|repeat constructor; tauto|]. intros f Hf [<-|[]]. apply pred_files_names in Hf as [i E]. revert E. apply not_eq_sym. apply pred_name_other. apply not_pred. reflexivity.
  - intros f Hf Hg. apply in_app_or in Hg as [Hg|Hg].
    + apply pred_files_names in Hg as [i ->]. cbn [map fst In] in Hf. repeat (destruct Hf as [Hf|Hf]; [revert Hf; apply not_eq_sym; apply pred_name_other; apply not_pred; reflexivity|]). exact Hf.
    + cbn [map fst In] in *. intuition subst; discriminate.
Qed.
Lemma writes_get : forall fs d f b, NoDup (map fst fs) -> In (f, b) fs -> sget f (frun (writes fs) d) = Some b.
Proof.
  induction fs as [|[g c] fs IH]; intros d f b N I; [destruct I|]. cbn [map fst] in N. inversion N as [|? ? N1 N2]; subst. unfold writes. cbn [flat_map fst snd]. rewrite frun_app. fold (writes fs).
  destruct I as [E|I]; [|apply IH; assumption]. injection E as -> ->. rewrite frun_other; [apply write_get|]. intros o Ho A. apply in_flat_map in Ho as ([h e] & Hh & Ho). apply write_about in Ho. cbn [fst] in Ho.
  pose proof (about_fun _ _ _ Ho A). subst h. apply N1. apply in_map_iff. exists (f, e). auto.
Qed.
Lemma writes_other : forall fs d f, ~ In f (map fst fs) -> sget f (frun (writes fs) d) = sget f d.
Proof.
  intros fs d f N. apply frun_other. intros o Ho A. apply in_flat_map in Ho as ([h e] & Hh & Ho). apply write_about in Ho. cbn [fst] in Ho. pose proof (about_fun _ _ _ Ho A). subst h. apply N. apply in_map_iff. exists (f, e). auto.
Qed.

(** ** Values written are values read *)
Lemma no_reals_str : forall v, no_reals v -> stringified v = v.
Proof.
  intros v. induction v as [|b|z|x|s|l IH|l IH] using jval_rect'; intros H; cbn [no_reals stringified] in *; try reflexivity; [destruct H| |].
  - f_equal. induction IH as [|x l Hx F IHl]; [reflexivity|]. cbn [fold_right map] in *. destruct H as [H1 H2]. rewrite (Hx H1), (IHl H2). reflexivity.
  - f_equal. induction IH as [|[k x] l Hx F IHl]; [reflexivity|]. cbn [fold_right map fst snd] in *. destruct H as [H1 H2]. rewrite (Hx H1), (IHl H2). reflexivity.
Qed.
Lemma jstrs_ok : forall l, jok (jstrs l) /\ no_reals (jstrs l).
Proof. intros l. unfold jstrs. induction l as [|s l [IH1 IH2]]; [split; exact I|]. cbn [map jok no_reals fold_right] in *. auto. Qed.
Lemma grammemes_ok : forall rows, jok (grammemes_json rows).
Proof. intros rows. unfold grammemes_json. induction rows as [|r rows IH]; [exact I|]. cbn [map jok fold_right] in *. split; [|exact IH]. destruct (g_parent r); cbn [jopt jok]; tauto. Qed.
Lemma jnats_ok : forall {A} (f : A -> nat) l, jok (JArr (map (fun a => jnat (f a)) l)) /\ no_reals (JArr (map (fun a => jnat (f a)) l)).
Proof. intros A f l. induction l as [|s l [IH1 IH2]]; [split; exact I|]. cbn [map jok no_reals fold_right] in *. unfold jnat. cbn [jok no_reals]. auto. Qed.
Definition meta_keys : list str := map u ["language_code"; "format_version"; "pymorphy2_version"; "compiled_at"; "source"; "source_version"; "source_revision"; "source_lexemes_count"; "source_links_count"; "gramtab_length"; "gramtab_formats"; "paradigms_length"; "suffixes_length"; "words_dawg_length"; "compile_options"; "prediction_suffixes_dawg_lengths"]%string.
Lemma meta_keys_eq : forall x info, map fst (save_meta x info) = meta_keys.
Proof. reflexivity. Qed.
Lemma meta_keys_nodup : NoDup meta_keys.
Proof. repeat constructor; cbn [In]; intuition discriminate. Qed.
Lemma options_ok : forall o, jok (options_json o) /\ no_reals (options_json o).
Proof.
  intros o. unfold options_json. pose proof (jstrs_ok (o_prefixes o)) as [J1 J2]. cbn [jok no_reals fold_right map fst snd]. unfold jnat. cbn [jok no_reals]. repeat split; auto.
  repeat constructor; cbn [In]; intuition discriminate.
Qed.
Lemma meta_vals : forall x info k v, In (k, v) (save_meta x info) -> jok v /\ no_reals v.
Proof.
  intros x info k v H. unfold save_meta in H. cbn [In] in H.
  repeat (destruct H as [H|H]; [injection H as <- <-|]); try (split; exact I); try (destruct (si_lang info); split; exact I); [| | |destruct H].
  - cbn. repeat split; auto. repeat constructor; cbn [In]; intuition discriminate.
  - apply options_ok.
  - apply jnats_ok.
Qed.
Lemma meta_json_jok : forall m, (forall k v, In (k, v) m -> jok v) -> jok (meta_json m).
Proof.
  intros m H. unfold meta_json. cbn [jok]. induction m as [|[k v] m IH]; [exact I|]. cbn [map fold_right fst snd jok]. split; [split; [exact I|]; split; [apply (H k); left; reflexivity|exact I]|]. apply IH. intros k' v' I'. apply (H k'). right. exact I'.
Qed.
Lemma meta_json_str : forall m, stringified (meta_json m) = meta_json (map (fun kv => (fst kv, stringified (snd kv))) m).
Proof. intros m. unfold meta_json. cbn [stringified]. rewrite !map_map. reflexivity. Qed.
Lemma parse_meta_json : forall m, NoDup (map fst m) -> parse_meta (meta_json m) = Ok m.
Proof.
  intros m N. unfold parse_meta, meta_json.
  assert (X : forall m acc, NoDup (map fst (acc ++ m)) -> foldM (fun acc x => let* kv := meta_pair x in Ok (sset_ (fst kv) (snd kv) acc)) acc (map (fun kv => JArr [JStr (fst kv); snd kv]) m) = Ok (acc ++ m)).
  { clear. induction m as [|[k v] m IH]; intros acc N; [rewrite app_nil_r; reflexivity|]. cbn [map foldM fst snd meta_pair bind].
    rewrite sset_new. - replace (acc ++ (k, v) :: m) with ((acc ++ [(k, v)]) ++ m) by (rewrite <- app_assoc; reflexivity). apply IH. rewrite <- app_assoc. exact N.
    - rewrite map_app in N. cbn [map fst] in N. apply NoDup_remove_2 in N. intros I. apply N. apply in_or_app. left. exact I. }
  exact (X m [] N).
Qed.
Lemma load_meta_ok : forall d m b, NoDup (map fst m) -> (forall k v, In (k, v) m -> jok v) -> json_bytes (meta_json m) = Ok b -> sget (u "meta.json") d = Some b ->
  load_meta d (u "meta.json") = Ok (map (fun kv => (fst kv, stringified (snd kv))) m).
Proof.
  intros d m b N J B S. unfold load_meta, read_file. rewrite S. cbn [bind]. rewrite (file_rt true _ _ (meta_json_jok _ J) B). cbn [bind rd]. rewrite meta_json_str. apply parse_meta_json. rewrite map_map. exact N.
Qed.
Lemma as_strs_ok : forall l, as_strs (jstrs l) = Ok l.
Proof. intros l. unfold as_strs, jstrs. induction l as [|s l IH]; [reflexivity|]. cbn [map mapM as_str bind]. rewrite IH. reflexivity. Qed.
Lemma as_rows_ok : forall l, as_rows (grammemes_json l) = Ok l.
Proof. intros l. unfold as_rows, grammemes_json. induction l as [|[n [p|] a d] l IH]; [reflexivity| |]; cbn [map mapM as_row bind jopt g_name g_parent g_alias g_descr]; rewrite IH; reflexivity. Qed.

(** ** Loading a complete folder *)
Lemma no_reals_meta : forall (m : meta), (forall k v, In (k, v) m -> no_reals v) -> map (fun kv => (fst kv, stringified (snd kv))) m = m.
Proof. intros m H. induction m as [|[k v] m IH]; [reflexivity|]. cbn [map fst snd]. rewrite no_reals_str by (apply (H k); left; reflexivity). rewrite IH; [reflexivity|]. intros k' v' I'. apply (H k'). right. exact I'. Qed.
(** the folder contains the files [fs] needed for loading *)
Definition holds (fs : list (str * list N)) (d : folder) : Prop := forall f b, In (f, b) fs -> f <> u "gramtab-opencorpora-ext.json" -> sget f d = Some b.
Lemma mapM_seq : forall {B} (f : nat -> res B) l, (forall i b, nth_error l i = Some b -> f i = Ok b) -> mapM f (seq 0 (length l)) = Ok l.
Proof.
  intros B f l H. assert (X : forall (l : list B) s, (forall i b, nth_error l i = Some b -> f (s + i) = Ok b) -> mapM f (seq s (length l)) = Ok l).
  { clear. induction l as [|b l IH]; intros s H; [reflexivity|]. cbn [length seq mapM]. pose proof (H 0 b eq_refl) as H0. rewrite Nat.add_0_r in H0. rewrite H0. cbn [bind].
    rewrite IH; [reflexivity|]. intros i c Hi. rewrite Nat.add_succ_comm. apply H. exact Hi. }
  apply X. exact H.
Qed.
Lemma sget_app_r : forall {V} k (a b : list (str * V)), ~ In k (map fst a) -> sget k (a ++ b) = sget k b.
Proof.
  intros V k a b H. induction a as [|[k' v] a IH]; [reflexivity|]. cbn [map fst In] in H. unfold sget in *. cbn [dget app]. rewrite (proj2 (L_Base.str_eqb_neq _ _)); [apply IH; tauto|]. intros E. apply H. left. congruence.
Qed.
Lemma load_holds : forall io big al rows x info fs d C, saved_files io big al rows x info fs -> holds fs d -> entries_fit (x_paradigms x) -> length (x_pred x) = length (o_prefixes (x_options x)) ->
  io_read_words io (io_words io (x_words x)) = Ok (x_words x) -> (forall p, In p (x_pred x) -> io_read_pred io (io_pred io p) = Ok p) ->
  load_dict io big d C = (init_grammemes C rows, let* g := mapM (mk_tag (init_grammemes C rows)) (x_gramtab x) in
    Ok (MkLoaded (save_meta x info) g (x_suffixes x) (x_paradigms x) (x_words x) (x_pred x) (o_prefixes (x_options x)))).
Proof.
  intros io big al rows x info fs d C (bg & be & bi & bs & bm & B1 & B2 & B3 & PF & B5 & B6 & ->) H EF LP IW IP.
  assert (HM : sget (u "meta.json") d = Some bm) by (apply H; [apply in_or_app; right; apply in_or_app; right; left; reflexivity|discriminate]).
  assert (HG : sget (u "grammemes.json") d = Some bg) by (apply H; [apply in_or_app; left; cbn [In]; tauto|discriminate]).
  assert (HI : sget (u "gramtab-opencorpora-int.json") d = Some bi) by (apply H; [apply in_or_app; left; cbn [In]; tauto|discriminate]).
  assert (HP : sget (u "paradigms.array") d = Some (pbytes big (x_paradigms x))) by (apply H; [apply in_or_app; left; cbn [In]; tauto|discriminate]).
  assert (HS : sget (u "suffixes.json") d = Some bs) by (apply H; [apply in_or_app; left; cbn [In]; tauto|discriminate]).
  assert (HW : sget (u "words.dawg") d = Some (io_words io (x_words x))) by (apply H; [apply in_or_app; left; cbn [In]; tauto|discriminate]).
  assert (HD : forall i p, nth_error (x_pred x) i = Some p -> sget (pred_name i) d = Some (io_pred io p)).
  { intros i p Hi. apply H; [|apply pred_name_other; apply not_pred; reflexivity]. apply in_or_app; right; apply in_or_app; left. unfold pred_files. apply in_map_iff. exists (i, p). split; [reflexivity|]. apply enum_In. exact Hi. }
  clear H. unfold load_dict. rewrite (load_meta_ok d (save_meta x info) bm); [|rewrite meta_keys_eq; exact meta_keys_nodup|intros k v Hkv; exact (proj1 (meta_vals _ _ _ _ Hkv))|exact B6|exact HM].
  rewrite no_reals_meta by (intros k v Hkv; exact (proj2 (meta_vals _ _ _ _ Hkv))). cbn [bind]. change (assert_format (save_meta x info)) with (Ok tt). cbn [bind].
  unfold read_json at 1, read_file at 1. rewrite HG. cbn [bind]. rewrite (file_rt false _ _ (grammemes_ok rows) B1). cbn [bind rd]. rewrite as_rows_ok. cbn [bind]. f_equal.
  change (load_gramtab (save_meta x info) d) with (let* j := read_json d (u "gramtab-opencorpora-int.json") in as_strs j).
  unfold read_json, read_file. rewrite HI. cbn [bind]. rewrite (file_rt false _ _ (proj1 (jstrs_ok _)) B3). cbn [bind rd]. rewrite as_strs_ok. cbn [bind].
  destruct (mapM (mk_tag (init_grammemes C rows)) (x_gramtab x)) as [g|e]; [|reflexivity]. cbn [bind].
  rewrite HS. cbn [bind]. rewrite (file_rt false _ _ (proj1 (jstrs_ok _)) B5). cbn [bind rd]. rewrite as_strs_ok. cbn [bind].
  rewrite HP. cbn [bind]. pose proof (load_saved big big (x_paradigms x) [] PF EF) as L. rewrite app_nil_r, eqb_reflx in L.
  assert (X : map (map (as_read true)) (x_paradigms x) = x_paradigms x) by (rewrite <- (map_id (x_paradigms x)) at 2; apply map_ext; intros p; apply map_id). rewrite X in L. rewrite L. cbn [bind].
  rewrite HW. cbn [bind]. rewrite IW. cbn [bind].
  change (load_prefixes (save_meta x info) d) with (as_strs (jstrs (o_prefixes (x_options x)))). rewrite as_strs_ok. cbn [bind].
  unfold load_preds. rewrite <- LP. rewrite (mapM_seq _ (x_pred x)); [reflexivity|]. intros i p Hi. rewrite (HD i p Hi). apply IP. exact (nth_error_In _ _ Hi).
Qed.
Lemma saved_holds : forall io big al rows x info fs d, saved_files io big al rows x info fs -> holds fs (frun (writes fs) d).
Proof. intros io big al rows x info fs d S f b I _. apply writes_get; [exact (files_nodup _ _ _ _ _ _ _ S)|exact I]. Qed.
Lemma gramtab_known : forall C rows texts, (forall t g, In t texts -> In g (split_tag t) -> In g (tc_known (init_grammemes C rows))) ->
  exists g, mapM (mk_tag (init_grammemes C rows)) texts = Ok g /\ map t_str g = texts.
Proof.
  intros C rows texts H. exists (map (fun t => MkTag t (split_tag t)) texts). split.
  - rewrite <- mapM_pure. apply mapM_ext. intros t Ht. apply L_Tagset.mk_tag_known. intros g Hg. exact (H t g Ht Hg).
  - rewrite map_map. cbn [t_str]. apply map_id.
Qed.
Lemma dictionary_saved : forall x info g, map t_str g = x_gramtab x ->
  exists D, dictionary (MkLoaded (save_meta x info) g (x_suffixes x) (x_paradigms x) (x_words x) (x_pred x) (o_prefixes (x_options x))) = Ok D /\ Spec3.loaded x D.
Proof.
  intros x info g H. unfold dictionary. cbn [ld_meta]. assert (X : max_suffix_length (save_meta x info) = Ok (o_max_suffix (x_options x))).
  { change (max_suffix_length (save_meta x info)) with (Ok (Z.to_nat (Z.of_nat (o_max_suffix (x_options x))))). rewrite Nat2Z.id. reflexivity. }
  rewrite X. cbn [bind]. eexists. split; [reflexivity|]. unfold Spec3.loaded. cbn. auto 10.
Qed.
