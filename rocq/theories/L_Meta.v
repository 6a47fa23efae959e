(** * Lemmas for C73 *)
From Coq Require Import String List NArith ZArith QArith Bool Lia.
From Verif Require Import Py Uni Tagset Dawg Utils Shapes Dict Units Analyzer ConfigRu ConfigUk Compile Preprocess Json Storage Convert Create Cli Spec Spec2 Spec3 Spec23.
From Verif Require Import L_Base L_Units L_Create L_Create2 L_Storage2 L_ExS L_Whole.
Import ListNotations.
Local Open Scope nat_scope.
Local Open Scope list_scope.

Lemma load_gives_meta : forall io big d C C1 l, load_dict io big d C = (C1, Ok l) -> load_meta d (u "meta.json") = Ok (ld_meta l).
Proof.
  intros io big d C C1 l H. unfold load_dict in H. destruct (load_meta d (u "meta.json")) as [m|e]; [|discriminate H]. cbn [bind] in H.
  destruct (assert_format m) as [[]|e]; [|discriminate H]. cbn [bind] in H. destruct (read_json d (u "grammemes.json")) as [j|e]; [|discriminate H]. cbn [bind] in H. destruct (as_rows j) as [rows|e]; [|discriminate H]. cbn [bind] in H.
  apply (f_equal snd) in H. cbn [snd] in H. repeat match type of H with bind _ _ = _ => apply bind_ok in H as (? & _ & H) end. apply Ok_inj in H. subst l. reflexivity.
Qed.
Lemma dict_meta_any : forall W C q lang path ws lines r, cli_dict_meta W C q lang path = (ws, (lines, r)) ->
  (exists C' z p m, create W C (MkArgs path (Some lang) (Some (u "Parse")) None EstAuto SubAuto) = (ws, C', Ok z) /\ choose_dictionary_path W path (Some lang) = Ok p /\
     load_meta (w_folder W p) (u "meta.json") = Ok m /\ r = Ok tt /\ lines = map (fun kv => fst kv ++ u ": " ++ py_str q (snd kv)) m) \/
  (exists C' e, create W C (MkArgs path (Some lang) (Some (u "Parse")) None EstAuto SubAuto) = (ws, C', Err e) /\ r = Err e /\ lines = []).
Proof.
  intros W C q lang path ws lines r H. unfold cli_dict_meta in H. destruct (create W C _) as [[ws0 C'] [z|e]] eqn:E.
  - left. exists C', z. unfold create in E. cbn [a_path a_lang] in E. assert (L : match path with Some _ | _ => Some lang end = Some lang) by (destruct path; reflexivity).
    replace (match path with Some _ => Some lang | None => Some lang end) with (Some lang) in E by (destruct path; reflexivity).
    destruct (choose_dictionary_path W path (Some lang)) as [p|e]; [|discriminate E]. exists p. destruct (load_dict (w_io W) (w_big W) (w_folder W p) C) as [C1 [l|e]] eqn:LD; [|discriminate E].
    rewrite (load_gives_meta _ _ _ _ _ _ LD) in H |- *. exists (ld_meta l). injection H as <- <- <-. destruct (finish W _ p (Some lang) l C1) as [w [[C2 z']|e]]; [|discriminate E]. injection E as <- <- <-. repeat split.
  - right. exists C', e. injection H as <- <- <-. repeat split.
Qed.

(** creating an analyzer over a saved dictionary succeeds *)
Lemma create_saved : forall W C lang path result al rows x info d o src links,
  compile_parsed_dict o src links = Ok x -> snd (save_compiled_dict (w_io W) (w_big W) al rows x info) = Ok tt ->
  io_read_words (w_io W) (io_words (w_io W) (x_words x)) = Ok (x_words x) -> (forall p, In p (x_pred x) -> io_read_pred (w_io W) (io_pred (w_io W) p) = Ok p) ->
  (forall t g, In t (x_gramtab x) -> In g (split_tag t) -> In g (map g_name rows)) -> (forall g, In g needed -> In g (map g_name rows)) ->
  w_folder W path = frun (fst (save_compiled_dict (w_io W) (w_big W) al rows x info)) d ->
  exists ws C' z l, create W C (MkArgs (Some path) (Some lang) result None EstAuto SubAuto) = (ws, C', Ok z) /\ load_meta (w_folder W path) (u "meta.json") = Ok (save_meta x info) /\ loaded x (m_dict (z_morph z)) /\ m_dict (z_morph z) = l.
Proof.
  intros W C lang path result al rows x info d o src links HC SV IW IP K NE WF.
  destruct (complete_save (w_io W) (w_big W) al rows x info d C o src links HC SV IW IP K) as (l & D & LD & EM & DD & LX). rewrite <- WF in LD.
  assert (HI : default_units (Some lang) = RU_DEFAULT_UNITS \/ default_units (Some lang) = UK_DEFAULT_UNITS) by (unfold default_units; destruct (str_eqb lang (u "uk")); auto).
  destruct (init_ok C rows (default_units (Some lang)) HI NE) as (C' & us & IU & _). destruct (config_ok W (Some lang)) as [CF _]. change (spoken (Some lang)) with (JStr lang) in CF.
  destruct (lang_default_config W (JStr lang)) as [w c] eqn:LC. cbn [snd] in CF. subst c.
  eexists _, C', _, D. split; [|split; [|split]].
  - unfold create. cbn [a_path a_lang choose_dictionary_path]. rewrite LD. unfold finish. unfold quiet at 1. unfold wbind at 1. cbn [snd fst]. rewrite DD. cbn [fst snd a_sub a_units a_est].
    unfold choose_language. rewrite LC.
    assert (PE : get_prob_estimator W EstAuto (ld_meta l) path = Ok None) by (rewrite EM; reflexivity). rewrite PE. unfold rmap, wbind, quiet. cbn [fst snd bind c_sub c_units]. rewrite IU. cbn [fst snd]. reflexivity.
  - rewrite (load_gives_meta _ _ _ _ _ _ LD), EM. reflexivity.
  - exact LX.
  - reflexivity.
Qed.
Lemma create_opens : forall W C lang path result al rows x info d o src links,
  compile_parsed_dict o src links = Ok x -> snd (save_compiled_dict (w_io W) (w_big W) al rows x info) = Ok tt ->
  io_read_words (w_io W) (io_words (w_io W) (x_words x)) = Ok (x_words x) -> (forall p, In p (x_pred x) -> io_read_pred (w_io W) (io_pred (w_io W) p) = Ok p) ->
  (forall t g, In t (x_gramtab x) -> In g (split_tag t) -> In g (map g_name rows)) -> (forall g, In g needed -> In g (map g_name rows)) ->
  w_folder W path = frun (fst (save_compiled_dict (w_io W) (w_big W) al rows x info)) d ->
  exists ws C' z, create W C (MkArgs (Some path) (Some lang) result None EstAuto SubAuto) = (ws, C', Ok z) /\ loaded x (m_dict (z_morph z)).
Proof. intros W C lang path result al rows x info d o src links HC SV IW IP K NE WF. destruct (create_saved W C lang path result al rows x info d o src links HC SV IW IP K NE WF) as (ws & C' & z & l & CR & _ & LX & _). exists ws, C', z. split; [exact CR|exact LX]. Qed.
Lemma dawg_total : forall {V} (d : rdawg V), dawg_len d = list_sum (map (fun e => length (snd e)) d).
Proof. intros V d. unfold dawg_len. induction d as [|e d IH]; [reflexivity|]. cbn [flat_map map]. rewrite app_length, IH. reflexivity. Qed.
Lemma shown_jnat : forall q n, py_str q (jnat n) = shown_nat n.
Proof. intros q n. unfold jnat, py_str, py_repr, shown_nat, dec_Z. destruct n; [reflexivity|]. reflexivity. Qed.
Lemma shown_repr : forall q n, py_repr q (jnat n) = shown_nat n.
Proof. intros q n. unfold jnat, py_repr, shown_nat, dec_Z. destruct n; reflexivity. Qed.
Lemma cons_eq : forall {A} (a b : A) l m, a = b -> l = m -> a :: l = b :: m. Proof. intros A a b l m -> ->. reflexivity. Qed.
Lemma key_eq : forall (k s : string) v v', u s = u k ++ u ": " -> v = v' -> u k ++ u ": " ++ v = u s ++ v'. Proof. intros k s v v' E ->. rewrite E, <- app_assoc. reflexivity. Qed.
Lemma key_eq0 : forall (k s : string) v, u s = u k ++ u ": " ++ v -> u k ++ u ": " ++ v = u s. Proof. intros k s v E. symmetry. exact E. Qed.
Lemma brace_eq : forall (s t b : string) v v', u t = u s ++ u b -> v = v' -> u s ++ u b ++ v = u t ++ v'. Proof. intros s t b v v' E ->. rewrite E, <- app_assoc. reflexivity. Qed.
Lemma str_of : forall q s, py_str q (JStr s) = s. Proof. reflexivity. Qed.
Lemma dict_text : forall q l, py_str q (JObj l) = u "{" ++ join (u ", ") (map (fun kv => q (fst kv) ++ u ": " ++ py_repr q (snd kv)) l) ++ u "}". Proof. reflexivity. Qed.
Lemma arr_text : forall q l, py_str q (JArr l) = u "[" ++ join (u ", ") (map (py_repr q) l) ++ u "]". Proof. reflexivity. Qed.
Lemma arr_repr : forall q l, py_repr q (JArr l) = u "[" ++ join (u ", ") (map (py_repr q) l) ++ u "]". Proof. reflexivity. Qed.
Lemma join2 : forall sep a b, join sep [a; b] = a ++ sep ++ b. Proof. reflexivity. Qed.
Lemma join4 : forall sep a b c d, join sep [a; b; c; d] = a ++ sep ++ b ++ sep ++ c ++ sep ++ d. Proof. reflexivity. Qed.
Lemma texts_repr : forall q l, map (py_repr q) (map JStr l) = map q l. Proof. intros q l. rewrite map_map. reflexivity. Qed.
Lemma lines_saved : forall q x info, map (fun kv => fst kv ++ u ": " ++ py_str q (snd kv)) (save_meta x info) = saved_lines q x info.
Proof.
  intros q x info. unfold save_meta, saved_lines. cbn [map fst snd]. rewrite !shown_jnat, !dawg_total, !str_of.
  apply cons_eq; [apply key_eq; [reflexivity|destruct (si_lang info); reflexivity]|].
  apply cons_eq; [apply key_eq0; reflexivity|].
  do 7 (apply cons_eq; [apply key_eq; reflexivity|]).
  apply cons_eq; [apply key_eq; reflexivity|].
  apply cons_eq.
  { rewrite dict_text. cbn [map fst snd]. rewrite join2. change (py_repr q (JStr (u "gramtab-opencorpora-ext.json"))) with (q (u "gramtab-opencorpora-ext.json")). change (py_repr q (JStr (u "gramtab-opencorpora-int.json"))) with (q (u "gramtab-opencorpora-int.json")).
    assert (E : u "gramtab_formats: {" = u "gramtab_formats" ++ u ": " ++ u "{") by reflexivity. rewrite E, <- !app_assoc. reflexivity. }
  do 3 (apply cons_eq; [apply key_eq; reflexivity|]).
  apply cons_eq.
  { unfold options_json. rewrite dict_text. cbn [map fst snd]. rewrite join4, !shown_repr. unfold jstrs. rewrite arr_repr, texts_repr. unfold commas.
    assert (E : u "compile_options: {" = u "compile_options" ++ u ": " ++ u "{") by reflexivity. rewrite E. assert (F : u ": [" = u ": " ++ u "[") by reflexivity. rewrite F. assert (G : u "]}" = u "]" ++ u "}") by reflexivity. rewrite G. rewrite <- !app_assoc. reflexivity. }
  apply cons_eq; [|reflexivity].
  rewrite arr_text, map_map. unfold commas. assert (E : u "prediction_suffixes_dawg_lengths: [" = u "prediction_suffixes_dawg_lengths" ++ u ": " ++ u "[") by reflexivity. rewrite E, <- !app_assoc.
  assert (F : map (fun a => py_repr q (jnat (dawg_len a))) (x_pred x) = map (fun d => shown_nat (list_sum (map (fun e => length (snd e)) d))) (x_pred x)) by (apply map_ext; intros dd; rewrite shown_repr, dawg_total; reflexivity).
  rewrite F. reflexivity.
Qed.
Lemma dict_meta_saved : forall W C q lang path al rows x info d o src links,
  compile_parsed_dict o src links = Ok x -> snd (save_compiled_dict (w_io W) (w_big W) al rows x info) = Ok tt ->
  io_read_words (w_io W) (io_words (w_io W) (x_words x)) = Ok (x_words x) -> (forall p, In p (x_pred x) -> io_read_pred (w_io W) (io_pred (w_io W) p) = Ok p) ->
  (forall t g, In t (x_gramtab x) -> In g (split_tag t) -> In g (map g_name rows)) -> (forall g, In g needed -> In g (map g_name rows)) ->
  w_folder W path = frun (fst (save_compiled_dict (w_io W) (w_big W) al rows x info)) d ->
  exists ws, cli_dict_meta W C q lang (Some path) = (ws, (saved_lines q x info, Ok tt)).
Proof.
  intros W C q lang path al rows x info d o src links HC SV IW IP K NE WF. destruct (create_saved W C lang path (Some (u "Parse")) al rows x info d o src links HC SV IW IP K NE WF) as (ws & C' & z & l & CR & LM & _).
  exists ws. unfold cli_dict_meta. rewrite CR. cbn [choose_dictionary_path]. rewrite LM, lines_saved. reflexivity.
Qed.
