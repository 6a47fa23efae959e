(** * From an XML document to the parses of an analyzer created over its conversion (C60) *)
From Coq Require Import String List NArith ZArith QArith Bool Lia.
From Verif Require Import Py Uni Tagset Dawg Utils Shapes Dict Units Analyzer ConfigRu ConfigUk Compile Preprocess Json Storage XmlParse Convert Create Spec Spec2 Spec3 Spec7 Spec8 Spec9.
From Verif Require Import L_Base L_Tagset L_Config L_Parse L_Units L_Total L_Compile2 L_Compile3 L_EndToEnd L_ExC L_ExS L_Convert L_Convert2 L_Create L_Create2.
Import ListNotations.
Local Open Scope nat_scope.
Local Open Scope list_scope.

Definition default_units (lang : option str) : list uitem :=
  match lang with Some l => if str_eqb l (u "uk") then UK_DEFAULT_UNITS else RU_DEFAULT_UNITS | None => RU_DEFAULT_UNITS end.
Definition default_subst (lang : option str) : replaces :=
  match lang with Some l => if str_eqb l (u "uk") then [(chr "г", chr "ґ")] else [(chr "е", chr "ё")] | None => [(chr "е", chr "ё")] end.
Definition spoken (lang : option str) : jval := match lang with Some l => JStr l | None => JStr (u "ru") end.
Lemma config_ok : forall W lang, snd (lang_default_config W (spoken lang)) = Ok (MkConfig (default_units lang) (default_subst lang)) /\
  (lang = Some (u "ru") \/ lang = Some (u "uk") -> fst (lang_default_config W (spoken lang)) = []).
Proof.
  intros W lang. destruct lang as [l|]; [|split; [reflexivity|intros [H|H]; discriminate H]]. split.
  - unfold spoken, lang_default_config, default_units, default_subst. destruct (str_eqb l (u "ru-old")) eqn:A.
    + apply str_eqb_eq in A. subst l. reflexivity.
    + destruct (str_eqb l (u "ru")) eqn:B; [apply str_eqb_eq in B; subst l; reflexivity|]. destruct (str_eqb l (u "uk")) eqn:D; reflexivity.
  - intros [H|H]; injection H as ->; reflexivity.
Qed.
Lemma init_ok : forall C rows items, items = RU_DEFAULT_UNITS \/ items = UK_DEFAULT_UNITS -> (forall g, In g needed -> In g (map g_name rows)) ->
  exists C' us, init_units (init_grammemes C rows) items = Ok (C', us) /\ (forall g, In g (map g_name rows) -> In g (tc_known C')).
Proof.
  intros C rows items Hi Hn. destruct (shipped_flat items Hi) as (fl & Ef & S).
  destruct (bind_all_ok (concat fl) (init_grammemes C rows) S) as (C' & us & Eb).
  { intros g H. apply init_known. auto. }
  exists C', us. split; [unfold init_units; rewrite Ef; exact Eb|]. intros g I. rewrite (bind_all_known _ _ _ _ Eb g), init_known. auto.
Qed.

Lemma end_to_end : forall io big al ex ow U lxml doc P src links rows o x info d C W path result,
  flat doc -> parse_xml U lxml doc = Ok P -> source_of P = Some (src, links, rows) ->
  u_space U (chr " ") = true -> u_space U (chr ",") = false -> plain_grammemes U doc -> declared doc rows ->
  links_exist src (effective links) -> acyclic (effective links) ->
  compile_parsed_dict o (prepared src) links = Ok x ->
  io_read_words io (io_words io (x_words x)) = Ok (x_words x) -> (forall p, In p (x_pred x) -> io_read_pred io (io_pred io p) = Ok p) ->
  ex = false \/ ow = true -> snd (convert io big al ex ow (Ok (src, links, rows)) o info) = Ok tt ->
  (forall g, In g (u "ADJF" :: needed) -> In g (map g_name rows)) -> names_ok U -> lower_stable U ->
  w_io W = io -> w_big W = big -> w_uni W = U -> w_folder W path = frun (fst (convert io big al ex ow (Ok (src, links, rows)) o info)) d ->
  exists ws C' z, create W C (MkArgs (Some path) None result None EstAuto SubAuto) = (ws, C', Ok z) /\
    (si_lang info = Some (u "ru") \/ si_lang info = Some (u "uk") -> ws = []) /\
    (forall word, exists ps ts, morph_parse (z_morph z) word = Ok ps /\ morph_tag (z_morph z) word = Ok ts) /\
    (forall word text gs, document_form doc text gs -> ~ In (u "Init") gs -> u_lower U word = u_lower U text ->
       (si_lang info <> Some (u "uk") -> ~ In word RU_INITIAL_LETTERS) ->
       (si_lang info = Some (u "uk") -> ~ In word UK_INITIAL_LETTERS /\ is_roman_number word = false /\ is_latin U word = Ok false) ->
       exists ps p, morph_parse (z_morph z) word = Ok ps /\ In p ps /\ p_word p = u_lower U text /\ same_grammemes (t_gr (p_tag p)) gs).
Proof.
  intros io big al ex ow U lxml doc P src links rows o x info d C W path result FL HP HS S1 S2 PG DE LE AC HC IW IP EX SV NE NO LS <- <- <- WF.
  destruct (converted (w_io W) (w_big W) al ex ow (w_uni W) lxml doc P src links rows o x info d C FL HP HS S1 S2 PG DE LE AC HC IW IP EX SV) as (l & D & LD & DD & LX & RU & UK).
  rewrite <- WF in LD.
  assert (EM : ld_meta l = save_meta x info).
  { assert (CR : create_out_path ex ow = true) by (destruct EX as [-> | ->]; [reflexivity|destruct ex; reflexivity]).
    assert (CV : convert (w_io W) (w_big W) al ex ow (Ok (src, links, rows)) o info = save_compiled_dict (w_io W) (w_big W) al rows x info) by (unfold convert; rewrite CR, HC; auto).
    rewrite CV in *.
    destruct (L_ExS.complete_save (w_io W) (w_big W) al rows x info d C o (prepared src) links HC SV IW IP) as (l' & D' & LD' & M' & _).
    { exact (gramtab_declared _ _ _ _ _ _ _ FL HP HS S1 S2 PG LE AC _ _ HC DE). }
    rewrite <- WF, LD in LD'. injection LD' as <-. exact M'. }
  set (lang := si_lang info).
  assert (HI : default_units lang = RU_DEFAULT_UNITS \/ default_units lang = UK_DEFAULT_UNITS) by (unfold default_units; destruct lang as [q|]; [destruct (str_eqb q (u "uk"))|]; auto).
  destruct (init_ok C rows (default_units lang) HI (fun g I => NE g (or_intror I))) as (C' & us & IU & KN).
  set (a := MkArgs (Some path) None result None EstAuto SubAuto).
  destruct (config_ok W lang) as [CF CW].
  set (z := MkAnalyzer {| m_uni := w_uni W; m_ext := w_ext W; m_dict := D; m_units := us; m_prob := None; m_subst := default_subst lang; m_tc := C' |} (spoken lang) (Some path) None result (default_units lang)).
  set (ws := fst (choose_language (meta_get (u "language_code") (ld_meta l)) (requested a)) ++ fst (sub_choice W a (z_lang z)) ++ fst (unit_choice W a (z_lang z))).
  assert (ML : meta_get (u "language_code") (ld_meta l) = jopt lang) by (rewrite EM; reflexivity).
  assert (CZ : created W C a ws C' z path l (init_grammemes C rows)).
  { constructor.
    - apply picks_path. reflexivity.
    - exact LD.
    - exact DD.
    - rewrite EM. reflexivity.
    - change (z_lang z) with (spoken lang). change (m_subst (z_morph z)) with (default_subst lang). unfold sub_choice. cbn [a_sub a]. destruct (lang_default_config W (spoken lang)) as [w c]. cbn [snd] in *. rewrite CF. reflexivity.
    - change (z_lang z) with (spoken lang). change (z_units z) with (default_units lang). unfold unit_choice. cbn [a_units a]. destruct (lang_default_config W (spoken lang)) as [w c]. cbn [snd] in *. rewrite CF. reflexivity.
    - exact IU.
    - rewrite ML. change (requested a) with (@None str). unfold spoken. cbn [z_lang z]. destruct lang; reflexivity.
    - reflexivity.
    - repeat split. }
  exists ws, C', z. split; [apply create_ok; exists path, l, (init_grammemes C rows); exact CZ|].
  assert (UZ : has_units (z_morph z) (default_units lang)) by (exists (init_grammemes C rows), C'; exact IU).
  assert (TOT : forall word, exists ps ts, morph_parse (z_morph z) word = Ok ps /\ morph_tag (z_morph z) word = Ok ts).
  { assert (WM : wf_morph (z_morph z)).
    { split; [|split; [exact NO|split; [exact LS|split]]].
      - destruct (join_lexemes (prepared src) links) as [lxs|e] eqn:J; [|unfold compile_parsed_dict in HC; rewrite J in HC; discriminate HC].
        pose proof (parsed_inv _ _ _ _ _ J HC) as HL. destruct (compiled_wf' _ _ _ _ HL LX) as (Wd & _). exact Wd.
      - assert (Sh : shipped_units (z_morph z)) by (unfold shipped_units; destruct HI as [E|E]; rewrite E in UZ; auto).
        destruct (shipped_facts _ Sh) as (_ & _ & F). pose proof (init_units_tags _ _ _ _ IU) as T. rewrite Forall_forall in *. intros b Hb. split; [apply T; exact Hb|apply F; exact Hb].
      - intros g Hg. apply KN. apply NE. apply smem_In. destruct Hg as [<-|[<-|[<-|[]]]]; vm_compute; reflexivity. }
    intros word. destruct (analyze_tot (fuel_for (z_morph z) word) (z_morph z) word WM eq_refl (Nat.lt_succ_diag_r _)) as ((ps & A) & (ts & B)). exists ps, ts. auto. }
  split; [|split; [exact TOT|]].
  - intros H. unfold ws. rewrite ML. change (requested a) with (@None str). change (z_lang z) with (spoken lang). unfold sub_choice, unit_choice. cbn [a_sub a_units a].
    specialize (CW H). destruct (lang_default_config W (spoken lang)) as [w c]. cbn [fst] in *. subst w. destruct H as [H|H]; fold lang in H; rewrite H; reflexivity.
  - intros word text gs DF NI EW NR NU. destruct (TOT word) as (ps & ts & A & _). exists ps.
    destruct (list_eq_dec N.eq_dec (match lang with Some q => q | None => [] end) (u "uk")) as [E|E].
    + assert (EL : lang = Some (u "uk")) by (destruct lang as [q|]; [f_equal; exact E|discriminate E]). destruct (NU EL) as (N1 & N2 & N3).
      assert (EU : default_units lang = UK_DEFAULT_UNITS) by (rewrite EL; reflexivity). rewrite EU in UZ.
      destruct (UK _ (z_morph z) word ps text gs eq_refl eq_refl UZ eq_refl DF NI EW N1 N2 N3 A) as (p & X). exists p. split; [exact A|exact X].
    + assert (EL : lang <> Some (u "uk")) by (intros H; apply E; rewrite H; reflexivity).
      assert (EU : default_units lang = RU_DEFAULT_UNITS). { unfold default_units. destruct lang as [q|]; [|reflexivity]. destruct (str_eqb q (u "uk")) eqn:Q; [|reflexivity]. apply str_eqb_eq in Q. subst q. congruence. }
      rewrite EU in UZ.
      destruct (RU _ (z_morph z) word ps text gs eq_refl eq_refl UZ eq_refl DF NI EW (NR EL) A) as (p & X). exists p. split; [exact A|exact X].
Qed.
