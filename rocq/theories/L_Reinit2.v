(** * What saving a dictionary does to analyzers that already exist *)
From Coq Require Import String List NArith ZArith Bool QArith.
From Verif Require Import Py Uni Tagset Dawg Utils Shapes Dict Units Analyzer Compile Json Storage Convert CyrTags Spec Spec18 L_Base L_Run L_Tagset L_Tags2 L_ByUnit L_Create L_Reinit.
Import ListNotations.
Local Open Scope nat_scope.
Local Open Scope list_scope.

Lemma saved_classes : forall io big K rows x info K' ops, save_full io big K rows x info = (K', (ops, Ok tt)) ->
  K' = init_grammemes_of (cyr_init_grammemes K rows) rows.
Proof.
  intros io big K rows x info K' ops H. assert (E : K' = save_classes K rows x) by (unfold save_full in H; inversion H; reflexivity).
  rewrite E. eapply save_classes_written. rewrite E in H. exact H.
Qed.
Lemma cyr_known : forall K rows g, In g (y_known (snd (cyr_init_grammemes K rows))) <-> In g (map g_name rows).
Proof. intros [C Y] rows g. cbn [cyr_init_grammemes snd y_known]. apply init_known. Qed.
Lemma saved_known : forall io big K rows x info C Y ops, save_full io big K rows x info = ((C, Y), (ops, Ok tt)) ->
  forall g, (In g (tc_known C) <-> In g (map g_name rows)) /\ (In g (y_known Y) <-> In g (map g_name rows)).
Proof.
  intros io big K rows x info C Y ops H g. apply saved_classes in H. apply (f_equal (fun k => (fst k, snd k))) in H. cbn [fst snd init_grammemes_of] in H. injection H as -> ->.
  split; [apply init_known|]. destruct K. apply cyr_known.
Qed.
Lemma contains_unknown : forall C g t, tc_known C <> [] -> ~ In g (tc_known C) -> ~ In g (t_gr t) -> contains C g t = Err ValueError.
Proof.
  intros C g t NE NK NT. unfold contains. destruct (smem g (t_gr t)) eqn:S; [apply smem_In in S; contradiction|].
  unfold grammeme_is_known, assert_initialized. destruct (tc_known C) as [|l l0] eqn:K; [congruence|]. cbn [bind]. destruct (smem g (l :: l0)) eqn:S2; [apply smem_In in S2; contradiction|reflexivity].
Qed.
Lemma units_lost : forall U ext C0 dict_rows gt mk prob subst items C1 M Y io big rows x info C Y' ops g t,
  construct U ext C0 dict_rows gt mk prob subst items = Ok (C1, M) ->
  save_full io big (C1, Y) rows x info = ((C, Y'), (ops, Ok tt)) ->
  In g (unit_names items) -> ~ In g (map g_name rows) -> rows <> [] -> ~ In g (t_gr t) ->
  contains C1 g t = Ok false /\ contains C g t = Err ValueError.
Proof.
  intros U ext C0 drows gt mk prob subst items C1 M Y io big rows x info C Y' ops g t HC HS Ig Ng NR Nt. split.
  - assert (K : In g (tc_known C1)). { apply (construct_known_aliases _ _ _ _ _ _ _ _ _ _ _ HC). unfold all_aliases. rewrite map_app. apply in_or_app. right. exact Ig. }
    rewrite known_contains by exact K. f_equal. destruct (smem g (t_gr t)) eqn:S; [apply smem_In in S; contradiction|reflexivity].
  - pose proof (saved_known _ _ _ _ _ _ _ _ _ HS) as K. apply contains_unknown; [|intros I; apply K in I; contradiction|exact Nt].
    intros E. destruct rows as [|r rows]; [congruence|]. assert (I : In (g_name r) (tc_known C)) by (apply K; left; reflexivity). rewrite E in I. destruct I.
Qed.

Lemma two_states : forall M C, (forall g, In g (map u ["ADJF"; "sing"; "datv"]%string) -> In g (tc_known (m_tc M)) /\ In g (tc_known C)) ->
  forall word, morph_parse (in_state M C) word = morph_parse M word /\ morph_tag (in_state M C) word = morph_tag M word.
Proof.
  intros M C H word. unfold morph_parse, morph_tag. change (in_state M C) with (set_tc M C). change (fuel_for (set_tc M C) word) with (fuel_for M word).
  apply analyze_two. intros ts. rewrite !any_known; [reflexivity|intros g I; exact (proj1 (H g I))|intros g I; exact (proj2 (H g I))].
Qed.
Lemma two_lexemes : forall M C, In (u "masc") (tc_known (m_tc M)) -> In (u "masc") (tc_known C) ->
  forall p, get_lexeme (in_state M C) p = get_lexeme M p /\ normalized (in_state M C) p = normalized M p.
Proof.
  intros M C H1 H2 p. unfold get_lexeme, normalized. change (in_state M C) with (set_tc M C).
  assert (HM : forall t, contains C (u "masc") t = contains (m_tc M) (u "masc") t) by (intros t; rewrite !known_contains; auto).
  destruct (last_unit (p_stack p)); [|split; reflexivity]. cbn [bind]. split; [apply lexeme_two; exact HM|apply normalized_two; exact HM].
Qed.
Lemma saved_parse : forall io big K M rows x info C Y ops, save_full io big K rows x info = ((C, Y), (ops, Ok tt)) ->
  (forall g, In g (map u ["ADJF"; "sing"; "datv"; "masc"]%string) -> In g (tc_known (m_tc M)) /\ In g (map g_name rows)) ->
  (forall word, morph_parse (in_state M C) word = morph_parse M word /\ morph_tag (in_state M C) word = morph_tag M word) /\
  (forall p, get_lexeme (in_state M C) p = get_lexeme M p /\ normalized (in_state M C) p = normalized M p).
Proof.
  intros io big K M rows x info C Y ops HS H. pose proof (saved_known _ _ _ _ _ _ _ _ _ HS) as KN. split.
  - apply two_states. intros g I. destruct (H g) as [A B]; [apply in_map_iff in I as (s & <- & I); apply in_map_iff; exists s; split; [reflexivity|]; cbn [In] in *; tauto|]. split; [exact A|]. apply KN. exact B.
  - destruct (H (u "masc")) as [A B]; [apply in_map_iff; exists "masc"%string; split; [reflexivity|]; cbn [In]; tauto|]. apply two_lexemes; [exact A|apply KN; exact B].
Qed.

(** ** inflection when the same table is saved again *)
Lemma init_incompat_other : forall C rows g, ~ In g (map g_name rows) -> incompat_of (init_grammemes C rows) g = incompat_of C g.
Proof.
  intros C rows g N. unfold init_grammemes. rewrite (proj2 (set_rows_incompat _ _ _ _ g)).
  - unfold incompat_of. cbn [tc_incompat]. rewrite (proj2 (add_rows_extra rows _)). reflexivity.
  - intros I. apply N. apply in_map_iff in I as ([i r] & E & I). apply enum_In in I. apply nth_error_In in I. apply in_map_iff. exists r. auto.
Qed.
Lemma rare_not_unit : forall items g, In g (unit_names items) -> ~ In g (map snd RARE_CASES).
Proof.
  intros items g H I. unfold unit_names in H. apply in_map_iff in H as ([g' a] & <- & H). apply in_flat_map in H as (c & _ & H). cbn [fst] in I.
  assert (B : forall c g', In g' (map fst (unit_aliases c)) -> smem g' (map snd RARE_CASES) = false).
  { clear. intros c g' H. destruct c; try destruct first; cbn [unit_aliases map fst In] in H; try contradiction; repeat (destruct H as [<-|H]; [vm_compute; reflexivity|]); contradiction. }
  assert (S : smem g' (map snd RARE_CASES) = true) by (apply smem_In; exact I). rewrite (B c g') in S; [discriminate S|]. apply in_map_iff. exists (g', a). auto.
Qed.
Lemma fix_rare_In : forall g req, In g (fix_rare_cases req) -> In g req \/ In g (map snd RARE_CASES).
Proof.
  intros g req H. unfold fix_rare_cases in H. apply in_map_iff in H as (h & E & I). unfold fix_rare1 in E. destruct (sget h RARE_CASES) as [y|] eqn:S; [|subst; auto].
  right. subst y. apply dget_In in S; [|exact str_eqb_eq]. apply in_map_iff. exists (h, g). auto.
Qed.
Lemma saved_inflect : forall U ext C0 rows gt mk prob subst items C1 M Y io big x info C Y' ops p req,
  construct U ext C0 rows gt mk prob subst items = Ok (C1, M) ->
  save_full io big (C1, Y) rows x info = ((C, Y'), (ops, Ok tt)) ->
  NoDup (map g_name rows) -> ~ In [] (map g_name rows) -> ~ In (Some []) (map g_parent rows) -> shallow rows ->
  (forall k E, sget k (tc_extra C0) = Some E -> ~ In [] E) -> In (u "masc") (map g_name rows) ->
  (forall g, In g req -> In g (unit_names items) -> In g (map g_name rows)) ->
  inflect (in_state M C) p req = inflect M p req.
Proof.
  intros U ext C0 rows gt mk prob subst items C1 M Y io big x info C Y' ops p req HC HS ND NN NP SH NX HM HQ.
  pose proof (saved_known _ _ _ _ _ _ _ _ _ HS) as KN. pose proof (construct_known_aliases _ _ _ _ _ _ _ _ _ _ _ HC) as KC.
  pose proof (construct_incompat _ _ _ _ _ _ _ _ _ _ _ HC) as IC.
  destruct (construct_adds _ _ _ _ _ _ _ _ _ _ _ HC) as (TC & a & Ma & EA).
  assert (EX : tc_extra C1 = expand_extra rows (tc_extra C0)).
  { rewrite EA. assert (G : forall l D, tc_extra (adds D l) = tc_extra D) by (induction l as [|[[b c] o] l IH]; intros D; [reflexivity|]; cbn [adds fold_left]; unfold adds in IH; rewrite IH; unfold add_known; destruct (_ && _); reflexivity). rewrite G. apply init_extra. }
  assert (MK : In (u "masc") (tc_known C1)) by (apply KC; unfold all_aliases; rewrite map_app, map_map; apply in_or_app; left; exact HM).
  assert (UP : forall t rq, (forall g, In g rq -> In g (unit_names items) -> In g (map g_name rows)) -> updated_grammemes C t rq = updated_grammemes C1 t rq).
  { intros t rq HR. assert (names : forall g, In g rq -> (In g (tc_known C) <-> In g (tc_known C1))).
    { intros g I. rewrite (proj1 (KN g)), KC. unfold all_aliases. rewrite map_app, map_map. cbn [fst]. rewrite in_app_iff. split; [auto|]. intros [A|B]; [exact A|]. apply HR; [exact I|exact B]. }
    apply updated_two; [|exact names|].
    - split; intros E; exfalso; [|rewrite E in MK; exact MK]. assert (I : In (u "masc") (tc_known C)) by (apply KN; exact HM). rewrite E in I. exact I.
    - intros g I K x0. rewrite IC. pose proof (saved_classes _ _ _ _ _ _ _ _ HS) as SC. apply (f_equal fst) in SC. cbn [fst] in SC. rewrite SC.
      apply (resave_incompat (C1, Y) C0 rows g ND NN NP SH NX EX). apply (proj1 (KN g)). exact K. }
  destruct (two_lexemes M C) with (p := p) as [GL _]; [rewrite TC; exact MK|apply KN; exact HM|].
  unfold inflect. rewrite GL. change (m_tc (in_state M C)) with C. rewrite TC.
  destruct (get_lexeme M p) as [lex|]; [|reflexivity]. cbn [bind].
  destruct (filter (has_all req) lex) as [|f0 fs].
  - cbn [bind]. rewrite UP; [reflexivity|]. intros g I J. apply fix_rare_In in I as [I|I]; [apply HQ; auto|]. exfalso. exact (rare_not_unit items g J I).
  - cbn [bind]. rewrite UP; [reflexivity|exact HQ].
Qed.

(** ** failures *)
Lemma convert_classes : forall io big K ex ow read o info, 
  (ex = true /\ ow = false) \/ (exists e, read = Err e) \/ (exists src links rows e, read = Ok (src, links, rows) /\ compile_parsed_dict o (prepared src) links = Err e) ->
  fst (convert_full io big K ex ow read o info) = K.
Proof.
  intros io big K ex ow read o info [[-> ->]|[(e & ->)|(src & links & rows & e & -> & E)]]; unfold convert_full; cbn [fst create_out_path]; [reflexivity|destruct (create_out_path ex ow); reflexivity|].
  rewrite E. destruct (create_out_path ex ow); reflexivity.
Qed.
Lemma convert_saved : forall io big K ex ow src links rows o x info, compile_parsed_dict o (prepared src) links = Ok x -> ex = false \/ ow = true ->
  convert_full io big K ex ow (Ok (src, links, rows)) o info = save_full io big K rows x info.
Proof.
  intros io big K ex ow src links rows o x info E H. unfold convert_full, convert, save_full. assert (P : create_out_path ex ow = true) by (destruct H as [-> | ->]; [reflexivity|destruct ex; reflexivity]).
  rewrite P, E. reflexivity.
Qed.
