(** * Whole conversions: from the document to parse() *)
From Coq Require Import String List NArith ZArith QArith Bool Lia Permutation.
From Verif Require Import Py Uni Tagset Dawg Utils Shapes Dict Units Analyzer ConfigRu ConfigUk Compile Preprocess Json Storage XmlParse Convert Spec Spec2 Spec3 Spec7 Spec8.
From Verif Require Import L_Base L_Tagset L_Tags2 L_Para L_Text L_Groups L_Lexeme L_Compile L_Compile2 L_Compile3 L_Compile4 L_EndToEnd L_Pre L_Join L_ExC L_Json L_Json2 L_Storage L_Storage2 L_Xml L_Xml2 L_Convert.
From Verif Require L_ExS L_Source.
Import ListNotations.
Local Open Scope nat_scope.
Local Open Scope list_scope.

Section Conv.
  Variables (U : uni) (lxml : bool) (doc : xelem) (P : parsed) (src : lexemes) (links : list link) (rows : list grow).
  Hypotheses (FL : flat doc) (HP : parse_xml U lxml doc = Ok P) (HS : source_of P = Some (src, links, rows)).
  Hypotheses (S1 : u_space U (chr " ") = true) (S2 : u_space U (chr ",") = false) (PG : plain_grammemes U doc).

  Lemma keys_nodup : NoDup (map fst (xp_lexemes P)).
  Proof. destruct (document_sound _ _ _ _ FL HP) as (_ & _ & H & _). exact H. Qed.
  Lemma src_form : forall id l w t, In (id, l) src -> In (w, t) l ->
    split_tag t <> [] /\ forall v, In v (split_tag t) -> exists g, In g (x_iter (u "g") doc) /\ x_get (u "v") g = Some v.
  Proof.
    intros id l w t I J. apply (lexeme_src _ _ _ _ _ _ HS keys_nodup) in I. destruct (document_sound _ _ _ _ FL HP) as (_ & _ & _ & L & _). apply L in I as (e & (p & r & E & _) & _ & F).
    eapply lemma_tags; eauto. assert (In e (x_iter (u "lemma") doc)) as X by (rewrite E; apply in_or_app; right; left; auto). apply iter_In in X. tauto.
  Qed.
  Lemma src_short : forall id l w t, In (id, l) src -> In (w, t) l -> short (split_tag t).
  Proof. intros id l w t I J v Iv. destruct (src_form _ _ _ _ I J) as (_ & H). destruct (H v Iv) as (g & Ig & Eg). exact (proj2 (doc_plain _ _ PG g v Ig Eg)). Qed.
  Lemma itertag_src : forall t, In t (itertags src) -> exists id l w, In (id, l) src /\ In (w, t) l.
  Proof. intros t I. apply in_flat_map in I as ([id l] & I & J). apply in_map_iff in J as ([w t'] & <- & J). eauto. Qed.
  Let reps := duplicate_replaces (get_tag_spellings src) true.
  Lemma simplified_from : forall t, In t (itertags src) -> simplify_tag reps t = replace_redundant t \/ In (simplify_tag reps t) (itertags src).
  Proof.
    intros t I. unfold simplify_tag. destruct (sget (replace_redundant t) reps) as [x|] eqn:G; [right|auto]. apply (dget_In str_eqb str_eqb_eq) in G.
    assert (RO : reps_ok (itertags src) reps) by (apply dup_ok; [apply spellings_ok|intros a b []]). destruct (RO _ _ G) as (_ & _ & H). exact H.
  Qed.
  Lemma prepared_In : forall id l w t, In (id, l) (prepared src) -> In (w, t) l -> exists l0 t0, In (id, l0) src /\ In (w, t0) l0 /\ t = simplify_tag reps t0.
  Proof.
    intros id l w t I J. unfold prepared, drop_unsupported, simplify_tags, map_lexemes in I. fold reps in I. rewrite map_map in I. apply in_map_iff in I as ([id' l'] & E & I). cbn [fst snd] in E. injection E as <- <-.
    apply filter_In in J as (J & _). apply in_map_iff in J as ([w0 t0] & E & J). cbn [fst snd] in E. injection E as <- <-. exists l', t0. auto.
  Qed.
  Lemma prepared_has : forall id l w t, In (id, l) src -> In (w, t) l -> ~ In (u "Init") (split_tag t) ->
    exists l', In (id, l') (prepared src) /\ In (w, simplify_tag reps t) l' /\ same_grammemes (split_tag (simplify_tag reps t)) (split_tag t).
  Proof.
    intros id l w t I J N.
    assert (SG : same_grammemes (split_tag (simplify_tag reps t)) (split_tag t)).
    { apply simplify_tag_ok; [intros y Iy; apply itertag_src in Iy as (i & l0 & w0 & A & B); eapply src_short; eauto|]. apply in_flat_map. exists (id, l). split; [auto|]. apply in_map_iff. exists (w, t). auto. }
    eexists. split; [|split; [|exact SG]].
    - unfold prepared, drop_unsupported, simplify_tags, map_lexemes. fold reps. rewrite map_map. apply in_map_iff. exists (id, l). split; [reflexivity|exact I].
    - cbn [fst snd]. apply filter_In. split; [apply in_map_iff; exists (w, t); auto|]. cbn [snd]. rewrite (no_init _ _ (src_short _ _ _ _ I J) SG N). auto.
  Qed.
  Lemma prepared_ids : map fst (prepared src) = map fst src.
  Proof. unfold prepared, drop_unsupported, simplify_tags, map_lexemes. rewrite !map_map. cbn [fst]. auto. Qed.

  (** a form of the document is in the source *)
  Lemma doc_form_src : forall text gs, document_form doc text gs ->
    exists id l t, In (id, l) src /\ In (u_lower U text, t) l /\ split_tag t = gs.
  Proof.
    intros text gs (e & l & f & base & own & LL & L & B & If & NN & T & G & ->). destruct (document_sound _ _ _ _ FL HP) as (_ & _ & _ & LX & HAS & _).
    assert (Ie : In e (x_iter (u "lemma") doc)) by (destruct LL as (p & r & E & _); rewrite E; apply in_or_app; right; left; auto).
    destruct (lexeme_with (x_get (u "id") e) P) as [fs|] eqn:X; [|exfalso; exact (HAS e Ie X)]. pose proof X as X'. apply LX in X' as (e' & LL' & Id & F).
    assert (e' = e) as ->.
    { destruct LL as (p & r & E & Nr), LL' as (p' & r' & E' & Nr'). rewrite E in E'. clear - E' Nr Nr' Id. revert p' E'. induction p as [|a p IH]; intros [|a' p'] E'; cbn [app] in E'; inversion E' as [[Z4 Z5]]; subst; auto.
      - exfalso. eapply Nr; [|exact Id]. apply in_or_app. right. left. auto.
      - exfalso. eapply Nr'; [|symmetry; exact Id]. apply in_or_app. right. left. auto.
      - eapply IH; eauto. }
    assert (exists id, x_get (u "id") e = Some (dec_N id) /\ In (id, fs) src) as (id & Eid & Isrc).
    { unfold lexeme_with in X. destruct (source_lexemes _ _ _ _ HS) as (Exl & _). apply (dget_In _ oeqb_eq) in X. rewrite Exl in X. apply in_map_iff in X as ([n fs'] & E & I). cbn [fst snd] in E. injection E as E1 E2; subst fs'; exists n. split; [symmetry; exact E1|exact I]. }
    exists id, fs. destruct F as [(K & _)|(_ & l' & base' & L' & B' & [(f' & If' & SN & _)|(_ & F)])].
    - exfalso. assert (In l (x_iter (u "l") e)) as Il by (rewrite L; left; auto). apply iter_In in Il as (Il & Tl). destruct e as [te ae xe ke]. cbn [x_kids] in K. subst ke. cbn [preorder flat_map] in Il. destruct Il as [<-|[]].
      apply iter_In in Ie as (_ & Te). rewrite Te in Tl. vm_compute in Tl. discriminate Tl.
    - exfalso. rewrite L in L'. injection L' as <-. rewrite (grammemes_fun _ _ _ B' B) in SN. exact (NN f' If' SN).
    - rewrite L in L'. injection L' as <-. rewrite (grammemes_fun _ _ _ B' B) in F. clear B' base'.
      assert (exists wt, In wt fs /\ form_of U base f wt) as ([w t] & Iw & Hf).
      { clear - F If. induction F as [|f0 x0 fl xs H F IH]; [destruct If|]. destruct If as [->|If]; [exists x0; split; [left; auto|auto]|]. destruct (IH If) as (y & J & K). exists y. split; [right; auto|auto]. }
      destruct Hf as (tx & gs & T' & G' & Ew & Et). rewrite T in T'. injection T' as <-. rewrite (grammemes_fun _ _ _ G' G) in Et. cbn [fst snd] in Ew, Et. subst w.
      exists t. split; [auto|]. split; [auto|]. rewrite Et. assert (In e (preorder doc)) as Pe by (apply iter_In in Ie; tauto).
      assert (In l (preorder doc)) as Pl. { assert (In l (x_iter (u "l") e)) as Y by (rewrite L; left; auto). apply iter_In in Y as (Y & _). exact (preorder_trans _ _ _ Pe Y). }
      assert (In f (preorder doc)) as Pf. { apply iter_In in If as (Y & _). exact (preorder_trans _ _ _ Pe Y). }
      apply form_grammemes; auto.
      + intro Y. apply app_eq_nil in Y as (-> & ->). apply (NN f If). exists []. auto.
      + intros v Iv. apply in_app_iff in Iv as [Iv|Iv].
        * destruct (plain_of doc l base Pl B v Iv) as (g & Ig & Eg). exact (proj1 (doc_plain _ _ PG g v Ig Eg)).
        * destruct (plain_of doc f own Pf G v Iv) as (g & Ig & Eg). exact (proj1 (doc_plain _ _ PG g v Ig Eg)).
  Qed.

  Hypotheses (LE : links_exist src (effective links)) (AC : acyclic (effective links)).
  Variables (o : coptions) (x : compiled).
  Hypothesis HC : compile_parsed_dict o (prepared src) links = Ok x.
  Lemma joined : exists lxs, join_lexemes (prepared src) links = Ok lxs /\ Permutation (concat lxs) (concat (map snd (prepared src))).
  Proof.
    destruct (join_forms (prepared src) links) as (out & J & Pm & _); eauto.
    - rewrite prepared_ids. eapply src_nodup; [exact HS|exact keys_nodup].
    - intros s e I. rewrite prepared_ids. apply LE. auto.
  Qed.
  Lemma form_compiled : forall text gs, document_form doc text gs -> ~ In (u "Init") gs ->
    exists lxs lx i t, join_lexemes (prepared src) links = Ok lxs /\ In lx lxs /\ nth_error lx i = Some (u_lower U text, t) /\ same_grammemes (split_tag t) gs.
  Proof.
    intros text gs DF NI. destruct (doc_form_src _ _ DF) as (id & l & t & I & J & <-). destruct (prepared_has _ _ _ _ I J NI) as (l' & I' & J' & SG). destruct joined as (lxs & E & Pm).
    assert (In (u_lower U text, simplify_tag reps t) (concat lxs)) as K.
    { apply (Permutation_in _ (Permutation_sym Pm)). apply in_concat. exists l'. split; [|auto]. apply in_map_iff. exists (id, l'). auto. }
    apply in_concat in K as (lx & Ilx & K). apply In_nth_error in K as (i & K). exists lxs, lx, i, (simplify_tag reps t). auto.
  Qed.
  Lemma gramtab_declared : declared doc rows -> forall t g, In t (x_gramtab x) -> In g (split_tag t) -> In g (map g_name rows).
  Proof.
    intros DE t g It Ig. destruct joined as (lxs & E & Pm). pose proof (parsed_inv _ _ _ _ _ E HC) as HL. destruct (compile_lexemes_inv _ _ _ HL) as (st & ks & C & _).
    rewrite (cc_gram _ _ _ _ _ C) in It. destruct (iv_used _ _ _ _ (cc_inv _ _ _ _ _ C) t It) as (lx & Ilx & J). apply in_map_iff in J as ([w t'] & <- & J). cbn [snd] in *.
    assert (In (w, t') (concat (map snd (prepared src)))) as K by (apply (Permutation_in _ Pm); apply in_concat; eauto).
    apply in_concat in K as (l & Kl & K). apply in_map_iff in Kl as ([id l0] & <- & Kl). cbn [snd] in K. destruct (prepared_In _ _ _ _ Kl K) as (l1 & t0 & I1 & J1 & ->).
    assert (In t0 (itertags src)) as It0 by (apply in_flat_map; exists (id, l1); split; [auto|apply in_map_iff; exists (w, t0); auto]).
    destruct (simplified_from t0 It0) as [Es|Es].
    - rewrite Es in Ig. assert (split_tag (replace_redundant t0) = map common_case (split_tag t0)) as R0 by (symmetry; apply reads_unique; apply redundant_reads; [apply split_tag_reads|eapply src_short; eauto]).
      rewrite R0 in Ig. apply in_map_iff in Ig as (v & <- & Iv). destruct (src_form _ _ _ _ I1 J1) as (_ & V). destruct (V v Iv) as (ge & G1 & G2). exact (proj2 (DE ge v G1 G2)).
    - destruct (itertag_src _ Es) as (id2 & l2 & w2 & I2 & J2). destruct (src_form _ _ _ _ I2 J2) as (_ & V). destruct (V g Ig) as (ge & G1 & G2). exact (proj1 (DE ge g G1 G2)).
  Qed.
End Conv.

(** the tags of a loaded dictionary *)
Lemma loaded_tags : forall io big d C C' l D, load_dict io big d C = (C', Ok l) -> dictionary l = Ok D -> forall t, In t (d_gramtab D) -> t_gr t = split_tag (t_str t).
Proof.
  intros io big d C C' l D H HD t I. unfold dictionary in HD. apply bind_ok in HD as (n & _ & HD). apply Ok_inj in HD. subst D. cbn [d_gramtab] in I.
  unfold load_dict in H. destruct (let* m := load_meta d (u "meta.json") in _) as [[m rws]|e]; [|discriminate H]. injection H as _ H.
  apply bind_ok in H as (texts & _ & H). apply bind_ok in H as (gt & G & H). repeat (apply bind_ok in H as (? & _ & H)). apply Ok_inj in H. subst l. cbn [ld_gramtab] in I.
  destruct (mapM_In _ _ _ _ G I) as (s & _ & E). apply mk_tag_ok in E as (E1 & E2 & _). rewrite E1. exact E2.
Qed.
Lemma reading_tag : forall M lower ps p, dictionary_readings M lower ps -> In p ps -> In (p_tag p) (d_gramtab (m_dict M)).
Proof.
  intros M lower ps p (_ & R) I. destruct (R p I) as (para & idx & pre & sf & _ & _ & Q & _). destruct Q as (pp & s & ti & q & A1 & A2 & A3 & A4 & A5 & A6 & A7 & A8). eapply nth_error_In; eauto.
Qed.

Lemma converted : forall io big al ex ow U lxml doc P src links rows o x info d C,
  flat doc -> parse_xml U lxml doc = Ok P -> source_of P = Some (src, links, rows) ->
  u_space U (chr " ") = true -> u_space U (chr ",") = false -> plain_grammemes U doc -> declared doc rows ->
  links_exist src (effective links) -> acyclic (effective links) ->
  compile_parsed_dict o (prepared src) links = Ok x ->
  io_read_words io (io_words io (x_words x)) = Ok (x_words x) -> (forall p, In p (x_pred x) -> io_read_pred io (io_pred io p) = Ok p) ->
  ex = false \/ ow = true -> snd (convert io big al ex ow (Ok (src, links, rows)) o info) = Ok tt ->
  exists l D, load_dict io big (frun (fst (convert io big al ex ow (Ok (src, links, rows)) o info)) d) C = (init_grammemes C rows, Ok l) /\
    dictionary l = Ok D /\ loaded x D /\
    (forall n M word ps text gs, m_dict M = D -> m_uni M = U -> has_units M RU_DEFAULT_UNITS -> m_prob M = None ->
       document_form doc text gs -> ~ In (u "Init") gs -> u_lower U word = u_lower U text -> ~ In word RU_INITIAL_LETTERS -> parse_f n M word = Ok ps ->
       exists p, In p ps /\ p_word p = u_lower U text /\ same_grammemes (t_gr (p_tag p)) gs) /\
    (forall n M word ps text gs, m_dict M = D -> m_uni M = U -> has_units M UK_DEFAULT_UNITS -> m_prob M = None ->
       document_form doc text gs -> ~ In (u "Init") gs -> u_lower U word = u_lower U text ->
       ~ In word UK_INITIAL_LETTERS -> is_roman_number word = false -> is_latin (m_uni M) word = Ok false -> parse_f n M word = Ok ps ->
       exists p, In p ps /\ p_word p = u_lower U text /\ same_grammemes (t_gr (p_tag p)) gs).
Proof.
  intros io big al ex ow U lxml doc P src links rows o x info d C FL HP HS S1 S2 PG DE LE AC HC IW IP EX SV.
  assert (CR : create_out_path ex ow = true) by (destruct EX as [-> | ->]; [reflexivity|destruct ex; reflexivity]).
  assert (CV : convert io big al ex ow (Ok (src, links, rows)) o info = save_compiled_dict io big al rows x info) by (unfold convert; rewrite CR, HC; auto).
  rewrite CV in *.
  destruct (L_ExS.complete_save io big al rows x info d C o (prepared src) links HC SV IW IP) as (l & D & LD & _ & DD & LX).
  { exact (gramtab_declared _ _ _ _ _ _ _ FL HP HS S1 S2 PG LE AC _ _ HC DE). }
  exists l, D. split; [exact LD|]. split; [exact DD|]. split; [exact LX|].
  pose proof (loaded_tags _ _ _ _ _ _ _ LD DD) as TG. split.
  - intros n M word ps text gs <- <- HU NP DF NI EW NL PR.
    destruct (form_compiled _ _ _ _ _ _ _ FL HP HS S1 S2 PG LE AC text gs DF NI) as (lxs & lx & i & t & J & Il & Ni & SG).
    destruct (ru_parsed n o _ _ lxs x M word ps lx i _ t J HC LX HU NP Il Ni EW NL PR) as (p & nf & tnf & fam & I & Ew & Et & _).
    exists p. split; [exact I|]. split; [exact Ew|]. pose proof (parsed_inv _ _ _ _ _ J HC) as HL. destruct (compiled_wf' _ _ _ _ HL LX) as (W & Cn & _).
    assert (In (p_tag p) (d_gramtab (m_dict M))) as G.
    { eapply reading_tag; [|exact I]. eapply ru_dictionary_word; eauto. rewrite EW. eapply in_dictionary_source; eauto. }
    rewrite (TG _ G), Et. exact SG.
  - intros n M word ps text gs <- <- HU NP DF NI EW NL NR NLt PR.
    destruct (form_compiled _ _ _ _ _ _ _ FL HP HS S1 S2 PG LE AC text gs DF NI) as (lxs & lx & i & t & J & Il & Ni & SG).
    destruct (uk_parsed n o _ _ lxs x M word ps lx i _ t J HC LX HU NP Il Ni EW NL NR NLt PR) as (p & nf & tnf & fam & I & Ew & Et & _).
    exists p. split; [exact I|]. split; [exact Ew|]. pose proof (parsed_inv _ _ _ _ _ J HC) as HL. destruct (compiled_wf' _ _ _ _ HL LX) as (W & Cn & _).
    assert (In (p_tag p) (d_gramtab (m_dict M))) as G.
    { eapply reading_tag; [|exact I]. eapply uk_dictionary_word; eauto. rewrite EW. eapply in_dictionary_source; eauto. }
    rewrite (TG _ G), Et. exact SG.
Qed.
(** nothing is written when there is nothing to write *)
Lemma convert_refuses : forall io big al r o info, convert io big al true false r o info = ([], Ok tt).
Proof. reflexivity. Qed.
Lemma convert_fails_clean : forall io big al ex ow r o info, create_out_path ex ow = true ->
  (forall e, r = Err e -> convert io big al ex ow r o info = ([], Err e)) /\
  (forall src links rows e, r = Ok (src, links, rows) -> compile_parsed_dict o (prepared src) links = Err e -> convert io big al ex ow r o info = ([], Err e)).
Proof. intros io big al ex ow r o info H. unfold convert. rewrite H. split; [intros e ->; auto|]. intros src links rows e -> ->. auto. Qed.
