(** * Attempts to create an analyzer: what they do to existing analyzers, and independence of the class state (C87) *)
From Coq Require Import String List NArith ZArith Bool Lia QArith.
From Verif Require Import Py Uni Tagset Dawg Utils Shapes Dict Units Analyzer ConfigRu ConfigUk Json Storage Create Attempt Spec Spec9 Spec18 Spec37.
From Verif Require Import L_Base L_Tagset L_Tags2 L_ByUnit L_Create L_Reinit L_Reinit2 L_Create2 L_Attempt.
Import ListNotations.
Local Open Scope nat_scope.
Local Open Scope list_scope.

(** ** existing analyzers *)
Definition FOUR : list str := map u ["ADJF"; "sing"; "datv"; "masc"]%string.
Lemma attempts_four : forall l C, (forall W a rows, In (W, a) l -> its_table W a rows -> forall g, In g FOUR -> In g (map g_name rows)) ->
  (forall g, In g FOUR -> In g (tc_known C)) -> forall g, In g FOUR -> In g (tc_known (attempts C l)).
Proof.
  induction l as [|[W a] l IH]; intros C HL HC g I; [exact (HC g I)|]. unfold attempts. cbn [fold_left fst snd]. apply IH; [intros W' a' rows J; apply HL; right; exact J| |exact I].
  intros g' I'. destruct (attempt W C a) as [[ws C'] r] eqn:E. cbn [state_after fst snd]. destruct (attempt_state W C a ws C' r E) as [[-> _]|(rows & fin & T & -> & _)]; [exact (HC g' I')|].
  apply registered_known. left. apply init_known. apply (HL W a rows); auto. left. reflexivity.
Qed.
Lemma attempts_existing : forall M l, (forall g, In g FOUR -> In g (tc_known (m_tc M))) ->
  (forall W a rows, In (W, a) l -> its_table W a rows -> forall g, In g FOUR -> In g (map g_name rows)) ->
  (forall word, morph_parse (in_state M (attempts (m_tc M) l)) word = morph_parse M word /\ morph_tag (in_state M (attempts (m_tc M) l)) word = morph_tag M word) /\
  (forall p, get_lexeme (in_state M (attempts (m_tc M) l)) p = get_lexeme M p /\ normalized (in_state M (attempts (m_tc M) l)) p = normalized M p).
Proof.
  intros M l HM HL. pose proof (attempts_four l (m_tc M) HL HM) as K. split.
  - apply two_states. intros g I. assert (J : In g FOUR). { unfold FOUR. apply in_map_iff in I as (s & <- & I). apply in_map_iff. exists s. split; [reflexivity|]. cbn [In] in *. tauto. } split; [exact (HM g J)|exact (K g J)].
  - assert (J : In (u "masc") FOUR). { apply in_map_iff. exists "masc"%string. split; [reflexivity|]. cbn [In]. tauto. } apply two_lexemes; [exact (HM _ J)|exact (K _ J)].
Qed.

(** ** inflection *)
Definition reach (rows : list grow) (e : list (str * sset)) (g x : str) : Prop := exists E, sget g e = Some E /\ (In x E \/ exists y, In y E /\ descends rows y x).
Definition no_empty (e : list (str * sset)) : Prop := forall k (E : sset), sget k e = Some E -> ~ In [] E.
Lemma reach_expand : forall rows e, NoDup (map g_name rows) -> shallow rows -> no_empty e -> forall g x, reach rows (expand_extra rows e) g x <-> reach rows e g x.
Proof.
  intros rows e ND SH NE g x. unfold reach. destruct (sget g e) as [E0|] eqn:S0.
  - destruct (expand_In rows e g E0 S0) as (E1 & S1 & I1); [intros y I ->; exact (NE g E0 S0 I)|exact ND|]. rewrite S1. split.
    + intros (E & HE & H). injection HE as <-. exists E0. split; [reflexivity|]. destruct H as [H|(y & Iy & D)]; [apply I1; exact H|]. apply I1 in Iy as [Iy|(w & Iw & D')]; [right; eauto|]. right. exists w. split; [exact Iw|]. eapply descends_twice; eauto.
    + intros (E & HE & H). injection HE as <-. exists E1. split; [reflexivity|]. left. apply I1. exact H.
  - rewrite sget_expand, S0. cbn [option_map]. split; intros (E & HE & _); discriminate HE.
Qed.
(** what one class state has to share with another for inflection to agree *)
Record steady (rows : list grow) (C0 C : tagclass) : Prop := {
  st_names : forall g, In g (map g_name rows) -> In g (tc_known C);
  st_known : forall g, In g (tc_known C) -> In g (map g_name rows) \/ exists c, unit_adds c g;
  st_empty : no_empty (tc_extra C);
  st_extra : forall g x, reach rows (tc_extra C) g x <-> reach rows (tc_extra C0) g x;
  st_incompat : forall g x, In g (map g_name rows) -> In x (incompat_of C g) <-> In x (incompat_of (init_grammemes C0 rows) g) }.
Section Steady.
  Variables (rows : list grow) (C0 : tagclass).
  Hypotheses (ND : NoDup (map g_name rows)) (NN : ~ In [] (map g_name rows)) (NP : ~ In (Some []) (map g_parent rows)) (SH : shallow rows) (NX : no_empty (tc_extra C0)).
  Lemma steady_init : forall C fin, no_empty (tc_extra C) -> (forall g x, reach rows (tc_extra C) g x <-> reach rows (tc_extra C0) g x) ->
    steady rows C0 (fold_left register fin (init_grammemes C rows)).
  Proof.
    intros C fin NE RE. destruct (registered_rest fin (init_grammemes C rows)) as [R1 R2]. constructor.
    - intros g I. apply registered_known. left. apply init_known. exact I.
    - intros g I. apply registered_known in I as [I|(c & _ & I)]; [left; apply init_known in I; exact I|right; eauto].
    - rewrite R1, init_extra. intros k E. apply init_extra_nonempty; auto.
    - intros g x. rewrite R1, init_extra, reach_expand; auto.
    - intros g x I. rewrite R2. apply in_map_iff in I as (r & Nr & Ir). assert (R : exists r', In r' rows /\ g_name r' = g /\ g_parent r' = g_parent r) by (exists r; auto).
      rewrite (init_incompat C rows g (g_parent r) ND NP NE R x), (init_incompat C0 rows g (g_parent r) ND NP NX R x). specialize (RE g x). unfold reach in RE. rewrite RE. reflexivity.
  Qed.
  Lemma steady_attempts : forall l C, (forall W a rows', In (W, a) l -> its_table W a rows' -> rows' = rows) -> steady rows C0 C -> steady rows C0 (attempts C l).
  Proof.
    induction l as [|[W a] l IH]; intros C HL HC; [exact HC|]. unfold attempts. cbn [fold_left fst snd]. apply IH; [intros W' a' r J; apply HL; right; exact J|].
    destruct (attempt W C a) as [[ws C'] r] eqn:E. cbn [state_after fst snd]. destruct (attempt_state W C a ws C' r E) as [[-> _]|(rows' & fin & T & -> & _)]; [exact HC|].
    rewrite (HL W a rows' (or_introl eq_refl) T). apply steady_init; [exact (st_empty _ _ _ HC)|exact (st_extra _ _ _ HC)].
  Qed.
End Steady.
Lemma adds_not_rare : forall c g, unit_adds c g -> ~ In g (map snd RARE_CASES).
Proof.
  intros c g H I. unfold unit_adds in H. assert (S : smem g (map snd RARE_CASES) = true) by (apply smem_In; exact I).
  assert (B : smem g (map snd RARE_CASES) = false); [|congruence]. clear I S.
  destruct c; try destruct first; cbn [unit_aliases map fst In] in H; try contradiction; repeat (destruct H as [<-|H]; [vm_compute; reflexivity|]); contradiction.
Qed.
Lemma steady_inflect : forall rows C0 M C, steady rows C0 (m_tc M) -> steady rows C0 C -> In (u "masc") (map g_name rows) ->
  forall p req, (forall g c, In g req -> unit_adds c g -> In g (map g_name rows)) -> inflect (in_state M C) p req = inflect M p req.
Proof.
  intros rows C0 M C S1 S2 HM p req HQ.
  assert (K : forall D, steady rows C0 D -> forall g, (forall c, unit_adds c g -> In g (map g_name rows)) -> (In g (tc_known D) <-> In g (map g_name rows))).
  { intros D SD g H. split; [|apply (st_names _ _ _ SD)]. intros I. destruct (st_known _ _ _ SD g I) as [J|(c & J)]; [exact J|exact (H c J)]. }
  assert (UP : forall t rq, (forall g c, In g rq -> unit_adds c g -> In g (map g_name rows)) -> updated_grammemes C t rq = updated_grammemes (m_tc M) t rq).
  { intros t rq HR. apply updated_two.
    - split; intros E; exfalso; [pose proof (st_names _ _ _ S2 _ HM) as I|pose proof (st_names _ _ _ S1 _ HM) as I]; rewrite E in I; exact I.
    - intros g I. rewrite (K C S2 g), (K (m_tc M) S1 g); [reflexivity|intros c; apply HR; exact I|intros c; apply HR; exact I].
    - intros g I KN x. apply (K C S2 g) in KN; [|intros c; apply HR; exact I]. rewrite (st_incompat _ _ _ S2 g x KN), (st_incompat _ _ _ S1 g x KN). reflexivity. }
  destruct (two_lexemes M C) with (p := p) as [GL _]; [exact (st_names _ _ _ S1 _ HM)|exact (st_names _ _ _ S2 _ HM)|].
  unfold inflect. rewrite GL. change (m_tc (in_state M C)) with C.
  destruct (get_lexeme M p) as [lex|]; [|reflexivity]. cbn [bind].
  destruct (filter (has_all req) lex) as [|f0 fs].
  - cbn [bind]. rewrite UP; [reflexivity|]. intros g c I J. apply fix_rare_In in I as [I|I]; [exact (HQ g c I J)|]. exfalso. exact (adds_not_rare c g J I).
  - cbn [bind]. rewrite UP; [reflexivity|exact HQ].
Qed.
Lemma table_fun : forall W a r1 r2, its_table W a r1 -> its_table W a r2 -> r1 = r2.
Proof. intros W a r1 r2 (p & j & P & J & R) (p' & j' & P' & J' & R'). rewrite (picks_fun _ _ _ _ P P') in J. rewrite J in J'. injection J' as <-. rewrite R in R'. injection R' as <-. reflexivity. Qed.
Lemma attempt_class : forall W C a ws C' z, attempt W C a = (ws, C', Ok z) -> m_tc (z_morph z) = C'.
Proof.
  intros W C a ws C' z H. unfold attempt in H. destruct (choose_dictionary_path _ _ _) as [p|e]; [|discriminate H]. destruct (load_dict _ _ _ C) as [C1 [l|e]]; [|discriminate H].
  destruct (choices _ _ _ _ _) as [ws' [[[[lg pr] sub] items]|e]]; [|discriminate H]. destruct (bind_items _ _ _) as [C2 [us|e]]; [|discriminate H]. cbn [bind] in H. injection H as _ <- <-. reflexivity.
Qed.
Lemma attempts_inflect : forall W C0 a ws C1 z rows l p req, attempt W C0 a = (ws, C1, Ok z) -> its_table W a rows ->
  NoDup (map g_name rows) -> ~ In [] (map g_name rows) -> ~ In (Some []) (map g_parent rows) -> shallow rows ->
  (forall k E, sget k (tc_extra C0) = Some E -> ~ In [] E) -> In (u "masc") (map g_name rows) ->
  (forall W' a' rows', In (W', a') l -> its_table W' a' rows' -> rows' = rows) ->
  (forall g c, In g req -> unit_adds c g -> In g (map g_name rows)) ->
  inflect (in_state (z_morph z) (attempts C1 l)) p req = inflect (z_morph z) p req.
Proof.
  intros W C0 a ws C1 z rows l p req HA HT ND NN NP SH NX HM HL HQ.
  destruct (attempt_state W C0 a ws C1 (Ok z) HA) as [[_ (e & X)]|(rows' & fin & T & E & _)]; [discriminate X|]. rewrite (table_fun _ _ _ _ T HT) in *.
  assert (S1 : steady rows C0 C1). { rewrite E. apply steady_init; auto. intros; reflexivity. }
  apply (steady_inflect rows C0 (z_morph z)); [rewrite (attempt_class _ _ _ _ _ _ HA); exact S1| |exact HM|exact HQ].
  apply steady_attempts; assumption.
Qed.

(** ** the class state does not matter for the outcome *)
Lemma register_upd : forall E C c, register (upd E C) c = upd E (register C c).
Proof. intros E C c. unfold register. generalize (registers c) as l. intros l. revert C. induction l as [|[[a b] o] l IH]; intros C; [reflexivity|]. cbn [fold_left fst snd]. rewrite add_known_upd. apply IH. Qed.
Lemma bind_one_upd : forall ms E C c, bind_one ms (upd E C) c = (upd E (fst (bind_one ms C c)), snd (bind_one ms C c)).
Proof.
  intros ms E C c. unfold bind_one. cbn [fst snd]. rewrite register_upd, bind_unit_upd. f_equal.
  assert (Q : rmap snd (rmap (fun p => (upd E (fst p), snd p)) (bind_unit C c)) = rmap snd (bind_unit C c)) by (destruct (bind_unit C c) as [[? ?]|]; reflexivity). rewrite Q. reflexivity.
Qed.
Lemma bind_seq_upd : forall ms E l C, bind_seq ms (upd E C) l = (upd E (fst (bind_seq ms C l)), snd (bind_seq ms C l)).
Proof.
  intros ms E. induction l as [|[c t] l IH]; intros C; [reflexivity|]. cbn [bind_seq]. rewrite bind_one_upd. destruct (bind_one ms C c) as [C1 [b|e]]; cbn [fst snd]; [|reflexivity].
  rewrite IH. destruct (bind_seq ms C1 l) as [C2 y]. reflexivity.
Qed.
Lemma bind_items_upd : forall ms E items C, bind_items ms (upd E C) items = (upd E (fst (bind_items ms C items)), snd (bind_items ms C items)).
Proof.
  intros ms E. induction items as [|it items IH]; intros C; [reflexivity|]. cbn [bind_items]. unfold bind_item. destruct (flatten_item it) as [l|e]; [|reflexivity].
  rewrite bind_seq_upd. destruct (bind_seq ms C l) as [C1 [us|e]]; cbn [fst snd]; [|reflexivity]. rewrite IH. destruct (bind_items ms C1 items) as [C2 y]. reflexivity.
Qed.
Lemma load_both : forall io big d C D, snd (load_dict io big d D) = snd (load_dict io big d C) /\ (forall l, snd (load_dict io big d C) = Ok l -> sim (fst (load_dict io big d C)) (fst (load_dict io big d D))).
Proof.
  intros io big d C D. unfold load_dict. destruct (let* m := load_meta d (u "meta.json") in _) as [[m rows]|e]; cbn [fst snd]; [|split; [reflexivity|intros l H; discriminate H]].
  split; [|intros; apply init_sim]. pose proof (init_sim C D rows) as S. destruct (load_gramtab m d) as [texts|]; [|reflexivity]. cbn [bind].
  assert (X : mapM (mk_tag (init_grammemes D rows)) texts = mapM (mk_tag (init_grammemes C rows)) texts).
  { clear - S. unfold sim in S. rewrite S. clear. induction texts as [|t ts IH]; [reflexivity|]. cbn [mapM]. rewrite IH. reflexivity. }
  rewrite X. reflexivity.
Qed.
Lemma attempt_independent : forall W C D a, fst (fst (attempt W D a)) = fst (fst (attempt W C a)) /\ same_outcome (snd (attempt W C a)) (snd (attempt W D a)).
Proof.
  intros W C D a. unfold attempt. destruct (choose_dictionary_path _ _ _) as [p|e]; [|cbn [fst snd same_outcome]; split; reflexivity].
  destruct (load_both (w_io W) (w_big W) (w_folder W p) C D) as [L1 L2]. destruct (load_dict _ _ _ C) as [C1 r], (load_dict _ _ _ D) as [D1 r']. cbn [fst snd] in L1, L2. subst r'.
  destruct r as [l|e]; [|cbn [fst snd same_outcome]; split; reflexivity]. specialize (L2 l eq_refl).
  destruct (choices _ _ _ _ _) as [ws' [[[[lg pr] sub] items]|e]]; [|cbn [fst snd same_outcome]; split; reflexivity].
  unfold sim in L2. rewrite L2. rewrite bind_items_upd. destruct (bind_items _ C1 items) as [C2 [us|e]]; cbn [fst snd bind same_outcome]; [|split; reflexivity]. split; [reflexivity|].
  match goal with |- same_analyzer ?z ?z' => set (y := z); set (y' := z'); set (M := z_morph y) end.
  assert (E : z_morph y' = set_tc M (upd D1 (m_tc M))) by reflexivity.
  constructor; try reflexivity.
  - intros w. rewrite E. unfold morph_parse, fuel_for. change (m_uni (set_tc M (upd D1 (m_tc M)))) with (m_uni M). apply analyze_upd.
  - intros w. rewrite E. unfold morph_tag, fuel_for. change (m_uni (set_tc M (upd D1 (m_tc M)))) with (m_uni M). apply analyze_upd.
  - intros q. rewrite E. unfold get_lexeme. destruct (last_unit (p_stack q)); [|reflexivity]. cbn [bind]. apply lexeme_upd.
Qed.
