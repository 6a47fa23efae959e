(** * Whole lexemes of a document (C60) *)
From Coq Require Import String List NArith ZArith QArith Bool Lia Permutation.
From Verif Require Import Py Uni Tagset Dawg Utils Shapes Dict Units Analyzer ConfigRu ConfigUk Compile Preprocess Json Storage XmlParse Convert Create Spec Spec2 Spec3 Spec7 Spec8 Spec9 Spec26 Spec27.
From Verif Require Import L_Base L_Tagset L_Tags2 L_Para L_Text L_Groups L_Lexeme L_Compile L_Compile2 L_Compile3 L_Compile4 L_EndToEnd L_Pre L_Join L_ExC L_Json L_Json2 L_Storage L_Storage2 L_Xml L_Xml2 L_Convert L_Convert2 L_Create L_Create2 L_Whole L_Says.
From Verif Require L_ExS L_Source.
Import ListNotations.
Local Open Scope nat_scope.
Local Open Scope list_scope.

(** ** joining leaves an unlinked lexeme alone *)
Lemma chase_not : forall moves n, (forall a b, nget a moves = Some b -> b <> n) -> forall fuel to root, to <> n -> chase fuel moves to = Ok root -> root <> n.
Proof.
  intros moves n H. induction fuel as [|fuel IH]; intros to root N E; [discriminate E|]. cbn [chase] in E. destruct (nget to moves) as [b|] eqn:G; [|apply Ok_inj in E; congruence].
  exact (IH b root (H _ _ G) E).
Qed.
Lemma join_keeps : forall n l links st st', (forall s e, In (s, e) (effective links) -> s <> n /\ e <> n) ->
  nget n (fst st) = Some l -> (forall a b, nget a (snd st) = Some b -> b <> n) -> foldM join_step st links = Ok st' -> nget n (fst st') = Some l.
Proof.
  intros n l. induction links as [|[[s e] t] links IH]; intros [tbl moves] st' H G Mv F; cbn [foldM] in F; [apply Ok_inj in F; subst; exact G|].
  apply bind_ok in F as (st1 & E1 & F). rewrite eff_cons in H. cbn [join_step] in E1. destruct (smem t EXCLUDED_LINK_TYPES).
  - apply Ok_inj in E1. subst st1. exact (IH _ _ H G Mv F).
  - destruct (H s e (or_introl eq_refl)) as [Ns Ne]. cbn [fst snd] in *. unfold move_lexeme in E1.
    apply bind_ok in E1 as (lm & E2 & E1). apply bind_ok in E1 as (root & E3 & E1). apply bind_ok in E1 as (tgt & E4 & E1). apply Ok_inj in E1. subst st1.
    pose proof (chase_not _ _ Mv _ _ _ Ns E3) as Nr.
    refine (IH _ _ (fun s' e' I => H s' e' (or_intror I)) _ _ F); cbn [fst snd].
    + unfold nget, nset in *. rewrite !(dget_dset_other N.eqb Neqb_eq) by congruence. exact G.
    + intros a b X. unfold nget, nset in X. destruct (N.eqb_spec a e) as [->|Na].
      * rewrite (dget_dset_same N.eqb Neqb_eq) in X. injection X as <-. exact Nr.
      * rewrite (dget_dset_other N.eqb Neqb_eq) in X by auto. exact (Mv _ _ X).
Qed.
Lemma join_unlinked : forall lx links out n l, NoDup (map fst lx) -> (forall s e, In (s, e) (effective links) -> s <> n /\ e <> n) ->
  In (n, l) lx -> l <> [] -> join_lexemes lx links = Ok out -> In l out.
Proof.
  intros lx links out n l ND H I Nl J. unfold join_lexemes in J. apply bind_ok in J as (st & E & J). apply Ok_inj in J. subst out.
  assert (G : nget n (fst st) = Some l).
  { eapply (join_keeps n l links (lx, [])); [exact H| |intros a b X; discriminate X|exact E]. cbn [fst]. apply (In_dget N.eqb Neqb_eq); auto. }
  apply (dget_In N.eqb Neqb_eq) in G. apply filter_In. split; [|destruct l; [congruence|reflexivity]].
  apply in_map_iff. exists (n, l). split; [reflexivity|]. exact (Permutation_in _ (Permutation_sym (sort_ids_perm _)) G).
Qed.

(** ** a lexeme of the document in the source *)
Section Conv.
  Variables (U : uni) (lxml : bool) (doc : xelem) (P : parsed) (src : lexemes) (links : list link) (rows : list grow).
  Hypotheses (FL : flat doc) (HP : parse_xml U lxml doc = Ok P) (HS : source_of P = Some (src, links, rows)).
  Hypotheses (S1 : u_space U (chr " ") = true) (S2 : u_space U (chr ",") = false) (PG : plain_grammemes U doc).

  Lemma doc_lexeme_src : forall id forms, document_lexeme doc id forms -> forms <> [] ->
    exists n l, id = dec_N n /\ In (n, l) src /\ Forall2 (fun wt tg => fst wt = u_lower U (fst tg) /\ split_tag (snd wt) = snd tg) l forms.
  Proof.
    intros id forms (e & l & base & LL & Id & L & B & NN & F0) NE. destruct (document_sound _ _ _ _ FL HP) as (_ & _ & _ & LX & HAS & _).
    assert (Ie : In e (x_iter (u "lemma") doc)) by (destruct LL as (p & r & E & _); rewrite E; apply in_or_app; right; left; auto).
    destruct (lexeme_with (x_get (u "id") e) P) as [fs|] eqn:X; [|exfalso; exact (HAS e Ie X)].
    assert (FS : lemma_forms U e fs).
    { pose proof X as X'. apply LX in X' as (e' & LL' & Id' & F). assert (e' = e) as ->; [|exact F].
      destruct LL as (p & r & E & Nr), LL' as (p' & r' & E' & Nr'). rewrite E in E'. clear - E' Nr Nr' Id'. revert p' E'. induction p as [|a p IH]; intros [|a' p'] E'; cbn [app] in E'; inversion E' as [[Z4 Z5]]; subst; auto.
      - exfalso. eapply Nr; [|exact Id']. apply in_or_app. right. left. auto.
      - exfalso. eapply Nr'; [|symmetry; exact Id']. apply in_or_app. right. left. auto.
      - eapply IH; eauto. }
    assert (exists n, id = dec_N n /\ In (n, fs) src) as (n & En & Isrc).
    { unfold lexeme_with in X. destruct (source_lexemes _ _ _ _ HS) as (Exl & _). apply (dget_In _ oeqb_eq) in X. rewrite Exl in X. apply in_map_iff in X as ([n fs'] & E & I). cbn [fst snd] in E. injection E as E1 E2; subst fs'; exists n. split; [|exact I]. congruence. }
    exists n, fs. split; [exact En|]. split; [exact Isrc|].
    assert (Pe : In e (preorder doc)) by (apply iter_In in Ie; tauto).
    assert (Pl : In l (preorder doc)). { assert (In l (x_iter (u "l") e)) as Y by (rewrite L; left; auto). apply iter_In in Y as (Y & _). exact (preorder_trans _ _ _ Pe Y). }
    destruct FS as [(K & _)|(_ & l' & base' & L' & B' & [(f' & If' & SN & _)|(_ & F)])].
    - exfalso. destruct e as [te ae xe ke]. cbn [x_kids] in K. subst ke. destruct (x_iter (u "f") (Elem te ae xe [])) as [|f0 fl] eqn:Q; [inversion F0; congruence|].
      assert (In f0 (x_iter (u "f") (Elem te ae xe []))) as If by (rewrite Q; left; auto). apply iter_In in If as (If & Tf). cbn [preorder flat_map] in If. destruct If as [<-|[]].
      apply iter_In in Ie as (_ & Te). rewrite Te in Tf. vm_compute in Tf. discriminate Tf.
    - exfalso. rewrite L in L'. injection L' as <-. rewrite (grammemes_fun _ _ _ B' B) in SN. exact (NN f' If' SN).
    - rewrite L in L'. injection L' as <-. rewrite (grammemes_fun _ _ _ B' B) in F. clear B' base'.
      assert (PF : forall f, In f (x_iter (u "f") e) -> In f (preorder doc)) by (intros f If; apply iter_In in If as (Y & _); exact (preorder_trans _ _ _ Pe Y)).
      revert F0 F NN PF. generalize (x_iter (u "f") e) as fl. clear - S1 S2 PG B Pl. intros fl F0. revert fs. induction F0 as [|f [tx gs] fl forms (T & own & G & E) F0 IH]; intros fs F NN PF; inversion F as [|f' wt fl' fs' FO F']; subst; constructor.
      + destruct wt as [w t]. destruct FO as (tx' & own' & T' & G' & Ew & Et). cbn [fst snd] in *. rewrite T in T'. injection T' as <-. rewrite (grammemes_fun _ _ _ G' G) in Et. split; [exact Ew|]. rewrite Et, E.
        assert (Pf : In f (preorder doc)) by (apply PF; left; auto). apply form_grammemes; auto.
        * intro Y. apply app_eq_nil in Y as (-> & ->). apply (NN f (or_introl eq_refl)). exists []. auto.
        * intros v Iv. apply in_app_iff in Iv as [Iv|Iv].
          -- destruct (plain_of doc l base Pl B v Iv) as (g & Ig & Eg). exact (proj1 (doc_plain _ _ PG g v Ig Eg)).
          -- destruct (plain_of doc f own Pf G v Iv) as (g & Ig & Eg). exact (proj1 (doc_plain _ _ PG g v Ig Eg)).
      + apply IH; auto; [intros g Ig; apply NN; right; auto|intros g Ig; apply PF; right; auto].
  Qed.
  Let reps := duplicate_replaces (get_tag_spellings src) true.
  Lemma prepared_lexeme : forall n l forms, In (n, l) src -> Forall2 (fun wt tg => fst wt = u_lower U (fst tg) /\ split_tag (snd wt) = snd tg) l forms ->
    (forall tg, In tg forms -> ~ In (u "Init") (snd tg)) ->
    exists l', In (n, l') (prepared src) /\ Forall2 (fun wt tg => fst wt = u_lower U (fst tg) /\ same_grammemes (split_tag (snd wt)) (snd tg)) l' forms.
  Proof.
    intros n l forms I F NI.
    assert (SG : forall w t, In (w, t) l -> same_grammemes (split_tag (simplify_tag reps t)) (split_tag t)).
    { intros w t J. apply simplify_tag_ok; [intros y Iy; apply itertag_src in Iy as (i & l0 & w0 & A & C); eapply (src_short U lxml doc P src links rows); eauto|].
      apply in_flat_map. exists (n, l). split; [auto|]. apply in_map_iff. exists (w, t). auto. }
    assert (SH : forall w t, In (w, t) l -> short (split_tag t)) by (intros w t J; eapply (src_short U lxml doc P src links rows); eauto).
    eexists. split.
    - unfold prepared, drop_unsupported, simplify_tags, map_lexemes. fold reps. rewrite map_map. apply in_map_iff. exists (n, l). split; [reflexivity|exact I].
    - cbn [fst snd]. clear I. induction F as [|[w t] [tx gs] l forms (A & B) F IH]; [constructor|]. cbn [fst snd] in *. cbn [map filter fst snd].
      assert (X : substrb (u "Init") (simplify_tag reps t) = false).
      { eapply no_init; [apply (SH w t); left; auto|apply (SG w t); left; auto|]. rewrite B. exact (NI (tx, gs) (or_introl eq_refl)). }
      rewrite X. cbn [negb]. constructor.
      + cbn [fst snd]. split; [exact A|]. rewrite <- B. apply (SG w t). left; auto.
      + apply IH; [intros tg It; apply NI; right; auto|intros w' t' J; apply (SG w' t'); right; auto|intros w' t' J; apply (SH w' t'); right; auto].
  Qed.
  (** links of the document are links of the source *)
  Lemma eff_doc : forall s e, In (s, e) (effective links) <-> exists k, follows doc k /\ x_get (u "from") k = Some (dec_N s) /\ x_get (u "to") k = Some (dec_N e).
  Proof.
    destruct (document_sound _ _ _ _ FL HP) as (DL & _). destruct (source_lexemes _ _ _ _ HS) as (_ & SL & _). rewrite SL in DL. intros s e. split.
    - intros I. unfold effective in I. apply in_map_iff in I as ([[s' e'] t] & E & I). cbn [fst] in E. injection E as -> ->. apply filter_In in I as (I & T). cbn [snd] in T.
      assert (J : In (Some (dec_N s), Some (dec_N e), Some t) (map link_row (x_iter (u "link") doc))) by (rewrite <- DL; apply in_map_iff; exists (s, e, t); auto).
      apply in_map_iff in J as (k & Ek & Ik). unfold link_row in Ek. injection Ek as E1 E2 E3. exists k. split; [|auto]. split; [exact Ik|]. exists t. split; [exact E3|].
      intros Y. apply (proj2 (smem_In _ _)) in Y. rewrite Y in T. discriminate T.
    - intros (k & (Ik & t & T & NT) & Fr & To). assert (J : In (Some (dec_N s), Some (dec_N e), Some t) (map link_row (x_iter (u "link") doc))) by (apply in_map_iff; exists k; unfold link_row; rewrite Fr, To, T; auto).
      rewrite <- DL in J. apply in_map_iff in J as ([[s' e'] t'] & E & J). injection E as E1 E2 ->. apply dec_N_inj in E1, E2. subst s' e'.
      unfold effective. apply in_map_iff. exists (s, e, t). split; [reflexivity|]. apply filter_In. split; [exact J|]. cbn [snd]. destruct (smem t _) eqn:Y; [|reflexivity]. exfalso. apply NT. apply smem_In. exact Y.
  Qed.
  Lemma unlinked_source : forall n, unlinked doc (dec_N n) -> forall s e, In (s, e) (effective links) -> s <> n /\ e <> n.
  Proof. intros n UL s e I. apply eff_doc in I as (k & K & Fr & To). destruct (UL k K) as [N1 N2]. split; intros ->; congruence. Qed.
  Lemma follows_numbered : forall k, follows doc k -> exists s e, x_get (u "from") k = Some (dec_N s) /\ x_get (u "to") k = Some (dec_N e).
  Proof.
    intros k (Ik & _). destruct (document_sound _ _ _ _ FL HP) as (DL & _). destruct (source_lexemes _ _ _ _ HS) as (_ & SL & _). rewrite SL in DL.
    assert (J : In (link_row k) (map link_row (x_iter (u "link") doc))) by (apply in_map; exact Ik). rewrite <- DL in J. apply in_map_iff in J as ([[s e] t] & E & _). unfold link_row in E. injection E as E1 E2 _. exists s, e. auto.
  Qed.
  Lemma once_source : linked_once doc -> NoDup (map snd (effective links)).
  Proof.
    intros LO. destruct (document_sound _ _ _ _ FL HP) as (DL & _). destruct (source_lexemes _ _ _ _ HS) as (_ & SL & _). rewrite SL in DL.
    assert (H : forall l1 a l2, links = l1 ++ a :: l2 -> negb (smem (snd a) (map u ["7"; "21"; "23"; "27"]%string)) = true -> ~ In (snd (fst a)) (map snd (effective l2))).
    { intros l1 [[s e] t] l2 -> T I. cbn [fst snd] in *. apply in_map_iff in I as ([s2 e2] & E & I). cbn [snd] in E. subst e2. unfold effective in I. apply in_map_iff in I as ([[s2' e2'] t2] & E & I). cbn [fst] in E. injection E as -> ->.
      apply filter_In in I as (I & T2). cbn [snd] in T2. apply in_split in I as (m1 & m2 & ->). rewrite map_app in DL. cbn [map] in DL. rewrite map_app in DL. cbn [map] in DL.
      symmetry in DL. apply map_eq_app in DL as (d1 & d2 & E & _ & E2). apply map_eq_cons in E2 as (k1 & d3 & -> & K1 & E2). apply map_eq_app in E2 as (d4 & d5 & -> & _ & E2). apply map_eq_cons in E2 as (k2 & d6 & -> & K2 & _).
      unfold link_row in K1, K2. injection K1 as A1 A2 A3. injection K2 as B1 B2 B3.
      assert (NS : forall t, negb (smem t (map u ["7"; "21"; "23"; "27"]%string)) = true -> ~ In t (map u ["7"; "21"; "23"; "27"]%string)) by (intros t' X Y; apply (proj2 (smem_In _ _)) in Y; rewrite Y in X; discriminate X).
      apply (LO d1 k1 d4 k2 d6 E); [split; [rewrite E; apply in_or_app; right; left; auto|exists t; auto]|split; [rewrite E; apply in_or_app; right; right; apply in_or_app; right; left; auto|exists t2; auto]|congruence]. }
    clear DL SL. assert (G : forall l2 l1, links = l1 ++ l2 -> NoDup (map snd (effective l2))).
    { induction l2 as [|[[s e] t] l2 IH]; intros l1 E; [constructor|]. specialize (IH (l1 ++ [(s, e, t)])). rewrite <- app_assoc in IH. specialize (IH E). specialize (H l1 (s, e, t) l2 E). cbn [fst snd] in H.
      unfold effective in *. cbn [filter snd]. destruct (negb (smem t (map u ["7"; "21"; "23"; "27"]%string))); [|exact IH]. cbn [map fst snd]. constructor; auto. }
    exact (G links [] eq_refl).
  Qed.
  Lemma leads_own : forall own a, top_of (effective links) own -> forall b, leads doc (dec_N a) b -> forall c, b = dec_N c -> own c = own a.
  Proof.
    intros own a (T1 & _) b L. induction L as [|b c k L IH K Fr To]; intros n E; [apply dec_N_inj in E; congruence|].
    destruct (follows_numbered k K) as (s & e & Fs & Ts). rewrite Fr in Fs. injection Fs as ->. rewrite To in Ts. injection Ts as ->. apply dec_N_inj in E. subst n.
    rewrite <- (IH s eq_refl). apply T1. apply eff_doc. exists k. auto.
  Qed.
  Lemma own_leads : forall own a, acyclic (effective links) -> top_of (effective links) own -> forall b, own b = a -> leads doc (dec_N a) (dec_N b).
  Proof.
    intros own a AC (T1 & T2). destruct (acyclic_rank _ AC) as (rank & R).
    assert (G : forall m b, rank b < m -> own b = a -> leads doc (dec_N a) (dec_N b)).
    { induction m as [|m IH]; intros b Hm E; [lia|]. destruct (in_dec N.eq_dec b (map snd (effective links))) as [I|I].
      - apply in_map_iff in I as ([s b'] & Eb & I). cbn [snd] in Eb. subst b'. pose proof (R _ _ I) as Rs. pose proof (T1 _ _ I) as Ts. apply eff_doc in I as (k & K & Fr & To).
        eapply leads_link; [|exact K|exact Fr|exact To]. apply IH; [lia|congruence].
      - rewrite (T2 b I) in E. subst b. constructor. }
    intros b E. exact (G _ b (Nat.lt_succ_diag_r _) E).
  Qed.
  Lemma top_source : forall n, top_lemma doc (dec_N n) -> ~ In n (map snd (effective links)).
  Proof. intros n T I. apply in_map_iff in I as ([s e] & E & I). cbn [snd] in E. subst e. apply eff_doc in I as (k & K & _ & To). exact (T k K To). Qed.
  (** a form of the source is a form of a lexeme of the document *)
  Lemma src_doc_lexeme : forall n l, In (n, l) src -> l <> [] ->
    exists forms, document_lexeme doc (dec_N n) forms /\ Forall2 (fun wt tg => fst wt = u_lower U (fst tg) /\ split_tag (snd wt) = snd tg) l forms.
  Proof.
    intros n l I NL. pose proof I as I0. apply (lexeme_src _ _ _ _ _ _ HS (keys_nodup _ _ _ _ FL HP)) in I. destruct (document_sound _ _ _ _ FL HP) as (_ & _ & _ & LX & _). apply LX in I as (e & LL & Id & F).
    destruct F as [(_ & E)|(_ & le & base & L & B & [(f & _ & _ & E)|(NN & F)])]; [congruence|congruence|].
    assert (Q : exists forms, Forall2 (fun f tg => x_get (u "t") f = Some (fst tg) /\ exists own, grammemes_of f own /\ snd tg = base ++ own) (x_iter (u "f") e) forms).
    { clear - F. induction F as [|f [w t] fl l (tx & gs & T & G & _) F (forms & IH)]; [exists []; constructor|]. exists ((tx, base ++ gs) :: forms). constructor; [|exact IH]. cbn [fst snd]. split; [exact T|]. exists gs. auto. }
    destruct Q as (forms & Q). assert (DL : document_lexeme doc (dec_N n) forms) by (exists e, le, base; auto 8).
    assert (NE : forms <> []). { intros ->. inversion Q as [E0|]. rewrite <- E0 in F. inversion F. congruence. }
    exists forms. split; [exact DL|]. destruct (doc_lexeme_src _ _ DL NE) as (n' & l' & En & I' & F'). apply dec_N_inj in En. subst n'.
    assert (l' = l) as ->; [|exact F']. apply (lexeme_src _ _ _ _ _ _ HS (keys_nodup _ _ _ _ FL HP)) in I0, I'. congruence.
  Qed.
  Lemma prep_same : forall n l w t, In (n, l) src -> In (w, t) l -> same_grammemes (split_tag (simplify_tag reps t)) (split_tag t).
  Proof.
    intros n l w t I J. apply simplify_tag_ok; [intros y Iy; apply itertag_src in Iy as (i & l0 & w0 & A & C); eapply (src_short U lxml doc P src links rows); eauto|].
    apply in_flat_map. exists (n, l). split; [auto|]. apply in_map_iff. exists (w, t). auto.
  Qed.
End Conv.
Lemma Forall2_In_r : forall {A B} (R : A -> B -> Prop) l m b, Forall2 R l m -> In b m -> exists a, In a l /\ R a b.
Proof. intros A B R l m b F. induction F as [|x y l m H F IH]; intros I; [destruct I|]. destruct I as [->|I]; [exists x; split; [left; auto|auto]|]. destruct (IH I) as (a & J & K). exists a. split; [right; auto|auto]. Qed.
Lemma Forall2_In_l : forall {A B} (R : A -> B -> Prop) l m a, Forall2 R l m -> In a l -> exists b, In b m /\ R a b.
Proof. intros A B R l m a F. induction F as [|x y l m H F IH]; intros I; [destruct I|]. destruct I as [->|I]; [exists y; split; [left; auto|auto]|]. destruct (IH I) as (b & J & K). exists b. split; [right; auto|auto]. Qed.

(** ** the analyzer's lexeme *)
Lemma dict_fam_tags : forall M p w k i b t0 us fam f, m_units M = (b, t0) :: us -> b_cfg b = UDict -> p_stack p = [MDict (Root 0) w k i] ->
  get_lexeme M p = Ok fam -> In f fam -> In (p_tag f) (d_gramtab (m_dict M)).
Proof.
  intros M p w k i b t0 us fam f Eu Eb Es G I. rewrite (get_lexeme_dict M p w k i b t0 us Eu Eb Es) in G. unfold dict_lexeme in G. apply bind_ok in G as ([[w' para] idx] & _ & H).
  apply bind_ok in H as (pp & _ & H). apply bind_ok in H as (stem & _ & H). apply bind_ok in H as (infos & E & H). apply Ok_inj in H. subst fam.
  apply in_map_iff in I as ([index [[pre t] suf]] & <- & I). cbn [p_tag]. apply enum_In in I. apply nth_error_In in I. unfold build_paradigm_info in E. apply bind_ok in E as (pp' & _ & E).
  destruct (mapM_In _ _ _ _ E I) as (idx' & _ & Q). repeat (apply bind_ok in Q as (? & ? & Q)). apply Ok_inj in Q. injection Q as -> -> ->.
  match goal with H : build_tag_info _ _ _ = Ok t |- _ => unfold build_tag_info in H; apply bind_ok in H as (p3 & _ & H); apply bind_ok in H as (tid & _ & H); eapply L_Source.nth_res_In; exact H end.
Qed.
Lemma source_fam0 : forall n o src links lxs x M word ps lx i w t,
  join_lexemes src links = Ok lxs -> compile_parsed_dict o src links = Ok x -> loaded x (m_dict M) ->
  (forall tg, In tg (d_gramtab (m_dict M)) -> t_gr tg = split_tag (t_str tg)) ->
  ordinary M word -> m_prob M = None -> In lx lxs -> nth_error lx i = Some (w, t) -> u_lower (m_uni M) word = w -> parse_f n M word = Ok ps ->
  exists p nf tnf fam, In p ps /\ p_word p = w /\ t_gr (p_tag p) = split_tag t /\ nth_error lx 0 = Some (nf, tnf) /\ p_nf p = nf /\
    get_lexeme M p = Ok fam /\ map (fun f => (p_word f, t_str (p_tag f))) fam = lx /\ forall f, In f fam -> t_gr (p_tag f) = split_tag (t_str (p_tag f)).
Proof.
  intros n o src links lxs x M word ps lx i w t J HC LX TG O NP Il Ni EW PR.
  destruct (parsed_wf _ _ _ _ _ _ J HC LX) as (W & Cn & _).
  assert (KN : in_dictionary M (u_lower (m_uni M) word)) by (rewrite EW; eapply in_dictionary_source; eauto using parsed_inv).
  assert (DR : dictionary_readings M (u_lower (m_uni M) word) ps).
  { destruct O as [(HU & NI)|(HU & NI & NR & NL)]; [eapply ru_dictionary_word; eauto|eapply uk_dictionary_word; eauto]. }
  assert (X : exists p nf tnf fam, In p ps /\ p_word p = w /\ t_str (p_tag p) = t /\ nth_error lx 0 = Some (nf, tnf) /\ p_nf p = nf /\
    get_lexeme M p = Ok fam /\ map (fun f => (p_word f, t_str (p_tag f))) fam = lx).
  { destruct O as [(HU & NI)|(HU & NI & NR & NL)]; [eapply ru_parsed; eauto|eapply uk_parsed; eauto]. }
  destruct X as (p & nf & tnf & fam & Ip & Ew & Et & N0 & En & G & Mp).
  destruct (proj2 DR p Ip) as (k & j & pre & sf & Sk & _). destruct (ordinary_head M word O) as (b & t0 & us & Eu & Eb).
  exists p, nf, tnf, fam. split; [exact Ip|]. split; [exact Ew|]. split; [rewrite (TG _ (reading_tag _ _ _ _ DR Ip)), Et; reflexivity|]. split; [exact N0|]. split; [exact En|]. split; [exact G|]. split; [exact Mp|].
  intros f If. apply TG. eapply dict_fam_tags; eauto.
Qed.
Lemma fam_lexeme : forall U fam lx forms, map (fun f => (p_word f, t_str (p_tag f))) fam = lx -> (forall f, In f fam -> t_gr (p_tag f) = split_tag (t_str (p_tag f))) ->
  Forall2 (fun wt tg => fst wt = u_lower U (fst tg) /\ same_grammemes (split_tag (snd wt)) (snd tg)) lx forms -> is_lexeme U fam forms.
Proof.
  intros U fam lx forms Mp TF F. rewrite <- Mp in F. clear - F TF. unfold is_lexeme. revert forms F. induction fam as [|f fam IH]; intros forms F; inversion F as [|? tg ? forms' (A & B) F']; subst; constructor.
  - cbn [fst snd] in *. split; [exact A|]. rewrite (TF f (or_introl eq_refl)). exact B.
  - apply IH; [intros g Ig; apply TF; right; auto|exact F'].
Qed.
Lemma analyzer_facts : forall io big al ex ow U lxml doc P src links rows o x info d C W path result ws C' z,
  flat doc -> parse_xml U lxml doc = Ok P -> source_of P = Some (src, links, rows) ->
  u_space U (chr " ") = true -> u_space U (chr ",") = false -> plain_grammemes U doc -> declared doc rows ->
  links_exist src (effective links) -> acyclic (effective links) ->
  compile_parsed_dict o (prepared src) links = Ok x ->
  io_read_words io (io_words io (x_words x)) = Ok (x_words x) -> (forall p, In p (x_pred x) -> io_read_pred io (io_pred io p) = Ok p) ->
  ex = false \/ ow = true -> snd (convert io big al ex ow (Ok (src, links, rows)) o info) = Ok tt ->
  w_io W = io -> w_big W = big -> w_uni W = U -> w_folder W path = frun (fst (convert io big al ex ow (Ok (src, links, rows)) o info)) d ->
  create W C (MkArgs (Some path) None result None EstAuto SubAuto) = (ws, C', Ok z) ->
  m_uni (z_morph z) = U /\ loaded x (m_dict (z_morph z)) /\ m_prob (z_morph z) = None /\
  (forall tg, In tg (d_gramtab (m_dict (z_morph z))) -> t_gr tg = split_tag (t_str tg)) /\
  forall word, ordinary_word U (si_lang info) word -> ordinary (z_morph z) word.
Proof.
  intros io big al ex ow U lxml doc P src links rows o x info d C W path result ws C' z FL HP HS S1 S2 PG DE LE AC HC IW IP EX SV <- <- <- WF CZ.
  destruct (converted (w_io W) (w_big W) al ex ow (w_uni W) lxml doc P src links rows o x info d C FL HP HS S1 S2 PG DE LE AC HC IW IP EX SV) as (l & D & LD & DD & LX & _ & _).
  rewrite <- WF in LD.
  assert (EM : ld_meta l = save_meta x info).
  { assert (CR : create_out_path ex ow = true) by (destruct EX as [-> | ->]; [reflexivity|destruct ex; reflexivity]).
    assert (CV : convert (w_io W) (w_big W) al ex ow (Ok (src, links, rows)) o info = save_compiled_dict (w_io W) (w_big W) al rows x info) by (unfold convert; rewrite CR, HC; auto).
    rewrite CV in *.
    destruct (L_ExS.complete_save (w_io W) (w_big W) al rows x info d C o (prepared src) links HC SV IW IP) as (l' & D' & LD' & M' & _).
    { exact (gramtab_declared _ _ _ _ _ _ _ FL HP HS S1 S2 PG LE AC _ _ HC DE). }
    rewrite <- WF, LD in LD'. injection LD' as <-. exact M'. }
  apply create_ok in CZ as (p' & l' & C1 & CZ).
  assert (p' = path) as ->. { pose proof (cr_picks _ _ _ _ _ _ _ _ _ CZ) as Pk. pose proof (picks_path W (MkArgs (Some path) None result None EstAuto SubAuto) path eq_refl) as Pk'. apply picks_iff in Pk, Pk'. rewrite Pk in Pk'. apply Ok_inj in Pk'. exact Pk'. }
  pose proof (cr_load _ _ _ _ _ _ _ _ _ CZ) as LD2. rewrite LD in LD2. injection LD2 as EC El. subst l'.
  assert (ED : m_dict (z_morph z) = D) by (pose proof (cr_dict _ _ _ _ _ _ _ _ _ CZ) as DD2; rewrite DD in DD2; apply Ok_inj in DD2; auto).
  destruct (cr_rest _ _ _ _ _ _ _ _ _ CZ) as (EU & _).
  set (lang := si_lang info). assert (ML : meta_get (u "language_code") (ld_meta l) = jopt lang) by (rewrite EM; reflexivity).
  assert (ZL : z_lang z = spoken lang).
  { rewrite (cr_lang _ _ _ _ _ _ _ _ _ CZ), ML. change (requested _) with (@None str). unfold spoken. destruct lang; reflexivity. }
  destruct (config_ok W lang) as [CF _].
  assert (ZU : z_units z = default_units lang).
  { pose proof (cr_units _ _ _ _ _ _ _ _ _ CZ) as Q. rewrite ZL in Q. unfold unit_choice in Q. cbn [a_units] in Q. destruct (lang_default_config W (spoken lang)) as [w c]. cbn [snd] in *. rewrite CF in Q. cbn in Q. apply Ok_inj in Q. symmetry. exact Q. }
  assert (NP : m_prob (z_morph z) = None).
  { pose proof (cr_prob _ _ _ _ _ _ _ _ _ CZ) as Q. rewrite EM in Q. cbn in Q. apply Ok_inj in Q. auto. }
  assert (HU : has_units (z_morph z) (default_units lang)) by (rewrite <- ZU; exists C1, C'; exact (cr_init _ _ _ _ _ _ _ _ _ CZ)).
  pose proof (loaded_tags _ _ _ _ _ _ _ LD DD) as TG.
  split; [exact EU|]. split; [rewrite ED; exact LX|]. split; [exact NP|]. split; [rewrite ED; exact TG|]. intros word (NR & NU).
  destruct (list_eq_dec N.eq_dec (match lang with Some q => q | None => [] end) (u "uk")) as [E|E].
    - assert (EL : lang = Some (u "uk")) by (destruct lang as [q|]; [f_equal; exact E|discriminate E]). right. rewrite EU. destruct (NU EL) as (N1 & N2 & N3).
      assert (EU' : default_units lang = UK_DEFAULT_UNITS) by (rewrite EL; reflexivity). rewrite EU' in HU. auto.
    - assert (EL : lang <> Some (u "uk")) by (intros H; apply E; rewrite H; reflexivity). left. split; [|exact (NR EL)].
      assert (EU' : default_units lang = RU_DEFAULT_UNITS). { unfold default_units. destruct lang as [q|]; [|reflexivity]. destruct (str_eqb q (u "uk")) eqn:Q; [|reflexivity]. apply str_eqb_eq in Q. subst q. congruence. }
      rewrite EU' in HU. exact HU.
Qed.

Section Whole.
  Variables (io : dawgio) (big : bool) (al : list (str * str)) (ex ow : bool) (U : uni) (lxml : bool) (doc : xelem) (P : parsed) (src : lexemes) (links : list link) (rows : list grow)
    (o : coptions) (x : compiled) (info : saveinfo) (d : folder) (C : tagclass) (W : world) (path : str) (result : option str) (ws : list warning) (C' : tagclass) (z : analyzer).
  Hypotheses (FL : flat doc) (HP : parse_xml U lxml doc = Ok P) (HS : source_of P = Some (src, links, rows))
    (S1 : u_space U (chr " ") = true) (S2 : u_space U (chr ",") = false) (PG : plain_grammemes U doc) (DE : declared doc rows)
    (LE : links_exist src (effective links)) (AC : acyclic (effective links))
    (HC : compile_parsed_dict o (prepared src) links = Ok x)
    (IW : io_read_words io (io_words io (x_words x)) = Ok (x_words x)) (IP : forall p, In p (x_pred x) -> io_read_pred io (io_pred io p) = Ok p)
    (EX : ex = false \/ ow = true) (SV : snd (convert io big al ex ow (Ok (src, links, rows)) o info) = Ok tt)
    (WI : w_io W = io) (WB : w_big W = big) (WU : w_uni W = U) (WF : w_folder W path = frun (fst (convert io big al ex ow (Ok (src, links, rows)) o info)) d)
    (CZ : create W C (MkArgs (Some path) None result None EstAuto SubAuto) = (ws, C', Ok z)).

  Lemma whole_lexeme : forall id forms i text gs word ps, document_lexeme doc id forms -> unlinked doc id -> (forall tg, In tg forms -> ~ In (u "Init") (snd tg)) ->
    nth_error forms i = Some (text, gs) -> u_lower U word = u_lower U text -> ordinary_word U (si_lang info) word ->
    morph_parse (z_morph z) word = Ok ps ->
    exists p fam, In p ps /\ is_form U p (text, gs) /\ option_map (fun tg => u_lower U (fst tg)) (nth_error forms 0) = Some (p_nf p) /\
      get_lexeme (z_morph z) p = Ok fam /\ is_lexeme U fam forms.
  Proof.
    intros id forms i text gs word ps DL UL NI Ni EW GW PR.
    destruct (analyzer_facts _ _ _ _ _ _ _ _ _ _ _ _ _ _ _ _ _ _ _ _ _ _ _ FL HP HS S1 S2 PG DE LE AC HC IW IP EX SV WI WB WU WF CZ) as (EU & LX & NP & TG & OR).
    specialize (OR word GW).
    assert (NE : forms <> []) by (intros ->; destruct i; discriminate Ni).
    destruct (doc_lexeme_src _ _ _ _ _ _ _ FL HP HS S1 S2 PG id forms DL NE) as (n & l0 & -> & Isrc & F0).
    destruct (prepared_lexeme _ _ _ _ _ _ _ FL HP HS S1 S2 PG n l0 forms Isrc F0 NI) as (lx & Ilx & F).
    destruct (joined _ _ _ _ _ _ _ FL HP HS LE AC) as (lxs & Jn & _).
    assert (NL : lx <> []) by (intros ->; inversion F; congruence).
    assert (IL : In lx lxs).
    { eapply (join_unlinked (prepared src) links lxs n lx); [|exact (unlinked_source _ _ _ _ _ _ _ FL HP HS n UL)|exact Ilx|exact NL|exact Jn].
      rewrite prepared_ids. eapply src_nodup; [exact HS|]. exact (keys_nodup _ _ _ _ FL HP). }
    assert (exists w t, nth_error lx i = Some (w, t) /\ w = u_lower U text /\ same_grammemes (split_tag t) gs) as (w & t & Nlx & Ew & Sg).
    { clear - F Ni. revert i Ni. induction F as [|[w t] tg lx forms (A & B) F IH]; intros [|i] Ni; try discriminate Ni.
      - injection Ni as ->. exists w, t. split; [reflexivity|]. split; [exact A|exact B].
      - exact (IH i Ni). }
    destruct (source_fam0 (fuel_for (z_morph z) word) o _ _ lxs x (z_morph z) word ps lx i w t Jn HC LX TG OR NP IL Nlx) as (p & nf & tnf & fam & Ip & Pw & Pt & N0 & En & G & Mp & TF); [rewrite EU, Ew; exact EW|exact PR|].
    exists p, fam. split; [exact Ip|]. split; [split; cbn [fst snd]; [congruence|rewrite Pt; exact Sg]|]. split; [|split; [exact G|exact (fam_lexeme U fam lx forms Mp TF F)]].
    destruct (Forall2_nth _ _ _ F 0 _ N0) as (tg0 & Ntg0 & A0 & _). rewrite Ntg0. cbn [option_map fst] in *. congruence.
  Qed.

  Lemma whole_linked : forall top forms0 id forms tg word ps,
    linked_once doc -> top_lemma doc top -> document_lexeme doc top forms0 -> forms0 <> [] -> (forall tg, In tg forms0 -> ~ In (u "Init") (snd tg)) ->
    leads doc top id -> document_lexeme doc id forms -> In tg forms -> ~ In (u "Init") (snd tg) ->
    u_lower U word = u_lower U (fst tg) -> ordinary_word U (si_lang info) word -> morph_parse (z_morph z) word = Ok ps ->
    exists p fam0 rest, In p ps /\ is_form U p tg /\ option_map (fun tg => u_lower U (fst tg)) (nth_error forms0 0) = Some (p_nf p) /\
      get_lexeme (z_morph z) p = Ok (fam0 ++ rest) /\ is_lexeme U fam0 forms0 /\
      (forall id' forms' tg', leads doc top id' -> document_lexeme doc id' forms' -> In tg' forms' -> ~ In (u "Init") (snd tg') -> exists f, In f (fam0 ++ rest) /\ is_form U f tg') /\
      (forall f, In f (fam0 ++ rest) -> exists id' forms' tg', leads doc top id' /\ document_lexeme doc id' forms' /\ In tg' forms' /\ is_form U f tg').
  Proof.
    intros top forms0 id forms tg word ps LO TP DT NE0 NI0 LD DL Itg NI EW GW PR.
    destruct (analyzer_facts _ _ _ _ _ _ _ _ _ _ _ _ _ _ _ _ _ _ _ _ _ _ _ FL HP HS S1 S2 PG DE LE AC HC IW IP EX SV WI WB WU WF CZ) as (EU & LX & NP & TG & OR).
    specialize (OR word GW).
    assert (NDs : NoDup (map fst src)) by (eapply src_nodup; [exact HS|exact (keys_nodup _ _ _ _ FL HP)]).
    assert (NDp : NoDup (map fst (prepared src))) by (rewrite prepared_ids; exact NDs).
    destruct (join_owner (prepared src) links) as (own & lxs & roots & Jn & TO & _ & RT & FG).
    { exact NDp. } { intros s e I. rewrite prepared_ids. apply LE. exact I. } { exact AC. } { exact (once_source _ _ _ _ _ _ _ FL HP HS LO). }
    destruct (doc_lexeme_src _ _ _ _ _ _ _ FL HP HS S1 S2 PG top forms0 DT NE0) as (n0 & l0 & -> & Isrc0 & F00).
    destruct (prepared_lexeme _ _ _ _ _ _ _ FL HP HS S1 S2 PG n0 l0 forms0 Isrc0 F00 NI0) as (lx0 & Ilx0 & F0).
    assert (O0 : own n0 = n0) by (apply (proj2 TO); exact (top_source _ _ _ _ _ _ _ FL HP HS n0 TP)).
    assert (IG : forall a la wt, In (a, la) (prepared src) -> own a = n0 -> In wt la -> In wt (group (prepared src) own n0)).
    { intros a la wt Ia Oa Iw. unfold group. apply in_concat. exists la. split; [|exact Iw]. apply in_map_iff. exists (a, la). split; [reflexivity|]. apply filter_In. split; [exact Ia|]. cbn [fst]. rewrite Oa. apply N.eqb_refl. }
    (* every form of a lemma the top leads to *)
    assert (ALL : forall id' forms' tg', leads doc (dec_N n0) id' -> document_lexeme doc id' forms' -> In tg' forms' -> ~ In (u "Init") (snd tg') ->
              exists wt, In wt (group (prepared src) own n0) /\ fst wt = u_lower U (fst tg') /\ same_grammemes (split_tag (snd wt)) (snd tg')).
    { intros id' forms' tg' LD' DL' I' NI'. assert (NE' : forms' <> []) by (intros ->; destruct I').
      destruct (doc_lexeme_src _ _ _ _ _ _ _ FL HP HS S1 S2 PG id' forms' DL' NE') as (n' & l' & -> & Isrc' & F').
      destruct (Forall2_In_r _ _ _ _ F' I') as ([w t] & Iw & A & B). cbn [fst snd] in *.
      destruct (prepared_has _ _ _ _ _ _ _ FL HP HS S1 S2 PG n' l' w t Isrc' Iw) as (l2 & I2 & J2 & SG2); [rewrite B; exact NI'|].
      eexists. split; [eapply (IG n' l2); [exact I2|rewrite (leads_own _ _ _ _ _ _ _ FL HP HS own n0 TO _ LD' n' eq_refl); exact O0|exact J2]|]. cbn [fst snd]. split; [exact A|]. rewrite <- B. exact SG2. }
    destruct (ALL id forms tg LD DL Itg NI) as ([w t] & Iwt & Ew & Sg). cbn [fst snd] in Ew, Sg.
    assert (IR : In n0 roots).
    { apply RT. split; [rewrite prepared_ids; apply in_map_iff; exists (n0, l0); auto|]. split; [exact O0|]. intros E. rewrite E in Iwt. destruct Iwt. }
    destruct (Forall2_In_l _ _ _ _ FG IR) as (lx & IL & PM & r & El).
    assert (FO : forms_of (prepared src) n0 = lx0) by (unfold forms_of, nget; rewrite (In_dget N.eqb Neqb_eq _ _ _ NDp Ilx0); reflexivity).
    rewrite FO in El.
    assert (Ilx : In (w, t) lx) by (apply (Permutation_in _ (Permutation_sym PM)); exact Iwt).
    apply In_nth_error in Ilx as (i & Nlx).
    destruct (source_fam0 (fuel_for (z_morph z) word) o _ _ lxs x (z_morph z) word ps lx i w t Jn HC LX TG OR NP IL Nlx) as (p & nf & tnf & fam & Ip & Pw & Pt & N0 & En & G & Mp & TF); [rewrite EU, Ew; exact EW|exact PR|].
    rewrite El in Mp. apply map_eq_app in Mp as (fam0 & rest & -> & M0 & M1).
    exists p, fam0, rest. split; [exact Ip|]. split; [split; cbn [fst snd]; [congruence|rewrite Pt; exact Sg]|]. split; [|split; [exact G|split; [|split]]].
    - destruct lx0 as [|wt0 lx0]; [inversion F0; congruence|]. rewrite El in N0. cbn [app nth_error] in N0. injection N0 as ->. inversion F0 as [|? tg0 ? forms0' (A0 & _)]; subst. cbn [nth_error option_map fst] in *. congruence.
    - apply (fam_lexeme U fam0 lx0 forms0 M0); [intros f If; apply TF; apply in_or_app; auto|exact F0].
    - intros id' forms' tg' LD' DL' I' NI'. destruct (ALL id' forms' tg' LD' DL' I' NI') as ([w' t'] & Iw' & A & B). cbn [fst snd] in *.
      apply (Permutation_in _ (Permutation_sym PM)) in Iw'. rewrite El, <- M0, <- M1, <- map_app in Iw'. apply in_map_iff in Iw' as (f & Ef & If). injection Ef as E1 E2. exists f. split; [exact If|]. split; [congruence|]. rewrite (TF f If), E2. exact B.
    - intros f If. assert (Iw : In (p_word f, t_str (p_tag f)) (group (prepared src) own n0)).
      { apply (Permutation_in _ PM). rewrite El, <- M0, <- M1, <- map_app. apply in_map_iff. exists f. auto. }
      unfold group in Iw. apply in_concat in Iw as (la & Ila & Iw). apply in_map_iff in Ila as ([a la'] & E & Ila). cbn [snd] in E. subst la'. apply filter_In in Ila as (Ila & Oa). cbn [fst] in Oa. apply N.eqb_eq in Oa.
      destruct (prepared_In _ _ _ _ _ Ila Iw) as (l1 & t1 & I1 & J1 & Et).
      destruct (src_doc_lexeme _ _ _ _ _ _ _ FL HP HS S1 S2 PG a l1 I1) as (forms' & DL' & F'); [intros ->; destruct J1|].
      destruct (Forall2_In_l _ _ _ _ F' J1) as (tg' & I' & A & B). cbn [fst snd] in *.
      exists (dec_N a), forms', tg'. split; [exact (own_leads _ _ _ _ _ _ _ FL HP HS own n0 AC TO a Oa)|]. split; [exact DL'|]. split; [exact I'|]. split; [exact A|]. rewrite (TF f If), Et, <- B.
      exact (prep_same _ _ _ _ _ _ _ FL HP HS S1 S2 PG a l1 (p_word f) t1 I1 J1).
  Qed.
End Whole.
