(** * Lemmas for C76, C77 *)
From Coq Require Import String List NArith ZArith QArith Bool Lia Permutation.
From Verif Require Import Py Uni Tagset Dawg Utils Shapes Dict Units Analyzer ConfigRu ConfigUk Compile Preprocess Spec Spec2 Spec3 Spec26.
From Verif Require Import L_Base L_Para L_Text L_Groups L_Lexeme L_Compile L_Compile2 L_Compile3 L_Compile4 L_Prob L_EndToEnd L_Units L_ExC.
Import ListNotations.
Local Open Scope nat_scope.
Local Open Scope list_scope.

(** every stored entry belongs to a source lexeme, which is also the lexeme the dictionary reports for it *)
Lemma content_entry : forall D lxs ks, Content D lxs ks -> forall w k i, stored D w k i ->
  exists lx t, In lx lxs /\ nth_error lx i = Some (w, t) /\
  exists tg nf tnf, t_str tg = t /\ nth_error lx 0 = Some (nf, tnf) /\ build_tag_info D k i = Ok tg /\ build_normal_form D k i w = Ok nf /\
  forall M self sc nf', m_dict M = D -> exists fam, dict_lexeme M self (MkParse w tg nf' sc [MDict self w k i]) = Ok fam /\
    map (fun f => (p_word f, t_str (p_tag f))) fam = lx.
Proof.
  intros D lxs ks C w k i S. apply (ct_stored _ _ _ C) in S as (j & lx & t & N1 & N2 & N).
  destruct (Forall2_nth _ _ _ (ct_desc _ _ _ C) j _ N1) as (k' & Nk & De). rewrite N2 in Nk. injection Nk as <-.
  exists lx, t. split; [eapply nth_error_In; eauto|]. split; [exact N|].
  destruct (describes_row _ _ _ _ _ _ De N) as (stem & pre & tg & sf & pre0 & tg0 & sf0 & nf & t0 & N0 & R & R0 & T & T0 & E & E0).
  exists tg, nf, t0. split; [auto|]. split; [auto|]. split; [eapply para_row_tag; eauto|]. split.
  - subst w nf. eapply row_nf_app; eauto.
  - intros M self sc nf' EM. destruct (describes_info _ _ _ De) as (stem' & rows & Er & Em & Rr).
    destruct (Rr i w t N) as (pre' & tg' & sf' & R' & T' & E'). destruct (para_row_fun _ _ _ _ _ _ _ _ _ R R') as (<- & <- & <-).
    unfold dict_lexeme. cbn [p_stack p_word p_nf extract_para_info]. assert (SR : uref_eqb self self = true) by (destruct self; simpl; apply Nat.eqb_refl). rewrite SR. cbn [bind].
    rewrite EM. pose proof R as (p & _ & _ & _ & A1 & _). rewrite (proj2 (nth_res_ok _ _ _) A1). cbn [bind].
    rewrite (row_stem _ _ _ _ _ _ _ _ R A1), E', middle_app. cbn [bind]. rewrite Er. cbn [bind]. eexists. split; [reflexivity|].
    rewrite map_map. rewrite <- Em. rewrite <- (enum_snd rows) at 2. rewrite map_map. apply map_ext. intros [idx [[q tg1] s1]]. reflexivity.
Qed.
Lemma get_lexeme_dict : forall M p w k i b t0 us, m_units M = (b, t0) :: us -> b_cfg b = UDict -> p_stack p = [MDict (Root 0) w k i] -> get_lexeme M p = dict_lexeme M (Root 0) p.
Proof.
  intros M p w k i b t0 us Eu Eb E. unfold get_lexeme. rewrite E. cbn [last_unit last_opt m_unit bind].
  assert (N1 : nth_error (m_units M) 0 = Some (b, t0)) by (rewrite Eu; reflexivity).
  assert (X : forall n q, lexeme_f (S n) M (Root 0) q = dict_lexeme M (Root 0) q) by (intros n q; cbn [lexeme_f]; unfold nth_res; rewrite N1; cbn [bind fst]; rewrite Eb; reflexivity).
  apply X.
Qed.
(** the readings, whatever their scores *)
Lemma readings_exact : forall D lxs ks M lower found ps, Content D lxs ks -> m_dict M = D ->
  (exists b t0 us, m_units M = (b, t0) :: us /\ b_cfg b = UDict) ->
  dictionary_readings M lower found -> Permutation (map reading found) (map reading ps) ->
  (forall p, In p ps -> exists fam, get_lexeme M p = Ok fam) /\ forall a, shows M ps a <-> says lxs (m_subst M) lower a.
Proof.
  intros D lxs ks M lower found ps Ct ED (b & t0 & us & Eu & Eb) [(sp & S1 & _ & S3) R] P.
  (* one parse *)
  assert (One : forall p, In p ps -> exists k i lx t nf tnf fam, subst_of (m_subst M) lower (p_word p) /\ stored D (p_word p) k i /\ In lx lxs /\ nth_error lx i = Some (p_word p, t) /\ t_str (p_tag p) = t /\
            nth_error lx 0 = Some (nf, tnf) /\ p_nf p = nf /\ get_lexeme M p = Ok fam /\ map (fun f => (p_word f, t_str (p_tag f))) fam = lx).
  { intros p Ip. assert (Iq : In (reading p) (map reading found)) by (eapply Permutation_in; [symmetry; exact P|]; apply in_map; exact Ip).
    apply in_map_iff in Iq as (q & Eq & Iq). destruct (R q Iq) as (k & i & pre & sf & Q1 & _ & Q3 & Q4). unfold reading in Eq. injection Eq as E1 E2 E3 E4.
    assert (I : In (p_word q, [MDict (Root 0) (p_word q) k i]) (map (fun p => (p_word p, p_stack p)) found)) by (apply in_map_iff; exists q; rewrite Q1; auto).
    rewrite S3 in I. apply in_flat_map in I as (w & Iw & I). apply in_map_iff in I as ([k' i'] & E & I). cbn [fst snd] in E. injection E as Ew _ Ek Ei. subst w k' i'.
    rewrite ED in I. destruct (sget (p_word q) (d_words D)) as [vals|] eqn:G; [|destruct I].
    assert (St : stored D (p_word q) k i) by (exists vals; auto).
    destruct (content_entry _ _ _ Ct _ _ _ St) as (lx & t & Il & Nt & tg & nf & tnf & T & N0 & Tg & Nf & Lx).
    rewrite ED in Q3, Q4. assert (Et : p_tag q = tg) by (rewrite (para_row_tag _ _ _ _ _ _ Q3) in Tg; apply Ok_inj in Tg; auto).
    assert (En : p_nf q = nf).
    { destruct Q4 as (pr & tt & sff & pr0 & t0' & sf0 & stem & R1 & R0 & W1 & W2). rewrite W1 in Nf. rewrite (row_nf_app _ _ _ _ _ _ _ _ _ _ R1 R0) in Nf. apply Ok_inj in Nf. congruence. }
    destruct (Lx M (Root 0) (p_score p) nf ED) as (fam & L1 & L2).
    exists k, i, lx, t, nf, tnf, fam. rewrite <- E1. split; [apply S1; exact Iw|]. split; [exact St|]. split; [exact Il|]. split; [exact Nt|]. split; [rewrite <- E2, Et; exact T|]. split; [exact N0|].
    split; [rewrite <- E3; exact En|]. split; [|exact L2]. rewrite (get_lexeme_dict M p (p_word q) k i b t0 us Eu Eb); [|rewrite <- E4; exact Q1].
    replace p with (MkParse (p_word q) tg nf (p_score p) [MDict (Root 0) (p_word q) k i]); [exact L1|]. destruct p as [pw ptg pnf psc pst]. cbn [p_word p_tag p_nf p_score p_stack] in *. subst. rewrite Q1. reflexivity. }
  split; [intros p Ip; destruct (One p Ip) as (k & i & lx & t & nf & tnf & fam & _ & _ & _ & _ & _ & _ & _ & G & _); exists fam; exact G|].
  intros a. split.
  - intros (p & fam & Ip & G & ->). destruct (One p Ip) as (k & i & lx & t & nf & tnf & fam' & Sb & St & Il & Nt & T & N0 & En & G' & L2). rewrite G in G'. apply Ok_inj in G'. subst fam'.
    exists lx, i, (p_word p), t, nf, tnf. rewrite L2, T, En. repeat split; assumption.
  - intros (lx & i & w & t & nf & tnf & -> & Il & Nt & N0 & Sb).
    destruct (content_forms _ _ _ Ct lx Il) as (k & F). destruct (F i w t Nt) as ((vals & G & Iv) & tg & nf' & tnf' & T & N0' & Tg & Nf & Lx). rewrite N0 in N0'. injection N0' as <- <-.
    assert (I : In (w, [MDict (Root 0) w k i]) (map (fun p => (p_word p, p_stack p)) found)).
    { rewrite S3. apply in_flat_map. exists w. split; [apply S1; exact Sb|]. rewrite ED, G. apply in_map_iff. exists (k, i). auto. }
    apply in_map_iff in I as (q & E & Iq). injection E as E1 E2. destruct (R q Iq) as (para & idx & pre & sf & Q1 & Q2 & Q3 & Q4). rewrite E2 in Q1. injection Q1 as _ Q5 Q6. subst para idx.
    rewrite ED in Q3, Q4. assert (Et : p_tag q = tg) by (rewrite (para_row_tag _ _ _ _ _ _ Q3) in Tg; apply Ok_inj in Tg; auto).
    assert (En : p_nf q = nf).
    { destruct Q4 as (pr & tt & sff & pr0 & t0' & sf0 & stem & R1 & R0 & W1 & W2). rewrite E1 in W1. rewrite W1 in Nf. rewrite (row_nf_app _ _ _ _ _ _ _ _ _ _ R1 R0) in Nf. apply Ok_inj in Nf. congruence. }
    assert (Ip : In (reading q) (map reading ps)) by (eapply Permutation_in; [exact P|]; apply in_map; exact Iq).
    apply in_map_iff in Ip as (p & Ep & Ip). unfold reading in Ep. injection Ep as P1 P2 P3 P4.
    destruct (Lx M (Root 0) (p_score p) nf ED) as (fam & L1 & L2). exists p, fam. split; [exact Ip|]. split.
    + rewrite (get_lexeme_dict M p w k i b t0 us Eu Eb); [|rewrite P4; exact E2].
      replace p with (MkParse w tg nf (p_score p) [MDict (Root 0) w k i]); [exact L1|]. destruct p as [pw ptg pnf psc pst]. cbn [p_word p_tag p_nf p_score p_stack] in *. subst. rewrite E2. reflexivity.
    + rewrite L2, P1, P2, P3, Et, En, T, E1. reflexivity.
Qed.
Lemma ordinary_head : forall M word, ordinary M word -> exists b t0 us, m_units M = (b, t0) :: us /\ b_cfg b = UDict.
Proof.
  intros M word [(HU & _)|(HU & _)].
  - apply ru_head in HU as (b0 & b1 & b2 & us & Eu & H0 & _). eauto.
  - apply uk_head in HU as (b0 & b1 & b2 & b3 & b4 & us & Eu & H0 & _). eauto.
Qed.
Lemma known_source : forall o src links lxs x M lower, join_lexemes src links = Ok lxs -> compile_parsed_dict o src links = Ok x -> loaded x (m_dict M) ->
  (in_dictionary M lower <-> exists a, says lxs (m_subst M) lower a).
Proof.
  intros o src links lxs x M lower J H L. destruct (whole_content _ _ _ _ _ _ J H L) as (ks & Ct). split.
  - intros (w & vals & Sb & G & N). destruct vals as [|[k i] vals]; [contradiction (N eq_refl)|].
    assert (St : stored (m_dict M) w k i) by (exists ((k, i) :: vals); split; [exact G|left; reflexivity]).
    destruct (content_entry _ _ _ Ct _ _ _ St) as (lx & t & Il & Nt & tg & nf & tnf & T & N0 & _). exists (w, t, nf, lx). exists lx, i, w, t, nf, tnf. repeat split; assumption.
  - intros (a & lx & i & w & t & nf & tnf & _ & Il & Nt & _ & Sb). destruct (content_forms _ _ _ Ct lx Il) as (k & F). destruct (F i w t Nt) as ((vals & G & Iv) & _).
    exists w, vals. split; [exact Sb|]. split; [exact G|]. intros ->. destruct Iv.
Qed.
Lemma source_exact : forall n o src links lxs x M word ps, join_lexemes src links = Ok lxs -> compile_parsed_dict o src links = Ok x -> loaded x (m_dict M) ->
  ordinary M word -> (exists a, says lxs (m_subst M) (u_lower (m_uni M) word) a) -> parse_f n M word = Ok ps ->
  (forall p, In p ps -> exists fam, get_lexeme M p = Ok fam) /\ forall a, shows M ps a <-> says lxs (m_subst M) (u_lower (m_uni M) word) a.
Proof.
  intros n o src links lxs x M word ps J H L O A P. destruct (whole_content _ _ _ _ _ _ J H L) as (ks & Ct). destruct (parsed_wf _ _ _ _ _ _ J H L) as (W & Cn & _).
  apply (known_source _ _ _ _ _ _ _ J H L) in A.
  assert (X : exists found, dictionary_readings M (u_lower (m_uni M) word) found /\ Permutation (map reading found) (map reading ps)).
  { destruct (m_prob M) as [d|] eqn:E.
    - destruct (dictionary_word_prob n M d word ps O E W Cn A P) as (found & F1 & F2). exists found. split; [exact F1|]. exact (proj1 F2).
    - exists ps. split; [|reflexivity]. destruct O as [(HU & NI)|(HU & NI & NR & NL)].
      + eapply ru_dictionary_word; eauto.
      + eapply uk_dictionary_word; eauto. }
  destruct X as (found & F & Pm). exact (readings_exact _ _ _ M _ found ps Ct eq_refl (ordinary_head M word O) F Pm).
Qed.
Lemma source_indep : forall n1 n2 o1 src1 links1 lxs1 x1 M1 o2 src2 links2 lxs2 x2 M2,
  join_lexemes src1 links1 = Ok lxs1 -> compile_parsed_dict o1 src1 links1 = Ok x1 -> loaded x1 (m_dict M1) ->
  join_lexemes src2 links2 = Ok lxs2 -> compile_parsed_dict o2 src2 links2 = Ok x2 -> loaded x2 (m_dict M2) ->
  (forall lx, In lx lxs1 <-> In lx lxs2) -> m_subst M1 = m_subst M2 -> m_uni M1 = m_uni M2 ->
  forall word, word_is_known M1 word false = word_is_known M2 word false /\
  (word_is_known M1 word false = true -> ordinary M1 word -> ordinary M2 word -> forall ps1 ps2, parse_f n1 M1 word = Ok ps1 -> parse_f n2 M2 word = Ok ps2 ->
     forall a, shows M1 ps1 a <-> shows M2 ps2 a).
Proof.
  intros n1 n2 o1 src1 links1 lxs1 x1 M1 o2 src2 links2 lxs2 x2 M2 J1 H1 L1 J2 H2 L2 E Es Eu word.
  assert (S : forall a, says lxs1 (m_subst M1) (u_lower (m_uni M1) word) a <-> says lxs2 (m_subst M2) (u_lower (m_uni M2) word) a).
  { intros a. rewrite Es, Eu. unfold says. split; intros (lx & i & w & t & nf & tnf & Ea & Il & R); exists lx, i, w, t, nf, tnf; (split; [exact Ea|]); (split; [apply E; exact Il|exact R]). }
  destruct (parsed_wf _ _ _ _ _ _ J1 H1 L1) as (_ & _ & NE1 & _). destruct (parsed_wf _ _ _ _ _ _ J2 H2 L2) as (_ & _ & NE2 & _).
  pose proof (known_source _ _ _ _ _ _ (u_lower (m_uni M1) word) J1 H1 L1) as K1. pose proof (known_source _ _ _ _ _ _ (u_lower (m_uni M2) word) J2 H2 L2) as K2.
  split.
  - apply eq_true_iff_eq. rewrite (word_known_iff M1 word NE1), (word_known_iff M2 word NE2), K1, K2. split; intros (a & A); exists a; apply S; exact A.
  - intros K O1 O2 ps1 ps2 P1 P2 a. rewrite (word_known_iff M1 word NE1), K1 in K. assert (K' : exists a, says lxs2 (m_subst M2) (u_lower (m_uni M2) word) a) by (destruct K as (b & B); exists b; apply S; exact B).
    rewrite (proj2 (source_exact n1 o1 src1 links1 lxs1 x1 M1 word ps1 J1 H1 L1 O1 K P1) a), (proj2 (source_exact n2 o2 src2 links2 lxs2 x2 M2 word ps2 J2 H2 L2 O2 K' P2) a). apply S.
Qed.
(** re-parsing a form of a lexeme *)
Lemma reparse : forall n n' o src links lxs x M word ps w t nf lx j w' t' ps',
  join_lexemes src links = Ok lxs -> compile_parsed_dict o src links = Ok x -> loaded x (m_dict M) ->
  ordinary M word -> word_is_known M word false = true -> parse_f n M word = Ok ps -> shows M ps (w, t, nf, lx) ->
  nth_error lx j = Some (w', t') -> u_lower (m_uni M) w' = w' -> ordinary M w' -> parse_f n' M w' = Ok ps' -> shows M ps' (w', t', nf, lx).
Proof.
  intros n n' o src links lxs x M word ps w t nf lx j w' t' ps' J H L O K P Sh Nj Lo O' P'.
  destruct (parsed_wf _ _ _ _ _ _ J H L) as (_ & _ & NE & _). rewrite (word_known_iff M word NE), (known_source _ _ _ _ _ _ _ J H L) in K.
  apply (proj2 (source_exact n o src links lxs x M word ps J H L O K P)) in Sh. destruct Sh as (lx0 & i & w0 & t0 & nf0 & tnf & E & Il & Nt & N0 & Sb). injection E as E1 E2 E3 E4. subst w0 t0 nf0 lx0.
  assert (A : says lxs (m_subst M) (u_lower (m_uni M) w') (w', t', nf, lx)) by (exists lx, j, w', t', nf, tnf; rewrite Lo; repeat split; try assumption; apply subst_refl).
  apply (proj2 (source_exact n' o src links lxs x M w' ps' J H L O' (ex_intro _ _ A) P')). exact A.
Qed.
Lemma normal_fixed : forall n n' o src links lxs x M word ps p ps',
  join_lexemes src links = Ok lxs -> compile_parsed_dict o src links = Ok x -> loaded x (m_dict M) ->
  ordinary M word -> word_is_known M word false = true -> parse_f n M word = Ok ps -> In p ps ->
  u_lower (m_uni M) (p_nf p) = p_nf p -> ordinary M (p_nf p) -> parse_f n' M (p_nf p) = Ok ps' ->
  exists q fam fam', In q ps' /\ p_word q = p_nf p /\ p_nf q = p_nf p /\ get_lexeme M p = Ok fam /\ get_lexeme M q = Ok fam' /\
    map (fun f => (p_word f, t_str (p_tag f))) fam = map (fun f => (p_word f, t_str (p_tag f))) fam'.
Proof.
  intros n n' o src links lxs x M word ps p ps' J H L O K P Ip Lo O' P'.
  destruct (parsed_wf _ _ _ _ _ _ J H L) as (_ & _ & NE & _). pose proof K as K0. rewrite (word_known_iff M word NE), (known_source _ _ _ _ _ _ _ J H L) in K.
  destruct (source_exact n o src links lxs x M word ps J H L O K P) as (Tot & Ex). destruct (Tot p Ip) as (fam & G).
  assert (Sh : shows M ps (p_word p, t_str (p_tag p), p_nf p, map (fun f => (p_word f, t_str (p_tag f))) fam)) by (exists p, fam; auto).
  pose proof (proj1 (Ex _) Sh) as (lx0 & i & w0 & t0 & nf0 & tnf & E & Il & Nt & N0 & Sb). injection E as E1 E2 E3 E4. subst w0 t0 nf0 lx0.
  pose proof (reparse n n' o src links lxs x M word ps _ _ _ _ 0 _ _ ps' J H L O K0 P Sh N0 Lo O' P') as (q & fam' & Iq & G' & Eq). injection Eq as Q1 Q2 Q3 Q4.
  exists q, fam, fam'. repeat split; auto.
Qed.
