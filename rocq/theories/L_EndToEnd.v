(** * From source lexemes to parse results (C36) *)
From Coq Require Import String List NArith ZArith QArith Bool Lia.
From Verif Require Import Py Uni Tagset Dawg Utils Shapes Dict Units Analyzer ConfigRu ConfigUk Compile Spec Spec2 Spec3.
From Verif Require Import L_Base L_Para L_Text L_Groups L_Lexeme L_Compile L_Compile2 L_Compile3 L_Compile4.
Import ListNotations.
Local Open Scope nat_scope.
Local Open Scope list_scope.

Lemma subst_refl : forall r w, subst_of r w w. Proof. intros r w. induction w; constructor; auto. Qed.
(** the parse results are the dictionary readings of the spellings of [w]: each source form is among them *)
Lemma reading_of_form : forall o lxs x M lower ps lx i t,
  compile_lexemes o lxs = Ok x -> loaded x (m_dict M) -> dictionary_readings M lower ps -> In lx lxs -> nth_error lx i = Some (lower, t) ->
  (exists b t0 us, m_units M = (b, t0) :: us /\ b_cfg b = UDict) ->
  exists p nf tnf fam, In p ps /\ p_word p = lower /\ t_str (p_tag p) = t /\ nth_error lx 0 = Some (nf, tnf) /\ p_nf p = nf /\
    get_lexeme M p = Ok fam /\ map (fun f => (p_word f, t_str (p_tag f))) fam = lx.
Proof.
  intros o lxs x M lower ps lx i t Hc Hl [(sp & S1 & _ & S3) R] Il Ni (b & t0 & us & Eu & Eb).
  destruct (compile_lexemes_inv _ _ _ Hc) as (st & ks & C & _). pose proof (compiled_content _ _ _ _ _ _ C Hl) as Ct.
  destruct (content_forms _ _ _ Ct lx Il) as (k & F). destruct (F i lower t Ni) as ((vals & G & Iv) & tg & nf & tnf & T & N0 & Tg & Nf & Lx).
  assert (I : In (lower, [MDict (Root 0) lower k i]) (map (fun p => (p_word p, p_stack p)) ps)).
  { rewrite S3. apply in_flat_map. exists lower. split; [apply S1; apply subst_refl|]. rewrite G. apply in_map_iff. exists (k, i). auto. }
  apply in_map_iff in I as (p & E & Ip). injection E as E1 E2. destruct (R p Ip) as (para & idx & pre & sf & Q1 & Q2 & Q3 & Q4). rewrite E2 in Q1. injection Q1 as _ Q5 Q6. subst para idx.
  assert (Et : p_tag p = tg) by (rewrite (para_row_tag _ _ _ _ _ _ Q3) in Tg; apply Ok_inj in Tg; auto).
  assert (En : p_nf p = nf).
  { destruct Q4 as (pr & tt & sff & pr0 & t0' & sf0 & stem & R1 & R0 & W1 & W2). rewrite E1 in W1. rewrite W1 in Nf. rewrite (row_nf_app _ _ _ _ _ _ _ _ _ _ R1 R0) in Nf. apply Ok_inj in Nf. congruence. }
  destruct (Lx M (Root 0) (p_score p) nf eq_refl) as (fam & L1 & L2). exists p, nf, tnf, fam.
  split; [auto|]. split; [auto|]. split; [congruence|]. split; [auto|]. split; [auto|]. split; [|exact L2].
  destruct p as [pw ptg pnf psc pst]. cbn [p_word p_tag p_nf p_score p_stack] in *. subst. unfold get_lexeme. cbn [p_stack]. cbn [last_unit last_opt m_unit bind].
  assert (N1 : nth_error (m_units M) 0 = Some (b, t0)) by (rewrite Eu; reflexivity).
  assert (X : forall n q, lexeme_f (S n) M (Root 0) q = dict_lexeme M (Root 0) q) by (intros n q; cbn [lexeme_f]; unfold nth_res; rewrite N1; cbn [bind fst]; rewrite Eb; reflexivity).
  refine (eq_trans (X _ _) L1).
Qed.
Lemma in_dictionary_source : forall o lxs x M lower lx i t, compile_lexemes o lxs = Ok x -> loaded x (m_dict M) -> In lx lxs -> nth_error lx i = Some (lower, t) -> in_dictionary M lower.
Proof.
  intros o lxs x M lower lx i t Hc Hl Il Ni. destruct (compile_lexemes_inv _ _ _ Hc) as (st & ks & C & _). pose proof (compiled_content _ _ _ _ _ _ C Hl) as Ct.
  destruct (content_forms _ _ _ Ct lx Il) as (k & F). destruct (F i lower t Ni) as ((vals & G & Iv) & _). exists lower, vals. split; [apply subst_refl|]. split; auto. intros ->. destruct Iv.
Qed.
Lemma compiled_wf' : forall o lxs x D, compile_lexemes o lxs = Ok x -> loaded x D ->
  wf_dict D /\ consistent_dict D /\ no_empty_entry D /\ NoDup (map fst (d_words D)) /\ pred_counts_pos D /\ pred_consistent D.
Proof. intros o lxs x D Hc Hl. destruct (compile_lexemes_inv _ _ _ Hc) as (st & ks & C & Pd). eapply compiled_wf; eauto. Qed.
Lemma ru_end_to_end : forall n o lxs x M word ps lx i w t, compile_lexemes o lxs = Ok x -> loaded x (m_dict M) ->
  has_units M RU_DEFAULT_UNITS -> m_prob M = None -> In lx lxs -> nth_error lx i = Some (w, t) ->
  u_lower (m_uni M) word = w -> ~ In word RU_INITIAL_LETTERS -> parse_f n M word = Ok ps ->
  exists p nf tnf fam, In p ps /\ p_word p = w /\ t_str (p_tag p) = t /\ nth_error lx 0 = Some (nf, tnf) /\ p_nf p = nf /\
    get_lexeme M p = Ok fam /\ map (fun f => (p_word f, t_str (p_tag f))) fam = lx.
Proof.
  intros n o lxs x M word ps lx i w t Hc Hl HU HP Il Ni Ew NI H. destruct (compiled_wf' _ _ _ _ Hc Hl) as (W & Cn & _). subst w.
  pose proof (in_dictionary_source _ _ _ _ _ _ _ _ Hc Hl Il Ni) as ID. eapply reading_of_form; eauto; [eapply ru_dictionary_word; eauto|].
  apply ru_head in HU as (b0 & b1 & b2 & us & Eu & H0 & _). eauto.
Qed.
Lemma uk_end_to_end : forall n o lxs x M word ps lx i w t, compile_lexemes o lxs = Ok x -> loaded x (m_dict M) ->
  has_units M UK_DEFAULT_UNITS -> m_prob M = None -> In lx lxs -> nth_error lx i = Some (w, t) ->
  u_lower (m_uni M) word = w -> ~ In word UK_INITIAL_LETTERS -> is_roman_number word = false -> is_latin (m_uni M) word = Ok false -> parse_f n M word = Ok ps ->
  exists p nf tnf fam, In p ps /\ p_word p = w /\ t_str (p_tag p) = t /\ nth_error lx 0 = Some (nf, tnf) /\ p_nf p = nf /\
    get_lexeme M p = Ok fam /\ map (fun f => (p_word f, t_str (p_tag f))) fam = lx.
Proof.
  intros n o lxs x M word ps lx i w t Hc Hl HU HP Il Ni Ew NI NR NL H. destruct (compiled_wf' _ _ _ _ Hc Hl) as (W & Cn & _). subst w.
  pose proof (in_dictionary_source _ _ _ _ _ _ _ _ Hc Hl Il Ni) as ID. eapply reading_of_form; eauto; [eapply uk_dictionary_word; eauto|].
  apply uk_head in HU as (b0 & b1 & b2 & b3 & b4 & us & Eu & H0 & _). eauto.
Qed.
