(** * Lemmas for C95: P(t|w) estimates and the readings *)
From Coq Require Import String List NArith ZArith Bool QArith Lia.
From Verif Require Import Py Uni Tagset Dawg Utils Shapes Dict Units Analyzer ConfigRu ConfigUk Compile Spec Spec2 Spec3 Spec13 Spec14 Spec15 Spec34 Spec35 Spec36 Spec38 Spec39.
From Verif Require Import L_Base L_Compile L_ExC L_Tagset L_Parse L_Adverb L_New L_Units L_Total L_Stages L_Every L_Score L_Permute L_Permute2 L_Permute3.
Import ListNotations.
Local Open Scope nat_scope.
Local Open Scope list_scope.

Lemma same_dictionary : forall D, length (d_pred D) = length (d_prefixes D) -> same_content D D.
Proof. intros D L. constructor; auto; intros; reflexivity. Qed.
Lemma estimates_irrelevant : forall M1 M2, m_dict M1 = m_dict M2 -> length (d_pred (m_dict M1)) = length (d_prefixes (m_dict M1)) -> pred_counts_pos (m_dict M1) ->
  same_language M1 M2 -> m_uni M1 = m_uni M2 -> m_subst M1 = m_subst M2 -> lower_stable (m_uni M1) -> digits_ok (m_uni M1) -> answers_all M1 -> answers_all M2 ->
  forall word, u_lower (m_uni M1) word <> [] ->
  (forall ps1 ps2, morph_parse M1 word = Ok ps1 -> morph_parse M2 word = Ok ps2 -> forall w g, analysed ps1 w g <-> analysed ps2 w g) /\
  (forall ts1 ts2, morph_tag M1 word = Ok ts1 -> morph_tag M2 word = Ok ts2 -> same_tags ts1 ts2).
Proof.
  intros M1 M2 ED LP PC SL SU SS St DG T1 T2 word NE.
  assert (T : twins M1 M2).
  { constructor; try assumption; [rewrite <- ED; exact (same_dictionary _ LP)|rewrite <- ED; exact PC]. }
  split; [intros ps1 ps2 P1 P2; exact (twins_alike M1 M2 word T NE ps1 ps2 P1 P2)|intros ts1 ts2; exact (twins_tags M1 M2 word ts1 ts2 T NE)].
Qed.
(** the tags of the table do not depend on the state of the tag class *)
Lemma tags_fixed : forall C1 C2 l g1 g2, mapM (mk_tag C1) l = Ok g1 -> mapM (mk_tag C2) l = Ok g2 -> g1 = g2.
Proof.
  intros C1 C2 l g1 g2 H1 H2. apply mapM_ok in H1. apply mapM_ok in H2. revert g2 H2. induction H1 as [|s t l r E F IH]; intros g2 H2; inversion H2 as [|s' t' l' r' E' F']; subst; [reflexivity|].
  f_equal; [|exact (IH _ F')]. destruct (mk_tag_ok _ _ _ E) as (A & B & _). destruct (mk_tag_ok _ _ _ E') as (A' & B' & _). destruct t, t'. cbn in A, B, A', B'. congruence.
Qed.
Lemma construct_dict : forall U ext C rows gt mk prob subst items C' M, construct U ext C rows gt mk prob subst items = Ok (C', M) -> exists tags, mapM (mk_tag (init_grammemes C rows)) gt = Ok tags /\ m_dict M = mk tags.
Proof.
  intros U ext C rows gt mk prob subst items C' M H. unfold construct in H. apply bind_ok in H as (g & G & H). apply bind_ok in H as (b & _ & H). apply Ok_inj in H. exists g. split; [exact G|]. inversion H. reflexivity.
Qed.
Lemma scores_pos_shipped : forall M, shipped_units M -> scores_pos M.
Proof. intros M HS. apply shipped01 in HS. unfold scores_prob in HS. unfold scores_pos. rewrite Forall_forall in *. intros bt I. destruct (HS bt I). assumption. Qed.
Lemma estimates_analyzers : forall U gt mk subst items ext1 C1 rows1 C1' M1 ext2 C2 rows2 d C2' M2,
  construct U ext1 C1 rows1 gt mk None subst items = Ok (C1', M1) -> construct U ext2 C2 rows2 gt mk (Some d) subst items = Ok (C2', M2) ->
  items = RU_DEFAULT_UNITS \/ items = UK_DEFAULT_UNITS ->
  (forall g, In g ["ADJF"; "sing"; "datv"]%string -> In (u g) (map g_name rows1)) -> (forall g, In g ["ADJF"; "sing"; "datv"]%string -> In (u g) (map g_name rows2)) ->
  wf_dict (m_dict M1) -> length (d_pred (m_dict M1)) = length (d_prefixes (m_dict M1)) -> pred_counts_pos (m_dict M1) -> names_ok U -> lower_stable U -> digits_ok U -> no_mixture M2 d ->
  forall word, u_lower U word <> [] ->
  exists ps1 ps2 ts1 ts2, morph_parse M1 word = Ok ps1 /\ morph_parse M2 word = Ok ps2 /\ morph_tag M1 word = Ok ts1 /\ morph_tag M2 word = Ok ts2 /\
    (forall w g, analysed ps1 w g <-> analysed ps2 w g) /\ same_tags ts1 ts2.
Proof.
  intros U gt mk subst items ext1 C1 rows1 C1' M1 ext2 C2 rows2 d C2' M2 K1 K2 HI A1 A2 W1 LP PC NO LS DG NM word NE.
  destruct (construct_units _ _ _ _ _ _ _ _ _ _ _ K1) as (HU1 & E1 & _ & _ & S1 & Q1). destruct (construct_units _ _ _ _ _ _ _ _ _ _ _ K2) as (HU2 & E2 & _ & P2 & S2 & Q2).
  destruct (construct_dict _ _ _ _ _ _ _ _ _ _ _ K1) as (t1 & G1 & D1). destruct (construct_dict _ _ _ _ _ _ _ _ _ _ _ K2) as (t2 & G2 & D2). pose proof (tags_fixed _ _ _ _ _ G1 G2) as TE.
  assert (ED : m_dict M1 = m_dict M2) by (rewrite D1, D2, TE; reflexivity). clear D1 D2 G1 G2 TE t1 t2.
  assert (B1 : answers_all M1) by (intros w; exact (shipped_total _ _ _ _ _ _ _ _ _ _ w K1 HI A1 W1 NO LS)).
  assert (W2 : wf_morph M2) by (apply (construct_wf _ _ _ _ _ _ _ _ _ _ _ K2 HI A2); [rewrite <- ED; exact W1|exact NO|exact LS]).
  assert (SP : scores_pos M2) by (apply scores_pos_shipped; destruct HI as [-> | ->]; [left|right]; exact HU2).
  assert (B2 : answers_all M2) by (intros w; rewrite ED in PC; exact (analyze_tot_prob (fuel_for M2 w) M2 d w W2 P2 NM SP PC (Nat.lt_succ_diag_r _))).
  assert (I1 : knows_adjectives M1) by (intros g I; rewrite Q1; apply (construct_known _ _ _ _ _ _ _ _ _ _ _ K1); left; apply in_map_iff in I as (s & <- & I); exact (A1 s I)).
  assert (I2 : knows_adjectives M2) by (intros g I; rewrite Q2; apply (construct_known _ _ _ _ _ _ _ _ _ _ _ K2); left; apply in_map_iff in I as (s & <- & I); exact (A2 s I)).
  assert (SL : same_language M1 M2) by (destruct HI as [-> | ->]; [left|right]; auto).
  assert (SU : m_uni M1 = m_uni M2) by congruence. assert (SS : m_subst M1 = m_subst M2) by congruence. rewrite <- E1 in NE, LS, DG.
  destruct (estimates_irrelevant M1 M2 ED LP PC SL SU SS LS DG B1 B2 word NE) as (P & T).
  destruct (B1 word) as ((ps1 & X1) & ts1 & Y1), (B2 word) as ((ps2 & X2) & ts2 & Y2). exists ps1, ps2, ts1, ts2. repeat (split; [assumption|]). split; [exact (P ps1 ps2 X1 X2)|exact (T ts1 ts2 Y1 Y2)].
Qed.
