(** * Lemmas for C89: the contents of a compiled dictionary; small analyzers *)
From Coq Require Import String List NArith ZArith Bool QArith Lia Sorting.Permutation.
From Verif Require Import Py Uni Tagset Dawg Utils Shapes Dict Units Analyzer ConfigRu ConfigUk Compile Spec Spec2 Spec3 Spec14 Spec15 Spec34 Spec35 Spec36 Spec38 Spec39 Ex.
From Verif Require Import L_Base L_Config L_Groups L_Parse L_Compile L_Compile2 L_Compile3 L_Compile4 L_Ex L_ExC L_ExU L_ExSoap L_Tagset L_Units L_Renumber L_Permute3.
Import ListNotations.
Local Open Scope nat_scope.
Local Open Scope list_scope.

Lemma contents_from_source : forall o src links lxs x D, join_lexemes src links = Ok lxs -> compile_parsed_dict o src links = Ok x -> loaded x D ->
  exists num : paradigm -> nat,
    (forall lx, In lx lxs -> exists stem, to_paradigm lx (o_prefixes o) = Ok (stem, shape (o_prefixes o) lx)) /\
    (forall P P', In P (map (shape (o_prefixes o)) lxs) -> In P' (map (shape (o_prefixes o)) lxs) -> num P = num P' -> P = P') /\
    (forall k p, nth_error (d_paradigms D) k = Some p -> exists P, In P (map (shape (o_prefixes o)) lxs) /\ k = num P) /\
    (forall P, In P (map (shape (o_prefixes o)) lxs) -> (exists p, nth_error (d_paradigms D) (num P) = Some p /\ length p = 3 * length P) /\
      forall i s t q, nth_error P i = Some (s, t, q) -> exists tg, t_str tg = t /\ para_row D (num P) i q tg s) /\
    (forall w k i, stored D w k i <-> exists lx t, In lx lxs /\ k = num (shape (o_prefixes o) lx) /\ nth_error lx i = Some (w, t)) /\
    forall pid e c k i, predicts D pid e c k i <-> exists P, k = num P /\ source_record o lxs pid e c P i.
Proof.
  intros o src links lxs x D J H L. unfold compile_parsed_dict in H. rewrite J in H. cbn [bind] in H. destruct (compile_lexemes_inv _ _ _ H) as (st & ks & C & Pd).
  exists (num st). split; [intros lx I; destruct (lexeme_shape _ _ _ _ _ C lx I) as (stem & T & _); exists stem; exact T|].
  split; [exact (num_inj _ _ _ _ _ C)|]. split; [exact (num_surj _ _ _ _ _ _ C L)|]. split; [exact (shape_has_rows _ _ _ _ _ _ C L)|].
  split; [exact (stored_source _ _ _ _ _ _ C L)|exact (records_source _ _ _ _ _ _ C L Pd)].
Qed.

(** ** analyzers created over compiled dictionaries *)
Lemma made_dict : forall U ext C rows x subst items C' M, construct U ext C rows (x_gramtab x) (dict_of x) None subst items = Ok (C', M) ->
  loaded x (m_dict M) /\ tags_read (m_dict M) /\ m_subst M = subst.
Proof.
  intros U ext C rows x subst items C' M H. unfold construct in H. apply bind_ok in H as (gt & G & H). apply bind_ok in H as (b & _ & H). apply Ok_inj in H. inversion H. cbn [m_dict m_subst].
  split; [|split; [|reflexivity]].
  - unfold loaded, dict_of. cbn. split; [reflexivity|]. split; [|repeat split]. apply mapM_ok in G. clear -G. induction G as [|s t l r E F IH]; [reflexivity|]. cbn [map]. rewrite IH. f_equal. exact (proj1 (mk_tag_ok _ _ _ E)).
  - intros t I. cbn in I. destruct (mapM_In _ _ _ _ G I) as (s & _ & E). destruct (mk_tag_ok _ _ _ E) as (E1 & E2 & _). rewrite E1, E2. reflexivity.
Qed.
Lemma order_analyzers : forall o U subst items src1 links1 lxs1 x1 ext1 T1 rows1 T1' M1 src2 links2 lxs2 x2 ext2 T2 rows2 T2' M2,
  join_lexemes src1 links1 = Ok lxs1 -> compile_parsed_dict o src1 links1 = Ok x1 -> construct U ext1 T1 rows1 (x_gramtab x1) (dict_of x1) None subst items = Ok (T1', M1) ->
  join_lexemes src2 links2 = Ok lxs2 -> compile_parsed_dict o src2 links2 = Ok x2 -> construct U ext2 T2 rows2 (x_gramtab x2) (dict_of x2) None subst items = Ok (T2', M2) ->
  Permutation lxs1 lxs2 -> items = RU_DEFAULT_UNITS \/ items = UK_DEFAULT_UNITS ->
  (forall g, In g ["ADJF"; "sing"; "datv"]%string -> In (u g) (map g_name rows1)) -> (forall g, In g ["ADJF"; "sing"; "datv"]%string -> In (u g) (map g_name rows2)) ->
  names_ok U -> lower_stable U -> digits_ok U -> forall word, u_lower U word <> [] ->
  exists ps1 ps2 ts1 ts2, morph_parse M1 word = Ok ps1 /\ morph_parse M2 word = Ok ps2 /\ morph_tag M1 word = Ok ts1 /\ morph_tag M2 word = Ok ts2 /\
    (forall w g, analysed ps1 w g <-> analysed ps2 w g) /\ same_tags ts1 ts2.
Proof.
  intros o U subst items src1 links1 lxs1 x1 ext1 T1 rows1 T1' M1 src2 links2 lxs2 x2 ext2 T2 rows2 T2' M2 J1 H1 K1 J2 H2 K2 PM HI A1 A2 NO LS DG word NE.
  destruct (made_dict _ _ _ _ _ _ _ _ _ K1) as (L1 & R1 & S1). destruct (made_dict _ _ _ _ _ _ _ _ _ K2) as (L2 & R2 & S2).
  destruct (construct_units _ _ _ _ _ _ _ _ _ _ _ K1) as (HU1 & E1 & _ & _ & _ & Q1). destruct (construct_units _ _ _ _ _ _ _ _ _ _ _ K2) as (HU2 & E2 & _ & _ & _ & Q2).
  assert (W1 : wf_dict (m_dict M1)) by (destruct (parsed_wf _ _ _ _ _ _ J1 H1 L1) as (X & _); exact X). assert (W2 : wf_dict (m_dict M2)) by (destruct (parsed_wf _ _ _ _ _ _ J2 H2 L2) as (X & _); exact X).
  assert (B1 : answers_all M1) by (intros w; exact (shipped_total _ _ _ _ _ _ _ _ _ _ w K1 HI A1 W1 NO LS)). assert (B2 : answers_all M2) by (intros w; exact (shipped_total _ _ _ _ _ _ _ _ _ _ w K2 HI A2 W2 NO LS)).
  assert (G1 : knows_adjectives M1) by (intros g I; rewrite Q1; apply (construct_known _ _ _ _ _ _ _ _ _ _ _ K1); left; apply in_map_iff in I as (s & <- & I); exact (A1 s I)).
  assert (G2 : knows_adjectives M2) by (intros g I; rewrite Q2; apply (construct_known _ _ _ _ _ _ _ _ _ _ _ K2); left; apply in_map_iff in I as (s & <- & I); exact (A2 s I)).
  assert (SL : same_language M1 M2) by (destruct HI as [-> | ->]; [left|right]; auto).
  destruct (order_irrelevant o src1 links1 lxs1 x1 M1 src2 links2 lxs2 x2 M2 J1 H1 L1 R1 J2 H2 L2 R2 PM SL) with (word := word) as (P & T); try assumption; try (rewrite E1; assumption); [congruence|congruence|].
  destruct (B1 word) as ((ps1 & P1) & ts1 & X1), (B2 word) as ((ps2 & P2) & ts2 & X2). exists ps1, ps2, ts1, ts2. repeat (split; [assumption|]). split; [exact (P ps1 ps2 P1 P2)|exact (T ts1 ts2 X1 X2)].
Qed.

(** ** small analyzers *)
Definition tags_readb (D : dict) : bool := forallb (fun t => same_strs (t_gr t) (split_tag (t_str t))) (d_gramtab D).
Lemma tags_readb_ok : forall D, tags_readb D = true -> tags_read D.
Proof. intros D H t I. unfold tags_readb in H. rewrite forallb_forall in H. exact (same_strs_ok _ _ (H t I)). Qed.
Definition named_result (o : coptions) (src : lexemes) : res (tagclass * morph) :=
  construct uni_named false tc_initial demo_rows (x_gramtab (built o src)) (built_dict o src) None e_yo RU_DEFAULT_UNITS.
Definition named_morph (o : coptions) (src : lexemes) : morph := snd (get_ok (tc_initial, null_morph) (named_result o src)).
Definition is_ok {A} (r : res A) : bool := match r with Ok _ => true | Err _ => false end.
Lemma named_units : forall o src, is_ok (named_result o src) = true -> has_units (named_morph o src) RU_DEFAULT_UNITS /\ m_uni (named_morph o src) = uni_named /\ m_subst (named_morph o src) = e_yo.
Proof.
  intros o src H. unfold named_morph. destruct (named_result o src) as [[C M]|e] eqn:E; [|discriminate H]. cbn [get_ok snd]. unfold named_result in E. destruct (construct_units _ _ _ _ _ _ _ _ _ _ _ E) as (HU & EU & _). split; [exact HU|]. split; [exact EU|].
  unfold construct in E. apply bind_ok in E as (gt & _ & E). apply bind_ok in E as (b & _ & E). apply Ok_inj in E. inversion E. reflexivity.
Qed.
Lemma named_answers : forall o src, is_ok (named_result o src) = true -> wf_dict (m_dict (named_morph o src)) -> answers_all (named_morph o src).
Proof.
  intros o src H W w. unfold named_morph in *. destruct (named_result o src) as [[C M]|e] eqn:E; [|discriminate H]. cbn [get_ok snd] in *. unfold named_result in E.
  exact (shipped_total _ _ _ _ _ _ _ _ _ _ w E (or_introl eq_refl) demo_rows_adv W uni_named_ok uni_named_stable).
Qed.
