(** * Statements of P_Parse.v, assembled from the lemma files *)
From Coq Require Import String List NArith ZArith Bool QArith Lia.
From Verif Require Import Py Uni Tagset Dawg Utils Shapes Dict Units Analyzer ConfigRu ConfigUk Compile Spec Ex.
From Verif Require Import L_Base L_Run L_Agree L_Made L_Words L_Config L_Ex.
Import ListNotations.
Local Open Scope nat_scope.
Local Open Scope list_scope.

Lemma shipped_nonempty : forall n M word ps ts,
  shipped_units M -> parse_f n M word = Ok ps -> tag_f n M word = Ok ts -> ps <> [] /\ ts <> [].
Proof.
  intros n M word ps ts H H1 H2. apply shipped_facts in H as (H & _). split.
  - eapply parse_f_nonempty; eauto.
  - eapply tag_f_nonempty; eauto.
Qed.
Lemma get_ok_eq : forall {A} (r : res A) d, (exists a, r = Ok a) -> r = Ok (get_ok d r).
Proof. intros A r d (a & ->). auto. Qed.
Definition okb {A} (r : res A) : bool := match r with Ok _ => true | Err _ => false end.
Lemma okb_ok : forall {A} (r : res A) d, okb r = true -> r = Ok (get_ok d r).
Proof. intros A [a|e] d H; [auto|discriminate]. Qed.
Lemma construct_units : forall U ext C rows gt mk prob subst items C' M,
  construct U ext C rows gt mk prob subst items = Ok (C', M) -> has_units M items /\ m_uni M = U /\
    m_ext M = ext /\ m_prob M = prob /\ m_subst M = subst /\ m_tc M = C'.
Proof.
  intros U ext C rows gt mk prob subst items C' M H. unfold construct in H.
  apply bind_ok in H as (g & _ & H). apply bind_ok in H as ([C1 us] & E & H). apply Ok_inj in H.
  inversion H; subst. simpl. split; [|auto]. exists (init_grammemes C rows), C'. auto.
Qed.
Lemma get_snd : forall (r : res (tagclass * morph)) d, okb r = true ->
  (forall C M, r = Ok (C, M) -> m_tc M = C) -> r = Ok (m_tc (snd (get_ok d r)), snd (get_ok d r)).
Proof. intros [[C M]|e] d H K; [|discriminate H]. simpl. rewrite (K C M eq_refl). auto. Qed.
Lemma construct_tc : forall U ext C rows gt mk prob subst items C' M,
  construct U ext C rows gt mk prob subst items = Ok (C', M) -> m_tc M = C'.
Proof. intros. apply construct_units in H. tauto. Qed.
Lemma demo_eq : demo_construct None RU_DEFAULT_UNITS = Ok (m_tc demo, demo).
Proof.
  apply get_snd; [vm_compute; reflexivity|]. intros C M H. exact (construct_tc _ _ _ _ _ _ _ _ _ _ _ H).
Qed.
Lemma demo_shipped : shipped_units demo.
Proof. left. pose proof demo_eq as E. apply construct_units in E as (E & _). exact E. Qed.

Lemma parse_tag_agree : forall n M word ps ts,
  pred_counts_pos (m_dict M) -> unkn_isolated true (m_units M) ->
  parse_f n M word = Ok ps -> tag_f n M word = Ok ts -> same_tags (map p_tag ps) ts.
Proof.
  intros n M word ps ts H1 H2 H3 H4. pose proof (analyze_agree _ _ _ _ _ H1 H2 H3 H4) as A. intro g.
  rewrite map_map. apply A.
Qed.
Lemma shipped_agree : forall n M word ps ts,
  shipped_units M -> pred_counts_pos (m_dict M) ->
  parse_f n M word = Ok ps -> tag_f n M word = Ok ts -> same_tags (map p_tag ps) ts.
Proof. intros n M word ps ts H. apply shipped_facts in H as (_ & H & _). intros. eapply parse_tag_agree; eauto. Qed.

Definition group_demo : morph := snd (get_ok (tc_initial, null_morph)
  (demo_construct None [One UDict; Group [UParticle [u "-то"] 1; UUnkn]])).
Lemma same_group_disagree : exists M word ps ts,
  pred_counts_pos (m_dict M) /\ morph_parse M word = Ok ps /\ morph_tag M word = Ok ts /\
  ~ same_tags (map p_tag ps) ts.
Proof.
  exists group_demo, (u "кот-то"). do 2 eexists. split; [|split; [|split]].
  - apply pred_counts_posb_ok. vm_compute. reflexivity.
  - vm_compute. reflexivity.
  - vm_compute. reflexivity.
  - intro H. specialize (H [u "UNKN"]). destruct H as [_ H]. vm_compute in H.
    destruct H as [H|[]]; [right; left; reflexivity|discriminate H].
Qed.

Lemma parse_word : forall n M word ps p,
  lower_stable (m_uni M) -> parse_f n M word = Ok ps -> In p ps ->
  subst_of (m_subst M) (u_lower (m_uni M) word) (p_word p).
Proof. intros. eapply parse_f_subst; eauto. Qed.
Lemma parse_length : forall n M word ps p,
  lower_stable (m_uni M) -> parse_f n M word = Ok ps -> In p ps ->
  length (p_word p) = length (u_lower (m_uni M) word).
Proof. intros. eapply subst_of_length. eapply parse_word; eauto. Qed.

Lemma parse_has_unit : forall n M word ps p,
  parse_f n M word = Ok ps -> In p ps ->
  exists i b t, made_by p = Some (Root i) /\ nth_error (m_units M) i = Some (b, t).
Proof.
  intros [|n] M word ps p H Hp; [discriminate|].
  destruct (parse_f_made _ _ _ _ _ H Hp) as (i & b & tm & p0 & q & Hn & Md & ->).
  exists i, b, tm. split; [|auto]. apply made_by_unit in Md. exact Md.
Qed.
Lemma predicted_productive : forall n M word ps p i b t,
  parse_f n M word = Ok ps -> In p ps ->
  made_by p = Some (Root i) -> nth_error (m_units M) i = Some (b, t) -> predicting (b_cfg b) ->
  forall g, In g (t_gr (p_tag p)) ->
    ~ In g (map u ["NUMR"; "NPRO"; "PRED"; "PREP"; "CONJ"; "PRCL"; "INTJ"; "Apro"]%string).
Proof.
  intros [|n] M word ps p i b t H Hp Hm Hn Hc g Hg; [discriminate|].
  destruct (parse_f_made _ _ _ _ _ H Hp) as (i' & b' & tm & p0 & q & Hn' & Md & ->).
  pose proof (made_by_unit _ _ _ _ _ _ _ _ Md) as E. unfold made_by in *. cbn [with_score p_stack] in Hm.
  rewrite E in Hm. inversion Hm; subst i'. rewrite Hn in Hn'. inversion Hn'; subst b' tm.
  apply made_productive in Md; auto. cbn [with_score p_tag] in Hg.
  apply (proj1 (is_productive_spec _) Md g Hg).
Qed.

Lemma depth_bounded : forall M word n,
  lower_stable (m_uni M) -> Forall (fun bt => prefixes_nonempty (fst bt)) (m_units M) ->
  S (length (u_lower (m_uni M) word)) <= n ->
  parse_f n M word <> Err RecursionError /\ tag_f n M word <> Err RecursionError /\
  parse_f n M word = morph_parse M word /\ tag_f n M word = morph_tag M word.
Proof.
  intros M word n S F L. destruct (enough_fuel M n word S F) as [A B]; [lia|].
  destruct (fuel_irrelevant M n (fuel_for M word) word S F) as [C D]; [lia|unfold fuel_for; lia|]. auto.
Qed.
Lemma shipped_depth : forall M word n,
  lower_stable (m_uni M) -> shipped_units M -> S (length (u_lower (m_uni M) word)) <= n ->
  parse_f n M word <> Err RecursionError /\ tag_f n M word <> Err RecursionError /\
  parse_f n M word = morph_parse M word /\ tag_f n M word = morph_tag M word.
Proof. intros M word n S H L. apply shipped_facts in H as (_ & _ & H). apply depth_bounded; auto. Qed.

Lemma empty_prefix_never_returns : exists M word, lower_stable (m_uni M) /\
  forall n, parse_f n M word = Err RecursionError /\ tag_f n M word = Err RecursionError.
Proof. exists empty_prefix_demo, (u "а"). split; [exact uni_cyr_stable|]. exact empty_prefix_loops. Qed.

