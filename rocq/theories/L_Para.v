(** * Paradigm rows, stems and normal forms *)
From Coq Require Import String List NArith ZArith Bool QArith Lia.
From Verif Require Import Py Uni Tagset Dawg Utils Shapes Dict Units Analyzer ConfigRu ConfigUk Spec L_Base L_Run L_Made L_Words L_Config L_Total.
Import ListNotations.
Local Open Scope nat_scope.
Local Open Scope list_scope.

Lemma para_row_fun : forall D para idx pre t sf pre' t' sf',
  para_row D para idx pre t sf -> para_row D para idx pre' t' sf' -> pre' = pre /\ t' = t /\ sf' = sf.
Proof.
  intros D para idx pre t sf pre' t' sf' (p & s & ti & q & A1 & A2 & A3 & A4 & A5 & A6 & A7 & A8)
    (p2 & s2 & ti2 & q2 & B1 & B2 & B3 & B4 & B5 & B6 & B7 & B8).
  rewrite A1 in B1. inversion B1; subst p2. rewrite A3 in B3. rewrite A4 in B4. rewrite A5 in B5.
  inversion B3; inversion B4; inversion B5; subst. rewrite A6 in B6. rewrite A7 in B7. rewrite A8 in B8.
  inversion B6; inversion B7; inversion B8; auto.
Qed.
Lemma para_row_valid : forall D para idx pre t sf, para_row D para idx pre t sf -> valid_form D para idx.
Proof. intros D para idx pre t sf (p & s & ti & q & A1 & A2 & _). exists p. auto. Qed.
Lemma para_row_tag : forall D para idx pre t sf, para_row D para idx pre t sf -> build_tag_info D para idx = Ok t.
Proof.
  intros D para idx pre t sf (p & s & ti & q & A1 & A2 & A3 & A4 & A5 & A6 & A7 & A8).
  unfold build_tag_info. rewrite (proj2 (nth_res_ok _ _ _) A1). cbn [bind]. rewrite (proj2 (nth_res_ok _ _ _) A4). cbn [bind].
  apply nth_res_ok; auto.
Qed.
(** the middle of a word, cut by the lengths of prefix and suffix *)
Definition middle (pre sf w : str) : str :=
  match sf with [] => skipn (length pre) w | _ => slice w (Z.of_nat (length pre)) (- Z.of_nat (length sf)) end.
Lemma slice_mid : forall {A} (a b c : list A), c <> [] -> slice (a ++ b ++ c) (Z.of_nat (length a)) (- Z.of_nat (length c)) = b.
Proof.
  intros A a b c N. unfold slice. assert (0 < length c) by (destruct c; [congruence|simpl; lia]).
  rewrite norm_idx_neg by lia. rewrite norm_idx_pos. rewrite !app_length.
  rewrite Nat.min_r by lia. rewrite skipn_app_exact. replace (length a + (length b + length c) - length c - length a) with (length b) by lia.
  apply firstn_app_exact.
Qed.
Lemma middle_app : forall pre stem sf, middle pre sf (pre ++ stem ++ sf) = stem.
Proof.
  intros pre stem [|c sf]; unfold middle.
  - rewrite app_nil_r. apply skipn_app_exact.
  - apply slice_mid. congruence.
Qed.
Lemma row_stem : forall D para idx pre t sf p w, para_row D para idx pre t sf ->
  nth_error (d_paradigms D) para = Some p -> build_stem D p idx w = Ok (middle pre sf w).
Proof.
  intros D para idx pre t sf p w (p' & s & ti & q & A1 & A2 & A3 & A4 & A5 & A6 & A7 & A8) N.
  rewrite A1 in N. inversion N; subst p'. unfold build_stem.
  rewrite (proj2 (nth_res_ok _ _ _) A5). cbn [bind]. rewrite (proj2 (nth_res_ok _ _ _) A8). cbn [bind].
  rewrite (proj2 (nth_res_ok _ _ _) A3). cbn [bind]. rewrite (proj2 (nth_res_ok _ _ _) A6). cbn [bind].
  unfold middle. destruct sf; auto. rewrite slice_from_pos. auto.
Qed.
Lemma row0 : forall D para idx pre t sf, wf_dict D -> para_row D para idx pre t sf ->
  exists pre0 t0 sf0, para_row D para 0 pre0 t0 sf0.
Proof.
  intros D para idx pre t sf W R. apply valid_row; auto. apply para_row_valid in R as (p & A & B). exists p. split; auto. lia.
Qed.
Lemma row_nf : forall D para idx pre t sf pre0 t0 sf0 w, para_row D para idx pre t sf -> para_row D para 0 pre0 t0 sf0 ->
  build_normal_form D para idx w = Ok (if idx =? 0 then w else pre0 ++ middle pre sf w ++ sf0).
Proof.
  intros D para idx pre t sf pre0 t0 sf0 w R R0. unfold build_normal_form. destruct (idx =? 0); auto.
  pose proof R as (p & s & ti & q & A1 & A2 & _). rewrite (proj2 (nth_res_ok _ _ _) A1). cbn [bind]. rewrite (row_stem _ _ _ _ _ _ _ w R A1). cbn [bind].
  destruct R0 as (p' & s0 & ti0 & q0 & B1 & B2 & B3 & B4 & B5 & B6 & B7 & B8). rewrite A1 in B1. inversion B1; subst p'.
  rewrite (proj2 (nth_res_ok _ _ _) B5). cbn [bind]. rewrite (proj2 (nth_res_ok _ _ _) B3). cbn [bind].
  rewrite (proj2 (nth_res_ok _ _ _) B8). cbn [bind]. rewrite (proj2 (nth_res_ok _ _ _) B6). auto.
Qed.
Lemma row_nf_app : forall D para idx pre t sf pre0 t0 sf0 stem, para_row D para idx pre t sf -> para_row D para 0 pre0 t0 sf0 ->
  build_normal_form D para idx (pre ++ stem ++ sf) = Ok (pre0 ++ stem ++ sf0).
Proof.
  intros D para idx pre t sf pre0 t0 sf0 stem R R0. rewrite (row_nf _ _ _ _ _ _ _ _ _ _ R R0).
  destruct (Nat.eqb_spec idx 0) as [->|].
  - destruct (para_row_fun _ _ _ _ _ _ _ _ _ R R0) as (-> & _ & ->). auto.
  - rewrite middle_app. auto.
Qed.
(** build_paradigm_info lists the rows *)
Lemma paradigm_info_nth : forall D para rows idx, build_paradigm_info D para = Ok rows ->
  forall x, nth_error rows idx = Some x <-> para_row D para idx (fst (fst x)) (snd (fst x)) (snd x).
Proof.
  intros D para rows idx H [[pre t] sf]. unfold build_paradigm_info in H. apply bind_ok in H as (p & Ep & H). apply nth_res_ok in Ep.
  pose proof (mapM_length _ _ _ H) as L. rewrite seq_length in L. apply mapM_ok in H. split.
  - intro N. destruct (Forall2_nth_r _ _ _ H _ _ N) as (k & Ek & F). rewrite nth_error_nth' with (d := 0) in Ek by (rewrite seq_length, <- L; eapply nth_error_Some; congruence).
    assert (Hi : idx < length p / 3) by (rewrite <- L; apply nth_error_Some; congruence).
    rewrite seq_nth in Ek by auto. simpl in Ek. inversion Ek; subst k. clear Ek.
    apply bind_ok in F as (q & E1 & F). apply bind_ok in F as (pre' & E2 & F). apply bind_ok in F as (s & E3 & F).
    apply bind_ok in F as (sf' & E4 & F). apply bind_ok in F as (t' & E5 & F). apply Ok_inj in F. inversion F; subst.
    unfold build_tag_info in E5. apply bind_ok in E5 as (p' & E6 & E5). apply nth_res_ok in E6. rewrite Ep in E6. inversion E6; subst p'.
    apply bind_ok in E5 as (ti & E7 & E5). apply nth_res_ok in E1, E2, E3, E4, E5, E7. exists p, s, ti, q. simpl. repeat split; auto.
  - intro R. simpl in R. pose proof R as (p' & s & ti & q & A1 & A2 & A3 & A4 & A5 & A6 & A7 & A8). rewrite Ep in A1. inversion A1; subst p'.
    destruct (nth_error rows idx) as [[[pre' t'] sf']|] eqn:N; [|apply nth_error_None in N; lia].
    destruct (Forall2_nth_r _ _ _ H _ _ N) as (k & Ek & F). rewrite nth_error_nth' with (d := 0) in Ek by (rewrite seq_length; auto).
    rewrite seq_nth in Ek by auto. simpl in Ek. inversion Ek; subst k. clear Ek.
    apply bind_ok in F as (q' & E1 & F). apply bind_ok in F as (pre'' & E2 & F). apply bind_ok in F as (s' & E3 & F).
    apply bind_ok in F as (sf'' & E4 & F). apply bind_ok in F as (t'' & E5 & F). apply Ok_inj in F. inversion F; subst.
    rewrite (para_row_tag _ _ _ _ _ _ R) in E5. inversion E5; subst. apply nth_res_ok in E1, E2, E3, E4.
    rewrite A5 in E1. inversion E1; subst. rewrite A8 in E2. inversion E2; subst. rewrite A3 in E3. inversion E3; subst. rewrite A6 in E4. inversion E4; subst. auto.
Qed.
Lemma paradigm_info_ok : forall D para p, wf_dict D -> nth_error (d_paradigms D) para = Some p ->
  exists rows, build_paradigm_info D para = Ok rows /\ length rows = length p / 3.
Proof.
  intros D para p W N. unfold build_paradigm_info. rewrite (proj2 (nth_res_ok _ _ _) N). cbn [bind].
  match goal with |- exists rows, mapM ?f ?l = _ /\ _ => destruct (mapM_exists f l) as (r & E) end.
  - intros idx Hi. apply in_seq in Hi. destruct (valid_row D W para idx) as (pre & t & sf & R); [exists p; split; auto; lia|].
    rewrite (para_row_tag _ _ _ _ _ _ R). destruct R as (p' & s & ti & q & A1 & A2 & A3 & A4 & A5 & A6 & A7 & A8).
    rewrite N in A1. inversion A1; subst p'. 
    rewrite (proj2 (nth_res_ok _ _ _) A5). cbn [bind]. rewrite (proj2 (nth_res_ok _ _ _) A8). cbn [bind].
    rewrite (proj2 (nth_res_ok _ _ _) A3). cbn [bind]. rewrite (proj2 (nth_res_ok _ _ _) A6). cbn [bind]. eauto.
  - exists r. split; auto. rewrite (mapM_length _ _ _ E), seq_length. auto.
Qed.
