(** * Lemmas for C89: the order of the source lexemes *)
From Coq Require Import String List NArith ZArith Bool QArith Lia Sorting.Permutation.
From Verif Require Import Py Uni Tagset Dawg Utils Shapes Dict Units Analyzer ConfigRu ConfigUk Compile Spec Spec2 Spec3 Spec14 Spec15 Spec34 Spec35 Spec36 Spec38 Spec39.
From Verif Require Import L_Base L_Para L_Made L_Compile L_Compile2 L_Compile3 L_Compile4 L_Renumber.
Import ListNotations.
Local Open Scope nat_scope.
Local Open Scope list_scope.

(** ** the source description does not depend on the order *)
Lemma perm_filter : forall {A} (p : A -> bool) a b, Permutation a b -> Permutation (filter p a) (filter p b).
Proof.
  intros A p a b H. induction H; cbn [filter].
  - constructor.
  - destruct (p x); [constructor|]; assumption.
  - destruct (p x), (p y); try constructor; apply Permutation_refl.
  - eapply Permutation_trans; eassumption.
Qed.
Section Perm.
  Variables (o : coptions) (l1 l2 : list lexeme).
  Hypothesis P12 : Permutation l1 l2.
  Lemma shaped_perm : forall P, Permutation (shaped (o_prefixes o) l1 P) (shaped (o_prefixes o) l2 P). Proof. intros P. apply perm_filter. exact P12. Qed.
  Lemma shapes_perm : forall P, In P (map (shape (o_prefixes o)) l1) -> In P (map (shape (o_prefixes o)) l2).
  Proof. intros P. apply Permutation_in. apply Permutation_map. exact P12. Qed.
  Lemma common_perm : forall P, common o l1 P -> common o l2 P. Proof. intros P. unfold common. rewrite (Permutation_length (shaped_perm P)). auto. Qed.
  Lemma hits_perm : forall e P i, shape_hits o l1 e P i = shape_hits o l2 e P i. Proof. intros e P i. unfold shape_hits. apply list_sum_perm, Permutation_map, shaped_perm. Qed.
  Lemma total_perm : forall e, total_hits o l1 e = total_hits o l2 e.
  Proof.
    intros e. unfold total_hits. transitivity (list_sum (map (fun lx : lexeme => if o_min_pop o <=? length (shaped (o_prefixes o) l2 (shape (o_prefixes o) lx))
      then list_sum (map (fun x : (str * str) * prow => let '((w, _), (s, _, q)) := x in ending_hits q s (o_max_suffix o) e w) (combine lx (shape (o_prefixes o) lx))) else 0) l1)).
    - apply sum_ext. intros lx _. rewrite (Permutation_length (shaped_perm _)). reflexivity.
    - apply list_sum_perm, Permutation_map. exact P12.
  Qed.
End Perm.
Lemma record_perm1 : forall o l1 l2 pid e c P i, Permutation l1 l2 -> source_record o l1 pid e c P i -> source_record o l2 pid e c P i.
Proof.
  intros o l1 l2 pid e c P i PM (s & t & q & N & I & PL & Co & Ec & C1 & Le & Mx). pose proof (Permutation_sym PM) as MP. exists s, t, q. split; [exact N|]. split; [exact (shapes_perm o l1 l2 PM P I)|]. split; [exact PL|].
  split; [exact (common_perm o l1 l2 PM P Co)|]. split; [rewrite <- (hits_perm o l1 l2 PM); exact Ec|]. split; [exact C1|]. split; [rewrite <- (total_perm o l1 l2 PM); exact Le|].
  intros P' i' s' t' q' I' N' PL' Co' Et. rewrite <- (hits_perm o l1 l2 PM). apply (Mx P' i' s' t' q' (shapes_perm o l2 l1 MP P' I') N' PL' (common_perm o l2 l1 MP P' Co') Et).
Qed.
Lemma record_perm : forall o l1 l2 pid e c P i, Permutation l1 l2 -> (source_record o l1 pid e c P i <-> source_record o l2 pid e c P i).
Proof. intros. split; apply record_perm1; [|apply Permutation_sym]; assumption. Qed.

(** ** dictionaries with the same content *)
Definition form_in (D : dict) (w : str) (g : sset) : Prop := exists vals k i t, sget w (d_words D) = Some vals /\ In (k, i) vals /\ build_tag_info D k i = Ok t /\ t_gr t = g.
Definition ending_in (D : dict) (pid : nat) (e : str) (c : nat) (g : sset) : Prop := exists k i t, predicts D pid e c k i /\ build_tag_info D k i = Ok t /\ t_gr t = g.
Record same_content (D1 D2 : dict) : Prop := {
  sc_pp : d_prefixes D1 = d_prefixes D2; sc_max : d_maxsuf D1 = d_maxsuf D2;
  sc_l1 : length (d_pred D1) = length (d_prefixes D1); sc_l2 : length (d_pred D2) = length (d_prefixes D2);
  sc_words : forall w g, form_in D1 w g <-> form_in D2 w g;
  sc_pred : forall pid e c g, ending_in D1 pid e c g <-> ending_in D2 pid e c g }.
Lemma same_sym : forall D1 D2, same_content D1 D2 -> same_content D2 D1.
Proof. intros D1 D2 [A B C D E F]. constructor; try assumption; try (symmetry; assumption); intros; symmetry; auto. Qed.
Section FromSource.
  Variables (o : coptions) (lxs : list lexeme) (x : compiled) (st : cstate) (ks : list nat) (D : dict).
  Hypothesis C : Compiled o lxs x st ks. Hypothesis L : loaded x D. Hypothesis Pd : Predicted o x st. Hypothesis TR : tags_read D.
  Lemma row_tag : forall P i s t q, In P (map (shape (o_prefixes o)) lxs) -> nth_error P i = Some (s, t, q) -> exists tg, build_tag_info D (num st P) i = Ok tg /\ t_str tg = t /\ t_gr tg = split_tag t.
  Proof.
    intros P i s t q I N. destruct (shape_row _ _ _ _ _ _ C L P i s t q I N) as (tg & T & R). exists tg. split; [exact (para_row_tag _ _ _ _ _ _ R)|]. split; [exact T|]. rewrite <- T. apply TR.
    destruct R as (p & a & b & d & _ & _ & _ & _ & _ & _ & R & _). exact (nth_error_In _ _ R).
  Qed.
  Lemma form_source : forall w g, form_in D w g <-> exists lx i t, In lx lxs /\ nth_error lx i = Some (w, t) /\ g = split_tag t.
  Proof.
    assert (ROW : forall lx i w t, In lx lxs -> nth_error lx i = Some (w, t) -> exists s q, nth_error (shape (o_prefixes o) lx) i = Some (s, t, q)).
    { intros lx i w t I N. destruct (lexeme_shape _ _ _ _ _ C lx I) as (stem & T & _). destruct (to_paradigm_spec _ _ _ _ T) as (F & _ & _). destruct (Forall2_nth _ _ _ F i _ N) as ([[s t'] q] & N' & E). destruct E as [_ E]. cbn [snd] in E. subst t'. eauto. }
    intros w g. split.
    - intros (vals & k & i & t & G & I & T & <-). assert (S0 : stored D w k i) by (exists vals; auto). apply (stored_source _ _ _ _ _ _ C L) in S0 as (lx & t' & J & -> & N). exists lx, i, t'. split; [exact J|]. split; [exact N|].
      destruct (ROW lx i w t' J N) as (s & q & Nr). destruct (row_tag _ i s t' q (in_map _ _ _ J) Nr) as (tg & T' & _ & E). rewrite T' in T. apply Ok_inj in T. subst tg. exact E.
    - intros (lx & i & t & J & N & ->). destruct (ROW lx i w t J N) as (s & q & Nr). destruct (row_tag _ i s t q (in_map _ _ _ J) Nr) as (tg & T' & _ & E).
      assert (S0 : stored D w (num st (shape (o_prefixes o) lx)) i) by (apply (stored_source _ _ _ _ _ _ C L); eauto). destruct S0 as (vals & G & I). exists vals, (num st (shape (o_prefixes o) lx)), i, tg. auto.
  Qed.
  Lemma ending_source : forall pid e c g, ending_in D pid e c g <-> exists P i s t q, source_record o lxs pid e c P i /\ nth_error P i = Some (s, t, q) /\ g = split_tag t.
  Proof.
    intros pid e c g. split.
    - intros (k & i & t & R & T & <-). apply (records_source _ _ _ _ _ _ C L Pd) in R as (P & -> & R). pose proof R as R0. destruct R0 as (s & t' & q & N & I & _). exists P, i, s, t', q. split; [exact R|]. split; [exact N|].
      destruct (row_tag P i s t' q I N) as (tg & T' & _ & E). rewrite T' in T. apply Ok_inj in T. subst tg. exact E.
    - intros (P & i & s & t & q & R & N & ->). pose proof R as R0. destruct R0 as (s' & t' & q' & N' & I & _). destruct (row_tag P i s t q I N) as (tg & T' & _ & E). exists (num st P), i, tg. split; [apply (records_source _ _ _ _ _ _ C L Pd); eauto|]. auto.
  Qed.
End FromSource.
Lemma permuted_content : forall o src1 links1 lxs1 x1 D1 src2 links2 lxs2 x2 D2, join_lexemes src1 links1 = Ok lxs1 -> compile_parsed_dict o src1 links1 = Ok x1 -> loaded x1 D1 -> tags_read D1 ->
  join_lexemes src2 links2 = Ok lxs2 -> compile_parsed_dict o src2 links2 = Ok x2 -> loaded x2 D2 -> tags_read D2 -> Permutation lxs1 lxs2 -> same_content D1 D2.
Proof.
  intros o src1 links1 lxs1 x1 D1 src2 links2 lxs2 x2 D2 J1 H1 L1 T1 J2 H2 L2 T2 PM.
  unfold compile_parsed_dict in H1, H2. rewrite J1 in H1. rewrite J2 in H2. cbn [bind] in H1, H2. destruct (compile_lexemes_inv _ _ _ H1) as (st1 & ks1 & C1 & Pd1). destruct (compile_lexemes_inv _ _ _ H2) as (st2 & ks2 & C2 & Pd2).
  pose proof L1 as (_ & _ & A1 & _ & _ & _ & B1). pose proof L2 as (_ & _ & A2 & _ & _ & _ & B2). pose proof (cc_opt _ _ _ _ _ C1) as O1. pose proof (cc_opt _ _ _ _ _ C2) as O2.
  constructor.
  - rewrite A1, A2, O1, O2. reflexivity.
  - rewrite B1, B2, O1, O2. reflexivity.
  - exact (proj1 (pred_nodup _ _ _ _ _ _ C1 Pd1 L1)).
  - exact (proj1 (pred_nodup _ _ _ _ _ _ C2 Pd2 L2)).
  - intros w g. rewrite (form_source _ _ _ _ _ _ C1 L1 T1), (form_source _ _ _ _ _ _ C2 L2 T2). split; intros (lx & i & t & I & R); exists lx, i, t; (split; [|exact R]); [|apply Permutation_sym in PM]; exact (Permutation_in _ PM I).
  - intros pid e c g. rewrite (ending_source _ _ _ _ _ _ C1 L1 Pd1 T1), (ending_source _ _ _ _ _ _ C2 L2 Pd2 T2). split; intros (P & i & s & t & q & R & Y); exists P, i, s, t, q; (split; [|exact Y]); apply (record_perm _ _ _ _ _ _ _ _ PM); exact R.
Qed.
