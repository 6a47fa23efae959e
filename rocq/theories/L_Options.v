(** * Lemmas for C91: what the compile options change *)
From Coq Require Import String List NArith ZArith Bool QArith Lia.
From Verif Require Import Py Uni Tagset Dawg Utils Dict Units Analyzer Compile Spec Spec2 Spec3 Spec39.
From Verif Require Import L_Base L_Para L_Compile L_Compile2 L_Compile3 L_Compile4 L_Renumber.
Import ListNotations.
Local Open Scope nat_scope.
Local Open Scope list_scope.

(** ** two compilations of the same lexemes with the same paradigm prefixes *)
Lemma same_state : forall o1 o2 src links lxs x1 x2, join_lexemes src links = Ok lxs -> o_prefixes o1 = o_prefixes o2 ->
  compile_parsed_dict o1 src links = Ok x1 -> compile_parsed_dict o2 src links = Ok x2 ->
  exists st ks, Compiled o1 lxs x1 st ks /\ Predicted o1 x1 st /\ Compiled o2 lxs x2 st ks /\ Predicted o2 x2 st /\
    x_words x1 = x_words x2 /\ x_gramtab x1 = x_gramtab x2 /\ x_suffixes x1 = x_suffixes x2 /\ x_paradigms x1 = x_paradigms x2.
Proof.
  intros o1 o2 src links lxs x1 x2 J E H1 H2. unfold compile_parsed_dict in H1, H2. rewrite J in H1, H2. cbn [bind] in H1, H2.
  unfold compile_lexemes in H1, H2. rewrite <- E in H2. apply bind_ok in H1 as (st & S1 & H1). rewrite S1 in H2. cbn [bind] in H2.
  destruct (compile_loop_inv _ _ _ S1) as (ks & I). exists st, ks.
  apply bind_ok in H1 as (paras & P & H1). rewrite P in H2. cbn [bind] in H2.
  apply bind_ok in H1 as (pd1 & PD1 & H1). apply bind_ok in H1 as (wd1 & WD & H1). apply bind_ok in H1 as (pds1 & PDS1 & H1). apply Ok_inj in H1.
  apply bind_ok in H2 as (pd2 & PD2 & H2). rewrite WD in H2. cbn [bind] in H2. apply bind_ok in H2 as (pds2 & PDS2 & H2). apply Ok_inj in H2.
  unfold words_dawg in WD. apply bind_ok in WD as ([] & G & WD). apply Ok_inj in WD. subst wd1 x1 x2.
  assert (PW : forall pd pds, mapM pred_dawg pd = Ok pds -> pds = map (rdawg_of form3_eqb pack_form3) pd).
  { intros pd pds K. apply mapM_ok in K. induction K as [|a b l r K F IH]; [reflexivity|]. cbn [map]. rewrite <- IH. f_equal. unfold pred_dawg in K. apply bind_ok in K as ([] & _ & K). apply Ok_inj in K. auto. }
  split; [constructor; cbn; auto; apply mapM_ok; exact P|]. split; [exists pd1; split; [exact PD1|exact (PW _ _ PDS1)]|].
  split; [constructor; cbn; auto; [rewrite <- E; exact I|rewrite <- E; apply mapM_ok; exact P]|]. split; [exists pd2; split; [cbn; rewrite <- E; exact PD2|exact (PW _ _ PDS2)]|].
  repeat split.
Qed.
(** ** the length limit *)
Lemma filter_none : forall {A} (f : A -> bool) l, (forall x, In x l -> f x = false) -> filter f l = [].
Proof. induction l as [|a l IH]; intros H; [reflexivity|]. cbn [filter]. rewrite (H a (or_introl eq_refl)). apply IH. intros x I. apply H. right. exact I. Qed.
Lemma tail_none : forall n w e, w <> e -> length e < n -> str_eqb (tail_of n w) e = false.
Proof.
  intros n w e NE Ln. destruct (str_eqb (tail_of n w) e) eqn:Q; [|reflexivity]. exfalso. apply str_eqb_eq in Q. destruct (Nat.le_gt_cases n (length w)) as [L|L].
  - apply (f_equal (@length _)) in Q. rewrite tail_len in Q by exact L. lia.
  - apply NE. rewrite <- Q. unfold tail_of. replace (length w - n) with 0 by lia. reflexivity.
Qed.
Lemma hits_same : forall pre sf m1 m2 e w, m1 <= m2 -> length e <= m1 -> w <> e -> ending_hits pre sf m1 e w = ending_hits pre sf m2 e w.
Proof.
  intros pre sf m1 m2 e w M L NE. unfold ending_hits. destruct (_ <? _); [|reflexivity]. set (lo := Nat.max (length sf) 1).
  destruct (Nat.le_gt_cases lo (S m1)) as [G|G].
  - replace (S m2 - lo) with ((S m1 - lo) + (m2 - m1)) by lia. rewrite seq_app, filter_app, app_length.
    rewrite (filter_none _ (seq (lo + (S m1 - lo)) (m2 - m1))); [cbn [length]; lia|]. intros n I. apply in_seq in I. apply tail_none; [exact NE|lia].
  - replace (S m1 - lo) with 0 by lia. cbn [seq filter length]. symmetry. rewrite filter_none; [reflexivity|]. intros n I. apply in_seq in I. apply tail_none; [exact NE|lia].
Qed.
Lemma hits_pos : forall pre sf m e w, 1 <= ending_hits pre sf m e w -> length e <= m.
Proof.
  intros pre sf m e w H. unfold ending_hits in H. destruct (_ <? _); [|lia]. change (length (filter ?f ?l)) with (count_if f l) in H. apply count_pos in H as (n & I & Q). apply in_seq in I. apply str_eqb_eq in Q. subst e.
  unfold tail_of. rewrite skipn_length. lia.
Qed.
Lemma sum_pos : forall l, 1 <= list_sum l -> exists n, In n l /\ 1 <= n.
Proof. induction l as [|a l IH]; intros H; [cbn in H; lia|]. rewrite list_sum_cons in H. destruct (Nat.eq_dec a 0) as [->|N]; [destruct IH as (n & I & G); [exact H|exists n; split; [right; exact I|exact G]]|exists a; split; [left; reflexivity|lia]]. Qed.
Lemma shape_hits_len : forall o lxs e P i, 1 <= shape_hits o lxs e P i -> length e <= o_max_suffix o.
Proof.
  intros o lxs e P i H. unfold shape_hits in H. apply sum_pos in H as (n & I & G). apply in_map_iff in I as (lx & E & _). destruct (nth_error lx i) as [[w t]|]; [|lia]. destruct (nth_error P i) as [[[s t'] q]|]; [|lia].
  subst n. exact (hits_pos _ _ _ _ _ G).
Qed.

Section Two.
  Variables (o1 o2 : coptions) (src : lexemes) (links : list link) (lxs : list lexeme) (x1 x2 : compiled) (D1 D2 : dict).
  Hypothesis J : join_lexemes src links = Ok lxs. Hypothesis PP : o_prefixes o1 = o_prefixes o2.
  Hypothesis H1 : compile_parsed_dict o1 src links = Ok x1. Hypothesis H2 : compile_parsed_dict o2 src links = Ok x2.
  Hypothesis L1 : loaded x1 D1. Hypothesis L2 : loaded x2 D2.
  Lemma options_words : d_words D1 = d_words D2 /\ d_paradigms D1 = d_paradigms D2 /\ d_suffixes D1 = d_suffixes D2 /\ d_prefixes D1 = d_prefixes D2 /\ map t_str (d_gramtab D1) = map t_str (d_gramtab D2).
  Proof.
    destruct (same_state _ _ _ _ _ _ _ J PP H1 H2) as (st & ks & C1 & _ & C2 & _ & E1 & E2 & E3 & E4). destruct L1 as (A1 & A2 & A3 & A4 & A5 & _). destruct L2 as (B1 & B2 & B3 & B4 & B5 & _).
    rewrite (cc_opt _ _ _ _ _ C1) in A3. rewrite (cc_opt _ _ _ _ _ C2) in B3. repeat split; congruence.
  Qed.
  (** the records of both dictionaries with one numbering *)
  Lemma options_records : exists (nm : paradigm -> nat) ks, ks = map (fun lx => nm (shape (o_prefixes o1) lx)) lxs /\
    (forall w k i, stored D1 w k i <-> In (w, (k, i)) (all_entries lxs ks)) /\
    (forall P P', In P (map (shape (o_prefixes o1)) lxs) -> In P' (map (shape (o_prefixes o1)) lxs) -> nm P = nm P' -> P = P') /\
    (forall P, In P (map (shape (o_prefixes o1)) lxs) -> popularity ks (nm P) = length (shaped (o_prefixes o1) lxs P)) /\
    (forall e n, ending_frequency D1 o1 ks (all_entries lxs ks) e n <-> n = total_hits o1 lxs e) /\
    (forall e n, ending_frequency D2 o2 ks (all_entries lxs ks) e n <-> n = total_hits o2 lxs e) /\
    (forall pid e c k i, predicts D1 pid e c k i <-> exists P, k = nm P /\ source_record o1 lxs pid e c P i) /\
    (forall pid e c k i, predicts D2 pid e c k i <-> exists P, k = nm P /\ source_record o2 lxs pid e c P i).
  Proof.
    destruct (same_state _ _ _ _ _ _ _ J PP H1 H2) as (st & ks & C1 & Q1 & C2 & Q2 & _). exists (num st), ks. split; [exact (numbers _ _ _ _ _ C1)|].
    split. { intros w k i. rewrite (ct_stored _ _ _ (compiled_content _ _ _ _ _ _ C1 L1) w k i), all_entries_In; [reflexivity|]. rewrite (numbers _ _ _ _ _ C1), map_length. reflexivity. }
    split; [exact (num_inj _ _ _ _ _ C1)|]. split; [exact (popularity_count _ _ _ _ _ C1)|].
    split. { intros e n. split; [intros F; exact (frequency_fun _ _ _ _ _ _ _ F (total_frequency _ _ _ _ _ _ C1 L1 e))|intros ->; exact (total_frequency _ _ _ _ _ _ C1 L1 e)]. }
    split. { intros e n. split; [intros F; exact (frequency_fun _ _ _ _ _ _ _ F (total_frequency _ _ _ _ _ _ C2 L2 e))|intros ->; exact (total_frequency _ _ _ _ _ _ C2 L2 e)]. }
    split; [exact (records_source _ _ _ _ _ _ C1 L1 Q1)|exact (records_source _ _ _ _ _ _ C2 L2 Q2)].
  Qed.
End Two.
Lemma shape_hits_len_max : forall o lxs pid e c P i, source_record o lxs pid e c P i -> length e <= o_max_suffix o.
Proof. intros o lxs pid e c P i (s & t & q & N & I & PL & Pop & Ec & C1 & _). apply (shape_hits_len o lxs e P i). rewrite <- Ec. exact C1. Qed.
Lemma sum_map_ext : forall {A} (f g : A -> nat) l, (forall x, In x l -> f x = g x) -> list_sum (map f l) = list_sum (map g l). Proof. intros. apply sum_ext. assumption. Qed.
Section Length.
  Variables (f p m1 m2 : nat) (pp : list str) (lxs : list lexeme) (e : str).
  Hypothesis M : m1 <= m2. Hypothesis LE : length e <= m1. Hypothesis NW : forall lx t, In lx lxs -> ~ In (e, t) lx.
  Let o1 := MkOpt f p m1 pp. Let o2 := MkOpt f p m2 pp.
  Lemma shape_hits_same : forall P i, shape_hits o1 lxs e P i = shape_hits o2 lxs e P i.
  Proof.
    intros P i. unfold shape_hits. change (o_prefixes o2) with (o_prefixes o1). apply sum_ext. intros lx I. destruct (nth_error lx i) as [[w t]|] eqn:N; [|reflexivity]. destruct (nth_error P i) as [[[s t'] q]|]; [|reflexivity].
    apply (hits_same q s m1 m2 e w M LE). intros ->. apply (NW lx t); [|exact (nth_error_In _ _ N)]. unfold shaped in I. apply filter_In in I. tauto.
  Qed.
  Lemma total_hits_same : total_hits o1 lxs e = total_hits o2 lxs e.
  Proof.
    unfold total_hits. change (o_prefixes o2) with (o_prefixes o1). change (o_min_pop o2) with (o_min_pop o1). apply sum_ext. intros lx I. destruct (_ <=? _); [|reflexivity]. apply sum_ext. intros [[w t] [[s t'] q]] C.
    apply (hits_same q s m1 m2 e w M LE). intros ->. apply in_combine_l in C. exact (NW lx t I C).
  Qed.
  Lemma record_same : forall pid c P i, source_record o1 lxs pid e c P i <-> source_record o2 lxs pid e c P i.
  Proof.
    intros pid c P i. split; intros (s & t & q & N & I & PL & Pop & Ec & C1 & Le & Mx); exists s, t, q; (split; [exact N|]); (split; [exact I|]); (split; [exact PL|]); (split; [exact Pop|]).
    - rewrite <- shape_hits_same, <- total_hits_same. split; [exact Ec|]. split; [exact C1|]. split; [exact Le|]. intros P' i' s' t' q' A B. rewrite <- shape_hits_same. exact (Mx P' i' s' t' q' A B).
    - rewrite shape_hits_same, total_hits_same. split; [exact Ec|]. split; [exact C1|]. split; [exact Le|]. intros P' i' s' t' q' A B. rewrite shape_hits_same. exact (Mx P' i' s' t' q' A B).
  Qed.
End Length.
Lemma max_length : forall o src links lxs x D, join_lexemes src links = Ok lxs -> compile_parsed_dict o src links = Ok x -> loaded x D ->
  forall pid e c k i, predicts D pid e c k i -> length e <= o_max_suffix o.
Proof.
  intros o src links lxs x D J H L pid e c k i Q. destruct (options_records o o src links lxs x x D D J eq_refl H H L L) as (nm & ks & K1 & K2 & K3 & K4 & K5 & K6 & R & K7).
  apply (proj1 (R _ _ _ _ _)) in Q. destruct Q as (P & EP & SR). exact (shape_hits_len_max _ _ _ _ _ _ _ SR).
Qed.
Lemma length_option : forall f p m1 m2 pp src links lxs x1 x2 D1 D2, m1 <= m2 -> join_lexemes src links = Ok lxs ->
  compile_parsed_dict (MkOpt f p m1 pp) src links = Ok x1 -> loaded x1 D1 -> compile_parsed_dict (MkOpt f p m2 pp) src links = Ok x2 -> loaded x2 D2 ->
  forall e, (forall lx t, In lx lxs -> ~ In (e, t) lx) -> forall pid c k i, predicts D1 pid e c k i <-> predicts D2 pid e c k i /\ length e <= m1.
Proof.
  intros f p m1 m2 pp src links lxs x1 x2 D1 D2 M J H1 L1 H2 L2 e NW pid c k i. destruct (options_records (MkOpt f p m1 pp) (MkOpt f p m2 pp) _ _ _ _ _ _ _ J eq_refl H1 H2 L1 L2) as (nm & ks & K1 & K2 & K3 & K4 & K5 & K6 & R1 & R2).
  rewrite R1, R2. split.
  - intros (P & E & Q). pose proof (shape_hits_len_max _ _ _ _ _ _ _ Q) as LE. cbn in LE. split; [|exact LE]. exists P. split; [exact E|]. exact (proj1 (record_same f p m1 m2 pp lxs e M LE NW pid c P i) Q).
  - intros ((P & E & Q) & LE). exists P. split; [exact E|]. exact (proj2 (record_same f p m1 m2 pp lxs e M LE NW pid c P i) Q).
Qed.
Lemma frequency_option : forall f1 f2 p m pp src links lxs x1 x2 D1 D2, f1 <= f2 -> join_lexemes src links = Ok lxs ->
  compile_parsed_dict (MkOpt f1 p m pp) src links = Ok x1 -> loaded x1 D1 -> compile_parsed_dict (MkOpt f2 p m pp) src links = Ok x2 -> loaded x2 D2 ->
  exists ks, length ks = length lxs /\ (forall w k i, stored D1 w k i <-> In (w, (k, i)) (all_entries lxs ks)) /\
  forall pid e c k i, predicts D2 pid e c k i <-> predicts D1 pid e c k i /\ exists n, ending_frequency D1 (MkOpt f1 p m pp) ks (all_entries lxs ks) e n /\ f2 <= n.
Proof.
  intros f1 f2 p m pp src links lxs x1 x2 D1 D2 F J H1 L1 H2 L2. destruct (options_records (MkOpt f1 p m pp) (MkOpt f2 p m pp) _ _ _ _ _ _ _ J eq_refl H1 H2 L1 L2) as (nm & ks & K & ST & K3 & K4 & F1 & F2 & R1 & R2).
  exists ks. split; [rewrite K, map_length; reflexivity|]. split; [exact ST|]. intros pid e c k i. rewrite R1, R2. split.
  - intros (P & E & s & t & q & N & I & PL & Pop & Ec & C1 & Le & Mx). cbn in Le. split.
    + exists P. split; [exact E|]. exists s, t, q. split; [exact N|]. split; [exact I|]. split; [exact PL|]. split; [exact Pop|]. split; [exact Ec|]. split; [exact C1|]. split; [cbn; change (total_hits (MkOpt f1 p m pp) lxs e) with (total_hits (MkOpt f2 p m pp) lxs e); lia|exact Mx].
    + exists (total_hits (MkOpt f1 p m pp) lxs e). split; [apply F1; reflexivity|exact Le].
  - intros ((P & E & s & t & q & N & I & PL & Pop & Ec & C1 & Le & Mx) & n & Fn & Ln). apply F1 in Fn. subst n. exists P. split; [exact E|]. exists s, t, q.
    split; [exact N|]. split; [exact I|]. split; [exact PL|]. split; [exact Pop|]. split; [exact Ec|]. split; [exact C1|]. split; [exact Ln|exact Mx].
Qed.
Lemma popularity_option : forall f p1 p2 m pp src links lxs x1 x2 D1 D2, p1 <= p2 -> join_lexemes src links = Ok lxs ->
  compile_parsed_dict (MkOpt f p1 m pp) src links = Ok x1 -> loaded x1 D1 -> compile_parsed_dict (MkOpt f p2 m pp) src links = Ok x2 -> loaded x2 D2 ->
  exists ks, length ks = length lxs /\ (forall w k i, stored D1 w k i <-> In (w, (k, i)) (all_entries lxs ks)) /\
  (forall pid e c k i, predicts D2 pid e c k i -> p2 <= popularity ks k) /\
  forall pid e c k i, predicts D1 pid e c k i -> p2 <= popularity ks k ->
    (exists n, ending_frequency D2 (MkOpt f p2 m pp) ks (all_entries lxs ks) e n /\ f <= n) -> predicts D2 pid e c k i.
Proof.
  intros f p1 p2 m pp src links lxs x1 x2 D1 D2 F J H1 L1 H2 L2. destruct (options_records (MkOpt f p1 m pp) (MkOpt f p2 m pp) _ _ _ _ _ _ _ J eq_refl H1 H2 L1 L2) as (nm & ks & K & ST & K3 & PO & F1 & F2 & R1 & R2).
  exists ks. split; [rewrite K, map_length; reflexivity|]. split; [exact ST|]. split.
  - intros pid e c k i Q. apply R2 in Q as (P & -> & s & t & q & N & I & PL & Pop & _). rewrite (PO P I). exact Pop.
  - intros pid e c k i Q PK (n & Fn & Ln). apply F2 in Fn. subst n. apply R1 in Q as (P & -> & s & t & q & N & I & PL & Pop & Ec & C1 & Le & Mx). apply R2. exists P. split; [reflexivity|]. exists s, t, q.
    split; [exact N|]. split; [exact I|]. split; [exact PL|]. split; [unfold common; pose proof (PO P I) as Z; cbn in Z; cbn; rewrite <- Z; exact PK|]. split; [exact Ec|]. split; [exact C1|]. split; [exact Ln|].
    intros P' i' s' t' q' A B C E. apply (Mx P' i' s' t' q' A B C). unfold common in *. cbn in *. lia.
Qed.
