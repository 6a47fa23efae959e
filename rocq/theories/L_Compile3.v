(** * Compiled dictionaries: lookups (C36) and prediction data (C37) *)
From Coq Require Import String List NArith ZArith QArith Bool Lia Permutation.
From Verif Require Import Py Uni Tagset Dawg Utils Dict Units Analyzer Compile Spec Spec2 Spec3 L_Base L_Para L_Text L_Lexeme L_Compile L_Compile2.
Import ListNotations.
Local Open Scope nat_scope.
Local Open Scope list_scope.

Lemma nth_ext_eq : forall {A} (a b : list A), (forall i, nth_error a i = nth_error b i) -> a = b.
Proof.
  induction a as [|x a IH]; intros [|y b] H; auto; try (specialize (H 0); discriminate). pose proof (H 0) as H0. simpl in H0. inversion H0. f_equal. apply IH. intros i. exact (H (S i)).
Qed.
(** ** C36 *)
Lemma describes_row : forall D lx k i f t, describes D lx k -> nth_error lx i = Some (f, t) ->
  exists stem pre tg sf pre0 tg0 sf0 nf t0, nth_error lx 0 = Some (nf, t0) /\ para_row D k i pre tg sf /\ para_row D k 0 pre0 tg0 sf0 /\
    t_str tg = t /\ t_str tg0 = t0 /\ f = pre ++ stem ++ sf /\ nf = pre0 ++ stem ++ sf0.
Proof.
  intros D lx k i f t (stem & p & Np & Lp & R) N. destruct lx as [|[nf t0] lx]; [destruct i; discriminate|].
  destruct (R i f t N) as (pre & tg & sf & R1 & R2 & R3). destruct (R 0 nf t0 eq_refl) as (pre0 & tg0 & sf0 & Q1 & Q2 & Q3).
  exists stem, pre, tg, sf, pre0, tg0, sf0, nf, t0. repeat split; auto.
Qed.
Lemma describes_info : forall D lx k, describes D lx k -> exists stem rows, build_paradigm_info D k = Ok rows /\
  map (fun r : str * tag * str => let '(q, tg, s) := r in (q ++ stem ++ s, t_str tg)) rows = lx /\
  forall i f t, nth_error lx i = Some (f, t) -> exists pre tg sf, para_row D k i pre tg sf /\ t_str tg = t /\ f = pre ++ stem ++ sf.
Proof.
  intros D lx k (stem & p & Np & Lp & R). exists stem.
  assert (T : length p / 3 = length lx) by (rewrite Lp, Nat.mul_comm; apply Nat.div_mul; lia).
  assert (E : exists rows, build_paradigm_info D k = Ok rows).
  { unfold build_paradigm_info. rewrite (proj2 (nth_res_ok _ _ _) Np). cbn [bind]. apply mapM_exists. intros i Hi. apply in_seq in Hi.
    destruct (nth_error lx i) as [[f t]|] eqn:N; [|apply nth_error_None in N; lia]. destruct (R i f t N) as (pre & tg & sf & R1 & _).
    rewrite (para_row_tag _ _ _ _ _ _ R1). destruct R1 as (p' & s & ti & q & A1 & A2 & A3 & A4 & A5 & A6 & A7 & A8).
    rewrite Np in A1. injection A1 as <-. rewrite (proj2 (nth_res_ok _ _ _) A5). cbn [bind]. rewrite (proj2 (nth_res_ok _ _ _) A8). cbn [bind].
    rewrite (proj2 (nth_res_ok _ _ _) A3). cbn [bind]. rewrite (proj2 (nth_res_ok _ _ _) A6). cbn [bind]. eauto. }
  destruct E as (rows & E). exists rows. split; [exact E|]. split; [|exact R].
  assert (L : length rows = length lx).
  { unfold build_paradigm_info in E. rewrite (proj2 (nth_res_ok _ _ _) Np) in E. cbn [bind] in E. apply mapM_length in E. rewrite seq_length in E. lia. }
  apply nth_ext_eq. intros i. rewrite nth_error_map. destruct (nth_error lx i) as [[f t]|] eqn:N.
  - destruct (R i f t N) as (pre & tg & sf & R1 & <- & ->). rewrite (proj2 (paradigm_info_nth _ _ _ i E (pre, tg, sf)) R1). symmetry. exact N.
  - apply nth_error_None in N. transitivity (@None (str * str)); [|symmetry; apply nth_error_None; exact N]. destruct (nth_error rows i) eqn:X; [|reflexivity]. exfalso. assert (i < length rows) by (apply nth_error_Some; congruence). lia.
Qed.
Lemma content_forms : forall D lxs ks, Content D lxs ks -> forall lx, In lx lxs -> exists k, forall i w t, nth_error lx i = Some (w, t) ->
  stored D w k i /\
  exists tg nf tnf, t_str tg = t /\ nth_error lx 0 = Some (nf, tnf) /\ build_tag_info D k i = Ok tg /\ build_normal_form D k i w = Ok nf /\
  forall M self sc nf', m_dict M = D -> exists fam, dict_lexeme M self (MkParse w tg nf' sc [MDict self w k i]) = Ok fam /\
    map (fun f => (p_word f, t_str (p_tag f))) fam = lx.
Proof.
  intros D lxs ks C lx I. apply In_nth_error in I as (j & Nj). destruct (Forall2_nth _ _ _ (ct_desc _ _ _ C) j _ Nj) as (k & Nk & De).
  exists k. intros i w t N. split; [apply (ct_stored _ _ _ C); exists j, lx, t; auto|].
  destruct (describes_row _ _ _ _ _ _ De N) as (stem & pre & tg & sf & pre0 & tg0 & sf0 & nf & t0 & N0 & R & R0 & T & T0 & E & E0).
  exists tg, nf, t0. split; [auto|]. split; [auto|]. split; [eapply para_row_tag; eauto|]. split.
  - subst w nf. eapply row_nf_app; eauto.
  - intros M self sc nf' EM. destruct (describes_info _ _ _ De) as (stem' & rows & Er & Em & Rr).
    destruct (Rr i w t N) as (pre' & tg' & sf' & R' & T' & E'). destruct (para_row_fun _ _ _ _ _ _ _ _ _ R R') as (<- & <- & <-).
    unfold dict_lexeme. cbn [p_stack p_word p_nf extract_para_info]. assert (SR : uref_eqb self self = true) by (destruct self; simpl; apply Nat.eqb_refl). rewrite SR. cbn [bind].
    rewrite EM. pose proof R as (p & _ & _ & _ & A1 & _). rewrite (proj2 (nth_res_ok _ _ _) A1). cbn [bind].
    rewrite (row_stem _ _ _ _ _ _ _ _ R A1), E', middle_app. cbn [bind]. rewrite Er. cbn [bind]. eexists. split; [reflexivity|].
    rewrite map_map. rewrite <- Em. rewrite <- (enum_snd rows) at 2. rewrite map_map. apply map_ext. intros [idx [[q tg1] s1]]. reflexivity.
Qed.
Lemma content_source : forall D lxs ks, Content D lxs ks -> forall w k i, stored D w k i ->
  exists lx t, In lx lxs /\ nth_error lx i = Some (w, t) /\
  exists tg nf tnf, t_str tg = t /\ nth_error lx 0 = Some (nf, tnf) /\ build_tag_info D k i = Ok tg /\ build_normal_form D k i w = Ok nf.
Proof.
  intros D lxs ks C w k i S. apply (ct_stored _ _ _ C) in S as (j & lx & t & N1 & N2 & N3).
  destruct (Forall2_nth _ _ _ (ct_desc _ _ _ C) j _ N1) as (k' & Nk & De). rewrite N2 in Nk. injection Nk as <-.
  destruct (describes_row _ _ _ _ _ _ De N3) as (stem & pre & tg & sf & pre0 & tg0 & sf0 & nf & t0 & N0 & R & R0 & T & T0 & E & E0).
  exists lx, t. split; [eapply nth_error_In; eauto|]. split; auto. exists tg, nf, t0. split; [auto|]. split; [auto|]. split; [eapply para_row_tag; eauto|].
  subst w nf. eapply row_nf_app; eauto.
Qed.
Lemma content_iter : forall D lxs ks pfx, Content D lxs ks -> exists l, iter_known_words D pfx = Ok l /\
  forall w tg nf k i, In (w, tg, nf, k, i) l <-> stored D w k i /\ (exists r, w = pfx ++ r) /\ build_tag_info D k i = Ok tg /\ build_normal_form D k i w = Ok nf.
Proof.
  intros D lxs ks pfx C. unfold iter_known_words.
  assert (It : forall w k i, In (w, (k, i)) (iteritems (d_words D) pfx) <-> stored D w k i /\ exists r, w = pfx ++ r).
  { intros w k i. unfold iteritems. rewrite in_flat_map, (stored_In _ _ _ _ (ct_nodup _ _ _ C)). split.
    - intros ([w' vals] & H & I). cbn [fst snd] in I. destruct (prefixb pfx w') eqn:P; [|destruct I]. apply in_map_iff in I as (v & E & I). inversion E; subst.
      split; eauto. apply prefixb_spec; auto.
    - intros ((vals & A & B) & P). exists (w, vals). split; auto. cbn [fst snd]. apply prefixb_spec in P. rewrite P. apply in_map; auto. }
  match goal with |- context [mapM ?f ?l] => destruct (mapM_exists f l) as (r & E) end.
  { intros [w [k i]] H. apply It in H as [H _]. destruct (content_source _ _ _ C _ _ _ H) as (lx & t & _ & _ & tg & nf & tn & _ & _ & H1 & H2).
    rewrite H1. cbn [bind]. rewrite H2. cbn [bind]. eauto. }
  exists r. split; [exact E|]. intros w tg nf k i. split.
  - intros I. destruct (mapM_In _ _ _ _ E I) as ([w' [k' i']] & I' & E'). apply bind_ok in E' as (tg' & E1 & E'). apply bind_ok in E' as (nf' & E2 & E').
    apply Ok_inj in E'. inversion E'; subst. apply It in I' as [I1 I2]. auto.
  - intros (S & P & T & N). destruct (mapM_In_l _ _ _ (w, (k, i)) E) as (y & E' & I); [apply It; auto|]. cbn beta iota in E'. rewrite T in E'. cbn [bind] in E'. rewrite N in E'. cbn [bind] in E'.
    apply Ok_inj in E'. subst y. auto.
Qed.

(** ** Prediction data (C37) *)
Lemma tag_pos_spec : forall t, tag_pos t = pos_text t.
Proof.
  intros t. unfold tag_pos.
  induction t as [|c t IH]; [reflexivity|]. cbn [replace_first pos_text]. destruct (N.eqb_spec c (chr " ")) as [->|N].
  - rewrite orb_true_r. reflexivity.
  - cbn [split_on]. destruct (N.eqb_spec c (chr ",")) as [->|N2]; [reflexivity|]. cbn [orb].
    destruct (split_on (chr ",") (replace_first (chr " ") (chr ",") t)) as [|p ps] eqn:E; [destruct (replace_first (chr " ") (chr ",") t); simpl in E; [discriminate|destruct (_ =? _)%N; [discriminate|destruct (split_on _ _); discriminate]]|].
    rewrite IH. reflexivity.
Qed.
Lemma tail_slice : forall w n, 0 < n -> slice_from w (- Z.of_nat n) = tail_of n w.
Proof. intros. unfold tail_of. apply slice_from_neg; auto. Qed.

Section Pred.
  Variables (o : coptions) (lxs : list lexeme) (x : compiled) (st : cstate) (ks : list nat) (D : dict).
  Hypotheses (C : Compiled o lxs x st ks) (L : loaded x D).
  Let es := all_entries lxs ks.
  Let Ct : Content D lxs ks := compiled_content _ _ _ _ _ _ C L.

  Definition entry_row (en : str * (nat * nat)) (pre : str) (tg : tag) (sf : str) (pid : nat) : Prop :=
    para_row D (fst (snd en)) (snd (snd en)) pre tg sf /\ prefix_number D (fst (snd en)) (snd (snd en)) pid /\ nth_error (o_prefixes o) pid = Some pre /\
    exists stem, fst en = pre ++ stem ++ sf.
  Lemma entry_row_ex : forall en, In en es -> exists pre tg sf pid, entry_row en pre tg sf pid.
  Proof.
    intros [w [k i]] H. apply all_entries_In in H as (j & lx & t & N1 & N2 & N3); [|exact (f2_len (ct_desc _ _ _ Ct))].
    destruct (Forall2_nth _ _ _ (ct_desc _ _ _ Ct) j _ N1) as (k' & Nk & De). rewrite N2 in Nk. injection Nk as <-.
    destruct De as (stem & p & Np & Lp & R). destruct (R i w t N3) as (pre & tg & sf & R1 & R2 & R3).
    pose proof R1 as (p' & a & b & c & A1 & A2 & A3 & A4 & A5 & A6 & A7 & A8). exists pre, tg, sf, c. split; [exact R1|]. split; [exists p'; auto|].
    split; [|exists stem; auto]. pose proof L as (_ & _ & L3 & _). rewrite <- (cc_opt _ _ _ _ _ C), <- L3. auto.
  Qed.
  Lemma productive_spec : forall k, In k ks -> productive (c_pop st) (o_min_pop o) k = (o_min_pop o <=? popularity ks k).
  Proof.
    intros k H. unfold productive, popularity. rewrite (iv_pop _ _ _ _ (cc_inv _ _ _ _ _ C)). apply (count_occ_In Nat.eq_dec) in H. destruct (count_occ Nat.eq_dec ks k); [lia|reflexivity].
  Qed.
  Lemma entry_ks : forall en, In en es -> In (fst (snd en)) ks.
  Proof.
    intros [w [k i]] H. apply all_entries_In in H as (j & lx & t & N1 & N2 & N3); [|exact (f2_len (ct_desc _ _ _ Ct))]. eapply nth_error_In; eauto.
  Qed.
  Definition hit_lengths (pre sf w : str) : list nat :=
    if length pre + length sf <? length w then seq (Nat.max (length sf) 1) (S (o_max_suffix o) - Nat.max (length sf) 1) else [].
  Definition the_events (en : str * (nat * nat)) (pre : str) (tg : tag) (sf : str) (pid : nat) : list pevent :=
    if o_min_pop o <=? popularity ks (fst (snd en))
    then map (fun n => MkEv pid (tail_of n (fst en)) (pos_text (t_str tg)) (snd en)) (hit_lengths pre sf (fst en))
    else [].
  Lemma word_events_ok : forall en pre tg sf pid, In en es -> entry_row en pre tg sf pid ->
    word_events (x_paradigms x) (c_gramtab st) (x_suffixes x) (o_prefixes o) (c_pop st) (o_min_pop o) (o_max_suffix o) en = Ok (the_events en pre tg sf pid).
  Proof.
    intros [w [k i]] pre tg sf pid I (R & (p & P1 & P2 & P3) & Np & (stem & Ew)). cbn [fst snd] in *. unfold word_events, the_events.
    pose proof (entry_ks _ I) as Ik. cbn [fst snd] in *. rewrite (productive_spec _ Ik). destruct (o_min_pop o <=? popularity ks k); cbn [negb]; [|reflexivity].
    pose proof L as (L1 & L2 & L3 & L4 & _). destruct R as (p' & a & b & c & A1 & A2 & A3 & A4 & A5 & A6 & A7 & A8).
    rewrite P1 in A1. injection A1 as <-. rewrite <- L1, (proj2 (nth_res_ok _ _ _) P1). cbn [bind].
    rewrite (proj2 (nth_res_ok _ _ _) A4). cbn [bind]. rewrite <- (cc_gram _ _ _ _ _ C), <- L2.
    assert (G : nth_res (map t_str (d_gramtab D)) b = Ok (t_str tg)) by (apply nth_res_ok; rewrite nth_error_map, A7; auto). rewrite G. cbn [bind].
    rewrite (Nat.mul_comm 2). rewrite (proj2 (nth_res_ok _ _ _) P3). cbn [bind]. rewrite (proj2 (nth_res_ok _ _ _) Np). cbn [bind].
    rewrite (proj2 (nth_res_ok _ _ _) A3). cbn [bind]. rewrite <- L4, (proj2 (nth_res_ok _ _ _) A6). cbn [bind].
    assert (LE : length pre + length sf <= length w) by (rewrite Ew, !app_length; lia).
    rewrite (proj2 (Nat.leb_le _ _) LE). cbn [guard bind].
    assert (E1 : prefixb pre w = true) by (apply prefixb_spec; rewrite Ew; eauto). rewrite E1. cbn [guard bind].
    assert (E2 : suffixb sf w = true) by (apply suffixb_spec; rewrite Ew, app_assoc; eauto). rewrite E2. cbn [guard bind].
    unfold hit_lengths. destruct (Nat.eqb_spec (length w) (length pre + length sf)) as [E|NE].
    - rewrite (proj2 (Nat.ltb_ge _ _)) by lia. reflexivity.
    - rewrite (proj2 (Nat.ltb_lt _ _)) by lia. f_equal. apply map_ext_in. intros n Hn. apply in_seq in Hn. rewrite tag_pos_spec, tail_slice by lia. reflexivity.
  Qed.
  Definition evs_of (en : str * (nat * nat)) (l : list pevent) : Prop := exists pre tg sf pid, entry_row en pre tg sf pid /\ l = the_events en pre tg sf pid.
  Lemma prediction_events : Predicted o x st -> exists evss, Forall2 evs_of es evss /\
    x_pred x = map (fun pid => rdawg_of form3_eqb pack_form3 (suffixes_data (concat evss) (filter (fun e => ev_pid e =? pid) (concat evss)) (o_min_freq o))) (seq 0 (length (o_prefixes o))).
  Proof.
    intros (pd & P & X). unfold prediction_data in P. apply bind_ok in P as (evss & E & P). apply Ok_inj in P. subst pd.
    exists evss. split; [|rewrite X, map_map; reflexivity]. rewrite (iv_words _ _ _ _ (cc_inv _ _ _ _ _ C)) in E. fold es in E. apply mapM_ok in E.
    assert (X' : forall l evs, (forall en, In en l -> In en es) -> Forall2 (fun en ev => word_events (x_paradigms x) (c_gramtab st) (x_suffixes x) (o_prefixes o) (c_pop st) (o_min_pop o) (o_max_suffix o) en = Ok ev) l evs -> Forall2 evs_of l evs).
    { induction l as [|en l IH]; intros evs S' F; inversion F; subst; constructor.
      - destruct (entry_row_ex en) as (pre & tg & sf & pid & R); [apply S'; left; auto|]. exists pre, tg, sf, pid. split; auto.
        rewrite (word_events_ok en pre tg sf pid) in H1; auto; [|apply S'; left; auto]. apply Ok_inj in H1. auto.
      - apply IH; auto. intros; apply S'; right; auto. }
    exact (X' es evss (fun _ h => h) E).
  Qed.
  (** ** counting *)
  Lemma lsum_cons : forall a l, list_sum (a :: l) = a + list_sum l. Proof. reflexivity. Qed.
  Lemma count_concat : forall {A} (f : A -> bool) l, count_if f (concat l) = list_sum (map (count_if f) l).
  Proof. intros A f l. unfold count_if. induction l as [|a l IH]; simpl; auto. rewrite filter_app, app_length, IH. auto. Qed.
  Lemma count_map : forall {A B} (g : A -> B) (f : B -> bool) l, count_if f (map g l) = count_if (fun x => f (g x)) l.
  Proof. intros A B g f l. unfold count_if. induction l as [|a l IH]; simpl; auto. destruct (f (g a)); simpl; auto. Qed.
  Lemma count_ext : forall {A} (f g : A -> bool) l, (forall x, In x l -> f x = g x) -> count_if f l = count_if g l.
  Proof.
    intros A f g l H. unfold count_if. f_equal. induction l as [|a l IH]; simpl; auto. rewrite (H a) by (left; auto). rewrite IH; auto. intros; apply H; right; auto.
  Qed.
  Lemma count_false : forall {A} (l : list A), count_if (fun _ => false) l = 0. Proof. intros A l. unfold count_if. induction l; auto. Qed.
  Lemma count_filter : forall {A} (f g : A -> bool) l, count_if f (filter g l) = count_if (fun x => g x && f x) l.
  Proof. intros A f g l. unfold count_if. induction l as [|a l IH]; simpl; auto. destruct (g a); simpl; auto. destruct (f a); simpl; auto. Qed.
  Lemma count_pos : forall {A} (f : A -> bool) l, 1 <= count_if f l <-> exists x, In x l /\ f x = true.
  Proof.
    intros A f l. unfold count_if. split.
    - intros H. destruct (filter f l) as [|y r] eqn:E; [simpl in H; lia|]. exists y. apply filter_In. rewrite E. left; auto.
    - intros (y & H & F). assert (I : In y (filter f l)) by (apply filter_In; auto). destruct (filter f l); [destruct I|simpl; lia].
  Qed.
  Lemma hits_lengths : forall pre sf e w, ending_hits pre sf (o_max_suffix o) e w = count_if (fun n => str_eqb (tail_of n w) e) (hit_lengths pre sf w).
  Proof. intros. unfold ending_hits, hit_lengths, count_if. destruct (_ <? _); reflexivity. Qed.
  Lemma events_end : forall en pre tg sf pid e, count_if (fun ev => str_eqb (ev_end ev) e) (the_events en pre tg sf pid) =
    if o_min_pop o <=? popularity ks (fst (snd en)) then ending_hits pre sf (o_max_suffix o) e (fst en) else 0.
  Proof. intros. unfold the_events. destruct (_ <=? _); [|reflexivity]. rewrite count_map, hits_lengths. reflexivity. Qed.

  Variable evss : list (list pevent).
  Hypothesis F : Forall2 evs_of es evss.
  Let E := concat evss.
  Lemma frequency : forall e, ending_frequency D o ks es e (count_if (fun ev => str_eqb (ev_end ev) e) E).
  Proof.
    intros e. unfold E. rewrite count_concat. exists (map (count_if (fun ev => str_eqb (ev_end ev) e)) evss). split; auto.
    clear - F. induction F as [|en l es' evs' (pre & tg & sf & pid & R & ->) F' IH]; constructor; auto.
    exists pre, tg, sf. split; [exact (proj1 R)|]. apply events_end.
  Qed.
  Lemma event_inv : forall ev, In ev E -> exists en pre tg sf pid n, In en es /\ entry_row en pre tg sf pid /\ popular o ks (fst (snd en)) /\
    In n (hit_lengths pre sf (fst en)) /\ ev = MkEv pid (tail_of n (fst en)) (pos_text (t_str tg)) (snd en).
  Proof.
    intros ev H. unfold E in H. apply in_concat in H as (l & Hl & H). apply In_nth_error in Hl as (j & Nj). destruct (Forall2_nth_r _ _ _ F j _ Nj) as (en & Ne & pre & tg & sf & pid & R & ->).
    unfold the_events in H. destruct (Nat.leb_spec (o_min_pop o) (popularity ks (fst (snd en)))) as [P|P]; [|destruct H].
    apply in_map_iff in H as (n & <- & Hn). exists en, pre, tg, sf, pid, n. split; [eapply nth_error_In; eauto|]. auto.
  Qed.
  Lemma prefix_number_fun : forall k i a b, prefix_number D k i a -> prefix_number D k i b -> a = b.
  Proof. intros k i a b (p & A1 & A2 & A3) (q & B1 & B2 & B3). rewrite A1 in B1. injection B1 as <-. congruence. Qed.
  Lemma form_counts_hits : forall e k i pre tg sf, para_row D k i pre tg sf -> popular o ks k ->
    count_if (fun ev => str_eqb (ev_end ev) e && form_eqb (ev_form ev) (k, i)) E =
    list_sum (map (fun en => ending_hits pre sf (o_max_suffix o) e (fst en)) (filter (fun en => (fst (snd en) =? k) && (snd (snd en) =? i)) es)).
  Proof.
    intros e k i pre tg sf R P. unfold E. rewrite count_concat. clear - F R P. induction F as [|en l es' evs' (pre' & tg' & sf' & pid & R' & ->) F' IH]; [reflexivity|].
    cbn [map filter]. rewrite lsum_cons, (IH F'). clear IH. destruct en as [w [k' i']]. cbn [fst snd].
    destruct ((k' =? k) && (i' =? i)) eqn:Q.
    - apply andb_true_iff in Q as [Q1 Q2]. apply Nat.eqb_eq in Q1, Q2. subst k' i'. cbn [map]. rewrite lsum_cons. f_equal.
      destruct R' as [R' _]. cbn [fst snd] in R'. destruct (para_row_fun _ _ _ _ _ _ _ _ _ R R') as (Q1 & Q2 & Q3). subst pre' tg' sf'.
      transitivity (count_if (fun ev => str_eqb (ev_end ev) e) (the_events (w, (k, i)) pre tg sf pid)).
      + apply count_ext. intros ev H. unfold the_events in H. destruct (_ <=? _) in H; [|destruct H]. apply in_map_iff in H as (n & <- & _). cbn [ev_form snd]. rewrite (proj2 (form_eqb_eq _ _) eq_refl). apply andb_true_r.
      + rewrite events_end. cbn [fst snd]. rewrite (proj2 (Nat.leb_le _ _) P). reflexivity.
    - transitivity (0 + list_sum (map (fun en => ending_hits pre sf (o_max_suffix o) e (fst en)) (filter (fun en => (fst (snd en) =? k) && (snd (snd en) =? i)) es'))); [|reflexivity]. f_equal.
      rewrite <- (count_false (the_events (w, (k', i')) pre' tg' sf' pid)). apply count_ext. intros ev H. unfold the_events in H. destruct (_ <=? _) in H; [|destruct H].
      apply in_map_iff in H as (n & <- & _). cbn [ev_form snd ev_end]. unfold form_eqb. cbn [fst snd]. rewrite Q. apply andb_false_r.
  Qed.
  Lemma event_form : forall ev k i pid tg, In ev E -> ev_form ev = (k, i) -> prefix_number D k i pid -> build_tag_info D k i = Ok tg ->
    ev_pid ev = pid /\ ev_pos ev = pos_text (t_str tg) /\ popular o ks k.
  Proof.
    intros ev k i pid tg H Ef P T. destruct (event_inv _ H) as ([w [k' i']] & pre & tg' & sf & pid' & n & I & (R & P' & _) & Pop & _ & ->). cbn [ev_form ev_pid ev_pos fst snd] in *.
    inversion Ef; subst k' i'. split; [eapply prefix_number_fun; eauto|]. rewrite (para_row_tag _ _ _ _ _ _ R) in T. apply Ok_inj in T. subst. auto.
  Qed.
  Lemma form_has : forall ev, In ev E -> exists pid tg, prefix_number D (fst (ev_form ev)) (snd (ev_form ev)) pid /\ build_tag_info D (fst (ev_form ev)) (snd (ev_form ev)) = Ok tg.
  Proof.
    intros ev H. destruct (event_inv _ H) as ([w [k' i']] & pre & tg' & sf & pid' & n & I & (R & P' & _) & Pop & _ & ->). cbn [ev_form fst snd] in *.
    exists pid', tg'. split; auto. eapply para_row_tag; eauto.
  Qed.
  Lemma here_count : forall e k i pid tg, prefix_number D k i pid -> build_tag_info D k i = Ok tg ->
    count_if (fun ev => form_eqb (ev_form ev) (k, i)) (filter (fun ev => str_eqb (ev_pos ev) (pos_text (t_str tg))) (filter (fun ev => str_eqb (ev_end ev) e) (filter (fun ev => ev_pid ev =? pid) E))) =
    count_if (fun ev => str_eqb (ev_end ev) e && form_eqb (ev_form ev) (k, i)) E.
  Proof.
    intros e k i pid tg P T. rewrite !count_filter. apply count_ext. intros ev H. destruct (form_eqb (ev_form ev) (k, i)) eqn:Q; [|rewrite !andb_false_r; reflexivity].
    apply form_eqb_eq in Q. destruct (event_form _ _ _ _ _ H Q P T) as (<- & -> & _). rewrite Nat.eqb_refl, (proj2 (str_eqb_eq _ _) eq_refl). rewrite !andb_true_r. reflexivity.
  Qed.
  Lemma largest_one : forall {A} (key : A -> Z) (l : list A) y, In y (largest_elements key 1 l) <-> In y l /\ forall z, In z l -> (key z <= key y)%Z.
  Proof.
    intros A key l y. destruct (largest_spec key 1 l) as (f & -> & H). rewrite filter_In. split.
    - intros [I Ff]. split; auto. intros z Hz. apply (H y I) in Ff as (larger & _ & Hl & Len). assert (larger = []) by (destruct larger; [auto|simpl in Len; lia]). subst larger.
      destruct (Z.le_gt_cases (key z) (key y)) as [|G]; auto. exfalso. apply (proj2 (Hl (key z))). split; [lia|exists z; auto].
    - intros [I M]. split; auto. apply (H y I). exists []. split; [constructor|]. split; [|simpl; lia]. intros z. split; [intros []|]. intros (Lt & w & Hw & <-). specialize (M w Hw). lia.
  Qed.
  Lemma form_counts_In : forall evs f c, In (f, c) (form_counts evs) <-> (exists ev, In ev evs /\ ev_form ev = f) /\ c = count_if (fun ev => form_eqb (ev_form ev) f) evs.
  Proof.
    intros evs f c. unfold form_counts. rewrite in_map_iff. split.
    - intros (f' & Ef & I). inversion Ef; subst. apply (distinct_In _ form_eqb_eq) in I as [I _]. apply in_map_iff in I as (ev & <- & I). split; eauto.
    - intros ((ev & I & <-) & ->). exists (ev_form ev). split; auto. apply (distinct_In _ form_eqb_eq). split; [|intros []]. apply in_map; auto.
  Qed.
  (** membership in the prediction data, in terms of the increments *)
  Lemma suffixes_data_In : forall pid e c k i, In (e, (c, k, i)) (suffixes_data E (filter (fun ev => ev_pid ev =? pid) E) (o_min_freq o)) <->
    prefix_number D k i pid /\ 1 <= c /\ c = count_if (fun ev => str_eqb (ev_end ev) e && form_eqb (ev_form ev) (k, i)) E /\
    o_min_freq o <= count_if (fun ev => str_eqb (ev_end ev) e) E /\
    forall k' i' tg tg', prefix_number D k' i' pid -> build_tag_info D k i = Ok tg -> build_tag_info D k' i' = Ok tg' -> pos_text (t_str tg') = pos_text (t_str tg) ->
      count_if (fun ev => str_eqb (ev_end ev) e && form_eqb (ev_form ev) (k', i')) E <= c.
  Proof.
    intros pid e c k i. unfold suffixes_data. rewrite in_flat_map. split.
    - intros (e' & He & H). destruct (Nat.ltb_spec (count_if (fun ev => str_eqb (ev_end ev) e') E) (o_min_freq o)) as [Lt|Ge]; [destruct H|].
      apply in_flat_map in H as (pos & Hpos & H). apply in_map_iff in H as ([[k1 i1] c1] & Q & H). cbn [fst snd] in Q. inversion Q; subst e' c1 k1 i1. clear Q.
      apply largest_one in H as [H Mx]. apply form_counts_In in H as ((ev & Iev & Fev) & Cn).
      apply filter_In in Iev as [Iev Pev]. apply str_eqb_eq in Pev. apply filter_In in Iev as [Iev Eev]. apply str_eqb_eq in Eev. apply filter_In in Iev as [Iev Qev]. apply Nat.eqb_eq in Qev.
      destruct (form_has _ Iev) as (pid' & tg & P & T). rewrite Fev in P, T. cbn [fst snd] in P, T. destruct (event_form _ _ _ _ _ Iev Fev P T) as (E1 & E2 & Pop).
      rewrite E1 in Qev. subst pid'. rewrite E2 in Pev. subst pos. rewrite (here_count e k i pid tg P T) in Cn. split; [exact P|].
      split; [rewrite Cn; apply count_pos; exists ev; rewrite Eev, Fev, (proj2 (str_eqb_eq _ _) eq_refl), (proj2 (form_eqb_eq _ _) eq_refl); auto|].
      split; [exact Cn|]. split; [exact Ge|]. intros k' i' tg0 tg' P' T0 T' Ep. rewrite T in T0. apply Ok_inj in T0. subst tg0.
      destruct (Nat.le_gt_cases (count_if (fun ev => str_eqb (ev_end ev) e && form_eqb (ev_form ev) (k', i')) E) 0) as [|Gt]; [lia|].
      assert (Y := Gt). apply count_pos in Y as (ev' & I' & Q'). apply andb_true_iff in Q' as [Q1 Q2]. apply form_eqb_eq in Q2.
      destruct (event_form _ _ _ _ _ I' Q2 P' T') as (E1' & E2' & _).
      specialize (Mx ((k', i'), count_if (fun ev => str_eqb (ev_end ev) e && form_eqb (ev_form ev) (k', i')) E)). cbn [snd] in Mx. apply Nat2Z.inj_le. apply Mx.
      apply form_counts_In. rewrite <- Ep, (here_count e k' i' pid tg' P' T'). split; auto. exists ev'. split; auto.
      apply filter_In. split; [|apply str_eqb_eq; congruence]. apply filter_In. split; auto. apply filter_In. split; auto. apply Nat.eqb_eq; auto.
    - intros (P & Pc & Cn & Fr & Mx). assert (Y := Pc). rewrite Cn in Y. apply count_pos in Y as (ev & Iev & Q). apply andb_true_iff in Q as [Q1 Q2]. apply form_eqb_eq in Q2.
      destruct (form_has _ Iev) as (pid' & tg & P' & T). rewrite Q2 in P', T. cbn [fst snd] in P', T. destruct (event_form _ _ _ _ _ Iev Q2 P T) as (E1 & E2 & Pop).
      assert (I1 : In ev (filter (fun ev => ev_pid ev =? pid) E)) by (apply filter_In; split; auto; apply Nat.eqb_eq; auto).
      assert (I2 : In ev (filter (fun ev => str_eqb (ev_end ev) e) (filter (fun ev => ev_pid ev =? pid) E))) by (apply filter_In; split; auto).
      assert (I3 : In ev (filter (fun ev => str_eqb (ev_pos ev) (pos_text (t_str tg))) (filter (fun ev => str_eqb (ev_end ev) e) (filter (fun ev => ev_pid ev =? pid) E)))) by (apply filter_In; split; auto; apply str_eqb_eq; auto).
      exists e. split; [apply (distinct_In _ str_eqb_eq); split; [|intros []]; apply str_eqb_eq in Q1; rewrite <- Q1; apply in_map; exact I1|].
      rewrite (proj2 (Nat.ltb_ge _ _) Fr). apply in_flat_map. exists (pos_text (t_str tg)). split; [apply (distinct_In _ str_eqb_eq); split; [|intros []]; rewrite <- E2; apply in_map; exact I2|].
      apply in_map_iff. exists ((k, i), c). split; [reflexivity|]. apply largest_one. split.
      + apply form_counts_In. split; [exists ev; auto|]. rewrite (here_count e k i pid tg P T). exact Cn.
      + intros [[k' i'] c'] Hz. apply form_counts_In in Hz as ((ev' & I' & Q') & ->). cbn [snd].
        apply filter_In in I' as [I' Pev]. apply str_eqb_eq in Pev. apply filter_In in I' as [I' Eev]. apply filter_In in I' as [I' Qev]. apply Nat.eqb_eq in Qev.
        destruct (form_has _ I') as (pid2 & tg2 & P2 & T2). rewrite Q' in P2, T2. cbn [fst snd] in P2, T2. destruct (event_form _ _ _ _ _ I' Q' P2 T2) as (E1' & E2' & _).
        rewrite E1' in Qev. subst pid2. assert (Ep : pos_text (t_str tg2) = pos_text (t_str tg)) by congruence.
        rewrite <- Ep, (here_count e k' i' pid tg2 P2 T2). apply Nat2Z.inj_le. exact (Mx k' i' tg tg2 P2 T T2 Ep).
  Qed.
End Pred.

Lemma predicts_iff : forall o lxs x st ks D, Compiled o lxs x st ks -> Predicted o x st -> loaded x D -> forall pid e c k i,
  predicts D pid e c k i <->
  prefix_number D k i pid /\ popular o ks k /\ 1 <= c /\ form_hits D o (all_entries lxs ks) e k i c /\
  (exists n, ending_frequency D o ks (all_entries lxs ks) e n /\ o_min_freq o <= n) /\
  (forall k' i' c' tg tg', prefix_number D k' i' pid -> popular o ks k' -> build_tag_info D k i = Ok tg -> build_tag_info D k' i' = Ok tg' ->
     pos_text (t_str tg') = pos_text (t_str tg) -> form_hits D o (all_entries lxs ks) e k' i' c' -> c' <= c).
Proof.
  intros o lxs x st ks D C Pd L pid e c k i. destruct (prediction_events _ _ _ _ _ _ C L Pd) as (evss & F & X).
  pose proof L as (L1 & L2 & L3 & L4 & L5 & L6 & L7).
  assert (S : predicts D pid e c k i <-> pid < length (o_prefixes o) /\ In (e, (c, k, i)) (suffixes_data (concat evss) (filter (fun ev => ev_pid ev =? pid) (concat evss)) (o_min_freq o))).
  { unfold predicts. rewrite L6, X. split.
    - intros (dawg & vals & N & G & I). rewrite nth_error_map in N. destruct (nth_error (seq 0 (length (o_prefixes o))) pid) as [q|] eqn:Q; [|discriminate]. simpl in N. injection N as <-.
      assert (LT : pid < length (o_prefixes o)) by (rewrite <- (seq_length (length (o_prefixes o)) 0); apply nth_error_Some; congruence).
      assert (q = pid) by (apply (nth_error_nth _ _ 0) in Q; rewrite seq_nth in Q by auto; lia). subst q. split; auto.
      apply (rdawg_get _ form3_eqb_eq pack_form3). eauto.
    - intros (LT & I). apply (rdawg_get _ form3_eqb_eq pack_form3) in I as (vals & G & I). eexists _, vals. split; [|split; [exact G|exact I]].
      rewrite nth_error_map. rewrite (nth_error_nth' _ 0) by (rewrite seq_length; auto). rewrite seq_nth by auto. reflexivity. }
  assert (HR : forall k i p, prefix_number D k i p -> forall cnt, count_if (fun ev => str_eqb (ev_end ev) e && form_eqb (ev_form ev) (k, i)) (concat evss) = cnt -> 1 <= cnt ->
      popular o ks k /\ form_hits D o (all_entries lxs ks) e k i cnt).
  { intros k0 i0 p P cnt Ec Pc. assert (Y := Pc). rewrite <- Ec in Y. apply count_pos in Y as (ev & Iev & Q). apply andb_true_iff in Q as [_ Q2]. apply form_eqb_eq in Q2.
    destruct (event_inv _ _ _ _ evss F _ Iev) as ([w [k' i']] & pre & tg & sf & pid' & n & I & (R & P' & _) & Pop & _ & ->). cbn [ev_form fst snd] in *. injection Q2 as -> ->.
    split; auto. exists pre, tg, sf. split; auto. rewrite <- Ec. eapply form_counts_hits; eauto. }
  rewrite S. rewrite (suffixes_data_In _ _ _ _ evss F). split.
  - intros (LT & P & Pc & Cn & Fr & Mx). destruct (HR k i pid P c (eq_sym Cn) Pc) as (Pop & FH). split; [auto|]. split; [auto|]. split; [auto|]. split; [exact FH|].
    split; [eexists; split; [eapply frequency; exact F|exact Fr]|]. intros k' i' c' tg tg' P' Pop' T T' Ep (pre & tg2 & sf & R & ->).
    rewrite <- (form_counts_hits _ _ _ _ evss F e k' i' pre tg2 sf R Pop'). eapply Mx; eauto.
  - intros (P & Pop & Pc & FH & (n & Fr & Le) & Mx). destruct FH as (pre & tg & sf & R & Ec).
    assert (LT : pid < length (o_prefixes o)).
    { destruct P as (p & A1 & A2 & A3). destruct R as (p' & a & b & q & B1 & B2 & B3 & B4 & B5 & B6 & B7 & B8). rewrite A1 in B1. injection B1 as <-. rewrite A3 in B5. injection B5 as <-.
      rewrite L3, (cc_opt _ _ _ _ _ C) in B8. apply nth_error_Some. congruence. }
    split; auto. split; auto. split; auto. rewrite <- (form_counts_hits _ _ _ _ evss F e k i pre tg sf R Pop) in Ec. split; [exact Ec|].
    assert (Fun : forall a b, ending_frequency D o ks (all_entries lxs ks) e a -> ending_frequency D o ks (all_entries lxs ks) e b -> a = b).
    { intros a b (na & -> & Fa) (nb & -> & Fb). f_equal. clear - Fa Fb. revert nb Fb. induction Fa as [|en m es ms (pre & tg & sf & R & ->) Fa IH]; intros nb Fb; inversion Fb; subst; auto.
      destruct H1 as (pre' & tg' & sf' & R' & ->). destruct (para_row_fun _ _ _ _ _ _ _ _ _ R R') as (Q1 & Q2 & Q3). subst. f_equal. auto. }
    rewrite (Fun _ _ (frequency _ _ _ _ evss F e) Fr). split; auto.
    intros k' i' tg1 tg' P' T1 T' Ep. destruct (Nat.le_gt_cases (count_if (fun ev => str_eqb (ev_end ev) e && form_eqb (ev_form ev) (k', i')) (concat evss)) 0) as [|Gt]; [lia|].
    destruct (HR k' i' pid P' _ eq_refl) as (Pop' & FH'); [lia|]. eapply Mx; eauto.
Qed.
