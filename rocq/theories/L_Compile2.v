(** * Compilation of dictionaries: the compiled data describes the source lexemes (C36) *)
From Coq Require Import String List NArith ZArith QArith Bool Lia Permutation.
From Verif Require Import Py Uni Tagset Dawg Utils Dict Units Analyzer Compile Spec Spec2 Spec3 L_Base L_Para L_Text L_Lexeme L_Compile.
Import ListNotations.
Local Open Scope nat_scope.
Local Open Scope list_scope.

(** ** index tables *)
Lemma index_dict_sound : forall l x n, dget str_eqb x (index_dict l) = Some n -> nth_error l n = Some x.
Proof.
  intros l x n. unfold index_dict.
  assert (X : forall its d, (forall y m, In (m, y) its -> nth_error l m = Some y) -> (forall y m, dget str_eqb y d = Some m -> nth_error l m = Some y) ->
     forall y m, dget str_eqb y (fold_left (fun d ix => dset str_eqb (snd ix) (fst ix) d) its d) = Some m -> nth_error l m = Some y).
  { induction its as [|[i z] its IH]; intros d H1 H2 y m E; simpl in E; [auto|]. eapply IH; [| |exact E].
    - intros; apply H1; right; auto.
    - intros y' m' E'. destruct (str_eq_dec y' z) as [->|N].
      + rewrite (dget_dset_same str_eqb str_eqb_eq) in E'. inversion E'; subst. apply H1. left; auto.
      + rewrite (dget_dset_other str_eqb str_eqb_eq) in E' by auto. auto. }
  apply X; [intros y m H; apply enum_In in H; auto|simpl; discriminate].
Qed.
Lemma index_dict_total : forall l x, In x l -> exists n, dget str_eqb x (index_dict l) = Some n.
Proof.
  intros l x H. unfold index_dict.
  assert (X : forall (its : list (nat * str)) d, (In x (map snd its) \/ dget str_eqb x d <> None) ->
     dget str_eqb x (fold_left (fun d ix => dset str_eqb (snd ix) (fst ix) d) its d) <> None).
  { induction its as [|[i z] its IH]; intros d Hd; simpl in *; [tauto|]. apply IH.
    destruct (str_eq_dec x z) as [->|N]; [right; rewrite (dget_dset_same str_eqb str_eqb_eq); discriminate|].
    destruct Hd as [[Hd|Hd]|Hd]; [congruence|auto|right; rewrite (dget_dset_other str_eqb str_eqb_eq); auto]. }
  specialize (X (enum l) []). rewrite enum_snd in X. specialize (X (or_introl H)).
  destruct (dget str_eqb x (fold_left (fun d ix => dset str_eqb (snd ix) (fst ix) d) (enum l) [])); [eauto|congruence].
Qed.
Lemma insert_str_In : forall x l y, In y (insert_str x l) <-> y = x \/ In y l.
Proof. induction l as [|z l IH]; intros y; simpl; [intuition|]. destruct (str_ltb x z); simpl; [intuition|]. rewrite IH. intuition. Qed.
Lemma sorted_set_In : forall l x, In x (sorted_set l) <-> In x l.
Proof.
  intros l x. unfold sorted_set. rewrite <- (snodup_In l x). induction (snodup l) as [|y r IH]; simpl; [tauto|].
  rewrite insert_str_In, IH. intuition.
Qed.

(** ** linearisation *)
Lemma nth_app_mid : forall {A} (a b c : list A) i x, nth_error b i = Some x -> nth_error (a ++ b ++ c) (length a + i) = Some x.
Proof. intros. rewrite nth_error_app2 by lia. replace (length a + i - length a) with i by lia. apply nth_app_some; auto. Qed.
Lemma third_app : forall (a b c : list nat) n, length a = n -> length b = n -> length c = n -> length (a ++ b ++ c) / 3 = n.
Proof. intros. rewrite !app_length. replace (length a + (length b + length c)) with (n * 3) by lia. apply Nat.div_mul. lia. Qed.

Lemma linearize_spec : forall suffixes prefixes p flat, linearize (index_dict suffixes) (index_dict prefixes) p = Ok flat ->
  exists ss ts qs, flat = ss ++ ts ++ qs /\ length ss = length p /\ length ts = length p /\ length qs = length p /\
    (forall i s t q, nth_error p i = Some (s, t, q) -> exists a b, nth_error ss i = Some a /\ nth_error ts i = Some t /\ nth_error qs i = Some b /\
        nth_error suffixes a = Some s /\ nth_error prefixes b = Some q).
Proof.
  intros suffixes prefixes p flat H. unfold linearize in H. apply bind_ok in H as (rows & R & H).
  apply bind_ok in H as ([] & _ & H). apply Ok_inj in H. pose proof (mapM_length _ _ _ R) as L. apply mapM_ok in R.
  eexists _, _, _. split; [symmetry; exact H|]. rewrite !map_length. split; [auto|]. split; [auto|]. split; [auto|].
  intros i s t q N. destruct (Forall2_nth _ _ _ R i _ N) as (y & Ny & Ey).
  apply bind_ok in Ey as (a & Ea & Ey). apply bind_ok in Ey as (b & Eb & Ey). apply Ok_inj in Ey. subst y.
  exists a, b. rewrite !nth_error_map, Ny. cbn [option_map]. split; [auto|]. split; [auto|]. split; [auto|].
  unfold dget_res in Ea, Eb. destruct (dget str_eqb s (index_dict suffixes)) eqn:E1; [|discriminate]. destruct (dget str_eqb q (index_dict prefixes)) eqn:E2; [|discriminate].
  apply Ok_inj in Ea, Eb. subst. split; eapply index_dict_sound; eauto.
Qed.

(** ** finite record sets *)
Section Distinct.
  Context {A : Type} (eqb : A -> A -> bool) (eqb_ok : forall a b, eqb a b = true <-> a = b).
  Lemma existsb_eqb : forall x l, existsb (eqb x) l = true <-> In x l.
  Proof.
    intros x l. rewrite existsb_exists. split; [intros (y & H & E); apply eqb_ok in E; subst; auto|intros H; exists x; split; auto; apply eqb_ok; auto].
  Qed.
  Lemma distinct_In : forall l seen x, In x (distinct eqb seen l) <-> In x l /\ ~ In x seen.
  Proof.
    induction l as [|y l IH]; intros seen x; simpl; [tauto|]. destruct (existsb (eqb y) seen) eqn:E.
    - apply existsb_eqb in E. rewrite IH. split; [tauto|]. intros [[->|H] N]; [contradiction|tauto].
    - assert (N : ~ In y seen) by (intros I; apply existsb_eqb in I; congruence). simpl. rewrite IH. simpl.
      split; [intros [->|[H1 H2]]; [tauto|split; [tauto|tauto]]|]. intros [[->|H] N2]; [tauto|].
      destruct (eqb y x) eqn:E2; [apply eqb_ok in E2; tauto|]. right. split; auto. intros [->|H2]; [rewrite (proj2 (eqb_ok x x) eq_refl) in E2; discriminate|contradiction].
  Qed.
  Lemma distinct_NoDup : forall l seen, NoDup (distinct eqb seen l).
  Proof.
    induction l as [|y l IH]; intros seen; simpl; [constructor|]. destruct (existsb (eqb y) seen); auto. constructor; auto.
    intros I. apply distinct_In in I as [_ N]. apply N. left; auto.
  Qed.
End Distinct.
Lemma form_eqb_eq : forall a b, form_eqb a b = true <-> a = b.
Proof. intros [a b] [c d]. unfold form_eqb. simpl. rewrite andb_true_iff, !Nat.eqb_eq. split; [intros [-> ->]; auto|intros H; inversion H; auto]. Qed.
Lemma form3_eqb_eq : forall a b, form3_eqb a b = true <-> a = b.
Proof. intros [[a b] e] [[c d] f]. simpl. rewrite !andb_true_iff, !Nat.eqb_eq. split; [intros [[-> ->] ->]; auto|intros H; inversion H; auto]. Qed.

Section Rdawg.
  Context {V : Type} (veqb : V -> V -> bool) (veqb_ok : forall a b, veqb a b = true <-> a = b) (enc : V -> str).
  Lemma rdawg_keys : forall items, map fst (rdawg_of veqb enc items) = sort_desc str_leb (distinct str_eqb [] (map fst items)).
  Proof. intros items. unfold rdawg_of. rewrite map_map. cbn [fst]. apply map_id. Qed.
  Lemma rdawg_key_In : forall items w, In w (map fst (rdawg_of veqb enc items)) <-> In w (map fst items).
  Proof.
    intros items w. rewrite rdawg_keys. split.
    - intros I. apply (Permutation_in _ (Permutation_sym (sort_desc_perm str_leb _))) in I. apply (distinct_In _ str_eqb_eq) in I. apply I.
    - intros I. apply (Permutation_in _ (sort_desc_perm str_leb _)). apply (distinct_In _ str_eqb_eq). split; [exact I|intros []].
  Qed.
  Lemma rdawg_nodup : forall items, NoDup (map fst (rdawg_of veqb enc items)).
  Proof. intros. rewrite rdawg_keys. apply (Permutation_NoDup (sort_desc_perm str_leb _)). apply distinct_NoDup. exact str_eqb_eq. Qed.
  Lemma rdawg_In : forall items w vals, In (w, vals) (rdawg_of veqb enc items) ->
    vals <> [] /\ NoDup vals /\ forall v, In v vals <-> In (w, v) items.
  Proof.
    intros items w vals H0. assert (K := proj1 (rdawg_key_In items w) (in_map fst _ _ H0)). cbn [fst] in K.
    unfold rdawg_of in H0. apply in_map_iff in H0 as (k & E & _). injection E as E1 H1. subst k.
    apply in_map_iff in K as ([w' v] & Ew & H). simpl in Ew. subst w'.
    assert (X : forall v, In v (distinct veqb [] (map snd (filter (fun it => str_eqb (fst it) w) items))) <-> In (w, v) items).
    { intros v'. rewrite (distinct_In _ veqb_ok), in_map_iff. split.
      - intros [([w2 v2] & E & I) _]. apply filter_In in I as [I E2]. simpl in *. apply str_eqb_eq in E2. subst. auto.
      - intros I. split; [|intros []]. exists (w, v'). split; auto. apply filter_In. split; auto. simpl. apply str_eqb_eq. auto. }
    assert (P := sort_desc_perm (fun a b => str_leb (enc a) (enc b)) (distinct veqb [] (map snd (filter (fun it => str_eqb (fst it) w) items)))).
    rewrite H1 in P. assert (Y : forall v, In v vals <-> In (w, v) items).
    { intros v'. rewrite <- X. split; [apply Permutation_in; apply Permutation_sym; exact P|apply Permutation_in; exact P]. }
    split; [|split].
    - intros E. apply Y in H. rewrite E in H. destruct H.
    - apply (Permutation_NoDup P). apply distinct_NoDup. exact veqb_ok.
    - exact Y.
  Qed.
  Lemma rdawg_get : forall items w v, (exists vals, sget w (rdawg_of veqb enc items) = Some vals /\ In v vals) <-> In (w, v) items.
  Proof.
    intros items w v. split.
    - intros (vals & G & I). apply (dget_In str_eqb str_eqb_eq) in G. apply rdawg_In in G as (_ & _ & G). apply G; auto.
    - intros I. destruct (sget w (rdawg_of veqb enc items)) as [vals|] eqn:G.
      + exists vals. split; auto. apply (dget_In str_eqb str_eqb_eq) in G. apply rdawg_In in G as (_ & _ & G). apply G; auto.
      + apply (dget_None str_eqb str_eqb_eq) in G. exfalso. apply G. apply rdawg_key_In.
        apply in_map_iff. exists (w, v). auto.
  Qed.
End Rdawg.

(** ** rows of the compiled dictionary *)
Record Compiled (o : coptions) (lxs : list lexeme) (x : compiled) (st : cstate) (ks : list nat) : Prop := {
  cc_inv : Inv (o_prefixes o) st lxs ks;
  cc_gram : x_gramtab x = c_gramtab st;
  cc_suf : x_suffixes x = all_suffixes (c_paradigms st);
  cc_opt : x_options x = o;
  cc_para : Forall2 (fun p flat => linearize (index_dict (x_suffixes x)) (index_dict (o_prefixes o)) p = Ok flat) (c_paradigms st) (x_paradigms x);
  cc_words : x_words x = rdawg_of form_eqb pack_form (c_words st)
}.
Definition Predicted (o : coptions) (x : compiled) (st : cstate) : Prop :=
  exists pd, prediction_data (c_words st) (c_pop st) (c_gramtab st) (x_paradigms x) (x_suffixes x) (o_prefixes o)
               (o_min_freq o) (o_min_pop o) (o_max_suffix o) = Ok pd /\ x_pred x = map (rdawg_of form3_eqb pack_form3) pd.
Lemma compile_lexemes_inv : forall o lxs x, compile_lexemes o lxs = Ok x -> exists st ks, Compiled o lxs x st ks /\ Predicted o x st.
Proof.
  intros o lxs x H. unfold compile_lexemes in H. apply bind_ok in H as (st & E & H). destruct (compile_loop_inv _ _ _ E) as (ks & I).
  apply bind_ok in H as (paras & P & H). apply bind_ok in H as (pd & PD & H). apply bind_ok in H as (wd & WD & H). apply bind_ok in H as (pds & PDS & H).
  apply Ok_inj in H. subst x. exists st, ks. unfold words_dawg in WD. apply bind_ok in WD as ([] & G & WD). apply Ok_inj in WD. subst wd.
  split.
  - constructor; cbn [x_gramtab x_suffixes x_options x_paradigms x_words x_pred]; auto. apply mapM_ok. exact P.
  - exists pd. split; [exact PD|]. clear - PDS. apply mapM_ok in PDS. induction PDS as [|a b l r H F IH]; simpl; auto. rewrite <- IH. f_equal.
    unfold pred_dawg in H. apply bind_ok in H as ([] & _ & H). apply Ok_inj in H. auto.
Qed.

Lemma map_t_str_nth : forall (gt : list tag) names i t, map t_str gt = names -> nth_error names i = Some t -> exists tg, nth_error gt i = Some tg /\ t_str tg = t.
Proof. intros gt names i t E N. subst names. rewrite nth_error_map in N. destruct (nth_error gt i) as [tg|]; [|discriminate]. simpl in N. inversion N. eauto. Qed.

(** paradigm [k] of the compiled dictionary has the given (suffix, tag text, prefix) rows *)
Definition has_rows (D : dict) (k : nat) (rows : paradigm) : Prop :=
  (exists p, nth_error (d_paradigms D) k = Some p /\ length p = 3 * length rows) /\
  forall i s t q, nth_error rows i = Some (s, t, q) -> exists tg, t_str tg = t /\ para_row D k i q tg s.

Lemma good_row_len : forall gt para rows, Forall2 (good_row gt) para rows -> length para = length rows. Proof. intros. eapply f2_len; eauto. Qed.

Lemma compiled_rows : forall o lxs x st ks D, Compiled o lxs x st ks -> loaded x D ->
  forall k rows para, nth_error (c_paradigms st) k = Some rows -> Forall2 (good_row (c_gramtab st)) para rows -> has_rows D k para.
Proof.
  intros o lxs x st ks D C (L1 & L2 & L3 & L4 & _) k rows para N G.
  destruct (Forall2_nth _ _ _ (cc_para _ _ _ _ _ C) k _ N) as (flat & Nf & Lin).
  destruct (linearize_spec _ _ _ _ Lin) as (ss & ts & qs & -> & E1 & E2 & E3 & R). pose proof (good_row_len _ _ _ G) as LG.
  split.
  - exists (ss ++ ts ++ qs). rewrite L1. split; auto. rewrite !app_length. lia.
  - intros i s t q Ni. destruct (Forall2_nth _ _ _ G i _ Ni) as ([[s' ti] q'] & Ni' & (-> & -> & Gt)).
    destruct (R i s' ti q' Ni') as (a & b & A1 & A2 & A3 & A4 & A5).
    rewrite <- (cc_gram _ _ _ _ _ C) in Gt. destruct (map_t_str_nth _ _ _ _ L2 Gt) as (tg & T1 & T2).
    exists tg. split; auto. exists (ss ++ ts ++ qs), a, ti, b. rewrite L1. split; auto.
    rewrite (third_app ss ts qs (length rows) E1 E2 E3). assert (Li : i < length rows) by (apply nth_error_Some; congruence).
    split; auto. split; [apply nth_app_some; auto|]. split; [rewrite <- E1; apply nth_app_mid; auto|].
    split; [|rewrite L4, L3, (cc_opt _ _ _ _ _ C); auto].
    rewrite app_assoc, nth_error_app2; rewrite app_length, E1, E2; [|lia]. replace (length rows * 2 + i - (length rows + length rows)) with i by lia. auto.
Qed.
Lemma lexeme_rows : forall o lxs x st ks D, Compiled o lxs x st ks -> loaded x D ->
  Forall2 (fun lx k => exists stem para, to_paradigm lx (o_prefixes o) = Ok (stem, para) /\ has_rows D k para) lxs ks.
Proof.
  intros o lxs x st ks D C L. eapply f2_impl; [|exact (iv_done _ _ _ _ (cc_inv _ _ _ _ _ C))]. intros lx k (stem & para & T & G).
  destruct (iv_ids _ _ _ _ (cc_inv _ _ _ _ _ C) _ _ G) as (rows & N & F). exists stem, para. split; auto. eapply compiled_rows; eauto.
Qed.

(** what the dictionary says about one source lexeme *)
Definition describes (D : dict) (lx : lexeme) (k : nat) : Prop :=
  exists stem p, nth_error (d_paradigms D) k = Some p /\ length p = 3 * length lx /\
  forall i f t, nth_error lx i = Some (f, t) -> exists pre tg sf, para_row D k i pre tg sf /\ t_str tg = t /\ f = pre ++ stem ++ sf.
Lemma has_rows_describes : forall D lx pp stem para k, to_paradigm lx pp = Ok (stem, para) -> has_rows D k para -> describes D lx k.
Proof.
  intros D lx pp stem para k T ((p & Np & Lp) & R). destruct (to_paradigm_spec _ _ _ _ T) as (F & _ & _).
  exists stem, p. split; auto. split; [rewrite (f2_len F); auto|]. intros i f t N. destruct (Forall2_nth _ _ _ F i _ N) as ([[s t'] q] & N' & [E1 E2]).
  simpl in E1, E2. subst t'. destruct (R i s t q N') as (tg & T1 & T2). exists q, tg, s. auto.
Qed.
Lemma In_combine_nth : forall {A B} (a : list A) (b : list B) x y, In (x, y) (combine a b) -> exists i, nth_error a i = Some x /\ nth_error b i = Some y.
Proof.
  induction a as [|h a IH]; intros [|k b] x y H; simpl in H; try tauto. destruct H as [H|H]; [inversion H; subst; exists 0; auto|].
  destruct (IH _ _ _ H) as (i & H1 & H2). exists (S i). auto.
Qed.
Lemma nth_combine : forall {A B} (a : list A) (b : list B) i x y, nth_error a i = Some x -> nth_error b i = Some y -> In (x, y) (combine a b).
Proof. induction a as [|h a IH]; intros [|k b] [|i] x y H1 H2; simpl in *; try discriminate; [inversion H1; inversion H2; auto|right; eauto]. Qed.
Lemma entries_In : forall lx k w k' i, In (w, (k', i)) (entries lx k) <-> k' = k /\ exists t, nth_error lx i = Some (w, t).
Proof.
  intros lx k w k' i. unfold entries. rewrite in_map_iff. split.
  - intros ([j [f t]] & E & H). simpl in E. inversion E; subst. apply enum_In in H. eauto.
  - intros (-> & t & H). exists (i, (w, t)). split; auto. apply enum_In; auto.
Qed.
Lemma all_entries_In : forall lxs ks w k i, length lxs = length ks ->
  (In (w, (k, i)) (all_entries lxs ks) <-> exists j lx t, nth_error lxs j = Some lx /\ nth_error ks j = Some k /\ nth_error lx i = Some (w, t)).
Proof.
  intros lxs ks w k i L. unfold all_entries. rewrite in_flat_map. split.
  - intros ([lx k'] & H & I). apply entries_In in I as (-> & t & N). apply In_combine_nth in H as (j & H1 & H2). eauto 7.
  - intros (j & lx & t & H1 & H2 & H3). exists (lx, k). split; [eapply nth_combine; eauto|]. apply entries_In. eauto.
Qed.

(** the whole content of a compiled dictionary *)
Record Content (D : dict) (lxs : list lexeme) (ks : list nat) : Prop := {
  ct_desc : Forall2 (describes D) lxs ks;
  ct_stored : forall w k i, stored D w k i <-> exists j lx t, nth_error lxs j = Some lx /\ nth_error ks j = Some k /\ nth_error lx i = Some (w, t);
  ct_nodup : NoDup (map fst (d_words D));
  ct_vals : forall w vals, In (w, vals) (d_words D) -> vals <> [] /\ NoDup vals
}.
Lemma compiled_content : forall o lxs x st ks D, Compiled o lxs x st ks -> loaded x D -> Content D lxs ks.
Proof.
  intros o lxs x st ks D C L. pose proof (lexeme_rows _ _ _ _ _ _ C L) as F. pose proof (cc_inv _ _ _ _ _ C) as I.
  destruct L as (L1 & L2 & L3 & L4 & L5 & L6 & L7). constructor.
  - eapply f2_impl; [|exact F]. intros lx k (stem & para & T & R). eapply has_rows_describes; eauto.
  - intros w k i. unfold stored. rewrite L5, (cc_words _ _ _ _ _ C), (rdawg_get _ form_eqb_eq pack_form), (iv_words _ _ _ _ I). apply all_entries_In. apply (f2_len F).
  - rewrite L5, (cc_words _ _ _ _ _ C). apply rdawg_nodup.
  - intros w vals H. rewrite L5, (cc_words _ _ _ _ _ C) in H. apply (rdawg_In _ form_eqb_eq pack_form) in H as (H1 & H2 & _). auto.
Qed.
Lemma stored_In : forall D w k i, NoDup (map fst (d_words D)) -> (stored D w k i <-> exists vals, In (w, vals) (d_words D) /\ In (k, i) vals).
Proof.
  intros D w k i N. split; intros (vals & A & B); exists vals; split; auto; [apply (dget_In str_eqb str_eqb_eq)|apply (In_dget str_eqb str_eqb_eq)]; auto.
Qed.
