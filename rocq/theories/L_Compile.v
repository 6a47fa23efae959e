(** * Compilation of dictionaries (C35 C36) *)
From Coq Require Import String List NArith ZArith Bool Lia Permutation.
From Verif Require Import Py Uni Tagset Dawg Utils Dict Compile Spec Spec2 Spec3 L_Base L_Para L_Text.
Import ListNotations.
Local Open Scope nat_scope.
Local Open Scope list_scope.

Lemma rows_of_spec : forall stem lx prefixes,
  Forall2 (fun (ft : str * str) p => exists s, fst ft = p ++ stem ++ s) lx prefixes ->
  Forall2 (row_of_form stem) lx (rows_of stem lx prefixes) /\ map snd (rows_of stem lx prefixes) = prefixes.
Proof.
  intros stem lx prefixes H. unfold rows_of. induction H as [|[f t] p lx ps (s & E) H [IH1 IH2]]; simpl; [split; constructor|].
  split; [|simpl; f_equal; auto]. constructor; [|exact IH1]. cbn [fst snd] in *. split; [|reflexivity].
  simpl in E. rewrite E. rewrite app_assoc. rewrite skipn_app, <- app_length. rewrite skipn_all, Nat.sub_diag, skipn_O. simpl. rewrite <- app_assoc. reflexivity.
Qed.
Lemma index_sub_spec : forall stem form i, index_sub stem form = Ok i -> exists s, form = firstn i form ++ stem ++ s.
Proof.
  intros stem form i H. unfold index_sub in H. destruct (find_sub stem form) as [n|] eqn:E; [|discriminate]. apply Ok_inj in H. subst n.
  apply find_sub_spec in E as (_ & E & _). eauto.
Qed.
Lemma prefixes_spec : forall st (l : lexeme) fs, mapM (fun form => let* i := index_sub st form in Ok (firstn i form)) (map fst l) = Ok fs ->
  Forall2 (fun (ft : str * str) p => exists s, fst ft = p ++ st ++ s) l fs.
Proof.
  intros st l. induction l as [|[f t] l IH]; intros fs H; cbn [map mapM fst] in H.
  - apply Ok_inj in H. subst. constructor.
  - apply bind_ok in H as (p & E1 & H). apply bind_ok in H as (ps & E2 & H). apply Ok_inj in H. subst. constructor; auto.
    apply bind_ok in E1 as (i & E1 & E3). apply Ok_inj in E3. subst p. simpl. apply index_sub_spec; auto.
Qed.
(** what _to_paradigm returns *)
Lemma to_paradigm_spec : forall lx pp stem rows, to_paradigm lx pp = Ok (stem, rows) ->
  Forall2 (row_of_form stem) lx rows /\
  (forall r, In r rows -> snd r = [] \/ In (snd r) pp) /\
  ((length lx = 1 /\ map fst lx = [stem]) \/
   (1 < length lx /\ stem = longest_common_substring (map fst lx)) \/
   (stem = [] /\ forall r, In r rows -> snd r = [])).
Proof.
  intros lx pp stem rows H.
  assert (Z : forall (lx : lexeme), Forall2 (fun (ft : str * str) p => exists s, fst ft = p ++ [] ++ s) lx (map (fun _ => []) lx)).
  { induction lx0 as [|[f t] l IH]; simpl; constructor; auto. exists f. auto. }
  destruct lx as [|[f t] [|[f2 t2] lx]]; [discriminate| |].
  - cbn [to_paradigm] in H. apply Ok_inj in H. inversion H; subst. clear H.
    destruct (rows_of_spec stem [(stem, t)] [[]]) as [R1 R2].
    { constructor; [|constructor]. exists []. simpl. rewrite app_nil_r. auto. }
    split; [exact R1|]. split; [|left; auto]. intros r Hr. left. apply (in_map snd) in Hr. rewrite R2 in Hr. destruct Hr as [<-|[]]. auto.
  - set (l := (f, t) :: (f2, t2) :: lx) in *. unfold to_paradigm in H. unfold l at 1 in H. cbv iota in H.
    apply bind_ok in H as (prefixes & E & H).
    destruct (existsb (fun p => negb (smem p pp)) prefixes) eqn:X.
    + apply Ok_inj in H. inversion H; subst. clear H. destruct (rows_of_spec [] l (map (fun _ => []) l) (Z l)) as [R1 R2].
      assert (N : forall r, In r (rows_of [] l (map (fun _ => []) l)) -> snd r = []).
      { intros r Hr. apply (in_map snd) in Hr. rewrite R2 in Hr. apply in_map_iff in Hr as (? & <- & _). auto. }
      split; [exact R1|]. split; [intros r Hr; left; auto|right; right; auto].
    + apply Ok_inj in H. pose proof (f_equal fst H) as H1; pose proof (f_equal snd H) as H2; cbn [fst snd] in H1, H2; subst stem rows; clear H. set (st := longest_common_substring (map fst l)) in *.
      destruct (rows_of_spec st l prefixes) as [R1 R2].
      { apply prefixes_spec. exact E. }
      split; [exact R1|]. split; [|right; left; split; [simpl; lia|reflexivity]].
      intros r Hr. right. apply (in_map snd) in Hr. rewrite R2 in Hr. destruct (smem (snd r) pp) eqn:M; [apply smem_In; auto|].
      assert (existsb (fun p => negb (smem p pp)) prefixes = true) by (apply existsb_exists; exists (snd r); rewrite M; auto). congruence.
Qed.
Lemma to_paradigm_total : forall lx pp, lx <> [] -> exists stem rows, to_paradigm lx pp = Ok (stem, rows).
Proof.
  intros lx pp N. destruct lx as [|[f t] [|[f2 t2] lx]]; [congruence|cbn [to_paradigm]; eauto|].
  unfold to_paradigm. set (l := (f, t) :: (f2, t2) :: lx). cbv iota.
  destruct (mapM_exists (fun form => let* i := index_sub (longest_common_substring (map fst l)) form in Ok (firstn i form)) (map fst l)) as (ps & E).
  - intros x Hx. destruct (lcs_spec f (map fst ((f2, t2) :: lx))) as (C & _ & _).
    destruct (C x Hx) as (a & b & Ex). change (longest_common_substring (f :: map fst ((f2, t2) :: lx))) with (longest_common_substring (map fst l)) in Ex.
    destruct (find_sub_some (longest_common_substring (map fst l)) x) as (n & En); [apply substrb_spec; eauto|].
    unfold index_sub. rewrite En. simpl. eauto.
  - rewrite E. cbn [bind]. match goal with |- context [existsb ?f ps] => destruct (existsb f ps) end; eauto.
Qed.

(** ** The main loop *)
Lemma prow_eqb_eq : forall a b, prow_eqb a b = true <-> a = b.
Proof.
  intros [[s t] p] [[s' t'] p']. simpl. rewrite !andb_true_iff, !str_eqb_eq. split; [intros [[-> ->] ->]; auto|intros H; inversion H; auto].
Qed.
Lemma paradigm_eqb_eq : forall a b, paradigm_eqb a b = true <-> a = b.
Proof. apply list_eqb_spec. exact prow_eqb_eq. Qed.
Lemma nat_eqb_eq : forall a b, (a =? b) = true <-> a = b. Proof. intros. apply Nat.eqb_eq. Qed.

Definition good_row (gt : list str) (r : prow) (q : str * nat * str) : Prop :=
  let '(s, t, p) := r in let '(s', i, p') := q in s = s' /\ p = p' /\ nth_error gt i = Some t.
Record Inv (pp : list str) (st : cstate) (done : list lexeme) (ks : list nat) : Prop := {
  iv_tags : forall t n, dget str_eqb t (c_tag_ids st) = Some n -> nth_error (c_gramtab st) n = Some t;
  iv_gt : NoDup (c_gramtab st) /\ forall t, In t (c_gramtab st) -> dget str_eqb t (c_tag_ids st) <> None;
  iv_used : forall t, In t (c_gramtab st) -> exists lx, In lx done /\ In t (map snd lx);
  iv_ids : forall para k, dget paradigm_eqb para (c_para_ids st) = Some k ->
    exists rows, nth_error (c_paradigms st) k = Some rows /\ Forall2 (good_row (c_gramtab st)) para rows;
  iv_para : forall k rows, nth_error (c_paradigms st) k = Some rows ->
    exists para lx stem, dget paradigm_eqb para (c_para_ids st) = Some k /\ In lx done /\ to_paradigm lx pp = Ok (stem, para);
  iv_done : Forall2 (fun lx k => exists stem para, to_paradigm lx pp = Ok (stem, para) /\ dget paradigm_eqb para (c_para_ids st) = Some k) done ks;
  iv_words : c_words st = all_entries done ks;
  iv_pop : forall k, dget Nat.eqb k (c_pop st) = match count_occ Nat.eq_dec ks k with 0 => None | n => Some n end
}.
Lemma add_grams : forall (done : list lexeme) para gt ids gt' ids',
  fold_left add_gram para (gt, ids) = (gt', ids') ->
  (forall t n, dget str_eqb t ids = Some n -> nth_error gt n = Some t) ->
  (NoDup gt /\ forall t, In t gt -> dget str_eqb t ids <> None) ->
  (forall t n, dget str_eqb t ids' = Some n -> nth_error gt' n = Some t) /\
  (NoDup gt' /\ forall t, In t gt' -> dget str_eqb t ids' <> None) /\
  (exists more, gt' = gt ++ more /\ forall t, In t more -> exists s p, In (s, t, p) para) /\
  (forall s t p, In (s, t, p) para -> dget str_eqb t ids' <> None).
Proof.
  intros done. induction para as [|[[s t] p] para IH]; intros gt ids gt' ids' E H1 H2.
  - simpl in E. inversion E; subst. split; auto. split; auto. split; [exists []; rewrite app_nil_r; split; [auto|intros ? []]|intros ? ? ? []].
  - cbn [fold_left add_gram] in E. unfold din in E. destruct (dget str_eqb t ids) as [n|] eqn:D.
    + destruct (IH _ _ _ _ E H1 H2) as (A & B & (more & C1 & C2) & F). split; auto. split; auto. split.
      * exists more. split; auto. intros x Hx. destruct (C2 x Hx) as (s' & p' & I). exists s', p'. right; auto.
      * intros s' t' p' [I|I]; [|eapply F; eauto]. inversion I; subst. clear I.
        (* ids only grows *)
        assert (G : forall para gt ids gt' ids', fold_left add_gram para (gt, ids) = (gt', ids') -> forall t, dget str_eqb t ids <> None -> dget str_eqb t ids' <> None).
        { clear. induction para as [|[[s t] p] para IH]; intros gt ids gt' ids' E x Hx; [simpl in E; inversion E; subst; auto|].
          cbn [fold_left add_gram] in E. unfold din in E. destruct (dget str_eqb t ids) eqn:D; [eapply IH; eauto|]. eapply IH; [exact E|].
          destruct (str_eq_dec x t) as [->|N]; [rewrite (dget_dset_same str_eqb str_eqb_eq); discriminate|rewrite (dget_dset_other str_eqb str_eqb_eq); auto]. }
        eapply G; [exact E|]. rewrite D. discriminate.
    + destruct H2 as [N2 H2]. assert (NI : ~ In t gt) by (intros I; apply (H2 t I); exact D).
      assert (K1 : forall t0 n, dget str_eqb t0 (dset str_eqb t (length gt) ids) = Some n -> nth_error (gt ++ [t]) n = Some t0).
      { intros x n Hx. destruct (str_eq_dec x t) as [->|N].
        - rewrite (dget_dset_same str_eqb str_eqb_eq) in Hx. inversion Hx; subst. rewrite nth_error_app2, Nat.sub_diag by lia. auto.
        - rewrite (dget_dset_other str_eqb str_eqb_eq) in Hx by auto. apply H1 in Hx. rewrite nth_error_app1; auto. apply nth_error_Some. congruence. }
      assert (K2 : NoDup (gt ++ [t]) /\ forall t0, In t0 (gt ++ [t]) -> dget str_eqb t0 (dset str_eqb t (length gt) ids) <> None).
      { split.
        - apply NoDup_app_r || (eapply Permutation_NoDup; [apply Permutation_cons_append|]; constructor; auto).
        - intros x Hx. destruct (str_eq_dec x t) as [->|N]; [rewrite (dget_dset_same str_eqb str_eqb_eq); discriminate|].
          rewrite (dget_dset_other str_eqb str_eqb_eq) by auto. apply in_app_iff in Hx as [Hx|[Hx|[]]]; [auto|congruence]. }
      destruct (IH _ _ _ _ E K1 K2) as (A & B & (more & C1 & C2) & F). split; auto. split; auto. split.
      * exists (t :: more). rewrite C1, <- app_assoc. split; auto. intros x [<-|Hx]; [exists s, p; left; auto|].
        destruct (C2 x Hx) as (s' & p' & I). exists s', p'. right; auto.
      * intros s' t' p' [I|I]; [|eapply F; eauto]. inversion I; subst. apply B. apply in_app_iff. left. apply in_app_iff. right; left; auto.
Qed.
Lemma f2_len : forall {A B} {P : A -> B -> Prop} {a b}, Forall2 P a b -> length a = length b.
Proof. intros A B P a b H. induction H; simpl; auto. Qed.
Lemma f2_impl : forall {A B} (P Q : A -> B -> Prop) a b, (forall x y, P x y -> Q x y) -> Forall2 P a b -> Forall2 Q a b.
Proof. intros A B P Q a b H F. induction F; constructor; auto. Qed.
Lemma nth_app_some : forall {A} (l m : list A) n x, nth_error l n = Some x -> nth_error (l ++ m) n = Some x.
Proof. intros A l m n x H. rewrite nth_error_app1; auto. apply nth_error_Some. congruence. Qed.
Lemma good_row_app : forall gt more para rows, Forall2 (good_row gt) para rows -> Forall2 (good_row (gt ++ more)) para rows.
Proof.
  intros gt more para rows H. induction H as [|[[s t] p] [[s' i] p'] a b (H1 & H2 & H3) H IH]; constructor; auto.
  split; auto. split; auto. apply nth_app_some; auto.
Qed.
Lemma combine_snoc : forall {A B} (a : list A) (b : list B) x y, length a = length b -> combine (a ++ [x]) (b ++ [y]) = combine a b ++ [(x, y)].
Proof. induction a as [|h a IH]; intros [|k b] x y H; simpl in *; try discriminate; auto. f_equal. apply IH. lia. Qed.
Lemma entries_rows : forall lx stem rows k, Forall2 (row_of_form stem) lx rows ->
  map (fun ir : nat * prow => let '(idx, (s, _, p)) := ir in (p ++ stem ++ s, (k, idx))) (enum rows) = entries lx k.
Proof.
  intros lx stem rows k H. unfold entries, enum. generalize 0. induction H as [|[f t] [[s t'] p] lx rows [E _] H IH]; intros n; simpl; auto.
  simpl in E. rewrite IH, E. auto.
Qed.
Lemma count_snoc : forall ks k x, count_occ Nat.eq_dec (ks ++ [k]) x = count_occ Nat.eq_dec ks x + if Nat.eq_dec k x then 1 else 0.
Proof. intros. rewrite count_occ_app. simpl. destruct (Nat.eq_dec k x); auto. Qed.
Lemma compile_lexeme_inv : forall pp st done ks lx st', Inv pp st done ks -> compile_lexeme pp st lx = Ok st' ->
  exists k, Inv pp st' (done ++ [lx]) (ks ++ [k]).
Proof.
  intros pp st done ks lx st' I H. unfold compile_lexeme in H. apply bind_ok in H as ([stem para] & T & H).
  destruct (fold_left add_gram para (c_gramtab st, c_tag_ids st)) as [gt ids] eqn:G.
  destruct (add_grams done _ _ _ _ _ G (iv_tags _ _ _ _ I) (iv_gt _ _ _ _ I)) as (A & B & (more & C1 & C2) & F).
  apply bind_ok in H as ([paras pids] & P & H). apply bind_ok in H as (k & K & H). apply Ok_inj in H. subst st'.
  exists k. unfold dget_res in K. destruct (dget paradigm_eqb para pids) as [k'|] eqn:DK; [|discriminate]. apply Ok_inj in K. subst k'.
  destruct (to_paradigm_spec _ _ _ _ T) as (R & _ & _).
  assert (M : (forall q j, dget paradigm_eqb q (c_para_ids st) = Some j -> dget paradigm_eqb q pids = Some j) /\
    (forall q j, dget paradigm_eqb q pids = Some j -> exists rows, nth_error paras j = Some rows /\ Forall2 (good_row gt) q rows) /\
    (forall j rows, nth_error paras j = Some rows -> exists q l s, dget paradigm_eqb q pids = Some j /\ In l (done ++ [lx]) /\ to_paradigm l pp = Ok (s, q))).
  { unfold din in P. destruct (dget paradigm_eqb para (c_para_ids st)) as [k0|] eqn:D.
    - apply Ok_inj in P. inversion P; subst paras pids. split; auto. split.
      + intros q j Hq. destruct (iv_ids _ _ _ _ I q j Hq) as (rows & N & Fr). exists rows. split; auto. rewrite C1. apply good_row_app; auto.
      + intros j rows N. destruct (iv_para _ _ _ _ I j rows N) as (q & l & s & Q1 & Q2 & Q3). exists q, l, s. rewrite in_app_iff. auto.
    - apply bind_ok in P as (rows & Er & P). apply Ok_inj in P. inversion P; subst paras pids. clear P. split; [|split].
      + intros q j Hq. rewrite (dget_dset_other paradigm_eqb paradigm_eqb_eq); auto. congruence.
      + intros q j Hq. destruct (paradigm_eqb q para) eqn:Eq.
        * apply paradigm_eqb_eq in Eq. subst q. rewrite (dget_dset_same paradigm_eqb paradigm_eqb_eq) in Hq. inversion Hq; subst.
          exists rows. rewrite nth_error_app2, Nat.sub_diag by lia. split; auto. apply mapM_ok in Er.
          clear - Er A. induction Er as [|[[s t] p] y a b Ey Er IH]; constructor; auto. apply bind_ok in Ey as (i & E1 & E2). apply Ok_inj in E2. subst y.
          split; auto. split; auto. apply A. unfold dget_res in E1. destruct (dget str_eqb t ids); congruence.
        * assert (NE : q <> para) by (intros ->; rewrite (proj2 (paradigm_eqb_eq para para) eq_refl) in Eq; discriminate).
          rewrite (dget_dset_other paradigm_eqb paradigm_eqb_eq) in Hq by auto.
          destruct (iv_ids _ _ _ _ I q j Hq) as (rws & N & Fr). exists rws. split; [apply nth_app_some; auto|]. rewrite C1. apply good_row_app; auto.
      + intros j rws N. destruct (Nat.lt_ge_cases j (length (c_paradigms st))) as [L|L].
        * rewrite nth_error_app1 in N by auto. destruct (iv_para _ _ _ _ I j rws N) as (q & l & s & Q1 & Q2 & Q3).
          exists q, l, s. rewrite in_app_iff. split; [|auto]. rewrite (dget_dset_other paradigm_eqb paradigm_eqb_eq); auto. congruence.
        * assert (j = length (c_paradigms st)). { assert (j < length (c_paradigms st ++ [rows])) by (apply nth_error_Some; congruence). rewrite app_length in H. simpl in H. lia. }
          subst j. exists para, lx, stem. split; [apply (dget_dset_same paradigm_eqb paradigm_eqb_eq)|]. split; [apply in_app_iff; right; left; auto|exact T]. }
  destruct M as (M1 & M2 & M3). assert (LK := f2_len (iv_done _ _ _ _ I)).
  constructor; cbn [c_gramtab c_tag_ids c_paradigms c_para_ids c_pop c_words]; auto.
  - intros t Ht. rewrite C1 in Ht. apply in_app_iff in Ht as [Ht|Ht].
    + destruct (iv_used _ _ _ _ I t Ht) as (l & L1 & L2). exists l. rewrite in_app_iff. auto.
    + exists lx. split; [apply in_app_iff; right; left; auto|]. destruct (C2 t Ht) as (s & p & Ip).
      apply In_nth_error in Ip as (i & Ip). destruct (Forall2_nth_r _ _ _ R i _ Ip) as ([f t'] & Nf & [_ E2]). simpl in E2. subst t'.
      apply in_map_iff. exists (f, t). split; auto. eapply nth_error_In; eauto.
  - apply Forall2_app; [|constructor; [|constructor]].
    + eapply f2_impl; [|exact (iv_done _ _ _ _ I)]. intros l j (s & q & Q1 & Q2). exists s, q. auto.
    + exists stem, para. auto.
  - rewrite (iv_words _ _ _ _ I). unfold all_entries. rewrite combine_snoc by exact LK. rewrite flat_map_app. cbn [flat_map fst snd]. rewrite app_nil_r. f_equal. exact (entries_rows lx stem para k R).
  - intros x. rewrite count_snoc. pose proof (iv_pop _ _ _ _ I k) as Pk. pose proof (iv_pop _ _ _ _ I x) as Px. unfold incr. destruct (Nat.eq_dec k x) as [->|N].
    + rewrite (dget_dset_same Nat.eqb nat_eqb_eq). rewrite Px. destruct (count_occ Nat.eq_dec ks x); simpl; auto. f_equal. lia.
    + rewrite (dget_dset_other Nat.eqb nat_eqb_eq) by auto. rewrite Px, Nat.add_0_r. auto.
Qed.
Lemma inv_init : forall pp, Inv pp c_init [] [].
Proof.
  intros pp. constructor; simpl; auto; try discriminate.
  - split; [constructor|intros ? []].
  - intros ? [].
  - intros [|k] rows H; discriminate.
Qed.
Lemma compile_loop_inv : forall pp lxs st, foldM (compile_lexeme pp) c_init lxs = Ok st -> exists ks, Inv pp st lxs ks.
Proof.
  intros pp lxs st H.
  assert (X : forall l st0 done ks, Inv pp st0 done ks -> foldM (compile_lexeme pp) st0 l = Ok st -> exists ks', Inv pp st (done ++ l) ks').
  { induction l as [|lx l IH]; intros st0 done ks I E; simpl in E.
    - apply Ok_inj in E. subst. rewrite app_nil_r. eauto.
    - apply bind_ok in E as (s1 & E1 & E). destruct (compile_lexeme_inv _ _ _ _ _ _ I E1) as (k & I1).
      destruct (IH _ _ _ I1 E) as (ks' & I2). rewrite <- app_assoc in I2. eauto. }
  exact (X lxs c_init [] [] (inv_init pp) H).
Qed.
