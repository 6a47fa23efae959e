(** * Proofs about the P(t|w) estimates *)
From Coq Require Import String List NArith ZArith Bool QArith Lia.
From Verif Require Import Py Uni Tagset Dawg Dict Units Analyzer Compile Preprocess Probability Spec5 L_Base L_Pre L_ByUnit.
Import ListNotations.
Local Open Scope nat_scope.
Local Open Scope list_scope.

Lemma seq_refl : forall a, seq_set a a = true. Proof. intro. apply seq_set_iff. tauto. Qed.
Lemma seq_sym : forall a b, seq_set a b = seq_set b a.
Proof. intros. unfold seq_set. apply andb_comm. Qed.
Lemma seq_trans : forall a b c, seq_set a b = true -> seq_set b c = true -> seq_set a c = true.
Proof. intros a b c H1 H2. rewrite seq_set_iff in *. intro x. rewrite (H1 x). apply H2. Qed.
Lemma seq_cong : forall a b c, seq_set a b = true -> seq_set a c = seq_set b c.
Proof.
  intros a b c H. destruct (seq_set b c) eqn:E.
  - eapply seq_trans; eauto.
  - destruct (seq_set a c) eqn:E2; auto. rewrite seq_sym in H. rewrite (seq_trans _ _ _ H E2) in E. discriminate E.
Qed.

(** ** frequency distributions *)
Definition fd_of (l : list sset) : fdist := fold_left (fun d g => incr seq_set g d) l [].
Lemma fd_of_snoc : forall l g, fd_of (l ++ [g]) = incr seq_set g (fd_of l).
Proof. intros. unfold fd_of. rewrite fold_left_app. reflexivity. Qed.

Lemma dset_count : forall (fd : fdist) g n h, fd_count (dset seq_set g n fd) h = if seq_set h g then n else fd_count fd h.
Proof.
  induction fd as [|[k v] r IH]; intros g n h.
  - unfold fd_count; simpl. destruct (seq_set h g); auto.
  - simpl. destruct (seq_set g k) eqn:E.
    + unfold fd_count; simpl. destruct (seq_set h k) eqn:E2.
      * rewrite (seq_sym g k) in E. rewrite (seq_trans _ _ _ E2 E). auto.
      * destruct (seq_set h g) eqn:E3; auto. rewrite (seq_trans _ _ _ E3 E) in E2. discriminate E2.
    + unfold fd_count in *; simpl. destruct (seq_set h k) eqn:E2.
      * destruct (seq_set h g) eqn:E3; auto. rewrite (seq_sym h g) in E3. rewrite (seq_trans _ _ _ E3 E2) in E. discriminate E.
      * apply IH.
Qed.
Lemma fd_count_of : forall l h, fd_count (fd_of l) h = times h l.
Proof.
  induction l as [|g l IH] using rev_ind; intro h; auto.
  rewrite fd_of_snoc. unfold incr. rewrite dset_count. unfold times. rewrite filter_app, app_length. simpl.
  destruct (seq_set h g) eqn:E; simpl.
  - pose proof (IH g) as I. unfold fd_count in I. unfold times in I.
    assert (length (filter (seq_set h) l) = length (filter (seq_set g) l)) as L.
    { f_equal. apply filter_ext. intro. apply seq_cong; auto. }
    destruct (dget seq_set g (fd_of l)); lia.
  - rewrite IH. unfold times. lia.
Qed.
Lemma dset_sum : forall (fd : fdist) g n, fd_N (dset seq_set g n fd) + fd_count fd g = fd_N fd + n.
Proof.
  induction fd as [|[k v] r IH]; intros g n; unfold fd_N, fd_count in *; simpl; auto; [lia|].
  destruct (seq_set g k); simpl; [lia|]. specialize (IH g n). lia.
Qed.
Lemma fd_N_of : forall l, fd_N (fd_of l) = length l.
Proof.
  induction l as [|g l IH] using rev_ind; auto.
  rewrite fd_of_snoc, app_length. simpl. unfold incr.
  match goal with |- fd_N (dset _ _ ?n _) = _ => pose proof (dset_sum (fd_of l) g n) as S end.
  unfold fd_count in S. destruct (dget seq_set g (fd_of l)); lia.
Qed.
Lemma times_zero : forall g l, times g l = 0 <-> existsb (seq_set g) l = false.
Proof.
  intros g l. unfold times. induction l as [|x r IH]; simpl; [tauto|].
  destruct (seq_set g x); simpl; [split; discriminate|]. exact IH.
Qed.
Lemma kinds_snoc : forall l g, kinds (l ++ [g]) = if existsb (seq_set g) l then kinds l else S (kinds l).
Proof.
  induction l as [|x r IH]; intro g; simpl; auto.
  rewrite IH. rewrite existsb_app. simpl. rewrite orb_false_r.
  rewrite (seq_sym g x).
  destruct (seq_set x g) eqn:E.
  - rewrite orb_true_r. simpl.
    assert (existsb (seq_set g) r = existsb (seq_set x) r) as ->.
    { clear - E. induction r; simpl; auto. rewrite IHr. rewrite (seq_cong _ _ a E). auto. }
    destruct (existsb (seq_set x) r); auto.
  - simpl. rewrite orb_false_r. destruct (existsb (seq_set x) r), (existsb (seq_set g) r); auto.
Qed.
Lemma dset_length : forall (fd : fdist) g n, length (dset seq_set g n fd) = match dget seq_set g fd with Some _ => length fd | None => S (length fd) end.
Proof.
  induction fd as [|[k v] r IH]; intros g n; simpl; auto. destruct (seq_set g k) eqn:E; simpl; auto.
  rewrite IH. destruct (dget seq_set g r); auto.
Qed.
Definition all_pos (fd : fdist) : Prop := forall k n, In (k, n) fd -> 1 <= n.
Lemma fd_all_pos : forall l, all_pos (fd_of l).
Proof.
  induction l as [|x l IH] using rev_ind; intros k n H; [destruct H|].
  rewrite fd_of_snoc in H. unfold incr in H. apply dset_gen in H as [H|(-> & _)]; [eapply IH; eauto|].
  destruct (dget seq_set x (fd_of l)); lia.
Qed.
Lemma fd_has : forall l g, (exists n, dget seq_set g (fd_of l) = Some n) <-> existsb (seq_set g) l = true.
Proof.
  intros l g. pose proof (fd_count_of l g) as C. pose proof (times_zero g l) as Z. unfold fd_count in C.
  destruct (dget seq_set g (fd_of l)) as [n|] eqn:E.
  - apply dget_gen in E as (k & H & _). apply fd_all_pos in H.
    destruct (existsb (seq_set g) l); split; intros; eauto. exfalso. destruct Z as [_ Z]. specialize (Z eq_refl). lia.
  - destruct (existsb (seq_set g) l) eqn:X; split; intros.
    + reflexivity.
    + symmetry in C. apply Z in C. discriminate C.
    + destruct H as (? & H). discriminate H.
    + discriminate H.
Qed.
Lemma fd_B_of : forall l, fd_B (fd_of l) = kinds l.
Proof.
  induction l as [|g l IH] using rev_ind; auto.
  rewrite fd_of_snoc, kinds_snoc. unfold incr, fd_B. rewrite dset_length.
  pose proof (fd_has l g) as F. unfold fd_B in IH. rewrite IH.
  destruct (dget seq_set g (fd_of l)); destruct (existsb (seq_set g) l); auto.
  - destruct F as [F _]. discriminate (F (ex_intro _ _ eq_refl)).
  - destruct F as [_ F]. destruct F as (? & F); auto. discriminate F.
Qed.

(** ** conditional frequency distributions *)
Definition of_word (w : str) (l : list (str * sset)) : list sset := map snd (filter (fun x => str_eqb (fst x) w) l).
Lemma cfd_get : forall l w, sget w (cond_freq l) = match of_word w l with [] => None | _ => Some (fd_of (of_word w l)) end.
Proof.
  induction l as [|[v g] l IH] using rev_ind; intro w; auto.
  unfold cond_freq in *. rewrite fold_left_app. simpl. unfold cfd_add at 1. simpl.
  unfold of_word. rewrite filter_app, map_app. simpl.
  destruct (str_eqb v w) eqn:E.
  - apply str_eqb_eq in E. subst v. rewrite sget_set_same. rewrite IH. simpl.
    fold (of_word w l). destruct (of_word w l) eqn:O; simpl; auto.
    f_equal. change (s :: l0 ++ [g]) with ((s :: l0) ++ [g]). rewrite fd_of_snoc. auto.
  - rewrite sget_set_other. 2:{ intros ->. rewrite (proj2 (str_eqb_eq _ _) eq_refl) in E. discriminate E. }
    rewrite IH. simpl. rewrite app_nil_r. fold (of_word w l). auto.
Qed.
Lemma cfd_NoDup : forall l, NoDup (map fst (cond_freq l)).
Proof.
  induction l as [|[v g] l IH] using rev_ind; [constructor|].
  unfold cond_freq in *. rewrite fold_left_app. simpl. apply dset_NoDup; auto. apply str_eqb_eq.
Qed.

(** ** the occurrences that count *)
Lemma filterM_spec : forall {A} (f : A -> res bool) l r, filterM f l = Ok r ->
  r = filter (fun x => match f x with Ok b => b | Err _ => false end) l.
Proof.
  induction l as [|x l IH]; simpl; intros r H; [apply Ok_inj in H; auto|].
  destruct (f x) as [b|e]; simpl in H; [|discriminate H].
  destruct (filterM f l) as [r'|e]; simpl in H; [|discriminate H].
  apply Ok_inj in H. subst r. rewrite <- (IH r' eq_refl). reflexivity.
Qed.
Lemma ambiguous_of : forall M c l w, ambiguous_words M c = Ok l -> of_word w l = occurrences M c w.
Proof.
  intros M c l w H. unfold ambiguous_words in H.
  destruct (filterM _ (disambiguated c)) as [r|e] eqn:F; simpl in H; [|discriminate H]. apply Ok_inj in H. subst l.
  apply filterM_spec in F. subst r. unfold of_word, occurrences.
  induction c as [|[v ts] c IH]; auto.
  change (disambiguated ((v, ts) :: c)) with ((match ts with [t] => [(v, t)] | _ => [] end) ++ disambiguated c).
  simpl filter at 4. unfold counts_for at 1. cbn [fst snd].
  destruct ts as [|t [|t2 r]]; try exact IH.
  cbn [app]. cbn [filter]. cbn [fst snd]. unfold ambiguous.
  assert ((match (let* ts := morph_tag M v in Ok (1 <? length ts)) with Ok b => b | Err _ => false end) =
          (match morph_tag M v with Ok (_ :: _ :: _) => true | _ => false end)) as E.
  { destruct (morph_tag M v) as [[|a [|b r]]|e]; reflexivity. }
  rewrite E. clear E.
  destruct (match morph_tag M v with Ok (_ :: _ :: _) => true | _ => false end).
  - cbn [map filter fst snd]. destruct (seq_set (tag2grammemes t) [u "UNKN"]); cbn [negb].
    + rewrite andb_false_r. exact IH.
    + rewrite !andb_true_r. cbn [filter fst].
      destruct (str_eqb (u_lower (m_uni M) v) w); cbn [map snd flat_map]; [simpl; f_equal|]; exact IH.
  - rewrite andb_false_r. exact IH.
Qed.

(** ** the table *)
Lemma laplace_of : forall occ n g, laplace (fd_of occ) (Nat.max n (fd_B (fd_of occ))) g = estimate_of occ n g.
Proof. intros. unfold laplace, estimate_of. rewrite fd_count_of, fd_N_of, fd_B_of. reflexivity. Qed.

Lemma estimate_range : forall occ n g, occ <> [] -> (0 < estimate_of occ n g /\ estimate_of occ n g <= 1)%Q.
Proof.
  intros occ n g H. unfold estimate_of, Qlt, Qle. cbn [Qnum Qden].
  assert (times g occ <= length occ) as T. { unfold times. clear. induction occ; simpl; [lia|]. destruct (seq_set g a); simpl; lia. }
  assert (1 <= kinds occ) as K. { destruct occ; [congruence|]. clear. revert s. induction occ; intro s; simpl in *; [lia|]. destruct (_ || _); auto. }
  assert (Zpos (Pos.of_nat (length occ + Nat.max n (kinds occ))) = Z.of_nat (length occ + Nat.max n (kinds occ))) as P.
  { rewrite <- (Nat2Pos.id (length occ + Nat.max n (kinds occ))) at 2 by lia. rewrite positive_nat_Z. auto. }
  rewrite P. lia.
Qed.
Lemma cpd_value_truncates : forall q, (0 <= q)%Q -> (Z.of_N (Z.to_N (cpd_value q)) # 1000000 <= q /\ q < (Z.of_N (Z.to_N (cpd_value q)) + 1) # 1000000)%Q.
Proof.
  intros [n d] H. unfold cpd_value, Qle, Qlt in *. cbn [Qnum Qden] in *. rewrite Z.mul_1_r in H. simpl in H.
  change (Zpos MULTIPLIER) with 1000000%Z.
  assert (0 <= n * 1000000)%Z as P by lia.
  pose proof (Z.quot_rem' (n * 1000000) (Zpos d)) as E.
  pose proof (Z.rem_bound_pos (n * 1000000) (Zpos d) P eq_refl) as B.
  pose proof (Z.quot_pos (n * 1000000) (Zpos d) P eq_refl) as Q.
  rewrite Z2N.id by auto. split; nia.
Qed.

Lemma tag_eqb_gr : forall a b, tag_eqb a b = true <-> t_gr a = t_gr b.
Proof. intros. unfold tag_eqb. apply strs_eqb_eq. Qed.

Section tagdict.
  Variable f : list str -> Q.
  Let step := fun (acc : list (tag * Q)) (p : parse) => dset tag_eqb (p_tag p) (f (t_gr (p_tag p))) acc.
  Definition td_ok (ps : list parse) (acc : list (tag * Q)) : Prop :=
    (forall t q, In (t, q) acc -> q = f (t_gr t) /\ exists p, In p ps /\ p_tag p = t) /\
    (forall p, In p ps -> exists t, In (t, f (t_gr t)) acc /\ t_gr t = t_gr (p_tag p)).
  Lemma dset_tag_keeps : forall t t0 q (acc : list (tag * Q)), In (t0, f (t_gr t0)) acc -> q = f (t_gr t) -> In (t0, f (t_gr t0)) (dset tag_eqb t q acc).
  Proof.
    intros t t0 q acc. revert q. induction acc as [|[k v] r IH]; intros q H Hq; [destruct H|].
    simpl. destruct (tag_eqb t k) eqn:E.
    - apply tag_eqb_gr in E. destruct H as [H|H]; [|right; auto]. left.
      pose proof (f_equal fst H) as H1. pose proof (f_equal snd H) as H2. simpl in H1, H2. subst k. rewrite Hq, E. auto.
    - destruct H as [H|H]; [left; auto|right; auto].
  Qed.
  Lemma dset_tag_has : forall t q (acc : list (tag * Q)), q = f (t_gr t) -> exists t', In (t', f (t_gr t')) (dset tag_eqb t q acc) /\ t_gr t' = t_gr t.
  Proof.
    intros t q acc Hq. induction acc as [|[k v] r IH]; simpl.
    - exists t. rewrite Hq. auto.
    - destruct (tag_eqb t k) eqn:E.
      + apply tag_eqb_gr in E. exists k. rewrite Hq, E. simpl; auto.
      + destruct IH as (t' & I & G). exists t'. simpl; auto.
  Qed.
  Lemma dset_tag_gen : forall t q (acc : list (tag * Q)) t0 q0, In (t0, q0) (dset tag_eqb t q acc) ->
    In (t0, q0) acc \/ (q0 = q /\ t_gr t0 = t_gr t /\ (t0 = t \/ exists q1, In (t0, q1) acc)).
  Proof.
    induction acc as [|[k v] r IH]; simpl; intros t0 q0 H.
    - destruct H as [H|[]]. right. inversion H; subst. auto.
    - destruct (tag_eqb t k) eqn:E.
      + destruct H as [H|H]; [|auto]. inversion H; subst. apply tag_eqb_gr in E. right. split; [auto|]. split; [auto|]. right. exists v. auto.
      + destruct H as [H|H]; [auto|]. destruct (IH _ _ H) as [I|(I1 & I2 & [I3|(q1 & I3)])]; [auto|right; auto|].
        right. split; [auto|split; [auto|]]. right. exists q1. auto.
  Qed.
  Lemma tagdict_ok : forall ps acc done, td_ok done acc -> td_ok (done ++ ps) (fold_left step ps acc).
  Proof.
    induction ps as [|p ps IH]; intros acc done [A B]; simpl; [rewrite app_nil_r; split; auto|].
    replace (done ++ p :: ps) with ((done ++ [p]) ++ ps) by (rewrite <- app_assoc; auto).
    apply IH. split.
    - intros t q H. apply dset_tag_gen in H as [H|(-> & E & [->|(q1 & H)])].
      + destruct (A _ _ H) as (A1 & x & A2 & A3). split; auto. exists x. split; auto. apply in_or_app; auto.
      + split; auto. exists p. split; auto. apply in_or_app; simpl; auto.
      + destruct (A _ _ H) as (_ & x & A2 & A3). split; [rewrite E; auto|]. exists x. split; auto. apply in_or_app; auto.
    - intros x H. apply in_app_or in H as [H|[<-|[]]].
      + destruct (B _ H) as (t & I & G). exists t. split; auto. apply dset_tag_keeps; auto.
      + apply dset_tag_has; auto.
  Qed.
End tagdict.

Lemma tag_probabilities_ok : forall M w d tp ps, morph_parse M w = Ok ps -> tag_probabilities M w d = Ok tp ->
  td_ok (laplace (fst d) (snd d)) ps tp.
Proof.
  intros M w d tp ps P H. unfold tag_probabilities in H. rewrite P in H. simpl in H. apply Ok_inj in H. subst tp.
  change ps with ([] ++ ps) at 1. apply (tagdict_ok (laplace (fst d) (snd d)) ps [] []).
  split; [intros t q []|intros p []].
Qed.
Lemma all_same_iff : forall l, all_the_same l = true <-> forall a b, In a l -> In b l -> (snd a == snd b)%Q.
Proof.
  intros [|[t q] r]; simpl; [split; [intros _ a b []|auto]|].
  rewrite forallb_forall. split.
  - intros H a b Ha Hb.
    assert (forall x, (t, q) = x \/ In x r -> (snd x == q)%Q) as X.
    { intros x [<-|I]; [reflexivity|]. apply Qeq_bool_eq. auto. }
    rewrite (X a Ha), (X b Hb). reflexivity.
  - intros H x I. apply Qeq_bool_iff. apply (H x (t, q)); auto.
Qed.

Lemma prob_key_inj : forall w t w' t', ~ In (chr ":") t -> ~ In (chr ":") t' -> prob_key w t = prob_key w' t' -> w = w' /\ t = t'.
Proof.
  unfold prob_key. change (u ":") with [chr ":"]. intros w. induction w as [|c w IH]; intros t [|c' w'] t' H H' E; simpl in E.
  - injection E as E. auto.
  - exfalso. injection E as E1 E2. apply H. rewrite E2. apply in_or_app. simpl; auto.
  - exfalso. injection E as E1 E2. apply H'. rewrite <- E2. apply in_or_app. simpl; auto.
  - injection E as E1 E2. destruct (IH _ _ _ H H' E2) as (-> & ->). subst; auto.
Qed.

(** ** lookups in the table *)
Lemma estimate_get : forall M c d cf, estimate M c = Ok (d, cf) -> forall w fd b,
  In (w, (fd, b)) d <-> (occurrences M c w <> [] /\ fd = fd_of (occurrences M c w) /\
                         exists ts, morph_tag M w = Ok ts /\ b = Nat.max (length ts) (fd_B fd)).
Proof.
  intros M c d cf H w fd b. unfold estimate in H.
  destruct (ambiguous_words M c) as [l|e] eqn:A; simpl in H; [|discriminate H].
  destruct (prob_dists M (cond_freq l)) as [d0|e] eqn:P; simpl in H; [|discriminate H].
  apply Ok_inj in H. injection H as -> <-. unfold prob_dists in P.
  assert (forall v f, In (v, f) (cond_freq l) <-> (occurrences M c v <> [] /\ f = fd_of (occurrences M c v))) as G.
  { intros v f. rewrite <- (ambiguous_of M c l v A). pose proof (cfd_get l v) as C.
    split.
    - intro I. rewrite (sget_nodup _ _ _ (cfd_NoDup l) I) in C. destruct (of_word v l); [discriminate C|]. injection C as ->. split; [discriminate|auto].
    - intros (N & ->). destruct (of_word v l); [congruence|]. apply dget_In in C; [auto|apply str_eqb_eq]. }
  split.
  - intro I. destruct (mapM_In _ _ _ _ P I) as ([v f] & J & E). simpl in E.
    destruct (morph_tag M v) as [ts|e] eqn:T; simpl in E; [|discriminate E]. apply Ok_inj in E. injection E as <- <- <-.
    apply G in J as (J1 & J2). split; auto. split; auto. exists ts. auto.
  - intros (N & -> & ts & T & ->). assert (In (w, fd_of (occurrences M c w)) (cond_freq l)) as J by (apply G; auto).
    destruct (mapM_In_l _ _ _ _ P J) as (y & Y & I). simpl in Y. rewrite T in Y. simpl in Y. apply Ok_inj in Y. subst y. exact I.
Qed.

Lemma same_of_td : forall f ps tp, td_ok f ps tp -> (all_the_same tp = true <-> forall p q, In p ps -> In q ps -> (f (t_gr (p_tag p)) == f (t_gr (p_tag q)))%Q).
Proof.
  intros f ps tp [A B]. rewrite all_same_iff. split.
  - intros H p q Hp Hq. destruct (B p Hp) as (t1 & I1 & E1). destruct (B q Hq) as (t2 & I2 & E2).
    specialize (H _ _ I1 I2). simpl in H. rewrite E1, E2 in H. exact H.
  - intros H [t1 q1] [t2 q2] H1 H2. simpl. destruct (A _ _ H1) as (-> & p1 & I1 & <-). destruct (A _ _ H2) as (-> & p2 & I2 & <-). auto.
Qed.
Lemma forallb_false_ex : forall {A} (f : A -> bool) l, forallb f l = false -> exists x, In x l /\ f x = false.
Proof. induction l as [|x l IH]; simpl; intro H; [discriminate H|]. destruct (f x) eqn:E; [destruct (IH H) as (y & ? & ?); eauto|eauto]. Qed.
Definition entry_value (M : morph) (c : corpus) (w : str) (ts : list tag) (p : parse) : N :=
  Z.to_N (cpd_value (estimate_of (occurrences M c w) (length ts) (t_gr (p_tag p)))).

Lemma not_all_same : forall occ n ps, ~ (forall p q, In p ps -> In q ps -> (estimate_of occ n (t_gr (p_tag p)) == estimate_of occ n (t_gr (p_tag q)))%Q) -> decisive occ n ps.
Proof.
  intros occ n ps H. unfold decisive.
  destruct (forallb (fun p => forallb (fun q => Qeq_bool (estimate_of occ n (t_gr (p_tag p))) (estimate_of occ n (t_gr (p_tag q)))) ps) ps) eqn:E.
  - exfalso. apply H. intros p q Hp Hq. rewrite forallb_forall in E. specialize (E p Hp). rewrite forallb_forall in E. apply Qeq_bool_eq. auto.
  - apply forallb_false_ex in E as (p & Hp & E). apply forallb_false_ex in E as (q & Hq & E). exists p, q. split; auto. split; auto.
    apply Qeq_bool_neq. auto.
Qed.

Lemma table_In : forall M c mf T k v, probability_table M c mf = Ok T -> In (k, v) T ->
  exists w ps ts p, informative M c mf w /\ morph_parse M w = Ok ps /\ morph_tag M w = Ok ts /\ In p ps /\
    k = prob_key w (t_str (p_tag p)) /\ v = entry_value M c w ts p.
Proof.
  intros M c mf T k v H I. unfold probability_table in H. destruct (estimate M c) as [[d cf]|e] eqn:E; simpl in H; [|discriminate H].
  unfold build_cpd in H. destruct (mapM _ (filter _ d)) as [data|e] eqn:D; simpl in H; [|discriminate H]. apply Ok_inj in H. subst T.
  apply in_map_iff in I as ([k' z] & Eq & I). injection Eq as <- <-.
  unfold cpd_build in I. apply in_map_iff in I as ([[w tx] q] & Eq & I). injection Eq as <- <-.
  apply in_flat_map in I as ([w' tp] & I & J). apply in_map_iff in J as ([t q'] & Eq & J). injection Eq as -> <- ->.
  apply filter_In in I as (I & S). simpl in S, J.
  destruct (mapM_In _ _ _ _ D I) as ([w' [fd b]] & K & L). cbn [fst snd] in L.
  destruct (tag_probabilities M w' (fd, b)) as [tp'|e] eqn:TP; simpl in L; [|discriminate L]. apply Ok_inj in L. injection L as -> ->.
  apply filter_In in K as (K & F). cbn [fst snd] in F. apply Nat.leb_le in F.
  apply (estimate_get M c d cf E) in K as (N & -> & ts & T & ->).
  assert (exists ps, morph_parse M w = Ok ps) as (ps & P).
  { unfold tag_probabilities in TP. destruct (morph_parse M w) as [ps|e]; [eauto|discriminate TP]. }
  pose proof (tag_probabilities_ok _ _ _ _ _ P TP) as O. cbn [fst snd] in O.
  assert (decisive (occurrences M c w) (length ts) ps) as DD.
  { apply not_all_same. intro H. assert (all_the_same tp = true) as X; [|rewrite X in S; discriminate S].
    apply (same_of_td _ _ _ O). intros p1 p2 H1 H2. rewrite !laplace_of. auto. }
  destruct O as [O _]. destruct (O _ _ J) as (-> & p & I2 & <-). rewrite fd_N_of in F.
  exists w, ps, ts, p. split. { split; [auto|]. split; [auto|]. exists ps, ts. auto. }
  split; [auto|]. split; [auto|]. split; [auto|]. split; [auto|]. unfold entry_value. rewrite laplace_of. reflexivity.
Qed.
Lemma table_has : forall M c mf T w ps ts p, probability_table M c mf = Ok T -> informative M c mf w ->
  morph_parse M w = Ok ps -> morph_tag M w = Ok ts -> In p ps ->
  exists p', In p' ps /\ t_gr (p_tag p') = t_gr (p_tag p) /\ In (prob_key w (t_str (p_tag p')), entry_value M c w ts p) T.
Proof.
  intros M c mf T w ps ts p H (N & F & ps' & ts' & P' & T' & DD) P TT Hp. rewrite P in P'. rewrite TT in T'. apply Ok_inj in P'. apply Ok_inj in T'. subst ps' ts'.
  unfold probability_table in H. destruct (estimate M c) as [[d cf]|e] eqn:E; simpl in H; [|discriminate H].
  unfold build_cpd in H. destruct (mapM _ (filter _ d)) as [data|e] eqn:D; simpl in H; [|discriminate H]. apply Ok_inj in H. subst T.
  set (fd := fd_of (occurrences M c w)). set (b := Nat.max (length ts) (fd_B fd)).
  assert (In (w, (fd, b)) d) as K. { apply (estimate_get M c d cf E). split; [auto|]. split; [reflexivity|]. exists ts. auto. }
  assert (In (w, (fd, b)) (filter (fun wd : str * (fdist * nat) => mf <=? fd_N (fst (snd wd))) d)) as K2.
  { apply filter_In. split; [auto|]. cbn [fst snd]. unfold fd. rewrite fd_N_of. apply Nat.leb_le. auto. }
  destruct (mapM_In_l _ _ _ _ D K2) as (y & Y & I). cbn [fst snd] in Y.
  destruct (tag_probabilities M w (fd, b)) as [tp|e] eqn:TP; simpl in Y; [|discriminate Y]. apply Ok_inj in Y. subst y.
  pose proof (tag_probabilities_ok _ _ _ _ _ P TP) as O. cbn [fst snd] in O.
  assert (all_the_same tp = false) as S.
  { destruct (all_the_same tp) eqn:S; auto. exfalso. destruct DD as (p1 & p2 & H1 & H2 & X). apply X.
    pose proof (proj1 (same_of_td _ _ _ O) S p1 p2 H1 H2) as Y. unfold b, fd in Y. rewrite !laplace_of in Y. exact Y. }
  destruct O as [O1 O2]. destruct (O2 p Hp) as (t & J & G). destruct (O1 _ _ J) as (_ & p' & Hp' & <-).
  exists p'. split; [auto|]. split; [auto|].
  apply in_map_iff. exists (prob_key w (t_str (p_tag p')), cpd_value (laplace fd b (t_gr (p_tag p')))). split.
  { cbn [fst snd]. unfold entry_value. rewrite G. unfold b, fd. rewrite laplace_of. reflexivity. }
  unfold cpd_build. apply in_map_iff. exists ((w, t_str (p_tag p')), laplace fd b (t_gr (p_tag p'))). split; [reflexivity|].
  apply in_flat_map. exists (w, tp). split. { apply filter_In. split; [auto|]. cbn [snd]. rewrite S. reflexivity. }
  cbn [fst snd]. apply in_map_iff. exists (p_tag p', laplace fd b (t_gr (p_tag p'))). split; [reflexivity|auto].
Qed.

Lemma prob_in : forall (T : cpd) w t, (exists v, In (prob_key w t, v) T /\ prob T w t = (Z.of_N v # 1000000)%Q) \/ (prob T w t == 0)%Q /\ ~ In (prob_key w t) (map fst T).
Proof.
  intros T w t. unfold prob. destruct (sget (prob_key w t) T) as [v|] eqn:G.
  - left. exists v. split; auto. apply dget_In in G; [auto|apply str_eqb_eq].
  - right. split; [reflexivity|]. apply (dget_None str_eqb str_eqb_eq) in G. exact G.
Qed.
Lemma entry_truncates : forall M c w ts p, occurrences M c w <> [] ->
  (Z.of_N (entry_value M c w ts p) # 1000000 <= estimate_of (occurrences M c w) (length ts) (t_gr (p_tag p)) /\
   estimate_of (occurrences M c w) (length ts) (t_gr (p_tag p)) < (Z.of_N (entry_value M c w ts p) + 1) # 1000000)%Q.
Proof. intros. apply cpd_value_truncates. apply Qlt_le_weak. apply estimate_range; auto. Qed.

Lemma stored_sound : forall M c mf T w t, probability_table M c mf = Ok T -> colon_free M -> ~ In (chr ":") t ->
  (prob T w t == 0)%Q \/
  (informative M c mf w /\ exists ps ts p, morph_parse M w = Ok ps /\ morph_tag M w = Ok ts /\ In p ps /\ t_str (p_tag p) = t /\
     truncates (estimate_of (occurrences M c w) (length ts) (t_gr (p_tag p))) (prob T w t)).
Proof.
  intros M c mf T w t H CF NC. destruct (prob_in T w t) as [(v & I & E)|(Z & _)]; [right|left; auto].
  destruct (table_In _ _ _ _ _ _ H I) as (w' & ps & ts & p & INF & P & TT & Hp & K & V).
  apply prob_key_inj in K as (<- & K); [|auto|eapply CF; eauto].
  split; [auto|]. exists ps, ts, p. split; [auto|]. split; [auto|]. split; [auto|]. split; [auto|].
  exists (Z.of_N v). split; [rewrite E; reflexivity|]. subst v. apply entry_truncates. apply INF.
Qed.
Lemma stored_complete : forall M c mf T w ps ts p, probability_table M c mf = Ok T -> colon_free M -> informative M c mf w ->
  morph_parse M w = Ok ps -> morph_tag M w = Ok ts -> one_spelling ps -> In p ps ->
  truncates (estimate_of (occurrences M c w) (length ts) (t_gr (p_tag p))) (prob T w (t_str (p_tag p))).
Proof.
  intros M c mf T w ps ts p H CF INF P TT OS Hp.
  destruct (table_has _ _ _ _ _ _ _ _ H INF P TT Hp) as (p' & Hp' & G & I).
  apply (OS p' p Hp' Hp) in G. rewrite G in I.
  destruct (prob_in T w (t_str (p_tag p))) as [(v & J & E)|(_ & Z)]; [|exfalso; apply Z; apply in_map_iff; eexists; split; [|exact I]; reflexivity].
  destruct (table_In _ _ _ _ _ _ H J) as (w2 & ps2 & ts2 & p2 & _ & P2 & T2 & Hp2 & K & V).
  apply prob_key_inj in K as (<- & K); [|exact (CF _ _ _ P Hp)|exact (CF _ _ _ P2 Hp2)].
  rewrite P in P2. rewrite TT in T2. apply Ok_inj in P2. apply Ok_inj in T2. subst ps2 ts2.
  apply (OS p p2 Hp Hp2) in K.
  exists (Z.of_N v). split; [rewrite E; reflexivity|]. subst v. unfold entry_value. rewrite <- K. destruct INF as (N & _). exact (entry_truncates M c w ts p N).
Qed.
Lemma stored_range : forall M c mf T w t, probability_table M c mf = Ok T -> (0 <= prob T w t /\ prob T w t <= 1)%Q.
Proof.
  intros M c mf T w t H. destruct (prob_in T w t) as [(v & I & E)|(Z & _)]; [|rewrite Z; split; discriminate].
  destruct (table_In _ _ _ _ _ _ H I) as (w' & ps & ts & p & (INF & _) & P & TT & Hp & K & ->).
  rewrite E. pose proof (entry_truncates M c w' ts p INF) as (A & _). pose proof (estimate_range (occurrences M c w') (length ts) (t_gr (p_tag p)) INF) as (_ & B).
  split; [unfold Qle; simpl; lia|]. eapply Qle_trans; eauto.
Qed.
