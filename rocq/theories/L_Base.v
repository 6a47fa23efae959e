(** * Lemmas about the Python primitives of Py.v *)
From Coq Require Import String List NArith ZArith Bool Arith Lia QArith Permutation Sorted RelationClasses.
From Verif Require Import Py.
Import ListNotations.
Local Open Scope nat_scope.
Local Open Scope list_scope.

(** ** equality *)
Lemma list_eqb_spec : forall {A} (eqb : A -> A -> bool),
  (forall x y, eqb x y = true <-> x = y) ->
  forall a b, list_eqb eqb a b = true <-> a = b.
Proof.
  intros A eqb H; induction a as [|x a IH]; destruct b as [|y b]; simpl; split; intro E; try congruence; auto.
  - apply andb_true_iff in E as [E1 E2]. apply H in E1. apply IH in E2. congruence.
  - inversion E; subst. apply andb_true_iff; split; [apply H|apply IH]; auto.
Qed.

Lemma str_eqb_eq : forall a b, str_eqb a b = true <-> a = b.
Proof. apply list_eqb_spec. intros; apply N.eqb_eq. Qed.
Lemma str_eqb_refl : forall a, str_eqb a a = true.
Proof. intro; apply str_eqb_eq; auto. Qed.
Lemma str_eqb_neq : forall a b, str_eqb a b = false <-> a <> b.
Proof. intros. rewrite <- str_eqb_eq. destruct (str_eqb a b); split; congruence. Qed.
Lemma str_eqb_sym : forall a b, str_eqb a b = str_eqb b a.
Proof.
  intros. destruct (str_eqb a b) eqn:E.
  - apply str_eqb_eq in E. subst. symmetry; apply str_eqb_refl.
  - apply str_eqb_neq in E. symmetry. apply str_eqb_neq. congruence.
Qed.
Lemma str_eq_dec : forall a b : str, {a = b} + {a <> b}.
Proof. intros. destruct (str_eqb a b) eqn:E; [left; apply str_eqb_eq|right; apply str_eqb_neq]; auto. Qed.
Lemma strs_eqb_eq : forall a b, list_eqb str_eqb a b = true <-> a = b.
Proof. apply list_eqb_spec. apply str_eqb_eq. Qed.

(** ** sets *)
Lemma smem_In : forall x l, smem x l = true <-> In x l.
Proof.
  induction l as [|y l IH]; simpl; [split; [congruence|tauto]|].
  rewrite orb_true_iff, IH, str_eqb_eq. split; intros [H|H]; auto.
Qed.
Lemma smem_false : forall x l, smem x l = false <-> ~ In x l.
Proof. intros. rewrite <- smem_In. destruct (smem x l); split; congruence. Qed.
Lemma ssub_incl : forall a b, ssub a b = true <-> (forall x, In x a -> In x b).
Proof.
  intros. unfold ssub. rewrite forallb_forall. split; intros H x Hx; apply smem_In; auto.
Qed.
Lemma sinter_In : forall a b x, In x (sinter a b) <-> In x a /\ In x b.
Proof. intros. unfold sinter. rewrite filter_In, smem_In. tauto. Qed.
Lemma sdiff_In : forall a b x, In x (sdiff a b) <-> In x a /\ ~ In x b.
Proof. intros. unfold sdiff. rewrite filter_In, negb_true_iff, smem_false. tauto. Qed.
Lemma sunion_In : forall a b x, In x (sunion a b) <-> In x a \/ In x b.
Proof. intros. unfold sunion. apply in_app_iff. Qed.
Lemma ssymdiff_In : forall a b x, In x (ssymdiff a b) <-> (In x a /\ ~ In x b) \/ (In x b /\ ~ In x a).
Proof. intros. unfold ssymdiff. rewrite in_app_iff, !sdiff_In. tauto. Qed.
Lemma seq_set_iff : forall a b, seq_set a b = true <-> (forall x, In x a <-> In x b).
Proof.
  intros. unfold seq_set. rewrite andb_true_iff, !ssub_incl. split.
  - intros [H1 H2] x; split; auto.
  - intros H; split; intros x; apply H.
Qed.
Lemma snodup_In : forall l x, In x (snodup l) <-> In x l.
Proof.
  induction l as [|y l IH]; simpl; [tauto|]. intro x.
  destruct (smem y l) eqn:E; simpl; rewrite IH.
  - split; auto. intros [->|H]; auto. apply smem_In; auto.
  - tauto.
Qed.
Lemma snodup_NoDup : forall l, NoDup (snodup l).
Proof.
  induction l as [|y l IH]; simpl; [constructor|].
  destruct (smem y l) eqn:E; auto. constructor; auto. rewrite snodup_In. apply smem_false; auto.
Qed.
Lemma slen_eq : forall a b, (forall x, In x a <-> In x b) -> slen a = slen b.
Proof.
  intros a b H. unfold slen. apply Permutation_length. apply NoDup_Permutation; try apply snodup_NoDup.
  intro x. rewrite !snodup_In. auto.
Qed.
Lemma slen_incl : forall a b, (forall x, In x a -> In x b) -> slen a <= slen b.
Proof.
  intros a b H. unfold slen. apply NoDup_incl_length; [apply snodup_NoDup|].
  intros x. rewrite !snodup_In. auto.
Qed.
Lemma slen_zero : forall a, slen a = 0 <-> a = [].
Proof.
  intro a. unfold slen. split.
  - intro H. destruct a as [|x a]; auto. exfalso.
    assert (In x (snodup (x :: a))) by (apply snodup_In; left; auto).
    destruct (snodup (x :: a)); simpl in *; [tauto|lia].
  - intros ->; auto.
Qed.

(** ** res *)
Lemma Ok_inj : forall {A} (a b : A), Ok a = Ok b -> a = b.
Proof. congruence. Qed.
Lemma bind_ok : forall {A B} (x : res A) (f : A -> res B) b,
  bind x f = Ok b <-> exists a, x = Ok a /\ f a = Ok b.
Proof.
  intros. destruct x; simpl; split.
  - eauto.
  - intros (a' & E & H). inversion E; subst; auto.
  - congruence.
  - intros (a' & E & H). congruence.
Qed.
Lemma bind_err : forall {A B} (x : res A) (f : A -> res B) e,
  bind x f = Err e <-> x = Err e \/ exists a, x = Ok a /\ f a = Err e.
Proof.
  intros. destruct x; simpl; split; intro H.
  - eauto.
  - destruct H as [H|(a' & E & H)]; [congruence|]. inversion E; subst; auto.
  - left; congruence.
  - destruct H as [H|(a' & E & H)]; congruence.
Qed.
Lemma rmap_ok : forall {A B} (f : A -> B) (x : res A) b,
  rmap f x = Ok b <-> exists a, x = Ok a /\ b = f a.
Proof.
  intros. destruct x; simpl; split; intro H.
  - inversion H; eauto.
  - destruct H as (a' & E & ->). inversion E; auto.
  - congruence.
  - destruct H as (a' & E & ->). congruence.
Qed.

Lemma mapM_ok : forall {A B} (f : A -> res B) l r,
  mapM f l = Ok r <-> Forall2 (fun x y => f x = Ok y) l r.
Proof.
  induction l as [|x l IH]; intros r; simpl.
  - split; intro H; [inversion H; constructor | inversion H; auto].
  - split; intro H.
    + apply bind_ok in H as (y & Hy & H). apply bind_ok in H as (ys & Hys & H).
      inversion H; subst. constructor; auto. apply IH; auto.
    + inversion H; subst. rewrite H2. simpl. apply IH in H4. rewrite H4. auto.
Qed.
Lemma mapM_exists : forall {A B} (f : A -> res B) l,
  (forall x, In x l -> exists y, f x = Ok y) -> exists r, mapM f l = Ok r.
Proof.
  induction l as [|x l IH]; intros H; simpl; [eauto|].
  destruct (H x) as [y Hy]; [left; auto|]. destruct IH as [r Hr]; [intros; apply H; right; auto|].
  rewrite Hy, Hr. simpl. eauto.
Qed.
Lemma mapM_ext : forall {A B} (f g : A -> res B) l,
  (forall x, In x l -> f x = g x) -> mapM f l = mapM g l.
Proof.
  induction l as [|x l IH]; intros H; simpl; auto.
  rewrite H by (left; auto). rewrite IH; auto. intros; apply H; right; auto.
Qed.
Lemma mapM_In : forall {A B} (f : A -> res B) l r y,
  mapM f l = Ok r -> In y r -> exists x, In x l /\ f x = Ok y.
Proof.
  intros A B f l r y H. apply mapM_ok in H. induction H; simpl; [tauto|].
  intros [->|Hy]; [eauto|]. destruct (IHForall2 Hy) as (x' & ? & ?); eauto.
Qed.
Lemma mapM_In_l : forall {A B} (f : A -> res B) l r x,
  mapM f l = Ok r -> In x l -> exists y, f x = Ok y /\ In y r.
Proof.
  intros A B f l r x H. apply mapM_ok in H. induction H; simpl; [tauto|].
  intros [->|Hy]; [eauto|]. destruct (IHForall2 Hy) as (x' & ? & ?); eauto.
Qed.
Lemma mapM_length : forall {A B} (f : A -> res B) l r, mapM f l = Ok r -> length r = length l.
Proof. intros A B f l r H. apply mapM_ok in H. induction H; simpl; auto. Qed.
Lemma mapM_pure : forall {A B} (f : A -> B) l, mapM (fun x => Ok (f x)) l = Ok (map f l).
Proof. induction l; simpl; auto. rewrite IHl. auto. Qed.
Lemma mapM_app : forall {A B} (f : A -> res B) a b,
  mapM f (a ++ b) = let* x := mapM f a in let* y := mapM f b in Ok (x ++ y).
Proof.
  induction a as [|x a IH]; intros b; simpl.
  - destruct (mapM f b); auto.
  - destruct (f x); simpl; auto. rewrite IH. destruct (mapM f a); simpl; auto. destruct (mapM f b); auto.
Qed.
Lemma Forall2_nth : forall {A B} (P : A -> B -> Prop) l r, Forall2 P l r ->
  forall i x, nth_error l i = Some x -> exists y, nth_error r i = Some y /\ P x y.
Proof.
  induction 1; intros [|i] z Hz; simpl in *; try congruence.
  - inversion Hz; subst; eauto.
  - eauto.
Qed.
Lemma Forall2_nth_r : forall {A B} (P : A -> B -> Prop) l r, Forall2 P l r ->
  forall i y, nth_error r i = Some y -> exists x, nth_error l i = Some x /\ P x y.
Proof.
  induction 1; intros [|i] z Hz; simpl in *; try congruence.
  - inversion Hz; subst; eauto.
  - eauto.
Qed.

Lemma foldM_app : forall {A S} (f : S -> A -> res S) a b s,
  foldM f s (a ++ b) = let* s' := foldM f s a in foldM f s' b.
Proof.
  induction a as [|x a IH]; intros; simpl; auto.
  destruct (f s x); simpl; auto.
Qed.
Lemma foldM_inv : forall {A S} (P : S -> Prop) (f : S -> A -> res S) l s s',
  P s -> (forall s x s', In x l -> P s -> f s x = Ok s' -> P s') -> foldM f s l = Ok s' -> P s'.
Proof.
  induction l as [|x l IH]; simpl; intros s s' H0 H E.
  - inversion E; subst; auto.
  - apply bind_ok in E as (s1 & E1 & E2). eapply IH; [|intros; eapply H; eauto|eauto]. eapply H; eauto.
Qed.
Lemma foldM_exists : forall {A S} (P : S -> Prop) (f : S -> A -> res S) l s,
  P s -> (forall s x, In x l -> P s -> exists s', f s x = Ok s' /\ P s') -> exists s', foldM f s l = Ok s' /\ P s'.
Proof.
  induction l as [|x l IH]; simpl; intros s H0 H.
  - eauto.
  - destruct (H s x) as (s1 & E & P1); auto. rewrite E. simpl. apply IH; auto.
Qed.
Lemma foldM_ext : forall {A S} (f g : S -> A -> res S) l s,
  (forall s x, In x l -> f s x = g s x) -> foldM f s l = foldM g s l.
Proof.
  induction l as [|x l IH]; simpl; intros s H; auto.
  rewrite H by auto. destruct (g s x); simpl; auto.
Qed.

Lemma nth_res_ok : forall {A} (l : list A) i x, nth_res l i = Ok x <-> nth_error l i = Some x.
Proof. intros. unfold nth_res. destruct (nth_error l i); split; congruence. Qed.
Lemma nth_res_lt : forall {A} (l : list A) i, i < length l -> exists x, nth_res l i = Ok x.
Proof.
  intros A l i H. unfold nth_res. destruct (nth_error l i) eqn:E; eauto.
  apply nth_error_None in E. lia.
Qed.

(** ** prefixes, suffixes, substrings *)
Lemma prefixb_spec : forall p s, prefixb p s = true <-> exists r, s = p ++ r.
Proof.
  induction p as [|x p IH]; intros s; simpl.
  - split; eauto.
  - destruct s as [|y s].
    + split; [congruence|]. intros (r & H). discriminate.
    + rewrite andb_true_iff, IH, N.eqb_eq. split.
      * intros [-> (r & ->)]. eauto.
      * intros (r & H). inversion H; subst. eauto.
Qed.
Lemma prefixb_app : forall p r, prefixb p (p ++ r) = true.
Proof. intros. apply prefixb_spec. eauto. Qed.
Lemma suffixb_spec : forall p s, suffixb p s = true <-> exists r, s = r ++ p.
Proof.
  intros. unfold suffixb. rewrite prefixb_spec. split; intros (r & H).
  - exists (rev r). rewrite <- (rev_involutive s), H, rev_app_distr, rev_involutive. auto.
  - exists (rev r). subst s. rewrite rev_app_distr. auto.
Qed.
Lemma substrb_spec : forall x s, substrb x s = true <-> exists a b, s = a ++ x ++ b.
Proof.
  intros x; induction s as [|c s IH].
  - cbn [substrb]. rewrite orb_false_r, prefixb_spec. split.
    + intros (r & H). exists [], r. auto.
    + intros (a & b & H). destruct a; [eauto|discriminate].
  - cbn [substrb]. rewrite orb_true_iff, prefixb_spec, IH. split.
    + intros [(r & H)|(a & b & H)].
      * exists [], r; auto.
      * exists (c :: a), b. rewrite H. auto.
    + intros (a & b & H). destruct a as [|c' a].
      * left. exists b. auto.
      * right. simpl in H. inversion H; subst. eauto.
Qed.
Lemma find_sub_spec : forall x s n, find_sub x s = Some n ->
  n <= length s /\ s = firstn n s ++ x ++ skipn (n + length x) s
  /\ (forall m, m < n -> prefixb x (skipn m s) = false).
Proof.
  intros x; induction s as [|c s IH]; intros n; simpl.
  - destruct (prefixb x []) eqn:E; [|discriminate]. intro H; inversion H; subst.
    apply prefixb_spec in E as (r & E). symmetry in E. apply app_eq_nil in E as [-> ->]. simpl.
    split; [lia|]. split; auto. intros; lia.
  - destruct (prefixb x (c :: s)) eqn:E.
    + intro H; inversion H; subst. apply prefixb_spec in E as (r & E). rewrite E. simpl.
      split; [lia|]. split; [|intros; lia].
      rewrite skipn_app, skipn_all, Nat.sub_diag. simpl. auto.
    + destruct (find_sub x s) as [k|] eqn:F; simpl; [|discriminate]. intro H; inversion H; subst.
      destruct (IH k eq_refl) as (H1 & H2 & H3). split; [lia|]. split.
      * simpl. f_equal. auto.
      * intros [|m] Hm; simpl; auto. apply H3. lia.
Qed.
Lemma find_sub_some : forall x s, substrb x s = true -> exists n, find_sub x s = Some n.
Proof.
  intros x; induction s as [|c s IH]; intros H; cbn [substrb] in H; cbn [find_sub].
  - rewrite orb_false_r in H. rewrite H. eauto.
  - destruct (prefixb x (c :: s)); [eauto|]. simpl in H. destruct (IH H) as (n & ->). simpl. eauto.
Qed.
Lemma mem_char_In : forall c s, mem_char c s = true <-> In c s.
Proof.
  induction s as [|x s IH]; simpl; [split; [congruence|tauto]|].
  rewrite orb_true_iff, IH, N.eqb_eq. tauto.
Qed.
Lemma mem_char_false : forall c s, mem_char c s = false <-> ~ In c s.
Proof. intros. rewrite <- mem_char_In. destruct (mem_char c s); split; congruence. Qed.

(** ** slices *)
Lemma norm_idx_pos : forall n k, norm_idx n (Z.of_nat k) = Nat.min n k.
Proof. intros. unfold norm_idx. destruct (Z.ltb_spec (Z.of_nat k) 0); [lia|]. rewrite Nat2Z.id. auto. Qed.
Lemma norm_idx_neg : forall n k, 0 < k -> norm_idx n (- Z.of_nat k) = n - k.
Proof.
  intros. unfold norm_idx. destruct (Z.ltb_spec (- Z.of_nat k) 0); [|lia]. lia.
Qed.
Lemma slice_from_pos : forall {A} (s : list A) k, slice_from s (Z.of_nat k) = skipn k s.
Proof.
  intros. unfold slice_from. rewrite norm_idx_pos. destruct (Nat.le_gt_cases k (length s)).
  - rewrite Nat.min_r by lia. auto.
  - rewrite Nat.min_l by lia. rewrite skipn_all. symmetry. apply skipn_all2. lia.
Qed.
Lemma slice_from_neg : forall {A} (s : list A) k, 0 < k -> slice_from s (- Z.of_nat k) = skipn (length s - k) s.
Proof. intros. unfold slice_from. rewrite norm_idx_neg; auto. Qed.
Lemma slice_to_neg : forall {A} (s : list A) k, 0 < k -> slice_to s (- Z.of_nat k) = firstn (length s - k) s.
Proof. intros. unfold slice_to. rewrite norm_idx_neg; auto. Qed.
Lemma slice_to_0 : forall {A} (s : list A), slice_to s 0 = [].
Proof. intros. unfold slice_to, norm_idx. simpl. rewrite Nat.min_0_r. auto. Qed.
Lemma firstn_app_exact : forall {A} (a b : list A), firstn (length a) (a ++ b) = a.
Proof. intros. rewrite firstn_app, Nat.sub_diag, firstn_all. simpl. apply app_nil_r. Qed.
Lemma skipn_app_exact : forall {A} (a b : list A), skipn (length a) (a ++ b) = b.
Proof. intros. rewrite skipn_app, Nat.sub_diag, skipn_all. auto. Qed.
Lemma slice_to_app : forall {A} (a b : list A), b <> [] -> slice_to (a ++ b) (- Z.of_nat (length b)) = a.
Proof.
  intros. rewrite slice_to_neg. 2:{ destruct b; simpl; [congruence|lia]. }
  rewrite app_length. replace (length a + length b - length b) with (length a) by lia. apply firstn_app_exact.
Qed.
Lemma slice_from_app : forall {A} (a b : list A), b <> [] -> slice_from (a ++ b) (- Z.of_nat (length b)) = b.
Proof.
  intros. rewrite slice_from_neg. 2:{ destruct b; simpl; [congruence|lia]. }
  rewrite app_length. replace (length a + length b - length b) with (length a) by lia. apply skipn_app_exact.
Qed.
Lemma slice_split_neg : forall {A} (s : list A) k, 0 < k ->
  slice_to s (- Z.of_nat k) ++ slice_from s (- Z.of_nat k) = s.
Proof. intros. rewrite slice_to_neg, slice_from_neg; auto. apply firstn_skipn. Qed.
Lemma app_inj_len : forall {A} (a b c d : list A), length a = length c -> a ++ b = c ++ d -> a = c /\ b = d.
Proof.
  induction a as [|x a IH]; intros b [|y c] d H E; simpl in *; try discriminate; auto.
  inversion E; subst. destruct (IH b c d) as [-> ->]; auto.
Qed.

(** ** dictionaries *)
Section DictLemmas.
  Context {K V : Type} (keqb : K -> K -> bool).
  Hypothesis keqb_eq : forall a b, keqb a b = true <-> a = b.
  Lemma keqb_refl : forall a, keqb a a = true.
  Proof. intro; apply keqb_eq; auto. Qed.
  Lemma keqb_neq : forall a b, a <> b -> keqb a b = false.
  Proof. intros a b H. destruct (keqb a b) eqn:E; auto. apply keqb_eq in E. congruence. Qed.
  Lemma dget_dset_same : forall k v (d : list (K * V)), dget keqb k (dset keqb k v d) = Some v.
  Proof.
    induction d as [|[k' v'] d IH]; simpl.
    - rewrite keqb_refl. auto.
    - destruct (keqb k k') eqn:E; simpl; rewrite E; auto.
  Qed.
  Lemma dget_dset_other : forall k k2 v (d : list (K * V)), k2 <> k -> dget keqb k2 (dset keqb k v d) = dget keqb k2 d.
  Proof.
    intros k k2 v d N. induction d as [|[k' v'] d IH]; simpl.
    - rewrite keqb_neq; auto.
    - destruct (keqb k k') eqn:E; simpl.
      + apply keqb_eq in E. subst k'. rewrite (keqb_neq k2 k); auto.
      + rewrite IH. auto.
  Qed.
  Lemma dget_In : forall k v (d : list (K * V)), dget keqb k d = Some v -> In (k, v) d.
  Proof.
    induction d as [|[k' v'] d IH]; simpl; [congruence|].
    destruct (keqb k k') eqn:E; intro H.
    - apply keqb_eq in E. inversion H; subst. auto.
    - auto.
  Qed.
  Lemma dget_None : forall k (d : list (K * V)), dget keqb k d = None <-> ~ In k (map fst d).
  Proof.
    induction d as [|[k' v'] d IH]; simpl; [tauto|].
    destruct (keqb k k') eqn:E.
    - apply keqb_eq in E. subst. split; [congruence|]. intros H; exfalso; auto.
    - rewrite IH. split; intros H; [intros [->|H']; auto|auto]. rewrite keqb_refl in E. congruence.
  Qed.
  Lemma In_dget : forall k v (d : list (K * V)), NoDup (map fst d) -> In (k, v) d -> dget keqb k d = Some v.
  Proof.
    induction d as [|[k' v'] d IH]; simpl; intros ND; [tauto|]. inversion ND; subst.
    intros [E|H].
    - inversion E; subst. rewrite keqb_refl. auto.
    - rewrite keqb_neq; auto. intros ->. apply H1. apply in_map_iff. exists (k', v). auto.
  Qed.
  Lemma din_In : forall k (d : list (K * V)), din keqb k d = true <-> In k (map fst d).
  Proof.
    intros. unfold din. destruct (dget keqb k d) eqn:E.
    - split; auto. intros _. apply dget_In in E. apply in_map_iff. exists (k, v). auto.
    - apply dget_None in E. split; [congruence|tauto].
  Qed.
  Lemma dset_keys : forall k v (d : list (K * V)),
    map fst (dset keqb k v d) = if din keqb k d then map fst d else map fst d ++ [k].
  Proof.
    intros k v d. unfold din. induction d as [|[k' v'] d IH]; simpl; auto.
    destruct (keqb k k') eqn:E; simpl; auto.
    rewrite IH. destruct (dget keqb k d); auto.
  Qed.
  Lemma dset_NoDup : forall k v (d : list (K * V)), NoDup (map fst d) -> NoDup (map fst (dset keqb k v d)).
  Proof.
    intros k v d H. rewrite dset_keys. destruct (din keqb k d) eqn:E; auto.
    apply NoDup_rev in H. rewrite <- (rev_involutive (map fst d ++ [k])). apply NoDup_rev.
    rewrite rev_app_distr. simpl. constructor; auto. rewrite <- in_rev.
    intro Hin. apply din_In in Hin. congruence.
  Qed.
  Lemma dset_In : forall k v k' v' (d : list (K * V)), In (k', v') (dset keqb k v d) -> (k', v') = (k, v) \/ In (k', v') d.
  Proof.
    induction d as [|[k1 v1] d IH]; simpl; [intuition|].
    destruct (keqb k k1) eqn:E; simpl.
    - apply keqb_eq in E; subst. intuition. 
    - intuition.
  Qed.
End DictLemmas.

Lemma sget_set_same : forall {V} k (v : V) d, sget k (sset_ k v d) = Some v.
Proof. intros. apply dget_dset_same. apply str_eqb_eq. Qed.
Lemma sget_set_other : forall {V} k k2 (v : V) d, k2 <> k -> sget k2 (sset_ k v d) = sget k2 d.
Proof. intros. apply dget_dset_other; auto. apply str_eqb_eq. Qed.

(** ** sorting *)
Section SortLemmas.
  Context {A : Type} (geb : A -> A -> bool).
  Lemma insert_desc_perm : forall x l, Permutation (x :: l) (insert_desc geb x l).
  Proof.
    induction l as [|y l IH]; simpl; auto. destruct (geb x y); auto.
    rewrite perm_swap. constructor. auto.
  Qed.
  Lemma sort_desc_perm : forall l, Permutation l (sort_desc geb l).
  Proof.
    induction l as [|x l IH]; simpl; auto. rewrite <- insert_desc_perm. constructor. auto.
  Qed.
  Lemma sort_desc_In : forall l x, In x (sort_desc geb l) <-> In x l.
  Proof. intros. split; apply Permutation_in; [symmetry|]; apply sort_desc_perm. Qed.
  Lemma sort_desc_length : forall l, length (sort_desc geb l) = length l.
  Proof. intros. symmetry. apply Permutation_length, sort_desc_perm. Qed.
  Lemma sort_desc_nil : forall l, sort_desc geb l = [] <-> l = [].
  Proof.
    intros. split; intro H.
    - apply length_zero_iff_nil. rewrite <- sort_desc_length, H. auto.
    - subst; auto.
  Qed.
  Hypothesis total : forall x y, geb x y = false -> geb y x = true.
  Hypothesis trans : forall x y z, geb x y = true -> geb y z = true -> geb x z = true.
  Let R x y := geb x y = true.
  Lemma insert_desc_sorted : forall x l, StronglySorted R l -> StronglySorted R (insert_desc geb x l).
  Proof.
    induction l as [|y l IH]; simpl; intros H; [repeat constructor|].
    inversion H; subst. destruct (geb x y) eqn:E.
    - constructor; auto. constructor; auto. eapply Forall_impl; [|exact H3].
      intros z Hz. unfold R in *. eapply trans; eauto.
    - constructor; auto.
      eapply Permutation_Forall; [apply insert_desc_perm|]. constructor; auto. apply total. auto.
  Qed.
  Lemma sort_desc_sorted : forall l, StronglySorted R (sort_desc geb l).
  Proof. induction l; simpl; [constructor|apply insert_desc_sorted; auto]. Qed.

  (** stability: elements of one key class keep their relative order *)
  Definition same_key (k x : A) : bool := geb k x && geb x k.
  Lemma insert_desc_filter : forall k x l, StronglySorted R l ->
    filter (same_key k) (insert_desc geb x l) = filter (same_key k) (x :: l).
  Proof.
    induction l as [|y l IH]; intros H; simpl; auto.
    inversion H; subst. destruct (geb x y) eqn:E; auto.
    simpl. rewrite IH by auto. simpl.
    destruct (same_key k y) eqn:Ey, (same_key k x) eqn:Ex; auto. exfalso.
    unfold same_key in *. apply andb_true_iff in Ey as [A1 A2]. apply andb_true_iff in Ex as [B1 B2].
    assert (geb x y = true) by (eapply trans; eauto). congruence.
  Qed.
  Lemma sort_desc_stable : forall k l, filter (same_key k) (sort_desc geb l) = filter (same_key k) l.
  Proof.
    induction l as [|x l IH]; simpl; auto. rewrite insert_desc_filter by apply sort_desc_sorted.
    simpl. rewrite IH. auto.
  Qed.
End SortLemmas.

(** sorting an already sorted list is the identity *)
Lemma sort_desc_id : forall {A} (geb : A -> A -> bool) l,
  StronglySorted (fun x y => geb x y = true) l -> sort_desc geb l = l.
Proof.
  induction l as [|x l IH]; simpl; intros H; auto. inversion H; subst. rewrite IH by auto.
  destruct l as [|y l]; simpl; auto. inversion H3; subst. rewrite H4. auto.
Qed.

(** ** argmax *)
Section ArgmaxLemmas.
  Context {A : Type} (gtb : A -> A -> bool).
  Lemma max_from_In : forall l b, In (max_from gtb b l) (b :: l).
  Proof.
    induction l as [|y l IH]; intros b; simpl; auto.
    destruct (gtb y b).
    - right. apply (IH y).
    - destruct (IH b) as [H|H]; auto.
  Qed.
  Hypothesis irrefl : forall x, gtb x x = false.
  (** negated > is transitive (a total preorder) *)
  Hypothesis ntrans : forall x y z, gtb x y = false -> gtb y z = false -> gtb x z = false.
  Hypothesis asym : forall x y, gtb x y = true -> gtb y x = false.
  Lemma max_from_ge : forall l b y, In y (b :: l) -> gtb y (max_from gtb b l) = false.
  Proof.
    induction l as [|z l IH]; intros b y H; simpl.
    - destruct H as [->|[]]; auto.
    - destruct (gtb z b) eqn:E.
      + destruct H as [->|[->|H]].
        * apply ntrans with z; auto. apply IH. left; auto.
        * apply IH. left; auto.
        * apply IH. right; auto.
      + destruct H as [->|[->|H]].
        * apply IH. left; auto.
        * apply ntrans with b; auto. apply IH; left; auto.
        * apply IH. right; auto.
  Qed.
  (** the maximum is the first one: everything before it is strictly smaller *)
  Lemma max_from_first : forall l b, exists l1 l2, b :: l = l1 ++ max_from gtb b l :: l2 /\
    (forall y, In y l1 -> gtb (max_from gtb b l) y = true).
  Proof.
    induction l as [|z l IH]; intros b; simpl.
    - exists [], []. split; [auto|intros y []].
    - destruct (gtb z b) eqn:E.
      + assert (G : gtb z (max_from gtb z l) = false) by (apply max_from_ge; left; auto).
        destruct (IH z) as (l1 & l2 & E1 & H1).
        remember (max_from gtb z l) as m eqn:Em.
        exists (b :: l1), l2. split; [simpl; rewrite <- E1; auto|].
        intros y [<-|Hy]; auto.
        destruct (gtb m b) eqn:F; auto.
        assert (gtb z b = false) by (eapply ntrans; eauto). congruence.
      + destruct (IH b) as (l1 & l2 & E1 & H1). remember (max_from gtb b l) as m eqn:Em.
        destruct l1 as [|w l1]; simpl in E1; injection E1 as E1 E2.
        * exists [], (z :: l). split; [simpl; congruence|intros y []].
        * subst w. exists (b :: z :: l1), l2. split; [simpl; congruence|].
          intros y [<-|[<-|Hy]]; [apply H1; left; auto| |apply H1; right; auto].
          assert (F : gtb m b = true) by (apply H1; left; auto).
          destruct (gtb m z) eqn:G; auto.
          assert (gtb m b = false) by (eapply ntrans; eauto). congruence.
  Qed.
End ArgmaxLemmas.

(** ** enumerate *)
Lemma enum_from_nth : forall {A} (l : list A) k i, nth_error (enum_from k l) i = option_map (pair (k + i)) (nth_error l i).
Proof.
  induction l as [|x l IH]; intros k [|i]; simpl; auto.
  - rewrite Nat.add_0_r. auto.
  - rewrite IH. destruct (nth_error l i); simpl; auto. do 2 f_equal. lia.
Qed.
Lemma enum_nth : forall {A} (l : list A) i, nth_error (enum l) i = option_map (pair i) (nth_error l i).
Proof. intros. unfold enum. rewrite enum_from_nth. auto. Qed.
Lemma enum_from_In : forall {A} (l : list A) k i x, In (i, x) (enum_from k l) <-> k <= i /\ nth_error l (i - k) = Some x.
Proof.
  induction l as [|y l IH]; intros k i x; simpl.
  - split; [tauto|]. intros [_ H]. destruct (i - k); discriminate.
  - rewrite IH. split.
    + intros [E|[H1 H2]].
      * inversion E; subst. rewrite Nat.sub_diag. auto.
      * split; [lia|]. replace (i - k) with (S (i - S k)) by lia. auto.
    + intros [H1 H2]. destruct (i - k) as [|m] eqn:E.
      * left. simpl in H2. inversion H2; subst. f_equal. lia.
      * right. split; [lia|]. simpl in H2. replace (i - S k) with m by lia. auto.
Qed.
Lemma enum_In : forall {A} (l : list A) i x, In (i, x) (enum l) <-> nth_error l i = Some x.
Proof. intros. unfold enum. rewrite enum_from_In. rewrite Nat.sub_0_r. intuition lia. Qed.
Lemma enum_from_length : forall {A} (l : list A) k, length (enum_from k l) = length l.
Proof. induction l; intros; simpl; auto. Qed.
Lemma enum_length : forall {A} (l : list A), length (enum l) = length l.
Proof. intros. apply enum_from_length. Qed.
Lemma enum_from_snd : forall {A} (l : list A) k, map snd (enum_from k l) = l.
Proof. induction l; intros; simpl; auto. rewrite IHl. auto. Qed.
Lemma enum_snd : forall {A} (l : list A), map snd (enum l) = l.
Proof. intros. apply enum_from_snd. Qed.

(** ** Q comparisons *)
Lemma Qgeb_total : forall a b, Qgeb a b = false -> Qgeb b a = true.
Proof.
  unfold Qgeb. intros a b H. apply Qle_bool_iff.
  destruct (Qlt_le_dec a b) as [L|L]; [apply Qlt_le_weak; auto|].
  apply Qle_bool_iff in L. congruence.
Qed.
Lemma Qgeb_trans : forall a b c, Qgeb a b = true -> Qgeb b c = true -> Qgeb a c = true.
Proof. unfold Qgeb. intros. apply Qle_bool_iff. apply Qle_bool_iff in H. apply Qle_bool_iff in H0. eapply Qle_trans; eauto. Qed.
Lemma Qgeb_le : forall a b, Qgeb a b = true <-> (b <= a)%Q.
Proof. intros. unfold Qgeb. apply Qle_bool_iff. Qed.
Lemma Qgtb_lt : forall a b, Qgtb a b = true <-> (b < a)%Q.
Proof.
  intros. unfold Qgtb. rewrite negb_true_iff. split; intro H.
  - destruct (Qlt_le_dec b a) as [L|L]; auto. apply Qle_bool_iff in L. congruence.
  - destruct (Qle_bool a b) eqn:E; auto. apply Qle_bool_iff in E. exfalso. eapply Qlt_not_le; eauto.
Qed.
Lemma Qgtb_ge : forall a b, Qgtb a b = false <-> (a <= b)%Q.
Proof.
  intros. unfold Qgtb. rewrite negb_false_iff. apply Qle_bool_iff.
Qed.
