(** * Tags and the tag class (C21-C26) *)
From Coq Require Import String List NArith ZArith Bool Arith Lia Permutation.
From Verif Require Import Py Uni Tagset Dawg Utils Shapes Dict Units Analyzer Spec L_Base L_Run.
Import ListNotations.
Local Open Scope nat_scope.
Local Open Scope list_scope.

(** ** Lexicographic order *)
Section Lex.
  Context {A : Type} (ltb eqb : A -> A -> bool).
  Hypothesis eqb_eq : forall a b, eqb a b = true <-> a = b.
  Hypothesis irr : forall a, ltb a a = false.
  Hypothesis trans : forall a b c, ltb a b = true -> ltb b c = true -> ltb a c = true.
  Hypothesis total : forall a b, ltb a b = false -> ltb b a = false -> a = b.
  Lemma eqb_rfl : forall a, eqb a a = true.
  Proof. intro a. apply eqb_eq; auto. Qed.
  Lemma list_ltb_irr : forall a, list_ltb ltb eqb a a = false.
  Proof. induction a as [|x a IH]; simpl; auto. rewrite eqb_rfl. auto. Qed.
  Lemma list_ltb_trans : forall a b c, list_ltb ltb eqb a b = true -> list_ltb ltb eqb b c = true -> list_ltb ltb eqb a c = true.
  Proof.
    induction a as [|x a IH]; intros [|y b] [|z c] H1 H2; simpl in *; try discriminate; auto.
    destruct (eqb x y) eqn:E1.
    - apply eqb_eq in E1. subst. destruct (eqb y z) eqn:E2; eauto.
    - destruct (eqb y z) eqn:E2.
      + apply eqb_eq in E2. subst. rewrite E1. auto.
      + destruct (eqb x z) eqn:E3.
        * apply eqb_eq in E3. subst. pose proof (trans _ _ _ H1 H2). rewrite irr in H. discriminate.
        * eauto.
  Qed.
  Lemma list_ltb_total : forall a b, list_ltb ltb eqb a b = false -> list_ltb ltb eqb b a = false -> a = b.
  Proof.
    induction a as [|x a IH]; intros [|y b] H1 H2; simpl in *; try discriminate; auto.
    destruct (eqb x y) eqn:E1.
    - apply eqb_eq in E1. subst. rewrite eqb_rfl in H2. f_equal; auto.
    - destruct (eqb y x) eqn:E2; [apply eqb_eq in E2; subst; rewrite eqb_rfl in E1; discriminate|].
      pose proof (total _ _ H1 H2). subst. rewrite eqb_rfl in E1. discriminate.
  Qed.
End Lex.
Lemma N_total : forall a b, (a <? b)%N = false -> (b <? a)%N = false -> a = b.
Proof. intros a b H1 H2. apply N.ltb_ge in H1, H2. lia. Qed.
Lemma N_trans : forall a b c, (a <? b)%N = true -> (b <? c)%N = true -> (a <? c)%N = true.
Proof. intros a b c H1 H2. apply N.ltb_lt in H1, H2. apply N.ltb_lt. lia. Qed.
Lemma str_ltb_irr : forall a, str_ltb a a = false.
Proof. exact (list_ltb_irr N.ltb N.eqb N.eqb_eq N.ltb_irrefl N_total). Qed.
Lemma str_ltb_trans : forall a b c, str_ltb a b = true -> str_ltb b c = true -> str_ltb a c = true.
Proof. exact (list_ltb_trans N.ltb N.eqb N.eqb_eq N.ltb_irrefl N_trans). Qed.
Lemma str_ltb_total : forall a b, str_ltb a b = false -> str_ltb b a = false -> a = b.
Proof. exact (list_ltb_total N.ltb N.eqb N.eqb_eq N.ltb_irrefl N_total). Qed.

Lemma tag_ltb_irr : forall a, tag_ltb a a = false.
Proof. intro a. exact (list_ltb_irr str_ltb str_eqb str_eqb_eq str_ltb_irr str_ltb_total (t_gr a)). Qed.
Lemma tag_ltb_trans : forall a b c, tag_ltb a b = true -> tag_ltb b c = true -> tag_ltb a c = true.
Proof. intros a b c. exact (list_ltb_trans str_ltb str_eqb str_eqb_eq str_ltb_irr str_ltb_trans (t_gr a) (t_gr b) (t_gr c)). Qed.
Lemma tag_ltb_total : forall a b, tag_ltb a b = false -> tag_ltb b a = false -> tag_eqb a b = true.
Proof.
  intros a b H1 H2. apply tag_eqb_iff. exact (list_ltb_total str_ltb str_eqb str_eqb_eq str_ltb_irr str_ltb_total (t_gr a) (t_gr b) H1 H2).
Qed.
Lemma tag_eqb_ltb : forall a b, tag_eqb a b = true -> tag_ltb a b = false.
Proof. intros a b H. apply tag_eqb_iff in H. unfold tag_ltb. rewrite H. apply tag_ltb_irr. Qed.

(** ** split / join *)
Lemma split_on_nil : forall c s, ~ In c s -> split_on c s = [s].
Proof.
  induction s as [|x s IH]; intro H; simpl; auto. destruct (N.eqb_spec x c) as [->|]; [exfalso; apply H; left; auto|].
  rewrite IH; auto. intro; apply H; right; auto.
Qed.
Lemma split_on_app : forall c a s, ~ In c a -> split_on c (a ++ c :: s) = a :: split_on c s.
Proof.
  induction a as [|x a IH]; intros s H; simpl.
  - rewrite N.eqb_refl. auto.
  - destruct (N.eqb_spec x c) as [->|]; [exfalso; apply H; left; auto|]. rewrite IH; auto. intro; apply H; right; auto.
Qed.
Lemma split_join : forall c l, l <> [] -> (forall x, In x l -> ~ In c x) -> split_on c (join [c] l) = l.
Proof.
  induction l as [|x l IH]; intros N H; [congruence|]. destruct l as [|y l].
  - simpl. apply split_on_nil. apply H; left; auto.
  - change (join [c] (x :: y :: l)) with (x ++ [c] ++ join [c] (y :: l)). simpl app. rewrite split_on_app by (apply H; left; auto).
    f_equal. apply IH; [congruence|]. intros; apply H; right; auto.
Qed.
Lemma split_on_nonempty : forall c s, split_on c s <> [].
Proof. intros c [|x s]; simpl; [congruence|]. destruct (x =? c)%N; [congruence|]. destruct (split_on c s); congruence. Qed.
Lemma join_split : forall c s, join [c] (split_on c s) = s.
Proof.
  induction s as [|x s IH]; auto. simpl. pose proof (split_on_nonempty c s) as N. destruct (N.eqb_spec x c) as [->|].
  - destruct (split_on c s) as [|p ps]; [congruence|]. cbn [join]. cbn [join] in IH. simpl. f_equal. exact IH.
  - destruct (split_on c s) as [|p ps]; [congruence|]. destruct ps; simpl in *; rewrite <- IH; auto.
Qed.
Lemma split_on_clean : forall c s x, In x (split_on c s) -> ~ In c x.
Proof.
  induction s as [|y s IH]; intros x H; simpl in H.
  - destruct H as [<-|[]]. auto.
  - destruct (N.eqb_spec y c) as [->|N].
    + destruct H as [<-|H]; [auto|apply IH; auto].
    + pose proof (split_on_nonempty c s) as NE. destruct (split_on c s) as [|p ps]; [congruence|].
      destruct H as [<-|H]; [|apply IH; right; auto]. intros [E|E]; [congruence|]. apply (IH p); [left; auto|auto].
Qed.

Lemma mk_tag_ok : forall C s t, mk_tag C s = Ok t -> t_str t = s /\ t_gr t = split_tag s /\ (forall g, In g (t_gr t) -> In g (tc_known C)).
Proof.
  intros C s t H. unfold mk_tag in H. apply bind_ok in H as (x & E & H). apply Ok_inj in H. subst t. simpl.
  split; auto. split; auto. unfold assert_known in E. destruct (ssub _ _) eqn:S; [apply (proj1 (ssub_incl _ _) S)|].
  apply bind_ok in E as (? & _ & E). discriminate.
Qed.
Lemma mk_tag_known : forall C s, (forall g, In g (split_tag s) -> In g (tc_known C)) -> mk_tag C s = Ok (MkTag s (split_tag s)).
Proof. intros C s H. unfold mk_tag, assert_known. rewrite (proj2 (ssub_incl _ _) H). auto. Qed.

(** ** C22 *)
Lemma contains_spec : forall C g t,
  (In g (t_gr t) -> contains C g t = Ok true) /\
  (~ In g (t_gr t) -> In g (tc_known C) -> contains C g t = Ok false) /\
  (~ In g (t_gr t) -> ~ In g (tc_known C) -> tc_known C <> [] -> contains C g t = Err ValueError) /\
  (~ In g (t_gr t) -> tc_known C = [] -> contains C g t = Err RuntimeError).
Proof.
  intros C g t. unfold contains, grammeme_is_known, assert_initialized. split; [|split; [|split]].
  - intros H. rewrite (proj2 (smem_In _ _) H). auto.
  - intros H K. rewrite (proj2 (smem_false _ _) H). destruct (tc_known C) eqn:E; [destruct K|]. cbn [bind].
    rewrite (proj2 (smem_In _ _) K). auto.
  - intros H K N. rewrite (proj2 (smem_false _ _) H). destruct (tc_known C) eqn:E; [congruence|]. cbn [bind].
    rewrite (proj2 (smem_false _ _) K). auto.
  - intros H N. rewrite (proj2 (smem_false _ _) H), N. auto.
Qed.
Lemma contains_set_spec : forall C gs t,
  ((forall g, In g gs -> In g (t_gr t)) -> contains_set C gs t = Ok true) /\
  (~ (forall g, In g gs -> In g (t_gr t)) -> (forall g, In g gs -> In g (tc_known C)) -> contains_set C gs t = Ok false) /\
  (~ (forall g, In g gs -> In g (t_gr t)) -> ~ (forall g, In g gs -> In g (tc_known C)) -> tc_known C <> [] -> contains_set C gs t = Err ValueError) /\
  (~ (forall g, In g gs -> In g (t_gr t)) -> tc_known C = [] -> contains_set C gs t = Err RuntimeError).
Proof.
  intros C gs t. unfold contains_set, assert_known, assert_initialized.
  assert (F : forall a b, ~ (forall g : str, In g a -> In g b) -> ssub a b = false).
  { intros a b H. destruct (ssub a b) eqn:E; auto. destruct H. apply ssub_incl; auto. }
  split; [|split; [|split]].
  - intros H. rewrite (proj2 (ssub_incl _ _) H). auto.
  - intros H K. rewrite (F _ _ H). rewrite (proj2 (ssub_incl _ _) K). auto.
  - intros H K N. rewrite (F _ _ H), (F _ _ K). destruct (tc_known C); [congruence|]. auto.
  - intros H N. rewrite (F _ _ H), N. destruct gs as [|g gs]; [destruct H; intros g []|]. simpl. auto.
Qed.

(** ** C23 *)
Lemma attr_spec : forall pick cat t, pick_ok pick ->
  match attr pick cat t with
  | None => forall g, In g cat -> ~ In g (t_gr t)
  | Some g => In g cat /\ In g (t_gr t)
  end.
Proof.
  intros pick cat t P. unfold attr. specialize (P (sinter cat (t_gr t))).
  destruct (pick _) as [g|].
  - apply sinter_In in P. auto.
  - intros g H1 H2. assert (In g (sinter cat (t_gr t))) by (apply sinter_In; auto). rewrite P in H. destruct H.
Qed.

(** ** C25 *)
Lemma updated_fold : forall C req acc r,
  foldM (fun acc g => let* k := grammeme_is_known C g in if k then Ok (sdiff acc (incompat_of C g)) else Err ValueError) acc req = Ok r ->
  forall x, In x r <-> In x acc /\ forall g, In g req -> ~ In x (incompat_of C g).
Proof.
  intros C; induction req as [|g req IH]; intros acc r H x; simpl in H.
  - inversion H; subst. split; [intros Hx; split; auto; intros g []|tauto].
  - apply bind_ok in H as (a & E & H). apply bind_ok in E as (k & _ & E). destruct k; [|discriminate]. apply Ok_inj in E. subst a.
    rewrite (IH _ _ H x), sdiff_In. split.
    + intros [[A B] D]. split; auto. intros g' [<-|Hg]; auto.
    + intros [A B]. split; [split; auto; apply B; left; auto|]. intros; apply B; right; auto.
Qed.
Lemma updated_spec : forall C t req r, updated_grammemes C t req = Ok r ->
  forall x, In x r <-> (In x (t_gr t) \/ In x req) /\ forall g, In g req -> ~ In x (incompat_of C g).
Proof. intros C t req r H x. rewrite (updated_fold _ _ _ _ H x), sunion_In. tauto. Qed.
Lemma updated_fold_ok : forall C req acc, (forall g, In g req -> In g (tc_known C)) ->
  exists r, foldM (fun acc g => let* k := grammeme_is_known C g in if k then Ok (sdiff acc (incompat_of C g)) else Err ValueError) acc req = Ok r.
Proof.
  intros C; induction req as [|g req IH]; intros acc H; simpl; [eauto|].
  assert (K : grammeme_is_known C g = Ok true).
  { unfold grammeme_is_known, assert_initialized. specialize (H g (or_introl eq_refl)). destruct (tc_known C) eqn:E; [destruct H|].
    cbn [bind]. rewrite (proj2 (smem_In _ _) H). auto. }
  rewrite K. simpl. apply IH. intros; apply H; right; auto.
Qed.
Lemma updated_fold_err : forall C req acc g, tc_known C <> [] -> In g req -> ~ In g (tc_known C) ->
  foldM (fun acc g => let* k := grammeme_is_known C g in if k then Ok (sdiff acc (incompat_of C g)) else Err ValueError) acc req = Err ValueError.
Proof.
  intros C; induction req as [|g' req IH]; intros acc g N H K; [destruct H|]. cbn [foldM].
  assert (A : grammeme_is_known C g' = Ok (smem g' (tc_known C))).
  { unfold grammeme_is_known, assert_initialized. destruct (tc_known C); [congruence|]. auto. }
  rewrite A. cbn [bind]. destruct (smem g' (tc_known C)) eqn:E; [|auto]. cbn [bind].
  destruct H as [<-|H]; [apply smem_In in E; contradiction|]. eapply IH; eauto.
Qed.
Lemma updated_ok : forall C t req, (forall g, In g req -> In g (tc_known C)) -> exists r, updated_grammemes C t req = Ok r.
Proof. intros. apply updated_fold_ok; auto. Qed.
Lemma updated_err : forall C t req g, tc_known C <> [] -> In g req -> ~ In g (tc_known C) -> updated_grammemes C t req = Err ValueError.
Proof. intros. eapply updated_fold_err; eauto. Qed.
Lemma updated_uninit : forall C t g req, tc_known C = [] -> updated_grammemes C t (g :: req) = Err RuntimeError.
Proof. intros C t g req H. unfold updated_grammemes. cbn [foldM]. unfold grammeme_is_known at 1, assert_initialized. rewrite H. auto. Qed.

(** ** C26: what is known after loading and binding *)
Lemma add_known_In : forall C lat cyr ov g, In g (tc_known (add_known C lat cyr ov)) <-> In g (tc_known C) \/ g = lat.
Proof.
  intros C lat cyr ov g. unfold add_known. destruct (smem lat (tc_known C)) eqn:E.
  - assert (In lat (tc_known C)) by (apply smem_In; auto).
    destruct ov; simpl; (split; [auto|intros [?| ->]; auto]).
  - rewrite andb_false_r. simpl. rewrite in_app_iff. simpl. split; intros [H|H]; auto.
    + destruct H as [<-|[]]; auto.
Qed.
Lemma add_rows_known : forall rows C g, In g (tc_known (fold_left add_row rows C)) <-> In g (tc_known C) \/ In g (map g_name rows).
Proof.
  induction rows as [|r rows IH]; intros C g; simpl; [tauto|]. rewrite IH. unfold add_row. rewrite add_known_In.
  split; [intros [[H|H]|H]|intros [H|[H|H]]]; auto.
Qed.
Lemma set_rows_known : forall rows extra l C, tc_known (fold_left (set_row rows extra) l C) = tc_known C.
Proof. induction l as [|[i r] l IH]; intros C; simpl; auto. rewrite IH. auto. Qed.
Lemma init_known : forall C rows g, In g (tc_known (init_grammemes C rows)) <-> In g (map g_name rows).
Proof.
  intros. unfold init_grammemes. rewrite set_rows_known. cbn [tc_known]. rewrite add_rows_known. simpl. tauto.
Qed.

(** grammemes added by a unit's init *)
Definition unit_grammemes (c : ucfg) : list str :=
  match c with
  | UInit true _ _ _ => [u "Init"; u "Name"]
  | UInit false _ _ _ => [u "Init"; u "Patr"]
  | UNumber _ => [u "NUMB"; u "intg"; u "real"]
  | UPunct _ => [u "PNCT"]
  | ULatin _ => [u "LATN"]
  | URoman _ => [u "ROMN"]
  | UUnkn => [u "UNKN"]
  | _ => []
  end.
Definition item_units (it : uitem) : list ucfg := match it with One c => [c] | Group l => l end.
Lemma bind_unit_known : forall C c C' b, bind_unit C c = Ok (C', b) ->
  forall g, In g (tc_known C') <-> In g (tc_known C) \/ In g (unit_grammemes c).
Proof.
  intros C c C' b H g.
  destruct c as [|first letters pat sc| | | | | | | | | | |]; cbn [bind_unit] in H;
    try (apply Ok_inj in H; inversion H; subst; simpl; tauto).
  - apply bind_ok in H as (tags & _ & H). destruct first.
    + apply bind_ok in H as (? & _ & H). apply bind_ok in H as (? & _ & H). apply bind_ok in H as (? & _ & H).
      apply Ok_inj in H. inversion H; subst. rewrite !add_known_In. cbn [unit_grammemes In]. intuition.
    + apply Ok_inj in H. inversion H; subst. rewrite !add_known_In. cbn [unit_grammemes In]. intuition.
  - apply bind_ok in H as (? & _ & H). apply bind_ok in H as (? & _ & H).
    apply Ok_inj in H. inversion H; subst. rewrite !add_known_In. cbn [unit_grammemes In]. intuition.
  - apply bind_ok in H as ([C1 x] & E & H). apply Ok_inj in H. inversion H; subst. unfold init_single in E. apply bind_ok in E as (? & _ & E).
    apply Ok_inj in E. inversion E; subst. cbn [fst]. rewrite add_known_In. cbn [unit_grammemes In]. intuition.
  - apply bind_ok in H as ([C1 x] & E & H). apply Ok_inj in H. inversion H; subst. unfold init_single in E. apply bind_ok in E as (? & _ & E).
    apply Ok_inj in E. inversion E; subst. cbn [fst]. rewrite add_known_In. cbn [unit_grammemes In]. intuition.
  - apply bind_ok in H as ([C1 x] & E & H). apply Ok_inj in H. inversion H; subst. unfold init_single in E. apply bind_ok in E as (? & _ & E).
    apply Ok_inj in E. inversion E; subst. cbn [fst]. rewrite add_known_In. cbn [unit_grammemes In]. intuition.
  - apply bind_ok in H as (t & _ & H). apply Ok_inj in H. inversion H; subst. simpl. tauto.
  - apply bind_ok in H as ([C1 x] & E & H). apply Ok_inj in H. inversion H; subst. unfold init_single in E. apply bind_ok in E as (? & _ & E).
    apply Ok_inj in E. inversion E; subst. cbn [fst]. rewrite add_known_In. cbn [unit_grammemes In]. intuition.
Qed.
Lemma bind_all_known : forall l C C' us, bind_all C l = Ok (C', us) ->
  forall g, In g (tc_known C') <-> In g (tc_known C) \/ In g (flat_map (fun cb => unit_grammemes (fst cb)) l).
Proof.
  induction l as [|[c b] l IH]; intros C C' us H g; simpl in H.
  - inversion H; subst. simpl. tauto.
  - apply bind_ok in H as ([C1 x] & E1 & H). apply bind_ok in H as ([C2 y] & E2 & H). apply Ok_inj in H. inversion H; subst.
    cbn [fst snd] in *. rewrite (IH _ _ _ E2 g), (bind_unit_known _ _ _ _ E1 g). cbn [flat_map]. rewrite in_app_iff. cbn [fst]. tauto.
Qed.
Lemma mark_last_fst : forall {A} (l : list A), map fst (mark_last l) = l.
Proof. induction l as [|x l IH]; auto. destruct l; auto. change (map fst (mark_last (x :: a :: l))) with (x :: map fst (mark_last (a :: l))). rewrite IH. auto. Qed.
Lemma flatten_units : forall items fl, mapM flatten_item items = Ok fl -> map fst (concat fl) = flat_map item_units items.
Proof.
  induction items as [|it items IH]; intros fl H; simpl in H; [inversion H; auto|].
  apply bind_ok in H as (y & E & H). apply bind_ok in H as (ys & E2 & H). apply Ok_inj in H. subst. simpl. rewrite map_app, (IH _ E2).
  f_equal. destruct it as [c|[|c l]]; simpl in E; try discriminate.
  - inversion E; auto.
  - apply Ok_inj in E. subst y. apply (mark_last_fst (c :: l)).
Qed.
Lemma construct_known : forall U ext C rows gt mk prob subst items C' M,
  construct U ext C rows gt mk prob subst items = Ok (C', M) ->
  forall g, In g (tc_known C') <-> In g (map g_name rows) \/ exists c, In c (flat_map item_units items) /\ In g (unit_grammemes c).
Proof.
  intros U ext C rows gt mk prob subst items C' M H g. unfold construct in H.
  apply bind_ok in H as (gs & _ & H). apply bind_ok in H as ([C1 us] & E & H). apply Ok_inj in H. inversion H; subst. cbn [fst].
  unfold init_units in E. apply bind_ok in E as (fl & Ef & E). rewrite (bind_all_known _ _ _ _ E g), init_known.
  rewrite <- (flatten_units _ _ Ef). rewrite in_flat_map. split.
  - intros [?|(x & Hx & Hg)]; auto. right. exists (fst x). split; auto. apply in_map; auto.
  - intros [?|(c & Hc & Hg)]; auto. right. apply in_map_iff in Hc as (x & <- & Hx). eauto.
Qed.
(** membership answers depend only on the set of known grammemes *)
Lemma contains_same_known : forall C1 C2 g t, (forall x, In x (tc_known C1) <-> In x (tc_known C2)) -> contains C1 g t = contains C2 g t.
Proof.
  intros C1 C2 g t H. unfold contains, grammeme_is_known, assert_initialized. destruct (smem g (t_gr t)); auto.
  assert (E : smem g (tc_known C1) = smem g (tc_known C2)).
  { destruct (smem g (tc_known C2)) eqn:E2.
    - apply smem_In, H, smem_In; auto.
    - apply smem_false. rewrite H. apply smem_false; auto. }
  destruct (tc_known C1) as [|x l] eqn:E1, (tc_known C2) as [|y l2] eqn:E2; auto.
  - destruct (proj2 (H y)); left; auto.
  - destruct (proj1 (H x)); left; auto.
  - cbn [bind]. rewrite E. auto.
Qed.
