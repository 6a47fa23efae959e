(** * The table of incompatible grammemes when a dictionary is loaded (again) *)
From Coq Require Import String List NArith ZArith Bool Lia.
From Verif Require Import Py Uni Tagset Shapes Units Analyzer Threads Spec6 Spec11.
From Verif Require Import Spec L_Base L_Tagset L_Tags2 L_Threads L_Threads2.
Import ListNotations.
Local Open Scope nat_scope.
Local Open Scope list_scope.

Lemma rows_tables : forall rows C, tc_extra (fold_left add_row rows C) = tc_extra C /\ tc_incompat (fold_left add_row rows C) = tc_incompat C.
Proof. intros rows. induction rows as [|r rows IH]; intros C; [auto|]. cbn [fold_left]. destruct (IH (add_row C r)) as (-> & ->). unfold add_row, add_known. cbn. auto. Qed.
Lemma adds_tables : forall (adds : list (str * str * bool)) C, let C' := fold_left (fun C a => add_known C (fst (fst a)) (snd (fst a)) (snd a)) adds C in tc_extra C' = tc_extra C /\ tc_incompat C' = tc_incompat C.
Proof. intros adds. induction adds as [|a adds IH]; intros C; [split; reflexivity|]. cbn [fold_left]. destruct (IH (add_known C (fst (fst a)) (snd (fst a)) (snd a))) as (A & B). cbv zeta. rewrite A, B. unfold add_known. destruct (negb (snd a) && _); auto. Qed.
(** what the loop over the rows leaves in the table *)
Definition looked (d : list (str * sset)) (g : str) : sset := match sget g d with Some s => s | None => [] end.
Lemma looked_set : forall d k v g, looked (sset_ k v d) g = if str_eqb g k then v else looked d g.
Proof.
  intros d k v g. unfold looked, sget, sset_. destruct (str_eqb g k) eqn:E; [apply str_eqb_eq in E; subst k; rewrite dget_dset_same by apply str_eqb_eq; reflexivity|]. rewrite dget_dset_other; [reflexivity|apply str_eqb_eq|]. intros ->. rewrite (proj2 (str_eqb_eq k k) eq_refl) in E. discriminate E.
Qed.
Lemma set_rows_spec : forall rows0 extra l C, tc_extra (fold_left (set_row rows0 extra) l C) = tc_extra C /\
  forall g, incompat_of (fold_left (set_row rows0 extra) l C) g = fold_left (fun s (ir : nat * grow) => if str_eqb g (g_name (snd ir)) then incompat_row rows0 extra (snd ir) else s) l (incompat_of C g).
Proof.
  intros rows0 extra l. induction l as [|[i r] l IH]; intros C; [split; reflexivity|]. cbn [fold_left]. destruct (IH (set_row rows0 extra C (i, r))) as (A & B). split; [rewrite A; reflexivity|]. intros g. rewrite B. f_equal. cbn [snd]. exact (looked_set (tc_incompat C) (g_name r) (incompat_row rows0 extra r) g).
Qed.
Lemma init_tables : forall C rows, tc_extra (init_grammemes C rows) = expand_extra rows (tc_extra C) /\
  forall g, incompat_of (init_grammemes C rows) g = fold_left (fun s (ir : nat * grow) => if str_eqb g (g_name (snd ir)) then incompat_row rows (expand_extra rows (tc_extra C)) (snd ir) else s) (enum rows) (incompat_of C g).
Proof.
  intros C rows. unfold init_grammemes. destruct (rows_tables rows (reset_known C)) as (A & B). rewrite A. match goal with |- context [fold_left (set_row rows ?e) (enum rows) ?X] => destruct (set_rows_spec rows e (enum rows) X) as (D & E) end. rewrite D. split; [reflexivity|].
  intros g. rewrite E. f_equal. unfold incompat_of at 1. cbn [tc_incompat]. rewrite B. reflexivity.
Qed.
Lemma sdiff_same : forall acc (a b : sset), (forall x, In x a <-> In x b) -> sdiff acc a = sdiff acc b.
Proof.
  intros acc a b H. unfold sdiff. apply filter_ext. intros x. f_equal. destruct (smem x a) eqn:A, (smem x b) eqn:B; auto; [apply smem_In, H, smem_In in A; congruence|apply smem_In, H, smem_In in B; congruence].
Qed.
Lemma looked_expand : forall rows e k x, In x (looked (expand_extra rows e) k) <-> In x (looked e k) \/ exists y, In y (looked e k) /\ In x (children rows y).
Proof.
  intros rows e k x. unfold looked. rewrite sget_expand. destruct (sget k e) as [E|]; cbn [option_map]; [apply fold_children|]. split; [intros []|intros [[]|(y & [] & _)]].
Qed.
Lemma incompat_row_In : forall rows e r x, In x (incompat_row rows e r) <-> x <> g_name r /\ (In x (looked e (g_name r)) \/ exists p, g_parent r = Some p /\ In x (children rows p)).
Proof.
  intros rows e r x. unfold incompat_row. rewrite filter_In, sunion_In. fold (looked e (g_name r)). assert (N : negb (str_eqb x (g_name r)) = true <-> x <> g_name r).
  { destruct (str_eqb x (g_name r)) eqn:E; cbn; [apply str_eqb_eq in E; split; [discriminate|contradiction]|]. split; auto. intros _ X. apply str_eqb_eq in X. congruence. }
  rewrite N. split.
  - intros ([A|A] & B); (split; [exact B|]); auto. destruct (g_parent r) as [p|]; [|destruct A]. right. exists p. auto.
  - intros (B & [A|(p & E & A)]); (split; [|exact B]); auto. rewrite E. auto.
Qed.
Definition sames (a b : sset) : Prop := forall x, In x a <-> In x b.
Lemma expand_same : forall rows e e0, (forall k, sames (looked e k) (looked e0 k)) -> forall k, sames (looked (expand_extra rows e) k) (looked (expand_extra rows e0) k).
Proof. intros rows e e0 H k x. rewrite !looked_expand, (H k x). split; (intros [A|(y & A & B)]; [auto|right; exists y; split; [apply H; exact A|exact B]]). Qed.
Lemma row_same : forall rows e e0 r, (forall k, sames (looked e k) (looked e0 k)) -> sames (incompat_row rows e r) (incompat_row rows e0 r).
Proof. intros rows e e0 r H x. rewrite !incompat_row_In, (H _ x). tauto. Qed.
Lemma init_same : forall C C0 rows, same_tables C C0 -> same_tables (init_grammemes C rows) (init_grammemes C0 rows).
Proof.
  intros C C0 rows (A & B). destruct (init_tables C rows) as (X1 & X2). destruct (init_tables C0 rows) as (Y1 & Y2).
  assert (E : forall k, sames (looked (expand_extra rows (tc_extra C)) k) (looked (expand_extra rows (tc_extra C0)) k)) by (apply expand_same; exact A). split.
  - intros k. unfold extra_of. rewrite X1, Y1. exact (E k).
  - intros g. rewrite X2, Y2. generalize (B g). generalize (incompat_of C g) (incompat_of C0 g). generalize (enum rows). induction l as [|[i r] l IH]; intros s s0 S; [exact S|]. cbn [fold_left snd]. apply IH. destruct (str_eqb g (g_name r)); [|exact S]. exact (row_same rows _ _ r E).
Qed.
Lemma same_refl : forall C, same_tables C C. Proof. intros C. split; intros; reflexivity. Qed.
Lemma same_sym : forall A B, same_tables A B -> same_tables B A. Proof. intros A B (X & Y). split; intros; symmetry; auto. Qed.
Lemma same_trans : forall A B C, same_tables A B -> same_tables B C -> same_tables A C.
Proof. intros A B C (X & Y) (X' & Y'). split; intros k x; [rewrite X; apply X'|rewrite Y; apply Y']. Qed.
Lemma last_row : forall (f : grow -> sset) g r l s, NoDup (map (fun ir : nat * grow => g_name (snd ir)) l) -> In r (map snd l) -> g_name r = g ->
  fold_left (fun s (ir : nat * grow) => if str_eqb g (g_name (snd ir)) then f (snd ir) else s) l s = f r.
Proof.
  intros f g r l. induction l as [|[i x] l IH]; intros s ND J E; [destruct J|]. cbn [map snd fold_left] in *. inversion ND as [|? ? N1 N2]; subst. destruct J as [->|J].
  - rewrite (proj2 (str_eqb_eq (g_name r) (g_name r)) eq_refl). clear IH N2. assert (K : forall l s, ~ In (g_name r) (map (fun ir : nat * grow => g_name (snd ir)) l) -> fold_left (fun s (ir : nat * grow) => if str_eqb (g_name r) (g_name (snd ir)) then f (snd ir) else s) l s = s).
    { clear. induction l as [|[j y] l IH]; intros s N; [reflexivity|]. cbn [fold_left map snd In] in *. destruct (str_eqb (g_name r) (g_name y)) eqn:E; [apply str_eqb_eq in E; exfalso; apply N; left; auto|]. apply IH. intros X. apply N. right. exact X. }
    apply K. exact N1.
  - apply IH; auto.
Qed.
Lemma enum_snd : forall A (l : list A), map snd (enum l) = l.
Proof. intros A l. unfold enum. generalize 0. induction l as [|x l IH]; intros n; [reflexivity|]. cbn [enum_from map snd]. f_equal. apply IH. Qed.
Lemma reloads_rows : forall C rows e, reloads C rows -> (forall k, sames (looked e k) (extra_of C k)) ->
  (forall k, sames (looked (expand_extra rows e) k) (extra_of C k)) /\ forall r, In r rows -> sames (incompat_row rows e r) (incompat_of C (g_name r)).
Proof.
  intros C rows e (ND & A & B) H. destruct (init_tables C rows) as (X1 & X2).
  assert (E : forall k, sames (looked (expand_extra rows (tc_extra C)) k) (extra_of C k)) by (intros k x; rewrite <- (A k x); unfold extra_of; rewrite X1; reflexivity).
  split; [intros k x; rewrite (expand_same rows e (tc_extra C) H k x); apply E|]. intros r J x. rewrite <- (B (g_name r) x), X2.
  rewrite (last_row (fun x => incompat_row rows (expand_extra rows (tc_extra C)) x) (g_name r) r); [|rewrite <- (map_map snd g_name), enum_snd; exact ND|rewrite enum_snd; exact J|reflexivity].
  apply row_same. intros k y. rewrite (H k y). symmetry. apply E.
Qed.
(** a dictionary that is loaded already *)
Lemma no_children : forall rows x, ~ In x (children rows []).
Proof.
  intros rows x H. unfold children in H. apply in_map_iff in H as (r & _ & H). apply filter_In in H as (_ & H). unfold is_child in H. apply orb_true_iff in H as [H|H].
  - destruct (g_parent r) as [[|c s]|]; cbn [truthy] in H; discriminate H.
  - destruct (g_parent r) as [q|]; [|discriminate H]. destruct (parent_of rows q) as [[|c s]|]; cbn [truthy] in H; discriminate H.
Qed.
Lemma children_closed : forall rows e y x, NoDup (map g_name rows) -> three_levels rows -> In y (children rows e) -> In x (children rows y) -> In x (children rows e).
Proof.
  intros rows e y x ND TL Y X. assert (NE : e <> []) by (intros ->; exact (no_children _ _ Y)). assert (NY : y <> []) by (intros ->; exact (no_children _ _ X)).
  apply children_In in Y as (ry & Iy & <- & Y); auto. apply children_In in X as (rx & Ix & <- & X); auto. apply children_In; auto. exists rx. split; [exact Ix|]. split; [reflexivity|].
  destruct X as [X|(q & r' & E & I' & <- & X)].
  - destruct Y as [Y|(q & r' & E & I' & <- & Y)]; [right; exists (g_name ry), ry; auto|]. rewrite (TL rx ry r' Ix Iy I' X E) in Y. discriminate Y.
  - exfalso. destruct Y as [Y|(q2 & r2 & E2 & I2 & <- & Y)]; rewrite (TL rx r' ry Ix I' Iy E X) in *; discriminate.
Qed.
Lemma load_again : forall C rows, NoDup (map g_name rows) -> three_levels rows -> same_tables (init_grammemes (init_grammemes C rows) rows) (init_grammemes C rows).
Proof.
  intros C rows ND TL. destruct (init_tables C rows) as (X1 & X2). destruct (init_tables (init_grammemes C rows) rows) as (Y1 & Y2).
  assert (E : forall k, sames (looked (expand_extra rows (expand_extra rows (tc_extra C))) k) (looked (expand_extra rows (tc_extra C)) k)).
  { intros k x. rewrite looked_expand. split; [|auto]. intros [A|(y & A & B)]; [exact A|]. rewrite looked_expand in *. destruct A as [A|(z & A & D)]; [right; eauto|]. right. exists z. split; [exact A|]. exact (children_closed _ _ _ _ ND TL D B). }
  split.
  - intros k. unfold extra_of. rewrite Y1, X1. exact (E k).
  - intros g. rewrite Y2. rewrite X1. destruct (in_dec (list_eq_dec N.eq_dec) g (map g_name rows)) as [J|J].
    + apply in_map_iff in J as (r & <- & J). rewrite X2. rewrite !(last_row (fun x => incompat_row rows _ x) (g_name r) r); try reflexivity; try (rewrite enum_snd; exact J); try (rewrite <- (map_map snd g_name), enum_snd; exact ND). exact (row_same rows _ _ r E).
    + rewrite <- (enum_snd _ rows) in J. revert J. generalize (incompat_of (init_grammemes C rows) g). generalize (enum rows). intros l s J. intros x. replace (fold_left _ l s) with s; [reflexivity|]. symmetry. revert s. induction l as [|[i r] l IH]; intros s; [reflexivity|]. cbn [fold_left map snd In] in *.
      destruct (str_eqb g (g_name r)) eqn:Q; [apply str_eqb_eq in Q; exfalso; apply J; left; auto|]. apply IH. intros K. apply J. right. exact K.
Qed.
Lemma loaded_reloads : forall C rows adds, NoDup (map g_name rows) -> three_levels rows -> reloads (created C [(rows, adds)]) rows.
Proof.
  intros C rows adds ND TL. split; [exact ND|]. unfold created. cbn [fold_left fst snd]. destruct (adds_tables adds (init_grammemes C rows)) as (A & B). cbv zeta in A, B. match type of A with tc_extra ?X = _ => set (C' := X) in * end.
  assert (S : same_tables C' (init_grammemes C rows)) by (split; intros k x; [unfold extra_of; rewrite A; reflexivity|unfold incompat_of; rewrite B; reflexivity]).
  apply (same_trans _ (init_grammemes (init_grammemes C rows) rows)); [exact (init_same _ _ rows S)|]. apply (same_trans _ (init_grammemes C rows)); [exact (load_again C rows ND TL)|exact (same_sym _ _ S)].
Qed.
Lemma equal_tables : forall A B, tc_extra A = tc_extra B -> tc_incompat A = tc_incompat B -> same_tables A B.
Proof. intros A B X Y. split; intros k x; [unfold extra_of; rewrite X|unfold incompat_of; rewrite Y]; reflexivity. Qed.
Fixpoint nodup_strs (l : list str) : bool := match l with [] => true | x :: r => negb (smem x r) && nodup_strs r end.
Lemma nodup_strs_ok : forall l, nodup_strs l = true -> NoDup l.
Proof. induction l as [|x l IH]; intros H; [constructor|]. cbn in H. apply andb_prop in H as (A & B). constructor; [|auto]. intros J. apply smem_In in J. rewrite J in A. discriminate A. Qed.
