(** * Lemmas for C72: the analyzer with rounded scores simulates the exact one *)
From Coq Require Import String List NArith ZArith Bool QArith Qround Qabs Qpower Lia Lqa.
From Verif Require Import Py Uni Tagset Dawg Dict Utils Shapes Units Analyzer Rounding Spec Spec22.
From Verif Require Import L_Base L_Rounding L_Rounding2.
Import ListNotations.
Local Open Scope nat_scope.
Local Open Scope list_scope.

(** relative error counted in roundings; [None]: no bound *)
Definition near (k : option nat) (x y : Q) : Prop := match k with None => True | Some k => off_by k x y end.
Definition bump (k : option nat) : option nat := match k with None => None | Some k => Some (k + 3) end.
Definition rho : Q := 4503599627370497 # 4503599627370496.
Definition rpow (k : nat) : Q := Qpower rho (Z.of_nat k).
Lemma rpow_0 : (rpow 0 == 1)%Q.
Proof. reflexivity. Qed.
Lemma rpow_S : forall k, (rpow (S k) == rpow k * rho)%Q.
Proof. intros k. unfold rpow. rewrite Nat2Z.inj_succ. unfold Z.succ. rewrite Qpower_plus by discriminate. reflexivity. Qed.
Lemma rpow_ge1 : forall k, (1 <= rpow k)%Q.
Proof. induction k as [|k IH]; [apply Qle_refl|]. rewrite rpow_S. assert (H : (1 <= rho)%Q) by discriminate. nra. Qed.
Lemma rpow_add : forall a b, (rpow (a + b) == rpow a * rpow b)%Q.
Proof. intros a b. unfold rpow. rewrite Nat2Z.inj_add. apply Qpower_plus. discriminate. Qed.
Lemma off_refl : forall k x, (0 <= x)%Q -> off_by k x x.
Proof. intros k x H. assert (P := rpow_ge1 k). unfold off_by. fold rho. fold (rpow k). split; nra. Qed.
Lemma off_mono : forall k j x y, k <= j -> (0 <= x)%Q -> (0 <= y)%Q -> off_by k x y -> off_by j x y.
Proof.
  intros k j x y L X Y [A B]. unfold off_by in *. fold rho in *. fold (rpow k) in *. fold (rpow j). replace j with (k + (j - k)) by lia. rewrite rpow_add.
  assert (P := rpow_ge1 k). assert (P2 := rpow_ge1 (j - k)). set (a := rpow k) in *. set (b := rpow (j - k)) in *. assert (Z : (a <= a * b)%Q) by nra. split; nra.
Qed.
Lemma off_trans : forall k j x y z, off_by k x y -> off_by j y z -> off_by (k + j) x z.
Proof.
  intros k j x y z [A B] [C D]. unfold off_by in *. fold rho in *. fold (rpow k) in *. fold (rpow j) in *. fold (rpow (k + j)). rewrite rpow_add.
  assert (P := rpow_ge1 k). assert (P2 := rpow_ge1 j). set (a := rpow k) in *. set (b := rpow j) in *. split.
  - apply (Qle_trans _ (y * a)); [exact A|]. setoid_replace (z * (a * b))%Q with (z * b * a)%Q by ring. apply Qmult_le_compat_r; [exact C|lra].
  - apply (Qle_trans _ (y * b)); [exact D|]. setoid_replace (x * (a * b))%Q with (x * a * b)%Q by ring. apply Qmult_le_compat_r; [exact B|lra].
Qed.
Lemma off_times : forall k x y m, (0 <= m)%Q -> off_by k x y -> off_by k (x * m) (y * m).
Proof.
  intros k x y m M [A B]. unfold off_by in *. fold rho in *. fold (rpow k) in *. set (a := rpow k) in *. split.
  - setoid_replace (y * m * a)%Q with (y * a * m)%Q by ring. apply Qmult_le_compat_r; assumption.
  - setoid_replace (x * m * a)%Q with (x * a * m)%Q by ring. apply Qmult_le_compat_r; assumption.
Qed.
Lemma off_fl : forall fl, rounding fl -> forall x, (0 <= x)%Q -> off_by 1 (fl x) x.
Proof.
  intros fl R x H. destruct (fl_near fl R x H) as [A B]. unfold off_by. change (Qpower _ _) with rho. unfold ulp in *. unfold rho. split; nra.
Qed.
Definition rel (k : option nat) (p q : parse) : Prop := same_reading p q /\ ((0 <= p_score p)%Q /\ (0 <= p_score q)%Q /\ (p_score p == 0 <-> p_score q == 0)%Q) /\ near k (p_score p) (p_score q).
Definition skr (a b : skey) : Prop :=
  match a, b with
  | SKey w t k, SKey w' t' k' => w = w' /\ t = t' /\ k = k'
  | SFull _, SFull _ => True
  | _, _ => False
  end.
Definition orel (k : option nat) (x y : list parse * list skey) : Prop := Forall2 (rel k) (fst x) (fst y) /\ Forall2 skr (snd x) (snd y).
Definition rrel {A B} (P : A -> B -> Prop) (a : res A) (b : res B) : Prop :=
  match a, b with Ok x, Ok y => P x y | Err e, Err e' => e = e' | _, _ => False end.

Lemma rrel_bind : forall {A B C D} (P : A -> B -> Prop) (S : C -> D -> Prop) a b f g, rrel P a b -> (forall x y, P x y -> rrel S (f x) (g y)) -> rrel S (bind a f) (bind b g).
Proof. intros A B C D P S [x|e] [y|e'] f g H K; cbn in *; auto; contradiction. Qed.
Lemma rrel_same : forall {A B C} (S : B -> C -> Prop) (a : res A) f g, (forall x, rrel S (f x) (g x)) -> rrel S (bind a f) (bind a g).
Proof. intros A B C S [x|e] f g K; cbn; auto. Qed.
Lemma rrel_foldM : forall {A S S'} (P : S -> S' -> Prop) (f : S -> A -> res S) (g : S' -> A -> res S') l s s', P s s' -> (forall x y a, In a l -> P x y -> rrel P (f x a) (g y a)) -> rrel P (foldM f s l) (foldM g s' l).
Proof.
  intros A S S' P f g l. induction l as [|a l IH]; intros s s' H K; [exact H|]. cbn [foldM]. apply (rrel_bind P); [apply K; [left; reflexivity|exact H]|]. intros x y E. apply IH; [exact E|]. intros; apply K; [right; assumption|assumption].
Qed.
Lemma F2_map : forall {A B A' B'} (P : A -> B -> Prop) (S : A' -> B' -> Prop) f g l r, Forall2 P l r -> (forall x y, P x y -> S (f x) (g y)) -> Forall2 S (map f l) (map g r).
Proof. intros A B A' B' P S f g l r H K. induction H; constructor; auto. Qed.
Lemma F2_filter : forall {A B} (P : A -> B -> Prop) f g l r, Forall2 P l r -> (forall x y, P x y -> f x = g y) -> Forall2 P (filter f l) (filter g r).
Proof. intros A B P f g l r H K. induction H; [constructor|]. cbn [filter]. rewrite (K _ _ H). destruct (g y); auto. Qed.
Lemma F2_flat_map : forall {A B A' B'} (P : A -> B -> Prop) (S : A' -> B' -> Prop) f g l r, Forall2 P l r -> (forall x y, P x y -> Forall2 S (f x) (g y)) -> Forall2 S (flat_map f l) (flat_map g r).
Proof. intros A B A' B' P S f g l r H K. induction H; [constructor|]. cbn [flat_map]. apply Forall2_app; auto. Qed.
Lemma F2_sort : forall {A B} (P : A -> B -> Prop) ga gb l r, Forall2 P l r -> (forall x y x' y', P x y -> P x' y' -> ga x x' = gb y y') -> Forall2 P (sort_desc ga l) (sort_desc gb r).
Proof.
  intros A B P ga gb l r H K. induction H as [|x y l r E H IH]; [constructor|]. cbn [sort_desc]. clear H. revert IH. generalize (sort_desc ga l), (sort_desc gb r). intros a b H. induction H as [|x' y' a b E' H IH]; [repeat constructor; exact E|].
  cbn [insert_desc]. rewrite (K _ _ _ _ E E'). destruct (gb y y'); repeat constructor; auto.
Qed.
Lemma F2_weaken : forall {A B} (P S : A -> B -> Prop) l r, Forall2 P l r -> (forall x y, P x y -> S x y) -> Forall2 S l r.
Proof. intros A B P S l r H K. induction H; constructor; auto. Qed.
Lemma F2_same : forall {A} (P : A -> A -> Prop) l, (forall x, In x l -> P x x) -> Forall2 P l l.
Proof. intros A P l. induction l as [|x l IH]; intros H; constructor; [apply H; left; reflexivity|]. apply IH. intros; apply H; right; assumption. Qed.

Lemma seen_rel : forall w t k s s', Forall2 skr s s' -> seen_mem (SKey w t k) s = seen_mem (SKey w t k) s'.
Proof.
  intros w t k s s' H. unfold seen_mem. induction H as [|a b s s' E H IH]; [reflexivity|]. cbn [existsb]. rewrite IH. f_equal. destruct a, b; cbn in *; try contradiction; [|reflexivity]. destruct E as (-> & -> & ->). reflexivity.
Qed.
Lemma key_rel : forall p q, same_reading p q -> para_key_of p = para_key_of q.
Proof. intros p q (_ & _ & _ & E). unfold para_key_of. rewrite E. reflexivity. Qed.
Lemma add_rel : forall k st st' p q, orel k st st' -> rel k p q -> orel k (add_parse_if_not_seen st p) (add_parse_if_not_seen st' q).
Proof.
  intros k [r s] [r' s'] p q [A B] E. cbn [fst snd] in A, B. unfold add_parse_if_not_seen. rewrite (key_rel p q (proj1 E)). destruct E as (E & E2). destruct (E) as (E1 & E3 & _). rewrite E1, E3.
  rewrite (seen_rel _ _ _ _ _ B). destruct (seen_mem _ s'); split; cbn [fst snd]; auto. - apply Forall2_app; [exact A|]. constructor; [split; auto|constructor]. - constructor; [cbn; auto|exact B].
Qed.
Lemma adds_rel : forall k l l' st st', orel k st st' -> Forall2 (rel k) l l' -> orel k (fold_left add_parse_if_not_seen l st) (fold_left add_parse_if_not_seen l' st').
Proof. intros k l l' st st' H F. revert st st' H. induction F as [|p q l l' E F IH]; intros st st' H; [exact H|]. cbn [fold_left]. apply IH. apply add_rel; assumption. Qed.

Section sim.
Context (fl : Q -> Q) (R : rounding fl).

Lemma fl_iff : forall x, (0 <= x)%Q -> (fl x == 0 <-> x == 0)%Q.
Proof. intros x H. split; intros E; [|apply fl_zero; assumption]. destruct (Qlt_le_dec 0 x) as [L|L]; [|lra]. assert (P := fl_pos fl R x L). lra. Qed.
Lemma times_rel : forall x y m, (0 <= x)%Q -> (0 <= y)%Q -> (x == 0 <-> y == 0)%Q -> (0 < m)%Q ->
  (0 <= fl (x * fl m))%Q /\ (0 <= y * m)%Q /\ (fl (x * fl m) == 0 <-> y * m == 0)%Q.
Proof.
  intros x y m X Y E M. assert (FM := fl_pos fl R m M). assert (X1 : (0 <= x * fl m)%Q) by nra. split; [apply fl_nonneg; assumption|]. split; [nra|]. rewrite (fl_iff _ X1). split; intros H.
  - apply Qmult_integral in H as [H|H]; [|lra]. apply E in H. rewrite H. ring.
  - apply Qmult_integral in H as [H|H]; [|lra]. apply E in H. rewrite H. ring.
Qed.
Lemma lit_rel : forall m, (0 < m)%Q -> (0 <= fl m)%Q /\ (0 <= m)%Q /\ (fl m == 0 <-> m == 0)%Q.
Proof. intros m M. split; [apply fl_nonneg; [assumption|lra]|]. split; [lra|]. apply fl_iff. lra. Qed.
Lemma one_rel : forall k p, p_score p = 1%Q -> rel k p p.
Proof. intros k p E. split; [repeat split; reflexivity|]. rewrite E. split; [split; [discriminate|]; split; [discriminate|tauto]|]. destruct k; [apply off_refl; discriminate|exact I]. Qed.
Lemma lit_near : forall k m, (0 < m)%Q -> near (bump k) (fl m) m.
Proof. intros [k|] m M; [|exact I]. apply (off_mono 1); [lia|apply fl_nonneg; [exact R|lra]|lra|]. apply off_fl; [exact R|lra]. Qed.
Lemma times_near : forall k x y m, (0 <= x)%Q -> (0 <= y)%Q -> (0 < m)%Q -> near k x y -> near (bump k) (fl (x * fl m)) (y * m).
Proof.
  intros [k|] x y m X Y M N; [|exact I]. cbn [near bump] in *. assert (FM := fl_pos fl R m M). assert (X1 : (0 <= x * fl m)%Q) by nra. apply (off_mono (1 + (k + 1))); [lia|apply fl_nonneg; assumption|nra|].
  apply (off_trans 1 (k + 1) _ (x * fl m)); [apply off_fl; assumption|]. apply (off_trans k 1 _ (y * fl m)); [apply off_times; [lra|exact N]|]. 
  assert (O := off_fl fl R m ltac:(lra)). assert (O2 := off_times 1 _ _ y Y O). destruct O2 as [A B]. split; rewrite (Qmult_comm y m), (Qmult_comm y (fl m)); assumption.
Qed.

Lemma prefixed_rel : forall k self m prefix p q, (0 < m)%Q -> rel k p q -> rel (bump k) (prefixed_fl fl self m prefix p) (prefixed self m prefix q).
Proof.
  intros k self m prefix p q M ((W & T & N & S) & (P & Q & E) & NE). split; [unfold same_reading; cbn; rewrite W, T, N, S; repeat split; reflexivity|]. cbn. split; [apply times_rel; assumption|apply times_near; assumption].
Qed.
Lemma suffixed_rel : forall k self m s p q, (0 < m)%Q -> rel k p q -> rel (bump k) (suffixed_fl fl self m s p) (suffixed self m s q).
Proof.
  intros k self m s p q M ((W & T & N & S) & (P & Q & E) & NE). split; [unfold same_reading; cbn; rewrite W, T, N, S; repeat split; reflexivity|]. cbn. split; [apply times_rel; assumption|apply times_near; assumption].
Qed.
Lemma both_rel : forall k self m p q p' q', (0 < m)%Q -> rel k p q -> rel k p' q' -> rel (bump k) (both_parse_fl fl self m p p') (both_parse self m q q').
Proof.
  intros k self m p q p' q' M ((W & T & N & S) & (P & Q & E) & NE) ((W' & T' & N' & S') & _). split; [unfold same_reading; cbn; rewrite W, T, N, S, W', N', S'; repeat split; reflexivity|]. cbn. split; [apply times_rel; assumption|apply times_near; assumption].
Qed.
Lemma fixed_rel : forall k self m l p q, (0 < m)%Q -> rel k p q -> rel (bump k) (fixed_left_parse_fl fl self m l p) (fixed_left_parse self m l q).
Proof.
  intros k self m s p q M ((W & T & N & S) & (P & Q & E) & NE). split; [unfold same_reading; cbn; rewrite W, T, N, S; repeat split; reflexivity|]. cbn. split; [apply times_rel; assumption|apply times_near; assumption].
Qed.
Lemma rel_tag : forall k p q, rel k p q -> p_tag p = p_tag q.
Proof. intros k p q ((_ & T & _) & _). exact T. Qed.
Lemma prefix_step_rel : forall k self m prefix st st' ps qs, (0 < m)%Q -> orel (bump k) st st' -> Forall2 (rel k) ps qs -> orel (bump k) (prefix_step_fl fl self m prefix st ps) (prefix_step self m prefix st' qs).
Proof.
  intros k self m prefix st st' ps qs M S F. unfold prefix_step_fl, prefix_step. apply adds_rel; [exact S|]. apply (F2_map (rel k)); [|intros; apply prefixed_rel; assumption]. apply F2_filter; [exact F|]. intros x y E. rewrite (rel_tag _ _ _ E). reflexivity.
Qed.
Lemma dict_parse_one : forall k M self w ps, dict_parse M self w = Ok ps -> Forall2 (rel k) ps ps.
Proof.
  intros k M self w ps H. apply F2_same. intros p I. apply one_rel. unfold dict_parse in H. apply rmap_ok in H as (l & H & ->). apply in_concat in I as (x & I1 & I2).
  destruct (mapM_In _ _ _ _ H I1) as ([k0 vals] & _ & E). destruct (mapM_In _ _ _ _ E I2) as ([para idx] & _ & E2). apply bind_ok in E2 as (nf & _ & E2). apply bind_ok in E2 as (t & _ & E2). apply Ok_inj in E2. rewrite <- E2. reflexivity.
Qed.

(** predicted readings *)
Definition ksr (m : Q) (p q : parse) : Prop := same_reading p q /\ exists c t, (Z.of_nat c < 2 ^ 16)%Z /\ (0 < Z.of_nat t < 2 ^ 33)%Z /\
  p_score p = fl (fl (Z.of_nat c # Pos.of_nat t) * fl m)%Q /\ p_score q = ((Z.of_nat c # Pos.of_nat t) * m)%Q.
Lemma ksr_geb : forall m p q p' q', (0 < m)%Q -> ksr m p q -> ksr m p' q' -> score_geb p p' = score_geb q q'.
Proof.
  intros m p q p' q' M (_ & c & t & C & T & P & Q) (_ & c' & t' & C' & T' & P' & Q'). unfold score_geb, Qgeb. rewrite P, Q, P', Q'. apply cmp_frac; assumption.
Qed.
Lemma ksr_rel : forall k m p q, (0 < m)%Q -> ksr m p q -> rel (bump k) p q.
Proof.
  intros k m p q M (S & c & t & C & T & P & Q). split; [exact S|]. rewrite P, Q. assert (X : (0 <= Z.of_nat c # Pos.of_nat t)%Q) by (unfold Qle; cbn; lia).
  assert (X0 := fl_nonneg fl R _ X). split; [apply times_rel; [exact X0|exact X|apply fl_iff; exact X|exact M]|].
  destruct k as [k|]; [|exact I]. apply (off_mono 3 (k + 3)); [lia|apply fl_nonneg; [exact R|assert (FM := fl_pos fl R m M); nra]|nra|].
  assert (O := off_fl fl R _ X). assert (FM := fl_pos fl R m M). assert (X1 : (0 <= fl (Z.of_nat c # Pos.of_nat t) * fl m)%Q) by nra.
  apply (off_trans 1 2 _ (fl (Z.of_nat c # Pos.of_nat t) * fl m)%Q); [apply off_fl; assumption|]. apply (off_trans 1 1 _ ((Z.of_nat c # Pos.of_nat t) * fl m)%Q); [apply off_times; [lra|exact O]|].
  assert (O1 := off_fl fl R m ltac:(lra)). assert (O2 := off_times 1 _ _ _ X O1). destruct O2 as [A B]. split; rewrite (Qmult_comm _ m), (Qmult_comm _ (fl m)); assumption.
Qed.
(** totals of the prediction: the loop stops at the first length with a positive total *)
Lemma ks_step_srel : forall M self sub pid fw fs v s s', Forall2 skr (ks_seen s) (ks_seen s') -> ks_res s = ks_res s' -> ks_total s = ks_total s' ->
  rrel (fun a b => ks_res a = ks_res b /\ Forall2 skr (ks_seen a) (ks_seen b) /\ ks_total a = ks_total b) (ks_step M self sub pid fw fs s v) (ks_step M self sub pid fw fs s' v).
Proof.
  intros M self sub pid fw fs [[cnt para] idx] s s' S E T. unfold ks_step. apply rrel_same. intros t. destruct (negb (is_productive t)); [cbn; auto|].
  rewrite (seen_rel _ _ _ _ _ S). destruct (seen_mem _ (ks_seen s')); [cbn; rewrite T; auto|]. apply rrel_same. intros nf. cbn. rewrite E, T. split; [reflexivity|]. split; [constructor; [cbn; auto|exact S]|reflexivity].
Qed.
Definition ksq (a b : ksst) : Prop := ks_res a = ks_res b /\ Forall2 skr (ks_seen a) (ks_seen b) /\ ks_total a = ks_total b.
Lemma ks_at_srel : forall M self sub pid dawg lower i s s', ksq s s' -> rrel ksq (ks_at M self sub pid dawg lower s i) (ks_at M self sub pid dawg lower s' i).
Proof.
  intros M self sub pid dawg lower i s s' H. unfold ks_at. apply rrel_foldM; [exact H|]. intros x y [fs vals] _ Q. apply rrel_foldM; [exact Q|]. intros x' y' v _ (A & B & C). apply ks_step_srel; assumption.
Qed.
Lemma ks_lengths_srel : forall M self sub pid dawg lower is s s', ksq s s' -> rrel ksq (ks_lengths M self sub pid dawg lower s is) (ks_lengths M self sub pid dawg lower s' is).
Proof.
  intros M self sub pid dawg lower is. induction is as [|i is IH]; intros s s' H; [exact H|]. cbn [ks_lengths]. apply (rrel_bind ksq); [apply ks_at_srel; exact H|]. intros x y Q. destruct (Q) as (_ & _ & T). rewrite T. destruct (1 <? ks_total y); [exact Q|]. apply IH. exact Q.
Qed.
(** bounds *)
Lemma ks_vals_bound : forall M self sub pid fw fs vals s s', foldM (ks_step M self sub pid fw fs) s vals = Ok s' -> Forall (fun c => (Z.of_nat c < 2 ^ 16)%Z) (map (fun v => fst (fst v)) vals) ->
  Forall (fun r => (Z.of_nat (k_cnt r) < 2 ^ 16)%Z) (ks_res s) ->
  Forall (fun r => (Z.of_nat (k_cnt r) < 2 ^ 16)%Z) (ks_res s') /\ ks_total s <= ks_total s' <= ks_total s + list_sum (map (fun v : nat * nat * nat => fst (fst v)) vals).
Proof.
  intros M self sub pid fw fs vals. induction vals as [|[[cnt para] idx] vals IH]; intros s s' H F G; [cbn in H; apply Ok_inj in H; subst; split; [exact G|cbn; lia]|].
  cbn [foldM] in H. apply bind_ok in H as (s1 & H1 & H). cbn [map] in F. inversion F as [|? ? F1 F2]; subst. cbn [fst] in F1.
  assert (X : Forall (fun r => (Z.of_nat (k_cnt r) < 2 ^ 16)%Z) (ks_res s1) /\ ks_total s <= ks_total s1 <= ks_total s + cnt).
  { unfold ks_step in H1. apply bind_ok in H1 as (t & _ & H1). destruct (negb (is_productive t)); [apply Ok_inj in H1; subst; split; [exact G|lia]|].
    destruct (seen_mem _ _); [apply Ok_inj in H1; subst; cbn; split; [exact G|lia]|]. apply bind_ok in H1 as (nf & _ & H1). apply Ok_inj in H1. subst. cbn. split; [|lia]. apply Forall_app. split; [exact G|]. constructor; [exact F1|constructor]. }
  destruct X as [X1 X2]. destruct (IH s1 s' H F2 X1) as [Y1 Y2]. split; [exact Y1|]. change (list_sum (map (fun v : nat * nat * nat => fst (fst v)) ((cnt, para, idx) :: vals))) with (cnt + list_sum (map (fun v : nat * nat * nat => fst (fst v)) vals)). lia.
Qed.
Lemma ks_at_bound : forall M self sub pid dawg lower i s s', ks_at M self sub pid dawg lower s i = Ok s' ->
  (forall e, Forall (fun c => (Z.of_nat c < 2 ^ 16)%Z) (counts_of (similar_items dawg (m_subst M) e))) ->
  Forall (fun r => (Z.of_nat (k_cnt r) < 2 ^ 16)%Z) (ks_res s) ->
  Forall (fun r => (Z.of_nat (k_cnt r) < 2 ^ 16)%Z) (ks_res s') /\ ks_total s <= ks_total s' /\ exists e, ks_total s' <= ks_total s + list_sum (counts_of (similar_items dawg (m_subst M) e)).
Proof.
  intros M self sub pid dawg lower i s s' H F G. unfold ks_at in H. set (e := slice_from lower (- Z.of_nat i)) in H. specialize (F e).
  assert (K : forall l s s', foldM (fun st (sv : str * list (nat * nat * nat)) => let '(fixed_suffix, vals) := sv in foldM (ks_step M self sub pid (slice_to lower (- Z.of_nat i) ++ fixed_suffix) fixed_suffix) st vals) s l = Ok s' ->
     Forall (fun c => (Z.of_nat c < 2 ^ 16)%Z) (counts_of l) -> Forall (fun r => (Z.of_nat (k_cnt r) < 2 ^ 16)%Z) (ks_res s) ->
     Forall (fun r => (Z.of_nat (k_cnt r) < 2 ^ 16)%Z) (ks_res s') /\ ks_total s <= ks_total s' <= ks_total s + list_sum (counts_of l)).
  { clear. intros l. induction l as [|[fs vals] l IH]; intros s s' H F G; [cbn in H; apply Ok_inj in H; subst; split; [exact G|cbn; lia]|]. cbn [foldM] in H. apply bind_ok in H as (s1 & H1 & H).
    unfold counts_of in F |- *. cbn [flat_map snd] in F |- *. rewrite map_app in F |- *. apply Forall_app in F as [F1 F2]. destruct (ks_vals_bound _ _ _ _ _ _ _ _ _ H1 F1 G) as [X1 X2]. destruct (IH s1 s' H F2 X1) as [Y1 Y2]. split; [exact Y1|]. rewrite list_sum_app. unfold counts_of in Y2. lia. }
  destruct (K _ _ _ H F G) as [X Y]. split; [exact X|]. split; [lia|]. exists e. lia.
Qed.
Lemma ks_lengths_bound : forall M self sub pid dawg lower is s s', ks_lengths M self sub pid dawg lower s is = Ok s' -> small_numbers M -> In dawg (d_pred (m_dict M)) ->
  Forall (fun r => (Z.of_nat (k_cnt r) < 2 ^ 16)%Z) (ks_res s) -> ks_total s = 1 ->
  Forall (fun r => (Z.of_nat (k_cnt r) < 2 ^ 16)%Z) (ks_res s') /\ (0 < Z.of_nat (ks_total s') < 2 ^ 33)%Z.
Proof.
  intros M self sub pid dawg lower is. induction is as [|i is IH]; intros s s' H SM I G T; [cbn in H; apply Ok_inj in H; subst; split; [exact G|rewrite T; lia]|].
  cbn [ks_lengths] in H. apply bind_ok in H as (s1 & H1 & H). destruct (ks_at_bound _ _ _ _ _ _ _ _ _ H1 (fun e => proj1 (proj1 SM dawg I e)) G) as (X1 & X2 & e & X3).
  destruct (1 <? ks_total s1) eqn:E.
  - apply Ok_inj in H. subst. split; [exact X1|]. destruct (proj1 SM dawg I e) as [_ B]. lia.
  - apply Nat.ltb_ge in E. apply (IH s1 s' H SM I X1). lia.
Qed.
Lemma nth_res_In : forall {A} (l : list A) i x, nth_res l i = Ok x -> In x l.
Proof. intros A l i x H. unfold nth_res in H. destruct (nth_error l i) eqn:E; [|discriminate H]. apply Ok_inj in H. subst. eapply nth_error_In; exact E. Qed.
Lemma ks_parse_rel : forall k M self sub m minlen word lower seen seen', (0 < m)%Q -> small_numbers M -> Forall2 skr seen seen' ->
  rrel (orel (bump k)) (ks_parse_fl fl M self sub m minlen word lower seen) (ks_parse M self sub m minlen word lower seen').
Proof.
  intros k M self sub m minlen word lower seen seen' MP SM S. unfold ks_parse_fl, ks_parse. destruct (length word <? minlen); [split; [constructor|exact S]|].
  apply (rrel_bind (fun x y => Forall2 (ksr m) (fst x) (fst y) /\ Forall2 skr (snd x) (snd y))).
  - apply rrel_foldM; [split; [constructor|exact S]|]. intros [a s] [a' s'] [pid prefix] _ [A B]. cbn [fst snd] in A, B. unfold ks_prefix_fl, ks_prefix.
    destruct (nth_res (d_pred (m_dict M)) pid) as [dawg|e] eqn:D; [|cbn; reflexivity]. cbn [bind]. apply nth_res_In in D. cbn [snd fst].
    set (st0 := {| ks_res := []; ks_seen := s; ks_total := 1 |}). set (st0' := {| ks_res := []; ks_seen := s'; ks_total := 1 |}).
    assert (Q0 : ksq st0 st0') by (split; [reflexivity|]; split; [exact B|reflexivity]).
    assert (L := ks_lengths_srel M self sub pid dawg lower (ks_splits (m_dict M)) st0 st0' Q0).
    destruct (ks_lengths M self sub pid dawg lower st0 (ks_splits (m_dict M))) as [x|e] eqn:E1; destruct (ks_lengths M self sub pid dawg lower st0' (ks_splits (m_dict M))) as [y|e'] eqn:E2; cbn in L |- *; try contradiction; [|exact L].
    destruct L as (L1 & L2 & L3). split; [|exact L2]. cbn [fst snd]. apply Forall2_app; [exact A|]. rewrite L1, L3.
    destruct (ks_lengths_bound _ _ _ _ _ _ _ _ _ E2 SM D) as [BD1 BD2]; [constructor|reflexivity|]. 
    clear -BD1 BD2. induction (ks_res y) as [|r l IH]; [constructor|]. inversion BD1; subst. constructor; [|apply IH; assumption]. split; [repeat split; reflexivity|]. exists (k_cnt r), (ks_total y). repeat split; try assumption; try apply BD2; reflexivity.
  - intros [a s] [a' s'] [A B]. cbn [fst snd] in *. split; cbn [fst snd]; [|exact B]. apply (F2_weaken (ksr m)); [|intros; eapply ksr_rel; eassumption]. apply F2_sort; [exact A|]. intros. apply (ksr_geb m); assumption.
Qed.
End sim.
