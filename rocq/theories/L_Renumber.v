(** * Lemmas for C89: dictionary contents in terms of the source *)
From Coq Require Import String List NArith ZArith Bool QArith Lia Sorting.Permutation.
From Verif Require Import Py Uni Tagset Dawg Utils Dict Units Analyzer Compile Spec Spec2 Spec3 Spec39.
From Verif Require Import L_Base L_Para L_Para L_Compile L_Compile2 L_Compile3.
Import ListNotations.
Local Open Scope nat_scope.
Local Open Scope list_scope.

(** ** sums *)
Lemma sum_if : forall {A} (f : A -> nat) p l, list_sum (map f (filter p l)) = list_sum (map (fun x => if p x then f x else 0) l).
Proof. induction l as [|a l IH]; [reflexivity|]. cbn [filter map]. destruct (p a); cbn [map list_sum fold_right]; unfold list_sum in *; cbn [fold_right]; lia. Qed.
Lemma list_sum_cons : forall a l, list_sum (a :: l) = a + list_sum l. Proof. reflexivity. Qed.
Lemma list_sum_app' : forall a b, list_sum (a ++ b) = list_sum a + list_sum b.
Proof. induction a as [|x a IH]; intros b; [reflexivity|]. cbn [app]. rewrite !list_sum_cons, IH. lia. Qed.
Lemma list_sum_perm : forall a b, Permutation a b -> list_sum a = list_sum b.
Proof. intros a b H. induction H; rewrite ?list_sum_cons; auto; try lia. Qed.
Lemma sum_flat : forall {A B} (f : B -> nat) (p : B -> bool) (h : A -> list B) l,
  list_sum (map f (filter p (flat_map h l))) = list_sum (map (fun a => list_sum (map f (filter p (h a)))) l).
Proof. induction l as [|a l IH]; [reflexivity|]. cbn [flat_map map]. rewrite filter_app, map_app, list_sum_app', list_sum_cons, IH. reflexivity. Qed.
Lemma sum_ext : forall {A} (f g : A -> nat) l, (forall x, In x l -> f x = g x) -> list_sum (map f l) = list_sum (map g l).
Proof. induction l as [|a l IH]; intros H; [reflexivity|]. cbn [map]. rewrite !list_sum_cons, (H a) by (left; reflexivity). rewrite IH; [reflexivity|]. intros x I. apply H. right. exact I. Qed.
(** ** the index of a list *)
Lemma enum_snoc : forall {A} (l : list A) k y, enum_from k (l ++ [y]) = enum_from k l ++ [(k + length l, y)].
Proof. induction l as [|a l IH]; intros k y; cbn [app enum_from length]; [rewrite Nat.add_0_r; reflexivity|]. rewrite IH. cbn [app]. rewrite Nat.add_succ_r. reflexivity. Qed.
Lemma index_last : forall l x n, dget str_eqb x (index_dict l) = Some n <-> prefix_place l x n.
Proof.
  unfold index_dict, prefix_place. intros l. induction l as [|y l IH] using rev_ind; intros x n.
  - cbn. split; [discriminate|]. intros [H _]. destruct n; discriminate.
  - assert (E : enum (l ++ [y]) = enum l ++ [(length l, y)]) by (unfold enum; rewrite enum_snoc; reflexivity).
    rewrite E, fold_left_app. cbn [fold_left snd fst]. destruct (str_eqb x y) eqn:Q.
    + apply str_eqb_eq in Q. subst y. rewrite (dget_dset_same str_eqb str_eqb_eq). split.
      * intros H. injection H as <-. split; [rewrite nth_error_app2, Nat.sub_diag by lia; reflexivity|]. intros j J. rewrite (proj2 (nth_error_None _ _)); [discriminate|]. rewrite app_length. cbn. lia.
      * intros [N F]. f_equal. destruct (Nat.lt_trichotomy n (length l)) as [L|[L|L]]; [|auto|].
        -- exfalso. apply (F _ L). rewrite nth_error_app2, Nat.sub_diag by lia. reflexivity.
        -- exfalso. assert (X : n < length (l ++ [x])) by (apply nth_error_Some; congruence). rewrite app_length in X. cbn in X. lia.
    + assert (NE : x <> y) by (intros ->; rewrite (proj2 (str_eqb_eq y y) eq_refl) in Q; discriminate). rewrite (dget_dset_other str_eqb str_eqb_eq) by exact NE. rewrite IH. split; intros [N F]; split.
      * apply nth_app_some. exact N.
      * intros j J. destruct (Nat.lt_trichotomy j (length l)) as [L|[->|L]].
        -- rewrite nth_error_app1 by lia. apply F. exact J.
        -- rewrite nth_error_app2, Nat.sub_diag by lia. cbn. congruence.
        -- rewrite (proj2 (nth_error_None _ _)); [discriminate|]. rewrite app_length. cbn. lia.
      * destruct (Nat.lt_ge_cases n (length l)) as [L|L]; [rewrite nth_error_app1 in N by lia; exact N|]. rewrite nth_error_app2 in N by lia. destruct (n - length l) as [|[|m]]; cbn in N; congruence.
      * intros j J X. apply (F j J). apply nth_app_some. exact X.
Qed.
(** ** rows and prefix numbers *)
Lemma linearize_prefix : forall sfx pp p flat, linearize (index_dict sfx) (index_dict pp) p = Ok flat -> length flat = 3 * length p /\
  forall i pid, i < length p -> (nth_error flat (length p * 2 + i) = Some pid <-> exists s t q, nth_error p i = Some (s, t, q) /\ prefix_place pp q pid).
Proof.
  intros sfx pp p flat H. unfold linearize in H. apply bind_ok in H as (rows & R & H). apply bind_ok in H as ([] & _ & H). apply Ok_inj in H. subst flat.
  pose proof (mapM_length _ _ _ R) as L. apply mapM_ok in R. split; [rewrite !app_length, !map_length; lia|]. intros i pid I.
  destruct (nth_error p i) as [[[s t] q]|] eqn:N; [|apply nth_error_None in N; lia]. destruct (Forall2_nth _ _ _ R i _ N) as (y & Ny & Ey).
  apply bind_ok in Ey as (a & Ea & Ey). apply bind_ok in Ey as (b & Eb & Ey). apply Ok_inj in Ey. subst y.
  assert (X : nth_error (map (fun r : nat * nat * nat => let '(s, _, _) := r in s) rows ++ map (fun r : nat * nat * nat => let '(_, t, _) := r in t) rows ++ map (fun r : nat * nat * nat => let '(_, _, q) := r in q) rows) (length p * 2 + i) = Some b).
  { rewrite app_assoc, nth_error_app2; rewrite app_length, !map_length; [|lia]. replace (length p * 2 + i - (length rows + length rows)) with i by lia. rewrite nth_error_map, Ny. reflexivity. }
  rewrite X. clear X. unfold dget_res in Eb. destruct (dget str_eqb q (index_dict pp)) as [b'|] eqn:E2; [|discriminate]. apply Ok_inj in Eb. subst b'. split.
  - intros E. injection E as <-. exists s, t, q. split; [reflexivity|]. apply index_last. exact E2.
  - intros (s' & t' & q' & E & P). injection E as <- <- <-. apply index_last in P. congruence.
Qed.
Section Numbering.
  Variables (o : coptions) (lxs : list lexeme) (x : compiled) (st : cstate) (ks : list nat) (D : dict).
  Hypothesis C : Compiled o lxs x st ks. Hypothesis L : loaded x D.
  Let pp := o_prefixes o.
  Definition num (P : paradigm) : nat := match dget paradigm_eqb P (c_para_ids st) with Some k => k | None => 0 end.
  Lemma lexeme_shape : forall lx, In lx lxs -> exists stem, to_paradigm lx pp = Ok (stem, shape pp lx) /\ dget paradigm_eqb (shape pp lx) (c_para_ids st) = Some (num (shape pp lx)).
  Proof.
    intros lx I. apply In_nth_error in I as (j & N). destruct (Forall2_nth _ _ _ (iv_done _ _ _ _ (cc_inv _ _ _ _ _ C)) j _ N) as (k & _ & stem & para & T & G).
    exists stem. unfold shape, num. fold pp in T. rewrite T. cbn [snd]. rewrite G. auto.
  Qed.
  Lemma numbers : ks = map (fun lx => num (shape pp lx)) lxs.
  Proof.
    pose proof (iv_done _ _ _ _ (cc_inv _ _ _ _ _ C)) as F. fold pp in F. clear C. induction F as [|lx k l r (stem & para & T & G) F IH]; [reflexivity|]. cbn [map]. f_equal; [|exact IH].
    unfold shape, num. rewrite T. cbn [snd]. rewrite G. reflexivity.
  Qed.
  Lemma shape_of : forall P, In P (map (shape pp) lxs) -> exists lx stem, In lx lxs /\ P = shape pp lx /\ to_paradigm lx pp = Ok (stem, P) /\ dget paradigm_eqb P (c_para_ids st) = Some (num P).
  Proof. intros P I. apply in_map_iff in I as (lx & <- & I). destruct (lexeme_shape lx I) as (stem & T & G). exists lx, stem. auto. Qed.
  Lemma shape_rows : forall P, In P (map (shape pp) lxs) -> exists rows, nth_error (c_paradigms st) (num P) = Some rows /\ Forall2 (good_row (c_gramtab st)) P rows.
  Proof. intros P I. destruct (shape_of P I) as (lx & stem & _ & _ & _ & G). exact (iv_ids _ _ _ _ (cc_inv _ _ _ _ _ C) _ _ G). Qed.
  Lemma shape_has_rows : forall P, In P (map (shape pp) lxs) -> has_rows D (num P) P.
  Proof. intros P I. destruct (shape_rows P I) as (rows & N & F). exact (compiled_rows _ _ _ _ _ _ C L _ _ _ N F). Qed.
  Lemma good_row_fun : forall gt P P' rows, Forall2 (good_row gt) P rows -> Forall2 (good_row gt) P' rows -> P = P'.
  Proof.
    intros gt P P' rows F. revert P'. induction F as [|[[s t] q] [[s' i] q'] P rows (-> & -> & G) F IH]; intros P' F'; inversion F' as [|r y l l' G' F'' E1 E2]; subst; [reflexivity|].
    destruct r as [[s1 t1] q1]. destruct G' as (-> & -> & G'). f_equal; [congruence|]. apply IH. exact F''.
  Qed.
  Lemma num_inj : forall P P', In P (map (shape pp) lxs) -> In P' (map (shape pp) lxs) -> num P = num P' -> P = P'.
  Proof.
    intros P P' I I' E. destruct (shape_rows P I) as (rows & N & F). destruct (shape_rows P' I') as (rows' & N' & F'). rewrite E, N' in N. injection N as ->. exact (good_row_fun _ _ _ _ F F').
  Qed.
  Lemma num_surj : forall k p, nth_error (d_paradigms D) k = Some p -> exists P, In P (map (shape pp) lxs) /\ k = num P.
  Proof.
    intros k p N. destruct L as (L1 & _). rewrite L1 in N. assert (X : exists rows, nth_error (c_paradigms st) k = Some rows).
    { destruct (nth_error (c_paradigms st) k) eqn:Y; [eauto|]. apply nth_error_None in Y. rewrite (f2_len (cc_para _ _ _ _ _ C)) in Y. assert (k < length (x_paradigms x)) by (apply nth_error_Some; congruence). lia. }
    destruct X as (rows & X). destruct (iv_para _ _ _ _ (cc_inv _ _ _ _ _ C) _ _ X) as (P & lx & stem & G & I & T). fold pp in T. exists P. split; [apply in_map_iff; exists lx; unfold shape; rewrite T; auto|]. unfold num. rewrite G. reflexivity.
  Qed.
  Lemma prefix_number_iff : forall P i pid, In P (map (shape pp) lxs) -> (prefix_number D (num P) i pid <-> exists s t q, nth_error P i = Some (s, t, q) /\ prefix_place pp q pid).
  Proof.
    intros P i pid I. destruct (shape_rows P I) as (rows & N & F). destruct (Forall2_nth _ _ _ (cc_para _ _ _ _ _ C) _ _ N) as (flat & Nf & Lin). fold pp in Lin.
    destruct (linearize_prefix _ _ _ _ Lin) as (LF & PF). pose proof (good_row_len _ _ _ F) as LR. destruct L as (L1 & _).
    assert (LT : length flat / 3 = length rows) by (rewrite LF, Nat.mul_comm; apply Nat.div_mul; lia).
    assert (ROW : (exists s t q, nth_error P i = Some (s, t, q) /\ prefix_place pp q pid) <-> exists s t q, nth_error rows i = Some (s, t, q) /\ prefix_place pp q pid).
    { split; intros (s & t & q & Ni & PL).
      - destruct (Forall2_nth _ _ _ F i _ Ni) as ([[s' ti] q'] & Ni' & (-> & -> & _)). eauto.
      - destruct (nth_error P i) as [[[s0 t0] q0]|] eqn:NP; [|apply nth_error_None in NP; assert (i < length rows) by (apply nth_error_Some; congruence); lia].
        destruct (Forall2_nth _ _ _ F i _ NP) as (y & Ny & G). rewrite Ni in Ny. injection Ny as <-. destruct G as (-> & -> & _). exists s, t0, q. auto. }
    rewrite ROW. unfold prefix_number. rewrite L1. split.
    - intros (p & A & B & E). rewrite Nf in A. injection A as <-. rewrite LT in B, E. apply (PF i pid B). exact E.
    - intros E. assert (B : i < length rows) by (destruct E as (s & t & q & Ni & _); apply nth_error_Some; congruence). exists flat. rewrite LT. split; [exact Nf|]. split; [exact B|]. apply (PF i pid B). exact E.
  Qed.
  Lemma shape_row : forall P i s t q, In P (map (shape pp) lxs) -> nth_error P i = Some (s, t, q) -> exists tg, t_str tg = t /\ para_row D (num P) i q tg s.
  Proof. intros P i s t q I N. exact (proj2 (shape_has_rows P I) i s t q N). Qed.
  Lemma row_shape : forall P i q tg s, In P (map (shape pp) lxs) -> para_row D (num P) i q tg s -> nth_error P i = Some (s, t_str tg, q).
  Proof.
    intros P i q tg s I R. destruct (shape_has_rows P I) as ((p & Np & Lp) & RR). destruct (nth_error P i) as [[[s0 t0] q0]|] eqn:N.
    - destruct (RR _ _ _ _ N) as (tg' & T & R'). destruct (para_row_fun _ _ _ _ _ _ _ _ _ R R') as (X1 & X2 & X3). subst. reflexivity.
    - exfalso. apply nth_error_None in N. destruct R as (p' & a & b & c & A1 & A2 & _). rewrite Np in A1. injection A1 as <-.
      assert (length p / 3 = length P) by (rewrite Lp, Nat.mul_comm; apply Nat.div_mul; lia). lia.
  Qed.
  (** ** popularity *)
  Lemma popularity_count : forall P, In P (map (shape pp) lxs) -> popularity ks (num P) = length (shaped pp lxs P).
  Proof.
    intros P I. unfold popularity, shaped. rewrite numbers.
    assert (G : forall l, (forall lx, In lx l -> In lx lxs) -> count_occ Nat.eq_dec (map (fun lx => num (shape pp lx)) l) (num P) = length (filter (fun lx => paradigm_eqb (shape pp lx) P) l)).
    { induction l as [|lx l IH]; intros S; [reflexivity|]. cbn [map count_occ filter]. rewrite IH by (intros y J; apply S; right; exact J).
      destruct (Nat.eq_dec (num (shape pp lx)) (num P)) as [E|E].
      - apply num_inj in E; [|apply in_map; apply S; left; reflexivity|exact I]. rewrite E, (proj2 (paradigm_eqb_eq P P) eq_refl). reflexivity.
      - destruct (paradigm_eqb (shape pp lx) P) eqn:Q; [|reflexivity]. apply paradigm_eqb_eq in Q. congruence. }
    apply G. auto.
  Qed.
  Lemma popular_iff : forall P, In P (map (shape pp) lxs) -> (popular o ks (num P) <-> common o lxs P).
  Proof. intros P I. unfold popular, common. rewrite (popularity_count P I). fold pp. reflexivity. Qed.
  (** ** hits *)
  Lemma entries_flat : all_entries lxs ks = flat_map (fun lx => entries lx (num (shape pp lx))) lxs.
  Proof.
    rewrite numbers at 1. unfold all_entries. generalize lxs as l. induction l as [|lx l IH]; [reflexivity|]. cbn [map combine flat_map]. rewrite IH. reflexivity.
  Qed.
  Lemma entries_hits : forall (f : str -> nat) lx k k' i,
    list_sum (map (fun en : str * (nat * nat) => f (fst en)) (filter (fun en => (fst (snd en) =? k) && (snd (snd en) =? i)) (entries lx k'))) =
    if k' =? k then match nth_error lx i with Some (w, _) => f w | None => 0 end else 0.
  Proof.
    intros f lx k k' i. unfold entries, enum.
    assert (G : forall l n, list_sum (map (fun en : str * (nat * nat) => f (fst en)) (filter (fun en => (fst (snd en) =? k) && (snd (snd en) =? i)) (map (fun x : nat * (str * str) => (fst (snd x), (k', fst x))) (enum_from n l)))) =
      if k' =? k then (if n <=? i then match nth_error l (i - n) with Some (w, _) => f w | None => 0 end else 0) else 0).
    { induction l as [|[w t] l IH]; intros n.
      - cbn [enum_from map filter]. destruct (k' =? k); [|reflexivity]. destruct (n <=? i); [|reflexivity]. destruct (i - n); reflexivity.
      - cbn [enum_from map filter fst snd]. specialize (IH (S n)). destruct (k' =? k) eqn:K; cbn [andb]; [|exact IH].
        destruct (n =? i) eqn:Ni.
        + apply Nat.eqb_eq in Ni. subst i. cbn [map fst]. rewrite list_sum_cons, IH, Nat.leb_refl, Nat.sub_diag. cbn [nth_error]. rewrite (proj2 (Nat.leb_gt _ _)) by lia. lia.
        + rewrite IH. apply Nat.eqb_neq in Ni. destruct (Nat.le_gt_cases n i) as [Le|Gt].
          * rewrite (proj2 (Nat.leb_le (S n) i)) by lia. rewrite (proj2 (Nat.leb_le n i)) by lia. replace (i - n) with (S (i - S n)) by lia. reflexivity.
          * rewrite (proj2 (Nat.leb_gt (S n) i)) by lia. rewrite (proj2 (Nat.leb_gt n i)) by lia. reflexivity. }
    rewrite G. cbn [Nat.leb]. rewrite Nat.sub_0_r. reflexivity.
  Qed.
  Lemma hits_iff : forall P i e c, In P (map (shape pp) lxs) -> (form_hits D o (all_entries lxs ks) e (num P) i c <-> exists s t q, nth_error P i = Some (s, t, q) /\ c = shape_hits o lxs e P i).
  Proof.
    intros P i e c I. assert (E : forall q s, list_sum (map (fun en => ending_hits q s (o_max_suffix o) e (fst en)) (filter (fun en : str * (nat * nat) => (fst (snd en) =? num P) && (snd (snd en) =? i)) (all_entries lxs ks))) =
      list_sum (map (fun lx : lexeme => match nth_error lx i with Some (w, _) => ending_hits q s (o_max_suffix o) e w | None => 0 end) (shaped pp lxs P))).
    { intros q s. rewrite entries_flat, sum_flat. unfold shaped. rewrite sum_if. apply sum_ext. intros lx J. rewrite (entries_hits (ending_hits q s (o_max_suffix o) e)).
      destruct (num (shape pp lx) =? num P) eqn:K.
      - apply Nat.eqb_eq in K. apply num_inj in K; [|apply in_map; exact J|exact I]. rewrite K, (proj2 (paradigm_eqb_eq P P) eq_refl). reflexivity.
      - destruct (paradigm_eqb (shape pp lx) P) eqn:Q; [|reflexivity]. apply paradigm_eqb_eq in Q. rewrite Q, Nat.eqb_refl in K. discriminate. }
    assert (X : forall s t q, nth_error P i = Some (s, t, q) -> shape_hits o lxs e P i = list_sum (map (fun lx : lexeme => match nth_error lx i with Some (w, _) => ending_hits q s (o_max_suffix o) e w | None => 0 end) (shaped pp lxs P))).
    { intros s t q N. unfold shape_hits. rewrite N. apply sum_ext. intros lx _. destruct (nth_error lx i) as [[w t']|]; reflexivity. }
    split.
    - intros (q & tg & s & R & ->). apply (row_shape P i q tg s I) in R. exists s, (t_str tg), q. split; [exact R|]. rewrite E. symmetry. eapply X. exact R.
    - intros (s & t & q & N & ->). destruct (shape_row P i s t q I N) as (tg & T & R). exists q, tg, s. split; [exact R|]. rewrite E. eapply X. exact N.
  Qed.
  Lemma frequency_fun : forall es e a b, ending_frequency D o ks es e a -> ending_frequency D o ks es e b -> a = b.
  Proof.
    intros es e a b (na & -> & Fa) (nb & -> & Fb). f_equal. revert nb Fb. induction Fa as [|en m es ms (pre & tg & sf & R & ->) Fa IH]; intros nb Fb; inversion Fb as [|e0 m0 es0 ms0 (pre' & tg' & sf' & R' & ->) Fb' E1 E2]; subst; auto.
    destruct (para_row_fun _ _ _ _ _ _ _ _ _ R R') as (-> & -> & ->). f_equal. apply IH. exact Fb'.
  Qed.
  Lemma total_frequency : forall e, ending_frequency D o ks (all_entries lxs ks) e (total_hits o lxs e).
  Proof.
    intros e. exists (flat_map (fun lx => map (fun xr : (str * str) * prow => let '((w, _), (s, _, q)) := xr in if o_min_pop o <=? length (shaped pp lxs (shape pp lx)) then ending_hits q s (o_max_suffix o) e w else 0) (combine lx (shape pp lx))) lxs). split.
    - unfold total_hits. fold pp.
      assert (G : forall l, list_sum (map (fun lx : lexeme => if o_min_pop o <=? length (shaped pp lxs (shape pp lx)) then list_sum (map (fun x : (str * str) * prow => let '((w, _), (s, _, q)) := x in ending_hits q s (o_max_suffix o) e w) (combine lx (shape pp lx))) else 0) l) =
        list_sum (flat_map (fun lx => map (fun xr : (str * str) * prow => let '((w, _), (s, _, q)) := xr in if o_min_pop o <=? length (shaped pp lxs (shape pp lx)) then ending_hits q s (o_max_suffix o) e w else 0) (combine lx (shape pp lx))) l)).
      { induction l as [|lx l IH]; [reflexivity|]. cbn [map flat_map]. rewrite list_sum_cons, list_sum_app', IH. f_equal. destruct (o_min_pop o <=? length (shaped pp lxs (shape pp lx))).
        - reflexivity.
        - induction (combine lx (shape pp lx)) as [|[[w t] [[s t'] q]] c IHc]; [reflexivity|]. cbn [map]. rewrite list_sum_cons, <- IHc. reflexivity. }
      apply G.
    - rewrite entries_flat. assert (G : forall l, (forall lx, In lx l -> In lx lxs) -> Forall2 (fun (en : str * (nat * nat)) m => exists pre tg sf, para_row D (fst (snd en)) (snd (snd en)) pre tg sf /\
               m = if o_min_pop o <=? popularity ks (fst (snd en)) then ending_hits pre sf (o_max_suffix o) e (fst en) else 0)
         (flat_map (fun lx => entries lx (num (shape pp lx))) l)
         (flat_map (fun lx => map (fun xr : (str * str) * prow => let '((w, _), (s, _, q)) := xr in if o_min_pop o <=? length (shaped pp lxs (shape pp lx)) then ending_hits q s (o_max_suffix o) e w else 0) (combine lx (shape pp lx))) l)).
      { induction l as [|lx l IH]; intros SS; [apply Forall2_nil|]. cbn [flat_map]. apply Forall2_app; [|apply IH; intros y J; apply SS; right; exact J].
        assert (I : In (shape pp lx) (map (shape pp) lxs)) by (apply in_map, SS; left; reflexivity). destruct (lexeme_shape lx (SS lx (or_introl eq_refl))) as (stem & T & _).
        destruct (to_paradigm_spec _ _ _ _ T) as (F & _ & _). pose proof (shape_row (shape pp lx)) as SR. rewrite <- (popularity_count _ I). unfold entries, enum.
        assert (G : forall lx' P' n, Forall2 (row_of_form stem) lx' P' -> (forall i r, nth_error P' i = Some r -> nth_error (shape pp lx) (n + i) = Some r) ->
          Forall2 (fun (en : str * (nat * nat)) m => exists pre tg sf, para_row D (fst (snd en)) (snd (snd en)) pre tg sf /\
               m = if o_min_pop o <=? popularity ks (fst (snd en)) then ending_hits pre sf (o_max_suffix o) e (fst en) else 0)
            (map (fun x0 : nat * (str * str) => (fst (snd x0), (num (shape pp lx), fst x0))) (enum_from n lx'))
            (map (fun xr : (str * str) * prow => let '((w, _), (s, _, q)) := xr in if o_min_pop o <=? popularity ks (num (shape pp lx)) then ending_hits q s (o_max_suffix o) e w else 0) (combine lx' P'))).
        { intros lx' P' n F'. revert n. induction F' as [|[w t] [[s t'] q] lx' P' RF F' IH']; intros n H; [apply Forall2_nil|]. cbn [enum_from map combine fst snd]. apply Forall2_cons.
          - cbn [fst snd]. pose proof (H 0 _ eq_refl) as N. rewrite Nat.add_0_r in N. destruct (SR n s t' q I N) as (tg & _ & R). exists q, tg, s. split; [exact R|reflexivity].
          - apply IH'. intros i r Ni. replace (S n + i) with (n + S i) by lia. apply H. exact Ni. }
        apply G; [exact F|]. intros i r N. exact N. }
      apply G. auto.
  Qed.
  Hypothesis Pd : Predicted o x st.
  Lemma records_source : forall pid e c k i, predicts D pid e c k i <-> exists P, k = num P /\ source_record o lxs pid e c P i.
  Proof.
    intros pid e c k i. rewrite (predicts_iff o lxs x st ks D C Pd L). split.
    - intros (PN & Pop & C1 & FH & (n & Fr & Le) & Mx). assert (X : exists P, In P (map (shape pp) lxs) /\ k = num P) by (destruct PN as (p & Np & _); exact (num_surj k p Np)).
      destruct X as (P & I & ->). exists P. split; [reflexivity|]. apply (prefix_number_iff P i pid I) in PN as (s & t & q & N & PL). exists s, t, q. fold pp. split; [exact N|]. split; [exact I|]. split; [exact PL|].
      split; [apply (popular_iff P I); exact Pop|]. apply (hits_iff P i e c I) in FH as (_ & _ & _ & _ & Ec). split; [exact Ec|]. split; [exact C1|].
      split; [rewrite <- (frequency_fun _ _ _ _ Fr (total_frequency e)); exact Le|].
      intros P' i' s' t' q' I' N' PL' Pop' Et. destruct (shape_row P i s t q I N) as (tg & T & R). destruct (shape_row P' i' s' t' q' I' N') as (tg' & T' & R').
      apply (Mx (num P') i' (shape_hits o lxs e P' i') tg tg').
      + apply (prefix_number_iff P' i' pid I'). eauto.
      + apply (popular_iff P' I'). exact Pop'.
      + exact (para_row_tag _ _ _ _ _ _ R).
      + exact (para_row_tag _ _ _ _ _ _ R').
      + congruence.
      + apply (hits_iff P' i' e _ I'). eauto.
    - intros (P & -> & s & t & q & N & I & PL & Pop & Ec & C1 & Le & Mx). fold pp in I, PL, Mx. split; [apply (prefix_number_iff P i pid I); eauto|]. split; [apply (popular_iff P I); exact Pop|]. split; [exact C1|].
      split; [apply (hits_iff P i e c I); eauto|]. split; [exists (total_hits o lxs e); split; [apply total_frequency|exact Le]|].
      intros k' i' c' tg tg' PN' Pop' T T' Et FH'. assert (X : exists P, In P (map (shape pp) lxs) /\ k' = num P) by (destruct PN' as (p & Np & _); exact (num_surj k' p Np)).
      destruct X as (P' & I' & ->). apply (prefix_number_iff P' i' pid I') in PN' as (s' & t' & q' & N' & PL'). apply (popular_iff P' I') in Pop'. apply (hits_iff P' i' e c' I') in FH' as (_ & _ & _ & _ & ->).
      destruct (shape_row P i s t q I N) as (tg0 & T0 & R). destruct (shape_row P' i' s' t' q' I' N') as (tg0' & T0' & R'). rewrite (para_row_tag _ _ _ _ _ _ R) in T. rewrite (para_row_tag _ _ _ _ _ _ R') in T'. apply Ok_inj in T, T'. subst tg0 tg0'.
      apply (Mx P' i' s' t' q' I' N' PL' Pop'). congruence.
  Qed.
  Lemma stored_source : forall w k i, stored D w k i <-> exists lx t, In lx lxs /\ k = num (shape pp lx) /\ nth_error lx i = Some (w, t).
  Proof.
    intros w k i. rewrite (ct_stored _ _ _ (compiled_content _ _ _ _ _ _ C L) w k i). split.
    - intros (j & lx & t & A & B & N). exists lx, t. split; [exact (nth_error_In _ _ A)|]. split; [|exact N]. rewrite numbers, nth_error_map, A in B. cbn in B. congruence.
    - intros (lx & t & I & -> & N). apply In_nth_error in I as (j & A). exists j, lx, t. split; [exact A|]. split; [|exact N]. rewrite numbers, nth_error_map, A. reflexivity.
  Qed.
End Numbering.
