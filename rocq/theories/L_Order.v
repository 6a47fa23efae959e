(** * The order of dictionary records (C80) *)
From Coq Require Import String List NArith ZArith Bool Lia Permutation Sorted ZifyN ZifyNat Zify.
From Verif Require Import Py Uni Tagset Dawg Utils Dict Units Analyzer Compile Spec Spec2 Spec3 Spec30.
From Verif Require Import L_Base L_Tagset L_Compile L_Compile2 L_EndToEnd.
Import ListNotations.
Local Open Scope nat_scope.
Local Open Scope list_scope.
Ltac Zify.zify_post_hook ::= Z.to_euclidean_division_equations.

Lemma str_ltb_cons : forall x a y b, str_ltb (x :: a) (y :: b) = if (x =? y)%N then str_ltb a b else (x <? y)%N.
Proof. reflexivity. Qed.
Lemma str_ltb_iff : forall a b, str_ltb a b = true <-> text_before a b.
Proof.
  induction a as [|x a IH]; intros [|y b].
  - split; [discriminate|]. intros [(y & r & E)|(c & x' & y' & ra & rb & E & _)]; [discriminate E|destruct c; discriminate E].
  - split; [|reflexivity]. intros _. left. exists y, b. reflexivity.
  - split; [discriminate|]. intros [(y & r & E)|(c & x' & y' & ra & rb & _ & E & _)]; [discriminate E|destruct c; discriminate E].
  - rewrite str_ltb_cons. destruct (x =? y)%N eqn:E.
    + apply N.eqb_eq in E. subst y. rewrite IH. split.
      * intros [(y & r & ->)|(c & x' & y' & ra & rb & -> & -> & L)]; [left; exists y, r; reflexivity|right; exists (x :: c), x', y', ra, rb; auto].
      * intros [(y & r & E)|(c & x' & y' & ra & rb & E1 & E2 & L)].
        -- cbn in E. injection E as ->. left. exists y, r. reflexivity.
        -- right. destruct c as [|z c]; cbn in E1, E2.
           ++ injection E1 as <- <-. injection E2 as <- <-. lia.
           ++ injection E1 as <- E1. injection E2 as E2. exists c, x', y', ra, rb. auto.
    + apply N.eqb_neq in E. rewrite N.ltb_lt. split.
      * intros L. right. exists [], x, y, a, b. auto.
      * intros [(z & r & F)|(c & x' & y' & ra & rb & E1 & E2 & L)]; [cbn in F; injection F as F _; congruence|].
        destruct c as [|z c]; cbn in E1, E2; [injection E1 as <- _; injection E2 as <- _; exact L|].
        injection E1 as <- _. injection E2 as <- _. exfalso. auto.
Qed.

Lemma small_N : forall (P : N -> bool) n, forallb P (map N.of_nat (seq 0 64)) = true -> (n < 64)%N -> P n = true.
Proof.
  intros P n H L. rewrite forallb_forall in H. apply H. apply in_map_iff. exists (N.to_nat n). split; [apply N2Nat.id|]. apply in_seq. lia.
Qed.
Lemma digit_order : forall x y, (x < 64)%N -> (y < 64)%N -> (b64_digit x <? b64_digit y)%N = (place x <? place y)%N /\ (b64_digit x =? b64_digit y)%N = (x =? y)%N.
Proof.
  assert (A : forall x y, (x < 64)%N -> (y < 64)%N ->
    (Bool.eqb (b64_digit x <? b64_digit y)%N (place x <? place y)%N && Bool.eqb (b64_digit x =? b64_digit y)%N (x =? y)%N) = true).
  { intros x y Lx Ly. revert y Ly.
    assert (B : forallb (fun y => (Bool.eqb (b64_digit x <? b64_digit y)%N (place x <? place y)%N && Bool.eqb (b64_digit x =? b64_digit y)%N (x =? y)%N)) (map N.of_nat (seq 0 64)) = true).
    { exact (small_N (fun x => forallb (fun y => (Bool.eqb (b64_digit x <? b64_digit y)%N (place x <? place y)%N && Bool.eqb (b64_digit x =? b64_digit y)%N (x =? y)%N)) (map N.of_nat (seq 0 64))) x ltac:(vm_compute; reflexivity) Lx). }
    intros y Ly. exact (small_N _ y B Ly). }
  intros x y Lx Ly. specialize (A x y Lx Ly). apply andb_prop in A as [A B]. apply Bool.eqb_prop in A, B. auto.
Qed.

Definition six (l : list N) : Prop := Forall (fun n => (n < 64)%N) l.
Lemma signs_order : forall t a b, six a -> six b -> length a = length b ->
  (str_ltb (map b64_digit a ++ t) (map b64_digit b ++ t) = true <-> signs_before a b).
Proof.
  intros t. induction a as [|x a IH]; intros [|y b] Sa Sb L; try discriminate L.
  - cbn [map app]. rewrite str_ltb_irr. split; [discriminate|]. intros (c & x & y & ra & rb & E & _). destruct c; discriminate E.
  - cbn [map app]. rewrite str_ltb_cons. inversion Sa; subst. inversion Sb; subst. destruct (digit_order x y H1 H3) as [O1 O2]. rewrite O1, O2.
    destruct (x =? y)%N eqn:E.
    + apply N.eqb_eq in E. subst y. rewrite IH by (auto; injection L; auto). split.
      * intros (c & x' & y' & ra & rb & -> & -> & Lt). exists (x :: c), x', y', ra, rb. auto.
      * intros (c & x' & y' & ra & rb & E1 & E2 & Lt). destruct c as [|z c]; cbn in E1, E2.
        -- injection E1 as <- <-. injection E2 as <- <-. lia.
        -- injection E1 as <- E1. injection E2 as E2. exists c, x', y', ra, rb. auto.
    + apply N.eqb_neq in E. rewrite N.ltb_lt. split.
      * intros Lt. exists [], x, y, a, b. auto.
      * intros (c & x' & y' & ra & rb & E1 & E2 & Lt). destruct c as [|z c]; cbn in E1, E2.
        -- injection E1 as <- _. injection E2 as <- _. exact Lt.
        -- injection E1 as <- _. injection E2 as <- _. exfalso. auto.
Qed.

Definition fit2 (v : nat * nat) : Prop := (N.of_nat (fst v) < 65536)%N /\ (N.of_nat (snd v) < 65536)%N.
Definition fit3 (v : nat * nat * nat) : Prop := (N.of_nat (fst (fst v)) < 65536)%N /\ (N.of_nat (snd (fst v)) < 65536)%N /\ (N.of_nat (snd v) < 65536)%N.
Lemma cons_eq : forall {A} (a b : A) r s, a = b -> r = s -> a :: r = b :: s. Proof. intros A a b r s -> ->. reflexivity. Qed.
Lemma pack_form_signs : forall v, fit2 v -> pack_form v = map b64_digit (signs2 v) ++ [chr "="; chr "="] /\ six (signs2 v).
Proof.
  intros [p i] [Hp Hi]. cbn [fst snd] in *. unfold pack_form, signs2, pack16. cbn [fst snd app base64 map].
  generalize dependent (N.of_nat p). generalize dependent (N.of_nat i). clear. intros i Hi p Hp.
  split; [|repeat constructor; lia]. repeat (apply cons_eq; [first [reflexivity|f_equal; lia]|]). reflexivity.
Qed.
Lemma pack_form3_signs : forall v, fit3 v -> pack_form3 v = map b64_digit (signs3 v) ++ [] /\ six (signs3 v).
Proof.
  intros [[c p] i] (Hc & Hp & Hi). cbn [fst snd] in *. unfold pack_form3, signs3, pack16. cbn [fst snd app base64 map].
  generalize dependent (N.of_nat p). generalize dependent (N.of_nat i). generalize dependent (N.of_nat c). clear. intros c Hc i Hi p Hp.
  split; [|repeat constructor; lia]. repeat (apply cons_eq; [first [reflexivity|f_equal; lia]|]). reflexivity.
Qed.
Lemma record_ltb : forall v w, fit2 v -> fit2 w -> (str_ltb (pack_form v) (pack_form w) = true <-> record_before v w).
Proof.
  intros v w Hv Hw. destruct (pack_form_signs v Hv) as [-> Sv]. destruct (pack_form_signs w Hw) as [-> Sw]. apply signs_order; auto.
Qed.
Lemma record3_ltb : forall v w, fit3 v -> fit3 w -> (str_ltb (pack_form3 v) (pack_form3 w) = true <-> record3_before v w).
Proof.
  intros v w Hv Hw. destruct (pack_form3_signs v Hv) as [-> Sv]. destruct (pack_form3_signs w Hw) as [-> Sw]. apply signs_order; auto.
Qed.

(** ** sorted lists *)
Lemma SS_mono : forall {A} (R S : A -> A -> Prop) (P : A -> Prop), (forall a b, P a -> P b -> R a b -> S a b) ->
  forall l, Forall P l -> StronglySorted R l -> StronglySorted S l.
Proof.
  intros A R S P H l F S0. induction S0 as [|a l S1 IH F1]; [constructor|]. inversion F; subst. constructor; [auto|].
  rewrite Forall_forall in *. intros b I. apply H; auto.
Qed.
Lemma SS_strict : forall {A} (R : A -> A -> Prop) l, NoDup l -> StronglySorted R l -> StronglySorted (fun a b => R a b /\ a <> b) l.
Proof.
  intros A R l N S. induction S as [|a l S1 IH F1]; [constructor|]. inversion N; subst. constructor; [auto|].
  rewrite Forall_forall in *. intros b I. split; [auto|]. intros ->. auto.
Qed.
Lemma sorted_unique : forall {A} (R : A -> A -> Prop), (forall a, ~ R a a) -> (forall a b, R a b -> R b a -> False) ->
  forall l m, StronglySorted R l -> StronglySorted R m -> (forall a, In a l <-> In a m) -> l = m.
Proof.
  intros A R Irr Asy l m Sl. revert m. induction Sl as [|a l Sl IH Fl]; intros m Sm E.
  - destruct m as [|b m]; [reflexivity|]. exfalso. exact (proj2 (E b) (or_introl eq_refl)).
  - destruct Sm as [|b m Sm Fm]; [exfalso; exact (proj1 (E a) (or_introl eq_refl))|]. rewrite Forall_forall in Fl, Fm.
    assert (X : a = b).
    { destruct (proj1 (E a) (or_introl eq_refl)) as [Y|Y]; [auto|]. destruct (proj2 (E b) (or_introl eq_refl)) as [Z|Z]; [auto|].
      exfalso. exact (Asy a b (Fl b Z) (Fm a Y)). }
    subst b. f_equal. apply IH; [auto|]. intros x. split; intros I.
    + destruct (proj1 (E x) (or_intror I)) as [Y|Y]; [|exact Y]. subst x. exfalso. exact (Irr a (Fl a I)).
    + destruct (proj2 (E x) (or_intror I)) as [Y|Y]; [|exact Y]. subst x. exfalso. exact (Irr a (Fm a I)).
Qed.
Lemma str_leb_total : forall a b, str_leb a b = false -> str_leb b a = true.
Proof.
  intros a b H. unfold str_leb in *. apply negb_false_iff in H. apply negb_true_iff. destruct (str_ltb a b) eqn:E; [|reflexivity].
  pose proof (str_ltb_trans _ _ _ E H) as T. rewrite str_ltb_irr in T. discriminate T.
Qed.
Lemma str_leb_trans : forall a b c, str_leb a b = true -> str_leb b c = true -> str_leb a c = true.
Proof.
  intros a b c H1 H2. unfold str_leb in *. apply negb_true_iff in H1, H2. apply negb_true_iff. destruct (str_ltb c a) eqn:E; [|reflexivity].
  destruct (str_ltb a b) eqn:E1.
  - pose proof (str_ltb_trans _ _ _ E E1) as T. rewrite T in H2. discriminate H2.
  - pose proof (str_ltb_total _ _ E1 H1). subst b. rewrite E in H2. discriminate H2.
Qed.
Lemma str_leb_strict : forall a b, str_leb a b = true -> a <> b -> str_ltb a b = true.
Proof.
  intros a b H N. unfold str_leb in H. apply negb_true_iff in H. destruct (str_ltb a b) eqn:E; [reflexivity|]. exfalso. apply N. apply str_ltb_total; auto.
Qed.
Lemma sort_enc_strict : forall {V} (enc : V -> str) (ok : V -> Prop), (forall a b, ok a -> ok b -> enc a = enc b -> a = b) ->
  forall l, NoDup l -> Forall ok l -> StronglySorted (fun a b => str_ltb (enc a) (enc b) = true) (sort_desc (fun a b => str_leb (enc a) (enc b)) l).
Proof.
  intros V enc ok Inj l N F. set (geb := fun a b => str_leb (enc a) (enc b)).
  assert (S : StronglySorted (fun a b => geb a b = true) (sort_desc geb l)).
  { apply sort_desc_sorted; [intros x y H; apply str_leb_total; exact H|intros x y z; apply str_leb_trans]. }
  assert (P := sort_desc_perm geb l). apply SS_strict in S; [|exact (Permutation_NoDup P N)].
  refine (SS_mono _ _ ok _ _ (Permutation_Forall P F) S). intros a b Oa Ob [G D]. apply str_leb_strict; [exact G|]. intros E. exact (D (Inj a b Oa Ob E)).
Qed.

(** ** the records are told apart by their texts *)
Lemma dig_a : forall n, (n = n / 1024 * 1024 + n / 16 mod 64 * 16 + n mod 16)%N. Proof. intros. lia. Qed.
Lemma dig_b : forall a b c d, (b < 4 -> d < 4 -> a * 4 + b = c * 4 + d -> a = c /\ b = d)%N. Proof. intros. lia. Qed.
Lemma dig_c : forall n, (n = n / 16384 * 16384 + n / 256 mod 64 * 256 + n / 4 mod 64 * 4 + n mod 4)%N. Proof. intros. lia. Qed.
Lemma dig_d : forall a b c d, (b < 16 -> d < 16 -> a * 16 + b = c * 16 + d -> a = c /\ b = d)%N. Proof. intros. lia. Qed.
Lemma dig_e : forall n, (n = n / 4096 * 4096 + n / 64 mod 64 * 64 + n mod 64)%N. Proof. intros. lia. Qed.
Lemma dig_f : forall n, (n < 65536 -> n / 16384 < 4)%N. Proof. intros. lia. Qed.
Lemma dig_g : forall n, (n < 65536 -> n / 4096 < 16)%N. Proof. intros. lia. Qed.
Lemma signs2_inj : forall v w, fit2 v -> fit2 w -> signs2 v = signs2 w -> v = w.
Proof.
  intros [p i] [q j] [Hp Hi] [Hq Hj] E. unfold signs2 in E. cbn [fst snd] in *. injection E as E1 E2 E3 E4 E5 E6.
  apply dig_b in E3 as [E3 E7]; [|apply dig_f; assumption|apply dig_f; assumption].
  assert (E8 : (N.of_nat i mod 4 = N.of_nat j mod 4)%N) by (revert E6; generalize (N.of_nat i mod 4)%N (N.of_nat j mod 4)%N; clear; intros; lia).
  assert (A : N.of_nat p = N.of_nat q) by (rewrite (dig_a (N.of_nat p)), (dig_a (N.of_nat q)), E1, E2, E3; reflexivity).
  assert (B : N.of_nat i = N.of_nat j) by (rewrite (dig_c (N.of_nat i)), (dig_c (N.of_nat j)), E7, E4, E5, E8; reflexivity).
  apply Nat2N.inj in A, B. congruence.
Qed.
Lemma signs3_inj : forall v w, fit3 v -> fit3 w -> signs3 v = signs3 w -> v = w.
Proof.
  intros [[c p] i] [[d q] j] (Hc & Hp & Hi) (Hd & Hq & Hj) E. unfold signs3 in E. cbn [fst snd] in *. injection E as E1 E2 E3 E4 E5 E6 E7 E8.
  apply dig_b in E3 as [E3 E9]; [|apply dig_f; assumption|apply dig_f; assumption].
  apply dig_d in E6 as [E6 E10]; [|apply dig_g; assumption|apply dig_g; assumption].
  assert (A : N.of_nat c = N.of_nat d) by (rewrite (dig_a (N.of_nat c)), (dig_a (N.of_nat d)), E1, E2, E3; reflexivity).
  assert (B : N.of_nat p = N.of_nat q) by (rewrite (dig_c (N.of_nat p)), (dig_c (N.of_nat q)), E9, E4, E5, E6; reflexivity).
  assert (C : N.of_nat i = N.of_nat j) by (rewrite (dig_e (N.of_nat i)), (dig_e (N.of_nat j)), E10, E7, E8; reflexivity).
  apply Nat2N.inj in A, B, C. congruence.
Qed.
Lemma digits_inj : forall a b t, six a -> six b -> length a = length b -> map b64_digit a ++ t = map b64_digit b ++ t -> a = b.
Proof.
  intros a b t Sa Sb L E. apply app_inv_tail in E. revert b Sb L E. induction a as [|x a IH]; intros [|y b] Sb L E; try discriminate L; [reflexivity|].
  inversion Sa; subst. inversion Sb; subst. cbn [map] in E. injection E as E1 E2. destruct (digit_order x y H1 H3) as [_ O].
  rewrite E1, N.eqb_refl in O. symmetry in O. apply N.eqb_eq in O. subst y. f_equal. apply IH; auto.
Qed.
Lemma pack_form_inj : forall v w, fit2 v -> fit2 w -> pack_form v = pack_form w -> v = w.
Proof.
  intros v w Hv Hw E. destruct (pack_form_signs v Hv) as [Ev Sv]. destruct (pack_form_signs w Hw) as [Ew Sw]. rewrite Ev, Ew in E.
  apply signs2_inj; auto. exact (digits_inj _ _ _ Sv Sw eq_refl E).
Qed.
Lemma pack_form3_inj : forall v w, fit3 v -> fit3 w -> pack_form3 v = pack_form3 w -> v = w.
Proof.
  intros v w Hv Hw E. destruct (pack_form3_signs v Hv) as [Ev Sv]. destruct (pack_form3_signs w Hw) as [Ew Sw]. rewrite Ev, Ew in E.
  apply signs3_inj; auto. exact (digits_inj _ _ _ Sv Sw eq_refl E).
Qed.

Definition rsorted {V} (R : V -> V -> Prop) (d : rdawg V) : Prop :=
  StronglySorted text_before (map fst d) /\ (forall w vals, In (w, vals) d -> vals <> [] /\ StronglySorted R vals).
Lemma rdawg_sorted : forall {V} (veqb : V -> V -> bool) (enc : V -> str) (ok : V -> Prop) (R : V -> V -> Prop) items,
  (forall a b, veqb a b = true <-> a = b) -> (forall a b, ok a -> ok b -> enc a = enc b -> a = b) ->
  (forall a b, ok a -> ok b -> str_ltb (enc a) (enc b) = true -> R a b) -> (forall it, In it items -> ok (snd it)) ->
  rsorted R (rdawg_of veqb enc items).
Proof.
  intros V veqb enc ok R items Ve Inj HR Ok'. split.
  - rewrite rdawg_keys.
    assert (S := sort_enc_strict (fun s : str => s) (fun _ => True) (fun a b _ _ E => E) (distinct str_eqb [] (map fst items))
              (distinct_NoDup _ str_eqb_eq _ _) ltac:(apply Forall_forall; intros; exact I)).
    refine (SS_mono _ _ (fun _ => True) _ _ _ S); [|apply Forall_forall; intros; exact I]. intros a b _ _ H. apply str_ltb_iff. exact H.
  - intros w vals I. destruct (rdawg_In veqb Ve enc items w vals I) as (NE & ND & M). split; [exact NE|].
    unfold rdawg_of in I. apply in_map_iff in I as (k & E & _). injection E as -> E.
    set (l := distinct veqb [] (map snd (filter (fun it => str_eqb (fst it) w) items))) in *.
    assert (F : Forall ok l).
    { apply Forall_forall. intros v Iv. assert (J : In v vals) by (rewrite <- E; apply (Permutation_in _ (sort_desc_perm _ l)); exact Iv).
      apply M in J. exact (Ok' _ J). }
    assert (S := sort_enc_strict enc ok Inj l (distinct_NoDup _ Ve _ _) F). rewrite E in S.
    refine (SS_mono _ _ ok HR _ _ S). rewrite <- E. exact (Permutation_Forall (sort_desc_perm _ l) F).
Qed.
Lemma fits_lt : forall n, fits16 n = true -> (N.of_nat n < 65536)%N.
Proof. intros n H. unfold fits16, U16MAX in H. apply N.leb_le in H. lia. Qed.
Lemma words_sorted : forall items d, words_dawg items = Ok d -> rsorted record_before d.
Proof.
  intros items d H. unfold words_dawg in H. apply bind_ok in H as ([] & G & H). apply Ok_inj in H. subst d.
  unfold guard in G. destruct (forallb _ items) eqn:F in G; [|discriminate G]. rewrite forallb_forall in F.
  apply (rdawg_sorted form_eqb pack_form fit2); [exact form_eqb_eq|exact pack_form_inj|intros a b Ha Hb; apply record_ltb; assumption|].
  intros it I. specialize (F it I). apply andb_prop in F as [F1 F2]. split; apply fits_lt; assumption.
Qed.
Lemma pred_sorted : forall items d, pred_dawg items = Ok d -> rsorted record3_before d.
Proof.
  intros items d H. unfold pred_dawg in H. apply bind_ok in H as ([] & G & H). apply Ok_inj in H. subst d.
  unfold guard in G. destruct (forallb _ items) eqn:F in G; [|discriminate G]. rewrite forallb_forall in F.
  apply (rdawg_sorted form3_eqb pack_form3 fit3); [exact form3_eqb_eq|exact pack_form3_inj|intros a b Ha Hb; apply record3_ltb; assumption|].
  intros it I. specialize (F it I). destruct it as [k [[c p] i]]. apply andb_prop in F as [F F3]. apply andb_prop in F as [F1 F2]. repeat split; apply fits_lt; assumption.
Qed.
Lemma compile_sorted : forall o lxs x, compile_lexemes o lxs = Ok x -> rsorted record_before (x_words x) /\ forall d, In d (x_pred x) -> rsorted record3_before d.
Proof.
  intros o lxs x H. unfold compile_lexemes in H. apply bind_ok in H as (st & _ & H).
  apply bind_ok in H as (paras & _ & H). apply bind_ok in H as (pd & _ & H). apply bind_ok in H as (wd & WD & H). apply bind_ok in H as (pds & PDS & H).
  apply Ok_inj in H. subst x. cbn [x_words x_pred]. split; [exact (words_sorted _ _ WD)|].
  intros d I. apply mapM_ok in PDS. clear - PDS I. induction PDS as [|a b l r H F IH]; [destruct I|]. destruct I as [<-|I]; [exact (pred_sorted _ _ H)|exact (IH I)].
Qed.
Lemma compile_parsed_sorted : forall o lx links x, compile_parsed_dict o lx links = Ok x -> rsorted record_before (x_words x) /\ forall d, In d (x_pred x) -> rsorted record3_before d.
Proof. intros o lx links x H. unfold compile_parsed_dict in H. apply bind_ok in H as (lxs & _ & H). exact (compile_sorted _ _ _ H). Qed.

(** ** uniqueness *)
Lemma signs_irr : forall a, ~ signs_before a a.
Proof. intros a (c & x & y & ra & rb & E1 & E2 & L). rewrite E1 in E2. apply app_inv_head in E2. injection E2 as -> _. lia. Qed.
Lemma signs_asym : forall a b, signs_before a b -> signs_before b a -> False.
Proof.
  intros a b (c & x & y & ra & rb & E1 & E2 & L) (c' & x' & y' & ra' & rb' & E3 & E4 & L'). subst a b.
  revert c' E3 E4. induction c as [|z c IH]; intros [|z' c'] E3 E4; cbn in E3, E4.
  - injection E3 as <- _. injection E4 as <- _. lia.
  - injection E3 as <- _. injection E4 as <- _. lia.
  - injection E3 as <- _. injection E4 as <- _. lia.
  - injection E3 as <- E3. injection E4 as E4. exact (IH _ E3 E4).
Qed.
Lemma text_irr : forall a, ~ text_before a a. Proof. intros a H. apply str_ltb_iff in H. rewrite str_ltb_irr in H. discriminate H. Qed.
Lemma text_asym : forall a b, text_before a b -> text_before b a -> False.
Proof. intros a b H1 H2. apply str_ltb_iff in H1, H2. pose proof (str_ltb_trans _ _ _ H1 H2) as T. rewrite str_ltb_irr in T. discriminate T. Qed.
Lemma fst_fun : forall {V} (e : list (str * V)), NoDup (map fst e) -> forall w a b, In (w, a) e -> In (w, b) e -> a = b.
Proof.
  intros V e N w a b I J. pose proof (In_dget str_eqb str_eqb_eq w a e N I) as A. pose proof (In_dget str_eqb str_eqb_eq w b e N J) as B. rewrite A in B. injection B as B. exact B.
Qed.
Lemma keyed_unique : forall {V} (d e : list (str * V)), NoDup (map fst d) -> map fst d = map fst e ->
  (forall w v v', In (w, v) d -> In (w, v') e -> v = v') -> d = e.
Proof.
  intros V. induction d as [|[w v] d IH]; intros [|[w' v'] e] N E H; try discriminate E; [reflexivity|]. cbn [map fst] in E. injection E as <- E. inversion N; subst. f_equal.
  - f_equal. exact (H w v v' (or_introl eq_refl) (or_introl eq_refl)).
  - apply IH; auto. intros k a b I J. exact (H k a b (or_intror I) (or_intror J)).
Qed.
Lemma SS_NoDup : forall {A} (R : A -> A -> Prop), (forall a, ~ R a a) -> forall l, StronglySorted R l -> NoDup l.
Proof. intros A R Irr l S. induction S as [|a l S IH F]; constructor; [|exact IH]. intros I. rewrite Forall_forall in F. exact (Irr a (F a I)). Qed.
Lemma rsorted_unique : forall {V} (R : V -> V -> Prop), (forall a, ~ R a a) -> (forall a b, R a b -> R b a -> False) ->
  forall d e, rsorted R d -> rsorted R e -> (forall w v, recorded d w v <-> recorded e w v) -> d = e.
Proof.
  intros V R Irr Asy d e [Kd Vd] [Ke Ve] H.
  assert (Nd := SS_NoDup _ text_irr _ Kd). assert (Ne := SS_NoDup _ text_irr _ Ke).
  assert (X : forall d e : rdawg V, (forall w vals, In (w, vals) d -> vals <> [] /\ StronglySorted R vals) -> (forall w v, recorded d w v -> recorded e w v) -> forall w, In w (map fst d) -> In w (map fst e)).
  { intros d' e' Vd' H' w I. apply in_map_iff in I as ([k vals] & Ek & I). cbn in Ek. subst k. destruct (Vd' w vals I) as [NE _]. destruct vals as [|v vals]; [congruence|].
    destruct (H' w v) as (vals' & I' & _); [exists (v :: vals); split; [exact I|left; reflexivity]|]. apply in_map_iff. exists (w, vals'). auto. }
  assert (EK : map fst d = map fst e).
  { apply (sorted_unique text_before text_irr text_asym); auto. intros w. split; [apply (X d e Vd)|apply (X e d Ve)]; intros w' v; apply H. }
  apply keyed_unique; auto. intros w vs vs' I J. apply (sorted_unique R Irr Asy); [apply (Vd w vs I)|apply (Ve w vs' J)|].
  assert (Y : forall (d e : rdawg V) vs vs', NoDup (map fst e) -> In (w, vs) d -> In (w, vs') e -> (forall w v, recorded d w v -> recorded e w v) -> forall v, In v vs -> In v vs').
  { clear. intros d e vs vs' N I J H v Iv. destruct (H w v) as (u' & I' & Iu); [exists vs; auto|].
    assert (u' = vs') by exact (fst_fun e N w u' vs' I' J). subst u'. exact Iu. }
  intros v. split; [apply (Y d e vs vs' Ne I J)|apply (Y e d vs' vs Nd J I)]; intros w' v'; apply H.
Qed.
