(** * Rounding does not change the form inflect() chooses (lemmas for C15) *)
From Coq Require Import String List NArith ZArith Bool QArith Qabs Lia Lqa.
From Verif Require Import Py Uni Tagset Dawg Utils Shapes Dict Units Analyzer Spec Spec2 Spec12 L_Base L_Groups L_Inflect.
Import ListNotations.
Local Open Scope nat_scope.
Local Open Scope list_scope.

Lemma part_length : forall {A} (P : A -> bool) l, length l = length (filter P l) + length (filter (fun x => negb (P x)) l).
Proof. induction l as [|x l IH]; simpl; auto. destruct (P x); simpl; lia. Qed.

Lemma card_filter : forall (P : str -> Prop) (dec : str -> bool) l n, NoDup l -> (forall x, P x <-> In x l /\ dec x = true) ->
  card P n -> n = length (filter dec l).
Proof.
  intros P dec l n N H C. apply (card_unique _ _ _ C). exists (filter dec l). split; [apply NoDup_filter; auto|]. split; auto.
  intro x. rewrite filter_In, H. tauto.
Qed.
Definition inb (l : list str) (x : str) : bool := if in_dec grammeme_dec x l then true else false.
Lemma inb_iff : forall l x, inb l x = true <-> In x l.
Proof. intros. unfold inb. destruct (in_dec grammeme_dec x l); split; auto; discriminate. Qed.

Lemma counts_sizes : forall want f a b n w, counts want f a b -> card (fun x => In x (t_gr (p_tag f))) n -> card (fun x => In x want) w ->
  b + 2 * a = n + w.
Proof.
  intros want f a b n w [A B] (T & NT & IT & LT) (W & NW & IW & LW). subst n w.
  set (g := t_gr (p_tag f)) in *.
  assert (A1 : a = length (filter (inb T) W)).
  { apply (card_filter _ _ _ _ NW) with (2 := A). intro x. rewrite inb_iff, IW, IT. tauto. }
  assert (A2 : a = length (filter (inb W) T)).
  { apply (card_filter _ _ _ _ NT) with (2 := A). intro x. rewrite inb_iff, IW, IT. tauto. }
  assert (B1 : b = length (filter (fun x => negb (inb T x)) W ++ filter (fun x => negb (inb W x)) T)).
  { apply (card_unique _ _ _ B). eexists. split; [|split; [|reflexivity]].
    - apply NoDup_app_disj; try (apply NoDup_filter; auto). intros x X Y. apply filter_In in X as [X _]. apply filter_In in Y as [_ Y].
      apply inb_iff in X. rewrite X in Y. discriminate Y.
    - intro x. rewrite in_app_iff, !filter_In, !negb_true_iff, !IW, !IT.
      assert (U : inb T x = false <-> ~ In x T) by (rewrite <- inb_iff; destruct (inb T x); split; intro; congruence).
      assert (V : inb W x = false <-> ~ In x W) by (rewrite <- inb_iff; destruct (inb W x); split; intro; congruence).
      rewrite U, V, IT, IW. tauto. }
  rewrite app_length in B1. pose proof (part_length (inb T) W). pose proof (part_length (inb W) T). lia.
Qed.

Lemma card_list : forall l : list str, exists n, card (fun x => In x l) n.
Proof. intro l. exists (length (nodup grammeme_dec l)), (nodup grammeme_dec l). split; [apply NoDup_nodup|]. split; auto. intro x. apply nodup_In. Qed.
Lemma counts_exist : forall want f, exists a b, counts want f a b.
Proof. intros want f. destruct (zclose_closeness want f) as (a & b & A & B & _). exists a, b. split; auto. Qed.
Lemma counts_closeness : forall want f a b, counts want f a b -> closeness want f (10 * Z.of_nat a - Z.of_nat b)%Z.
Proof. intros want f a b [A B]. exists a, b. auto. Qed.

Lemma rounding : forall fl want cands i f, nth_error cands i = Some f ->
  (forall j f' z z', nth_error cands j = Some f' -> closeness want f z -> closeness want f' z' -> (z' <= z)%Z /\ (j < i -> (z' < z)%Z)) ->
  nearly fl want cands -> similar_sizes cands -> forall i', first_computed fl want cands i' <-> i' = i.
Proof.
  intros fl want cands i f N H Nl S.
  assert (K : forall j f' a b a' b', nth_error cands j = Some f' -> counts want f a b -> counts want f' a' b' ->
            (fl a' b' <= fl a b)%Q /\ (j < i -> (fl a' b' < fl a b)%Q)).
  { intros j f' a b a' b' J C C'. destruct (H j f' _ _ J (counts_closeness _ _ _ _ C) (counts_closeness _ _ _ _ C')) as [L1 L2].
    pose proof (Nl f a b (nth_error_In _ _ N) C) as X. pose proof (Nl f' a' b' (nth_error_In _ _ J) C') as X'.
    apply Qabs_Qlt_condition in X. apply Qabs_Qlt_condition in X'.
    assert (LT : (10 * Z.of_nat a' - Z.of_nat b' < 10 * Z.of_nat a - Z.of_nat b)%Z -> (fl a' b' < fl a b)%Q).
    { intro LT. assert (Y : (inject_Z (10 * Z.of_nat a' - Z.of_nat b') + 1 <= inject_Z (10 * Z.of_nat a - Z.of_nat b))%Q).
      { change 1%Q with (inject_Z 1). rewrite <- inject_Z_plus. rewrite <- Zle_Qle. lia. }
      unfold Z.sub in Y. rewrite !inject_Z_plus, !inject_Z_opp, !inject_Z_mult in Y.
      change (inject_Z 10) with 10%Q in Y. revert X X' Y. generalize (inject_Z (Z.of_nat a)) (inject_Z (Z.of_nat b)) (inject_Z (Z.of_nat a')) (inject_Z (Z.of_nat b')) (fl a b) (fl a' b').
      intros A B A' B' F F'. intros. lra. }
    split; [|intro J'; apply LT; auto].
    destruct (Z_lt_le_dec (10 * Z.of_nat a' - Z.of_nat b') (10 * Z.of_nat a - Z.of_nat b)) as [Q|Q]; [apply Qlt_le_weak; auto|].
    destruct (card_list want) as (w & Cw). destruct (card_list (t_gr (p_tag f))) as (n & Cn). destruct (card_list (t_gr (p_tag f'))) as (n' & Cn').
    pose proof (counts_sizes _ _ _ _ _ _ C Cn Cw). pose proof (counts_sizes _ _ _ _ _ _ C' Cn' Cw).
    pose proof (S f f' n n' (nth_error_In _ _ N) (nth_error_In _ _ J) Cn Cn'). pose proof (S f' f n' n (nth_error_In _ _ J) (nth_error_In _ _ N) Cn' Cn).
    assert (a' = a) by lia. assert (b' = b) by lia. subst. apply Qle_refl. }
  intro i'. split.
  - intros (f' & N' & H'). destruct (counts_exist want f) as (a & b & C). destruct (counts_exist want f') as (a' & b' & C').
    destruct (lt_eq_lt_dec i' i) as [[L|E]|L]; [exfalso| exact E |exfalso].
    + pose proof (proj2 (K i' f' a b a' b' N' C C') L). pose proof (proj1 (H' i f a' b' a b N C' C)). lra.
    + pose proof (proj1 (K i' f' a b a' b' N' C C')). pose proof (proj2 (H' i f a' b' a b N C' C) L). lra.
  - intros ->. exists f. split; auto.
Qed.

Lemma inflect_rounding : forall M p req lex f, get_lexeme M p = Ok lex -> inflect M p req = Ok (Some f) ->
  exists used want, used_requirement lex req used /\ target (m_tc M) p used want /\
    exists i, nth_error (filter (hasb used) lex) i = Some f /\
      forall fl, nearly fl want (filter (hasb used) lex) -> similar_sizes (filter (hasb used) lex) ->
        forall i', first_computed fl want (filter (hasb used) lex) i' <-> i' = i.
Proof.
  intros M p req lex f L H. destruct (inflect_closest M p req lex _ L H) as (used & want & U & T & i & N & F).
  exists used, want. split; auto. split; auto. exists i. split; auto. intros fl Nl S. exact (rounding fl want _ i f N F Nl S).
Qed.

(** ** a checkable instance: the double 0.1 (3602879701896397 * 2^-55) instead of 1/10 *)
Definition with_double (a b : nat) : Q := (inject_Z (Z.of_nat a) - (3602879701896397 # 36028797018963968) * inject_Z (Z.of_nat b))%Q.
Definition smallb (l : list str) : bool := Nat.leb (length l) 11.
Lemma small_sizes : forall cands, forallb (fun f => smallb (t_gr (p_tag f))) cands = true -> similar_sizes cands.
Proof.
  intros cands H f f' n n' F F' (l & N & I & <-) C'. rewrite forallb_forall in H. specialize (H f F). apply Nat.leb_le in H.
  assert (L : length l <= length (t_gr (p_tag f))) by (apply NoDup_incl_length; auto; intros x X; apply I; auto). lia.
Qed.
Lemma small_nearly : forall want cands, Nat.leb (length want) 100 = true -> forallb (fun f => smallb (t_gr (p_tag f))) cands = true ->
  nearly with_double want cands.
Proof.
  intros want cands W H f a b F C. rewrite forallb_forall in H. specialize (H f F). apply Nat.leb_le in H. apply Nat.leb_le in W.
  assert (B : b <= 111).
  { destruct C as [_ (l & N & I & <-)]. assert (L : length l <= length (want ++ t_gr (p_tag f))).
    { apply NoDup_incl_length; auto. intros x X. apply I in X. apply in_app_iff. tauto. } rewrite app_length in L. lia. }
  unfold with_double. assert (Q1 : (inject_Z (Z.of_nat b) <= 111)%Q) by (change 111%Q with (inject_Z 111); rewrite <- Zle_Qle; lia).
  assert (Q2 : (0 <= inject_Z (Z.of_nat b))%Q) by (change 0%Q with (inject_Z 0); rewrite <- Zle_Qle; lia).
  revert Q1 Q2. generalize (inject_Z (Z.of_nat b)) (inject_Z (Z.of_nat a)). intros B' A' Q1 Q2.
  apply Qabs_Qlt_condition. split; lra.
Qed.
