(** * Lemmas for C74 *)
From Coq Require Import List Arith Sorted Lia.
From Verif Require Import Py Utils Spec24.
Import ListNotations.
Local Open Scope nat_scope.
Local Open Scope list_scope.

Lemma comb_map : forall {A B} (f : A -> B) k l, combinations k (map f l) = map (map f) (combinations k l).
Proof.
  intros A B f k l. revert k. induction l as [|x l IH]; intros [|k]; try reflexivity.
  cbn [map combinations]. rewrite map_app, !map_map, IH, map_map, <- IH. reflexivity.
Qed.
Lemma all_map : forall {A B} (f : A -> B) l, combinations_of_all_lengths (map f l) = map (map f) (combinations_of_all_lengths l).
Proof.
  intros A B f l. unfold combinations_of_all_lengths. rewrite map_length. generalize (seq 0 (length l)). intros s. induction s as [|n s IH]; [reflexivity|].
  cbn [flat_map]. rewrite map_app, IH, comb_map. reflexivity.
Qed.
Lemma nth_seq_id : forall {A} (l : list A) d, map (fun i => nth i l d) (seq 0 (length l)) = l.
Proof.
  intros A l d. apply (nth_ext _ _ d d); [rewrite map_length, seq_length; reflexivity|]. intros n H. rewrite map_length, seq_length in H.
  rewrite (nth_indep _ d (nth 0 l d)) by (rewrite map_length, seq_length; exact H). rewrite (map_nth (fun i => nth i l d) (seq 0 (length l)) 0 n), seq_nth by exact H. reflexivity.
Qed.
Lemma comb_in : forall m a k p, In p (combinations k (seq a m)) <-> length p = k /\ StronglySorted lt p /\ Forall (fun i => a <= i < a + m) p.
Proof.
  induction m as [|m IH]; intros a [|k] p.
  - cbn. split; [intros [<-|[]]; repeat constructor|]. intros (L & _). destruct p; [left; reflexivity|discriminate L].
  - cbn. split; [intros []|]. intros (L & _ & F). destruct p as [|x p]; [discriminate L|]. inversion F; subst. lia.
  - cbn. split; [intros [<-|[]]; repeat constructor|]. intros (L & _). destruct p; [left; reflexivity|discriminate L].
  - cbn [seq combinations]. rewrite in_app_iff, in_map_iff. rewrite IH. split.
    + intros [(q & <- & Q)|(L & S & F)].
      * apply IH in Q as (L & S & F). cbn [length]. split; [lia|]. split.
        -- constructor; [exact S|]. eapply Forall_impl; [|exact F]. cbn. intros; lia.
        -- constructor; [lia|]. eapply Forall_impl; [|exact F]. cbn. intros; lia.
      * split; [exact L|]. split; [exact S|]. eapply Forall_impl; [|exact F]. cbn. intros; lia.
    + intros (L & S & F). destruct p as [|x p]; [discriminate L|]. cbn [length] in L. inversion S as [|? ? S' LT]; subst. inversion F as [|? ? Fx Fp]; subst.
      destruct (Nat.eq_dec x a) as [->|N].
      * left. exists p. split; [reflexivity|]. apply IH. split; [lia|]. split; [exact S'|]. rewrite Forall_forall in *. intros i I. specialize (LT i I). specialize (Fp i I). lia.
      * right. split; [cbn; lia|]. split; [exact S|]. rewrite Forall_forall in *. intros i I. destruct I as [<-|I]; [lia|]. specialize (LT i I). specialize (Fp i I). lia.
Qed.
Lemma ss_map : forall {A B} (R : A -> A -> Prop) (S : B -> B -> Prop) (f : A -> B) l, (forall x y, R x y -> S (f x) (f y)) -> StronglySorted R l -> StronglySorted S (map f l).
Proof. intros A B R S f l H. induction 1 as [|x l SS IH F]; cbn; constructor; [exact IH|]. rewrite Forall_map. eapply Forall_impl; [|exact F]. intros y. apply H. Qed.
Lemma ss_app : forall {A} (R : A -> A -> Prop) l m, StronglySorted R l -> StronglySorted R m -> (forall x y, In x l -> In y m -> R x y) -> StronglySorted R (l ++ m).
Proof.
  intros A R l m HL HM H. induction HL as [|x l SS IH F]; [exact HM|]. cbn. constructor; [apply IH; intros; apply H; [right|]; assumption|].
  apply Forall_app. split; [exact F|]. apply Forall_forall. intros y Y. apply H; [left; reflexivity|exact Y].
Qed.
Lemma comb_sorted : forall m a k, StronglySorted lex (combinations k (seq a m)).
Proof.
  induction m as [|m IH]; intros a [|k]; try (cbn; repeat constructor; fail).
  cbn [seq combinations]. apply ss_app.
  - apply (ss_map lex); [|apply IH]. intros x y H. cbn. right. split; [reflexivity|exact H].
  - apply IH.
  - intros x y HX HY. apply in_map_iff in HX as (q & <- & Q). apply comb_in in HY as (L & _ & F). destruct y as [|b y]; [discriminate L|]. inversion F; subst. cbn. left. lia.
Qed.
Lemma flat_in : forall n a m p, In p (flat_map (fun num => combinations (num + 1) (seq 0 n)) (seq a m)) <-> (exists k, a <= k < a + m /\ length p = S k) /\ StronglySorted lt p /\ Forall (fun i => i < n) p.
Proof.
  intros n a m p. rewrite in_flat_map. split.
  - intros (k & K & P). apply in_seq in K. apply comb_in in P as (L & S & F). split; [exists k; lia|]. split; [exact S|]. eapply Forall_impl; [|exact F]. cbn. intros; lia.
  - intros ((k & K & L) & S & F). exists k. split; [apply in_seq; exact K|]. apply comb_in. split; [lia|]. split; [exact S|]. eapply Forall_impl; [|exact F]. cbn. intros; lia.
Qed.
Lemma sorted_len : forall n p, StronglySorted lt p -> Forall (fun i => i < n) p -> length p <= n.
Proof.
  intros n p S F. assert (I : incl p (seq 0 n)) by (intros i X; rewrite Forall_forall in F; apply in_seq; specialize (F i X); lia).
  assert (ND : NoDup p). { clear - S. induction S as [|x l SS IH F]; constructor; [|exact IH]. intros X. rewrite Forall_forall in F. specialize (F x X). lia. }
  pose proof (NoDup_incl_length ND I) as H. rewrite seq_length in H. exact H.
Qed.
Lemma flat_sorted : forall n m a, StronglySorted before (flat_map (fun num => combinations (num + 1) (seq 0 n)) (seq a m)).
Proof.
  intros n m. induction m as [|m IH]; intros a; [constructor|]. cbn [seq flat_map]. apply ss_app; [|apply IH|].
  - assert (G : forall l, StronglySorted lex l -> Forall (fun p => length p = a + 1) l -> StronglySorted before l).
    { clear. intros l S. induction S as [|x l S IH F]; intros H; constructor; inversion H as [|? ? H1 H2]; subst; [apply IH; exact H2|].
      rewrite Forall_forall in *. intros y Y. right. split; [rewrite H1, (H2 y Y); reflexivity|exact (F y Y)]. }
    apply G; [apply comb_sorted|]. apply Forall_forall. intros p P. apply comb_in in P. tauto.
  - intros x y X Y. apply comb_in in X as (LX & _). apply flat_in in Y as ((k & K & LY) & _). left. lia.
Qed.
Fixpoint binom (n k : nat) : nat := match k, n with 0, _ => 1 | S _, 0 => 0 | S k', S n' => binom n' k' + binom n' k end.
Lemma comb_len : forall {A} (l : list A) k, length (combinations k l) = binom (length l) k.
Proof. intros A l. induction l as [|x l IH]; intros [|k]; try reflexivity. cbn [combinations length binom]. rewrite app_length, map_length, !IH. reflexivity. Qed.
Lemma binom_big : forall n k, n < k -> binom n k = 0.
Proof. induction n as [|n IH]; intros [|k] H; try lia; [reflexivity|]. cbn. rewrite !IH by lia. reflexivity. Qed.
Lemma row_sum : forall n m, list_sum (map (fun k => binom (S n) (S k)) (seq 0 m)) = list_sum (map (binom n) (seq 0 m)) + list_sum (map (fun k => binom n (S k)) (seq 0 m)).
Proof. intros n m. generalize (seq 0 m). intros s. induction s as [|k s IH]; [reflexivity|]. cbn [map list_sum fold_right] in *. unfold list_sum in *. cbn [map fold_right]. rewrite IH. cbn [binom]. lia. Qed.
Lemma seq_S_map : forall m a, seq (S a) m = map S (seq a m). Proof. intros. symmetry. apply seq_shift. Qed.
Lemma sum_row : forall n m, n <= m -> list_sum (map (fun k => binom n (S k)) (seq 0 m)) = 2 ^ n - 1.
Proof.
  induction n as [|n IH]; intros m H.
  - generalize (seq 0 m). intros s. induction s as [|k s IHs]; [reflexivity|]. cbn in *. exact IHs.
  - destruct m as [|m]; [lia|]. rewrite row_sum.
    assert (E : list_sum (map (binom n) (seq 0 (S m))) = 1 + list_sum (map (fun k => binom n (S k)) (seq 0 m))). { cbn [seq map]. rewrite seq_S_map, map_map. unfold list_sum at 1. cbn [fold_right]. destruct n; reflexivity. }
    rewrite E, !IH by lia. cbn [Nat.pow]. pose proof (Nat.pow_nonzero 2 n). lia.
Qed.
Lemma all_count : forall {A} (l : list A), length (combinations_of_all_lengths l) = 2 ^ length l - 1.
Proof.
  intros A l. unfold combinations_of_all_lengths. rewrite <- (sum_row (length l) (length l)) by lia. generalize (seq 0 (length l)). intros s.
  induction s as [|k s IH]; [reflexivity|]. cbn [flat_map map]. rewrite app_length, comb_len, IH, Nat.add_1_r. reflexivity.
Qed.
Lemma combinations_spec : forall {A} (l : list A) (d : A), exists ps, combinations_of_all_lengths l = map (map (fun i => nth i l d)) ps /\
  (forall p, In p ps <-> selection (length l) p) /\ StronglySorted before ps /\ length ps = 2 ^ length l - 1.
Proof.
  intros A l d. exists (combinations_of_all_lengths (seq 0 (length l))). split; [|split; [|split]].
  - rewrite <- all_map, nth_seq_id. reflexivity.
  - intros p. unfold combinations_of_all_lengths, selection. rewrite seq_length, flat_in. split.
    + intros ((k & K & L) & S & F). split; [destruct p; [discriminate L|discriminate]|]. split; assumption.
    + intros (N & S & F). split; [|split; assumption]. pose proof (sorted_len _ _ S F). destruct p as [|x p]; [destruct (N eq_refl)|]. exists (length p). cbn in *. split; [lia|reflexivity].
  - unfold combinations_of_all_lengths. rewrite seq_length. apply flat_sorted.
  - rewrite all_count, seq_length. reflexivity.
Qed.
