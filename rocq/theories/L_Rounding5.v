(** * Lemmas for C72: inflection and the probability table *)
From Coq Require Import String List NArith ZArith Bool QArith Qround Qabs Qpower Lia Lqa Permutation.
From Verif Require Import Py Uni Tagset Dawg Dict Utils Shapes Units Analyzer Rounding Spec Spec22.
From Verif Require Import L_Base L_Tagset L_Groups L_Rounding L_Rounding2 L_Rounding3.
Import ListNotations.
Local Open Scope nat_scope.
Local Open Scope list_scope.

Lemma slen_nodup : forall s l, NoDup l -> (forall x, In x l <-> In x s) -> slen s = length l.
Proof. intros s l N H. unfold slen. apply Permutation_length. apply NoDup_Permutation; [apply snodup_NoDup|exact N|]. intros x. rewrite snodup_In. symmetry. apply H. Qed.
Lemma slen_le_length : forall s, slen s <= length s.
Proof. intros s. unfold slen. apply NoDup_incl_length; [apply snodup_NoDup|]. intros x. rewrite snodup_In. auto. Qed.
Lemma filter_partition : forall {A} (f : A -> bool) l, length (filter f l) + length (filter (fun x => negb (f x)) l) = length l.
Proof. intros A f l. induction l as [|x l IH]; [reflexivity|]. cbn [filter]. destruct (f x); cbn [negb length]; lia. Qed.
Lemma slen_split : forall a b, slen (sinter a b) + slen (sdiff a b) = slen a.
Proof.
  intros a b. rewrite (slen_nodup (sinter a b) (filter (fun x => smem x b) (snodup a))), (slen_nodup (sdiff a b) (filter (fun x => negb (smem x b)) (snodup a))).
  - apply (filter_partition (fun x => smem x b)).
  - apply NoDup_filter. apply snodup_NoDup.
  - intros x. unfold sdiff. rewrite !filter_In, snodup_In. tauto.
  - apply NoDup_filter. apply snodup_NoDup.
  - intros x. unfold sinter. rewrite !filter_In, snodup_In. tauto.
Qed.
Lemma slen_inter_comm : forall a b, slen (sinter a b) = slen (sinter b a).
Proof. intros a b. apply slen_eq. intros x. unfold sinter. rewrite !filter_In, !smem_In. tauto. Qed.
Lemma slen_symdiff : forall a b, slen (ssymdiff a b) = slen (sdiff a b) + slen (sdiff b a).
Proof.
  intros a b. unfold ssymdiff. rewrite (slen_nodup (sdiff a b ++ sdiff b a) (snodup (sdiff a b) ++ snodup (sdiff b a))).
  - rewrite app_length. reflexivity.
  - apply NoDup_app_disj; try apply snodup_NoDup. intros x. rewrite !snodup_In. unfold sdiff. rewrite !filter_In, !negb_true_iff. intros [A _] [_ B]. apply smem_In in A. congruence.
  - intros x. rewrite !in_app_iff, !snodup_In. tauto.
Qed.

Lemma symdiff_size : forall g t, slen (ssymdiff g t) + 2 * slen (sinter g t) = slen g + slen t.
Proof. intros g t. rewrite slen_symdiff. assert (A := slen_split g t). assert (B := slen_split t g). rewrite (slen_inter_comm t g) in B. lia. Qed.
Lemma max_from_ext : forall {A} (f g : A -> A -> bool) l b, (forall x y, In x (b :: l) -> In y (b :: l) -> f x y = g x y) -> max_from f b l = max_from g b l.
Proof.
  intros A f g l. induction l as [|y l IH]; intros b H; [reflexivity|]. cbn [max_from]. rewrite (H y b) by (cbn; auto). destruct (g y b); apply IH; intros u v [U|U] [V|V]; apply H; cbn; auto.
Qed.
Lemma max_first_ext : forall {A} (f g : A -> A -> bool) l, (forall x y, In x l -> In y l -> f x y = g x y) -> max_first f l = max_first g l.
Proof. intros A f g [|x l] H; [reflexivity|]. cbn. rewrite (max_from_ext f g); [reflexivity|exact H]. Qed.
Lemma sim_cmp : forall fl (R : rounding fl) G f f', (Z.of_nat (slen G) < 2 ^ 39)%Z -> (Z.of_nat (length (t_gr (p_tag f))) < 2 ^ 39)%Z -> (Z.of_nat (length (t_gr (p_tag f'))) < 2 ^ 39)%Z ->
  slen (t_gr (p_tag f)) < slen (t_gr (p_tag f')) + 12 -> slen (t_gr (p_tag f')) < slen (t_gr (p_tag f)) + 12 ->
  Qgtb (similarity_fl fl G f) (similarity_fl fl G f') = Qgtb (similarity G f) (similarity G f').
Proof.
  intros fl R G f f' HG HF HF' D D'. unfold Qgtb. f_equal. set (t := t_gr (p_tag f)) in *. set (t' := t_gr (p_tag f')) in *.
  assert (E := symdiff_size G t). assert (E' := symdiff_size G t'). assert (L := slen_le_length t). assert (L' := slen_le_length t'). assert (I := slen_split G t). assert (I' := slen_split G t').
  set (a := slen (sinter G t)) in *. set (b := slen (ssymdiff G t)) in *. set (a' := slen (sinter G t')) in *. set (b' := slen (ssymdiff G t')) in *.
  change (similarity_fl fl G f) with (sim_fl fl (Z.of_nat a) (Z.of_nat b)). change (similarity_fl fl G f') with (sim_fl fl (Z.of_nat a') (Z.of_nat b')).
  change (similarity G f) with (sim_exact (Z.of_nat a) (Z.of_nat b)). change (similarity G f') with (sim_exact (Z.of_nat a') (Z.of_nat b')).
  apply cmp_sim; [exact R|lia|lia|lia|lia|]. intros T.
  assert (T2 : (10 * Z.of_nat a - Z.of_nat b = 10 * Z.of_nat a' - Z.of_nat b')%Z).
  { unfold sim_exact, Qeq, Qminus, Qplus, Qopp, Qmult, inject_Z in T. cbn [Qnum Qden] in T. lia. }
  lia.
Qed.
Lemma updated_size : forall C t req r, updated_grammemes C t req = Ok r -> slen r <= length (t_gr t) + length req.
Proof.
  intros C t req r H. rewrite <- app_length. eapply Nat.le_trans; [|apply slen_le_length]. apply slen_incl. intros x X. apply (updated_spec _ _ _ _ H x) in X as [X _]. apply in_app_iff. exact X.
Qed.
Lemma inflect_same : forall fl (R : rounding fl) M form req lex, get_lexeme M form = Ok lex -> sizes_ok form req lex -> inflect_fl fl M form req = inflect M form req.
Proof.
  intros fl R M form req lex L (S1 & S2 & S3). unfold inflect_fl, inflect. rewrite L. cbn [bind].
  assert (K : forall rq, length rq = length req -> (let* grammemes := updated_grammemes (m_tc M) (p_tag form) rq in Ok (max_first (fun a b => Qgtb (similarity_fl fl grammemes a) (similarity_fl fl grammemes b)) (filter (has_all rq) lex)))
     = (let* grammemes := updated_grammemes (m_tc M) (p_tag form) rq in Ok (max_first (fun a b => Qgtb (similarity grammemes a) (similarity grammemes b)) (filter (has_all rq) lex)))).
  { intros rq E. destruct (updated_grammemes (m_tc M) (p_tag form) rq) as [G|] eqn:U; [|reflexivity]. cbn [bind]. f_equal. apply max_first_ext. intros x y X Y. apply filter_In in X as [X _]. apply filter_In in Y as [Y _].
    apply updated_size in U. apply sim_cmp; auto. lia. }
  destruct (filter (has_all req) lex) as [|p ps] eqn:F.
  - cbn [bind]. apply K. unfold fix_rare_cases. apply map_length.
  - cbn [bind]. rewrite <- F. apply K. reflexivity.
Qed.
Lemma inflect_err : forall fl M form req e, get_lexeme M form = Err e -> inflect_fl fl M form req = Err e /\ inflect M form req = Err e.
Proof. intros fl M form req e H. unfold inflect_fl, inflect. rewrite H. split; reflexivity. Qed.
