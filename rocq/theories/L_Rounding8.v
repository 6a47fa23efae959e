(** * Lemmas for C72: how far the scores of one word are from adding up to 1 *)
From Coq Require Import String List NArith ZArith Bool QArith Qround Qabs Qpower Lia Lqa.
From Verif Require Import Py Uni Tagset Dawg Dict Utils Shapes Units Analyzer Rounding Spec Spec22.
From Verif Require Import L_Base L_Rounding L_Rounding2 L_Rounding3 L_Rounding4.
Import ListNotations.
Local Open Scope nat_scope.
Local Open Scope list_scope.

Lemma off_plus : forall k x y a b, off_by k x y -> off_by k a b -> off_by k (x + a) (y + b).
Proof. intros k x y a b [A B] [C D]. unfold off_by in *. fold rho in *. fold (rpow k) in *. set (r := rpow k) in *. split; lra. Qed.
Lemma off_eq : forall k x y x' y', (x == x')%Q -> (y == y')%Q -> off_by k x y -> off_by k x' y'.
Proof. intros k x y x' y' E F [A B]. unfold off_by in *. rewrite <- E, <- F. split; assumption. Qed.
Lemma off_sym : forall k x y, off_by k x y -> off_by k y x.
Proof. intros k x y [A B]. split; assumption. Qed.
Lemma qsum_scale : forall l c s, (fold_left Qplus (map (fun x => x * c)%Q l) (s * c)%Q == fold_left Qplus l s * c)%Q.
Proof. induction l as [|x l IH]; intros c s; [reflexivity|]. cbn [map fold_left]. rewrite <- (IH c (s + x)%Q). assert (E : forall l a b, (a == b)%Q -> (fold_left Qplus l a == fold_left Qplus l b)%Q) by (clear; induction l as [|x l IH]; intros a b E; [exact E|]; cbn [fold_left]; apply IH; rewrite E; reflexivity). apply E. ring. Qed.
Section s.
Context (fl : Q -> Q) (R : rounding fl).
Lemma sum_off : forall l s s' k, (0 <= s)%Q -> (0 <= s')%Q -> (forall x, In x l -> (0 <= x)%Q) -> off_by k s s' -> off_by (k + length l) (fold_left (fun s x => fl (s + x)%Q) l s) (fold_left Qplus l s').
Proof.
  induction l as [|x l IH]; intros s s' k S S' P O; [rewrite Nat.add_0_r; exact O|]. cbn [fold_left length]. assert (X : (0 <= x)%Q) by (apply P; left; reflexivity). rewrite <- Nat.add_succ_comm. apply IH.
  - apply fl_nonneg; [exact R|lra].
  - lra.
  - intros y I. apply P. right. exact I.
  - apply (off_trans 1 k _ (s + x)%Q); [apply off_fl; [exact R|lra]|]. apply off_plus; [exact O|apply off_refl; exact X].
Qed.
Lemma sum_off2 : forall l l' s s' k, Forall2 (off_by k) l l' -> off_by k s s' -> off_by k (fold_left Qplus l s) (fold_left Qplus l' s').
Proof. intros l l' s s' k F. revert s s'. induction F as [|x y l l' E F IH]; intros s s' O; [exact O|]. cbn [fold_left]. apply IH. apply off_plus; assumption. Qed.

Lemma normalised_sum : forall d lower ps r, (forall p, In p ps -> 0 <= p_score p)%Q -> apply_to_parses_fl fl d lower ps = Ok r -> ps <> [] ->
  (forall p, In p r -> prob d lower (t_str (p_tag p)) == 0)%Q -> off_by (length r + 2) (Qsum (map p_score r)) 1.
Proof.
  intros d lower ps r P H NE Z. unfold apply_to_parses_fl in H. destruct ps as [|p0 ps0]; [destruct NE; reflexivity|]. revert P H NE. generalize (p0 :: ps0). clear p0 ps0. intros ps P H NE.
  assert (ZP : forall l s, (s == 0)%Q -> (forall x, In x l -> (x == 0)%Q) -> (fold_left (fun s x => fl (s + x)%Q) l s == 0)%Q).
  { induction l as [|x l IH]; intros s S A; [exact S|]. cbn [fold_left]. apply IH; [|intros y I; apply A; right; exact I]. apply fl_zero; [exact R|]. rewrite S. rewrite (A x (or_introl eq_refl)). reflexivity. }
  assert (TG : forall q, In q ps -> (prob d lower (t_str (p_tag q)) == 0)%Q \/ exists p, In p r /\ p_tag p = p_tag q).
  { intros q I. right. match type of H with (if ?b then _ else _) = _ => destruct b end.
    - match type of H with (if ?b then _ else _) = _ => destruct b end; [discriminate H|]. apply Ok_inj in H. subst r. eexists. split; [apply in_map; exact I|reflexivity].
    - apply Ok_inj in H. subst r. assert (X : exists v, In (q, v) (combine ps (map (fun p => prob_fl fl d lower (t_str (p_tag p))) ps))).
      { clear -I. induction ps as [|a ps IH]; [destruct I|]. destruct I as [->|I]; cbn [map combine]; [eexists; left; reflexivity|]. destruct (IH I) as (v & J). exists v. right. exact J. }
      destruct X as (v & X). exists (with_score q v). split; [|reflexivity]. apply sort_desc_In. apply (in_map (fun pq => with_score (fst pq) (snd pq)) _ _ X). }
  assert (Z0 : (sum_fl fl (map (fun p => prob_fl fl d lower (t_str (p_tag p))) ps) == 0)%Q).
  { apply ZP; [reflexivity|]. intros x I. apply in_map_iff in I as (q & <- & I). unfold prob_fl. apply fl_zero; [exact R|]. destruct (TG q I) as [E|(p & J & E)]; [exact E|]. rewrite <- E. apply Z. exact J. }
  apply Qeq_bool_iff in Z0. rewrite Z0 in H. set (a := sum_fl fl (map p_score ps)) in *. destruct (Qeq_bool a 0) eqn:QA; [discriminate H|]. apply Ok_inj in H. subst r. clear Z TG ZP Z0.
  assert (PS : forall x, In x (map p_score ps) -> (0 <= x)%Q) by (intros x I; apply in_map_iff in I as (q & <- & I); apply P; exact I).
  assert (O : off_by (length ps) a (Qsum (map p_score ps))) by (rewrite <- (map_length p_score ps); apply (sum_off (map p_score ps) 0%Q 0%Q 0); [lra|lra|exact PS|apply off_refl; lra]).
  assert (AN : (0 <= a)%Q).
  { assert (G : forall l s, (0 <= s)%Q -> (forall x, In x l -> (0 <= x)%Q) -> (0 <= fold_left (fun s x => fl (s + x)%Q) l s)%Q).
    { induction l as [|x l IH]; intros s S A; [exact S|]. cbn [fold_left]. apply IH; [apply fl_nonneg; [exact R|]; assert (0 <= x)%Q by (apply A; left; reflexivity); lra|intros y I; apply A; right; exact I]. }
    apply G; [lra|exact PS]. }
  assert (AP : (0 < a)%Q) by (destruct (Qlt_le_dec 0 a) as [L|L]; [exact L|]; assert (a == 0)%Q as K by lra; apply Qeq_bool_iff in K; congruence).
  assert (IA : (0 < 1 / a)%Q) by (apply Qlt_shift_div_l; [exact AP|lra]). assert (FA := fl_pos fl R _ IA).
  rewrite map_map, map_length. cbn [with_score p_score]. rewrite (Nat.add_comm (length ps) 2).
  apply (off_trans 2 (length ps) _ (Qsum (map p_score ps) * (1 / a))%Q).
  - apply (off_eq 2 (Qsum (map (fun p => fl (p_score p * fl (1 / a))%Q) ps)) (fold_left Qplus (map (fun x => (x * (1 / a))%Q) (map p_score ps)) (0 * (1 / a))%Q)); [reflexivity|unfold Qsum; apply qsum_scale|].
    unfold Qsum. rewrite map_map. apply sum_off2; [|apply (off_eq 2 0 0); [reflexivity|ring|apply off_refl; lra]].
    clearbody a. clear -P R IA FA. induction ps as [|p ps IH]; [constructor|]. cbn [map]. constructor; [|apply IH; intros q I; apply P; right; exact I]. assert (X : (0 <= p_score p)%Q) by (apply P; left; reflexivity).
    apply (off_trans 1 1 _ (p_score p * fl (1 / a))%Q); [apply off_fl; [exact R|nra]|]. assert (O := off_fl fl R (1 / a)%Q ltac:(lra)). assert (O2 := off_times 1 _ _ _ X O). apply (off_eq 1 (fl (1 / a) * p_score p) (1 / a * p_score p)); [ring|ring|exact O2].
  - assert (O2 := off_times (length ps) _ _ (1 / a)%Q ltac:(lra) (off_sym _ _ _ O)). apply (off_eq (length ps) (Qsum (map p_score ps) * (1 / a)) (a * (1 / a))); [reflexivity|field; lra|exact O2].
Qed.
End s.
Lemma parse_b64_sum : forall M w d ps, scores_pos M -> small_numbers M -> m_prob M = Some d -> parse_b64 M w = Ok ps -> ps <> [] ->
  (forall p, In p ps -> prob d (u_lower (m_uni M) w) (t_str (p_tag p)) == 0)%Q -> off_by (length ps + 2) (Qsum (map p_score ps)) 1.
Proof.
  intros M w d ps SP SM D H NE Z. unfold parse_b64, fuel_for in H. cbn [analyze_fl fst] in H. apply bind_ok in H as (qs & A & H). rewrite D in H.
  assert (K := analyze_rel b64 b64_rounding M SM SP (length (u_lower (m_uni M) w))). destruct K as [K1 K2].
  assert (RR := run_rel b64 b64_rounding M SM (fst (analyze_fl b64 (length (u_lower (m_uni M) w)) M)) (fst (analyze (length (u_lower (m_uni M) w)) M)) (snd (analyze_fl b64 (length (u_lower (m_uni M) w)) M)) (snd (analyze (length (u_lower (m_uni M) w)) M)) (level M (length (u_lower (m_uni M) w))) K1 K2 w (u_lower (m_uni M) w) (m_units M) 0 [] [] [] [] SP (Forall2_nil _) (Forall2_nil _)).
  rewrite A in RR. destruct (run_parse _ _ _ _ _ _ _ _ _) as [ys|e]; [|destruct RR]. cbn [rrel] in RR. apply (normalised_sum b64 b64_rounding d (u_lower (m_uni M) w) qs ps); [|exact H| |exact Z].
  - intros p I. clear -RR I. induction RR as [|x y l l' (_ & (E & _) & _) F IH]; [destruct I|]. destruct I as [<-|I]; [exact E|exact (IH I)].
  - intros ->. cbn in H. apply Ok_inj in H. subst ps. apply NE. reflexivity.
Qed.
