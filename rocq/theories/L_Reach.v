(** * Lemmas for C70 *)
From Coq Require Import String List NArith ZArith Bool QArith Lia.
From Verif Require Import Py Uni Tagset Dawg Dict Units Analyzer Spec Spec20.
From Verif Require Import L_Base L_Tagset L_Inflect L_LexParse.
Import ListNotations.
Local Open Scope nat_scope.
Local Open Scope list_scope.

Lemma alike_sym : forall f g, alike_forms f g -> alike_forms g f.
Proof. intros f g H x. symmetry. apply H. Qed.
Lemma alike_trans : forall f g h, alike_forms f g -> alike_forms g h -> alike_forms f h.
Proof. intros f g h A B x. rewrite (A x). apply B. Qed.
Lemma zclose_alike : forall want f g, alike_forms f g -> zclose want f = zclose want g.
Proof.
  intros want f g A. assert (X := zclose_closeness want f). assert (Y := zclose_closeness want g).
  apply (closeness_unique want f _ _ X). destruct Y as (a & b & C1 & C2 & E). exists a, b. split; [|split; [|exact E]].
  - destruct C1 as (l & N & I & L). exists l. split; [exact N|]. split; [|exact L]. intro x. rewrite (I x), (A x). tauto.
  - destruct C2 as (l & N & I & L). exists l. split; [exact N|]. split; [|exact L]. intro x. rewrite (I x), (A x). tauto.
Qed.
Lemma max_first_flat : forall (gtb : parse -> parse -> bool) f l, (forall h, In h l -> gtb h f = false) -> max_first gtb (f :: l) = Some f.
Proof.
  intros gtb f l H. cbn [max_first]. f_equal. induction l as [|h l IH]; [reflexivity|]. cbn [max_from]. rewrite (H h (or_introl eq_refl)). apply IH. intros h' I. apply H. right; exact I.
Qed.
Lemma filter_first : forall (P : parse -> bool) l g r, filter P l = g :: r -> exists a b, l = a ++ g :: b /\ P g = true /\ forall h, In h a -> P h = false.
Proof.
  intros P l. induction l as [|h l IH]; intros g r H; [discriminate H|]. cbn [filter] in H. destruct (P h) eqn:E.
  - injection H as -> H. exists [], l. split; [reflexivity|]. split; [exact E|intros x []].
  - destruct (IH g r H) as (a & b & -> & Pg & N). exists (h :: a), b. split; [reflexivity|]. split; [exact Pg|]. intros x [<-|I]; auto.
Qed.
Lemma reach : forall M p lex f, get_lexeme M p = Ok lex -> In f lex -> outermost lex f ->
  (forall x, In x (t_gr (p_tag f)) -> In x (tc_known (m_tc M))) ->
  exists g, inflect M p (t_gr (p_tag f)) = Ok (Some g) /\ first_alike lex f g.
Proof.
  intros M p lex f L I O K. destruct (inflect_shape M p (t_gr (p_tag f)) lex L) as (used & U & E).
  assert (used = t_gr (p_tag f)). { destruct U as [[-> _]|[_ U2]]; auto. destruct (U2 f I). intros g Hg. exact Hg. }
  subst used. destruct (updated_ok (m_tc M) (p_tag p) (t_gr (p_tag f)) K) as (want & W). rewrite W in E. cbn [bind] in E.
  destruct (filter (has_all (t_gr (p_tag f))) lex) as [|g r] eqn:F.
  { assert (X : In f (filter (has_all (t_gr (p_tag f))) lex)) by (apply filter_In; split; [exact I|apply has_all_has; intros x Hx; exact Hx]). rewrite F in X. destruct X. }
  assert (AL : forall h, In h (g :: r) -> alike_forms f h).
  { intros h Hh. rewrite <- F in Hh. apply filter_In in Hh as [H1 H2]. apply has_all_has in H2. apply O; [exact H1|exact H2]. }
  exists g. split.
  - rewrite E. f_equal. apply max_first_flat. intros h Hh. rewrite gt_zclose. apply Z.ltb_ge.
    rewrite <- (zclose_alike want f h (AL h (or_intror Hh))), <- (zclose_alike want f g (AL g (or_introl eq_refl))). lia.
  - apply filter_first in F as (a & b & -> & Pg & N). exists a, b. split; [reflexivity|]. split; [apply AL; left; reflexivity|].
    intros h Ih A. specialize (N h Ih). assert (X : has_all (t_gr (p_tag f)) h = true) by (apply has_all_has; intros x Hx; apply A; exact Hx). congruence.
Qed.
Lemma first_alike_unique : forall lex f f' g g', alike_forms f f' -> first_alike lex f g -> first_alike lex f' g' -> g = g'.
Proof.
  intros lex f f' g g' A (a & b & -> & G & N) (a' & b' & E & G' & N'). revert a' E N'. induction a as [|h a IH]; intros [|h' a'] E N'; cbn [app] in E; injection E as E1 E2.
  - exact E1.
  - subst h'. destruct (N' g (or_introl eq_refl)). apply (alike_trans _ f); [apply alike_sym; exact A|exact G].
  - subst g'. destruct (N h (or_introl eq_refl)). apply (alike_trans _ f'); [exact A|exact G'].
  - apply (IH (fun x I => N x (or_intror I)) a' E2). intros x I. apply N'. right; exact I.
Qed.
(** there and back again *)
Lemma round_trip : forall n M word ps p f lex, shipped_units M -> wf_dict (m_dict M) -> consistent_dict (m_dict M) -> In (u "masc") (tc_known (m_tc M)) ->
  parse_f n M word = Ok ps -> In p ps -> simple_stack (m_dict M) (p_stack p) -> get_lexeme M p = Ok lex -> In f lex ->
  outermost lex f -> outermost lex p -> (forall h x, In h lex -> In x (t_gr (p_tag h)) -> In x (tc_known (m_tc M))) ->
  exists g q, inflect M p (t_gr (p_tag f)) = Ok (Some g) /\ first_alike lex f g /\
    inflect M g (t_gr (p_tag p)) = Ok (Some q) /\ first_alike lex p q /\
    (forall h, In h lex -> inflect M h (t_gr (p_tag f)) = Ok (Some g)).
Proof.
  intros n M word ps p f lex SU WF CD MC H I SS L IF OF OP K.
  destruct (shipped_lex n M word ps p SU WF CD MC H I SS) as (lex' & q0 & f0 & L' & _ & (pm & Ipm & Rpm) & CL & _). rewrite L in L'. injection L' as <-.
  destruct (reach M p lex f L IF OF (fun x => K f x IF)) as (g & Eg & Fg).
  assert (Ig : In g lex) by (destruct Fg as (a & b & -> & _); apply in_or_app; right; left; reflexivity).
  assert (TG : p_tag pm = p_tag p) by (unfold reading in Rpm; injection Rpm as _ T _ _; exact T).
  assert (OP' : outermost lex pm) by (unfold outermost, alike_forms in *; rewrite TG; exact OP).
  destruct (reach M g lex pm (proj2 (CL g Ig)) Ipm OP' (fun x => K pm x Ipm)) as (q & Eq & Fq). rewrite TG in Eq.
  exists g, q. split; [exact Eg|]. split; [exact Fg|]. split; [exact Eq|]. split.
  - unfold first_alike, alike_forms in *. rewrite TG in Fq. exact Fq.
  - intros h Ih. destruct (reach M h lex f (proj2 (CL h Ih)) IF OF (fun x => K f x IF)) as (g' & Eg' & Fg'). rewrite Eg'. do 2 f_equal. symmetry. apply (first_alike_unique lex f f g g'); [intro x; tauto|exact Fg|exact Fg'].
Qed.
