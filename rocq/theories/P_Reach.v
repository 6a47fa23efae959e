(** * Reaching a form of a lexeme by its grammemes (C70) *)
From Coq Require Import String List NArith ZArith Bool QArith Lia.
From Verif Require Import Py Uni Tagset Dawg Dict Units Analyzer Spec Spec20 Ex.
From Verif Require Import L_Base L_Ex L_ExU L_Parse L_ExL L_ExL L_Inflect L_Reach.
Import ListNotations.
Local Open Scope nat_scope.
Local Open Scope list_scope.

(** ** C70 *)
(** inflecting to all grammemes of a form of the lexeme gives that form, or an earlier one with the same grammemes *)
Theorem C70_reach : forall M p lex f, get_lexeme M p = Ok lex -> In f lex -> outermost lex f ->
  (forall x, In x (t_gr (p_tag f)) -> In x (tc_known (m_tc M))) ->
  exists g, inflect M p (t_gr (p_tag f)) = Ok (Some g) /\ first_alike lex f g.
Proof. exact reach. Qed.
Print Assumptions C70_reach.
(** and back again; every other form of the lexeme as a starting point gives the same *)
Theorem C70_round_trip : forall n M word ps p f lex, shipped_units M -> wf_dict (m_dict M) -> consistent_dict (m_dict M) -> In (u "masc") (tc_known (m_tc M)) ->
  parse_f n M word = Ok ps -> In p ps -> simple_stack (m_dict M) (p_stack p) -> get_lexeme M p = Ok lex -> In f lex ->
  outermost lex f -> outermost lex p -> (forall h x, In h lex -> In x (t_gr (p_tag h)) -> In x (tc_known (m_tc M))) ->
  exists g q, inflect M p (t_gr (p_tag f)) = Ok (Some g) /\ first_alike lex f g /\
    inflect M g (t_gr (p_tag p)) = Ok (Some q) /\ first_alike lex p q /\
    (forall h, In h lex -> inflect M h (t_gr (p_tag f)) = Ok (Some g)).
Proof. exact round_trip. Qed.
Print Assumptions C70_round_trip.

Definition outermostb (lex : list parse) (f : parse) : bool :=
  forallb (fun h => negb (ssub (t_gr (p_tag f)) (t_gr (p_tag h))) || ssub (t_gr (p_tag h)) (t_gr (p_tag f))) lex.
Lemma outermostb_ok : forall lex f, outermostb lex f = true -> outermost lex f.
Proof.
  intros lex f H h I S x. unfold outermostb in H. rewrite forallb_forall in H. specialize (H h I). apply orb_true_iff in H as [H|H].
  - apply negb_true_iff in H. assert (X : ssub (t_gr (p_tag f)) (t_gr (p_tag h)) = true) by (apply ssub_incl; exact S). congruence.
  - pose proof (proj1 (ssub_incl _ _) H) as H'. split; [apply S|apply H'].
Qed.
Definition knownb (M : morph) (f : parse) : bool := forallb (fun x => smem x (tc_known (m_tc M))) (t_gr (p_tag f)).
Lemma knownb_ok : forall M f, knownb M f = true -> forall x, In x (t_gr (p_tag f)) -> In x (tc_known (m_tc M)).
Proof. intros M f H x I. unfold knownb in H. rewrite forallb_forall in H. specialize (H x I). apply smem_In. exact H. Qed.
Definition caseb70 (M : morph) (w : str) (k : nat) (form : str) : bool :=
  firstb (fun p => items_okb (m_dict M) (p_stack p) && match get_lexeme M p with
     | Ok lex => forallb (knownb M) lex && (outermostb lex p && match nth_error lex k with Some f => outermostb lex f && str_eqb (p_word f) form | None => false end)
     | Err _ => false end) (morph_parse M w).
Lemma caseb70_ok : forall M w k form, caseb70 M w k form = true -> exists ps p lex f, morph_parse M w = Ok ps /\ In p ps /\ simple_stack (m_dict M) (p_stack p) /\ get_lexeme M p = Ok lex /\
  In f lex /\ outermost lex f /\ outermost lex p /\ (forall h x, In h lex -> In x (t_gr (p_tag h)) -> In x (tc_known (m_tc M))) /\ p_word f = form.
Proof.
  intros M w k form H. unfold caseb70 in H. apply firstb_ok in H as (p & ps & E & H). apply andb_true_iff in H as [H1 H].
  destruct (get_lexeme M p) as [lex|] eqn:L; [|discriminate H]. apply andb_true_iff in H as [H2 H]. apply andb_true_iff in H as [H3 H].
  destruct (nth_error lex k) as [f|] eqn:N; [|discriminate H]. apply andb_true_iff in H as [H4 H5].
  exists (p :: ps), p, lex, f. split; [exact E|]. split; [left; reflexivity|]. split; [apply items_okb_ok; exact H1|]. split; [exact L|]. split; [eapply nth_error_In; exact N|].
  split; [apply outermostb_ok; exact H4|]. split; [apply outermostb_ok; exact H3|]. split; [|apply str_eqb_eq; exact H5].
  intros h x I. rewrite forallb_forall in H2. apply knownb_ok. apply H2. exact I.
Qed.
Example C70_case : shipped_units demo /\ wf_dict (m_dict demo) /\ consistent_dict (m_dict demo) /\ In (u "masc") (tc_known (m_tc demo)) /\
  (exists ps p lex f, morph_parse demo (u "суперкоту") = Ok ps /\ In p ps /\ simple_stack (m_dict demo) (p_stack p) /\ get_lexeme demo p = Ok lex /\
    In f lex /\ outermost lex f /\ outermost lex p /\ (forall h x, In h lex -> In x (t_gr (p_tag h)) -> In x (tc_known (m_tc demo))) /\ p_word f = u "суперкотов").
Proof.
  split; [exact demo_shipped|]. split; [exact demo_wf_dict|]. split; [exact demo_consistent|]. split; [exact demo_masc|].
  apply (caseb70_ok demo (u "суперкоту") 5). vm_compute. reflexivity.
Qed.

(** without [outermost] it fails: from a form with more grammemes one cannot get to the form with fewer *)
Theorem C70_superset_refuted : exists M word ps p lex f g, shipped_units M /\ wf_dict (m_dict M) /\ consistent_dict (m_dict M) /\
  morph_parse M word = Ok ps /\ In p ps /\ simple_stack (m_dict M) (p_stack p) /\ get_lexeme M p = Ok lex /\ In f lex /\
  inflect M p (t_gr (p_tag f)) = Ok (Some g) /\ ~ alike_forms f g /\ p_word f = u "краснее" /\ p_word g = u "покраснее".
Proof.
  exists demo, (u "покраснее").
  assert (X : firstb (fun p => items_okb (m_dict demo) (p_stack p) && match get_lexeme demo p with
     | Ok lex => existsb (fun f => str_eqb (p_word f) (u "краснее") && match inflect demo p (t_gr (p_tag f)) with
         | Ok (Some g) => str_eqb (p_word g) (u "покраснее") && negb (ssub (t_gr (p_tag g)) (t_gr (p_tag f))) | _ => false end) lex
     | Err _ => false end) (morph_parse demo (u "покраснее")) = true) by (vm_compute; reflexivity).
  apply firstb_ok in X as (p & ps & E & H). apply andb_true_iff in H as [H1 H]. destruct (get_lexeme demo p) as [lex|] eqn:L; [|discriminate H].
  apply existsb_exists in H as (f & If & H). apply andb_true_iff in H as [H2 H]. destruct (inflect demo p (t_gr (p_tag f))) as [[g|]|] eqn:G; try discriminate H. apply andb_true_iff in H as [H3 H4].
  exists (p :: ps), p, lex, f, g. split; [exact demo_shipped|]. split; [exact demo_wf_dict|]. split; [exact demo_consistent|]. split; [exact E|]. split; [left; reflexivity|].
  split; [apply items_okb_ok; exact H1|]. split; [exact L|]. split; [exact If|]. split; [exact G|]. split; [|split; apply str_eqb_eq; assumption].
  intros A. apply negb_true_iff in H4. assert (Y : ssub (t_gr (p_tag g)) (t_gr (p_tag f)) = true) by (apply ssub_incl; intros x Hx; apply A; exact Hx). congruence.
Qed.
Print Assumptions C70_superset_refuted.
