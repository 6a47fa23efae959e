(** * C98: a lexeme lists no form twice *)
From Coq Require Import String List NArith ZArith Bool QArith Lia.
From Verif Require Import Py Uni Tagset Dawg Utils Dict Shapes Units Analyzer ConfigRu ConfigUk Compile Spec Spec2 Spec3 Spec14 Spec15 Spec43 Spec44 Spec45 Ex.
From Verif Require Import L_Base L_Made L_Run L_Text L_Ex L_ExU L_ExSoap L_Case L_Members L_Members2 P_Twice P_Origin.
Import ListNotations.
Local Open Scope nat_scope.
Local Open Scope list_scope.

(** The lexeme of a reading of any text but an initial letter: no two forms in it have the same methods stack, whatever the units and however the reading was made. *)
Theorem C98_reading : forall M word ps p lex, lower_stable (m_uni M) -> initials_upper M -> Spec14.not_initial M word -> morph_parse M word = Ok ps -> In p ps -> get_lexeme M p = Ok lex -> NoDup (map p_stack lex).
Proof. exact parse_lexeme_once. Qed.
Print Assumptions C98_reading.
(** The same for every form (a dictionary word, a member of a lexeme, a form made by hand) in whose making no unit for initials took part. *)
Theorem C98_form : forall M p lex, without_initials M p -> get_lexeme M p = Ok lex -> NoDup (map p_stack lex).
Proof. exact lexeme_once. Qed.
Print Assumptions C98_form.
(** Readings of texts that are not initial letters are such forms. *)
Theorem C98_made : forall M word ps p, lower_stable (m_uni M) -> initials_upper M -> Spec14.not_initial M word -> morph_parse M word = Ok ps -> In p ps -> without_initials M p.
Proof. intros M word ps p LS IU NI H I. pose proof (readings_clean M LS IU _ _ _ NI H) as F. rewrite Forall_forall in F. exact (F p I). Qed.
Print Assumptions C98_made.

(** ** concrete lexemes *)
Definition lexeme_sizes (M : morph) (w : str) : list nat :=
  match morph_parse M w with Ok ps => map (fun p => match get_lexeme M p with Ok lex => length lex | Err _ => 0 end) ps | Err _ => [] end.
Definition nats_eqb (a b : list nat) : bool := list_eqb Nat.eqb a b.
Definition familyb (M : morph) (w : str * list nat) : bool := not_initialb M (fst w) && nats_eqb (lexeme_sizes M (fst w)) (snd w).
Definition families (M : morph) (w : str * list nat) : Prop := Spec14.not_initial M (fst w) /\ lexeme_sizes M (fst w) = snd w.
Lemma nats_eqb_ok : forall a b, nats_eqb a b = true -> a = b.
Proof.
  unfold nats_eqb. induction a as [|x a IH]; intros [|y b] H; try discriminate H; [reflexivity|]. cbn [list_eqb] in H. apply andb_true_iff in H as [H1 H2]. apply Nat.eqb_eq in H1. subst y. rewrite (IH b H2). reflexivity.
Qed.
Lemma familyb_ok : forall M w, familyb M w = true -> families M w.
Proof. intros M w H. unfold familyb in H. apply andb_true_iff in H as [H1 H2]. split; [exact (not_initialb_ok _ _ H1)|exact (nats_eqb_ok _ _ H2)]. Qed.
Lemma same_members : forall M w, match morph_parse M w with Ok (p :: _) => match get_lexeme M p with Ok (a :: b :: _) => p_stack a = p_stack b | _ => False end | _ => False end ->
  exists ps p lex, morph_parse M w = Ok ps /\ In p ps /\ get_lexeme M p = Ok lex /\ ~ NoDup (map p_stack lex).
Proof.
  intros M w H. destruct (morph_parse M w) as [[|p ps]|e]; try contradiction. destruct (get_lexeme M p) as [[|a [|b l]]|e] eqn:E; try contradiction. exists (p :: ps), p, (a :: b :: l).
  split; [reflexivity|]. split; [left; reflexivity|]. split; [exact E|]. cbn [map]. rewrite H. intros N. inversion N as [|x y X Y]. apply X. left. reflexivity.
Qed.
(** The forms of an initial letter (one for each case, or gender and case) share their methods stack. *)
Theorem C98_initials_refuted : exists M word ps p lex, lower_stable (m_uni M) /\ initials_upper M /\ morph_parse M word = Ok ps /\ In p ps /\ get_lexeme M p = Ok lex /\ ~ NoDup (map p_stack lex).
Proof.
  destruct (same_members bow_morph (u "А")) as (ps & p & lex & H); [vm_compute; reflexivity|]. exists bow_morph, (u "А"), ps, p, lex. split; [exact uni_cyr_stable|]. split; [exact (proj2 (proj2 (proj2 bow_shaped)))|exact H].
Qed.
Print Assumptions C98_initials_refuted.
Example C98_case : (lower_stable (m_uni bow_morph) /\ initials_upper bow_morph) /\
  Forall (families bow_morph) [(u "Лук", [2; 2]); (u "лук-лук", [2; 2; 2; 2; 2; 2]); (u "лук-то", [2; 2]); (u "ультралук", [2; 2]); (u "зюлук", [2; 2]); (u "XIV", [1; 1]); (u "12", [1]); (u "лук-ультралук-то", [2; 2])] /\
  (lower_stable (m_uni demo_np) /\ initials_upper demo_np) /\
  Forall (families demo_np) [(u "кота", [7; 7]); (u "кота-крота", [7; 7; 7; 7]); (u "кота-то", [7; 7]); (u "ёлки", [4; 4]); (u "ультракота", [7; 7])].
Proof.
  split; [exact (conj (proj1 bow_shaped) (proj2 (proj2 (proj2 bow_shaped))))|]. split; [repeat (apply Forall_cons; [apply familyb_ok; vm_compute; reflexivity|]); apply Forall_nil|]. split.
  - split; [change (m_uni demo_np) with uni_named; exact uni_named_stable|apply uppersb_ok; vm_compute; reflexivity].
  - repeat (apply Forall_cons; [apply familyb_ok; vm_compute; reflexivity|]). apply Forall_nil.
Qed.
