(** * Counting again, counting with fractions (C81, C82) *)
From Coq Require Import String List NArith ZArith Bool QArith Lia.
From Verif Require Import Py Uni Tagset Dawg Dict Units Analyzer Spec Spec2 Spec20 Spec32 Counting Ex.
From Verif Require Import L_Base L_Ex L_Parse L_Inflect L_ExL L_Count L_ExN.
Import ListNotations.
Local Open Scope nat_scope.
Local Open Scope list_scope.

(** ** C81 *)
(** agreeing again with the same number changes nothing - for numbers like 1 or 5, and for oblique cases *)
Theorem C81_noun_again : forall pick M word p lex c n f, pick_ok pick -> simple_reading M word p lex -> lexeme_of noun_tag (m_tc M) lex -> has_case p c ->
  make_agree_with_number pick M p n = Ok (Some f) -> like_1 n \/ (like_5 n /\ direct c) \/ oblique c ->
  exists g, make_agree_with_number pick M f n = Ok (Some g) /\ In g lex /\ alike_forms f g.
Proof. exact c81_noun. Qed.
Print Assumptions C81_noun_again.
(** but a noun in the nominative or accusative counted twice with a number like 2 is always in the plural then: not "2 мамы" but "2 мам" *)
Theorem C81_noun_two_again : forall pick M word p lex c n f, pick_ok pick -> simple_reading M word p lex -> lexeme_of noun_tag (m_tc M) lex -> has_case p c ->
  make_agree_with_number pick M p n = Ok (Some f) -> like_2 n -> direct c ->
  has [u "sing"; u "gent"] f /\ forall g, make_agree_with_number pick M f n = Ok (Some g) -> In g lex /\ has [u "plur"; u "gent"] g /\ ~ alike_forms f g.
Proof. exact c81_noun_two. Qed.
Print Assumptions C81_noun_two_again.
(** counting again with any other number: the first count is forgotten if it kept the case; otherwise the noun stays in the genitive *)
Theorem C81_recount : forall pick M word p lex c n f, pick_ok pick -> simple_reading M word p lex -> lexeme_of noun_tag (m_tc M) lex -> has_case p c ->
  make_agree_with_number pick M p n = Ok (Some f) ->
  (In c (map u ["nomn"; "gent"; "datv"; "accs"; "ablt"; "loct"]%string) -> like_1 n \/ ~ direct c -> forall m, numeral_agreement pick (p_tag f) m = numeral_agreement pick (p_tag p) m) /\
  (~ like_1 n -> direct c -> forall m, (like_1 m -> numeral_agreement pick (p_tag f) m = [Some (u "sing"); Some (u "gent")]) /\
                                      (~ like_1 m -> numeral_agreement pick (p_tag f) m = [Some (u "plur"); Some (u "gent")])).
Proof. exact c81_recount. Qed.
Print Assumptions C81_recount.
Theorem C81_adjective_again : forall pick M word p lex n f, pick_ok pick -> simple_reading M word p lex -> lexeme_of adjective_tag (m_tc M) lex ->
  make_agree_with_number pick M p n = Ok (Some f) -> ~ (like_2 n /\ In (u "femn") (t_gr (p_tag p))) ->
  exists g, make_agree_with_number pick M f n = Ok (Some g) /\ In g lex /\ alike_forms f g.
Proof. exact c81_adj. Qed.
Print Assumptions C81_adjective_again.
(** a feminine adjective counted twice: not "2 красные" but "2 красных" *)
Theorem C81_adjective_two_again : forall pick M word p lex n f, pick_ok pick -> simple_reading M word p lex -> lexeme_of adjective_tag (m_tc M) lex ->
  make_agree_with_number pick M p n = Ok (Some f) -> like_2 n -> the_only GENDERS (p_tag p) (u "femn") ->
  has [u "plur"; u "nomn"] f /\ forall g, make_agree_with_number pick M f n = Ok (Some g) -> In g lex /\ has [u "plur"; u "gent"] g /\ ~ alike_forms f g.
Proof. exact c81_adj_two. Qed.
Print Assumptions C81_adjective_two_again.
(** other parts of speech are left as they are *)
Theorem C81_uncounted : forall pick M word p lex n, pick_ok pick -> simple_reading M word p lex ->
  (forall pos, In pos (map u ["NOUN"; "ADJF"; "PRTF"]%string) -> ~ In pos (t_gr (p_tag p))) ->
  exists g, make_agree_with_number pick M p n = Ok (Some g) /\ In g lex /\ alike_forms p g.
Proof. exact c81_uncounted. Qed.
Print Assumptions C81_uncounted.

Definition nouns (M : morph) (lex : list parse) : bool := forallb (fun h => coherentb (m_tc M) lex (p_tag h) && nounb (p_tag h)) lex.
Definition adjs (M : morph) (lex : list parse) : bool := forallb (fun h => coherentb (m_tc M) lex (p_tag h) && adjb (p_tag h)) lex.
Lemma kinds : like_2 2 /\ like_2 23 /\ like_5 5 /\ like_1 21.
Proof. unfold like_5, like_2, like_1. repeat split; cbn; lia. Qed.
Example C81_noun_case : pick_ok pick_first /\ exists p lex f, simple_reading count_demo (u "мама") p lex /\ lexeme_of noun_tag (m_tc count_demo) lex /\ has_case p (u "nomn") /\
  make_agree_with_number pick_first count_demo p 2 = Ok (Some f) /\ like_2 2 /\ direct (u "nomn") /\ p_word f = u "мамы" /\
  (exists g, make_agree_with_number pick_first count_demo f 2 = Ok (Some g) /\ p_word g = u "мам") /\
  (exists h, make_agree_with_number pick_first count_demo p 5 = Ok (Some h) /\ like_5 5 /\ p_word h = u "мам").
Proof.
  split; [exact pick_first_ok|].
  destruct (readsb_ok (u "мама") (fun p lex => nouns count_demo lex && onlyb CASES (p_tag p) (u "nomn") &&
    agreesb count_demo p 2 "мамы" (fun f => agreesb count_demo f 2 "мам" (fun _ => true)) && agreesb count_demo p 5 "мам" (fun _ => true))) as (p & lex & R & H); [vm_compute; reflexivity|].
  apply andb_prop in H as [H D]. apply andb_prop in H as [H C]. apply andb_prop in H as [A B].
  apply agreesb_ok in C as (f & F1 & F2 & F3). apply agreesb_ok in F3 as (g & G1 & G2 & _). apply agreesb_ok in D as (h & H1 & H2 & _).
  exists p, lex, f. split; [exact R|]. split; [exact (lexeme_ofb nounb noun_tag _ _ nounb_ok A)|]. split; [exact (onlyb_ok _ _ _ B)|]. split; [exact F1|]. split; [apply kinds|]. split; [left; reflexivity|]. split; [exact F2|].
  split; [exists g; split; [exact G1|exact G2]|exists h; split; [exact H1|split; [apply kinds|exact H2]]].
Qed.
Example C81_adjective_case : exists p lex f, simple_reading count_demo (u "красная") p lex /\ lexeme_of adjective_tag (m_tc count_demo) lex /\ the_only GENDERS (p_tag p) (u "femn") /\
  make_agree_with_number pick_first count_demo p 2 = Ok (Some f) /\ p_word f = u "красные" /\
  (exists g, make_agree_with_number pick_first count_demo f 2 = Ok (Some g) /\ p_word g = u "красных") /\
  (exists h, make_agree_with_number pick_first count_demo p 5 = Ok (Some h) /\ p_word h = u "красных").
Proof.
  destruct (readsb_ok (u "красная") (fun p lex => adjs count_demo lex && onlyb GENDERS (p_tag p) (u "femn") &&
    agreesb count_demo p 2 "красные" (fun f => agreesb count_demo f 2 "красных" (fun _ => true)) && agreesb count_demo p 5 "красных" (fun _ => true))) as (p & lex & R & H); [vm_compute; reflexivity|].
  apply andb_prop in H as [H D]. apply andb_prop in H as [H C]. apply andb_prop in H as [A B].
  apply agreesb_ok in C as (f & F1 & F2 & F3). apply agreesb_ok in F3 as (g & G1 & G2 & _). apply agreesb_ok in D as (h & H1 & H2 & _).
  exists p, lex, f. split; [exact R|]. split; [exact (lexeme_ofb adjb adjective_tag _ _ adjb_ok A)|]. split; [exact (onlyb_ok _ _ _ B)|]. split; [exact F1|]. split; [exact F2|].
  split; [exists g; split; [exact G1|exact G2]|exists h; split; [exact H1|exact H2]].
Qed.
Example C81_uncounted_case : exists p lex, simple_reading count_demo (u "краснее") p lex /\ (forall pos, In pos (map u ["NOUN"; "ADJF"; "PRTF"]%string) -> ~ In pos (t_gr (p_tag p))) /\
  exists f, make_agree_with_number pick_first count_demo p 2 = Ok (Some f) /\ p_word f = u "краснее".
Proof.
  destruct (readsb_ok (u "краснее") (fun p lex => forallb (fun pos => negb (smem pos (t_gr (p_tag p)))) (map u ["NOUN"; "ADJF"; "PRTF"]%string) && agreesb count_demo p 2 "краснее" (fun _ => true))) as (p & lex & R & H); [vm_compute; reflexivity|].
  apply andb_prop in H as [A B]. apply agreesb_ok in B as (f & F1 & F2 & _). exists p, lex. split; [exact R|]. split; [|exists f; split; [exact F1|exact F2]].
  intros pos I J. rewrite forallb_forall in A. specialize (A pos I). apply (proj2 (smem_In _ _)) in J. rewrite J in A. discriminate A.
Qed.
(** the vocative is kept by no number: five of "мам!" are "мамы", and counted again "мам" *)
Theorem C81_vocative_refuted : exists pick M word p lex f g, pick_ok pick /\ simple_reading M word p lex /\ lexeme_of noun_tag (m_tc M) lex /\ has_case p (u "voct") /\
  make_agree_with_number pick M p 5 = Ok (Some f) /\ has_case f (u "nomn") /\ make_agree_with_number pick M f 5 = Ok (Some g) /\ has_case g (u "gent").
Proof.
  destruct (readsb_ok (u "мам") (fun p lex => nouns count_demo lex && onlyb CASES (p_tag p) (u "voct") &&
    agreesb count_demo p 5 "мамы" (fun f => onlyb CASES (p_tag f) (u "nomn") && agreesb count_demo f 5 "мам" (fun g => onlyb CASES (p_tag g) (u "gent"))))) as (p & lex & R & H); [vm_compute; reflexivity|].
  apply andb_prop in H as [H C]. apply andb_prop in H as [A B]. apply agreesb_ok in C as (f & F1 & F2 & F3). apply andb_prop in F3 as [F3 G]. apply agreesb_ok in G as (g & G1 & G2 & G3).
  exists pick_first, count_demo, (u "мам"), p, lex, f, g. split; [exact pick_first_ok|]. split; [exact R|]. split; [exact (lexeme_ofb nounb noun_tag _ _ nounb_ok A)|]. split; [exact (onlyb_ok _ _ _ B)|].
  split; [exact F1|]. split; [exact (onlyb_ok _ _ _ F3)|]. split; [exact G1|exact (onlyb_ok _ _ _ G3)].
Qed.
Print Assumptions C81_vocative_refuted.

(** ** C82 *)
Theorem C82_integer : forall pick M p n, make_agree_with_number_q pick M p (inject_Z n) = make_agree_with_number pick M p n.
Proof. exact c82_integer. Qed.
Print Assumptions C82_integer.
(** a number strictly between [k] and [k + 1] asks a noun for the genitive: singular after a whole part like 2 or 3, else plural *)
Theorem C82_fraction : forall pick t c q k, pick_ok pick -> the_only PARTS_OF_SPEECH t (u "NOUN") -> the_only CASES t c -> (inject_Z k < q)%Q -> (q < inject_Z (k + 1))%Q ->
  (direct c -> (k mod 10 = 2 \/ k mod 10 = 3)%Z -> (k mod 100 <> 12 /\ k mod 100 <> 13)%Z -> numeral_agreement_q pick t q = [Some (u "sing"); Some (u "gent")]) /\
  (direct c -> ~ ((k mod 10 = 2 \/ k mod 10 = 3)%Z /\ (k mod 100 <> 12 /\ k mod 100 <> 13)%Z) -> numeral_agreement_q pick t q = [Some (u "plur"); Some (u "gent")]) /\
  (~ direct c -> numeral_agreement_q pick t q = [Some (u "plur"); Some c]).
Proof. exact c82_fraction. Qed.
Print Assumptions C82_fraction.
(** the Russian rule - the genitive singular after any fraction - is not followed: 1.5 and 4.5 "мам", 2.5 "мамы" *)
Definition agreesqb (M : morph) (p : parse) (q : Q) (w : string) : bool :=
  match make_agree_with_number_q pick_first M p q with Ok (Some f) => str_eqb (p_word f) (u w) | _ => false end.
Lemma agreesqb_ok : forall M p q w, agreesqb M p q w = true -> exists f, make_agree_with_number_q pick_first M p q = Ok (Some f) /\ p_word f = u w.
Proof. intros M p q w H. unfold agreesqb in H. destruct (make_agree_with_number_q pick_first M p q) as [[f|]|]; try discriminate H. exists f. split; [reflexivity|apply str_eqb_eq; exact H]. Qed.
Theorem C82_genitive_refuted : exists pick M word p lex f1 f2 f4, pick_ok pick /\ simple_reading M word p lex /\ lexeme_of noun_tag (m_tc M) lex /\ has_case p (u "nomn") /\
  make_agree_with_number_q pick M p (3 # 2) = Ok (Some f1) /\ p_word f1 = u "мам" /\
  make_agree_with_number_q pick M p (5 # 2) = Ok (Some f2) /\ p_word f2 = u "мамы" /\
  make_agree_with_number_q pick M p (9 # 2) = Ok (Some f4) /\ p_word f4 = u "мам".
Proof.
  destruct (readsb_ok (u "мама") (fun p lex => nouns count_demo lex && onlyb CASES (p_tag p) (u "nomn") &&
    agreesqb count_demo p (3 # 2) "мам" && agreesqb count_demo p (5 # 2) "мамы" && agreesqb count_demo p (9 # 2) "мам")) as (p & lex & R & H); [vm_compute; reflexivity|].
  apply andb_prop in H as [H E]. apply andb_prop in H as [H D]. apply andb_prop in H as [H C]. apply andb_prop in H as [A B].
  apply agreesqb_ok in C as (f1 & C1 & C2). apply agreesqb_ok in D as (f2 & D1 & D2). apply agreesqb_ok in E as (f4 & E1 & E2).
  exists pick_first, count_demo, (u "мама"), p, lex, f1, f2, f4. split; [exact pick_first_ok|]. split; [exact R|]. split; [exact (lexeme_ofb nounb noun_tag _ _ nounb_ok A)|]. split; [exact (onlyb_ok _ _ _ B)|].
  split; [exact C1|]. split; [exact C2|]. split; [exact D1|]. split; [exact D2|]. split; [exact E1|exact E2].
Qed.
Print Assumptions C82_genitive_refuted.
Example C82_case : exists t, the_only PARTS_OF_SPEECH t (u "NOUN") /\ the_only CASES t (u "nomn") /\ (inject_Z 2 < 5 # 2)%Q /\ (5 # 2 < inject_Z (2 + 1))%Q /\ direct (u "nomn") /\
  numeral_agreement_q pick_first t (5 # 2) = [Some (u "sing"); Some (u "gent")].
Proof.
  exists (MkTag (u "NOUN,anim,femn sing,nomn") (split_tag (u "NOUN,anim,femn sing,nomn"))). split; [apply onlyb_ok; vm_compute; reflexivity|]. split; [apply onlyb_ok; vm_compute; reflexivity|].
  split; [reflexivity|]. split; [reflexivity|]. split; [left; reflexivity|vm_compute; reflexivity].
Qed.
