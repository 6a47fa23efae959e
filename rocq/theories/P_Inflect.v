(** * Inflection (C14 C15 C16 C17 C18) *)
From Coq Require Import String List NArith ZArith Bool QArith.
From Verif Require Import Py Uni Tagset Dawg Utils Shapes Dict Units Analyzer ConfigRu ConfigUk Compile Spec Spec2 Spec12 Ex.
From Verif Require Import L_Base L_Ex L_ExU L_Parse L_ExL L_Inflect L_Count L_Round.
Import ListNotations.
Local Open Scope nat_scope.
Local Open Scope list_scope.

(** The theorems hold for every parse object, in particular for every parse returned by parse(). *)

(** ** C14 *)
Theorem C14_inflect_sound : forall M p req f, inflect M p req = Ok (Some f) ->
  exists lex, get_lexeme M p = Ok lex /\ In f lex /\
    (has req f \/ ((forall h, In h lex -> ~ has req h) /\ exists req', commoned req req' /\ has req' f)).
Proof. exact inflect_sound. Qed.
Print Assumptions C14_inflect_sound.

Definition inflects_to (w req res : string) : bool :=
  firstb (fun p => match inflect demo p (split_on (chr ",") (u req)) with
                   | Ok (Some f) => str_eqb (p_word f) (u res)
                   | Ok None => str_eqb (u res) []
                   | Err _ => false end) (morph_parse demo (u w)).
Example C14_case : inflects_to "кота" "plur,gent" "котов" = true /\
  inflects_to "суперкота" "plur,datv" "суперкотам" = true /\
  inflects_to "кота" "gen2" "кота" = true.     (* the second genitive falls back to the genitive *)
Proof. split; [|split]; vm_compute; reflexivity. Qed.

(** ** C15 *)
(** [used]: the requirement in effect; [want]: what the result should look like *)
Theorem C15_closest : forall M p req lex r, get_lexeme M p = Ok lex -> inflect M p req = Ok r ->
  exists used want, used_requirement lex req used /\ target (m_tc M) p used want /\
    match r with
    | None => forall f, In f lex -> ~ has used f
    | Some f => first_closest want (filter (hasb used) lex) f
    end.
Proof. exact inflect_closest. Qed.
Print Assumptions C15_closest.

Theorem C15_none : forall M p req lex, get_lexeme M p = Ok lex -> inflect M p req = Ok None ->
  forall f, In f lex -> ~ has req f /\ exists used, commoned req used /\ ~ has used f.
Proof. exact inflect_none. Qed.
Print Assumptions C15_none.

Theorem C15_none_complete : forall M p req lex, get_lexeme M p = Ok lex -> tc_known (m_tc M) <> [] ->
  (forall used, commoned req used -> forall g, In g used -> In g (tc_known (m_tc M))) ->
  (forall f, In f lex -> ~ has req f) -> (forall used, commoned req used -> forall f, In f lex -> ~ has used f) ->
  inflect M p req = Ok None.
Proof. exact inflect_none_complete. Qed.
Print Assumptions C15_none_complete.

(** the numbers in [closeness] exist and are determined *)
Theorem C15_closeness_defined : forall want f, exists z, closeness want f z /\ forall z', closeness want f z' -> z' = z.
Proof. intros want f. exists (zclose want f). split; [apply zclose_closeness|]. intros z' H. exact (closeness_unique _ _ _ _ H (zclose_closeness want f)). Qed.
Print Assumptions C15_closeness_defined.

Example C15_case : inflects_to "коты" "femn" "" = true /\ inflects_to "ёлки" "gent" "ёлки" = true /\
  inflects_to "коту" "plur" "котам" = true.     (* the plural closest to the dative is the dative *)
Proof. split; [|split]; vm_compute; reflexivity. Qed.

(** the computation is done with floating point numbers: the same form is chosen when every similarity is
    computed with an error below 1/20 *)
Theorem C15_rounding : forall M p req lex f, get_lexeme M p = Ok lex -> inflect M p req = Ok (Some f) ->
  exists used want, used_requirement lex req used /\ target (m_tc M) p used want /\
    exists i, nth_error (filter (hasb used) lex) i = Some f /\
      forall fl, nearly fl want (filter (hasb used) lex) -> similar_sizes (filter (hasb used) lex) ->
        forall i', first_computed fl want (filter (hasb used) lex) i' <-> i' = i.
Proof. exact inflect_rounding. Qed.
Print Assumptions C15_rounding.
(** the hypotheses hold, for the double nearest to 0.1, for tags of at most 11 grammemes - as are those of the demo dictionary *)
Example C15_rounding_case : forall want req, length want <= 100 ->
  firstb (fun p => match get_lexeme demo p with Ok lex => forallb (fun f => smallb (t_gr (p_tag f))) lex && Nat.leb 5 (length lex) | Err _ => false end) (morph_parse demo (u "коту")) = true /\
  forall lex, forallb (fun f => smallb (t_gr (p_tag f))) lex = true ->
    nearly with_double want (filter (hasb req) lex) /\ similar_sizes (filter (hasb req) lex).
Proof.
  intros want req W. split; [vm_compute; reflexivity|]. intros lex H.
  assert (H' : forallb (fun f => smallb (t_gr (p_tag f))) (filter (hasb req) lex) = true).
  { apply forallb_forall. intros f F. apply filter_In in F as [F _]. rewrite forallb_forall in H. auto. }
  split; [apply small_nearly; auto; apply Nat.leb_le; auto|apply small_sizes; auto].
Qed.

(** ** C16 *)
Theorem C16_keeps : forall M p req lex, get_lexeme M p = Ok lex ->
  (forall g, In g req -> In g (tc_known (m_tc M))) ->
  (exists f0, In f0 lex /\ forall x, In x (t_gr (p_tag f0)) <-> In x (t_gr (p_tag p))) ->
  has req p ->
  (forall g x, In g req -> In x (t_gr (p_tag p)) -> In x (incompat_of (m_tc M) g) -> forall h, In h lex -> has req h -> In x (t_gr (p_tag h))) ->
  exists f, inflect M p req = Ok (Some f) /\ In f lex /\ forall x, In x (t_gr (p_tag f)) <-> In x (t_gr (p_tag p)).
Proof. exact inflect_keeps. Qed.
Print Assumptions C16_keeps.

(** "plur" excludes the genders, but all plural forms of a noun have its gender *)
Definition keepsb (w req : string) : bool :=
  firstb (fun p => match get_lexeme demo p with
                   | Ok lex => existsb (fun f => seq_set (t_gr (p_tag f)) (t_gr (p_tag p))) lex &&
     forallb (fun g => smem g (tc_known (m_tc demo)) && smem g (t_gr (p_tag p)) &&
                       forallb (fun x => negb (smem x (incompat_of (m_tc demo) g)) || forallb (fun h => negb (forallb (fun g => smem g (t_gr (p_tag h))) (split_on (chr ",") (u req))) || smem x (t_gr (p_tag h))) lex) (t_gr (p_tag p))) (split_on (chr ",") (u req))
                   | Err _ => false end) (morph_parse demo (u w)).
Example C16_case : keepsb "коту" "sing,datv" = true /\ inflects_to "коту" "sing,datv" "коту" = true /\ keepsb "котам" "plur" = true /\ inflects_to "котам" "plur" "котам" = true /\
  firstb (fun p => smem (u "masc") (t_gr (p_tag p)) && smem (u "masc") (incompat_of (m_tc demo) (u "plur"))) (morph_parse demo (u "котам")) = true.
Proof. repeat split; vm_compute; reflexivity. Qed.

(** ** C17 *)
Theorem C17_unknown : forall M p req lex, get_lexeme M p = Ok lex -> tc_known (m_tc M) <> [] ->
  exists used, used_requirement lex req used /\
    ((forall g, In g used -> In g (tc_known (m_tc M))) <-> exists r, inflect M p req = Ok r) /\
    (~ (forall g, In g used -> In g (tc_known (m_tc M))) <-> inflect M p req = Err ValueError).
Proof. exact inflect_known. Qed.
Print Assumptions C17_unknown.

Example C17_case : firstb (fun p => match inflect demo p [u "plural"] with Err ValueError => true | _ => false end) (morph_parse demo (u "кота")) = true /\
  inflects_to "кота" "plur" "котов" = true.
Proof. split; vm_compute; reflexivity. Qed.

(** ** C18 *)
(** [attr pick PARTS_OF_SPEECH t] is tag.POS, [attr pick CASES t] tag.case, [attr pick GENDERS t] tag.gender,
    whatever element Python takes from a set *)
Theorem C18_noun : forall pick t n, attr pick PARTS_OF_SPEECH t = Some (u "NOUN") ->
  attr pick CASES t = Some (u "nomn") \/ attr pick CASES t = Some (u "accs") ->
  (like_1 n -> attr pick CASES t = Some (u "nomn") -> numeral_agreement pick t n = [Some (u "sing"); Some (u "nomn")]) /\
  (like_1 n -> attr pick CASES t = Some (u "accs") -> numeral_agreement pick t n = [Some (u "sing"); Some (u "accs")]) /\
  (like_2 n -> numeral_agreement pick t n = [Some (u "sing"); Some (u "gent")]) /\
  (like_5 n -> numeral_agreement pick t n = [Some (u "plur"); Some (u "gent")]).
Proof. exact agree_noun_direct. Qed.
Print Assumptions C18_noun.

Theorem C18_noun_oblique : forall pick t n, attr pick PARTS_OF_SPEECH t = Some (u "NOUN") ->
  attr pick CASES t <> Some (u "nomn") -> attr pick CASES t <> Some (u "accs") ->
  (like_1 n -> numeral_agreement pick t n = [Some (u "sing"); attr pick CASES t]) /\
  (~ like_1 n -> numeral_agreement pick t n = [Some (u "plur"); attr pick CASES t]).
Proof. exact agree_noun_oblique. Qed.
Print Assumptions C18_noun_oblique.

Theorem C18_adjective : forall pick t n pos, pos = u "ADJF" \/ pos = u "PRTF" -> attr pick PARTS_OF_SPEECH t = Some pos ->
  (like_1 n -> attr pick CASES t = Some (u "nomn") -> numeral_agreement pick t n = [Some (u "sing"); Some (u "nomn")]) /\
  (like_1 n -> attr pick CASES t <> Some (u "nomn") -> numeral_agreement pick t n = [Some (u "sing"); Some (u "accs")]) /\
  (like_2 n -> attr pick GENDERS t = Some (u "femn") -> numeral_agreement pick t n = [Some (u "plur"); Some (u "nomn")]) /\
  (like_2 n -> attr pick GENDERS t <> Some (u "femn") -> numeral_agreement pick t n = [Some (u "plur"); Some (u "gent")]) /\
  (like_5 n -> numeral_agreement pick t n = [Some (u "plur"); Some (u "gent")]).
Proof. exact agree_adj. Qed.
Print Assumptions C18_adjective.

Theorem C18_other : forall pick t n, attr pick PARTS_OF_SPEECH t <> Some (u "NOUN") -> attr pick PARTS_OF_SPEECH t <> Some (u "ADJF") ->
  attr pick PARTS_OF_SPEECH t <> Some (u "PRTF") -> numeral_agreement pick t n = [].
Proof. exact agree_other. Qed.
Print Assumptions C18_other.

Theorem C18_mod_100 : forall pick t n, numeral_agreement pick t n = numeral_agreement pick t (n mod 100).
Proof. exact agree_mod. Qed.
Print Assumptions C18_mod_100.

(** every integer is of exactly one of the three kinds *)
Theorem C18_kinds : forall n, (like_1 n \/ like_2 n \/ like_5 n) /\ ~ (like_1 n /\ like_2 n) /\ ~ (like_1 n /\ like_5 n) /\ ~ (like_2 n /\ like_5 n).
Proof. exact like_kinds. Qed.
Print Assumptions C18_kinds.

(** the form returned has these grammemes *)
Theorem C18_make_agree : forall pick M p n f, make_agree_with_number pick M p n = Ok (Some f) ->
  exists lex req, get_lexeme M p = Ok lex /\ In f lex /\ numeral_agreement pick (p_tag p) n = map Some req /\
    (has req f \/ ((forall h, In h lex -> ~ has req h) /\ exists req', commoned req req' /\ has req' f)).
Proof. exact agree_sound. Qed.
Print Assumptions C18_make_agree.

Definition pick1 (s : sset) : option str := match s with x :: _ => Some x | [] => None end.
Definition agrees (w : string) (n : Z) (res : string) : bool :=
  firstb (fun p => match make_agree_with_number pick1 demo p n with Ok (Some f) => str_eqb (p_word f) (u res) | _ => false end) (morph_parse demo (u w)).
Example C18_case : agrees "кот" 1 "кот" = true /\ agrees "кот" 2 "кота" = true /\ agrees "кот" 5 "котов" = true /\ agrees "кот" 111 "котов" = true /\
  agrees "кот" (-9) "кот" = true /\ agrees "коту" 12 "котам" = true /\ agrees "кот" 1000000000000000000000003 "кота" = true.
Proof. repeat split; vm_compute; reflexivity. Qed.

(** a NOUN without case makes make_agree_with_number raise ValueError *)
Theorem C18_no_case_raises : forall pick M p n lex, attr pick PARTS_OF_SPEECH (p_tag p) = Some (u "NOUN") -> attr pick CASES (p_tag p) = None ->
  get_lexeme M p = Ok lex -> tc_known (m_tc M) <> [] -> make_agree_with_number pick M p n = Err ValueError.
Proof. exact agree_no_case. Qed.
Print Assumptions C18_no_case_raises.
Example C18_no_case_case : match morph_parse zero_demo (u "тем") with
  | Ok ps => existsb (fun p => match attr pick1 PARTS_OF_SPEECH (p_tag p), attr pick1 CASES (p_tag p), make_agree_with_number pick1 zero_demo p 5 with
                               | Some pos, None, Err ValueError => str_eqb pos (u "NOUN") | _, _, _ => false end) ps
  | Err _ => false end = true.
Proof. vm_compute. reflexivity. Qed.
