(** * Known prefixes (C65) *)
From Coq Require Import String List NArith ZArith Bool QArith Lia Sorting.Sorted.
From Verif Require Import Py Uni Tagset Dawg Utils Shapes Dict Units Analyzer ConfigRu ConfigUk Compile Spec Spec2 Spec15 Ex.
From Verif Require Import L_Base L_Ex L_ExU L_ExL L_Config L_Parse L_Known.
Import ListNotations.
Local Open Scope nat_scope.
Local Open Scope list_scope.

(** ** C65 *)
(** the unit returns exactly the productive readings of the remainders, prefix put back, longest prefixes first *)
Theorem C65_unit : forall M i b prefixes mult minrem word lower seen ps seen', b_cfg b = UKnownPrefix prefixes mult minrem -> ~ In [] prefixes ->
  unit_parse (morph_parse M) (morph_tag M) M i b word lower seen = Ok (ps, seen') ->
  (forall p, In p ps -> exists prefix rest qs q, In prefix prefixes /\ lower = prefix ++ rest /\ minrem <= length rest /\
     morph_parse M rest = Ok qs /\ In q qs /\ productive (p_tag q) /\ prefixed_as (Root i) mult prefix q p) /\
  (forall prefix rest, In prefix prefixes -> lower = prefix ++ rest -> minrem <= length rest ->
     exists qs, morph_parse M rest = Ok qs /\
       (seen = [] -> forall q, In q qs -> productive (p_tag q) -> exists p, In p ps /\ p_word p = prefix ++ p_word q /\ t_gr (p_tag p) = t_gr (p_tag q))) /\
  StronglySorted (fun p p' => length (last_text p') <= length (last_text p)) ps.
Proof. exact kp_unit. Qed.
Print Assumptions C65_unit.

(** the same for parse(): soundness *)
Theorem C65_parse : forall M word ps p i b tm prefixes mult minrem, lower_stable (m_uni M) ->
  Forall (fun bt => prefixes_nonempty (fst bt)) (m_units M) ->
  morph_parse M word = Ok ps -> In p ps -> made_by p = Some (Root i) -> nth_error (m_units M) i = Some (b, tm) ->
  b_cfg b = UKnownPrefix prefixes mult minrem ->
  exists prefix rest qs q p0, In prefix prefixes /\ u_lower (m_uni M) word = prefix ++ rest /\ minrem <= length rest /\
    morph_parse M rest = Ok qs /\ In q qs /\ productive (p_tag q) /\ prefixed_as (Root i) mult prefix q p0 /\ content p = content p0 /\ (m_prob M = None -> p = p0).
Proof. exact kp_sound. Qed.
Print Assumptions C65_parse.

(** the unknown-prefix unit is complete too (C32 is its soundness) *)
Theorem C65_unknown_complete : forall M i b mult word lower seen ps seen', b_cfg b = UUnknownPrefix mult ->
  unit_parse (morph_parse M) (morph_tag M) M i b word lower seen = Ok (ps, seen') ->
  forall prefix rest, lower = prefix ++ rest -> 1 <= length prefix <= 5 -> 3 <= length rest ->
    exists qs, dict_parse M (Sub i) rest = Ok qs /\
     (seen = [] -> forall q, In q qs -> productive (p_tag q) -> exists p, In p ps /\ p_word p = prefix ++ p_word q /\ t_gr (p_tag p) = t_gr (p_tag q)).
Proof. exact up_unit. Qed.
Print Assumptions C65_unknown_complete.

(** a prefix configured with a capital letter never matches, because words are lower-cased first; 75 of the
    prefixes shipped for Ukrainian are spelled so *)
Theorem C65_capital_prefixes_refuted : length (filter (existsb capital) UK_KNOWN_PREFIXES) = 75 /\
  forall U p, lower_stable U -> lowers_capitals U -> In p UK_KNOWN_PREFIXES -> existsb capital p = true ->
    forall word rest, u_lower U word <> p ++ rest.
Proof.
  split; [vm_compute; reflexivity|]. intros U p St LC _ H. apply existsb_exists in H as (c & I & K). exact (capital_dead U p c St LC I K).
Qed.
Print Assumptions C65_capital_prefixes_refuted.

Definition prefix_unitb (bt : bunit * bool) : bool := match b_cfg (fst bt) with UKnownPrefix ps _ _ => negb (smem [] ps) && smem (u "супер") ps | _ => false end.
Example C65_case : existsb prefix_unitb (m_units demo) = true /\ lower_stable uni_cyr /\ lowers_capitals uni_cyr /\
  (exists p, morph_parse demo (u "Суперкоту") = Ok [p] /\ last_text p = u "супер" /\ p_word p = u "суперкоту").
Proof.
  split; [vm_compute; reflexivity|]. split; [exact uni_cyr_stable|]. split.
  - intros c H E. assert (X : forallb (fun c => negb (str_eqb (u_lower uni_cyr [c]) [c])) (map N.of_nat (seq 65 26 ++ seq 1040 32) ++ [1028; 1030; 1031; 1168]%N) = true) by (vm_compute; reflexivity).
    rewrite forallb_forall in X. assert (I : In c (map N.of_nat (seq 65 26 ++ seq 1040 32) ++ [1028; 1030; 1031; 1168]%N)).
    { unfold capital, rng in H. rewrite !orb_true_iff, !andb_true_iff, !N.leb_le, !N.eqb_eq in H. apply in_app_iff.
      destruct H as [[[[[[A B]|[A B]]|A]|A]|A]|A]; [left|left|right; subst; cbn; tauto..]; apply in_map_iff; exists (N.to_nat c); (split; [apply N2Nat.id|]); apply in_app_iff; rewrite !in_seq; lia. }
    specialize (X c I). rewrite E in X. apply negb_true_iff in X. assert (Y : str_eqb [c] [c] = true) by (apply str_eqb_eq; reflexivity). congruence.
  - eexists. split; [vm_compute; reflexivity|]. split; vm_compute; reflexivity.
Qed.
