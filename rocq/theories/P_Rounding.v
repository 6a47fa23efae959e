(** * C72: floating point rounding does not change the analyses
    The other property files compute scores exactly.  Here every arithmetic result is rounded to 53 bits (Rounding.v). *)
From Coq Require Import String List NArith ZArith Bool QArith Qabs.
From Verif Require Import Py Uni Tagset Dawg Dict Utils Shapes Units Analyzer Json Probability Rounding Doubles Spec Spec5 Spec13 Spec22 Spec31 Ex.
From Verif Require Import L_Base L_Rounding L_Rounding3 L_Rounding4 L_Rounding5 L_Rounding6 L_Rounding7 L_Rounding8 L_Parse L_ExU L_ExR L_Dbl L_Dbl3 L_Dbl4 L_ExD.
Import ListNotations.
Local Open Scope nat_scope.
Local Open Scope list_scope.

(** [b64] rounds to nearest: the error is at most 2^-53 of the value, and rounding is monotone *)
Theorem C72_rounding : (forall x, Qabs (b64 x - x) <= (1 # 9007199254740992) * Qabs x)%Q /\
  (forall x y, 0 <= x -> x <= y -> b64 x <= b64 y)%Q /\ (forall x, 0 <= x -> b64 (b64 x) == b64 x)%Q.
Proof. exact (conj (proj2 b64_rounding) (conj b64_mono_pos b64_idem)). Qed.
Print Assumptions C72_rounding.

(** morph.parse(word) gives the same readings in the same order, or the same exception *)
Theorem C72_parse : forall M word, scores_pos M -> small_numbers M -> same_readings (parse_b64 M word) (morph_parse M word).
Proof. exact parse_b64_same. Qed.
Print Assumptions C72_parse.
(** morph.tag(word) *)
Theorem C72_tag : forall M word, scores_pos M -> small_numbers M -> tag_b64 M word = morph_tag M word.
Proof. exact tag_b64_same. Qed.
Print Assumptions C72_tag.
Example C72_case : scores_pos demo_np /\ small_numbers demo_np /\ m_prob demo_np <> None /\
  exists ps qs, parse_b64 demo_np (u "мегакота") = Ok ps /\ morph_parse demo_np (u "мегакота") = Ok qs /\ 2 <= length ps /\
  exists p q, In (p, q) (combine ps qs) /\ ~ (p_score p == p_score q)%Q.
Proof. exact (case_of demo_np _ demo_np_scores demo_np_small demo_np_table differ_case). Qed.

(** rounded scores are still between 0 and 1 *)
Theorem C72_range : forall M word ps p, scores_prob M -> table_prob M -> parse_b64 M word = Ok ps -> In p ps ->
  (0 <= p_score p <= 1)%Q /\ (b64 (p_score p) == p_score p)%Q.
Proof. exact parse_b64_range. Qed.
Print Assumptions C72_range.

(** how far a rounded score can be from the exact one, without a P(t|w) table: three roundings for each character of the word
    (every analysis of a shorter piece costs at most three) *)
Theorem C72_error : forall M word ps qs, scores_pos M -> small_numbers M -> m_prob M = None ->
  parse_b64 M word = Ok ps -> morph_parse M word = Ok qs ->
  Forall2 (fun p q => off_by (3 * S (length (u_lower (m_uni M) word))) (p_score p) (p_score q)) ps qs.
Proof. exact parse_b64_near. Qed.
Print Assumptions C72_error.
Example C72_error_case : scores_pos demo /\ small_numbers demo /\ m_prob demo = None /\
  exists ps qs, parse_b64 demo (u "не-кота-то") = Ok ps /\ morph_parse demo (u "не-кота-то") = Ok qs /\ 2 <= length ps /\
  exists p q, In (p, q) (combine ps qs) /\ ~ (p_score p == p_score q)%Q.
Proof. exact (conj demo_scores_pos (conj demo_small (conj eq_refl (differb_ok demo _ differ_plain)))). Qed.

(** with a table: scores that are normalised add up to 1, up to one rounding per reading and two more *)
Theorem C72_sum : forall M word d ps, scores_pos M -> small_numbers M -> m_prob M = Some d -> parse_b64 M word = Ok ps -> ps <> [] ->
  (forall p, In p ps -> prob d (u_lower (m_uni M) word) (t_str (p_tag p)) == 0)%Q ->
  off_by (length ps + 2) (Qsum (map p_score ps)) 1.
Proof. exact parse_b64_sum. Qed.
Print Assumptions C72_sum.
(** they need not add up to 1 exactly *)
Theorem C72_sum_refuted : exists M word d ps, scores_pos M /\ small_numbers M /\ m_prob M = Some d /\ parse_b64 M word = Ok ps /\ 2 <= length ps /\
  (forall p, In p ps -> prob d (u_lower (m_uni M) word) (t_str (p_tag p)) == 0)%Q /\ ~ (Qsum (map p_score ps) == 1)%Q.
Proof.
  destruct (short_sum_ok _ _ _ demo_np_short) as (ps & A & B & C & D).
  exact (ex_intro _ demo_np (ex_intro _ _ (ex_intro _ demo_cpd (ex_intro _ ps (conj demo_np_scores (conj demo_np_small (conj demo_np_cpd (conj A (conj B (conj C D)))))))))).
Qed.
Print Assumptions C72_sum_refuted.

(** [b64] has unbounded exponents; doubles ([dbl]) are the same numbers between 2^-1022 and 2^1023 *)
Theorem C72_normal : forall x, (x == 0 \/ (pow2 (-1022) <= x /\ x <= pow2 1023))%Q -> dbl x = b64 x.
Proof. exact dbl_b64. Qed.
Print Assumptions C72_normal.
(** words that are not extremely long: neither underflow nor overflow, so all of the above holds of doubles.
    Without a P(t|w) table (k = 0) this covers 978 characters; with one, 138 characters if no piece of the word has more than 64 readings *)
Theorem C72_double : forall M word k, wf_morph M -> scores_prob M -> scores_not_tiny M -> table_prob M -> small_numbers M ->
  few_readings M word k -> k <= 52 -> 43 + (k + 1) * (length (u_lower (m_uni M) word) + 1) <= 1022 ->
  parse_dbl M word = parse_b64 M word /\ tag_dbl M word = tag_b64 M word.
Proof. exact double_same. Qed.
Print Assumptions C72_double.
Example C72_double_case : exists M word k, shipped_units M /\ wf_morph M /\ scores_prob M /\ scores_not_tiny M /\ table_prob M /\ small_numbers M /\
  m_prob M <> None /\ few_readings M word k /\ k <= 52 /\ 43 + (k + 1) * (length (u_lower (m_uni M) word) + 1) <= 1022 /\
  exists ps p, parse_dbl M word = Ok ps /\ 2 <= length ps /\ In p ps /\ ~ (p_score p == 1)%Q.
Proof. exact double_case. Qed.
(** the shipped configurations satisfy the conditions on scores *)
Theorem C72_shipped : forall M, shipped_units M -> scores_prob M /\ scores_not_tiny M.
Proof. exact shipped_sizes. Qed.
Print Assumptions C72_shipped.
(** words of any length, without a table: underflow changes no reading and no order *)
Theorem C72_double_readings : forall M word, scores_prob M -> scores_not_tiny M -> small_numbers M -> m_prob M = None ->
  same_readings (parse_dbl M word) (morph_parse M word) /\ tag_dbl M word = morph_tag M word.
Proof. exact double_readings. Qed.
Print Assumptions C72_double_readings.
Example C72_double_readings_case : scores_prob demo /\ scores_not_tiny demo /\ small_numbers demo /\ m_prob demo = None.
Proof. exact (conj (proj1 (shipped_sizes demo demo_shipped)) (conj (proj2 (shipped_sizes demo demo_shipped)) (conj demo_small eq_refl))). Qed.
(** but a score can become 0: 1076 nested prefixes, each of which halves the score (the recursion limit must be raised for such a word) *)
Theorem C72_underflow_refuted : exists M word p ps q qs,
  lower_stable (m_uni M) /\ Forall (fun bt => prefixes_nonempty (fst bt)) (m_units M) /\ scores_prob M /\ scores_not_tiny M /\ small_numbers M /\ m_prob M = None /\
  parse_dbl M word = Ok (p :: ps) /\ morph_parse M word = Ok (q :: qs) /\ (p_score p == 0)%Q /\ (0 < p_score q)%Q.
Proof. exact underflow. Qed.
Print Assumptions C72_underflow_refuted.

(** parse.inflect(req): the same form, if the tags of the lexeme differ in size by less than 12 grammemes *)
Theorem C72_inflect : forall M form req lex, get_lexeme M form = Ok lex -> sizes_ok form req lex ->
  inflect_fl b64 M form req = inflect M form req.
Proof. exact (inflect_same b64 b64_rounding). Qed.
Print Assumptions C72_inflect.
Example C72_inflect_case : exists lex p, get_lexeme demo_np cat_form = Ok lex /\ sizes_ok cat_form [u "plur"; u "datv"] lex /\
  inflect demo_np cat_form [u "plur"; u "datv"] = Ok (Some p) /\ p_word p = u "мегакотам".
Proof. exact (inflects_ok demo_np cat_form _ _ inflects_demo). Qed.
(** without that, len(a & b) - 0.1 * len(a ^ b) can separate forms whose values are equal *)
Theorem C72_tie_refuted : exists M form req p q,
  shipped_units M /\ (exists ps, morph_parse M (u "кот") = Ok ps /\ In form ps) /\
  inflect M form req = Ok (Some p) /\ inflect_fl b64 M form req = Ok (Some q) /\ p_word p = u "кота" /\ p_word q = u "коту".
Proof. exact tie_refuted. Qed.
Print Assumptions C72_tie_refuted.

(** the P(t|w) table built from a corpus: the same words and tags; values at most one millionth away *)
Theorem C72_table : forall M c min_freq, (Z.of_nat (length c) < 2 ^ 49)%Z ->
  match probability_table_fl b64 M c min_freq, probability_table M c min_freq with
  | Ok a, Ok b => same_table a b
  | Err e, Err e' => e = e'
  | _, _ => False
  end.
Proof. exact (table_rel b64 b64_rounding). Qed.
Print Assumptions C72_table.
(** a larger estimate is never stored as a smaller value *)
Theorem C72_value_order : forall x y, (0 <= x)%Q -> (x <= y)%Q -> (cpd_value_fl b64 (b64 x) <= cpd_value_fl b64 (b64 y))%Z.
Proof. exact value_mono. Qed.
Print Assumptions C72_value_order.
(** but the stored value need not be the estimate cut down to six decimal places (C54): int(0.5125 * 1000000) is 512499 *)
Theorem C72_table_refuted : exists M c a b, probability_table_fl b64 M c 1 = Ok a /\ probability_table M c 1 = Ok b /\
  (prob b (u "тем") (u "CONJ") == 5125 # 10000)%Q /\ (prob a (u "тем") (u "CONJ") == 512499 # 1000000)%Q.
Proof. exact table_diff. Qed.
Print Assumptions C72_table_refuted.
