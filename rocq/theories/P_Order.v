(** * C80: the order of dictionary records *)
From Coq Require Import String List NArith ZArith Bool QArith Lia Sorted.
From Verif Require Import Py Uni Tagset Dawg Utils Dict Shapes Units Analyzer ConfigRu ConfigUk Compile Spec Spec3 Spec30 Ex.
From Verif Require Import L_Base L_Order L_Order2 L_Ex L_ExU L_ExSoap.
Import ListNotations.
Local Open Scope nat_scope.
Local Open Scope list_scope.

(** the words of a compiled dictionary come in the order of code points, the records (paradigm, form) of one word in the
    order of their texts; the same for the prediction endings and their records (count, paradigm, form) *)
Theorem C80_records : forall o lx links x, compile_parsed_dict o lx links = Ok x ->
  (StronglySorted text_before (map fst (x_words x)) /\
   forall w vals, In (w, vals) (x_words x) -> vals <> [] /\ StronglySorted record_before vals) /\
  (forall d, In d (x_pred x) -> StronglySorted text_before (map fst d) /\
   forall e vals, In (e, vals) d -> vals <> [] /\ StronglySorted record3_before vals).
Proof. exact compile_parsed_sorted. Qed.
Print Assumptions C80_records.

(** so nothing of the order of the source is left: the same records make the same dictionary *)
Theorem C80_canonical : forall o lx links x o' lx' links' y,
  compile_parsed_dict o lx links = Ok x -> compile_parsed_dict o' lx' links' = Ok y ->
  ((forall w v, recorded (x_words x) w v <-> recorded (x_words y) w v) -> x_words x = x_words y) /\
  (forall k d e, nth_error (x_pred x) k = Some d -> nth_error (x_pred y) k = Some e ->
     (forall w v, recorded d w v <-> recorded e w v) -> d = e).
Proof. exact compiled_unique. Qed.
Print Assumptions C80_canonical.

(** iter_known_word_parses lists words in the order of code points, the readings of one word in the order of records *)
Theorem C80_known_words : forall o lx links x M prefix ps, compile_parsed_dict o lx links = Ok x -> loaded x (m_dict M) ->
  iter_known_word_parses M prefix = Ok ps -> StronglySorted by_word_and_record ps.
Proof. exact compiled_iter. Qed.
Print Assumptions C80_known_words.

(** parse() of a dictionary word, without a P(t|w) table: the readings of one spelling in the order of records *)
Theorem C80_readings : forall n o lx links x M word ps,
  compile_parsed_dict o lx links = Ok x -> loaded x (m_dict M) -> m_prob M = None -> subst_proper (m_subst M) ->
  (has_units M RU_DEFAULT_UNITS /\ ~ In word RU_INITIAL_LETTERS) \/
  (has_units M UK_DEFAULT_UNITS /\ ~ In word UK_INITIAL_LETTERS /\ is_roman_number word = false /\ is_latin (m_uni M) word = Ok false) ->
  in_dictionary M (u_lower (m_uni M) word) -> parse_f n M word = Ok ps ->
  StronglySorted (fun p q => p_word p = p_word q -> by_record p q) ps.
Proof. exact compiled_readings. Qed.
Print Assumptions C80_readings.

(** Where that order is the order of numbers: the forms of one paradigm below number 208, and the paradigms 0 to 12. *)
Theorem C80_forms : forall p i j, i < j -> j < 208 -> record_before (p, i) (p, j).
Proof. exact forms_order. Qed.
Print Assumptions C80_forms.
Theorem C80_paradigms : forall p q i j, p < q -> q < 13 -> (N.of_nat i < 65536)%N -> (N.of_nat j < 65536)%N -> record_before (p, i) (q, j).
Proof. exact numeric_order. Qed.
Print Assumptions C80_paradigms.
(** Elsewhere it is not: of sixteen consecutive paradigms (starting at a multiple of 16) the last three come first. *)
Theorem C80_last_three_first : forall p q i j, p / 16 = q / 16 -> p mod 16 < 13 -> 13 <= q mod 16 ->
  (N.of_nat i < 65536)%N -> (N.of_nat j < 65536)%N -> record_before (q, j) (p, i).
Proof. exact paradigm_order. Qed.
Print Assumptions C80_last_three_first.

(** Fourteen lexemes, the first is soap ("мыло", a noun), the last is wash ("мыло", a form of a verb). *)
Definition filler (c : string) : list (str * str) := [form "ад" "NOUN,inan,neut sing,nomn"; (u "ад" ++ u c, u "NOUN,inan,neut sing,ablt")].
Definition src_14 : lexemes :=
  combine (map N.of_nat (seq 1 14)) ([soap] ++ map filler ["б"; "в"; "г"; "е"; "ж"; "з"; "и"; "к"; "л"; "н"; "о"; "р"]%string ++ [wash]).
Lemma c_14 : compile_parsed_dict opt_1 src_14 [] = Ok (built opt_1 src_14). Proof. apply compiled_of. vm_compute. reflexivity. Qed.
Lemma l_14 : loaded (built opt_1 src_14) (m_dict (built_morph opt_1 src_14)). Proof. repeat split; vm_compute; reflexivity. Qed.
Lemma u_14 : has_units (built_morph opt_1 src_14) RU_DEFAULT_UNITS. Proof. apply built_units. vm_compute. reflexivity. Qed.
Lemma n_14 : exists ps, morph_parse (built_morph opt_1 src_14) (u "мыло") = Ok ps /\ map p_nf ps = [u "мыть"; u "мыло"]. Proof. apply nfs_ok. vm_compute. reflexivity. Qed.

(** dawg.py:24-27 says that the byte order makes word forms properly sorted. It does not: the reading of paradigm 13 comes
    before the reading of paradigm 0, in the records and in parse(). *)
Theorem C80_properly_sorted_refuted : ~ (forall o lx links x w vals a b c v v', compile_parsed_dict o lx links = Ok x ->
  sget w (x_words x) = Some vals -> vals = a ++ v :: b ++ v' :: c -> fst v <= fst v').
Proof.
  intros H. assert (G : sget (u "мыло") (x_words (built opt_1 src_14)) = Some [(13, 1); (0, 0)]) by (vm_compute; reflexivity).
  specialize (H opt_1 src_14 [] _ (u "мыло") _ [] [] [] (13, 1) (0, 0) c_14 G eq_refl). cbn [fst] in H. lia.
Qed.
Print Assumptions C80_properly_sorted_refuted.

Example C80_case : compile_parsed_dict opt_1 src_14 [] = Ok (built opt_1 src_14) /\ loaded (built opt_1 src_14) (m_dict (built_morph opt_1 src_14)) /\
  has_units (built_morph opt_1 src_14) RU_DEFAULT_UNITS /\
  sget (u "мыло") (x_words (built opt_1 src_14)) = Some [(13, 1); (0, 0)] /\
  (exists ps, morph_parse (built_morph opt_1 src_14) (u "мыло") = Ok ps /\ map p_nf ps = [u "мыть"; u "мыло"]) /\
  (exists ps, morph_parse (built_morph opt_1 src_a) (u "мыло") = Ok ps /\ map p_nf ps = [u "мыть"; u "мыло"]) /\
  (exists ps, morph_parse (built_morph opt_1 src_r) (u "мыло") = Ok ps /\ map p_nf ps = [u "мыло"; u "мыть"]).
Proof.
  split; [exact c_14|]. split; [exact l_14|]. split; [exact u_14|]. split; [vm_compute; reflexivity|]. split; [exact n_14|]. split; [exact n_a2|exact n_r2].
Qed.
