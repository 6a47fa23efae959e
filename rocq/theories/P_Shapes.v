(** * Roman numbers, number tokens, Latin and punctuation (C45 C46 C47) *)
From Coq Require Import String List NArith ZArith Bool QArith Lia.
From Verif Require Import Py Uni Tagset Dawg Utils Shapes Dict Units Analyzer ConfigRu ConfigUk Compile Spec Spec2
  L_Base L_Config L_Made L_Ex Ex L_Shapes L_ShapeU.
Import ListNotations.
Local Open Scope nat_scope.
Local Open Scope list_scope.

(** ** C45 *)
(** the Roman numerals of 1..4999 in any case, optionally followed by a newline; and the lone newline *)
Theorem C45_exact : forall token, is_roman_number token = true <->
  token = [10%N] \/ exists n w, 1 <= n < 5000 /\ Forall2 roman_letter (roman n) w /\ (token = w \/ token = w ++ [10%N]).
Proof. exact roman_exact. Qed.
Print Assumptions C45_exact.
(** [roman n] is a numeral of value [n] *)
Theorem C45_value : forall n, n < 5000 -> roman_value (roman n) = Z.of_nat n.
Proof. exact roman_values. Qed.
Print Assumptions C45_value.
(** the naive reading "only letters are accepted" is false *)
Theorem C45_newline_refuted : ~ (forall token, is_roman_number token = true ->
  forall c, In c token -> exists l, In l (u "IVXLCDM") /\ (c = l \/ c = (l + 32)%N)).
Proof.
  intros H. destruct (H [10%N] eq_refl 10%N (or_introl eq_refl)) as (l & I & E). simpl in I.
  repeat (destruct I as [<-|I]; [destruct E as [E|E]; discriminate E|]). destruct I.
Qed.
Print Assumptions C45_newline_refuted.
Theorem C45_unit : forall U self b score word lower ps, initialised b -> b_cfg b = URoman score ->
  shape_parse U self b score word lower = Ok ps ->
  (is_roman_number word = true -> shape_reading self score word lower ["ROMN"]%string ps) /\ (is_roman_number word = false -> ps = []).
Proof. exact roman_unit. Qed.
Print Assumptions C45_unit.
Example C45_case : roman 1994 = u "MCMXCIV" /\ is_roman_number (u "mcmxCIV") = true /\
  is_roman_number (u "XIIII") = false /\ is_roman_number (u "IC") = false /\ is_roman_number (u "MMMMM") = false.
Proof. repeat split. Qed.

(** ** C46 *)
Theorem C46_shape : forall U w, digits_ok U ->
  (number_shape U w = Some Intg <-> int_literal U w) /\
  (number_shape U w = Some Real <-> ~ int_literal U w /\ float_literal U (replace_char (chr ",") (chr ".") w)).
Proof. exact number_iff. Qed.
Print Assumptions C46_shape.
Theorem C46_unit : forall U self b score word lower ps, digits_ok U -> initialised b -> b_cfg b = UNumber score ->
  shape_parse U self b score word lower = Ok ps ->
  (int_literal U word -> shape_reading self score word lower ["NUMB"; "intg"]%string ps) /\
  (~ int_literal U word -> float_literal U (replace_char (chr ",") (chr ".") word) -> shape_reading self score word lower ["NUMB"; "real"]%string ps) /\
  (~ int_literal U word -> ~ float_literal U (replace_char (chr ",") (chr ".") word) -> ps = []).
Proof. exact number_unit. Qed.
Print Assumptions C46_unit.
(** in every analyzer, a reading given by a shape unit has its tag, and the word has its shape (C45 C46 C47) *)
Theorem C46_parse : forall M word ps p i b tm, digits_ok (m_uni M) -> initialised b ->
  lower_stable (m_uni M) -> Forall (fun bt => prefixes_nonempty (fst bt)) (m_units M) ->
  morph_parse M word = Ok ps -> In p ps -> made_by p = Some (Root i) -> nth_error (m_units M) i = Some (b, tm) ->
  (forall score, b_cfg b = UNumber score ->
    (t_gr (p_tag p) = map u ["NUMB"; "intg"]%string /\ int_literal (m_uni M) word) \/
    (t_gr (p_tag p) = map u ["NUMB"; "real"]%string /\ ~ int_literal (m_uni M) word /\
     float_literal (m_uni M) (replace_char (chr ",") (chr ".") word))) /\
  (forall score, b_cfg b = URoman score -> t_gr (p_tag p) = map u ["ROMN"]%string /\ is_roman_number word = true) /\
  (forall score, b_cfg b = ULatin score -> t_gr (p_tag p) = map u ["LATN"]%string /\ is_latin (m_uni M) word = Ok true) /\
  (forall score, b_cfg b = UPunct score -> t_gr (p_tag p) = map u ["PNCT"]%string /\ is_punctuation (m_uni M) word = true).
Proof. exact shape_reads. Qed.
Print Assumptions C46_parse.
Theorem C46_initialised : forall M items, has_units M items -> Forall (fun bt => initialised (fst bt)) (m_units M).
Proof. exact has_units_bound. Qed.
Print Assumptions C46_initialised.
Lemma uni_cyr_digits : digits_ok uni_cyr.
Proof.
  intros c Hc. unfold num_digit in Hc. unfold num_space. destruct (N.ltb_spec c 128) as [L|L].
  2: { simpl in Hc. unfold cyr_digit, rng in Hc. destruct (N.leb_spec 48 c), (N.leb_spec c 57); simpl in Hc; try discriminate Hc; lia. }
  unfold rng in *. apply andb_true_iff in Hc as [H1 H2]. apply N.leb_le in H1, H2.
  destruct (N.leb_spec 9 c), (N.leb_spec c 13), (N.eqb_spec c 32); simpl; auto; lia.
Qed.
(** a number token need not contain a digit *)
Theorem C46_digit_refuted : ~ (forall U w, digits_ok U -> number_shape U w <> None -> exists c, In c w /\ num_digit U c = true).
Proof.
  intros H. pose proof uni_cyr_digits as D.
  destruct (H uni_cyr (u "nan") D ltac:(discriminate)) as (c & I & E). simpl in I.
  repeat (destruct I as [<-|I]; [discriminate E|]). destruct I.
Qed.
Print Assumptions C46_digit_refuted.
(** An integer with more digits than int() accepts (CPython 3.11: 4300) is taken for a real number. *)
Theorem C46_long : forall U n d, digits_ok U -> u_int_limit U = Some n -> digits U d ->
  n < length (filter (fun c => negb (c =? chr "_")%N) d) -> number_shape U d = Some Real.
Proof. exact long_real. Qed.
Print Assumptions C46_long.
Definition uni_311 : uni := MkUni (u_lower uni_cyr) (u_upper uni_cyr) (u_title uni_cyr) (u_islower uni_cyr) (u_isupper uni_cyr)
  (u_istitle uni_cyr) (u_alpha uni_cyr) (u_space uni_cyr) (u_word uni_cyr) (u_punct uni_cyr) (u_latin uni_cyr) (u_digit uni_cyr) (Some (N.to_nat 4300)).
Theorem C46_digits_refuted : ~ (forall U w, digits_ok U -> digits U w -> number_shape U w = Some Intg).
Proof.
  intros H.
  assert (D : digits uni_311 (repeat (chr "7") (S (N.to_nat 4300)))) by (generalize (N.to_nat 4300); intros n; induction n as [|n IH]; [constructor; reflexivity|apply dg_more; [reflexivity|exact IH]]).
  assert (Ok : digits_ok uni_311) by exact uni_cyr_digits.
  specialize (H uni_311 _ Ok D). rewrite (long_real uni_311 (N.to_nat 4300) _ Ok eq_refl D) in H; [discriminate H|].
  assert (E : forall k, length (filter (fun c => negb (c =? chr "_")%N) (repeat (chr "7") k)) = k) by (induction k as [|k IH]; [reflexivity|cbn [repeat filter]; cbn; f_equal; exact IH]).
  rewrite E. lia.
Qed.
Print Assumptions C46_digits_refuted.
Definition tagsb (r : res (list parse)) : list str := match r with Ok l => map (fun p => t_str (p_tag p)) l | Err _ => [] end.
Example C46_case :
  tagsb (morph_parse demo (u " -1_000 ")) = [u "NUMB,intg"] /\ tagsb (morph_parse demo (u "+1_0,5e-3")) = [u "NUMB,real"] /\
  tagsb (morph_parse demo (u "1__0")) <> [u "NUMB,intg"] /\ tagsb (morph_parse demo (u "Nan")) = [u "NUMB,real"].
Proof. split; [vm_compute; reflexivity|]. split; [vm_compute; reflexivity|]. split; [vm_compute; discriminate|vm_compute; reflexivity]. Qed.

(** ** C47 *)
Theorem C47_latin : forall U s, is_latin U s = Ok true <->
  (exists c, In c s /\ u_alpha U c = true) /\ (forall c, In c s -> u_alpha U c = true -> u_latin U c = Some true).
Proof. exact latin_iff. Qed.
Print Assumptions C47_latin.
Theorem C47_latin_total : forall U s, (forall c, In c s -> u_alpha U c = true -> u_latin U c <> None) ->
  is_latin U s = Ok true \/ is_latin U s = Ok false.
Proof. exact latin_false. Qed.
Print Assumptions C47_latin_total.
Theorem C47_punctuation : forall U s, is_punctuation U s = true <->
  (exists c, In c s /\ u_space U c = false) /\ (forall c, In c s -> u_space U c = false -> u_punct U c = true).
Proof. exact punct_iff. Qed.
Print Assumptions C47_punctuation.
Theorem C47_exclusive : forall U s, (forall c, u_punct U c = true -> u_alpha U c = false) -> (forall c, u_space U c = true -> u_alpha U c = false) ->
  is_latin U s = Ok true -> is_punctuation U s = false.
Proof. exact latin_not_punct. Qed.
Print Assumptions C47_exclusive.
Theorem C47_latin_unit : forall U self b score word lower ps, initialised b -> b_cfg b = ULatin score ->
  shape_parse U self b score word lower = Ok ps ->
  (is_latin U word = Ok true /\ shape_reading self score word lower ["LATN"]%string ps) \/ (is_latin U word = Ok false /\ ps = []).
Proof. exact latin_unit. Qed.
Print Assumptions C47_latin_unit.
Theorem C47_punct_unit : forall U self b score word lower ps, initialised b -> b_cfg b = UPunct score ->
  shape_parse U self b score word lower = Ok ps ->
  (is_punctuation U word = true -> shape_reading self score word lower ["PNCT"]%string ps) /\ (is_punctuation U word = false -> ps = []).
Proof. exact punct_unit. Qed.
Print Assumptions C47_punct_unit.
Example C47_case :
  tagsb (morph_parse demo (u "pdf-2")) = [u "LATN"] /\ tagsb (morph_parse demo (u "?! ")) = [u "PNCT"] /\
  tagsb (morph_parse demo (u "pdfк")) <> [u "LATN"].
Proof. split; [vm_compute; reflexivity|]. split; [vm_compute; reflexivity|]. vm_compute; discriminate. Qed.
