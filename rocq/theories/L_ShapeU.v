(** * The shape units (C45-C47) *)
From Coq Require Import String List NArith ZArith Bool QArith Lia.
From Verif Require Import Py Uni Tagset Dawg Utils Shapes Dict Units Analyzer Spec Spec2 L_Base L_Tagset L_Config L_Made L_Run L_ByUnit L_Shapes.
Import ListNotations.
Local Open Scope nat_scope.
Local Open Scope list_scope.

Lemma bind_all_bound : forall l C C' us, bind_all C l = Ok (C', us) -> Forall (fun bt => initialised (fst bt)) us.
Proof.
  induction l as [|[c b] l IH]; intros C C' us H; simpl in H.
  - inversion H; constructor.
  - apply bind_ok in H as ([C1 x] & E1 & H). apply bind_ok in H as ([C2 y] & E2 & H).
    apply Ok_inj in H. inversion H; subst. constructor; [|eapply IH; eauto]. exists C, C1. simpl.
    rewrite (L_Config.bind_unit_cfg _ _ _ _ E1). auto.
Qed.
Lemma has_units_bound : forall M items, has_units M items -> Forall (fun bt => initialised (fst bt)) (m_units M).
Proof. intros M items (C & C' & H). apply bind_ok in H as (fl & _ & H). eapply bind_all_bound; eauto. Qed.

Lemma number_tags : forall b score, initialised b -> b_cfg b = UNumber score ->
  exists t1 t2, b_tags b = [t1; t2] /\ t_gr t1 = map u ["NUMB"; "intg"]%string /\ t_gr t2 = map u ["NUMB"; "real"]%string.
Proof.
  intros b score (C & C' & H) E. rewrite E in H. cbn [bind_unit] in H. apply bind_ok in H as (t1 & H1 & H). apply bind_ok in H as (t2 & H2 & H).
  apply Ok_inj in H. apply (f_equal snd) in H. cbn [snd] in H. subst b. exists t1, t2. split; [reflexivity|].
  apply mk_tag_ok in H1 as (_ & H1 & _). apply mk_tag_ok in H2 as (_ & H2 & _). rewrite H1, H2. split; reflexivity.
Qed.
Lemma single_tags : forall C C' b c lat cyr,
  (let* r := init_single C lat cyr in Ok (fst r, {| b_cfg := c; b_tags := [snd r]; b_masc := []; b_femn := [] |})) = Ok (C', b) ->
  exists t, b_tags b = [t] /\ t_gr t = split_tag (u lat).
Proof.
  intros C C' b c lat cyr H. apply bind_ok in H as (r & H1 & H). apply Ok_inj in H. inversion H; subst. simpl.
  unfold init_single in H1. apply bind_ok in H1 as (t & H1 & H2). apply Ok_inj in H2. subst r. simpl. exists t. split; auto.
  apply mk_tag_ok in H1. tauto.
Qed.
Lemma number_unit : forall U self b score word lower ps, digits_ok U -> initialised b -> b_cfg b = UNumber score ->
  shape_parse U self b score word lower = Ok ps ->
  (int_literal U word -> shape_reading self score word lower ["NUMB"; "intg"]%string ps) /\
  (~ int_literal U word -> float_literal U (replace_char (chr ",") (chr ".") word) -> shape_reading self score word lower ["NUMB"; "real"]%string ps) /\
  (~ int_literal U word -> ~ float_literal U (replace_char (chr ",") (chr ".") word) -> ps = []).
Proof.
  intros U self b score word lower ps D I C H. destruct (number_tags _ _ I C) as (t1 & t2 & T & T1 & T2).
  destruct (number_iff U word D) as [N1 N2]. unfold shape_parse, shape_tag in H. rewrite C, T in H.
  split; [|split].
  - intros L. rewrite (proj2 N1 L) in H. apply Ok_inj in H. subst ps. exists t1. auto.
  - intros L F. rewrite (proj2 N2 (conj L F)) in H. apply Ok_inj in H. subst ps. exists t2. auto.
  - intros L F. destruct (number_shape U word) as [[]|]; [exfalso; apply L, N1; auto|exfalso; apply F, N2; auto|]. apply Ok_inj in H. auto.
Qed.
Lemma roman_unit : forall U self b score word lower ps, initialised b -> b_cfg b = URoman score ->
  shape_parse U self b score word lower = Ok ps ->
  (is_roman_number word = true -> shape_reading self score word lower ["ROMN"]%string ps) /\ (is_roman_number word = false -> ps = []).
Proof.
  intros U self b score word lower ps (B & B' & I) C H. rewrite C in I. apply single_tags in I as (t & T & T1).
  unfold shape_parse, shape_tag in H. rewrite C, T in H. split; intros E; rewrite E in H; apply Ok_inj in H; subst; auto. exists t. auto.
Qed.
Lemma latin_unit : forall U self b score word lower ps, initialised b -> b_cfg b = ULatin score ->
  shape_parse U self b score word lower = Ok ps ->
  (is_latin U word = Ok true /\ shape_reading self score word lower ["LATN"]%string ps) \/ (is_latin U word = Ok false /\ ps = []).
Proof.
  intros U self b score word lower ps (B & B' & I) C H. rewrite C in I. apply single_tags in I as (t & T & T1).
  unfold shape_parse, shape_tag in H. rewrite C, T in H. destruct (is_latin U word) as [[]|]; [| |discriminate]; apply Ok_inj in H; subst; [left|right]; auto.
  split; auto. exists t. auto.
Qed.
Lemma punct_unit : forall U self b score word lower ps, initialised b -> b_cfg b = UPunct score ->
  shape_parse U self b score word lower = Ok ps ->
  (is_punctuation U word = true -> shape_reading self score word lower ["PNCT"]%string ps) /\ (is_punctuation U word = false -> ps = []).
Proof.
  intros U self b score word lower ps (B & B' & I) C H. rewrite C in I. apply single_tags in I as (t & T & T1).
  unfold shape_parse, shape_tag in H. rewrite C, T in H. split; intros E; rewrite E in H; apply Ok_inj in H; subst; auto. exists t. auto.
Qed.

(** ** Latin and punctuation *)
Lemma all_latin_iff : forall U s, (all_latin U s = Ok true <-> forall c, In c s -> u_alpha U c = true -> u_latin U c = Some true).
Proof.
  intros U s. induction s as [|c s IH]; simpl; [split; auto; intros _ x []|]. destruct (u_alpha U c) eqn:A.
  - unfold is_latin_char. destruct (u_latin U c) as [[]|] eqn:L; simpl.
    + rewrite IH. split; [intros H x [<-|Hx]; auto|intros H x Hx; apply H; auto].
    + split; [discriminate|]. intros H. specialize (H c (or_introl eq_refl) A). congruence.
    + split; [discriminate|]. intros H. specialize (H c (or_introl eq_refl) A). congruence.
  - rewrite IH. split; [intros H x [<-|Hx] Ax; [congruence|auto]|intros H x Hx; apply H; auto].
Qed.
Lemma latin_iff : forall U s, is_latin U s = Ok true <->
  (exists c, In c s /\ u_alpha U c = true) /\ (forall c, In c s -> u_alpha U c = true -> u_latin U c = Some true).
Proof.
  intros U s. unfold is_latin. destruct (existsb (u_alpha U) s) eqn:E.
  - rewrite all_latin_iff. apply existsb_exists in E. tauto.
  - split; [discriminate|]. intros [(c & Hc & A) _]. assert (existsb (u_alpha U) s = true) by (apply existsb_exists; eauto). congruence.
Qed.
(** the only failure: a letter without a name *)
Lemma latin_false : forall U s, (forall c, In c s -> u_alpha U c = true -> u_latin U c <> None) ->
  is_latin U s = Ok true \/ is_latin U s = Ok false.
Proof.
  intros U s. unfold is_latin. destruct (existsb (u_alpha U) s); auto. induction s as [|c s IH]; intros H; simpl; auto.
  destruct (u_alpha U c) eqn:A; [|apply IH; intros; apply H; auto; right; auto]. unfold is_latin_char.
  pose proof (H c (or_introl eq_refl) A). destruct (u_latin U c) as [[]|]; [|auto|congruence]. simpl. apply IH. intros; apply H; auto. right; auto.
Qed.
Lemma punct_iff : forall U s, is_punctuation U s = true <->
  (exists c, In c s /\ u_space U c = false) /\ (forall c, In c s -> u_space U c = false -> u_punct U c = true).
Proof.
  intros U s. unfold is_punctuation. destruct s as [|c s].
  - split; [discriminate|]. intros [(c & [] & _) _].
  - rewrite andb_true_iff, negb_true_iff. unfold str_isspace. set (t := c :: s). split.
    + intros [H1 H2]. rewrite forallb_forall in H2. split.
      * clear - H1. induction t as [|x t IH]; [discriminate|]. simpl in H1. destruct (u_space U x) eqn:E; [|exists x; split; [left; auto|auto]].
        destruct (IH H1) as (y & Hy & Ey). exists y. split; [right; auto|auto].
      * intros x Hx E. apply H2. apply filter_In. rewrite E. auto.
    + intros [(x & Hx & E) H]. split.
      * destruct (forallb (u_space U) t) eqn:F; auto. rewrite forallb_forall in F. rewrite (F x Hx) in E. discriminate.
      * apply forallb_forall. intros y Hy. apply filter_In in Hy as [Hy Ey]. apply H; auto. destruct (u_space U y); auto; discriminate.
Qed.
(** spaces are not letters: needed for exclusion *)
Lemma latin_not_punct : forall U s, (forall c, u_punct U c = true -> u_alpha U c = false) -> (forall c, u_space U c = true -> u_alpha U c = false) ->
  is_latin U s = Ok true -> is_punctuation U s = false.
Proof.
  intros U s P S L. apply latin_iff in L as [(c & Hc & A) _]. destruct (is_punctuation U s) eqn:E; auto. apply punct_iff in E as [_ E].
  destruct (u_space U c) eqn:Sp; [rewrite (S c Sp) in A; discriminate|]. specialize (E c Hc Sp). rewrite (P c E) in A. discriminate.
Qed.
Lemma shape_made : forall M word ps p i b tm score, lower_stable (m_uni M) -> Forall (fun bt => prefixes_nonempty (fst bt)) (m_units M) ->
  morph_parse M word = Ok ps -> In p ps -> made_by p = Some (Root i) -> nth_error (m_units M) i = Some (b, tm) ->
  (b_cfg b = UNumber score \/ b_cfg b = UPunct score \/ b_cfg b = ULatin score \/ b_cfg b = URoman score) ->
  shape_tag (m_uni M) b word = Ok (Some (p_tag p)) /\ p_word p = u_lower (m_uni M) word /\ p_nf p = u_lower (m_uni M) word.
Proof.
  intros M word ps p i b tm score St F H Hp Mb Hi C.
  destruct (parse_by_unit _ _ _ _ _ _ _ St F H Hp Mb Hi) as (p0 & Md & Ec & _). injection Ec as E1 E2 E3 E4. rewrite E1, E2, E3.
  destruct Md; try (exfalso; destruct C as [C|[C|[C|C]]]; congruence). cbn [p_word p_tag p_nf]. auto.
Qed.
Lemma shape_reads : forall M word ps p i b tm, digits_ok (m_uni M) -> initialised b ->
  lower_stable (m_uni M) -> Forall (fun bt => prefixes_nonempty (fst bt)) (m_units M) ->
  morph_parse M word = Ok ps -> In p ps -> made_by p = Some (Root i) -> nth_error (m_units M) i = Some (b, tm) ->
  (forall score, b_cfg b = UNumber score ->
    (t_gr (p_tag p) = map u ["NUMB"; "intg"]%string /\ int_literal (m_uni M) word) \/
    (t_gr (p_tag p) = map u ["NUMB"; "real"]%string /\ ~ int_literal (m_uni M) word /\
     float_literal (m_uni M) (replace_char (chr ",") (chr ".") word))) /\
  (forall score, b_cfg b = URoman score -> t_gr (p_tag p) = map u ["ROMN"]%string /\ is_roman_number word = true) /\
  (forall score, b_cfg b = ULatin score -> t_gr (p_tag p) = map u ["LATN"]%string /\ is_latin (m_uni M) word = Ok true) /\
  (forall score, b_cfg b = UPunct score -> t_gr (p_tag p) = map u ["PNCT"]%string /\ is_punctuation (m_uni M) word = true).
Proof.
  intros M word ps p i b tm D I St F H Hp Mb Hi.
  assert (X := fun score => shape_made M word ps p i b tm score St F H Hp Mb Hi).
  split; [|split; [|split]]; intros score C; destruct (X score ltac:(tauto)) as [T _]; unfold shape_tag in T; rewrite C in T.
  - destruct (number_tags _ _ I C) as (t1 & t2 & Tg & T1 & T2). rewrite Tg in T. destruct (number_iff (m_uni M) word D) as [N1 N2].
    destruct (number_shape (m_uni M) word) as [[]|]; [|  |discriminate]; injection T as <-; [left|right]; split; auto; [apply N1|apply N2]; auto.
  - destruct I as (B & B' & I). rewrite C in I. apply single_tags in I as (t & Tg & T1). rewrite Tg in T.
    destruct (is_roman_number word); [|discriminate]. injection T as <-. auto.
  - destruct I as (B & B' & I). rewrite C in I. apply single_tags in I as (t & Tg & T1). rewrite Tg in T.
    destruct (is_latin (m_uni M) word) as [[]|]; try discriminate. injection T as <-. auto.
  - destruct I as (B & B' & I). rewrite C in I. apply single_tags in I as (t & Tg & T1). rewrite Tg in T.
    destruct (is_punctuation (m_uni M) word); [|discriminate]. injection T as <-. auto.
Qed.
