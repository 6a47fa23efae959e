(** * Properties of MorphAnalyzer.parse and MorphAnalyzer.tag (C01 C02 C03 C07 C08) *)
From Coq Require Import String List NArith ZArith Bool QArith.
From Verif Require Import Py Uni Tagset Dawg Utils Shapes Dict Units Analyzer ConfigRu ConfigUk Compile Spec Ex.
From Verif Require Import L_Base L_Run L_Agree L_Made L_Words L_Config L_Ex L_Parse.
Import ListNotations.
Local Open Scope nat_scope.
Local Open Scope list_scope.

(** [parse_f n M word] / [tag_f n M word]: morph.parse(word) / morph.tag(word) when at most [n]
    nested calls are allowed (n arbitrary); [morph_parse]/[morph_tag] use the allowance that C08
    shows to be always enough. *)

(** ** C01 *)
Theorem C01_parse_nonempty : forall n M word ps,
  ends_with_unkn M -> parse_f n M word = Ok ps -> ps <> [].
Proof. exact parse_f_nonempty. Qed.
Print Assumptions C01_parse_nonempty.

Theorem C01_tag_nonempty : forall n M word ts,
  ends_with_unkn M -> tag_f n M word = Ok ts -> ts <> [].
Proof. exact tag_f_nonempty. Qed.
Print Assumptions C01_tag_nonempty.

(** both shipped unit lists end with UnknAnalyzer *)
Theorem C01_shipped : forall n M word ps ts,
  shipped_units M -> parse_f n M word = Ok ps -> tag_f n M word = Ok ts -> ps <> [] /\ ts <> [].
Proof. exact shipped_nonempty. Qed.
Print Assumptions C01_shipped.

Example C01_case : shipped_units demo /\ ends_with_unkn demo /\
  (exists p, morph_parse demo (u "ыыы") = Ok [p]) /\ (exists t, morph_tag demo (u "ыыы") = Ok [t]).
Proof.
  split; [exact demo_shipped|]. split; [exact demo_ends|]. split; eexists; vm_compute; reflexivity.
Qed.

(** ** C02 *)
Theorem C02_parse_tag_agree : forall n M word ps ts,
  pred_counts_pos (m_dict M) -> unkn_isolated true (m_units M) ->
  parse_f n M word = Ok ps -> tag_f n M word = Ok ts ->
  same_tags (map p_tag ps) ts.
Proof. exact parse_tag_agree. Qed.
Print Assumptions C02_parse_tag_agree.

Theorem C02_shipped : forall n M word ps ts,
  shipped_units M -> pred_counts_pos (m_dict M) ->
  parse_f n M word = Ok ps -> tag_f n M word = Ok ts ->
  same_tags (map p_tag ps) ts.
Proof. exact shipped_agree. Qed.
Print Assumptions C02_shipped.

Example C02_case : shipped_units demo /\ pred_counts_pos (m_dict demo) /\ unkn_isolated true (m_units demo) /\
  (exists a b, morph_parse demo (u "бокота") = Ok [a; b]) /\ (exists a b, morph_tag demo (u "бокота") = Ok [a; b]).
Proof.
  split; [exact demo_shipped|]. split; [exact demo_counts|]. split; [exact demo_isolated|].
  split; do 2 eexists; vm_compute; reflexivity.
Qed.

(** Without the condition on UnknAnalyzer the two disagree: a particle unit and UnknAnalyzer
    in one group. *)
Theorem C02_same_group_refuted : exists M word ps ts,
  pred_counts_pos (m_dict M) /\ morph_parse M word = Ok ps /\ morph_tag M word = Ok ts /\
  ~ same_tags (map p_tag ps) ts.
Proof. exact same_group_disagree. Qed.
Print Assumptions C02_same_group_refuted.

(** ** C03 *)
Theorem C03_parse_word : forall n M word ps p,
  lower_stable (m_uni M) -> parse_f n M word = Ok ps -> In p ps ->
  subst_of (m_subst M) (u_lower (m_uni M) word) (p_word p).
Proof. exact parse_word. Qed.
Print Assumptions C03_parse_word.

Theorem C03_parse_length : forall n M word ps p,
  lower_stable (m_uni M) -> parse_f n M word = Ok ps -> In p ps ->
  length (p_word p) = length (u_lower (m_uni M) word).
Proof. exact parse_length. Qed.
Print Assumptions C03_parse_length.

Example C03_case : lower_stable (m_uni demo) /\
  exists p, morph_parse demo (u "СУПЕРЕЛКА") = Ok [p] /\ p_word p = u "суперёлка".
Proof. split; [exact demo_stable|]. eexists. split; vm_compute; reflexivity. Qed.

(** ** C07 *)
Theorem C07_closed_classes_not_predicted : forall n M word ps p i b t,
  parse_f n M word = Ok ps -> In p ps ->
  made_by p = Some (Root i) -> nth_error (m_units M) i = Some (b, t) -> predicting (b_cfg b) ->
  forall g, In g (t_gr (p_tag p)) ->
    ~ In g (map u ["NUMR"; "NPRO"; "PRED"; "PREP"; "CONJ"; "PRCL"; "INTJ"; "Apro"]%string).
Proof. exact predicted_productive. Qed.
Print Assumptions C07_closed_classes_not_predicted.

(** every parse is made by one of the units *)
Theorem C07_made_by_a_unit : forall n M word ps p,
  parse_f n M word = Ok ps -> In p ps ->
  exists i b t, made_by p = Some (Root i) /\ nth_error (m_units M) i = Some (b, t).
Proof. exact parse_has_unit. Qed.
Print Assumptions C07_made_by_a_unit.

Example C07_case : exists p b t, morph_parse demo (u "суперкот") = Ok [p] /\
  made_by p = Some (Root 10) /\ nth_error (m_units demo) 10 = Some (b, t) /\ predicting (b_cfg b).
Proof.
  do 3 eexists. split; [vm_compute; reflexivity|]. split; [vm_compute; reflexivity|].
  split; [vm_compute; reflexivity|]. vm_compute; exact I.
Qed.

(** ** C08 *)
Theorem C08_depth_bounded : forall M word n,
  lower_stable (m_uni M) -> Forall (fun bt => prefixes_nonempty (fst bt)) (m_units M) ->
  S (length (u_lower (m_uni M) word)) <= n ->
  parse_f n M word <> Err RecursionError /\ tag_f n M word <> Err RecursionError /\
  parse_f n M word = morph_parse M word /\ tag_f n M word = morph_tag M word.
Proof. exact depth_bounded. Qed.
Print Assumptions C08_depth_bounded.

Theorem C08_shipped : forall M word n,
  lower_stable (m_uni M) -> shipped_units M -> S (length (u_lower (m_uni M) word)) <= n ->
  parse_f n M word <> Err RecursionError /\ tag_f n M word <> Err RecursionError /\
  parse_f n M word = morph_parse M word /\ tag_f n M word = morph_tag M word.
Proof. exact shipped_depth. Qed.
Print Assumptions C08_shipped.

Example C08_case : lower_stable (m_uni demo) /\ shipped_units demo /\
  Forall (fun bt => prefixes_nonempty (fst bt)) (m_units demo) /\
  (exists p, parse_f 9 demo (u "суперкот") = Ok [p]) /\ parse_f 1 demo (u "суперкот") = Err RecursionError.
Proof.
  split; [exact demo_stable|]. split; [exact demo_shipped|]. split; [exact demo_prefixes|].
  split; [eexists|]; vm_compute; reflexivity.
Qed.

(** with an empty known prefix (pure-Python prefix matcher) no allowance suffices *)
Theorem C08_empty_prefix_refuted : exists M word, lower_stable (m_uni M) /\
  forall n, parse_f n M word = Err RecursionError /\ tag_f n M word = Err RecursionError.
Proof. exact empty_prefix_never_returns. Qed.
Print Assumptions C08_empty_prefix_refuted.
