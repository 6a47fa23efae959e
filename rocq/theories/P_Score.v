(** * Scores (C63) *)
From Coq Require Import String List NArith ZArith Bool QArith Lia Sorting.Sorted.
From Verif Require Import Py Uni Tagset Dawg Utils Shapes Dict Units Analyzer ConfigRu ConfigUk Compile Spec Spec13 Ex.
From Verif Require Import L_Base L_Ex L_Made L_Total L_Config L_Parse L_ExU L_Score.
Import ListNotations.
Local Open Scope nat_scope.
Local Open Scope list_scope.

(** ** C63 *)
(** scores are probabilities; without an estimator they are never 0 *)
Theorem C63_bounds : forall M word ps p, scores_prob M -> table_prob M -> morph_parse M word = Ok ps -> In p ps ->
  (0 <= p_score p <= 1)%Q /\ (m_prob M = None -> pred_counts_pos (m_dict M) -> 0 < p_score p)%Q.
Proof.
  intros M word ps p S T E H. split; [exact (parse01 M S T _ _ _ _ E H)|]. intros N C. exact (parse_pos M N S C _ _ _ _ E H).
Qed.
Print Assumptions C63_bounds.

Theorem C63_shipped : forall M, shipped_units M -> scores_prob M.
Proof. exact shipped01. Qed.
Print Assumptions C63_shipped.

(** sorted, if the table knows something about the word *)
Theorem C63_known_sorted : forall M d word ps p, m_prob M = Some d -> morph_parse M word = Ok ps -> In p ps ->
  ~ (prob d (u_lower (m_uni M) word) (t_str (p_tag p)) == 0)%Q ->
  sorted_by_score ps /\ forall q, In q ps -> (p_score q == prob d (u_lower (m_uni M) word) (t_str (p_tag q)))%Q.
Proof. exact known_sorted. Qed.
Print Assumptions C63_known_sorted.

(** but not in general, although the documentation says so: a hyphenated word whose first part is not in the
    dictionary; the same with an estimator *)
Theorem C63_sorted_refuted : exists M1 M2 w1 w2 ps1 ps2, shipped_units M1 /\ shipped_units M2 /\ m_prob M1 = None /\ m_prob M2 <> None /\ table_prob M2 /\
  morph_parse M1 w1 = Ok ps1 /\ morph_parse M2 w2 = Ok ps2 /\ ~ sorted_by_score ps1 /\ ~ sorted_by_score ps2.
Proof. exact unsorted. Qed.
Print Assumptions C63_sorted_refuted.

Example C63_case : shipped_units demo /\ pred_counts_pos (m_dict demo) /\ table_prob demo /\ table_prob demo_np /\
  (exists p q, morph_parse demo_np (u "кота") = Ok [p; q] /\ ~ (prob demo_cpd (u_lower (m_uni demo_np) (u "кота")) (t_str (p_tag p)) == 0)%Q) /\
  (exists ps, morph_parse demo (u "зюкот-крот") = Ok ps /\ map p_score ps = [75 # 200; 75 # 100]%Q).
Proof. exact score_case. Qed.
