(** * Concrete cases for C72: doubles *)
From Coq Require Import String List NArith ZArith Bool QArith Qround Lia.
From Verif Require Import Py Uni Tagset Dawg Dict Utils Shapes Units Analyzer ConfigRu ConfigUk Rounding Doubles Spec Spec13 Spec21 Spec22 Spec31 Ex.
From Verif Require Import L_Base L_Ex L_Config L_Score L_ExU L_Rounding L_Rounding3 L_Rounding4 L_ExR L_Dbl L_Dbl2 L_Dbl3 L_Dbl4.
Import ListNotations.
Local Open Scope nat_scope.
Local Open Scope list_scope.

Definition deep (k : nat) : str := repeated k (u "не") ++ u "кот".
Definition deep_demo : morph := MkMorph uni_cyr false (m_dict demo)
  [(MkUnit UDict [] [] [], true); (MkUnit (UKnownPrefix [u "не"] (1#2) 3) [] [] [], true)] None [] tc_initial.

(** ** the shipped configurations *)
Definition not_tinyb (c : ucfg) : bool := if nesting c then Qle_bool (1 # 2) (unit_score c) else Qle_bool (1 # 1024) (unit_score c).
Lemma not_tinyb_ok : forall M, forallb (fun bt : bunit * bool => not_tinyb (b_cfg (fst bt))) (m_units M) = true -> scores_not_tiny M.
Proof.
  intros M H. apply Forall_forall. intros bt I. rewrite forallb_forall in H. specialize (H bt I). unfold not_tinyb in H. destruct (nesting (b_cfg (fst bt))); apply Qle_bool_iff; exact H.
Qed.
Lemma shipped_not_tiny : forall M, shipped_units M -> scores_not_tiny M.
Proof.
  assert (R : forallb (fun ct : ucfg * bool => not_tinyb (fst ct)) (flat_cfg RU_DEFAULT_UNITS) = true) by (vm_compute; reflexivity).
  assert (K : forallb (fun ct : ucfg * bool => not_tinyb (fst ct)) (flat_cfg UK_DEFAULT_UNITS) = true) by (vm_compute; reflexivity).
  assert (G : forall M items, has_units M items -> forallb (fun ct : ucfg * bool => not_tinyb (fst ct)) (flat_cfg items) = true -> scores_not_tiny M).
  { clear. intros M items H B. apply has_units_cfg in H. rewrite <- H in B. clear H. apply not_tinyb_ok. apply forallb_forall. intros bt I. rewrite forallb_forall in B.
    exact (B (b_cfg (fst bt), snd bt) (in_map (fun bt => (b_cfg (fst bt), snd bt)) _ _ I)). }
  intros M [H|H]; [exact (G M _ H R)|exact (G M _ H K)].
Qed.
Lemma shipped_sizes : forall M, shipped_units M -> scores_prob M /\ scores_not_tiny M.
Proof. intros M H. split; [exact (shipped01 M H)|exact (shipped_not_tiny M H)]. Qed.

(** ** all pieces of a word *)
Fixpoint starts (s : str) : list str := [] :: match s with [] => [] | c :: r => map (cons c) (starts r) end.
Fixpoint all_pieces (s : str) : list str := starts s ++ match s with [] => [] | _ :: r => all_pieces r end.
Lemma starts_app : forall a b, In a (starts (a ++ b)).
Proof. induction a as [|c a IH]; intros b; [destruct b; left; reflexivity|]. cbn. right. apply in_map. apply IH. Qed.
Lemma all_pieces_ok : forall s x, piece_of s x -> In x (all_pieces s).
Proof.
  intros s x (a & b & ->). induction a as [|c a IH].
  - cbn [app]. assert (E : forall t, all_pieces t = starts t ++ match t with [] => [] | _ :: r => all_pieces r end) by (intros [|? ?]; reflexivity). rewrite E. apply in_app_iff. left. apply starts_app.
  - cbn [app all_pieces]. apply in_app_iff. right. exact IH.
Qed.
Definition fewb (M : morph) (word : str) (k : nat) : bool :=
  forallb (fun v => match morph_parse M v with Ok ps => length ps <=? 2 ^ k | Err _ => true end) (word :: all_pieces (u_lower (m_uni M) word)).
Lemma fewb_ok : forall M word k, fewb M word k = true -> few_readings M word k.
Proof.
  intros M word k H _ v ps V E. unfold fewb in H. rewrite forallb_forall in H. assert (I : In v (word :: all_pieces (u_lower (m_uni M) word))) by (destruct V as [->|P]; [left; reflexivity|right; apply all_pieces_ok; exact P]).
  specialize (H v I). rewrite E in H. apply Nat.leb_le. exact H.
Qed.
Lemma demo_np_few : fewb demo_np (u "Мегакота") 1 = true.
Proof. vm_compute. reflexivity. Qed.
Definition pairs_b (a : res (list parse)) : bool := match a with Ok ps => (2 <=? length ps) && existsb (fun p => negb (Qeq_bool (p_score p) 1)) ps | Err _ => false end.
Lemma pairs_ok : forall a, pairs_b a = true -> exists ps p, a = Ok ps /\ 2 <= length ps /\ In p ps /\ ~ (p_score p == 1)%Q.
Proof.
  intros [ps|e] H; [|discriminate H]. apply andb_true_iff in H as [A B]. apply Nat.leb_le in A. apply existsb_exists in B as (p & I & N). exists ps, p. repeat split; auto. intros E. apply Qeq_bool_iff in E. rewrite E in N. discriminate N.
Qed.
Lemma demo_np_pairs : pairs_b (parse_dbl demo_np (u "Мегакота")) = true.
Proof. vm_compute. reflexivity. Qed.
Lemma double_case : exists M word k, shipped_units M /\ wf_morph M /\ scores_prob M /\ scores_not_tiny M /\ table_prob M /\ small_numbers M /\ m_prob M <> None /\ few_readings M word k /\ k <= 52 /\
  43 + (k + 1) * (length (u_lower (m_uni M) word) + 1) <= 1022 /\ exists ps p, parse_dbl M word = Ok ps /\ 2 <= length ps /\ In p ps /\ ~ (p_score p == 1)%Q.
Proof.
  exists demo_np, (u "Мегакота"), 1. split; [exact demo_np_shipped|]. split; [exact demo_np_wf|]. split; [apply shipped_sizes; exact demo_np_shipped|]. split; [apply shipped_sizes; exact demo_np_shipped|].
  split; [exact L_Score.demo_np_table|]. split; [exact demo_np_small|]. split; [rewrite demo_np_cpd; intros H; discriminate H|]. split; [apply fewb_ok; exact demo_np_few|]. split; [lia|]. split; [vm_compute; lia|].
  apply pairs_ok. exact demo_np_pairs.
Qed.

(** ** underflow *)
Definition first_score (r : res (list parse)) : option Q := match r with Ok (p :: _) => Some (Qred (p_score p)) | _ => None end.
Lemma first_score_ok : forall r x, first_score r = Some x -> exists p ps, r = Ok (p :: ps) /\ (p_score p == x)%Q.
Proof. intros [[|p ps]|e] x H; try discriminate H. injection H as <-. exists p, ps. split; [reflexivity|]. symmetry. apply Qred_correct. Qed.
Lemma deep_small : small_numbers deep_demo.
Proof. apply smallb_ok; [vm_compute; reflexivity|]. intros c c' H. discriminate H. Qed.
Lemma deep_dbl : first_score (parse_dbl deep_demo (deep 1076)) = Some 0%Q.
Proof. vm_compute. reflexivity. Qed.
Lemma deep_exact : first_score (morph_parse deep_demo (deep 1076)) = Some (1 # Pos.pow 2 1076)%Q.
Proof. vm_compute. reflexivity. Qed.
Lemma underflow : exists M word p ps q qs, lower_stable (m_uni M) /\ Forall (fun bt => prefixes_nonempty (fst bt)) (m_units M) /\ scores_prob M /\ scores_not_tiny M /\ small_numbers M /\ m_prob M = None /\
  parse_dbl M word = Ok (p :: ps) /\ morph_parse M word = Ok (q :: qs) /\ (p_score p == 0)%Q /\ (0 < p_score q)%Q.
Proof.
  destruct (first_score_ok _ _ deep_dbl) as (p & ps & A & B). destruct (first_score_ok _ _ deep_exact) as (q & qs & C & D). exists deep_demo, (deep 1076), p, ps, q, qs.
  split; [exact uni_cyr_stable|]. split; [repeat constructor; cbn; intros [H|[]]; discriminate H|]. split; [repeat constructor; cbn; intros H; discriminate H|]. split; [apply not_tinyb_ok; vm_compute; reflexivity|]. split; [exact deep_small|]. split; [reflexivity|].
  split; [exact A|]. split; [exact C|]. split; [exact B|]. rewrite D. reflexivity.
Qed.
