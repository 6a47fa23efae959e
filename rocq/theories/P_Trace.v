(** * C71: which words, and how many of them, does one parse() or tag() call analyse? *)
From Coq Require Import String List NArith ZArith Bool QArith Lia.
From Verif Require Import Py Uni Tagset Dawg Dict Shapes Units Analyzer ConfigRu ConfigUk Trace Spec Spec14 Spec21 Ex.
From Verif Require Import L_Base L_Parse L_Config L_Words L_Groups L_Made L_Total L_Case L_Trace L_Trace2 L_Trace3 L_Trace4 L_Trace5 L_Ex L_ExU P_Units.
Import ListNotations.
Local Open Scope nat_scope.
Local Open Scope list_scope.

(** the traced analyzer is the analyzer *)
Theorem C71_results : forall n M w, snd (fst (analyze_t n M) w) = parse_f n M w /\ snd (snd (analyze_t n M) w) = tag_f n M w.
Proof. exact analyze_snd. Qed.
Print Assumptions C71_results.

(** every word analysed on the way is the word itself or a proper piece of its lower-case form *)
Theorem C71_pieces : forall M w x, lower_stable (m_uni M) -> shipped_units M ->
  In x (parse_trace M w) \/ In x (tag_trace M w) ->
  x = w \/ (piece_of (u_lower (m_uni M) w) x /\ length x < length (u_lower (m_uni M) w)).
Proof.
  intros M w x St SU I. destruct (shipped_facts M SU) as (_ & _ & F). exact (trace_pieces _ M w x St F I).
Qed.
Print Assumptions C71_pieces.

(** there is a bound, exponential in the length *)
Theorem C71_bound : forall M w, lower_stable (m_uni M) -> shipped_units M ->
  length (parse_trace M w) <= S (branches M) ^ S (length (u_lower (m_uni M) w)) /\
  length (tag_trace M w) <= S (branches M) ^ S (length (u_lower (m_uni M) w)).
Proof.
  intros M w St SU. destruct (shipped_facts M SU) as (_ & _ & F). exact (trace_length _ M w St F).
Qed.
Print Assumptions C71_bound.

(** if no known prefix is the beginning of another one, hyphen-free words need at most one analysis
    per character *)
Theorem C71_linear : forall M w, lower_stable (m_uni M) ->
  (forall bt ps m r, In bt (m_units M) -> b_cfg (fst bt) = UKnownPrefix ps m r -> NoDup ps /\ prefix_free ps /\ ~ In [] ps) ->
  length (filter (fun bt => prefix_unit (b_cfg (fst bt))) (m_units M)) <= 1 -> ~ In (chr "-") (u_lower (m_uni M) w) ->
  length (parse_trace M w) <= S (length (u_lower (m_uni M) w)) /\ length (tag_trace M w) <= S (length (u_lower (m_uni M) w)).
Proof. intros M w. exact (trace_linear _ M w). Qed.
Print Assumptions C71_linear.

(** the shipped Russian prefixes are not like that: wherever x, y and xy are all known prefixes, every
    further xy doubles the number of analyses *)
Theorem C71_doubling : forall M x y tail, has_units M RU_DEFAULT_UNITS ->
  In x RU_KNOWN_PREFIXES -> In y RU_KNOWN_PREFIXES -> In (x ++ y) RU_KNOWN_PREFIXES -> x <> [] -> y <> [] -> 3 <= length tail ->
  (forall k, unheard M (repeated (S k) (x ++ y) ++ tail) /\ unheard M (y ++ repeated k (x ++ y) ++ tail)) ->
  forall k, (forall ps, morph_parse M (repeated k (x ++ y) ++ tail) = Ok ps -> 2 ^ k <= length (parse_trace M (repeated k (x ++ y) ++ tail))) /\
    (forall ts, morph_tag M (repeated k (x ++ y) ++ tail) = Ok ts -> 2 ^ k <= length (tag_trace M (repeated k (x ++ y) ++ tail))).
Proof. exact ru_doubling_both. Qed.
Print Assumptions C71_doubling.

(** ** a concrete analyzer *)
Definition first_ok (M : morph) : bool :=
  forallb (fun kv : str * list (nat * nat) => negb (prefixb (u "нед") (fst kv)) && negb (prefixb (u "д") (fst kv)) && negb (prefixb (u "нёд") (fst kv))) (d_words (m_dict M)).
Lemma subst_first : forall M w v, m_subst M = e_yo -> subst_of (m_subst M) w v -> forall c r, w = c :: r -> rget c e_yo = None -> exists r', v = c :: r' /\ subst_of (m_subst M) r r'.
Proof.
  intros M w v S H c r -> R. inversion H as [|x y a b F T]; subst. destruct F as [->|F]; [exists b; auto|]. rewrite S, R in F. discriminate F.
Qed.
Lemma first_unknown : forall M w, m_subst M = e_yo -> m_uni M = uni_named -> first_ok M = true -> (exists r, w = u "до" ++ r \/ w = u "недо" ++ r) -> word_is_known M w false = false.
Proof.
  intros M w S UU B (r & E). destruct (word_is_known M w false) eqn:K; [exfalso|reflexivity]. unfold word_is_known in K.
  assert (L : exists r', u_lower (m_uni M) w = u "до" ++ r' \/ u_lower (m_uni M) w = u "недо" ++ r').
  { rewrite UU. change (u_lower uni_named) with (map cyr_lower1). destruct E as [->| ->]; exists (map cyr_lower1 r); rewrite map_app; [left|right]; reflexivity. }
  destruct L as (r' & L). apply known_iff in K as (v & vals & SV & G). rewrite S in SV.
  assert (IN : In (v, vals) (d_words (m_dict M))) by (apply L_Agree.sget_In; exact G).
  unfold first_ok in B. rewrite forallb_forall in B. specialize (B _ IN). cbn [fst] in B.
  apply andb_true_iff in B as [B B3]. apply andb_true_iff in B as [B1 B2]. apply negb_true_iff in B1, B2, B3. clear IN G.
  destruct L as [L|L]; rewrite L in SV; change (u "до" ++ r') with (1076 :: 1086 :: r')%N in SV || change (u "недо" ++ r') with (1085 :: 1077 :: 1076 :: 1086 :: r')%N in SV.
  - inversion SV as [|a b l1 l2 F T E1 E2]. destruct F as [F|F]; [|discriminate F]. rewrite <- E2, F in B2. discriminate B2.
  - inversion SV as [|a b l1 l2 F T E1 E2]. subst l1. destruct F as [F|F]; [|discriminate F]. subst b.
    inversion T as [|a' b' l1' l2' F' T' E1' E2']. subst l1'. inversion T' as [|a2 b2 l3 l4 F2 T2 E3 E4]. destruct F2 as [F2|F2]; [|discriminate F2].
    destruct F' as [F'|F'].
    + rewrite <- E2, <- E2', <- E4, F', F2 in B1. discriminate B1.
    + change (Some 1105%N = Some b') in F'. injection F' as F'. rewrite <- E2, <- E2', <- E4, <- F', F2 in B3. discriminate B3.
Qed.
Lemma demo_n_first : first_ok demo_n = true.
Proof. vm_compute. reflexivity. Qed.
Lemma demo_n_subst : m_subst demo_n = e_yo.
Proof. vm_compute. reflexivity. Qed.
Lemma demo_uni : m_uni demo_n = uni_named.
Proof. vm_compute. reflexivity. Qed.
Lemma demo_unknown : forall w, (exists r, w = u "до" ++ r \/ w = u "недо" ++ r) -> word_is_known demo_n w false = false.
Proof. intros w. exact (first_unknown demo_n w demo_n_subst demo_uni demo_n_first). Qed.
Lemma lower_repeated : forall k s, map cyr_lower1 s = s -> map cyr_lower1 (repeated k s) = repeated k s.
Proof. intros k s E. induction k as [|k IH]; [reflexivity|]. cbn [repeated]. rewrite map_app, E, IH. reflexivity. Qed.
Lemma In_repeated : forall k s (c : char), In c (repeated k s) -> In c s.
Proof. induction k as [|k IH]; intros s c H; [destruct H|]. cbn [repeated] in H. apply in_app_or in H as [H|H]; auto. Qed.
Lemma length_repeated : forall k s, length (repeated k s) = k * length s.
Proof. induction k as [|k IH]; intros s; [reflexivity|]. cbn [repeated]. rewrite app_length, IH. reflexivity. Qed.
Lemma demo_letters : foreign_letter uni_named 1085%N /\ foreign_letter uni_named 1076%N.
Proof. unfold foreign_letter. vm_compute. repeat split; try reflexivity; try discriminate; intros X; discriminate X. Qed.
Lemma demo_unheard : forall k, unheard demo_n (repeated (S k) (u "не" ++ u "до") ++ u "кот") /\ unheard demo_n (u "до" ++ repeated k (u "не" ++ u "до") ++ u "кот").
Proof.
  intros k. unfold unheard. rewrite demo_uni. change (u_lower uni_named) with (map cyr_lower1).
  assert (LR : forall j, map cyr_lower1 (repeated j (u "не" ++ u "до")) = repeated j (u "не" ++ u "до")) by (intros j; apply lower_repeated; reflexivity).
  assert (NH : forall j, ~ In (chr "-") (repeated j (u "не" ++ u "до") ++ u "кот")).
  { intros j H. apply in_app_or in H as [H|H]; [apply In_repeated in H|]; apply (proj1 (mem_char_false _ _)) in H; auto. }
  assert (NI : forall w, 2 <= length w -> ~ In w RU_INITIAL_LETTERS).
  { intros w L I. assert (B : forallb (fun x : str => length x <=? 1) RU_INITIAL_LETTERS = true) by (vm_compute; reflexivity). rewrite forallb_forall in B. specialize (B _ I). apply Nat.leb_le in B. lia. }
  destruct demo_letters as [FN FD]. split; (split; [|split; [|split; [|split]]]).
  - rewrite map_app, LR. reflexivity.
  - exists 1085%N. eexists. split; [reflexivity|exact FN].
  - apply NI. rewrite app_length. cbn. lia.
  - apply NH.
  - apply demo_unknown. exists (repeated k (u "не" ++ u "до") ++ u "кот"). right. cbn [repeated]. rewrite <- app_assoc. reflexivity.
  - rewrite !map_app, LR. reflexivity.
  - exists 1076%N. eexists. split; [reflexivity|exact FD].
  - apply NI. rewrite app_length. cbn. lia.
  - intros H. apply in_app_or in H as [H|H]; [apply (proj1 (mem_char_false _ _)) in H; auto|apply (NH k H)].
  - apply demo_unknown. eexists. left. reflexivity.
Qed.
Lemma demo_n_units : has_units demo_n RU_DEFAULT_UNITS.
Proof. exact (proj1 (construct_units _ _ _ _ _ _ _ _ _ _ _ demo_n_eq)). Qed.
Lemma demo_n_total : forall w, (exists ps, morph_parse demo_n w = Ok ps) /\ (exists ts, morph_tag demo_n w = Ok ts).
Proof.
  intros w. exact (C09_total _ _ _ _ _ _ _ _ _ _ w demo_n_eq (or_introl eq_refl) demo_rows_adv demo_n_wf_dict uni_named_ok uni_named_stable).
Qed.
Lemma prefixes_nedo : In (u "не") RU_KNOWN_PREFIXES /\ In (u "до") RU_KNOWN_PREFIXES /\ In (u "не" ++ u "до") RU_KNOWN_PREFIXES.
Proof.
  assert (S1 : smem (u "не") RU_KNOWN_PREFIXES = true) by (vm_compute; reflexivity). assert (S2 : smem (u "до") RU_KNOWN_PREFIXES = true) by (vm_compute; reflexivity).
  assert (S3 : smem (u "не" ++ u "до") RU_KNOWN_PREFIXES = true) by (vm_compute; reflexivity).
  split; [exact (proj1 (smem_In _ _) S1)|]. split; [exact (proj1 (smem_In _ _) S2)|exact (proj1 (smem_In _ _) S3)].
Qed.
Lemma demo_doubling : forall k, 2 ^ k <= length (parse_trace demo_n (repeated k (u "недо") ++ u "кот")) /\ 2 ^ k <= length (tag_trace demo_n (repeated k (u "недо") ++ u "кот")).
Proof.
  intros k. change (u "недо") with (u "не" ++ u "до"). destruct prefixes_nedo as (I1 & I2 & I3).
  destruct (C71_doubling demo_n (u "не") (u "до") (u "кот") demo_n_units I1 I2 I3) with (k := k) as [A B]; [discriminate|discriminate|cbn; lia|exact demo_unheard|].
  destruct (demo_n_total (repeated k (u "не" ++ u "до") ++ u "кот")) as [(ps & P) (ts & T)]. split; [exact (A ps P)|exact (B ts T)].
Qed.
Lemma pow_gt : forall n, n < 2 ^ n.
Proof. intros n. apply Nat.pow_gt_lin_r. lia. Qed.
Lemma outgrows : forall c d, exists k, c * (k * 4 + 3) ^ d < 2 ^ k.
Proof.
  intros c d. assert (X : exists m, c + d * (m + 3) < 2 ^ m).
  { exists (2 * (c + 3 * d + 2 * d)). set (j := c + 3 * d + 2 * d). replace (2 ^ (2 * j)) with (2 ^ j * 2 ^ j) by (rewrite <- Nat.pow_add_r; f_equal; lia). assert (P := pow_gt j). assert (Q : S j * S j <= 2 ^ j * 2 ^ j) by (apply Nat.mul_le_mono; lia).
    assert (D : d * (2 * j) <= j * j) by (transitivity (2 * d * j); [lia|apply Nat.mul_le_mono_r; lia]). lia. }
  destruct X as (m & X). exists (2 ^ m).
  assert (A : 2 ^ m * 4 + 3 <= 2 ^ (m + 3)). { rewrite Nat.pow_add_r. change (2 ^ 3) with 8. assert (H : 1 <= 2 ^ m) by (assert (P := pow_gt m); lia). lia. }
  apply Nat.le_lt_trans with (2 ^ (c + d * (m + 3))); [|apply Nat.pow_lt_mono_r; [lia|exact X]].
  rewrite Nat.pow_add_r. apply Nat.mul_le_mono; [apply Nat.lt_le_incl; apply pow_gt|]. rewrite (Nat.mul_comm d). rewrite Nat.pow_mul_r. apply Nat.pow_le_mono_l. exact A.
Qed.

(** no polynomial in the length of the word bounds the number of analyses *)
Theorem C71_polynomial_refuted : exists M, has_units M RU_DEFAULT_UNITS /\ wf_dict (m_dict M) /\ names_ok (m_uni M) /\ lower_stable (m_uni M) /\
  forall c d, exists w, (exists ps, morph_parse M w = Ok ps) /\ (exists ts, morph_tag M w = Ok ts) /\
    c * length w ^ d < length (parse_trace M w) /\ c * length w ^ d < length (tag_trace M w).
Proof.
  exists demo_n. split; [exact demo_n_units|]. split; [exact demo_n_wf_dict|]. rewrite demo_uni. split; [exact uni_named_ok|]. split; [exact uni_named_stable|].
  intros c d. destruct (outgrows c d) as (k & K). exists (repeated k (u "недо") ++ u "кот").
  destruct (demo_n_total (repeated k (u "недо") ++ u "кот")) as [T1 T2]. split; [exact T1|]. split; [exact T2|].
  replace (length (repeated k (u "недо") ++ u "кот")) with (k * 4 + 3) by (rewrite app_length, length_repeated; reflexivity).
  destruct (demo_doubling k). lia.
Qed.
Print Assumptions C71_polynomial_refuted.

(** three times the doubling prefix: 22 analyses *)
Example C71_case : has_units demo_n RU_DEFAULT_UNITS /\ lower_stable (m_uni demo_n) /\
  parse_trace demo_n (u "суперкот") = map u ["суперкот"; "кот"]%string /\
  length (parse_trace demo_n (u "недонедонедокот")) = 22 /\
  length (tag_trace demo_n (u "недонедонедокот")) = 22 /\
  (forall k, unheard demo_n (repeated (S k) (u "не" ++ u "до") ++ u "кот") /\ unheard demo_n (u "до" ++ repeated k (u "не" ++ u "до") ++ u "кот")) /\
  In (u "не") RU_KNOWN_PREFIXES /\ In (u "до") RU_KNOWN_PREFIXES /\ In (u "не" ++ u "до") RU_KNOWN_PREFIXES.
Proof.
  split; [exact demo_n_units|]. split; [rewrite demo_uni; exact uni_named_stable|]. split; [vm_compute; reflexivity|]. split; [vm_compute; reflexivity|]. split; [vm_compute; reflexivity|].
  split; [exact demo_unheard|exact prefixes_nedo].
Qed.

(** C71_linear: an analyzer with two prefixes, neither the beginning of the other *)
Definition demo_d : dict := m_dict demo.
Definition few_prefixes : morph := MkMorph uni_cyr false demo_d
  [(MkUnit UDict [] [] [], true); (MkUnit (UKnownPrefix [u "супер"; u "недо"] (75#100) 3) [] [] [], true)] None e_yo tc_initial.
Example C71_linear_case : lower_stable (m_uni few_prefixes) /\
  (forall bt ps m r, In bt (m_units few_prefixes) -> b_cfg (fst bt) = UKnownPrefix ps m r -> NoDup ps /\ prefix_free ps /\ ~ In [] ps) /\
  length (filter (fun bt => prefix_unit (b_cfg (fst bt))) (m_units few_prefixes)) <= 1 /\
  parse_trace few_prefixes (u "недосуперкот") = map u ["недосуперкот"; "суперкот"; "кот"]%string.
Proof.
  split; [exact uni_cyr_stable|]. split; [|split; [apply le_n|vm_compute; reflexivity]].
  intros bt ps m r [<-|[<-|[]]] E; [discriminate E|]. injection E as <- _ _. split; [|split].
  - constructor; [intros [X|[]]; discriminate X|]. constructor; [intros []|constructor].
  - intros p q Ip Iq (z & Z). destruct Ip as [<-|[<-|[]]]; destruct Iq as [<-|[<-|[]]]; try reflexivity; vm_compute in Z; discriminate Z.
  - intros [X|[X|[]]]; discriminate X.
Qed.
