(** * Lemmas for C83 *)
From Coq Require Import String List NArith ZArith Bool QArith Permutation Lia.
From Verif Require Import Py Uni Tagset Dawg Dict Units Analyzer ConfigRu ConfigUk Shapes Compile Spec Spec2 Spec26 Spec33 L_Base L_Agree L_Parse L_Units L_Words L_Para L_Groups L_Prob L_Says.
Import ListNotations.
Local Open Scope nat_scope.
Local Open Scope list_scope.

Lemma ordinary_readings : forall n M word ps, ordinary M word -> wf_dict (m_dict M) -> consistent_dict (m_dict M) -> in_dictionary M (u_lower (m_uni M) word) ->
  parse_f n M word = Ok ps -> exists found, dictionary_readings M (u_lower (m_uni M) word) found /\ Permutation (map reading found) (map reading ps) /\ (m_prob M = None -> found = ps).
Proof.
  intros n M word ps O W Cn ID H. destruct (m_prob M) as [d|] eqn:P.
  - assert (X : exists found, dictionary_readings M (u_lower (m_uni M) word) found /\ reweighted d (u_lower (m_uni M) word) found ps).
    { apply (dictionary_word_prob n M d word ps); auto. }
    destruct X as (found & F1 & F2 & _). exists found. split; [exact F1|]. split; [exact F2|]. discriminate.
  - exists ps. split; [|split; [apply Permutation_refl|reflexivity]]. destruct O as [[U NI]|(U & NI & NR & NL)].
    + exact (ru_dictionary_word n M word ps U P W Cn ID NI H).
    + exact (uk_dictionary_word n M word ps U P W Cn ID NI NR NL H).
Qed.
(** a reading is determined by the word and the place in the dictionary *)
Lemma nf_fun : forall D para idx w nf nf', normal_form_of D para idx w nf -> normal_form_of D para idx w nf' -> nf = nf'.
Proof.
  intros D para idx w nf nf' (p & t & s & p0 & t0 & s0 & stem & R & R0 & E & F) (p' & t' & s' & p0' & t0' & s0' & stem' & R' & R0' & E' & F').
  destruct (para_row_fun _ _ _ _ _ _ _ _ _ R R') as (<- & _ & <-). destruct (para_row_fun _ _ _ _ _ _ _ _ _ R0 R0') as (<- & _ & <-).
  rewrite E in E'. apply app_inv_head in E'. apply app_inv_tail in E'. subst. reflexivity.
Qed.
Lemma stored_reading : forall M lower found p, dictionary_readings M lower found -> In p found ->
  exists para idx vals pre sf, p_stack p = [MDict (Root 0) (p_word p) para idx] /\ subst_of (m_subst M) lower (p_word p) /\ sget (p_word p) (d_words (m_dict M)) = Some vals /\ In (para, idx) vals /\
    para_row (m_dict M) para idx pre (p_tag p) sf /\ normal_form_of (m_dict M) para idx (p_word p) (p_nf p) /\ p_score p = 1%Q.
Proof.
  intros M lower found p [(sp & S1 & _ & S3) R] Ip. destruct (R p Ip) as (k & i & pre & sf & Q1 & Qs & Q3 & Q4).
  assert (I : In (p_word p, [MDict (Root 0) (p_word p) k i]) (map (fun p => (p_word p, p_stack p)) found)) by (apply in_map_iff; exists p; rewrite Q1; auto).
  rewrite S3 in I. apply in_flat_map in I as (w & Iw & I). apply in_map_iff in I as ([k' i'] & E & I). cbn [fst snd] in E. injection E as Ew _ Ek Ei. subst w k' i'.
  destruct (sget (p_word p) (d_words (m_dict M))) as [vals|] eqn:G; [|destruct I].
  exists k, i, vals, pre, sf. split; [exact Q1|]. split; [apply S1; exact Iw|]. split; [reflexivity|]. split; [exact I|]. split; [exact Q3|]. split; [exact Q4|exact Qs].
Qed.
Lemma stored_found : forall M lower found p para idx vals pre sf, dictionary_readings M lower found ->
  p_stack p = [MDict (Root 0) (p_word p) para idx] -> subst_of (m_subst M) lower (p_word p) -> sget (p_word p) (d_words (m_dict M)) = Some vals -> In (para, idx) vals ->
  para_row (m_dict M) para idx pre (p_tag p) sf -> normal_form_of (m_dict M) para idx (p_word p) (p_nf p) -> In (reading p) (map reading found).
Proof.
  intros M lower found p k i vals pre sf [(sp & S1 & _ & S3) R] Q1 Sb G Iv Q3 Q4.
  assert (I : In (p_word p, [MDict (Root 0) (p_word p) k i]) (map (fun p => (p_word p, p_stack p)) found)).
  { rewrite S3. apply in_flat_map. exists (p_word p). split; [apply S1; exact Sb|]. rewrite G. apply in_map_iff. exists (k, i). auto. }
  apply in_map_iff in I as (q & E & Iq). injection E as E1 E2. destruct (R q Iq) as (k' & i' & pre' & sf' & P1 & _ & P3 & P4). rewrite E2 in P1. injection P1 as _ P5 P6. subst k' i'.
  apply in_map_iff. exists q. split; [|exact Iq]. unfold reading. rewrite E1 in P4.
  destruct (para_row_fun _ _ _ _ _ _ _ _ _ Q3 P3) as (_ & Et & _). rewrite (nf_fun _ _ _ _ _ _ Q4 P4), E1, Et, E2, Q1. reflexivity.
Qed.
Lemma c83_in_dictionary : forall M w w', subst_idempotent (m_subst M) -> without_dots M w w' -> in_dictionary M (u_lower (m_uni M) w) -> in_dictionary M (u_lower (m_uni M) w').
Proof. intros M w w' I Hd (v & vals & S1 & S2 & S3). exists v, vals. split; [exact (subst_of_trans _ _ _ _ I Hd S1)|]. split; assumption. Qed.
Lemma c83_readings : forall n n' M w w' ps ps', ordinary M w -> ordinary M w' -> wf_dict (m_dict M) -> consistent_dict (m_dict M) -> subst_idempotent (m_subst M) ->
  in_dictionary M (u_lower (m_uni M) w) -> without_dots M w w' -> parse_f n M w = Ok ps -> parse_f n' M w' = Ok ps' ->
  forall x, In x (map reading ps) <-> exists q, In q ps' /\ reading q = x /\ could_be M w (p_word q).
Proof.
  intros n n' M w w' ps ps' O O' W Cn Id ID Dt H H' x.
  pose proof (c83_in_dictionary M w w' Id Dt ID) as ID'.
  destruct (ordinary_readings n M w ps O W Cn ID H) as (f & F1 & F2 & _). destruct (ordinary_readings n' M w' ps' O' W Cn ID' H') as (f' & G1 & G2 & _).
  split.
  - intros I. apply (Permutation_in _ (Permutation_sym F2)) in I. apply in_map_iff in I as (p & <- & Ip).
    destruct (stored_reading _ _ _ _ F1 Ip) as (k & i & vals & pre & sf & A1 & A2 & A3 & A4 & A5 & A6 & _).
    pose proof (stored_found M _ f' p k i vals pre sf G1 A1 (subst_of_trans _ _ _ _ Id Dt A2) A3 A4 A5 A6) as J.
    apply (Permutation_in _ G2) in J. apply in_map_iff in J as (q & E & Iq). exists q. split; [exact Iq|]. split; [exact E|]. unfold could_be. unfold reading in E. injection E as E1 _ _ _. rewrite E1. exact A2.
  - intros (q & Iq & E & C).
    assert (J : In (reading q) (map reading f')) by (apply (Permutation_in _ (Permutation_sym G2)); apply in_map; exact Iq).
    apply in_map_iff in J as (p & E2 & Ip). destruct (stored_reading _ _ _ _ G1 Ip) as (k & i & vals & pre & sf & A1 & A2 & A3 & A4 & A5 & A6 & _).
    rewrite <- E, <- E2. apply (Permutation_in _ F2). apply (stored_found M _ f p k i vals pre sf F1 A1); try assumption.
    unfold reading in E2. injection E2 as E1 _ _ _. rewrite E1. exact C.
Qed.
Lemma c83_known : forall M w w', subst_idempotent (m_subst M) -> without_dots M w w' -> word_is_known M w false = true -> word_is_known M w' false = true.
Proof.
  intros M w w' Id Dt K. unfold word_is_known in *. cbn [negb] in *. apply known_iff in K as (v & vals & S1 & S2). apply known_iff. exists v, vals. split; [exact (subst_of_trans _ _ _ _ Id Dt S1)|exact S2].
Qed.
(** ** the exact spelling comes first *)
Lemma ordinary_dict : forall n M word ps, ordinary M word -> m_prob M = None -> in_dictionary M (u_lower (m_uni M) word) -> parse_f n M word = Ok ps ->
  dict_parse M (Root 0) (u_lower (m_uni M) word) = Ok ps.
Proof.
  intros n M word ps O HP ID H. destruct n as [|n]; [discriminate|]. unfold parse_f in H. simpl in H. rewrite HP in H.
  apply bind_ok in H as (r & E & H). apply Ok_inj in H. subst r. destruct O as [[HU NI]|(HU & NI & NR & NL)].
  - apply ru_head in HU as (b0 & b1 & b2 & us & Eu & H0 & H1 & H2). rewrite Eu in E. exact (run_ru _ _ _ _ _ b0 b1 b2 us _ H0 H1 H2 ID NI E).
  - apply uk_head in HU as (b0 & b1 & b2 & b3 & b4 & us & Eu & H0 & H1 & H2 & H3 & H4). rewrite Eu in E. exact (run_uk _ _ _ _ _ b0 b1 b2 b3 b4 us _ H0 H1 H2 H3 H4 ID NI NR NL E).
Qed.
Lemma c83_exact_first : forall n M word ps, ordinary M word -> m_prob M = None -> subst_proper (m_subst M) ->
  in_dictionary M (u_lower (m_uni M) word) -> parse_f n M word = Ok ps ->
  exists a b, ps = a ++ b /\ (forall p, In p a -> p_word p = u_lower (m_uni M) word) /\ (forall p, In p b -> p_word p <> u_lower (m_uni M) word).
Proof.
  intros n M word ps O HP Pr ID H. pose proof (ordinary_dict n M word ps O HP ID H) as D.
  pose proof (dict_parse_list M (Root 0) (u_lower (m_uni M) word) ps D) as L.
  pose proof (variants_NoDup (m_subst M) (u_lower (m_uni M) word) Pr) as N. unfold variants in L, N.
  set (lower := u_lower (m_uni M) word) in *. apply NoDup_cons_iff in N as [N _].
  cbn [flat_map] in L. apply map_eq_app in L as (a & b & -> & A & B). exists a, b. split; [reflexivity|]. split.
  - intros p I. assert (X : In (p_word p, p_stack p) (map (fun p => (p_word p, p_stack p)) a)) by (apply in_map_iff; exists p; auto). rewrite A in X. apply in_map_iff in X as (v & E & _). injection E as E _. symmetry. exact E.
  - intros p I. assert (X : In (p_word p, p_stack p) (map (fun p => (p_word p, p_stack p)) b)) by (apply in_map_iff; exists p; auto). rewrite B in X. apply in_flat_map in X as (w & Iw & X). apply in_map_iff in X as (v & E & _). injection E as E _. intros F. rewrite F in E. subst w. exact (N Iw).
Qed.

(** ** tag() and normal_forms() *)
Lemma ordinary_shipped : forall M word, ordinary M word -> shipped_units M.
Proof. intros M word [[H _]|[H _]]; [left|right]; exact H. Qed.
Lemma c83_tags : forall M w w' ps ps' ts ts', ordinary M w -> ordinary M w' -> wf_dict (m_dict M) -> consistent_dict (m_dict M) -> pred_counts_pos (m_dict M) -> subst_idempotent (m_subst M) ->
  in_dictionary M (u_lower (m_uni M) w) -> without_dots M w w' -> morph_parse M w = Ok ps -> morph_parse M w' = Ok ps' -> morph_tag M w = Ok ts -> morph_tag M w' = Ok ts' ->
  kept (map t_gr ts) (map t_gr ts').
Proof.
  intros M w w' ps ps' ts ts' O O' W Cn Pc Id ID Dt H H' T T' g I.
  pose proof (shipped_agree _ _ _ _ _ (ordinary_shipped _ _ O) Pc H T) as A. pose proof (shipped_agree _ _ _ _ _ (ordinary_shipped _ _ O') Pc H' T') as A'.
  apply A in I. apply A'. rewrite map_map in *. apply in_map_iff in I as (p & E & Ip).
  assert (X : In (reading p) (map reading ps)) by (apply in_map; exact Ip).
  apply (c83_readings _ _ M w w' ps ps' O O' W Cn Id ID Dt H H') in X as (q & Iq & Eq & _).
  apply in_map_iff. exists q. split; [|exact Iq]. unfold reading in Eq. injection Eq as _ Et _ _. rewrite Et. exact E.
Qed.
Lemma c83_normal_forms : forall M w w' ps ps' ns ns', ordinary M w -> ordinary M w' -> wf_dict (m_dict M) -> consistent_dict (m_dict M) -> subst_idempotent (m_subst M) ->
  in_dictionary M (u_lower (m_uni M) w) -> without_dots M w w' -> morph_parse M w = Ok ps -> morph_parse M w' = Ok ps' -> morph_normal_forms M w = Ok ns -> morph_normal_forms M w' = Ok ns' ->
  kept ns ns'.
Proof.
  intros M w w' ps ps' ns ns' O O' W Cn Id ID Dt H H' N N' x I.
  pose proof (normal_forms_dedup M w) as A. pose proof (normal_forms_dedup M w') as A'. rewrite H in A. rewrite H' in A'.
  destruct A as (n1 & A1 & A2). destruct A' as (n2 & B1 & B2). rewrite A1 in N. rewrite B1 in N'. apply Ok_inj in N. apply Ok_inj in N'. subst n1 n2.
  destruct A2 as (_ & A2 & _). destruct B2 as (_ & B2 & _). apply B2. apply A2 in I. apply in_map_iff in I as (p & E & Ip).
  assert (X : In (reading p) (map reading ps)) by (apply in_map; exact Ip).
  apply (c83_readings _ _ M w w' ps ps' O O' W Cn Id ID Dt H H') in X as (q & Iq & Eq & _).
  apply in_map_iff. exists q. split; [|exact Iq]. unfold reading in Eq. injection Eq as _ _ En _. rewrite En. exact E.
Qed.
