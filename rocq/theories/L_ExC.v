(** * Compilation: statements over the whole compile function, examples *)
From Coq Require Import String List NArith ZArith Bool QArith Lia Permutation.
From Verif Require Import Py Uni Tagset Dawg Utils Shapes Dict Units Analyzer ConfigRu ConfigUk Compile Preprocess Spec Spec2 Spec3 Ex.
From Verif Require Import L_Base L_Ex L_Parse L_Tagset L_Tags2 L_Units L_ExU L_Text L_Compile L_Compile2 L_Compile3 L_Compile4 L_Join L_Pre L_EndToEnd.
Import ListNotations.
Local Open Scope nat_scope.
Local Open Scope list_scope.

Lemma parsed_inv : forall o src links lxs x, join_lexemes src links = Ok lxs -> compile_parsed_dict o src links = Ok x -> compile_lexemes o lxs = Ok x.
Proof. intros o src links lxs x J H. unfold compile_parsed_dict in H. rewrite J in H. exact H. Qed.
Section Whole.
  Variables (o : coptions) (src : lexemes) (links : list link) (lxs : list lexeme) (x : compiled) (D : dict).
  Hypotheses (J : join_lexemes src links = Ok lxs) (H : compile_parsed_dict o src links = Ok x).
  Hypothesis L : loaded x D.
  Lemma whole_content : exists ks, Content D lxs ks.
  Proof. destruct (compile_lexemes_inv _ _ _ (parsed_inv _ _ _ _ _ J H)) as (st & ks & C & _). exists ks. eapply compiled_content; eauto. Qed.
  Lemma forms_stored : forall lx, In lx lxs -> exists k, forall i w t, nth_error lx i = Some (w, t) ->
    stored D w k i /\
    exists tg nf tnf, t_str tg = t /\ nth_error lx 0 = Some (nf, tnf) /\ build_tag_info D k i = Ok tg /\ build_normal_form D k i w = Ok nf /\
    forall M self sc nf', m_dict M = D -> exists fam, dict_lexeme M self (MkParse w tg nf' sc [MDict self w k i]) = Ok fam /\
      map (fun f => (p_word f, t_str (p_tag f))) fam = lx.
  Proof. destruct whole_content as (ks & Ct). exact (content_forms _ _ _ Ct). Qed.
  Lemma stored_source : forall w k i, stored D w k i ->
    exists lx t, In lx lxs /\ nth_error lx i = Some (w, t) /\
    exists tg nf tnf, t_str tg = t /\ nth_error lx 0 = Some (nf, tnf) /\ build_tag_info D k i = Ok tg /\ build_normal_form D k i w = Ok nf.
  Proof. destruct whole_content as (ks & Ct). exact (content_source _ _ _ Ct). Qed.
  Lemma parsed_wf : wf_dict D /\ consistent_dict D /\ no_empty_entry D /\ NoDup (map fst (d_words D)) /\ pred_counts_pos D /\ pred_consistent D.
  Proof. exact (compiled_wf' _ _ _ _ (parsed_inv _ _ _ _ _ J H) L). Qed.
  Lemma records_spec : exists ks, length ks = length lxs /\
    (forall w k i, stored D w k i <-> In (w, (k, i)) (all_entries lxs ks)) /\
    forall pid e c k i, predicts D pid e c k i <->
    prefix_number D k i pid /\ popular o ks k /\ 1 <= c /\ form_hits D o (all_entries lxs ks) e k i c /\
    (exists n, ending_frequency D o ks (all_entries lxs ks) e n /\ o_min_freq o <= n) /\
    (forall k' i' c' tg tg', prefix_number D k' i' pid -> popular o ks k' -> build_tag_info D k i = Ok tg -> build_tag_info D k' i' = Ok tg' ->
       pos_text (t_str tg') = pos_text (t_str tg) -> form_hits D o (all_entries lxs ks) e k' i' c' -> c' <= c).
  Proof.
    destruct (compile_lexemes_inv _ _ _ (parsed_inv _ _ _ _ _ J H)) as (st & ks & C & Pd). pose proof (compiled_content _ _ _ _ _ _ C L) as Ct. exists ks.
    split; [symmetry; exact (f2_len (ct_desc _ _ _ Ct))|]. split; [|exact (predicts_iff _ _ _ _ _ _ C Pd L)].
    intros w k i. rewrite (ct_stored _ _ _ Ct). symmetry. apply all_entries_In. exact (f2_len (ct_desc _ _ _ Ct)).
  Qed.
  Lemma records_ending : length (d_pred D) = length (d_prefixes D) /\
    forall pid e c k i, predicts D pid e c k i -> exists prefix t suffix r, nth_error (d_prefixes D) pid = Some prefix /\ para_row D k i prefix t suffix /\ e = r ++ suffix.
  Proof.
    destruct (compile_lexemes_inv _ _ _ (parsed_inv _ _ _ _ _ J H)) as (st & ks & C & Pd). split; [exact (proj1 (pred_nodup _ _ _ _ _ _ C Pd L))|].
    intros pid e c k i (dawg & vals & N & G & I). apply (dget_In str_eqb str_eqb_eq) in G. destruct (pred_record _ _ _ _ _ _ C Pd L _ _ _ _ _ _ _ N G I) as (_ & R). exact R.
  Qed.
End Whole.
Lemma iter_stored : forall o src links lxs x D pfx, join_lexemes src links = Ok lxs -> compile_parsed_dict o src links = Ok x -> loaded x D ->
  exists l, iter_known_words D pfx = Ok l /\
  forall w tg nf k i, In (w, tg, nf, k, i) l <->
    stored D w k i /\ (exists r, w = pfx ++ r) /\ build_tag_info D k i = Ok tg /\ build_normal_form D k i w = Ok nf.
Proof. intros o src links lxs x D pfx J H L. destruct (whole_content o src links lxs x D J H L) as (ks & Ct). exact (content_iter _ _ _ pfx Ct). Qed.
Lemma join_nonempty : forall src links lxs, join_lexemes src links = Ok lxs -> forall lx, In lx lxs -> lx <> [].
Proof. intros src links lxs H lx I E. subst lx. unfold join_lexemes in H. apply bind_ok in H as (st & _ & H). apply Ok_inj in H. subst lxs. apply filter_In in I as [_ I]. discriminate. Qed.
Lemma parsed_failures : forall o src links lxs, join_lexemes src links = Ok lxs -> In [] (o_prefixes o) ->
  (exists x, compile_parsed_dict o src links = Ok x) \/ compile_parsed_dict o src links = Err OverflowError \/ compile_parsed_dict o src links = Err StructError.
Proof.
  intros o src links lxs J I. unfold compile_parsed_dict. rewrite J. cbn [bind]. destruct (compile_fails_only_on_size o lxs I (join_nonempty _ _ _ J)) as [X|(e & E & [->| ->])]; auto.
Qed.
Lemma ru_parsed : forall n o src links lxs x M word ps lx i w t,
  join_lexemes src links = Ok lxs -> compile_parsed_dict o src links = Ok x -> loaded x (m_dict M) ->
  has_units M RU_DEFAULT_UNITS -> m_prob M = None -> In lx lxs -> nth_error lx i = Some (w, t) ->
  u_lower (m_uni M) word = w -> ~ In word RU_INITIAL_LETTERS -> parse_f n M word = Ok ps ->
  exists p nf tnf fam, In p ps /\ p_word p = w /\ t_str (p_tag p) = t /\ nth_error lx 0 = Some (nf, tnf) /\ p_nf p = nf /\
    get_lexeme M p = Ok fam /\ map (fun f => (p_word f, t_str (p_tag f))) fam = lx.
Proof. intros n o src links lxs x M word ps lx i w t J H. exact (ru_end_to_end n o lxs x M word ps lx i w t (parsed_inv _ _ _ _ _ J H)). Qed.
Lemma uk_parsed : forall n o src links lxs x M word ps lx i w t,
  join_lexemes src links = Ok lxs -> compile_parsed_dict o src links = Ok x -> loaded x (m_dict M) ->
  has_units M UK_DEFAULT_UNITS -> m_prob M = None -> In lx lxs -> nth_error lx i = Some (w, t) ->
  u_lower (m_uni M) word = w -> ~ In word UK_INITIAL_LETTERS -> is_roman_number word = false -> is_latin (m_uni M) word = Ok false ->
  parse_f n M word = Ok ps ->
  exists p nf tnf fam, In p ps /\ p_word p = w /\ t_str (p_tag p) = t /\ nth_error lx 0 = Some (nf, tnf) /\ p_nf p = nf /\
    get_lexeme M p = Ok fam /\ map (fun f => (p_word f, t_str (p_tag f))) fam = lx.
Proof. intros n o src links lxs x M word ps lx i w t J H. exact (uk_end_to_end n o lxs x M word ps lx i w t (parsed_inv _ _ _ _ _ J H)). Qed.

Lemma no_empty_prefix : exists o src links lxs, join_lexemes src links = Ok lxs /\ (forall lx, In lx lxs -> lx <> []) /\
  o_prefixes o <> [] /\ compile_parsed_dict o src links = Err KeyError.
Proof.
  exists (MkOpt 1 1 3 [u "по"]), [(1%N, [form "на" "PREP"])], [], [[form "на" "PREP"]].
  assert (J : join_lexemes [(1%N, [form "на" "PREP"])] [] = Ok [[form "на" "PREP"]]) by (vm_compute; reflexivity).
  split; [exact J|]. split; [exact (join_nonempty _ _ _ J)|]. split; [discriminate|vm_compute; reflexivity].
Qed.

(** ** concrete cases *)
Lemma demo_compiled_eq : compile_parsed_dict demo_options demo_lexemes demo_links = Ok demo_compiled. Proof. vm_compute. reflexivity. Qed.
Lemma demo_loaded : loaded demo_compiled (m_dict demo).
Proof. repeat split; vm_compute; reflexivity. Qed.
Definition one_b (r : res (list parse)) (nf : str) (n : nat) : bool :=
  match r with Ok [p] => str_eqb (p_nf p) nf && match get_lexeme demo p with Ok fam => length fam =? n | Err _ => false end | _ => false end.
Lemma one_ok : forall r nf n, one_b r nf n = true -> exists p fam, r = Ok [p] /\ p_nf p = nf /\ get_lexeme demo p = Ok fam /\ length fam = n.
Proof.
  intros r nf n. unfold one_b. destruct r as [[|p [|q l]]|e]; try discriminate. intros H. apply andb_true_iff in H as [H1 H2]. apply str_eqb_eq in H1.
  destruct (get_lexeme demo p) as [fam|] eqn:E; [|discriminate]. apply Nat.eqb_eq in H2. exists p, fam. rewrite E. auto.
Qed.
Definition demo_joined : list lexeme := get_ok [] (join_lexemes demo_lexemes demo_links).
Lemma demo_joined_eq : join_lexemes demo_lexemes demo_links = Ok demo_joined. Proof. vm_compute. reflexivity. Qed.
Lemma compile_case : exists lxs, join_lexemes demo_lexemes demo_links = Ok lxs /\ compile_parsed_dict demo_options demo_lexemes demo_links = Ok demo_compiled /\
  loaded demo_compiled (m_dict demo) /\ has_units demo RU_DEFAULT_UNITS /\ m_prob demo = None /\ length lxs = 5 /\
  (exists lx, In lx lxs /\ nth_error lx 5 = Some (u "покраснее", u "COMP,Qual Cmp2")) /\
  exists p fam, morph_parse demo (u "Покраснее") = Ok [p] /\ p_nf p = u "красный" /\ get_lexeme demo p = Ok fam /\ length fam = 6.
Proof.
  exists demo_joined. split; [exact demo_joined_eq|]. split; [exact demo_compiled_eq|]. split; [exact demo_loaded|]. split; [destruct (construct_units _ _ _ _ _ _ _ _ _ _ _ demo_eq) as (HU & _); exact HU|]. split; [vm_compute; reflexivity|]. split; [vm_compute; reflexivity|]. split.
  - assert (N : nth_error demo_joined 1 = Some (nth 1 demo_joined [])) by (vm_compute; reflexivity). exists (nth 1 demo_joined []). split; [exact (nth_error_In _ _ N)|vm_compute; reflexivity].
  - apply one_ok. vm_compute. reflexivity.
Qed.
Definition predictsb (D : dict) (pid : nat) (e : str) (c k i : nat) : bool :=
  match nth_error (d_pred D) pid with Some dawg => match sget e dawg with Some vals => existsb (form3_eqb (c, k, i)) vals | None => false end | None => false end.
Lemma predictsb_ok : forall D pid e c k i, predictsb D pid e c k i = true -> predicts D pid e c k i.
Proof.
  intros D pid e c k i H. unfold predictsb in H. destruct (nth_error (d_pred D) pid) as [dawg|] eqn:N; [|discriminate]. destruct (sget e dawg) as [vals|] eqn:G; [|discriminate].
  exists dawg, vals. split; [exact N|]. split; [exact G|]. apply (existsb_eqb form3_eqb form3_eqb_eq). exact H.
Qed.
Lemma predicts_case : exists k, predicts (m_dict demo) 0 (u "ота") 2 k 1 /\ predicts (m_dict demo) 1 (u "ее") 1 1 5 /\ predicts (m_dict demo) 0 (u "ее") 1 1 4.
Proof. exists 0. split; [|split]; apply predictsb_ok; vm_compute; reflexivity. Qed.
Definition short_src : lexemes := [(1%N, [(u "ёж", u "NOUN")])].
Definition short_x : compiled := get_ok (MkCompiled [] [] [] [] [] (MkOpt 1 1 5 [[]])) (compile_parsed_dict (MkOpt 1 1 5 [[]]) short_src []).
Definition short_D : dict := MkDict (x_paradigms short_x) [MkTag (u "NOUN") [u "NOUN"]] [[]] (x_suffixes short_x) (x_words short_x) (x_pred short_x) 5.
Lemma short_words : exists o src links lxs x D k i e, join_lexemes src links = Ok lxs /\ compile_parsed_dict o src links = Ok x /\ loaded x D /\
  lxs = [[(e, u "NOUN")]] /\ (forall w k' i', stored D w k' i' -> w = e /\ k' = k /\ i' = i) /\ predicts D 0 e 4 k i.
Proof.
  exists (MkOpt 1 1 5 [[]]), short_src, [], [[(u "ёж", u "NOUN")]], short_x, short_D, 0, 0, (u "ёж").
  assert (J : join_lexemes short_src [] = Ok [[(u "ёж", u "NOUN")]]) by (vm_compute; reflexivity).
  assert (C : compile_parsed_dict (MkOpt 1 1 5 [[]]) short_src [] = Ok short_x) by (vm_compute; reflexivity).
  assert (L : loaded short_x short_D) by (repeat split; vm_compute; reflexivity).
  split; [exact J|]. split; [exact C|]. split; [exact L|]. split; [reflexivity|]. split; [|apply predictsb_ok; vm_compute; reflexivity].
  intros w k i (vals & G & I). assert (E : d_words short_D = [(u "ёж", [(0, 0)])]) by (vm_compute; reflexivity). rewrite E in G. apply (dget_In str_eqb str_eqb_eq) in G. destruct G as [G|[]]. injection G as <- <-. destruct I as [I|[]]. injection I as <- <-. auto.
Qed.
Lemma self_link : exists lx links out, NoDup (map fst lx) /\ links_exist lx (effective links) /\ join_lexemes lx links = Ok out /\ concat (map snd lx) <> [] /\ concat out = [].
Proof.
  exists [(1%N, [form "кот" "NOUN"])], [(1%N, 1%N, u "1")], []. split; [repeat constructor; simpl; tauto|]. split; [intros s e H; vm_compute in H; destruct H as [H|[]]; injection H as <- <-; simpl; auto|].
  split; [vm_compute; reflexivity|]. split; [discriminate|reflexivity].
Qed.
Lemma cycle_link : exists lx links st, NoDup (map fst lx) /\ links_exist lx (effective links) /\ join_lexemes_st lx links = Ok st /\
  (forall fuel, chase fuel (snd st) 1 = Err RecursionError) /\ forall t, join_lexemes lx (links ++ [(1%N, 2%N, t)]) = Err RecursionError \/ smem t EXCLUDED_LINK_TYPES = true.
Proof.
  set (lx := [(1%N, [form "кот" "NOUN"]); (2%N, [form "коты" "NOUN"])] : lexemes). set (links := [(1%N, 1%N, u "1")] : list link). exists lx, links. eexists.
  split; [repeat constructor; simpl; intuition discriminate|]. split; [intros s e H; vm_compute in H; destruct H as [H|[]]; injection H as <- <-; simpl; auto|].
  split; [vm_compute; reflexivity|]. split.
  - induction fuel as [|f IH]; [reflexivity|]. exact IH.
  - intros t. destruct (smem t EXCLUDED_LINK_TYPES) eqn:E; [right; reflexivity|left]. unfold join_lexemes, join_lexemes_st, links. cbn [app foldM].
    assert (S1 : join_step (lx, []) (1%N, 1%N, u "1") = Ok ([(1%N, []); (2%N, [form "коты" "NOUN"])], [(1%N, 1%N)])) by (vm_compute; reflexivity). rewrite S1. cbn [bind foldM join_step]. rewrite E. vm_compute. reflexivity.
Qed.
Lemma join_case : NoDup (map fst demo_lexemes) /\ links_exist demo_lexemes (effective demo_links) /\ acyclic (effective demo_links) /\
  NoDup (map snd (effective demo_links)) /\ effective demo_links = [(2%N, 3%N)] /\
  exists l1 l2 l4 l5 l6, join_lexemes demo_lexemes demo_links = Ok [l1; l2; l4; l5; l6] /\ l2 = forms_of demo_lexemes 2%N ++ forms_of demo_lexemes 3%N.
Proof.
  assert (E : effective demo_links = [(2%N, 3%N)]) by (vm_compute; reflexivity). rewrite E.
  assert (K : map fst demo_lexemes = [1; 2; 3; 4; 5; 6]%N) by reflexivity. split; [rewrite K; repeat constructor; simpl; intuition discriminate|].
  split; [intros s e H; rewrite K; destruct H as [H|[]]; injection H as <- <-; simpl; auto 8|]. split; [|split; [repeat constructor; simpl; tauto|split; [reflexivity|]]].
  - intros a l H. assert (X : forall l a, chain [(2%N, 3%N)] (a :: l) -> l = [] \/ (a = 2%N /\ l = [3%N])).
    { clear. intros l a H. destruct l as [|b l]; [auto|]. destruct H as [[H|[]] H2]. injection H as <- <-. destruct l as [|c l]; [auto|]. destruct H2 as [[H|[]] _]. discriminate. }
    destruct (X _ _ H) as [E1|[-> E1]]; destruct l as [|b [|c l]]; try discriminate.
  - do 5 eexists. split; [vm_compute; reflexivity|vm_compute; reflexivity].
Qed.
Lemma simplify_same : forall lx skip, (forall id l w t, In (id, l) lx -> In (w, t) l -> short (split_tag t)) ->
  Forall2 (fun o n : N * lexeme => fst n = fst o /\
    Forall2 (fun a b : str * str => fst b = fst a /\ exists ga gb, reads_as (snd a) ga /\ reads_as (snd b) gb /\ same_grammemes gb ga) (snd o) (snd n))
    lx (simplify_tags lx skip).
Proof.
  intros lx skip S. eapply f2_impl; [|exact (simplify_tags_ok lx skip S)]. intros a b [H1 H2]. split; [exact H1|]. eapply f2_impl; [|exact H2]. intros c d [H3 H4]. split; [exact H3|].
  exists (split_tag (snd c)), (split_tag (snd d)). split; [apply split_tag_reads|]. split; [apply split_tag_reads|exact H4].
Qed.
Definition shortb (lx : lexemes) : bool := forallb (fun l => forallb (fun wt => forallb (fun g => length g <=? 4) (split_tag (snd wt))) (snd l)) lx.
Lemma shortb_ok : forall lx, shortb lx = true -> forall id l w t, In (id, l) lx -> In (w, t) l -> short (split_tag t).
Proof.
  intros lx H id l w t I1 I2 g Hg. unfold shortb in H. rewrite forallb_forall in H. specialize (H _ I1). rewrite forallb_forall in H. specialize (H _ I2). rewrite forallb_forall in H. specialize (H _ Hg). apply Nat.leb_le. exact H.
Qed.
Definition loc_lex : lexemes := [(1%N, [form "а" "NOUN loct,sing"; form "б" "NOUN sing,loc1"; form "в" "NOUN sing,loc1"; form "г" "NOUN loct,sing"; form "д" "NOUN sing,loc1"])].
Lemma loc1_left : exists lx w t t', lx <> [] /\ (forall id l w t, In (id, l) lx -> In (w, t) l -> short (split_tag t)) /\
  (exists id l, In (id, l) lx /\ In (w, t) l) /\ (exists id l, In (id, l) (simplify_tags lx true) /\ In (w, t') l) /\
  ~ In (u "loc1") (split_tag t) /\ In (u "loc1") (split_tag t').
Proof.
  exists loc_lex, (u "а"), (u "NOUN loct,sing"), (u "NOUN sing,loc1"). split; [discriminate|]. split; [apply shortb_ok; vm_compute; reflexivity|]. split; [|split; [|split]].
  - eexists _, _. split; [left; reflexivity|left; reflexivity].
  - assert (E : simplify_tags loc_lex true = [(1%N, [form "а" "NOUN sing,loc1"; form "б" "NOUN sing,loct"; form "в" "NOUN sing,loct"; form "г" "NOUN sing,loc1"; form "д" "NOUN sing,loct"])]) by (vm_compute; reflexivity).
    rewrite E. eexists _, _. split; [left; reflexivity|left; reflexivity].
  - intros H. apply smem_In in H. vm_compute in H. discriminate.
  - apply smem_In. vm_compute. reflexivity.
Qed.
Lemma simplify_case : (forall id l w t, In (id, l) demo_lexemes -> In (w, t) l -> short (split_tag t)) /\
  simplify_tags [(1%N, [form "а" "NOUN,masc sing,gen1"; form "б" "NOUN,masc sing,gent"; form "в" "NOUN,masc gent,sing"; form "в" "NOUN,masc gent,sing"; form "г" "NOUN sing,loc1"])] true =
    [(1%N, [form "а" "NOUN,masc gent,sing"; form "б" "NOUN,masc gent,sing"; form "в" "NOUN,masc gent,sing"; form "в" "NOUN,masc gent,sing"; form "г" "NOUN sing,loct"])].
Proof. split; [apply shortb_ok; vm_compute; reflexivity|vm_compute; reflexivity]. Qed.
Lemma drop_spec : forall lx, map fst (drop_unsupported lx) = map fst lx /\
  Forall2 (fun o n : N * lexeme => exists f, snd n = filter f (snd o) /\
    forall w t, In (w, t) (snd o) -> (f (w, t) = false <-> exists a b, t = a ++ u "Init" ++ b)) lx (drop_unsupported lx).
Proof.
  intros lx. unfold drop_unsupported, map_lexemes. split; [rewrite map_map; reflexivity|]. induction lx as [|[id l] lx IH]; cbn [map]; constructor; auto.
  exists (fun wt => negb (substrb (u "Init") (snd wt))). split; [reflexivity|]. intros w t _. cbn [snd]. rewrite negb_false_iff. rewrite substrb_spec. reflexivity.
Qed.
