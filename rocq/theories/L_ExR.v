(** * Concrete cases for C72 *)
From Coq Require Import String List NArith ZArith Bool QArith Qround Lia.
From Verif Require Import Py Uni Tagset Dawg Dict Utils Shapes Units Analyzer ConfigRu Compile Preprocess Json Probability Rounding Spec Spec5 Spec22 Ex.
From Verif Require Import L_Base L_Ex L_Made L_Parse L_Groups L_ExU L_Rounding L_Rounding3 L_Rounding4 L_Rounding5 L_Rounding6.
Import ListNotations.
Local Open Scope nat_scope.
Local Open Scope list_scope.

(** ** small numbers, from the sizes of the stored data *)
Definition csum (vals : list (nat * nat * nat)) : nat := list_sum (map (fun v => fst (fst v)) vals).
Definition at_key (d : rdawg (nat * nat * nat)) (v : str) : nat := match sget v d with Some vals => csum vals | None => 0 end.
Lemma at_key_cons : forall k vals d v, at_key ((k, vals) :: d) v = if str_eqb v k then csum vals else at_key d v.
Proof. intros k vals d v. unfold at_key, sget. cbn [dget]. destruct (str_eqb v k); reflexivity. Qed.
Lemma at_keys_total : forall d vs, NoDup vs -> list_sum (map (at_key d) vs) <= list_sum (map (fun kv => csum (snd kv)) d).
Proof.
  induction d as [|[k vals] d IH]; intros vs N.
  - induction vs as [|v vs IH]; [cbn; lia|]. inversion N; subst. cbn. apply IH. assumption.
  - assert (X : list_sum (map (at_key ((k, vals) :: d)) vs) <= csum vals + list_sum (map (at_key d) vs)).
    { clear IH. induction vs as [|v vs IH]; [cbn; lia|]. inversion N as [|? ? N1 N2]; subst. cbn [map]. cbn [list_sum fold_right]. fold (list_sum (map (at_key ((k, vals) :: d)) vs)). fold (list_sum (map (at_key d) vs)). rewrite at_key_cons.
      destruct (str_eqb v k) eqn:E.
      - apply str_eqb_eq in E. subst k. assert (Y : map (at_key ((v, vals) :: d)) vs = map (at_key d) vs).
        { apply map_ext_in. intros x I. rewrite at_key_cons. destruct (str_eqb x v) eqn:E2; [|reflexivity]. apply str_eqb_eq in E2. subst. contradiction. }
        rewrite Y. lia.
      - specialize (IH N2). lia. }
    cbn [map snd]. change (list_sum (?a :: ?l)) with (a + list_sum l). specialize (IH vs N). lia.
Qed.
Lemma counts_similar : forall d r s, list_sum (counts_of (similar_items d r s)) = list_sum (map (at_key d) (variants r s)).
Proof.
  intros d r s. unfold counts_of, similar_items. induction (variants r s) as [|v vs IH]; [reflexivity|]. cbn [flat_map map]. change (list_sum (?a :: ?l)) with (a + list_sum l). rewrite <- IH. rewrite flat_map_app, map_app, list_sum_app. f_equal. unfold at_key. destruct (sget v d); [|reflexivity]. cbn [flat_map snd]. rewrite app_nil_r. reflexivity.
Qed.
Definition smallb (M : morph) : bool :=
  forallb (fun dawg : rdawg (nat * nat * nat) => forallb (fun kv : str * list (nat * nat * nat) => forallb (fun v => fst (fst v) <? 1000) (snd kv)) dawg && (list_sum (map (fun kv => csum (snd kv)) dawg) <? 1000)) (d_pred (m_dict M))
  && match m_prob M with Some d => forallb (fun kv : str * N => (snd kv <=? 1000000)%N) d | None => true end.
Lemma smallb_ok : forall M, smallb M = true -> subst_proper (m_subst M) -> small_numbers M.
Proof.
  intros M H P. unfold smallb in H. apply andb_true_iff in H as [H1 H2]. split.
  - intros dawg I s. rewrite forallb_forall in H1. specialize (H1 _ I). apply andb_true_iff in H1 as [A B]. split.
    + apply Forall_forall. intros c C. unfold counts_of in C. apply in_map_iff in C as (v & <- & C). apply in_flat_map in C as ([w vals] & C1 & C2). apply similar_items_In in C1 as [_ C1]. apply sget_In in C1.
      rewrite forallb_forall in A. specialize (A _ C1). rewrite forallb_forall in A. specialize (A _ C2). apply Nat.ltb_lt in A. lia.
    + rewrite counts_similar. assert (T := at_keys_total dawg _ (variants_NoDup (m_subst M) s P)). apply Nat.ltb_lt in B. lia.
  - intros d k n E G. rewrite E in H2. rewrite forallb_forall in H2. apply sget_In in G. specialize (H2 _ G). apply N.leb_le in H2. cbn [snd] in H2. lia.
Qed.
Lemma demo_np_small : small_numbers demo_np.
Proof. apply smallb_ok; [vm_compute; reflexivity|exact e_yo_proper]. Qed.
(** a predicted word: two readings or more, with scores that are not what exact arithmetic gives *)
Definition differb (M : morph) (w : str) : bool :=
  match parse_b64 M w, morph_parse M w with
  | Ok ps, Ok qs => (2 <=? length ps) && existsb (fun pq : parse * parse => negb (Qeq_bool (p_score (fst pq)) (p_score (snd pq)))) (combine ps qs)
  | _, _ => false
  end.
Lemma differb_ok : forall M w, differb M w = true -> exists ps qs, parse_b64 M w = Ok ps /\ morph_parse M w = Ok qs /\ 2 <= length ps /\ exists p q, In (p, q) (combine ps qs) /\ ~ (p_score p == p_score q)%Q.
Proof.
  intros M w H. unfold differb in H. destruct (parse_b64 M w) as [ps|]; [|discriminate H]. destruct (morph_parse M w) as [qs|]; [|discriminate H]. exists ps, qs. apply andb_true_iff in H as [H1 H2]. apply Nat.leb_le in H1. repeat split; [exact H1|].
  apply existsb_exists in H2 as ([p q] & I & N). exists p, q. split; [exact I|]. intros E. apply Qeq_bool_iff in E. cbn [fst snd] in N. rewrite E in N. discriminate N.
Qed.
Lemma differ_case : differb demo_np (u "мегакота") = true.
Proof. vm_compute. reflexivity. Qed.

(** ** a tie broken by rounding *)
Definition tie_tags : list str := [u "NOUN"; u "NOUN,anim,inan,masc,femn,neut,plur,nomn,Sgtm,Fixd,Abbr,Qual,Cmp2"; u "plur"].
Definition tie_dict (gt : list tag) : dict :=
  MkDict [[0; 1; 2; 0; 1; 2; 0; 0; 0]] gt [[]] [[]; u "а"; u "у"] [(u "кот", [(0, 0)]); (u "кота", [(0, 1)]); (u "коту", [(0, 2)])] [[]] 1.
Definition tie_demo : morph := snd (get_ok (tc_initial, null_morph)
  (construct uni_named false tc_initial demo_rows tie_tags tie_dict None e_yo RU_DEFAULT_UNITS)).
Lemma tie_demo_eq : construct uni_named false tc_initial demo_rows tie_tags tie_dict None e_yo RU_DEFAULT_UNITS = Ok (m_tc tie_demo, tie_demo).
Proof. apply get_snd; [vm_compute; reflexivity|]. intros C M H. exact (construct_tc _ _ _ _ _ _ _ _ _ _ _ H). Qed.
Definition tie_form : parse := hd {| p_word := []; p_tag := MkTag [] []; p_nf := []; p_score := 0; p_stack := [] |} (get_ok [] (morph_parse tie_demo (u "кот"))).
Definition words_of (r : res (option parse)) : option str := match r with Ok (Some p) => Some (p_word p) | _ => None end.
Lemma words_of_ok : forall r w, words_of r = Some w -> exists p, r = Ok (Some p) /\ p_word p = w.
Proof. intros [[p|]|e] w H; try discriminate H. injection H as <-. exists p. auto. Qed.
Lemma tie_refuted : exists M form req p q,
  shipped_units M /\ (exists ps, morph_parse M (u "кот") = Ok ps /\ In form ps) /\
  inflect M form req = Ok (Some p) /\ inflect_fl b64 M form req = Ok (Some q) /\ p_word p = u "кота" /\ p_word q = u "коту".
Proof.
  assert (A : words_of (inflect tie_demo tie_form [u "plur"]) = Some (u "кота")) by (vm_compute; reflexivity).
  assert (B : words_of (inflect_fl b64 tie_demo tie_form [u "plur"]) = Some (u "коту")) by (vm_compute; reflexivity).
  apply words_of_ok in A as (p & A1 & A2). apply words_of_ok in B as (q & B1 & B2).
  exists tie_demo, tie_form, [u "plur"], p, q. split; [|split; [|auto]].
  - left. destruct (construct_units _ _ _ _ _ _ _ _ _ _ _ tie_demo_eq) as (H & _). exact H.
  - assert (E : match morph_parse tie_demo (u "кот") with Ok [_] => true | _ => false end = true) by (vm_compute; reflexivity). unfold tie_form.
    destruct (morph_parse tie_demo (u "кот")) as [[|x [|y l]]|e]; try discriminate E. exists [x]. split; [reflexivity|left; reflexivity].
Qed.

(** ** a stored probability that is one millionth too small: 41/80 = 0.5125 *)
Definition repeat_word (n : nat) (t : str) : corpus := repeat (u "тем", [t]) n.
Definition half_corpus : corpus := repeat_word 40 (u "CONJ") ++ repeat_word 38 (u "NOUN").
Definition zero_plain : morph := snd (get_ok (tc_initial, null_morph)
  (construct uni_named false tc_initial zero_rows [u "CONJ"; u "NOUN"] zero_dict None e_yo RU_DEFAULT_UNITS)).
Lemma zero_plain_eq : construct uni_named false tc_initial zero_rows [u "CONJ"; u "NOUN"] zero_dict None e_yo RU_DEFAULT_UNITS = Ok (m_tc zero_plain, zero_plain).
Proof. apply get_snd; [vm_compute; reflexivity|]. intros C M H. exact (construct_tc _ _ _ _ _ _ _ _ _ _ _ H). Qed.
Definition cpd_eqb (a b : cpd) : bool := (length a =? length b) && forallb (fun xy : (str * N) * (str * N) => str_eqb (fst (fst xy)) (fst (snd xy)) && (snd (fst xy) =? snd (snd xy))%N) (combine a b).
Lemma cpd_eqb_ok : forall a b, cpd_eqb a b = true -> a = b.
Proof.
  intros a. induction a as [|[k v] a IH]; intros [|[k' v'] b] H; try reflexivity; unfold cpd_eqb in H; cbn [length combine forallb fst snd] in H; try discriminate H. apply andb_true_iff in H as [L H]. apply andb_true_iff in H as [E H]. apply andb_true_iff in E as [E1 E2]. apply str_eqb_eq in E1. apply N.eqb_eq in E2. subst. f_equal. apply IH. unfold cpd_eqb. rewrite H. cbn in L. rewrite L. reflexivity.
Qed.
Lemma okb_eq : forall (r : res cpd) t, match r with Ok x => cpd_eqb x t | Err _ => false end = true -> r = Ok t.
Proof. intros [x|e] t H; [|discriminate H]. apply cpd_eqb_ok in H. subst. reflexivity. Qed.
Lemma table_exact : probability_table zero_plain half_corpus 1 = Ok [(prob_key (u "тем") (u "CONJ"), 512500%N); (prob_key (u "тем") (u "NOUN"), 487500%N)].
Proof. apply okb_eq. vm_compute. reflexivity. Qed.
Lemma table_float : probability_table_fl b64 zero_plain half_corpus 1 = Ok [(prob_key (u "тем") (u "CONJ"), 512499%N); (prob_key (u "тем") (u "NOUN"), 487500%N)].
Proof. apply okb_eq. vm_compute. reflexivity. Qed.
Definition has_table (M : morph) : bool := match m_prob M with Some _ => true | None => false end.
Lemma has_table_ok : forall M, has_table M = true -> m_prob M <> None.
Proof. intros M H E. unfold has_table in H. rewrite E in H. discriminate H. Qed.
Lemma demo_np_table : has_table demo_np = true.
Proof. vm_compute. reflexivity. Qed.
Lemma case_of : forall M w, scores_pos M -> small_numbers M -> has_table M = true -> differb M w = true ->
  scores_pos M /\ small_numbers M /\ m_prob M <> None /\
  exists ps qs, parse_b64 M w = Ok ps /\ morph_parse M w = Ok qs /\ 2 <= length ps /\
  exists p q, In (p, q) (combine ps qs) /\ ~ (p_score p == p_score q)%Q.
Proof. intros M w A B C D. split; [exact A|]. split; [exact B|]. split; [exact (has_table_ok M C)|exact (differb_ok M w D)]. Qed.
Lemma table_diff : exists M c a b, probability_table_fl b64 M c 1 = Ok a /\ probability_table M c 1 = Ok b /\
  (prob b (u "тем") (u "CONJ") == 5125 # 10000)%Q /\ (prob a (u "тем") (u "CONJ") == 512499 # 1000000)%Q.
Proof. exists zero_plain, half_corpus. eexists. eexists. split; [exact table_float|]. split; [exact table_exact|]. split; apply Qeq_bool_iff; vm_compute; reflexivity. Qed.
Definition sizesb (form : parse) (req : sset) (lex : list parse) : bool :=
  (length (t_gr (p_tag form)) + length req <? 20) && forallb (fun f => length (t_gr (p_tag f)) <? 12) lex.
Lemma sizesb_ok : forall form req lex, sizesb form req lex = true -> sizes_ok form req lex.
Proof.
  intros form req lex H. unfold sizesb in H. apply andb_true_iff in H as [A B]. apply Nat.ltb_lt in A. rewrite forallb_forall in B. split; [lia|]. split.
  - intros f F. specialize (B f F). apply Nat.ltb_lt in B. lia.
  - intros f f' F _. specialize (B f F). apply Nat.ltb_lt in B. assert (L := slen_le_length (t_gr (p_tag f))). lia.
Qed.
Definition cat_form : parse := hd {| p_word := []; p_tag := MkTag [] []; p_nf := []; p_score := 0; p_stack := [] |} (get_ok [] (morph_parse demo_np (u "мегакота"))).
Definition inflects_to (M : morph) (form : parse) (req : sset) (w : str) : bool :=
  match get_lexeme M form with Ok lex => (2 <=? length lex) && sizesb form req lex | Err _ => false end && match words_of (inflect M form req) with Some v => str_eqb v w | None => false end.
Lemma inflects_ok : forall M form req w, inflects_to M form req w = true -> exists lex p, get_lexeme M form = Ok lex /\ sizes_ok form req lex /\ inflect M form req = Ok (Some p) /\ p_word p = w.
Proof.
  intros M form req w H. unfold inflects_to in H. apply andb_true_iff in H as [A B]. destruct (get_lexeme M form) as [lex|]; [|discriminate A]. apply andb_true_iff in A as [_ A]. apply sizesb_ok in A.
  destruct (words_of (inflect M form req)) as [v|] eqn:V; [|discriminate B]. apply str_eqb_eq in B. subst v. apply words_of_ok in V as (p & V1 & V2). exists lex, p. auto.
Qed.
Lemma inflects_demo : inflects_to demo_np cat_form [u "plur"; u "datv"] (u "мегакотам") = true.
Proof. vm_compute. reflexivity. Qed.

(** ** how large the errors are *)
Lemma demo_small : small_numbers demo.
Proof. apply smallb_ok; [vm_compute; reflexivity|exact e_yo_proper]. Qed.
Lemma demo_scores_pos : scores_pos demo.
Proof.
  assert (E : forallb (fun bt : bunit * bool => Qgtb (unit_score (b_cfg (fst bt))) 0) (m_units demo) = true) by (vm_compute; reflexivity).
  apply Forall_forall. intros bt H. rewrite forallb_forall in E. apply Qgtb_lt. exact (E _ H).
Qed.
Lemma differ_plain : differb demo (u "не-кота-то") = true.
Proof. vm_compute. reflexivity. Qed.
(** readings without an entry in the table, whose scores do not add up to 1 *)
Definition short_sum (M : morph) (d : cpd) (w : str) : bool :=
  match parse_b64 M w with
  | Ok ps => (2 <=? length ps) && forallb (fun p => Qeq_bool (prob d (u_lower (m_uni M) w) (t_str (p_tag p))) 0) ps && negb (Qeq_bool (Qsum (map p_score ps)) 1)
  | Err _ => false
  end.
Lemma short_sum_ok : forall M d w, short_sum M d w = true -> exists ps, parse_b64 M w = Ok ps /\ 2 <= length ps /\
  (forall p, In p ps -> prob d (u_lower (m_uni M) w) (t_str (p_tag p)) == 0)%Q /\ ~ (Qsum (map p_score ps) == 1)%Q.
Proof.
  intros M d w H. unfold short_sum in H. destruct (parse_b64 M w) as [ps|e]; [|discriminate H]. apply andb_true_iff in H as [H C]. apply andb_true_iff in H as [A B]. exists ps. split; [reflexivity|]. apply Nat.leb_le in A. split; [exact A|]. split.
  - intros p I. rewrite forallb_forall in B. apply Qeq_bool_iff. exact (B p I).
  - intros E. apply Qeq_bool_iff in E. rewrite E in C. discriminate C.
Qed.
Lemma demo_np_short : short_sum demo_np demo_cpd (u "мегакота") = true.
Proof. vm_compute. reflexivity. Qed.
Lemma demo_np_cpd : m_prob demo_np = Some demo_cpd.
Proof. vm_compute. reflexivity. Qed.
