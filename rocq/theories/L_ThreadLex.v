(** * p.lexeme, p.normalized and p.inflect() of a thread give what they give alone *)
From Coq Require Import String List NArith ZArith Bool Lia QArith.
From Verif Require Import Py Uni Tagset Dawg Utils Shapes Dict Units Analyzer Threads Spec6 Spec11.
From Verif Require Import L_Base L_Tagset L_Made L_Source L_Threads L_Threads2 L_ThreadParse.
Import ListNotations.
Local Open Scope nat_scope.
Local Open Scope list_scope.

Lemma bind_assoc : forall A B D (x : res A) (f : A -> res B) (g : B -> res D), bind (bind x f) g = bind x (fun a => bind (f a) g).
Proof. intros A B D [a|e] f g; reflexivity. Qed.
Lemma max_from_pairs : forall (k : parse -> Q) l x, fst (max_from (fun a b : parse * Q => Qgtb (snd a) (snd b)) (x, k x) (map (fun y => (y, k y)) l)) = max_from (fun a b => Qgtb (k a) (k b)) x l.
Proof. intros k l. induction l as [|y l IH]; intros x; [reflexivity|]. cbn [map max_from snd]. destruct (Qgtb (k y) (k x)); apply IH. Qed.
Lemma max_first_pairs : forall (k : parse -> Q) l, option_map fst (max_first (fun a b : parse * Q => Qgtb (snd a) (snd b)) (combine l (map k l))) = max_first (fun a b => Qgtb (k a) (k b)) l.
Proof. intros k l. rewrite combine_map. destruct l as [|x l]; [reflexivity|]. cbn [map max_first option_map]. f_equal. apply max_from_pairs. Qed.

Section Ok.
  Variables (U : uni) (tag_of : nat -> tag) (func : str -> res str).
  Variable I : mem -> Prop.
  Hypothesis I_caches : forall m, I m -> caches U tag_of func m.
  Hypothesis I_gr : forall m o, I m -> I (fst (exec (SetGr o (t_gr (tag_of o))) m)).
  Variable bad : exn -> Prop.
  Notation okp x m p := (safe I grows (ok_or bad x) m p).
  Variable M : morph.
  Variable o : tag -> nat.
  Variable C : tagclass.
  Hypothesis OB : forall t, tag_source M t -> tag_of (o t) = t.
  Notation MC := (in_class C M).
  Hypothesis H_masc : forall t m, tag_source M t -> okp (contains C (u "masc") t) m (contains_t tag_of (u "masc") (o t)).
  Notation ok_ret := (ok_ret I bad).
  Notation ok_bind := (ok_bind I bad).
  Notation ok_grammemes := (ok_grammemes U tag_of func I I_caches I_gr bad M o OB).
  Lemma okp_eq : forall A (x y : res A) m p, x = y -> okp x m p -> okp y m p. Proof. intros. subst. auto. Qed.

  Lemma ok_gender : forall b t m, tag_source M t -> okp (gender_tags MC b t) m (gender_tags_p tag_of o b t).
  Proof. intros b t m S. unfold gender_tags, gender_tags_p. apply ok_bind; [apply H_masc; exact S|]. intros a m' _. apply ok_ret. Qed.
  Lemma ok_hy : forall t m, tag_source M t -> okp (Ok (hy_grammemes t)) m (hy_grammemes_p tag_of o t).
  Proof. intros t m S. unfold hy_grammemes_p. apply (ok_bind _ _ (Ok (Some (t_gr t))) (fun gs => Ok (replace_grammemes (the_set gs) CONSIDER_THE_SAME))); [apply ok_grammemes; exact S|]. intros a m' _. apply ok_ret. Qed.
  Lemma ok_closest : forall r ls best cur m, (forall p, In p ls -> tag_source M (p_tag p)) -> okp (Ok (closest r ls best cur)) m (closest_p tag_of o (hy_grammemes (p_tag r)) ls best cur).
  Proof.
    intros r ls. induction ls as [|l ls IH]; intros best cur m S; cbn [closest closest_p]; [apply ok_ret|].
    apply (okp_eq _ (let* gl := Ok (hy_grammemes (p_tag l)) in if (N.of_nat (slen (ssymdiff gl (hy_grammemes (p_tag r)))) <? best)%N then Ok (closest r ls (N.of_nat (slen (ssymdiff gl (hy_grammemes (p_tag r))))) (Some l)) else Ok (closest r ls best cur))).
    { cbn [bind]. unfold hy_dist. cbv zeta. destruct (_ <? best)%N; reflexivity. }
    apply ok_bind; [apply ok_hy, S; left; reflexivity|]. intros gl m' _. destruct (_ <? best)%N; apply IH; intros p J; apply S; right; exact J.
  Qed.
  Lemma ok_merge1 : forall self ls r m, (forall p, In p ls -> tag_source M (p_tag p)) -> tag_source M (p_tag r) -> okp (merge1 self ls r) m (merge1_p tag_of o self ls r).
  Proof.
    intros self ls r m Sl Sr. unfold merge1_p.
    apply (okp_eq _ (let* gr := Ok (hy_grammemes (p_tag r)) in let* c := Ok (closest r ls 1000000 None) in match c with None => Err TypeError | Some l => Ok {| p_word := hyphen_join (p_word l) (p_word r); p_tag := p_tag l; p_nf := hyphen_join (p_nf l) (p_nf r); p_score := (p_score l + p_score r) / 2; p_stack := [MHyphBoth self (p_stack l) (p_stack r)] |} end)); [reflexivity|].
    apply ok_bind; [apply ok_hy; exact Sr|]. intros gr m1 E. apply Ok_inj in E. subst gr. apply ok_bind; [apply ok_closest; exact Sl|]. intros c m2 _. destruct c; apply ok_ret.
  Qed.
  (** a generator of forms, and its consumer *)
  Lemma ok_hyph_forms : forall B (lex : uref -> parse -> res (list parse)) qlex self form (k : list (res parse) -> res B) q m,
    (forall who f l m, tag_source M (p_tag f) -> lex who f = Ok l -> okp (lex who f) m (qlex who f) /\ forall x, In x l -> tag_source M (p_tag x)) ->
    (forall who f m, tag_source M (p_tag f) -> okp (lex who f) m (qlex who f)) ->
    (forall A (l : list A) (f : A -> res parse) g m, (forall x m, In x l -> okp (f x) m (g x)) -> okp (k (map f l)) m (q (map g l))) ->
    tag_source M (p_tag form) ->
    okp (let* l := hyph_forms lex self form in k l) m (hyph_forms_p tag_of o qlex self form q).
  Proof.
    intros B lex qlex self form k q m HS HL HK S. unfold hyph_forms, hyph_forms_p. destruct (p_stack form) as [|mt [|m2 rest]]; [apply ok_ret| |destruct mt; apply ok_ret]. destruct mt as [| |r lw rights|r lefts rights]; try apply ok_ret.
    - destruct (negb (uref_eqb r self)); [apply ok_ret|]. cbv zeta. rewrite bind_assoc. apply ok_bind; [apply ok_ret|]. intros base m1 _. rewrite bind_assoc. apply ok_bind; [apply HL; exact S|]. intros fs m3 _. cbn [bind].
      apply HK. intros x m4 _. apply ok_ret.
    - destruct (negb (uref_eqb r self)); [apply ok_ret|]. rewrite bind_assoc. apply ok_bind; [apply ok_ret|]. intros lf m1 E1. rewrite bind_assoc. apply ok_bind; [apply ok_ret|]. intros rf m2 E2.
      assert (Sl : tag_source M (p_tag lf)). { unfold without_right_part in E1. apply bind_ok in E1 as (? & _ & E1). apply bind_ok in E1 as (? & _ & E1). apply Ok_inj in E1. subst lf. exact S. }
      assert (Sr : tag_source M (p_tag rf)). { unfold without_left_part in E2. apply bind_ok in E2 as (? & _ & E2). apply bind_ok in E2 as (? & _ & E2). apply Ok_inj in E2. subst rf. exact S. }
      rewrite bind_assoc. apply ok_bind; [apply ok_ret|]. intros lu m3 _. rewrite bind_assoc. apply ok_bind; [apply HL; exact Sl|]. intros ll m4 E3. rewrite bind_assoc. apply ok_bind; [apply ok_ret|]. intros ru m5 _. rewrite bind_assoc. apply ok_bind; [apply HL; exact Sr|]. intros rl m6 E4. cbn [bind].
      apply HK. intros x m7 J. apply ok_merge1; [exact (proj2 (HS _ _ _ m7 Sl E3))|exact (proj2 (HS _ _ _ m7 Sr E4) x J)].
  Qed.
  Lemma ok_sequence : forall A (l : list A) (f : A -> res parse) g m, (forall x m, In x l -> okp (f x) m (g x)) -> okp (sequence (map f l)) m (pmap (fun x => x) (map g l)).
  Proof.
    intros A l f g. induction l as [|x l IH]; intros m H; cbn [map pmap]; [apply ok_ret|]. unfold sequence. cbn [mapM]. apply ok_bind; [apply H; left; reflexivity|]. intros y m1 _. apply ok_bind; [apply IH; intros z m2 J; apply H; right; exact J|]. intros ys m2 _. apply ok_ret.
  Qed.
  Lemma ok_analogy : forall A B (f : uref -> parse -> res A) q form undec na (fin : str -> method -> A -> B) m, (forall who x m, tag_source M (p_tag x) -> okp (f who x) m (q who x)) ->
    (forall a x, p_tag (undec a x) = p_tag x) -> tag_source M (p_tag form) ->
    okp (let* mi := method_info (p_stack form) in let '(base, this) := mi in let* a := if (na : bool) then method_arg1 this else Ok [] in let* x := f (m_unit base) (without_last_method (undec a form)) in Ok (fin a this x)) m (analogy_p q form undec na fin).
  Proof.
    intros A B f q form undec na fin m H UD S. unfold analogy_p. apply ok_bind; [apply ok_ret|]. intros [base this] m1 _. apply ok_bind; [apply ok_ret|]. intros a m2 _. apply ok_bind; [apply H; unfold without_last_method, replace_methods_stack; cbn [p_tag]; rewrite UD; exact S|]. intros x m3 _. apply ok_ret.
  Qed.
  Lemma in_class_source : forall t, tag_source MC t <-> tag_source M t. Proof. intros t. reflexivity. Qed.
  Lemma ok_lexeme_f : forall n who form m, tag_source M (p_tag form) -> okp (lexeme_f n MC who form) m (lexeme_p tag_of M o n who form).
  Proof.
    induction n as [|n IH]; intros who form m S; [apply ok_ret|]. cbn [lexeme_f lexeme_p]. destruct who as [i|i]; [|apply ok_ret]. cbn [m_units in_class]. apply ok_bind; [apply ok_ret|]. intros [b tm] m1 _. cbn [fst]. cbv zeta.
    destruct (b_cfg b) as [|first letters pat sc|sc|sc|sc|sc|parts mult|mult|skip mult|pfx mult mr|mult|mult ml|]; try apply ok_ret.
    - destruct first; [|apply ok_ret]. apply ok_bind; [apply ok_gender; exact S|]. intros ts m2 _. apply ok_ret.
    - apply (ok_analogy _ _ (lexeme_f n MC) (lexeme_p tag_of M o n) form (fun a x => without_fixed_suffix x (length a)) true); auto.
    - apply ok_hyph_forms; [|intros; apply IH; auto|intros; apply ok_sequence; auto|exact S].
      intros who f l m2 Sf E. split; [apply IH; exact Sf|]. intros x J. exact (lexeme_source_f n MC who f Sf l x E J).
    - apply (ok_analogy _ _ (lexeme_f n MC) (lexeme_p tag_of M o n) form (fun a x => without_fixed_prefix x (length a)) true); auto.
    - apply (ok_analogy _ _ (lexeme_f n MC) (lexeme_p tag_of M o n) form (fun a x => without_fixed_prefix x (length a)) true); auto.
    - apply (ok_analogy _ _ (lexeme_f n MC) (lexeme_p tag_of M o n) form (fun _ x => x) false (fun _ this => map (fun x => append_method x this))); auto.
  Qed.
  Lemma ok_normalized_f : forall n who form m, tag_source M (p_tag form) -> okp (normalized_f n MC who form) m (normalized_p_f tag_of M o n who form).
  Proof.
    induction n as [|n IH]; intros who form m S; [apply ok_ret|]. cbn [normalized_f normalized_p_f]. destruct who as [i|i]; [|apply ok_ret]. cbn [m_units in_class]. apply ok_bind; [apply ok_ret|]. intros [b tm] m1 _. cbn [fst]. cbv zeta.
    destruct (b_cfg b) as [|first letters pat sc|sc|sc|sc|sc|parts mult|mult|skip mult|pfx mult mr|mult|mult ml|]; try apply ok_ret.
    - destruct first.
      + apply ok_bind; [apply ok_gender; exact S|]. intros ts m2 _. apply ok_bind; [apply ok_ret|]. intros t m3 _. apply ok_ret.
      + apply ok_bind; [apply ok_ret|]. intros t m3 _. apply ok_ret.
    - apply (ok_analogy _ _ (normalized_f n MC) (normalized_p_f tag_of M o n) form (fun a x => without_fixed_suffix x (length a)) true); auto.
    - apply ok_hyph_forms; [|intros; apply ok_lexeme_f; auto| |exact S].
      + intros who f l m2 Sf E. split; [apply ok_lexeme_f; exact Sf|]. intros x J. exact (lexeme_source_f n MC who f Sf l x E J).
      + intros A l f g m2 H. destruct l as [|x l]; [apply ok_ret|]. cbn [map]. apply H. left. reflexivity.
    - apply (ok_analogy _ _ (normalized_f n MC) (normalized_p_f tag_of M o n) form (fun a x => without_fixed_prefix x (length a)) true); auto.
    - apply (ok_analogy _ _ (normalized_f n MC) (normalized_p_f tag_of M o n) form (fun a x => without_fixed_prefix x (length a)) true); auto.
    - apply (ok_analogy _ _ (normalized_f n MC) (normalized_p_f tag_of M o n) form (fun _ x => x) false (fun _ this x => append_method x this)); auto.
  Qed.
  Lemma ok_lexeme : forall form m, tag_source M (p_tag form) -> okp (get_lexeme MC form) m (get_lexeme_p tag_of M o form).
  Proof. intros form m S. unfold get_lexeme, get_lexeme_p. apply ok_bind; [apply ok_ret|]. intros who m1 _. apply ok_lexeme_f. exact S. Qed.
  Lemma ok_normalized : forall form m, tag_source M (p_tag form) -> okp (normalized MC form) m (normalized_p tag_of M o form).
  Proof. intros form m S. unfold normalized, normalized_p. apply ok_bind; [apply ok_ret|]. intros who m1 _. apply ok_normalized_f. exact S. Qed.
  Lemma lexeme_source : forall form l f, tag_source M (p_tag form) -> get_lexeme MC form = Ok l -> In f l -> tag_source M (p_tag f).
  Proof. intros form l f S H J. unfold get_lexeme in H. apply bind_ok in H as (who & _ & H). exact (lexeme_source_f _ MC _ _ S _ _ H J). Qed.
  Lemma ok_has_all : forall req f m, tag_source M (p_tag f) -> okp (Ok (has_all req f)) m (has_all_p tag_of o req f).
  Proof. intros req f m S. unfold has_all_p. apply (ok_bind _ _ (Ok (Some (t_gr (p_tag f)))) (fun gs => Ok (ssub req (the_set gs)))); [apply ok_grammemes; exact S|]. intros gs m1 _. apply ok_ret. Qed.
  Lemma ok_similarity : forall gr f m, tag_source M (p_tag f) -> okp (Ok (similarity gr f)) m (similarity_p tag_of o gr f).
  Proof.
    intros gr f m S. unfold similarity_p. apply (ok_bind _ _ (Ok (Some (t_gr (p_tag f)))) (fun gs => let* gs' := Ok (Some (t_gr (p_tag f))) in Ok (inject_Z (Z.of_nat (slen (sinter gr (the_set gs)))) - (1 # 10) * inject_Z (Z.of_nat (slen (ssymdiff gr (the_set gs')))))%Q)); [apply ok_grammemes; exact S|].
    intros gs m1 _. apply ok_bind; [apply ok_grammemes; exact S|]. intros gs' m2 _. apply ok_ret.
  Qed.
  (** required grammemes for which the class answers as [C] does *)
  Variable G : str -> Prop.
  Hypothesis H_req : forall g acc m, G g -> okp (let* k := grammeme_is_known C g in if k then Ok (sdiff acc (incompat_of C g)) else Err ValueError) m
                                            (do* k := grammeme_is_known_t g in if k then do* inc := act (IncompatGet g) in ret (sdiff acc inc) else raise ValueError).
  Lemma ok_updated : forall t req m, tag_source M t -> (forall g, In g req -> G g) -> okp (updated_grammemes C t req) m (updated_p tag_of o t req).
  Proof.
    intros t req m S H. unfold updated_p. apply (okp_eq _ (let* gs := Ok (Some (t_gr t)) in foldM (fun acc g => let* k := grammeme_is_known C g in if k then Ok (sdiff acc (incompat_of C g)) else Err ValueError) (sunion (the_set gs) req) req)); [reflexivity|].
    apply ok_bind; [apply ok_grammemes; exact S|]. intros gs m1 _. apply (ok_fold I bad). intros acc g m2 J. apply H_req. auto.
  Qed.
  Lemma ok_inflect : forall form req m, tag_source M (p_tag form) -> (forall g, In g req -> G g /\ G (fix_rare1 g)) -> okp (inflect MC form req) m (inflect_p tag_of M o form req).
  Proof.
    intros form req m S H. unfold inflect, inflect_p. apply ok_bind; [apply ok_lexeme; exact S|]. intros lex m1 E1. cbv zeta.
    apply (okp_eq _ (let* poss := Ok (filter (has_all req) lex) in
      let* rp := match poss with [] => let* lex' := get_lexeme MC form in let* poss' := Ok (filter (has_all (fix_rare_cases req)) lex') in Ok (fix_rare_cases req, poss') | _ :: _ => Ok (req, poss) end in
      let* gr := updated_grammemes C (p_tag form) (fst rp) in let* keys := Ok (map (similarity gr) (snd rp)) in Ok (option_map fst (max_first (fun a b => Qgtb (snd a) (snd b)) (combine (snd rp) keys))))).
    { cbn [bind]. destruct (filter (has_all req) lex).
      - destruct (get_lexeme MC form) as [lex'|e]; [|reflexivity]. cbn [bind fst snd]. change (m_tc MC) with C. destruct (updated_grammemes C (p_tag form) (fix_rare_cases req)); [|reflexivity]. cbn [bind]. rewrite max_first_pairs. reflexivity.
      - cbn [bind fst snd]. change (m_tc MC) with C. destruct (updated_grammemes C (p_tag form) req); [|reflexivity]. cbn [bind]. rewrite max_first_pairs. reflexivity. }
    apply ok_bind; [apply (ok_filter I bad); intros x m2 J; apply ok_has_all; exact (lexeme_source _ _ _ S E1 J)|]. intros poss m2 E2.
    assert (SP : forall rp, match poss with [] => let* lex' := get_lexeme MC form in let* poss' := Ok (filter (has_all (fix_rare_cases req)) lex') in Ok (fix_rare_cases req, poss') | _ :: _ => Ok (req, poss) end = Ok rp ->
      (forall x, In x (snd rp) -> tag_source M (p_tag x)) /\ forall g, In g (fst rp) -> G g).
    { intros rp E. apply Ok_inj in E2. destruct poss as [|p0 ps].
      - apply bind_ok in E as (lex' & EL & E). cbn [bind] in E. apply Ok_inj in E. subst rp. cbn [fst snd]. split; [intros x J; apply filter_In in J as [J _]; exact (lexeme_source _ _ _ S EL J)|].
        intros g J. unfold fix_rare_cases in J. apply in_map_iff in J as (g0 & <- & J). apply (H g0 J).
      - apply Ok_inj in E. subst rp. cbn [fst snd]. split; [|intros g J; apply (H g J)]. intros x J. rewrite <- E2 in J. apply filter_In in J as [J _]. exact (lexeme_source _ _ _ S E1 J). }
    apply ok_bind.
    - destruct poss; [|apply ok_ret]. apply ok_bind; [apply ok_lexeme; exact S|]. intros lex' m3 EL. apply ok_bind; [|intros; apply ok_ret]. apply (ok_filter I bad). intros x m4 J. apply ok_has_all. exact (lexeme_source _ _ _ S EL J).
    - intros rp m3 E. destruct (SP rp E) as (A & B). apply ok_bind; [apply ok_updated; [exact S|exact B]|]. intros gr m4 _. apply ok_bind; [|intros; apply ok_ret]. apply (ok_map I bad). intros x m5 J. apply ok_similarity. auto.
  Qed.
  (** make_agree_with_number() *)
  Lemma ok_then : forall A B (a : A) (y : res B) p g m, okp (Ok a) m p -> (forall m', okp y m' (g a)) -> okp y m (pbind p g).
  Proof. intros A B a y p g m H K. apply (okp_eq _ (let* x := Ok a in y)); [reflexivity|]. apply ok_bind; [exact H|]. intros b m' E. apply Ok_inj in E. subst b. apply K. Qed.
  Lemma ok_attr : forall pick cat t m, tag_source M t -> okp (Ok (attr pick cat t)) m (attr_p tag_of o pick cat t).
  Proof. intros pick cat t m S. unfold attr_p. apply (ok_then _ _ (Some (t_gr t))); [apply ok_grammemes; exact S|]. intros m'. apply ok_ret. Qed.
  Lemma ok_agreement : forall pick t n m, tag_source M t -> okp (Ok (numeral_agreement pick t n)) m (agreement_p tag_of o pick t n).
  Proof.
    intros pick t n m S. unfold agreement_p, numeral_agreement. cbv zeta. generalize (agreement_index n). intros index.
    apply (ok_then _ _ (attr pick PARTS_OF_SPEECH t)); [apply ok_attr; exact S|]. intros m1. destruct (negb (opt_in (attr pick PARTS_OF_SPEECH t) _)); [apply ok_ret|].
    apply (ok_then _ _ (attr pick PARTS_OF_SPEECH t)); [apply ok_attr; exact S|]. intros m2.
    apply (ok_then _ _ (opt_is (attr pick PARTS_OF_SPEECH t) "NOUN" && negb (opt_in (attr pick CASES t) ["nomn"; "accs"]%string))).
    { destruct (opt_is (attr pick PARTS_OF_SPEECH t) "NOUN"); cbn [andb]; [|apply ok_ret]. apply (ok_then _ _ (attr pick CASES t)); [apply ok_attr; exact S|]. intros m3. apply ok_ret. }
    intros m3. destruct (_ && negb _).
    - apply (ok_then _ _ (attr pick CASES t)); [apply ok_attr; exact S|]. intros m4. destruct (index =? 0); apply ok_ret.
    - destruct (index =? 0).
      + apply (ok_then _ _ (attr pick CASES t)); [apply ok_attr; exact S|]. intros m4. destruct (opt_is (attr pick CASES t) "nomn"); apply ok_ret.
      + apply (ok_then _ _ (attr pick PARTS_OF_SPEECH t)); [apply ok_attr; exact S|]. intros m4. destruct (opt_is (attr pick PARTS_OF_SPEECH t) "NOUN" && (index =? 1)); [apply ok_ret|].
        apply (ok_then _ _ (attr pick PARTS_OF_SPEECH t)); [apply ok_attr; exact S|]. intros m5.
        apply (ok_then _ _ (opt_in (attr pick PARTS_OF_SPEECH t) ["ADJF"; "PRTF"]%string && opt_is (attr pick GENDERS t) "femn")).
        { destruct (opt_in (attr pick PARTS_OF_SPEECH t) ["ADJF"; "PRTF"]%string); cbn [andb]; [|apply ok_ret]. apply (ok_then _ _ (attr pick GENDERS t)); [apply ok_attr; exact S|]. intros m6. apply ok_ret. }
        intros m6. destruct (_ && (index =? 1)); apply ok_ret.
  Qed.
  Lemma all_some_In : forall A (l : list (option A)) l' x, all_some l = Some l' -> In x l' -> In (Some x) l.
  Proof.
    intros A l. induction l as [|[y|] l IH]; intros l' x E J; cbn [all_some] in E; [injection E as <-; destruct J| |discriminate E]. destruct (all_some l) as [r|] eqn:Q; [|discriminate E]. injection E as <-. destruct J as [<-|J]; [left; reflexivity|right; eauto].
  Qed.
  Hypothesis H_init : forall m, okp (assert_initialized C) m assert_initialized_t.
  Hypothesis H_ref : forall m, okp (Err ValueError : res (option parse)) m (do* _ := act KnownRef in raise ValueError).
  Lemma ok_inflect_opt : forall form req m, tag_source M (p_tag form) -> (forall g, In (Some g) req -> G g /\ G (fix_rare1 g)) -> okp (inflect_opt MC form req) m (inflect_opt_p tag_of M o form req).
  Proof.
    intros form req m S H. unfold inflect_opt, inflect_opt_p. destruct (all_some req) as [l|] eqn:E.
    - apply ok_inflect; [exact S|]. intros g J. apply H. exact (all_some_In _ _ _ _ E J).
    - assert (K : forall l m, get_lexeme MC form = Ok l -> okp (Ok (map (fun f => Some (t_gr (p_tag f))) l)) m (pmap (fun f => grammemes_t tag_of (o (p_tag f))) l)).
      { intros l m0 EL. apply (ok_map I bad). intros x m1 J. apply ok_grammemes. exact (lexeme_source _ _ _ S EL J). }
      apply ok_bind; [apply ok_lexeme; exact S|]. intros l m1 EL. apply (ok_then _ _ _ _ _ _ _ (K l m1 EL)). intros m2.
      apply ok_bind; [apply ok_lexeme; exact S|]. intros l' m3 EL'. apply (ok_then _ _ _ _ _ _ _ (K l' m3 EL')). intros m4.
      apply (ok_then _ _ (Some (t_gr (p_tag form)))); [apply ok_grammemes; exact S|]. intros m5. apply ok_bind; [apply H_init|]. intros [] m6 _. apply H_ref.
  Qed.
  Lemma ok_agree : forall pick form n m, tag_source M (p_tag form) -> (forall g, In (Some g) (numeral_agreement pick (p_tag form) n) -> G g /\ G (fix_rare1 g)) ->
    okp (make_agree_with_number pick MC form n) m (agree_p tag_of M o pick form n).
  Proof. intros pick form n m S H. unfold make_agree_with_number, agree_p. apply (ok_then _ _ _ _ _ _ _ (ok_agreement pick (p_tag form) n m S)). intros m'. apply ok_inflect_opt; auto. Qed.
End Ok.

(** ** they are put together from these *)
Section Class.
  Variables (tag_of : nat -> tag) (M : morph) (o : tag -> nat).
  Variable T : forall A, prog A -> Prop.
  Hypothesis T_ret : forall A (r : res A), T A (Ret r).
  Hypothesis T_bind : forall A B (p : prog A) (f : A -> prog B), T A p -> (forall a, T B (f a)) -> T B (pbind p f).
  Hypothesis T_gr : forall i, T _ (grammemes_t tag_of i).
  Hypothesis T_masc : forall g i, T _ (contains_t tag_of g i).
  Lemma T_gender : forall b t, T _ (gender_tags_p tag_of o b t). Proof. intros. unfold gender_tags_p. apply T_bind; [apply T_masc|]. intros; apply T_ret. Qed.
  Lemma T_hy : forall t, T _ (hy_grammemes_p tag_of o t). Proof. intros. unfold hy_grammemes_p. apply T_bind; [apply T_gr|]. intros; apply T_ret. Qed.
  Lemma T_closest : forall gr ls best cur, T _ (closest_p tag_of o gr ls best cur).
  Proof. intros gr ls. induction ls as [|l ls IH]; intros best cur; [apply T_ret|]. cbn [closest_p]. apply T_bind; [apply T_hy|]. intros gl. cbv zeta. destruct (_ <? best)%N; apply IH. Qed.
  Lemma T_merge1 : forall self ls r, T _ (merge1_p tag_of o self ls r).
  Proof. intros. unfold merge1_p. apply T_bind; [apply T_hy|]. intros gr. apply T_bind; [apply T_closest|]. intros [l|]; apply T_ret. Qed.
  Lemma T_hyph_forms : forall B lex self form (k : list (prog parse) -> prog B), (forall who f, T _ (lex who f)) -> (forall l, (forall p, In p l -> T _ p) -> T _ (k l)) -> T _ (hyph_forms_p tag_of o lex self form k).
  Proof.
    intros B lex self form k HL HK. unfold hyph_forms_p. destruct (p_stack form) as [|mt [|m2 rest]]; [apply T_ret| |destruct mt; apply T_ret]. destruct mt as [| |r lw rights|r lefts rights]; try apply T_ret; destruct (negb (uref_eqb r self)); try apply T_ret; cbv zeta.
    - apply T_bind; [apply T_ret|]. intros base. apply T_bind; [apply HL|]. intros fs. apply HK. intros p J. apply in_map_iff in J as (x & <- & _). apply T_ret.
    - do 3 (apply T_bind; [apply T_ret|]; intros ?). apply T_bind; [apply HL|]. intros ll. apply T_bind; [apply T_ret|]. intros ru. apply T_bind; [apply HL|]. intros rl. apply HK. intros p J. apply in_map_iff in J as (x & <- & _). apply T_merge1.
  Qed.
  Lemma T_analogy : forall A B (q : uref -> parse -> prog A) form undec na (fin : str -> method -> A -> B), (forall who f, T _ (q who f)) -> T _ (analogy_p q form undec na fin).
  Proof. intros. unfold analogy_p. apply T_bind; [apply T_ret|]. intros [base this]. apply T_bind; [apply T_ret|]. intros a. apply T_bind; [auto|]. intros x. apply T_ret. Qed.
  Lemma T_seq : forall l : list (prog parse), (forall p, In p l -> T _ p) -> T _ (pmap (fun x => x) l).
  Proof. induction l as [|x l IH]; intros H; [apply T_ret|]. cbn [pmap]. apply T_bind; [apply H; left; reflexivity|]. intros y. apply T_bind; [apply IH; intros p J; apply H; right; exact J|]. intros ys. apply T_ret. Qed.
  Lemma T_lexeme_f : forall n who form, T _ (lexeme_p tag_of M o n who form).
  Proof.
    induction n as [|n IH]; intros who form; [apply T_ret|]. cbn [lexeme_p]. destruct who as [i|i]; [|apply T_ret]. apply T_bind; [apply T_ret|]. intros [b tm]. cbn [fst]. cbv zeta. destruct (b_cfg b); try apply T_ret; try (apply T_analogy; auto).
    - destruct first; [|apply T_ret]. apply T_bind; [apply T_gender|]. intros; apply T_ret.
    - apply T_hyph_forms; [auto|]. apply T_seq.
  Qed.
  Lemma T_normalized_f : forall n who form, T _ (normalized_p_f tag_of M o n who form).
  Proof.
    induction n as [|n IH]; intros who form; [apply T_ret|]. cbn [normalized_p_f]. destruct who as [i|i]; [|apply T_ret]. apply T_bind; [apply T_ret|]. intros [b tm]. cbn [fst]. cbv zeta. destruct (b_cfg b); try apply T_ret; try (apply T_analogy; auto).
    - destruct first; [apply T_bind; [apply T_gender|]; intros ts|]; (apply T_bind; [apply T_ret|]; intros; apply T_ret).
    - apply T_hyph_forms; [intros; apply T_lexeme_f|]. intros [|x l] H; [apply T_ret|apply H; left; reflexivity].
  Qed.
  Lemma T_lexeme : forall form, T _ (get_lexeme_p tag_of M o form). Proof. intros. unfold get_lexeme_p. apply T_bind; [apply T_ret|]. intros; apply T_lexeme_f. Qed.
  Lemma T_normalized : forall form, T _ (normalized_p tag_of M o form). Proof. intros. unfold normalized_p. apply T_bind; [apply T_ret|]. intros; apply T_normalized_f. Qed.
  Hypothesis T_is_known : forall g, T _ (grammeme_is_known_t g).
  Hypothesis T_incompat : forall g, T _ (act (IncompatGet g)).
  Lemma T_updated : forall t req, T _ (updated_p tag_of o t req).
  Proof. intros. unfold updated_p. apply T_bind; [apply T_gr|]. intros gs. apply (T_fold T T_ret T_bind). intros acc g. apply T_bind; [apply T_is_known|]. intros []; [|apply T_ret]. apply T_bind; [apply T_incompat|]. intros; apply T_ret. Qed.
  Lemma T_has_all : forall req f, T _ (has_all_p tag_of o req f). Proof. intros. unfold has_all_p. apply T_bind; [apply T_gr|]. intros; apply T_ret. Qed.
  Lemma T_similarity : forall gr f, T _ (similarity_p tag_of o gr f). Proof. intros. unfold similarity_p. apply T_bind; [apply T_gr|]. intros. apply T_bind; [apply T_gr|]. intros; apply T_ret. Qed.
  Lemma T_inflect : forall form req, T _ (inflect_p tag_of M o form req).
  Proof.
    intros. unfold inflect_p. apply T_bind; [apply T_lexeme|]. intros lex. apply T_bind; [apply (T_filter T T_ret T_bind); intros; apply T_has_all|]. intros poss. apply T_bind.
    - destruct poss; [|apply T_ret]. cbv zeta. apply T_bind; [apply T_lexeme|]. intros lex'. apply T_bind; [apply (T_filter T T_ret T_bind); intros; apply T_has_all|]. intros; apply T_ret.
    - intros rp. apply T_bind; [apply T_updated|]. intros gr. apply T_bind; [apply (T_map T T_ret T_bind); intros; apply T_similarity|]. intros; apply T_ret.
  Qed.
  Hypothesis T_init : T _ assert_initialized_t.
  Hypothesis T_ref : T _ (act KnownRef).
  Lemma T_attr : forall pick cat t, T _ (attr_p tag_of o pick cat t). Proof. intros. unfold attr_p. apply T_bind; [apply T_gr|]. intros; apply T_ret. Qed.
  Lemma T_agree : forall pick form n, T _ (agree_p tag_of M o pick form n).
  Proof.
    intros pick form n. unfold agree_p. apply T_bind.
    - unfold agreement_p. cbv zeta. apply T_bind; [apply T_attr|]. intros pos. destruct (negb _); [apply T_ret|]. apply T_bind; [apply T_attr|]. intros pos2. apply T_bind; [destruct (opt_is pos2 "NOUN"); [apply T_bind; [apply T_attr|]; intros|]; apply T_ret|].
      intros []; [apply T_bind; [apply T_attr|]; intros; apply T_ret|]. destruct (_ =? 0); [apply T_bind; [apply T_attr|]; intros; apply T_ret|]. apply T_bind; [apply T_attr|]. intros pos3. destruct (_ && _); [apply T_ret|]. apply T_bind; [apply T_attr|]. intros pos4.
      apply T_bind; [destruct (opt_in pos4 _); [apply T_bind; [apply T_attr|]; intros|]; apply T_ret|]. intros; apply T_ret.
    - intros req. unfold inflect_opt_p. destruct (all_some req); [apply T_inflect|]. do 2 (apply T_bind; [apply T_lexeme|]; intros ?; apply T_bind; [apply (T_map T T_ret T_bind); intros; apply T_gr|]; intros _).
      apply T_bind; [apply T_gr|]. intros _. apply T_bind; [exact T_init|]. intros _. apply T_bind; [exact T_ref|]. intros _. apply T_ret.
  Qed.
End Class.
