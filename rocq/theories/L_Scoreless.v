(** * Lemmas for C99: the score of a form does not matter to its lexeme *)
From Coq Require Import String List NArith ZArith Bool QArith Lia.
From Verif Require Import Py Uni Tagset Dawg Utils Shapes Dict Units Analyzer ConfigRu ConfigUk Compile Spec Spec2 Spec3 Spec14 Spec44 Spec46.
From Verif Require Import L_Base L_Made L_Run.
Import ListNotations.
Local Open Scope nat_scope.
Local Open Scope list_scope.

Lemma one_refl : forall r, alike_one r r. Proof. intros [a|e]; reflexivity. Qed.
Lemma list_refl : forall r, alike_list r r. Proof. intros [a|e]; reflexivity. Qed.
Lemma map_alike : forall f g a b, (forall x y, reading x = reading y -> reading (f x) = reading (g y)) -> map reading a = map reading b -> map reading (map f a) = map reading (map g b).
Proof. intros f g. induction a as [|x a IH]; intros [|y b] H E; try discriminate E; [reflexivity|]. cbn [map] in *. injection E as E1 E2 E3 E4 E. rewrite (IH b H E). f_equal. apply H. unfold reading. rewrite E1, E2, E3, E4. reflexivity. Qed.
Lemma closest_alike : forall ls ls' r r' best cur cur', map reading ls = map reading ls' -> p_tag r = p_tag r' -> option_map reading cur = option_map reading cur' -> option_map reading (closest r ls best cur) = option_map reading (closest r' ls' best cur').
Proof.
  induction ls as [|l ls IH]; intros [|l' ls'] r r' best cur cur' E T C; try discriminate E; [exact C|]. cbn [map] in E. injection E as E1 E2 E3 E4 E. cbn [closest]. unfold hy_dist. rewrite E2, T.
  destruct (_ <? best)%N; [|exact (IH _ _ _ _ _ _ E T C)]. apply IH; [exact E|exact T|]. cbn [option_map]. unfold reading. rewrite E1, E2, E3, E4. reflexivity.
Qed.
Lemma merge_alike : forall self ls ls' r r', map reading ls = map reading ls' -> reading r = reading r' -> alike_one (merge1 self ls r) (merge1 self ls' r').
Proof.
  intros self ls ls' r r' E R. unfold reading in R. injection R as R1 R2 R3 R4. unfold merge1. pose proof (closest_alike ls ls' r r' 1000000 None None E R2 eq_refl) as C.
  destruct (closest r ls 1000000 None) as [l|], (closest r' ls' 1000000 None) as [l'|]; try discriminate C; [|reflexivity]. cbn [option_map] in C. injection C as C1 C2 C3 C4.
  unfold alike_one, reading. cbn [p_word p_tag p_nf p_stack]. rewrite C1, C2, C3, C4, R1, R3, R4. reflexivity.
Qed.
Lemma sequence_alike : forall a b, Forall2 alike_one a b -> alike_list (sequence a) (sequence b).
Proof.
  unfold sequence. intros a b F. induction F as [|x y a b H F IH]; [reflexivity|]. cbn [mapM]. destruct x as [x|e], y as [y|e']; try contradiction; cbn [bind]; [|exact H].
  destruct (mapM (fun r : res parse => r) a) as [u1|], (mapM (fun r : res parse => r) b) as [u2|]; try contradiction; cbn [bind]; [|exact IH]. cbn [alike_list map]. unfold alike_one in H. unfold alike_list in IH. rewrite H, IH. reflexivity.
Qed.
Definition alike_forms (r1 r2 : res (list (res parse))) : Prop := match r1, r2 with Ok a, Ok b => Forall2 alike_one a b | Err e, Err e' => e = e' | _, _ => False end.
Lemma F2_map : forall (f g : parse -> res parse) a b, (forall x y, reading x = reading y -> alike_one (f x) (g y)) -> map reading a = map reading b -> Forall2 alike_one (map f a) (map g b).
Proof. intros f g. induction a as [|x a IH]; intros [|y b] H E; try discriminate E; [constructor|]. cbn [map] in *. injection E as E1 E2 E3 E4 E. constructor; [|exact (IH b H E)]. apply H. unfold reading. rewrite E1, E2, E3, E4. reflexivity. Qed.
Lemma hyph_alike : forall lex self p q, (forall who x y, reading x = reading y -> alike_list (lex who x) (lex who y)) -> reading p = reading q -> alike_forms (hyph_forms lex self p) (hyph_forms lex self q).
Proof.
  intros lex self [w t n s st] [w' t' n' s' st'] L R. unfold reading in R. cbn [p_word p_tag p_nf p_stack] in R. injection R as <- <- <- <-. unfold hyph_forms. cbn [p_stack].
  destruct st as [|[r w1 pa ix|r s1|r lw rights|r lefts rights] [|m st]]; try reflexivity.
  - destruct (negb (uref_eqb r self)); [reflexivity|]. destruct (last_unit rights) as [base|e]; cbn [bind]; [|reflexivity].
    match goal with |- context [lex base ?x] => match goal with |- context [lex base ?y] => lazymatch x with y => fail | _ => pose proof (L base x y eq_refl) as H; destruct (lex base x) as [a|e], (lex base y) as [b|e'] end end end; try contradiction; cbn [bind]; [|exact H].
    apply F2_map; [|exact H]. intros x y E. unfold reading in E. injection E as E1 E2 E3 E4. unfold alike_one, reading, replace_methods_stack, with_prefix. cbn [p_word p_tag p_nf p_stack]. rewrite E1, E2, E3, E4. reflexivity.
  - destruct (negb (uref_eqb r self)); [reflexivity|]. unfold without_right_part, without_left_part, replace_methods_stack. cbn [p_word p_tag p_nf p_stack p_score].
    destruct (index_sub [HY] w) as [i|e]; cbn [bind]; [|reflexivity]. destruct (index_sub [HY] n) as [j|e]; cbn [bind]; [|reflexivity]. destruct (last_unit lefts) as [lu|e]; cbn [bind]; [|reflexivity].
    match goal with |- context [lex lu ?x] => match goal with |- context [lex lu ?y] => lazymatch x with y => fail | _ => pose proof (L lu x y eq_refl) as H; destruct (lex lu x) as [a|e], (lex lu y) as [b|e'] end end end; try contradiction; cbn [bind]; [|exact H].
    destruct (last_unit rights) as [ru|e]; cbn [bind]; [|reflexivity].
    match goal with |- context [lex ru ?x] => match goal with |- context [lex ru ?y] => lazymatch x with y => fail | _ => pose proof (L ru x y eq_refl) as K; destruct (lex ru x) as [c|e], (lex ru y) as [d|e'] end end end; try contradiction; cbn [bind]; [|exact K].
    apply F2_map; [|exact K]. intros x y E. exact (merge_alike self a b x y H E).
Qed.
Lemma lexeme_alike : forall fuel M who p q, reading p = reading q -> alike_list (lexeme_f fuel M who p) (lexeme_f fuel M who q).
Proof.
  induction fuel as [|f IH]; intros M who [w t n s st] [w' t' n' s' st'] R0; [reflexivity|]. pose proof R0 as R. unfold reading in R. cbn [p_word p_tag p_nf p_stack] in R. injection R as <- <- <- <-.
  cbn [lexeme_f]. destruct who as [i|i]; [|exact (list_refl _)].
  destruct (nth_res (m_units M) i) as [[b tm]|e]; cbn [bind fst]; [|reflexivity].
  assert (AN : forall (undec dec : str -> parse -> parse) (arg : bool), (forall a x y, reading x = reading y -> reading (undec a x) = reading (undec a y)) -> (forall a x y, reading x = reading y -> reading (dec a x) = reading (dec a y)) ->
    alike_list (let* mi := method_info st in let '(base, this) := mi in let* a := if arg then method_arg1 this else Ok [] in
      let* fs := lexeme_f f M (m_unit base) (without_last_method (undec a (MkParse w t n s st))) in Ok (map (fun x => append_method (dec a x) this) fs))
     (let* mi := method_info st in let '(base, this) := mi in let* a := if arg then method_arg1 this else Ok [] in
      let* fs := lexeme_f f M (m_unit base) (without_last_method (undec a (MkParse w t n s' st))) in Ok (map (fun x => append_method (dec a x) this) fs))).
  { intros undec dec arg U D. destruct (method_info st) as [[base this]|e]; cbn [bind]; [|reflexivity]. destruct (if arg then method_arg1 this else Ok []) as [a|e]; cbn [bind]; [|reflexivity].
    assert (X : reading (without_last_method (undec a (MkParse w t n s st))) = reading (without_last_method (undec a (MkParse w t n s' st)))).
    { pose proof (U a _ _ R0) as E. unfold reading in E. injection E as E1 E2 E3 E4. unfold reading, without_last_method, replace_methods_stack. cbn [p_word p_tag p_nf p_stack]. rewrite E1, E2, E3, E4. reflexivity. }
    pose proof (IH M (m_unit base) _ _ X) as H. destruct (lexeme_f f M (m_unit base) (without_last_method (undec a _))) as [u1|e] eqn:E1 in H |- *; destruct (lexeme_f f M (m_unit base) (without_last_method (undec a (MkParse w t n s' st)))) as [u2|e'] eqn:E2 in H |- *; try contradiction; cbn [bind]; [|exact H].
    apply map_alike; [|exact H]. intros x y Q. pose proof (D a _ _ Q) as E. unfold reading in E. injection E as F1 F2 F3 F4. unfold reading, append_method, replace_methods_stack. cbn [p_word p_tag p_nf p_stack]. rewrite F1, F2, F3, F4. reflexivity. }
  destruct (b_cfg b) as [|first letters pat sc|sc|sc|sc|sc|particles mult|mult|skip mult|prefixes mult minrem|mult|mult minlen|] eqn:C; cbn [p_stack p_tag].
  - exact (list_refl _).
  - destruct first.
    + change (gender_tags M b t) with (gender_tags M b (p_tag (MkParse w t n s st))). cbn [p_tag]. destruct (gender_tags M b t) as [ts|e]; cbn [bind]; [|reflexivity]. cbn [alike_list]. rewrite !map_map. reflexivity.
    + cbn [alike_list]. rewrite !map_map. reflexivity.
  - reflexivity.
  - reflexivity.
  - reflexivity.
  - reflexivity.
  - apply (AN (fun a x => without_fixed_suffix x (length a)) (fun a x => with_suffix x a) true); intros a x y E; unfold reading in E; injection E as E1 E2 E3 E4; unfold reading, without_fixed_suffix, with_suffix; cbn [p_word p_tag p_nf p_stack]; rewrite E1, E2, E3, E4; reflexivity.
  - reflexivity.
  - pose proof (hyph_alike (lexeme_f f M) (Root i) _ _ (fun who x y => IH M who x y) R0) as H.
    destruct (hyph_forms (lexeme_f f M) (Root i) (MkParse w t n s st)) as [u1|e], (hyph_forms (lexeme_f f M) (Root i) (MkParse w t n s' st)) as [u2|e']; try contradiction; cbn [bind]; [exact (sequence_alike _ _ H)|exact H].
  - apply (AN (fun a x => without_fixed_prefix x (length a)) (fun a x => with_prefix x a) true); intros a x y E; unfold reading in E; injection E as E1 E2 E3 E4; unfold reading, without_fixed_prefix, with_prefix; cbn [p_word p_tag p_nf p_stack]; rewrite E1, E2, E3, E4; reflexivity.
  - apply (AN (fun a x => without_fixed_prefix x (length a)) (fun a x => with_prefix x a) true); intros a x y E; unfold reading in E; injection E as E1 E2 E3 E4; unfold reading, without_fixed_prefix, with_prefix; cbn [p_word p_tag p_nf p_stack]; rewrite E1, E2, E3, E4; reflexivity.
  - apply (AN (fun _ x => x) (fun _ x => x) false); intros a x y E; exact E.
  - reflexivity.
Qed.
Lemma get_lexeme_alike : forall M p q, reading p = reading q -> alike_list (get_lexeme M p) (get_lexeme M q).
Proof.
  intros M p q R. unfold get_lexeme. assert (E : p_stack p = p_stack q) by (unfold reading in R; injection R as _ _ _ R; exact R). rewrite E. destruct (last_unit (p_stack q)) as [who|e]; cbn [bind]; [|reflexivity]. exact (lexeme_alike _ _ _ _ _ R).
Qed.
Lemma normalized_alike : forall fuel M who p q, reading p = reading q -> alike_one (normalized_f fuel M who p) (normalized_f fuel M who q).
Proof.
  induction fuel as [|f IH]; intros M who [w t n s st] [w' t' n' s' st'] R0; [reflexivity|]. pose proof R0 as R. unfold reading in R. cbn [p_word p_tag p_nf p_stack] in R. injection R as <- <- <- <-.
  assert (DN : forall r, alike_one (dict_normalized M r (MkParse w t n s st)) (dict_normalized M r (MkParse w t n s' st))).
  { intros r. unfold dict_normalized. cbn [p_stack p_nf]. destruct (extract_para_info r st) as [[[x para] idx]|e]; cbn [bind]; [|reflexivity]. destruct (idx =? 0); [reflexivity|apply one_refl]. }
  cbn [normalized_f]. destruct who as [i|i]; [|exact (DN _)].
  destruct (nth_res (m_units M) i) as [[b tm]|e]; cbn [bind fst]; [|reflexivity].
  assert (AN : forall (undec dec : str -> parse -> parse) (arg : bool), (forall a x y, reading x = reading y -> reading (undec a x) = reading (undec a y)) -> (forall a x y, reading x = reading y -> reading (dec a x) = reading (dec a y)) ->
    alike_one (let* mi := method_info st in let '(base, this) := mi in let* a := if arg then method_arg1 this else Ok [] in
      let* x := normalized_f f M (m_unit base) (without_last_method (undec a (MkParse w t n s st))) in Ok (append_method (dec a x) this))
     (let* mi := method_info st in let '(base, this) := mi in let* a := if arg then method_arg1 this else Ok [] in
      let* x := normalized_f f M (m_unit base) (without_last_method (undec a (MkParse w t n s' st))) in Ok (append_method (dec a x) this))).
  { intros undec dec arg U D. destruct (method_info st) as [[base this]|e]; cbn [bind]; [|reflexivity]. destruct (if arg then method_arg1 this else Ok []) as [a|e]; cbn [bind]; [|reflexivity].
    assert (X : reading (without_last_method (undec a (MkParse w t n s st))) = reading (without_last_method (undec a (MkParse w t n s' st)))).
    { pose proof (U a _ _ R0) as E. unfold reading in E. injection E as E1 E2 E3 E4. unfold reading, without_last_method, replace_methods_stack. cbn [p_word p_tag p_nf p_stack]. rewrite E1, E2, E3, E4. reflexivity. }
    pose proof (IH M (m_unit base) _ _ X) as H. destruct (normalized_f f M (m_unit base) (without_last_method (undec a (MkParse w t n s st)))) as [u1|e], (normalized_f f M (m_unit base) (without_last_method (undec a (MkParse w t n s' st)))) as [u2|e']; try contradiction; cbn [bind]; [|exact H].
    pose proof (D a _ _ H) as E. unfold reading in E. injection E as F1 F2 F3 F4. unfold alike_one, reading, append_method, replace_methods_stack. cbn [p_word p_tag p_nf p_stack]. rewrite F1, F2, F3, F4. reflexivity. }
  destruct (b_cfg b) as [|first letters pat sc|sc|sc|sc|sc|particles mult|mult|skip mult|prefixes mult minrem|mult|mult minlen|] eqn:C; cbn [p_stack p_tag].
  - exact (DN _).
  - destruct first.
    + destruct (gender_tags M b t) as [ts|e]; cbn [bind]; [|reflexivity]. destruct (nth_res ts 0) as [t0|e]; cbn [bind]; reflexivity.
    + destruct (nth_res (b_tags b) 0) as [t0|e]; cbn [bind]; reflexivity.
  - reflexivity.
  - reflexivity.
  - reflexivity.
  - reflexivity.
  - apply (AN (fun a x => without_fixed_suffix x (length a)) (fun a x => with_suffix x a) true); intros a x y E; unfold reading in E; injection E as E1 E2 E3 E4; unfold reading, without_fixed_suffix, with_suffix; cbn [p_word p_tag p_nf p_stack]; rewrite E1, E2, E3, E4; reflexivity.
  - reflexivity.
  - pose proof (hyph_alike (lexeme_f f M) (Root i) _ _ (fun who x y => lexeme_alike f M who x y) R0) as H.
    destruct (hyph_forms (lexeme_f f M) (Root i) (MkParse w t n s st)) as [u1|e], (hyph_forms (lexeme_f f M) (Root i) (MkParse w t n s' st)) as [u2|e']; try contradiction; cbn [bind]; [|exact H].
    destruct H as [|x y a b0 H _]; [reflexivity|exact H].
  - apply (AN (fun a x => without_fixed_prefix x (length a)) (fun a x => with_prefix x a) true); intros a x y E; unfold reading in E; injection E as E1 E2 E3 E4; unfold reading, without_fixed_prefix, with_prefix; cbn [p_word p_tag p_nf p_stack]; rewrite E1, E2, E3, E4; reflexivity.
  - apply (AN (fun a x => without_fixed_prefix x (length a)) (fun a x => with_prefix x a) true); intros a x y E; unfold reading in E; injection E as E1 E2 E3 E4; unfold reading, without_fixed_prefix, with_prefix; cbn [p_word p_tag p_nf p_stack]; rewrite E1, E2, E3, E4; reflexivity.
  - apply (AN (fun _ x => x) (fun _ x => x) false); intros a x y E; exact E.
  - reflexivity.
Qed.
Lemma normal_alike : forall M p q, reading p = reading q -> alike_one (normalized M p) (normalized M q).
Proof.
  intros M p q R. unfold normalized. assert (E : p_stack p = p_stack q) by (unfold reading in R; injection R as _ _ _ R; exact R). rewrite E. destruct (last_unit (p_stack q)) as [who|e]; cbn [bind]; [|reflexivity]. exact (normalized_alike _ _ _ _ _ R).
Qed.
Lemma filter_alike : forall req a b, map reading a = map reading b -> map reading (filter (has_all req) a) = map reading (filter (has_all req) b).
Proof.
  intros req. induction a as [|x a IH]; intros [|y b] E; try discriminate E; [reflexivity|]. cbn [map] in E. injection E as E1 E2 E3 E4 E. cbn [filter]. assert (X : has_all req x = has_all req y) by (unfold has_all; rewrite E2; reflexivity). rewrite X. destruct (has_all req y); [|exact (IH b E)].
  cbn [map]. rewrite (IH b E). f_equal. unfold reading. rewrite E1, E2, E3, E4. reflexivity.
Qed.
Lemma from_alike : forall g l l' x x', map reading l = map reading l' -> reading x = reading x' ->
  reading (max_from (fun a b => Qgtb (similarity g a) (similarity g b)) x l) = reading (max_from (fun a b => Qgtb (similarity g a) (similarity g b)) x' l').
Proof.
  intros g. induction l as [|y l IH]; intros [|y' l'] x x' E X; try discriminate E; [exact X|]. cbn [map] in E.
  assert (Y : reading y = reading y') by (injection E as E1 E2 E3 E4 _; unfold reading; rewrite E1, E2, E3, E4; reflexivity). assert (E' : map reading l = map reading l') by (injection E; auto). cbn [max_from].
  assert (S1 : similarity g x = similarity g x') by (unfold similarity; unfold reading in X; injection X as _ X _ _; rewrite X; reflexivity).
  assert (S2 : similarity g y = similarity g y') by (unfold similarity; unfold reading in Y; injection Y as _ Y _ _; rewrite Y; reflexivity).
  rewrite S1, S2. match goal with |- context [if ?c then _ else _] => destruct c end; apply IH; assumption.
Qed.
Lemma first_alike : forall g l l', map reading l = map reading l' ->
  option_map reading (max_first (fun a b => Qgtb (similarity g a) (similarity g b)) l) = option_map reading (max_first (fun a b => Qgtb (similarity g a) (similarity g b)) l').
Proof.
  intros g [|x l] [|x' l'] E; try discriminate E; [reflexivity|]. cbn [max_first option_map]. f_equal. cbn [map] in E. apply from_alike; [injection E; auto|]. injection E as E1 E2 E3 E4 _. unfold reading. rewrite E1, E2, E3, E4. reflexivity.
Qed.
Lemma inflect_alike : forall M p q req, reading p = reading q -> alike_opt (inflect M p req) (inflect M q req).
Proof.
  intros M p q req R. pose proof (get_lexeme_alike M p q R) as H. assert (T : p_tag p = p_tag q) by (unfold reading in R; injection R as _ R _ _; exact R). unfold inflect. rewrite T.
  destruct (get_lexeme M p) as [a|e], (get_lexeme M q) as [b|e']; try contradiction; cbn [bind]; [|exact H]. cbn [alike_list] in H.
  pose proof (filter_alike req a b H) as F. destruct (filter (has_all req) a) as [|x u1], (filter (has_all req) b) as [|y u2]; try discriminate F; cbn [bind].
  - destruct (updated_grammemes (m_tc M) (p_tag q) (fix_rare_cases req)) as [g|e]; cbn [bind]; [|reflexivity]. exact (first_alike g _ _ (filter_alike _ a b H)).
  - destruct (updated_grammemes (m_tc M) (p_tag q) req) as [g|e]; cbn [bind]; [|reflexivity]. exact (first_alike g _ _ F).
Qed.
Lemma agree_alike : forall pick M p q n, reading p = reading q -> alike_opt (make_agree_with_number pick M p n) (make_agree_with_number pick M q n).
Proof.
  intros pick M p q n R. assert (T : p_tag p = p_tag q) by (unfold reading in R; injection R as _ R _ _; exact R). unfold make_agree_with_number. rewrite T. unfold inflect_opt.
  destruct (all_some (numeral_agreement pick (p_tag q) n)) as [l|]; [exact (inflect_alike M p q l R)|]. pose proof (get_lexeme_alike M p q R) as H.
  destruct (get_lexeme M p) as [a|e], (get_lexeme M q) as [b|e']; try contradiction; cbn [bind]; [|exact H]. destruct (assert_initialized (m_tc M)) as [x|e]; cbn [bind]; reflexivity.
Qed.
