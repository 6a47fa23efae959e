(** * Lexemes of words analysed through a shorter word *)
From Coq Require Import String List NArith ZArith Bool QArith Lia.
From Verif Require Import Py Uni Tagset Dawg Dict Utils Units Analyzer Spec Spec2 Spec19 L_Base L_Run L_Made L_Lexeme L_LexParse L_Inflect.
Import ListNotations.
Local Open Scope nat_scope.
Local Open Scope list_scope.

Definition same_lex (a b : res (list parse)) : Prop :=
  match a, b with Ok x, Ok y => map reading x = map reading y | Err e, Err e' => e = e' | _, _ => False end.
Lemma same_lex_refl : forall a, same_lex a a.
Proof. intros [x|e]; reflexivity. Qed.
Lemma cons_inv : forall {A} (a b : A) l m, a :: l = b :: m -> a = b /\ l = m.
Proof. intros A a b l m H. split; congruence. Qed.
Lemma some_inv : forall {A} (a b : A), Some a = Some b -> a = b.
Proof. intros A a b H. congruence. Qed.
Lemma same_lex_bind : forall a b (k : parse -> parse), same_lex a b -> (forall x y, reading x = reading y -> reading (k x) = reading (k y)) ->
  same_lex (let* fs := a in Ok (map k fs)) (let* fs := b in Ok (map k fs)).
Proof.
  intros [x|e] [y|e'] k H K; cbn in *; try contradiction; [|exact H]. rewrite !map_map. revert y H. induction x as [|p x IH]; intros [|q y] H; cbn in *; try discriminate; [reflexivity|].
  apply cons_inv in H as [H1 H2]. f_equal; [apply K; exact H1|apply IH; exact H2].
Qed.
Lemma reading_eq : forall x y, p_word x = p_word y -> p_tag x = p_tag y -> p_nf x = p_nf y -> p_stack x = p_stack y -> reading x = reading y.
Proof. intros x y A B C D. unfold reading. congruence. Qed.
Ltac rd H := apply reading_inv in H as (?Hw & ?Ht & ?Hn & ?Hs).
Lemma dict_lexeme_dep : forall M self f g, p_word f = p_word g -> p_nf f = p_nf g -> p_stack f = p_stack g -> dict_lexeme M self f = dict_lexeme M self g.
Proof. intros M self f g A B C. unfold dict_lexeme. rewrite A, B, C. reflexivity. Qed.
Lemma closest_reading : forall r ls ls' best cur cur', map reading ls = map reading ls' ->
  option_map reading cur = option_map reading cur' -> forall r', reading r = reading r' -> option_map reading (closest r ls best cur) = option_map reading (closest r' ls' best cur').
Proof.
  intros r ls. induction ls as [|l ls IH]; intros [|l' ls'] best cur cur' H C r' R; cbn [map] in H; try discriminate; [exact C|]. cbn [closest].
  apply cons_inv in H as [H1 H2]. pose proof H1 as H1'.
  assert (D : hy_dist l r = hy_dist l' r') by (rd H1'; rd R; unfold hy_dist; congruence).
  rewrite D. destruct (hy_dist l' r' <? best)%N; apply IH; auto. cbn [option_map]. f_equal. exact H1.
Qed.
Lemma merge_reading : forall self ls ls' r r', map reading ls = map reading ls' -> reading r = reading r' ->
  match merge1 self ls r, merge1 self ls' r' with Ok x, Ok y => reading x = reading y | Err e, Err e' => e = e' | _, _ => False end.
Proof.
  intros self ls ls' r r' H R. unfold merge1. pose proof (closest_reading r ls ls' 1000000 None None H eq_refl r' R) as C.
  destruct (closest r ls 1000000 None) as [l|], (closest r' ls' 1000000 None) as [l'|]; cbn [option_map] in C; try discriminate C; [|reflexivity].
  apply some_inv in C. rd C. rd R. apply reading_eq; cbn [p_word p_tag p_nf p_stack]; unfold hyphen_join; congruence.
Qed.
Lemma merges_reading : forall self ls ls' rs rs', map reading ls = map reading ls' -> map reading rs = map reading rs' ->
  same_lex (sequence (map (merge1 self ls) rs)) (sequence (map (merge1 self ls') rs')).
Proof.
  intros self ls ls' rs rs' H. unfold sequence. revert rs'. induction rs as [|r rs IH]; intros [|r' rs'] K; cbn [map] in K; try discriminate; [reflexivity|].
  apply cons_inv in K as [K1 K2].
  cbn [map mapM]. pose proof (merge_reading self ls ls' r r' H K1) as M1. specialize (IH rs' K2).
  destruct (merge1 self ls r) as [x|e], (merge1 self ls' r') as [y|e']; try contradiction; cbn [bind]; [|exact M1].
  destruct (mapM (fun x => x) (map (merge1 self ls) rs)) as [xs|e], (mapM (fun x => x) (map (merge1 self ls') rs')) as [ys|e']; cbn in *; try contradiction; [|exact IH].
  f_equal; assumption.
Qed.
Lemma wlm_reading : forall x y, reading x = reading y -> reading (without_last_method x) = reading (without_last_method y).
Proof. intros x y H. rd H. apply reading_eq; unfold without_last_method, replace_methods_stack; cbn [p_word p_tag p_nf p_stack]; congruence. Qed.
Lemma sequence_oks : forall (l : list parse) (k : parse -> parse), sequence (map (fun f => Ok (k f)) l) = Ok (map k l).
Proof. intros l k. apply sequence_ok. Qed.

(** scores do not matter *)
Lemma lexeme_reading : forall n M who f g, reading f = reading g -> same_lex (lexeme_f n M who f) (lexeme_f n M who g).
Proof.
  induction n as [|n IH]; intros M who f g H; [reflexivity|]. cbn [lexeme_f]. pose proof H as H0. rd H0.
  assert (DL : forall s, same_lex (dict_lexeme M s f) (dict_lexeme M s g)) by (intros s; rewrite (dict_lexeme_dep M s f g) by assumption; apply same_lex_refl).
  destruct who as [i|i]; [|apply DL]. destruct (nth_res (m_units M) i) as [[b tm]|e]; [|reflexivity]. cbn [bind fst].
  assert (AN : forall undec dec need, (forall a x y, reading x = reading y -> reading (undec a x) = reading (undec a y)) -> (forall a x y, reading x = reading y -> reading (dec a x) = reading (dec a y)) ->
    same_lex (let* mi := method_info (p_stack f) in let '(base, this) := mi in let* a := if need : bool then method_arg1 this else Ok [] in
       let* fs := lexeme_f n M (m_unit base) (without_last_method (undec a f)) in Ok (map (fun x => append_method (dec a x) this) fs))
      (let* mi := method_info (p_stack g) in let '(base, this) := mi in let* a := if need : bool then method_arg1 this else Ok [] in
       let* fs := lexeme_f n M (m_unit base) (without_last_method (undec a g)) in Ok (map (fun x => append_method (dec a x) this) fs))).
  { intros undec dec need U D. rewrite Hs. destruct (method_info (p_stack g)) as [[base this]|e]; [|reflexivity]. cbn [bind].
    destruct (if need then method_arg1 this else Ok []) as [a|e]; [|reflexivity]. cbn [bind]. apply same_lex_bind.
    - apply IH. apply wlm_reading. apply U. exact H.
    - intros x y E. apply (D a) in E. rd E. apply reading_eq; unfold append_method, replace_methods_stack; cbn [p_word p_tag p_nf p_stack]; congruence. }
  assert (PF : forall (a : str) x y, reading x = reading y -> reading (without_fixed_prefix x (length a)) = reading (without_fixed_prefix y (length a))) by (intros a x y E; rd E; apply reading_eq; unfold without_fixed_prefix; cbn [p_word p_tag p_nf p_stack]; congruence).
  assert (PA : forall a x y, reading x = reading y -> reading (with_prefix x a) = reading (with_prefix y a)) by (intros a x y E; rd E; apply reading_eq; unfold with_prefix; cbn [p_word p_tag p_nf p_stack]; congruence).
  assert (SF : forall (a : str) x y, reading x = reading y -> reading (without_fixed_suffix x (length a)) = reading (without_fixed_suffix y (length a))) by (intros a x y E; rd E; apply reading_eq; unfold without_fixed_suffix; cbn [p_word p_tag p_nf p_stack]; congruence).
  assert (SA : forall a x y, reading x = reading y -> reading (with_suffix x a) = reading (with_suffix y a)) by (intros a x y E; rd E; apply reading_eq; unfold with_suffix; cbn [p_word p_tag p_nf p_stack]; congruence).
  assert (WT : forall ts, same_lex (Ok (map (with_tag f) ts)) (Ok (map (with_tag g) ts))) by (intros ts; cbn; rewrite !map_map; apply map_ext; intros t; apply reading_eq; cbn [with_tag p_word p_tag p_nf p_stack]; congruence).
  assert (SELF : same_lex (Ok [f]) (Ok [g])) by (cbn; f_equal; exact H).
  destruct (b_cfg b) as [|first ? ? ?| | | | | | | | | | |]; try exact SELF; try (apply DL).
  all: try (destruct first; [|apply WT]; unfold gender_tags; rewrite Ht; destruct (contains (m_tc M) (u "masc") (p_tag g)) as [mm|e]; [cbn [bind]; apply WT|reflexivity]).
  all: try (apply (AN (fun a x => without_fixed_suffix x (length a)) (fun a x => with_suffix x a) true); assumption).
  all: try (apply (AN (fun a x => without_fixed_prefix x (length a)) (fun a x => with_prefix x a) true); assumption).
  all: try (apply (AN (fun _ x => x) (fun _ x => x) false); auto).
  (* hyphen *)
  unfold hyph_forms. rewrite Hs. destruct (p_stack g) as [|[| |r0 lw rights|r0 lefts rights] [|]]; try reflexivity.
  - destruct (negb (uref_eqb r0 (Root i))); [reflexivity|]. destruct (last_unit rights) as [bu|e]; [|reflexivity]. cbn [bind].
    assert (L : same_lex (lexeme_f n M bu (without_fixed_prefix (replace_methods_stack f rights) (length (lw ++ [HY])))) (lexeme_f n M bu (without_fixed_prefix (replace_methods_stack g rights) (length (lw ++ [HY]))))).
    { apply IH. apply PF. apply reading_eq; unfold replace_methods_stack; cbn [p_word p_tag p_nf p_stack]; congruence. }
    destruct (lexeme_f n M bu (without_fixed_prefix (replace_methods_stack f rights) _)) as [x|e], (lexeme_f n M bu (without_fixed_prefix (replace_methods_stack g rights) _)) as [y|e']; cbn in L; try contradiction; [|exact L].
    cbn [bind]. rewrite !sequence_oks. apply (same_lex_bind (Ok x) (Ok y)); [exact L|]. intros p q E. rd E. apply reading_eq; unfold replace_methods_stack, with_prefix; cbn [p_word p_tag p_nf p_stack]; congruence.
  - destruct (negb (uref_eqb r0 (Root i))); [reflexivity|].
    unfold without_right_part, without_left_part. unfold replace_methods_stack. cbn [p_word p_tag p_nf p_stack p_score]. rewrite Hw, Hn, Ht.
    destruct (index_sub [HY] (p_word g)) as [k|e]; [|reflexivity]. cbn [bind]. destruct (index_sub [HY] (p_nf g)) as [j|e]; [|reflexivity]. cbn [bind].
    destruct (last_unit lefts) as [lu|e]; [|reflexivity]. cbn [bind].
    set (a1 := {| p_word := firstn k (p_word g); p_tag := p_tag g; p_nf := firstn j (p_nf g); p_score := p_score f; p_stack := lefts |}).
    set (a2 := {| p_word := firstn k (p_word g); p_tag := p_tag g; p_nf := firstn j (p_nf g); p_score := p_score g; p_stack := lefts |}).
    set (b1 := {| p_word := skipn (k + 1) (p_word g); p_tag := p_tag g; p_nf := skipn (j + 1) (p_nf g); p_score := p_score f; p_stack := rights |}).
    set (b2 := {| p_word := skipn (k + 1) (p_word g); p_tag := p_tag g; p_nf := skipn (j + 1) (p_nf g); p_score := p_score g; p_stack := rights |}).
    assert (L : same_lex (lexeme_f n M lu a1) (lexeme_f n M lu a2)) by (apply IH; reflexivity).
    destruct (lexeme_f n M lu a1) as [la|e], (lexeme_f n M lu a2) as [la'|e']; cbn in L; try contradiction; [|exact L]. cbn [bind].
    destruct (last_unit rights) as [ru|e]; [|reflexivity]. cbn [bind].
    assert (R : same_lex (lexeme_f n M ru b1) (lexeme_f n M ru b2)) by (apply IH; reflexivity).
    destruct (lexeme_f n M ru b1) as [lb|e], (lexeme_f n M ru b2) as [lb'|e']; cbn in R; try contradiction; [|exact R]. cbn [bind].
    apply merges_reading; assumption.
Qed.

Lemma same_lex_forall : forall x y (P : parse -> parse -> Prop) k, map reading x = map reading y -> (forall a b, reading a = reading b -> P a (k b)) -> Forall2 P x (map k y).
Proof.
  intros x. induction x as [|p x IH]; intros [|q y] P k H K; cbn [map] in H; try discriminate; [constructor|]. apply cons_inv in H as [H1 H2]. constructor; [apply K; exact H1|apply IH; auto].
Qed.
Lemma nth_res_some : forall {A} (l : list A) i x, nth_error l i = Some x -> nth_res l i = Ok x.
Proof. intros A l i x H. unfold nth_res. rewrite H. reflexivity. Qed.
(** prefixes *)
Lemma prefixed_lexeme : forall M i a q p, unit_is M i (fun c => match c with UKnownPrefix _ _ _ | UUnknownPrefix _ => True | _ => False end) -> prefixed_form i a q p ->
  (forall lq, get_lexeme M q = Ok lq -> exists lp, get_lexeme M p = Ok lp /\ Forall2 (prefixed_form i a) lq lp) /\
  (forall e, get_lexeme M q = Err e -> p_stack q <> [] -> get_lexeme M p = Err e).
Proof.
  intros M i a q p (b & tm & N & U) (Hw & Ht & Hn & Hs).
  assert (X : forall who, last_unit (p_stack q) = Ok who -> exists l, same_lex (lexeme_f (S (stack_size (p_stack q))) M who q) l /\
     get_lexeme M p = (let* fs := l in Ok (map (fun x => append_method (with_prefix x a) (MStr (Root i) a)) fs))).
  { intros who LU. unfold get_lexeme. rewrite Hs, last_unit_app. cbn [bind m_unit].
    assert (FU : stack_size (p_stack q ++ [MStr (Root i) a]) = S (stack_size (p_stack q))) by (rewrite stack_size_app; cbn; lia). rewrite FU.
    generalize (S (stack_size (p_stack q))) as n. intros n. cbn [lexeme_f]. rewrite (nth_res_some _ _ _ N). cbn [bind fst].
    destruct (method_info_app (p_stack q) who (MStr (Root i) a) LU) as (base & Eb & Ub).
    exists (lexeme_f n M who (without_last_method (without_fixed_prefix p (length a)))). split.
    - apply lexeme_reading. apply reading_eq; unfold without_last_method, without_fixed_prefix, replace_methods_stack; cbn [p_word p_tag p_nf p_stack].
      + rewrite Hw, slice_from_pos, skipn_app_exact. reflexivity.
      + congruence.
      + rewrite Hn, slice_from_pos, skipn_app_exact. reflexivity.
      + rewrite Hs, slice_to_last. reflexivity.
    - destruct (b_cfg b); try contradiction; rewrite Hs, Eb; cbn [bind method_arg1]; rewrite Ub; reflexivity. }
  split.
  - intros lq H. unfold get_lexeme in H. apply bind_ok in H as (who & LU & H). destruct (X who LU) as (l & SL & E). rewrite H in SL. destruct l as [fs|e]; [|destruct SL]. cbn in SL.
    rewrite E. eexists. split; [reflexivity|]. apply same_lex_forall; [exact SL|]. intros f g R. rd R. unfold prefixed_form, append_method, with_prefix, replace_methods_stack. cbn [p_word p_tag p_nf p_stack]. repeat split; congruence.
  - intros e H NE. unfold get_lexeme in H. destruct (last_unit (p_stack q)) as [who|e'] eqn:LU.
    + cbn [bind] in H. destruct (X who eq_refl) as (l & SL & E). rewrite H in SL. destruct l as [fs|e'']; [destruct SL|]. cbn in SL. rewrite E, SL. reflexivity.
    + exfalso. unfold last_unit in LU. destruct (rev (p_stack q)) eqn:R; [|discriminate]. apply NE. apply (f_equal (@rev method)) in R. rewrite rev_involutive in R. exact R.
Qed.
(** particles *)
Lemma suffixed_lexeme : forall M i a q p, unit_is M i (fun c => match c with UParticle _ _ => True | _ => False end) -> a <> [] -> suffixed_form i a q p ->
  (forall lq, get_lexeme M q = Ok lq -> exists lp, get_lexeme M p = Ok lp /\ Forall2 (suffixed_form i a) lq lp) /\
  (forall e, get_lexeme M q = Err e -> p_stack q <> [] -> get_lexeme M p = Err e).
Proof.
  intros M i a q p (b & tm & N & U) NA (Hw & Ht & Hn & Hs).
  assert (X : forall who, last_unit (p_stack q) = Ok who -> exists l, same_lex (lexeme_f (S (stack_size (p_stack q))) M who q) l /\
     get_lexeme M p = (let* fs := l in Ok (map (fun x => append_method (with_suffix x a) (MStr (Root i) a)) fs))).
  { intros who LU. unfold get_lexeme. rewrite Hs, last_unit_app. cbn [bind m_unit].
    assert (FU : stack_size (p_stack q ++ [MStr (Root i) a]) = S (stack_size (p_stack q))) by (rewrite stack_size_app; cbn; lia). rewrite FU.
    generalize (S (stack_size (p_stack q))) as n. intros n. cbn [lexeme_f]. rewrite (nth_res_some _ _ _ N). cbn [bind fst].
    destruct (method_info_app (p_stack q) who (MStr (Root i) a) LU) as (base & Eb & Ub).
    exists (lexeme_f n M who (without_last_method (without_fixed_suffix p (length a)))). split.
    - apply lexeme_reading. apply reading_eq; unfold without_last_method, without_fixed_suffix, replace_methods_stack; cbn [p_word p_tag p_nf p_stack].
      + rewrite Hw, slice_to_app by exact NA. reflexivity.
      + congruence.
      + rewrite Hn, slice_to_app by exact NA. reflexivity.
      + rewrite Hs, slice_to_last. reflexivity.
    - destruct (b_cfg b); try contradiction; rewrite Hs, Eb; cbn [bind method_arg1]; rewrite Ub; reflexivity. }
  split.
  - intros lq H. unfold get_lexeme in H. apply bind_ok in H as (who & LU & H). destruct (X who LU) as (l & SL & E). rewrite H in SL. destruct l as [fs|e]; [|destruct SL]. cbn in SL.
    rewrite E. eexists. split; [reflexivity|]. apply same_lex_forall; [exact SL|]. intros f g R. rd R. unfold suffixed_form, append_method, with_suffix, replace_methods_stack. cbn [p_word p_tag p_nf p_stack]. repeat split; congruence.
  - intros e H NE. unfold get_lexeme in H. destruct (last_unit (p_stack q)) as [who|e'] eqn:LU.
    + cbn [bind] in H. destruct (X who eq_refl) as (l & SL & E). rewrite H in SL. destruct l as [fs|e'']; [destruct SL|]. cbn in SL. rewrite E, SL. reflexivity.
    + exfalso. unfold last_unit in LU. destruct (rev (p_stack q)) eqn:R; [|discriminate]. apply NE. apply (f_equal (@rev method)) in R. rewrite rev_involutive in R. exact R.
Qed.
(** a fixed left part *)
Lemma left_lexeme : forall M i l q p, unit_is M i (fun c => match c with UHyph _ _ => True | _ => False end) -> left_form i l q p ->
  (forall lq, get_lexeme M q = Ok lq -> exists lp, get_lexeme M p = Ok lp /\ Forall2 (left_form i l) lq lp) /\
  (forall e, get_lexeme M q = Err e -> get_lexeme M p = Err e).
Proof.
  intros M i l q p (b & tm & N & U) (Hw & Ht & Hn & Hs).
  assert (X : exists r, same_lex (get_lexeme M q) r /\ get_lexeme M p = (let* fs := r in Ok (map (fun f => replace_methods_stack (with_prefix f (l ++ [HY])) [MHyphFixed (Root i) l (p_stack f)]) fs))).
  { unfold get_lexeme. rewrite Hs.
    assert (LU : last_unit [MHyphFixed (Root i) l (p_stack q)] = Ok (Root i)) by reflexivity. rewrite LU. cbn [bind].
    assert (FU : stack_size [MHyphFixed (Root i) l (p_stack q)] = S (stack_size (p_stack q))) by (cbn; unfold stack_size; lia). rewrite FU.
    generalize (S (stack_size (p_stack q))) as n. intros n. cbn [lexeme_f]. rewrite (nth_res_some _ _ _ N). cbn [bind fst].
    exists (let* base := last_unit (p_stack q) in lexeme_f n M base (without_fixed_prefix (replace_methods_stack p (p_stack q)) (length (l ++ [HY])))). split.
    - destruct (last_unit (p_stack q)) as [who|e]; [|reflexivity]. cbn [bind]. apply lexeme_reading. apply reading_eq; unfold without_fixed_prefix, replace_methods_stack; cbn [p_word p_tag p_nf p_stack].
      + rewrite Hw. change (u "-") with [HY]. rewrite app_assoc, slice_from_pos, skipn_app_exact. reflexivity.
      + congruence.
      + rewrite Hn. change (u "-") with [HY]. rewrite app_assoc, slice_from_pos, skipn_app_exact. reflexivity.
      + reflexivity.
    - destruct (b_cfg b); try contradiction. unfold hyph_forms. rewrite Hs. rewrite uref_eqb_refl. cbn [negb].
      destruct (last_unit (p_stack q)) as [who|e]; [|reflexivity]. cbn [bind]. destruct (lexeme_f _ M who _) as [fs|e]; [|reflexivity]. cbn [bind]. apply sequence_oks. }
  destruct X as (r & SL & E). split.
  - intros lq H. rewrite H in SL. destruct r as [fs|e]; [|destruct SL]. cbn in SL. rewrite E. eexists. split; [reflexivity|]. apply same_lex_forall; [exact SL|].
    intros f g R. rd R. unfold left_form, replace_methods_stack, with_prefix. cbn [p_word p_tag p_nf p_stack]. change (u "-") with [HY]. rewrite !app_assoc. repeat split; congruence.
  - intros e H. rewrite H in SL. destruct r as [fs|e']; [destruct SL|]. cbn in SL. rewrite E, SL. reflexivity.
Qed.

(** more fuel *)
Lemma hyph_forms_mono : forall (A B : uref -> parse -> res (list parse)) who f l, (forall w x y, A w x = Ok y -> B w x = Ok y) -> hyph_forms A who f = Ok l -> hyph_forms B who f = Ok l.
Proof.
  intros A B who f l H. unfold hyph_forms. destruct (p_stack f) as [|[| |r0 lw rights|r0 lefts rights] [|]]; try discriminate.
  - destruct (negb (uref_eqb r0 who)); [discriminate|]. destruct (last_unit rights) as [bu|]; [|discriminate]. cbn [bind]. intros E. apply bind_ok in E as (fs & E1 & E). rewrite (H _ _ _ E1). exact E.
  - destruct (negb (uref_eqb r0 who)); [discriminate|]. destruct (without_right_part _) as [a|]; [|discriminate]. cbn [bind]. destruct (without_left_part _) as [b|]; [|discriminate]. cbn [bind].
    destruct (last_unit lefts) as [lu|]; [|discriminate]. cbn [bind]. intros E. apply bind_ok in E as (la & E1 & E). rewrite (H _ _ _ E1). cbn [bind].
    destruct (last_unit rights) as [ru|]; [|discriminate]. cbn [bind] in *. apply bind_ok in E as (lb & E2 & E). rewrite (H _ _ _ E2). exact E.
Qed.
Lemma lexeme_mono : forall n M who f l m, lexeme_f n M who f = Ok l -> n <= m -> lexeme_f m M who f = Ok l.
Proof.
  induction n as [|n IH]; intros M who f l m H L; [discriminate H|]. destruct m as [|m]; [lia|]. cbn [lexeme_f] in *. destruct who as [i|i]; [|exact H].
  destruct (nth_res (m_units M) i) as [[b tm]|e]; [|discriminate H]. cbn [bind fst] in *.
  assert (AN : forall undec dec (need : bool),
    (let* mi := method_info (p_stack f) in let '(base, this) := mi in let* a := if need then method_arg1 this else Ok [] in
       let* fs := lexeme_f n M (m_unit base) (without_last_method (undec a f)) in Ok (map (fun x => append_method (dec a x) this) fs)) = Ok l ->
    (let* mi := method_info (p_stack f) in let '(base, this) := mi in let* a := if need then method_arg1 this else Ok [] in
       let* fs := lexeme_f m M (m_unit base) (without_last_method (undec a f)) in Ok (map (fun x => append_method (dec a x) this) fs)) = Ok l).
  { intros undec dec need. destruct (method_info (p_stack f)) as [[base this]|e]; [|discriminate]. cbn [bind]. destruct (if need then method_arg1 this else Ok []) as [a|e]; [|discriminate]. cbn [bind].
    intros E. apply bind_ok in E as (fs & E1 & E). rewrite (IH _ _ _ _ m E1) by lia. exact E. }
  destruct (b_cfg b); try exact H.
  - apply (AN (fun a x => without_fixed_suffix x (length a)) (fun a x => with_suffix x a) true). exact H.
  - apply bind_ok in H as (fs & E1 & H). rewrite (hyph_forms_mono (lexeme_f n M) (lexeme_f m M) _ _ fs (fun w x y E => IH M w x y m E ltac:(lia)) E1). exact H.
  - apply (AN (fun a x => without_fixed_prefix x (length a)) (fun a x => with_prefix x a) true). exact H.
  - apply (AN (fun a x => without_fixed_prefix x (length a)) (fun a x => with_prefix x a) true). exact H.
  - apply (AN (fun _ x => x) (fun _ x => x) false). exact H.
Qed.
(** readings from the dictionary: the tag does not matter *)
Lemma lexeme_tag : forall M st, from_dictionary M st -> forall n who f g, last_unit st = Ok who -> p_stack f = st -> p_stack g = st -> p_word f = p_word g -> p_nf f = p_nf g ->
  lexeme_f n M who f = lexeme_f n M who g.
Proof.
  intros M st (r & w & para & idx & rest & -> & HR & HU). induction rest as [|m rest IH] using rev_ind; intros n who f g LU Sf Sg Hw Hn; (destruct n as [|n]; [reflexivity|]).
  - cbn in LU. apply Ok_inj in LU. subst who. assert (DL : forall s, dict_lexeme M s f = dict_lexeme M s g) by (intros s; apply dict_lexeme_dep; congruence).
    cbn [lexeme_f]. destruct r as [j|j]; [|apply DL]. destruct (HR j eq_refl) as (b & tm & N & C). rewrite (nth_res_some _ _ _ N). cbn [bind fst]. rewrite C. apply DL.
  - destruct (HU m) as (i & s & -> & b & tm & N & P); [apply in_or_app; right; left; reflexivity|].
    rewrite app_comm_cons, last_unit_app in LU. apply Ok_inj in LU. cbn [m_unit] in LU. subst who. cbn [lexeme_f]. rewrite (nth_res_some _ _ _ N). cbn [bind fst].
    assert (NE : exists wb, last_unit (MDict r w para idx :: rest) = Ok wb).
    { unfold last_unit. destruct (rev (MDict r w para idx :: rest)) as [|x y] eqn:R; [|eauto]. apply (f_equal (@length method)) in R. rewrite rev_length in R. discriminate R. }
    destruct NE as (wb & LB). destruct (method_info_app _ _ (MStr (Root i) s) LB) as (base & Eb & Ub).
    assert (HU' : forall m, In m rest -> exists i s, m = MStr (Root i) s /\ unit_is M i attaching) by (intros m Im; apply HU; apply in_or_app; left; exact Im).
    assert (I1 : forall x y, p_stack x = p_stack f -> p_stack y = p_stack f -> p_word x = p_word y -> p_nf x = p_nf y -> lexeme_f n M wb (without_last_method x) = lexeme_f n M wb (without_last_method y)).
    { intros x y Sx Sy Wx Nx. apply (IH HU' n wb); [exact LB| | | |]; unfold without_last_method, replace_methods_stack; cbn [p_word p_tag p_nf p_stack]; [| |exact Wx|exact Nx].
      - rewrite Sx, Sf, app_comm_cons. apply slice_to_last.
      - rewrite Sy, Sf, app_comm_cons. apply slice_to_last. }
    assert (PS : p_stack g = p_stack f) by congruence.
    destruct (b_cfg b); try contradiction; rewrite Sf, Sg, app_comm_cons, Eb; cbn [bind method_arg1]; rewrite Ub;
      match goal with |- (let* _ := ?a in _) = (let* _ := ?b in _) => assert (E : a = b) by
        (apply I1; unfold without_fixed_prefix, without_fixed_suffix; cbn [p_word p_tag p_nf p_stack]; congruence); rewrite E; reflexivity end.
Qed.
