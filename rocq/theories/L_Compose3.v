(** * Lemmas for C69, parse level *)
From Coq Require Import String List NArith ZArith Bool QArith Lia.
From Verif Require Import Py Uni Tagset Dawg Dict Units Analyzer Spec Spec2 Spec15 Spec19.
From Verif Require Import L_Base L_Words L_Lexeme L_Made L_ByUnit L_Known L_Compose L_Compose2.
Import ListNotations.
Local Open Scope nat_scope.
Local Open Scope list_scope.

Lemma predicted_lexeme : forall M i e q p, unit_is M i (fun c => match c with UKnownSuffix _ _ => True | _ => False end) -> predicted_form i e q p ->
  (forall lq, get_lexeme M q = Ok lq -> exists lp, get_lexeme M p = Ok lp /\ Forall2 (predicted_form i e) lq lp) /\
  (forall er, get_lexeme M q = Err er -> p_stack q <> [] -> get_lexeme M p = Err er).
Proof.
  intros M i a q p (b & tm & N & U) (Hw & Ht & Hn & Hs).
  assert (X : forall who, last_unit (p_stack q) = Ok who -> exists l, same_lex (lexeme_f (S (stack_size (p_stack q))) M who q) l /\
     get_lexeme M p = (let* fs := l in Ok (map (fun x => append_method x (MStr (Root i) a)) fs))).
  { intros who LU. unfold get_lexeme. rewrite Hs, last_unit_app. cbn [bind m_unit].
    assert (FU : stack_size (p_stack q ++ [MStr (Root i) a]) = S (stack_size (p_stack q))) by (rewrite stack_size_app; cbn; lia). rewrite FU.
    generalize (S (stack_size (p_stack q))) as n. intros n. cbn [lexeme_f]. rewrite (nth_res_some _ _ _ N). cbn [bind fst].
    destruct (method_info_app (p_stack q) who (MStr (Root i) a) LU) as (base & Eb & Ub).
    exists (lexeme_f n M who (without_last_method p)). split.
    - apply lexeme_reading. apply reading_eq; unfold without_last_method, replace_methods_stack; cbn [p_word p_tag p_nf p_stack]; try congruence.
      rewrite Hs, slice_to_last. reflexivity.
    - destruct (b_cfg b); try contradiction; rewrite Hs, Eb; cbn [bind]; rewrite Ub; reflexivity. }
  split.
  - intros lq H. unfold get_lexeme in H. apply bind_ok in H as (who & LU & H). destruct (X who LU) as (l & SL & E). rewrite H in SL. destruct l as [fs|e]; [|destruct SL]. cbn in SL.
    rewrite E. eexists. split; [reflexivity|]. apply same_lex_forall; [exact SL|]. intros f g R. rd R. unfold predicted_form, append_method, replace_methods_stack. cbn [p_word p_tag p_nf p_stack]. repeat split; congruence.
  - intros e H NE. unfold get_lexeme in H. destruct (last_unit (p_stack q)) as [who|e'] eqn:LU.
    + cbn [bind] in H. destruct (X who eq_refl) as (l & SL & E). rewrite H in SL. destruct l as [fs|e'']; [destruct SL|]. cbn in SL. rewrite E, SL. reflexivity.
    + exfalso. unfold last_unit in LU. destruct (rev (p_stack q)) eqn:R; [|discriminate]. apply NE. apply (f_equal (@rev method)) in R. rewrite rev_involutive in R. exact R.
Qed.

Lemma unit_is_of : forall M i b tm (P : ucfg -> Prop), nth_error (m_units M) i = Some (b, tm) -> P (b_cfg b) -> unit_is M i P.
Proof. intros M i b tm P N H. exists b, tm. auto. Qed.
Lemma from_dictionary_app : forall M st i s, from_dictionary M st -> unit_is M i attaching -> from_dictionary M (st ++ [MStr (Root i) s]).
Proof.
  intros M st i s (r & w & para & idx & rest & -> & HR & HU) UI. exists r, w, para, idx, (rest ++ [MStr (Root i) s]). split; [reflexivity|]. split; [exact HR|].
  intros m I. apply in_app_or in I as [I|[<-|[]]]; [auto|]. exists i, s. auto.
Qed.
Lemma based_app : forall p st m, p_stack p = st ++ [m] -> dictionary_based p -> st <> [] -> exists r w para idx rest, st = MDict r w para idx :: rest.
Proof. intros p st m E (r & w & para & idx & rest & D) NE. destruct st as [|x st]; [destruct NE; reflexivity|]. rewrite E in D. cbn [app] in D. apply cons_inv in D as [-> _]. exists r, w, para, idx, st. reflexivity. Qed.
Lemma stack_nonempty : forall f M word ps p, parse_f f M word = Ok ps -> In p ps -> p_stack p <> [].
Proof.
  intros [|f] M word ps p H I; [discriminate|]. apply (parse_f_made f M word ps p H) in I as (i & b & tm & p0 & q & N & Md & ->).
  cbn [with_score p_stack].
  destruct Md; subst; cbn [p_stack prefixed suffixed both_parse fixed_left_parse]; try discriminate;
   try (match goal with H : dict_entry _ _ _ _ |- _ => destruct H as (? & ? & ? & ? & ? & ? & ? & ? & ? & ? & ? & ->) end; discriminate);
   try (match goal with H : ks_entry _ _ _ _ _ _ |- _ => destruct H as (? & ? & ? & ? & ? & ? & ? & ? & ? & ? & ? & ? & ? & ? & ? & ? & ? & ? & ? & ? & ? & ? & ? & ->) end; discriminate);
   (intros E; apply (f_equal (@length method)) in E; rewrite app_length in E; cbn in E; lia).
Qed.
Lemma based_from : forall f M word ps p, parse_f f M word = Ok ps -> In p ps -> dictionary_based p -> from_dictionary M (p_stack p).
Proof.
  induction f as [|f IH]; intros M word ps p H I D; [discriminate|].
  apply (parse_f_made f M word ps p H) in I as (i & b & tm & p0 & q & N & Md & ->).
  change (dictionary_based p0) in D. change (from_dictionary M (p_stack p0)). clear H.
  destruct Md as [p C DE|first letters pat score t C|score t C ST|particles mult w particle qs p C I1 I2 W1 W2 W3 R Iq|mult t C|skip mult lw rw ls rs l r C|skip mult lw rw rs r C|prefixes mult minrem prefix rest qs p C I1 R Iq PR|mult prefix rest p C I1 DE PR|mult minlen p C L KE|t C].
  - destruct DE as (w & vals & para & idx & nf & t & V & G & I & _ & _ & ->). cbn [p_stack]. exists (Root i), w, para, idx, []. split; [reflexivity|]. split; [|intros m []].
    intros j E. injection E as <-. apply (unit_is_of M i b tm _ N C).
  - destruct D as (r & w & para & idx & rest & D). discriminate D.
  - destruct D as (r & w & para & idx & rest & D). discriminate D.
  - cbn [suffixed p_stack] in D |- *. apply from_dictionary_app; [|apply (unit_is_of M i b tm _ N); rewrite C; exact Logic.I].
    apply (IH M w qs p R Iq). exact (based_app (suffixed (Root i) mult particle p) (p_stack p) _ eq_refl D (stack_nonempty f M w qs p R Iq)).
  - destruct D as (r & w & para & idx & rest & D). discriminate D.
  - destruct D as (? & w & para & idx & rest & D). discriminate D.
  - destruct D as (? & w & para & idx & rest & D). discriminate D.
  - cbn [prefixed p_stack] in D |- *. apply from_dictionary_app; [|apply (unit_is_of M i b tm _ N); rewrite C; exact Logic.I].
    apply (IH M rest qs p R Iq). exact (based_app (prefixed (Root i) mult prefix p) (p_stack p) _ eq_refl D (stack_nonempty f M rest qs p R Iq)).
  - cbn [prefixed p_stack] in D |- *. apply from_dictionary_app; [|apply (unit_is_of M i b tm _ N); rewrite C; exact Logic.I].
    destruct DE as (w & vals & para & idx & nf & t & V & G & I & _ & _ & ->). cbn [p_stack]. exists (Sub i), w, para, idx, []. split; [reflexivity|]. split; [intros j E; discriminate E|intros m []].
  - destruct KE as (pid & pre & dawg & j & fs & vals & cnt & para & idx & t & nf & total & _ & _ & _ & _ & _ & _ & _ & _ & _ & _ & _ & ->). cbn [p_stack].
    change (from_dictionary M ([MDict (Sub i) (slice_to (u_lower (m_uni M) word) (- Z.of_nat j) ++ fs) para idx] ++ [MStr (Root i) fs])).
    apply from_dictionary_app; [|apply (unit_is_of M i b tm _ N); rewrite C; exact Logic.I].
    eexists _, _, _, _, []. split; [reflexivity|]. split; [intros j' E; discriminate E|intros m []].
  - destruct D as (r & w & para & idx & rest & D). discriminate D.
Qed.

(** parse level *)
Lemma prefix_parse_lexeme : forall M word ps p i b tm prefixes mult minrem, lower_stable (m_uni M) ->
  Forall (fun bt => prefixes_nonempty (fst bt)) (m_units M) ->
  morph_parse M word = Ok ps -> In p ps -> made_by p = Some (Root i) -> nth_error (m_units M) i = Some (b, tm) ->
  b_cfg b = UKnownPrefix prefixes mult minrem ->
  exists prefix rest qs q, In prefix prefixes /\ u_lower (m_uni M) word = prefix ++ rest /\ morph_parse M rest = Ok qs /\ In q qs /\ prefixed_form i prefix q p /\
    forall lq, get_lexeme M q = Ok lq -> exists lp, get_lexeme M p = Ok lp /\ Forall2 (prefixed_form i prefix) lq lp.
Proof.
  intros M word ps p i b tm prefixes mult minrem LS PN H I MB N C.
  destruct (kp_sound M word ps p i b tm prefixes mult minrem LS PN H I MB N C) as (prefix & rest & qs & q & p0 & Ip & E & L & R & Iq & PR & (A1 & A2 & A3 & A4 & A5) & K & _).
  assert (F : prefixed_form i prefix q p). { unfold content in K. injection K as K1 K2 K3 K4. repeat split; congruence. }
  exists prefix, rest, qs, q. repeat (split; [assumption|]). apply (prefixed_lexeme M i prefix q p); [|exact F]. apply (unit_is_of M i b tm _ N). rewrite C. exact Logic.I.
Qed.
Lemma particle_parse_lexeme : forall M word ps p i b tm particles mult, lower_stable (m_uni M) ->
  Forall (fun bt => prefixes_nonempty (fst bt)) (m_units M) -> ~ In [] particles ->
  morph_parse M word = Ok ps -> In p ps -> made_by p = Some (Root i) -> nth_error (m_units M) i = Some (b, tm) ->
  b_cfg b = UParticle particles mult ->
  exists w pt qs q, In pt particles /\ u_lower (m_uni M) word = w ++ pt /\ morph_parse M w = Ok qs /\ In q qs /\ suffixed_form i pt q p /\
    forall lq, get_lexeme M q = Ok lq -> exists lp, get_lexeme M p = Ok lp /\ Forall2 (suffixed_form i pt) lq lp.
Proof.
  intros M word ps p i b tm particles mult LS PN NE H I MB N C.
  destruct (particle_sound M word ps p i b tm particles mult LS PN H I MB N C) as (w & pt & qs & q & p0 & E & Ip & _ & _ & R & Iq & (A1 & A2 & A3 & A4 & A5) & K & _).
  assert (F : suffixed_form i pt q p). { unfold content in K. injection K as K1 K2 K3 K4. repeat split; congruence. }
  exists w, pt, qs, q. repeat (split; [assumption|]). apply (suffixed_lexeme M i pt q p); [|intros ->; auto|exact F]. apply (unit_is_of M i b tm _ N). rewrite C. exact Logic.I.
Qed.
Lemma hyphen_parse_lexeme : forall M word ps p i b tm skip mult, lower_stable (m_uni M) ->
  Forall (fun bt => prefixes_nonempty (fst bt)) (m_units M) -> ~ In [] skip ->
  morph_parse M word = Ok ps -> In p ps -> made_by p = Some (Root i) -> nth_error (m_units M) i = Some (b, tm) ->
  b_cfg b = UHyph skip mult ->
  exists l r rs c, one_inner_hyphen (u_lower (m_uni M) word) l r /\ morph_parse M r = Ok rs /\ In c rs /\
    ((left_form i l c p /\ forall lc, get_lexeme M c = Ok lc -> exists lp, get_lexeme M p = Ok lp /\ Forall2 (left_form i l) lc lp) \/
     (exists ls a, morph_parse M l = Ok ls /\ In a ls /\ joined_form i a c p /\
        forall la lc, get_lexeme M a = Ok la -> get_lexeme M c = Ok lc -> modest la lc -> dictionary_based c -> ~ In (chr "-") (p_word a ++ p_nf a) ->
          exists lp, get_lexeme M p = Ok lp /\ Forall2 (fun f g => exists l', best_match la f l' /\ joined_form i l' f g) lc lp)).
Proof.
  intros M word ps p i b tm skip mult LS PN NE H I MB N C.
  destruct (hyph_parse_sound M word ps p i b tm skip mult LS PN NE H I MB N C) as (_ & p0 & K & _ & l & r & OH & [(ls & rs & a & c & L & R & Ia & Ic & _ & _ & ->)|(rs & c & R & Ic & _ & ->)]);
    unfold content in K; cbn [p_word p_tag p_nf p_stack] in K; injection K as K1 K2 K3 K4; exists l, r, rs, c; (repeat (split; [assumption|])).
  - right. exists ls, a. split; [exact L|]. split; [exact Ia|]. assert (F : joined_form i a c p) by (repeat split; assumption). split; [exact F|].
    intros la lc GA GC (NEa & SM) DB NH. apply (joined_lexeme M i a c p la lc); auto.
    + apply (unit_is_of M i b tm _ N). rewrite C. exact Logic.I.
    + intros X. apply NH. apply in_or_app. auto.
    + intros X. apply NH. apply in_or_app. auto.
    + unfold morph_parse in R. apply (based_from _ M r rs c R Ic DB).
    + intros f If. destruct la as [|x la]; [destruct NEa; reflexivity|]. exists x. split; [left; reflexivity|].
      assert (X1 := SM x (or_introl eq_refl)). assert (X2 := SM f (in_or_app (x :: la) lc f (or_intror If))). lia.
  - left. assert (F : left_form i l c p) by (repeat split; assumption). split; [exact F|]. apply (left_lexeme M i l c p); [|exact F]. apply (unit_is_of M i b tm _ N). rewrite C. exact Logic.I.
Qed.
(** the two units with a dictionary analyzer of their own *)
Lemma own_parse_lexeme : forall M word ps p i b tm, lower_stable (m_uni M) ->
  Forall (fun bt => prefixes_nonempty (fst bt)) (m_units M) ->
  morph_parse M word = Ok ps -> In p ps -> made_by p = Some (Root i) -> nth_error (m_units M) i = Some (b, tm) ->
  match b_cfg b with
  | UUnknownPrefix _ => exists prefix rest q para idx, u_lower (m_uni M) word = prefix ++ rest /\ subst_of (m_subst M) rest (p_word q) /\ p_stack q = [MDict (Sub i) (p_word q) para idx] /\
      prefixed_form i prefix q p /\ forall lq, get_lexeme M q = Ok lq -> exists lp, get_lexeme M p = Ok lp /\ Forall2 (prefixed_form i prefix) lq lp
  | UKnownSuffix _ _ => exists e q para idx, p_stack q = [MDict (Sub i) (p_word q) para idx] /\
      predicted_form i e q p /\ forall lq, get_lexeme M q = Ok lq -> exists lp, get_lexeme M p = Ok lp /\ Forall2 (predicted_form i e) lq lp
  | _ => True
  end.
Proof.
  intros M word ps p i b tm St F H Hp Mb Hi. destruct (b_cfg b) eqn:C; try exact Logic.I;
  destruct (parse_by_unit _ _ _ _ _ _ _ St F H Hp Mb Hi) as (p0 & Md & Ec & _); injection Ec as E1 E2 E3 E4;
  destruct Md as [p' C' DE|first letters pat score t C'|score t C' ST|particles mult' w particle qs p' C' I1 I2 W1 W2 W3 R Iq|mult' t C'|skip mult' lw rw ls rs l r C'|skip mult' lw rw rs r C'|prefixes mult' minrem prefix rest qs p' C' I1 R Iq PR|mult' prefix rest p' C' I1 DE PR|mult' minlen' p' C' L KE|t C'];
    try congruence; try (destruct C' as [C'|[C'|[C'|C']]]; congruence).
  - destruct DE as (w & vals & para & idx & nf & t & V & G & I & _ & _ & ->). apply word_splits_In in I1 as (E & _).
    exists prefix, rest, {| p_word := w; p_tag := t; p_nf := nf; p_score := 1; p_stack := [MDict (Sub i) w para idx] |}, para, idx.
    split; [exact E|]. cbn [p_word p_stack]. split; [apply variants_spec; exact V|]. split; [reflexivity|].
    match goal with |- ?A /\ _ => assert (PF : A) end.
    { cbn [prefixed p_word p_tag p_nf p_stack] in E1, E2, E3, E4. repeat split; cbn [p_word p_tag p_nf p_stack]; assumption. }
    split; [exact PF|]. apply (prefixed_lexeme M i _ _ _ (unit_is_of M i b tm (fun c => match c with UKnownPrefix _ _ _ | UUnknownPrefix _ => True | _ => False end) Hi ltac:(cbv beta; rewrite C; exact Logic.I)) PF).
  - destruct KE as (pid & pre & dawg & j & fs & vals & cnt & para & idx & t & nf & total & _ & _ & _ & _ & _ & _ & _ & _ & _ & _ & _ & ->).
    cbn [p_word p_tag p_nf p_stack] in E1, E2, E3, E4.
    exists fs, {| p_word := p_word p; p_tag := p_tag p; p_nf := p_nf p; p_score := 1; p_stack := [MDict (Sub i) (p_word p) para idx] |}, para, idx. split; [reflexivity|].
    match goal with |- ?A /\ _ => assert (PF : A) end.
    { repeat split; cbn [p_word p_tag p_nf p_stack]. rewrite E1. exact E4. }
    split; [exact PF|]. apply (predicted_lexeme M i _ _ _ (unit_is_of M i b tm (fun c => match c with UKnownSuffix _ _ => True | _ => False end) Hi ltac:(cbv beta; rewrite C; exact Logic.I)) PF).
Qed.
Lemma get_lexeme_content : forall M p p', content p = content p' ->
  match get_lexeme M p, get_lexeme M p' with Ok l, Ok l' => map content l = map content l' | Err e, Err e' => e = e' | _, _ => False end.
Proof.
  intros M p p' H. change (reading p = reading p') in H. unfold get_lexeme. assert (S : p_stack p = p_stack p') by (apply reading_inv in H as (_ & _ & _ & S); exact S). rewrite S.
  destruct (last_unit (p_stack p')) as [who|e]; [|reflexivity]. cbn [bind]. exact (lexeme_reading _ M who p p' H).
Qed.
