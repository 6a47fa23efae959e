(** * Lexemes of words analysed through a shorter word (C69) *)
From Coq Require Import String List NArith ZArith Bool QArith Lia.
From Verif Require Import Py Uni Tagset Dawg Dict Units Analyzer Spec Spec2 Spec19 Ex.
From Verif Require Import L_Base L_Ex L_Compose L_Compose2 L_Compose3.
Import ListNotations.
Local Open Scope nat_scope.
Local Open Scope list_scope.

(** ** C69 *)
(** a known prefix: the lexeme of the rest with the prefix put before every form *)
Theorem C69_prefix : forall M word ps p i b tm prefixes mult minrem, lower_stable (m_uni M) ->
  Forall (fun bt => prefixes_nonempty (fst bt)) (m_units M) ->
  morph_parse M word = Ok ps -> In p ps -> made_by p = Some (Root i) -> nth_error (m_units M) i = Some (b, tm) ->
  b_cfg b = UKnownPrefix prefixes mult minrem ->
  exists prefix rest qs q, In prefix prefixes /\ u_lower (m_uni M) word = prefix ++ rest /\ morph_parse M rest = Ok qs /\ In q qs /\ prefixed_form i prefix q p /\
    forall lq, get_lexeme M q = Ok lq -> exists lp, get_lexeme M p = Ok lp /\ Forall2 (prefixed_form i prefix) lq lp.
Proof. exact prefix_parse_lexeme. Qed.
Print Assumptions C69_prefix.
(** a particle: the lexeme of the word before it with the particle put after every form *)
Theorem C69_particle : forall M word ps p i b tm particles mult, lower_stable (m_uni M) ->
  Forall (fun bt => prefixes_nonempty (fst bt)) (m_units M) -> ~ In [] particles ->
  morph_parse M word = Ok ps -> In p ps -> made_by p = Some (Root i) -> nth_error (m_units M) i = Some (b, tm) ->
  b_cfg b = UParticle particles mult ->
  exists w pt qs q, In pt particles /\ u_lower (m_uni M) word = w ++ pt /\ morph_parse M w = Ok qs /\ In q qs /\ suffixed_form i pt q p /\
    forall lq, get_lexeme M q = Ok lq -> exists lp, get_lexeme M p = Ok lp /\ Forall2 (suffixed_form i pt) lq lp.
Proof. exact particle_parse_lexeme. Qed.
Print Assumptions C69_particle.
(** a hyphenated word: the lexeme of the right part, behind the unchanging left part or behind the best matching form of the left lexeme *)
Theorem C69_hyphen : forall M word ps p i b tm skip mult, lower_stable (m_uni M) ->
  Forall (fun bt => prefixes_nonempty (fst bt)) (m_units M) -> ~ In [] skip ->
  morph_parse M word = Ok ps -> In p ps -> made_by p = Some (Root i) -> nth_error (m_units M) i = Some (b, tm) ->
  b_cfg b = UHyph skip mult ->
  exists l r rs c, one_inner_hyphen (u_lower (m_uni M) word) l r /\ morph_parse M r = Ok rs /\ In c rs /\
    ((left_form i l c p /\ forall lc, get_lexeme M c = Ok lc -> exists lp, get_lexeme M p = Ok lp /\ Forall2 (left_form i l) lc lp) \/
     (exists ls a, morph_parse M l = Ok ls /\ In a ls /\ joined_form i a c p /\
        forall la lc, get_lexeme M a = Ok la -> get_lexeme M c = Ok lc -> modest la lc -> dictionary_based c -> ~ In (chr "-") (p_word a ++ p_nf a) ->
          exists lp, get_lexeme M p = Ok lp /\ Forall2 (fun f g => exists l', best_match la f l' /\ joined_form i l' f g) lc lp)).
Proof. exact hyphen_parse_lexeme. Qed.
Print Assumptions C69_hyphen.
(** an unknown prefix or a known ending: the lexeme of the dictionary form the word was likened to *)
Theorem C69_analogy : forall M word ps p i b tm, lower_stable (m_uni M) ->
  Forall (fun bt => prefixes_nonempty (fst bt)) (m_units M) ->
  morph_parse M word = Ok ps -> In p ps -> made_by p = Some (Root i) -> nth_error (m_units M) i = Some (b, tm) ->
  match b_cfg b with
  | UUnknownPrefix _ => exists prefix rest q para idx, u_lower (m_uni M) word = prefix ++ rest /\ subst_of (m_subst M) rest (p_word q) /\ p_stack q = [MDict (Sub i) (p_word q) para idx] /\
      prefixed_form i prefix q p /\ forall lq, get_lexeme M q = Ok lq -> exists lp, get_lexeme M p = Ok lp /\ Forall2 (prefixed_form i prefix) lq lp
  | UKnownSuffix _ _ => exists e q para idx, p_stack q = [MDict (Sub i) (p_word q) para idx] /\
      predicted_form i e q p /\ forall lq, get_lexeme M q = Ok lq -> exists lp, get_lexeme M p = Ok lp /\ Forall2 (predicted_form i e) lq lp
  | _ => True
  end.
Proof. exact own_parse_lexeme. Qed.
Print Assumptions C69_analogy.
(** scores play no part: parses that differ in their scores only have the same lexeme, form by form *)
Theorem C69_scores : forall M p p', content p = content p' ->
  match get_lexeme M p, get_lexeme M p' with
  | Ok l, Ok l' => map content l = map content l'
  | Err e, Err e' => e = e'
  | _, _ => False
  end.
Proof. exact get_lexeme_content. Qed.
Print Assumptions C69_scores.

Definition kindb (M : morph) (k : ucfg -> bool) (p : parse) : bool :=
  match made_by p with Some (Root i) => match nth_error (m_units M) i with Some (b, _) => k (b_cfg b) | None => false end | _ => false end.
Definition words_of (M : morph) (k : ucfg -> bool) (word : str) (ws : list str) : Prop :=
  exists ps p i b tm lex, morph_parse M word = Ok ps /\ In p ps /\ made_by p = Some (Root i) /\ nth_error (m_units M) i = Some (b, tm) /\ k (b_cfg b) = true /\
    get_lexeme M p = Ok lex /\ map p_word lex = ws.
Definition words_ofb (M : morph) (k : ucfg -> bool) (ws : list str) (r : res (list parse)) : bool :=
  match r with Ok ps => existsb (fun p => kindb M k p && match get_lexeme M p with Ok lex => if list_eq_dec (list_eq_dec N.eq_dec) (map p_word lex) ws then true else false | _ => false end) ps | _ => false end.
Lemma words_ofb_ok : forall M k word ws, words_ofb M k ws (morph_parse M word) = true -> words_of M k word ws.
Proof.
  intros M k word ws H. unfold words_of. destruct (morph_parse M word) as [ps|e]; [|discriminate H]. cbn [words_ofb] in H. apply existsb_exists in H as (p & I & H). apply andb_true_iff in H as [K H].
  unfold kindb in K. destruct (made_by p) as [[i|i]|] eqn:MB; try discriminate K. destruct (nth_error (m_units M) i) as [[b tm]|] eqn:N; [|discriminate K].
  destruct (get_lexeme M p) as [lex|e] eqn:L; [|discriminate H]. destruct (list_eq_dec (list_eq_dec N.eq_dec) (map p_word lex) ws) as [E|E]; [|discriminate H].
  exists ps, p, i, b, tm, lex. auto 10.
Qed.
(** the hypotheses of the last clause of [C69_hyphen] hold for the parts of this word *)
Definition parts_ok (M : morph) (l r : str) : Prop :=
  exists ls rs a c la lc, morph_parse M l = Ok ls /\ morph_parse M r = Ok rs /\ In a ls /\ In c rs /\
    get_lexeme M a = Ok la /\ get_lexeme M c = Ok lc /\ modest la lc /\ dictionary_based c /\ ~ In (chr "-") (p_word a ++ p_nf a).
Definition parts_okb (M : morph) (l r : str) : bool :=
  match morph_parse M l, morph_parse M r with
  | Ok (a :: _), Ok (c :: _) =>
    match get_lexeme M a, get_lexeme M c with
    | Ok (f :: la), Ok lc => forallb (fun f => (N.of_nat (length (t_gr (p_tag f))) <? 500000)%N) ((f :: la) ++ lc) &&
        (match p_stack c with MDict _ _ _ _ :: _ => true | _ => false end && forallb (fun x => negb (x =? chr "-")%N) (p_word a ++ p_nf a))
    | _, _ => false
    end
  | _, _ => false
  end.
Lemma parts_okb_ok : forall M l r, parts_okb M l r = true -> parts_ok M l r.
Proof.
  intros M l r H. unfold parts_okb in H. unfold parts_ok. destruct (morph_parse M l) as [[|a ls]|] eqn:L; try discriminate H. destruct (morph_parse M r) as [[|c rs]|] eqn:R; try discriminate H.
  destruct (get_lexeme M a) as [[|f la]|] eqn:GA; try discriminate H. destruct (get_lexeme M c) as [lc|] eqn:GC; try discriminate H.
  apply andb_true_iff in H as [H1 H]. apply andb_true_iff in H as [H2 H3].
  exists (a :: ls), (c :: rs), a, c, (f :: la), lc. repeat (split; [first [reflexivity|assumption|left; reflexivity]|]). split; [|split].
  - split; [discriminate|]. intros g I. rewrite forallb_forall in H1. apply N.ltb_lt. apply H1. exact I.
  - unfold dictionary_based. destruct (p_stack c) as [|[] rest]; try discriminate H2. eauto 10.
  - intros I. rewrite forallb_forall in H3. specialize (H3 _ I). rewrite N.eqb_refl in H3. discriminate H3.
Qed.
Example C69_case : lower_stable (m_uni demo) /\ Forall (fun bt => prefixes_nonempty (fst bt)) (m_units demo) /\
  words_of demo (fun c => match c with UKnownPrefix _ _ _ => true | _ => false end) (u "Суперкота")
    (map u ["суперкот"; "суперкота"; "суперкоту"; "суперкота"; "суперкоты"; "суперкотов"; "суперкотам"]%string) /\
  words_of demo (fun c => match c with UParticle _ _ => true | _ => false end) (u "Кота-то")
    (map u ["кот-то"; "кота-то"; "коту-то"; "кота-то"; "коты-то"; "котов-то"; "котам-то"]%string) /\
  words_of demo (fun c => match c with UHyph _ _ => true | _ => false end) (u "Кота-крота")
    (map u ["кот-крот"; "кота-крота"; "коту-кроту"; "кота-крота"; "коты-кроты"; "котов-кротов"; "котам-кротам"]%string) /\
  words_of demo (fun c => match c with UHyph _ _ => true | _ => false end) (u "Кота-крота")
    (map u ["кота-крот"; "кота-крота"; "кота-кроту"; "кота-крота"; "кота-кроты"; "кота-кротов"; "кота-кротам"]%string) /\
  parts_ok demo (u "кота") (u "крота") /\
  words_of demo (fun c => match c with UUnknownPrefix _ => true | _ => false end) (u "Байткота")
    (map u ["байткот"; "байткота"; "байткоту"; "байткота"; "байткоты"; "байткотов"; "байткотам"]%string) /\
  words_of demo (fun c => match c with UKnownSuffix _ _ => true | _ => false end) (u "бубоговикроту")
    (map u ["бубоговикрот"; "бубоговикрота"; "бубоговикроту"; "бубоговикрота"; "бубоговикроты"; "бубоговикротов"; "бубоговикротам"]%string).
Proof.
  split; [exact demo_stable|]. split; [exact demo_prefixes|].
  repeat split; first [apply words_ofb_ok|apply parts_okb_ok]; vm_compute; reflexivity.
Qed.
