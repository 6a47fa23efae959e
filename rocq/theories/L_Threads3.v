(** * Threads: results for every schedule *)
From Coq Require Import String List NArith ZArith Bool Lia.
From Verif Require Import Py Uni Tagset Shapes Units Analyzer Threads Spec6 Spec11.
From Verif Require Import L_Base L_Tagset L_Threads L_Threads2 L_ThreadParse L_ThreadLex.
Import ListNotations.
Local Open Scope nat_scope.
Local Open Scope list_scope.

(** ** the test for adverbs in a class that knows the grammemes *)
Lemma any_known : forall C gs ts, knows C gs -> any_contains C gs ts = Ok (existsb (fun t => ssub gs (t_gr t)) ts).
Proof.
  intros C gs ts K. induction ts as [|t ts IH]; [reflexivity|]. cbn [any_contains existsb]. unfold contains_set. destruct (ssub gs (t_gr t)); cbn [bind orb]; [reflexivity|]. unfold assert_known.
  assert (X : ssub gs (tc_known C) = true) by (apply ssub_incl; exact K). rewrite X. exact IH.
Qed.
Lemma contains_known : forall C g t, In g (tc_known C) -> contains C g t = Ok (smem g (t_gr t)).
Proof.
  intros C g t K. unfold contains. destruct (smem g (t_gr t)); [reflexivity|]. unfold grammeme_is_known, assert_initialized. apply smem_In in K. destruct (tc_known C) as [|x l]; [discriminate K|]. cbn [bind]. rewrite K. reflexivity.
Qed.
Lemma existsb_map : forall A B (f : A -> B) p l, existsb p (map f l) = existsb (fun x => p (f x)) l.
Proof. intros A B f p l. induction l; cbn; congruence. Qed.
Lemma rmap_or : forall A B (f : A -> B) (x r : res A) bad, ok_or bad x r -> ok_or bad (rmap f x) (rmap f r).
Proof. intros A B f x r bad [->|(e & -> & E)]; [left; reflexivity|right; exists e; auto]. Qed.

(** normal_forms() is parse() and something the thread does alone *)
Notation nf_val := (fun ps : list parse => VStrs (dedup_from [] (map p_nf ps))).
Lemma nf_pure : forall U tag_of func C M o w, pure U tag_of func C (CNormalForms M o w) = rmap nf_val (morph_parse (in_class C M) w).
Proof. intros. cbn [pure]. unfold morph_normal_forms. destruct (morph_parse (in_class C M) w); reflexivity. Qed.
Section Any.
  Variables (U : uni) (tag_of : nat -> tag) (func : str -> res str).
  Notation IA := (caches U tag_of func).
  Notation code := (code U tag_of func).
  Notation runs := (runs U tag_of func).
  Notation pure := (pure U tag_of func).
  Lemma fresh_caches : forall m, fresh m -> h_known m < length (h_sets m) -> IA m.
  Proof. intros m (A & B & D) K. constructor; auto; [rewrite A|rewrite B|intros o s; rewrite D]; cbn; discriminate. Qed.
  Lemma a_latin : forall m c b, IA m -> u_latin U c = Some b -> IA (fst (exec (LatinSetdefault c b) m)).
  Proof. intros m c b H E. apply honest_caches; auto. Qed.
  Lemma a_memo : forall m k v, IA m -> func k = Ok v -> IA (fst (exec (MemoSet k v) m)).
  Proof. intros m c b H E. apply honest_caches; auto. Qed.
  Lemma a_gr : forall m o, IA m -> IA (fst (exec (SetGr o (t_gr (tag_of o))) m)).
  Proof. intros m o H. apply honest_caches; auto. reflexivity. Qed.
  Lemma tame_pret : forall A (f : A -> val) p, tame U tag_of func p -> tame U tag_of func (pret f p).
  Proof. intros A f p H. apply tame_bind; [exact H|]. intros a. constructor. Qed.

  (** whatever happens, a membership test that answers, answers correctly *)
  Definition q_any (C : tagclass) (c : call) (r : res val) : Prop :=
    (independent c -> r = pure C c) /\
    match c with
    | CContains g o => r = Ok (VBool (smem g (t_gr (tag_of o)))) \/ (smem g (t_gr (tag_of o)) = false /\ (r = Err RuntimeError \/ r = Err ValueError))
    | CContainsSet gs o => r = Ok (VBool (ssub gs (t_gr (tag_of o)))) \/ (ssub gs (t_gr (tag_of o)) = false /\ (r = Err RuntimeError \/ r = Err ValueError))
    | CAny gs os => r = Ok (VBool (existsb (fun o => ssub gs (t_gr (tag_of o))) os)) \/ r = Err RuntimeError \/ r = Err ValueError
    | CLexeme _ _ _ | CNormalized _ _ _ => has_objects U tag_of c -> knows C masc_grammeme -> r = pure C c \/ r = Err RuntimeError \/ r = Err ValueError
    | _ => True
    end /\
    (analyzes c -> has_objects U tag_of c -> (knows C adverb_grammemes -> r = pure C c \/ r = Err RuntimeError \/ r = Err ValueError) /\ (no_test U c -> r = pure C c)).
  Notation safe := (safe IA grows).
  Lemma tame_any_op : forall A (p : prog A) (P : res A -> Prop) m, tame U tag_of func p -> (forall r, P r) -> safe P m p.
  Proof. intros A p P m T H. apply (safe_weaken IA grows _ (fun _ => True)); [auto|]. apply tame_safe; exact T. Qed.
  Definition race {A} (r : res A) : Prop := match r with Ok _ => True | Err e => e = RuntimeError \/ e = ValueError end.
  Lemma r_init : forall m, safe race m assert_initialized_t.
  Proof.
    intros m. unfold assert_initialized_t. cbn [pbind act]. apply read; [reflexivity|]. intros m1 _ _. apply read; [reflexivity|]. intros m2 _ _. cbn [exec snd]. destruct (nth _ (h_sets m2) []); constructor; cbn; auto.
  Qed.
  Lemma r_known : forall gs m, safe race m (assert_known_t gs).
  Proof.
    intros gs m. unfold assert_known_t. cbn [pbind act]. apply read; [reflexivity|]. intros m1 _ _. apply read; [reflexivity|]. intros m2 _ _. cbn [exec snd]. destruct (ssub gs _); [constructor; exact I|]. apply (sbind _ _ _ race race).
    - apply r_init.
    - intros [] m3 _ _. apply read; [reflexivity|]. intros m4 _ _. constructor. cbn. auto.
    - auto.
  Qed.
  Lemma r_is_known : forall g m, safe race m (grammeme_is_known_t g).
  Proof.
    intros g m. unfold grammeme_is_known_t. apply (sbind _ _ _ race race); [apply r_init| |auto]. intros [] m1 _ _. apply read; [reflexivity|]. intros m2 _ _. apply read; [reflexivity|]. intros m3 _ _. constructor. exact I.
  Qed.
  Lemma r_contains_set : forall gs o m, safe (fun r => r = Ok (ssub gs (t_gr (tag_of o))) \/ (ssub gs (t_gr (tag_of o)) = false /\ (r = Err RuntimeError \/ r = Err ValueError))) m (contains_set_t tag_of gs o).
  Proof.
    intros gs o m. unfold contains_set_t. apply (sbind _ _ _ _ _ _ _ _ (s_grammemes U tag_of func IA (fun m H => H) a_gr o m)); [|discriminate].
    intros x m1 _ E. injection E as <-. cbn [the_set]. destruct (ssub gs (t_gr (tag_of o))) eqn:S; [constructor; auto|]. apply (sbind _ _ _ race).
    - apply r_known.
    - intros [] m2 _ _. constructor. auto.
    - intros e [->| ->]; auto.
  Qed.
  Lemma r_any : forall gs os m, safe (fun r => r = Ok (existsb (fun o => ssub gs (t_gr (tag_of o))) os) \/ r = Err RuntimeError \/ r = Err ValueError) m (any_contains_t tag_of gs os).
  Proof.
    intros gs os. induction os as [|o os IH]; intros m; [constructor; auto|]. cbn [any_contains_t existsb]. apply (sbind _ _ _ _ _ _ _ _ (r_contains_set gs o m)).
    - intros b m1 _ [E|[_ [E|E]]]; try discriminate E. injection E as ->. destruct (ssub gs (t_gr (tag_of o))) eqn:S; cbn [orb]; [constructor; auto|]. apply IH.
    - intros e [E|[_ [E|E]]]; [discriminate E| |]; injection E as ->; auto.
  Qed.
  Lemma tame_latin : forall s, tame U tag_of func (is_latin_t U s).
  Proof.
    intros s. unfold is_latin_t. destruct (existsb (u_alpha U) s); [|constructor]. induction s as [|c s IH]; [constructor|]. cbn [all_latin_t]. destruct (u_alpha U c); [|exact IH].
    apply tame_bind; [|intros []; [exact IH|constructor]]. unfold is_latin_char_t. apply tame_bind; [apply tame_act; exact I|]. intros [b|]; [constructor|]. destruct (u_latin U c) eqn:E; [apply tame_act; exact E|constructor].
  Qed.
  Lemma tame_parse : forall M o w, tame U tag_of func (parse_p U tag_of M o w) /\ tame U tag_of func (tag_p U tag_of M o w).
  Proof.
    intros M o w. split; [apply (T_parse U tag_of M o (fun A => @tame U tag_of func A))|apply (T_tag U tag_of M o (fun A => @tame U tag_of func A))]; intros; try apply tame_ret; try (apply tame_bind; auto; fail); auto using tame_grammemes, tame_latin, tame_any.
  Qed.
  Lemma tame_is_known : forall g, tame U tag_of func (grammeme_is_known_t g).
  Proof.
    intros g. unfold grammeme_is_known_t, assert_initialized_t, ret, raise. apply tame_bind; [apply tame_bind; [apply tame_act; exact I|]|]; intros ?.
    - apply tame_bind; [apply tame_act; exact I|]. intros []; apply tame_ret.
    - apply tame_bind; [apply tame_act; exact I|]. intros ?. apply tame_act. exact I.
  Qed.
  Lemma tame_lexeme : forall M o f req, tame U tag_of func (get_lexeme_p tag_of M o f) /\ tame U tag_of func (normalized_p tag_of M o f) /\ tame U tag_of func (inflect_p tag_of M o f req).
  Proof.
    intros M o f req. split; [|split]; [apply (T_lexeme tag_of M o (fun A => @tame U tag_of func A))|apply (T_normalized tag_of M o (fun A => @tame U tag_of func A))|apply (T_inflect tag_of M o (fun A => @tame U tag_of func A))];
      intros; try apply tame_ret; try (apply tame_bind; auto; fail); auto using tame_grammemes, tame_contains, tame_is_known. apply tame_act. exact I.
  Qed.
  Lemma tame_agree : forall pick M o f n, tame U tag_of func (agree_p tag_of M o pick f n).
  Proof.
    intros pick M o f n. apply (T_agree tag_of M o (fun A => @tame U tag_of func A)); intros; try apply tame_ret; try (apply tame_bind; auto; fail); auto using tame_grammemes, tame_contains, tame_is_known; try (apply tame_act; exact I).
    unfold assert_initialized_t, ret, raise. apply tame_bind; [apply tame_act; exact I|]. intros id. apply tame_bind; [apply tame_act; exact I|]. intros []; apply tame_ret.
  Qed.
  Lemma r_contains : forall g o m, safe (fun r => r = Ok (smem g (t_gr (tag_of o))) \/ (smem g (t_gr (tag_of o)) = false /\ (r = Err RuntimeError \/ r = Err ValueError))) m (contains_t tag_of g o).
  Proof.
    intros g o m. unfold contains_t. apply (sbind _ _ _ _ _ _ _ _ (s_grammemes U tag_of func IA (fun m H => H) a_gr o m)); [|discriminate].
    intros x m1 _ E. injection E as <-. cbn [the_set]. destruct (smem g (t_gr (tag_of o))) eqn:S; [constructor; auto|]. apply (sbind _ _ _ race); [apply r_is_known| |].
    - intros [] m2 _ _; constructor; auto.
    - intros e [->| ->]; auto.
  Qed.
  Notation is_race := (fun e => e = RuntimeError \/ e = ValueError).
  Lemma race_or : forall A (x r : res A), ok_or is_race x r -> r = x \/ r = Err RuntimeError \/ r = Err ValueError.
  Proof. intros A x r [->|(e & -> & [->| ->])]; auto. Qed.
  Lemma a_analyze : forall C M o w m, m_uni M = U -> (forall t, tag_source M t -> tag_of (o t) = t) -> knows C adverb_grammemes ->
    safe (ok_or is_race (morph_parse (in_class C M) w)) m (parse_p U tag_of M o w) /\ safe (ok_or is_race (morph_tag (in_class C M) w)) m (tag_p U tag_of M o w).
  Proof.
    intros C M o w m MU OB K. assert (H : forall (w : str) (b : bunit) (tm : bool) (mult : QArith_base.Q), True -> In (b, tm) (m_units M) -> b_cfg b = UHAdverb mult -> prefixb (u "по-") (u_lower U w) = true ->
      forall os m, safe (ok_or is_race (any_contains C adverb_grammemes (map tag_of os))) m (any_contains_t tag_of adverb_grammemes os)).
    { intros w0 b tm mult _ _ _ _ os m0. rewrite any_known by exact K. rewrite existsb_map. apply (safe_weaken IA grows _ _ _ _ _ (fun r X => X)) || idtac. refine (safe_weaken IA grows _ _ _ m0 _ _ (r_any adverb_grammemes os m0)).
      intros r [->|[->| ->]]; [left; reflexivity|right; eauto|right; eauto]. }
    split; [apply (ok_parse U tag_of func IA (fun m H => H) a_latin a_gr is_race M o C MU OB (fun _ => True) (fun _ _ _ _ => I) H w m I)|apply (ok_tag U tag_of func IA (fun m H => H) a_latin a_gr is_race M o C MU OB (fun _ => True) (fun _ _ _ _ => I) H w m I)].
  Qed.
  Lemma a_masc : forall C M o t m, (forall t, tag_source M t -> tag_of (o t) = t) -> knows C masc_grammeme -> tag_source M t -> safe (ok_or is_race (contains C (u "masc") t)) m (contains_t tag_of (u "masc") (o t)).
  Proof.
    intros C M o t m OB K S. rewrite (contains_known C (u "masc") t) by (apply K; left; reflexivity). rewrite <- (OB t S) at 1. refine (safe_weaken IA grows _ _ _ m _ _ (r_contains (u "masc") (o t) m)).
    intros r [->|[_ [->| ->]]]; [left; reflexivity|right; eauto|right; eauto].
  Qed.
  Lemma a_lexeme : forall C M o f m, its_objects U tag_of M o -> tag_source M (p_tag f) -> knows C masc_grammeme ->
    safe (ok_or is_race (get_lexeme (in_class C M) f)) m (get_lexeme_p tag_of M o f) /\ safe (ok_or is_race (normalized (in_class C M) f)) m (normalized_p tag_of M o f).
  Proof.
    intros C M o f m (MU & OB) S K. assert (H : forall t m, tag_source M t -> safe (ok_or is_race (contains C (u "masc") t)) m (contains_t tag_of (u "masc") (o t))) by (intros t m0 St; exact (a_masc C M o t m0 OB K St)).
    split; [apply (ok_lexeme U tag_of func IA (fun m H => H) a_gr is_race M o C OB H f m S)|apply (ok_normalized U tag_of func IA (fun m H => H) a_gr is_race M o C OB H f m S)].
  Qed.
  Lemma exact_or : forall A (x r : res A), ok_or (fun _ => False) x r -> x = r.
  Proof. intros A x r [->|(e & _ & [])]; reflexivity. Qed.
  Lemma a_untested : forall C M o w m, m_uni M = U -> (forall t, tag_source M t -> tag_of (o t) = t) -> ~ adverb_unit M \/ (keeps_unhyphenated U /\ ~ In HY w) ->
    safe (eq (morph_parse (in_class C M) w)) m (parse_p U tag_of M o w) /\ safe (eq (morph_tag (in_class C M) w)) m (tag_p U tag_of M o w).
  Proof.
    intros C M o w m MU OB K.
    assert (X : exists W : str -> Prop, W w /\ (forall w x, W w -> incl x (u_lower U w) -> W x) /\ forall w b tm mult, W w -> In (b, tm) (m_units M) -> b_cfg b = UHAdverb mult -> prefixb (u "по-") (u_lower U w) = true -> False).
    { destruct K as [K|[K1 K2]].
      - exists (fun _ => True). repeat split. intros w0 b tm mult _ A B _. apply K. exists b, tm, mult. auto.
      - exists (fun w => ~ In HY w). split; [exact K2|]. split; [intros w0 x A B D; exact (K1 w0 A (B _ D))|]. intros w0 b tm mult A _ _ P. apply prefixb_spec in P as (r & E). apply (K1 w0 A). rewrite E. apply in_or_app. left. vm_compute. auto. }
    destruct X as (W & Ww & W1 & W2).
    split; (eapply safe_weaken; [intros r E; exact (exact_or _ _ _ E)|]).
    - apply (ok_parse U tag_of func IA (fun m H => H) a_latin a_gr (fun _ => False) M o C MU OB W W1 (fun w b tm mult A B D E => False_rect _ (W2 w b tm mult A B D E)) w m Ww).
    - apply (ok_tag U tag_of func IA (fun m H => H) a_latin a_gr (fun _ => False) M o C MU OB W W1 (fun w b tm mult A B D E => False_rect _ (W2 w b tm mult A B D E)) w m Ww).
  Qed.
  Lemma safe_and : forall A (P Q : res A -> Prop) m p, safe P m p -> safe Q m p -> safe (fun r => P r /\ Q r) m p.
  Proof.
    intros A P Q m p S. induction S as [m r S|m R o k S1 S2 IH]; intros K.
    - constructor. split; [exact S|]. exact (safe_inv _ _ _ _ _ _ K).
    - constructor; [exact S1|]. intros m' L' I'. apply IH; auto. exact (safe_inv _ _ _ _ _ _ K m' L' I').
  Qed.
  Lemma any_code : forall C c m, safe (q_any C c) m (code c).
  Proof.
    intros C c m. destruct c; cbn [Threads.code].
    - apply (safe_weaken IA grows _ (eq (pure C (CLatinChar c)))); [intros r <-; split; auto; exact I|]. apply spret. apply (s_latin_char U tag_of func IA (fun m H => H) a_latin).
    - apply (safe_weaken IA grows _ (eq (pure C (CIsLatin s)))); [intros r <-; split; auto; exact I|]. apply spret. apply (s_is_latin U tag_of func IA (fun m H => H) a_latin).
    - apply (safe_weaken IA grows _ (eq (pure C (CMemo k)))); [intros r <-; split; auto; exact I|]. apply spret. apply (s_memo U tag_of func IA (fun m H => H) a_memo).
    - apply (safe_weaken IA grows _ (eq (pure C (CGrammemes o)))); [intros r <-; split; auto; exact I|]. apply (spret _ _ VSet _ (Ok (Some (t_gr (tag_of o))))). apply (s_grammemes U tag_of func IA (fun m H => H) a_gr).
    - apply tame_any_op; [|intros r; split; [intros []|split; [exact I|intros []]]]. apply tame_pret. apply tame_cyr.
    - apply tame_any_op; [|intros r; split; [intros []|split; [exact I|intros []]]]. apply tame_pret. apply tame_cyr.
    - unfold pret. apply (sbind _ _ _ _ _ _ _ _ (r_contains g o m)).
      + intros b m1 _ [E|[_ [E|E]]]; try discriminate E. injection E as ->. constructor. split; [intros []|split; [auto|intros []]].
      + intros e [E|[S [E|E]]]; [discriminate E| |]; injection E as ->; (split; [intros []|split; [auto|intros []]]).
    - unfold pret. apply (sbind _ _ _ _ _ _ _ _ (r_contains_set gs o m)).
      + intros b m1 _ [E|[_ [E|E]]]; try discriminate E. injection E as ->. constructor. split; [intros []|split; [auto|intros []]].
      + intros e [E|[S [E|E]]]; [discriminate E| |]; injection E as ->; (split; [intros []|split; [auto|intros []]]).
    - unfold pret. apply (sbind _ _ _ _ _ _ _ _ (r_any gs os m)).
      + intros b m1 _ [E|[E|E]]; try discriminate E. injection E as ->. constructor. split; [intros []|split; [auto|intros []]].
      + intros e [E|[E|E]]; [discriminate E| |]; injection E as ->; (split; [intros []|split; [auto|intros []]]).
    - apply (safe_weaken IA grows _ (fun r => has_objects U tag_of (CParse M o word) -> (knows C adverb_grammemes -> r = pure C (CParse M o word) \/ r = Err RuntimeError \/ r = Err ValueError) /\ (no_test U (CParse M o word) -> r = pure C (CParse M o word)))); [intros r X; split; [intros []|split; [exact I|auto]]|].
      apply safe_imp; [apply tame_safe, tame_pret, tame_parse|]. intros (MU & OB). apply safe_and; (apply safe_imp; [apply tame_safe, tame_pret, tame_parse|]); intros K.
      + apply (sbind _ _ _ _ _ _ _ _ (proj1 (a_analyze C M o word m MU OB K))); [intros a m' _ X; constructor|intros e X]; apply race_or; exact (rmap_or _ _ VParses _ _ _ X).
      + apply (safe_weaken IA grows _ (eq (pure C (CParse M o word)))); [auto|]. apply spret. apply (a_untested C M o word m MU OB K).
    - apply (safe_weaken IA grows _ (fun r => has_objects U tag_of (CTag M o word) -> (knows C adverb_grammemes -> r = pure C (CTag M o word) \/ r = Err RuntimeError \/ r = Err ValueError) /\ (no_test U (CTag M o word) -> r = pure C (CTag M o word)))); [intros r X; split; [intros []|split; [exact I|auto]]|].
      apply safe_imp; [apply tame_safe, tame_pret, tame_parse|]. intros (MU & OB). apply safe_and; (apply safe_imp; [apply tame_safe, tame_pret, tame_parse|]); intros K.
      + apply (sbind _ _ _ _ _ _ _ _ (proj2 (a_analyze C M o word m MU OB K))); [intros a m' _ X; constructor|intros e X]; apply race_or; exact (rmap_or _ _ VTags _ _ _ X).
      + apply (safe_weaken IA grows _ (eq (pure C (CTag M o word)))); [auto|]. apply spret. apply (a_untested C M o word m MU OB K).
    - apply (safe_weaken IA grows _ (fun r => has_objects U tag_of (CLexeme M o form) -> knows C masc_grammeme -> r = pure C (CLexeme M o form) \/ r = Err RuntimeError \/ r = Err ValueError)); [intros r X; split; [intros []|split; [exact X|intros []]]|].
      apply safe_imp; [apply tame_safe, tame_pret, (tame_lexeme M o form [])|]. intros (OB & S). apply safe_imp; [apply tame_safe, tame_pret, (tame_lexeme M o form [])|]. intros K.
      apply (sbind _ _ _ _ _ _ _ _ (proj1 (a_lexeme C M o form m OB S K))); [intros a m' _ X; constructor|intros e X]; apply race_or; exact (rmap_or _ _ VParses _ _ _ X).
    - apply (safe_weaken IA grows _ (fun r => has_objects U tag_of (CNormalized M o form) -> knows C masc_grammeme -> r = pure C (CNormalized M o form) \/ r = Err RuntimeError \/ r = Err ValueError)); [intros r X; split; [intros []|split; [exact X|intros []]]|].
      apply safe_imp; [apply tame_safe, tame_pret, (tame_lexeme M o form [])|]. intros (OB & S). apply safe_imp; [apply tame_safe, tame_pret, (tame_lexeme M o form [])|]. intros K.
      apply (sbind _ _ _ _ _ _ _ _ (proj2 (a_lexeme C M o form m OB S K))); [intros a m' _ X; constructor|intros e X]; apply race_or; exact (rmap_or _ _ (fun p => VParse (Some p)) _ _ _ X).
    - apply tame_any_op; [|intros r; split; [intros []|split; [exact I|intros []]]]. apply tame_pret. apply (tame_lexeme M o form req).
    - apply (safe_weaken IA grows _ (fun r => has_objects U tag_of (CNormalForms M o word) -> (knows C adverb_grammemes -> r = pure C (CNormalForms M o word) \/ r = Err RuntimeError \/ r = Err ValueError) /\ (no_test U (CNormalForms M o word) -> r = pure C (CNormalForms M o word)))); [intros r X; split; [intros []|split; [exact I|auto]]|].
      apply safe_imp; [apply tame_safe, tame_pret, tame_parse|]. intros (MU & OB). apply safe_and; (apply safe_imp; [apply tame_safe, tame_pret, tame_parse|]); intros K.
      + apply (sbind _ _ _ _ _ _ _ _ (proj1 (a_analyze C M o word m MU OB K))); [intros a m' _ X; constructor|intros e X]; apply race_or; rewrite nf_pure; exact (rmap_or _ _ nf_val _ _ _ X).
      + apply (safe_weaken IA grows _ (eq (pure C (CNormalForms M o word)))); [auto|]. rewrite nf_pure. apply (spret _ _ nf_val). apply (a_untested C M o word m MU OB K).
    - apply tame_any_op; [|intros r; split; [intros []|split; [exact I|intros []]]]. apply tame_pret. apply tame_agree.
    - apply tame_any_op; [|intros r; split; [intros []|split; [exact I|intros []]]]. apply tame_pret. apply tame_construct.
  Qed.
  Lemma any_results : forall C css sched m0 i cs, fresh m0 -> h_known m0 < length (h_sets m0) -> nth_error css i = Some cs ->
    exists t, nth_error (snd (runs sched (m0, map start css))) i = Some t /\ exists dn rest, cs = dn ++ rest /\ Forall2 (q_any C) dn (th_done t).
  Proof.
    intros C css sched m0 i cs F K N. apply (pool_results IA grows (q_any C) css _ i cs); [|exact N]. apply pool_runs; [exact grows_refl|exact grows_trans| |].
    - intros cs0 c _ _ m _. apply any_code.
    - apply pool_start. apply fresh_caches; auto.
  Qed.
End Any.

(** ** no analyzer is being created *)
Section Quiet.
  Variables (U : uni) (tag_of : nat -> tag) (func : str -> res str).
  Variables (C : tagclass) (kid lid : nat).
  Notation code := (code U tag_of func).
  Notation runs := (runs U tag_of func).
  Notation pure := (pure U tag_of func).
  Record IB (m : mem) : Prop := {
    ib_ca : caches U tag_of func m;
    ib_kid : h_known m = kid; ib_lid : h_lat m = lid;
    ib_set : nth kid (h_sets m) [] = tc_known C; ib_dict : nth lid (h_dicts m) [] = tc_lat2cyr C; ib_inc : h_incompat m = tc_incompat C;
    ib_cg : forall o s, c_cyr_gr (h_cells m o) = Some s -> grammemes_cyr C (tag_of o) = Ok s;
    ib_cy : forall o s, c_cyr (h_cells m o) = Some s -> s = lat2cyr U C (t_str (tag_of o)) }.
  Notation safe := (safe IB grows).
  Lemma b_ca : forall m, IB m -> caches U tag_of func m. Proof. intros m []. auto. Qed.
  Lemma b_latin : forall m c b, IB m -> u_latin U c = Some b -> IB (fst (exec (LatinSetdefault c b) m)).
  Proof. intros m c b [A B D E F J G H] X. pose proof (honest_caches U tag_of func _ (LatinSetdefault c b) m X A) as A'. cbn [exec] in *. destruct (dget N.eqb c (h_latin m)); cbn [fst] in *; constructor; cbn; auto. Qed.
  Lemma b_memo : forall m k v, IB m -> func k = Ok v -> IB (fst (exec (MemoSet k v) m)).
  Proof. intros m c b [A B D E F J G H] X. pose proof (honest_caches U tag_of func _ (MemoSet c b) m X A) as A'. cbn [exec fst] in *. constructor; cbn; auto. Qed.
  Lemma b_gr : forall m o, IB m -> IB (fst (exec (SetGr o (t_gr (tag_of o))) m)).
  Proof.
    intros m o [A B D E F J G H]. pose proof (honest_caches U tag_of func _ (SetGr o (t_gr (tag_of o))) m eq_refl A) as A'. cbn [exec fst] in *. constructor; cbn; auto; intros o' s; unfold set_cell; destruct (o' =? o); cbn; auto.
  Qed.
  Lemma b_cyr_gr : forall m o s, IB m -> grammemes_cyr C (tag_of o) = Ok s -> IB (fst (exec (SetCyrGr o s) m)).
  Proof.
    intros m o s [A B D E F J G H] X. pose proof (honest_caches U tag_of func _ (SetCyrGr o s) m Logic.I A) as A'. cbn [exec fst] in *. constructor; cbn; auto; intros o' s'; unfold set_cell; destruct (o' =? o) eqn:Q; cbn; auto.
    intros Y. injection Y as <-. apply Nat.eqb_eq in Q as ->. exact X.
  Qed.
  Lemma b_cyr : forall m o, IB m -> IB (fst (exec (SetCyr o (lat2cyr U C (t_str (tag_of o)))) m)).
  Proof.
    intros m o [A B D E F J G H]. pose proof (honest_caches U tag_of func _ (SetCyr o (lat2cyr U C (t_str (tag_of o)))) m Logic.I A) as A'. cbn [exec fst] in *. constructor; cbn; auto; intros o' s'; unfold set_cell; destruct (o' =? o) eqn:Q; cbn; auto.
    intros Y. injection Y as <-. apply Nat.eqb_eq in Q as ->. reflexivity.
  Qed.
  Lemma s_cyr_gr : forall o m, safe (eq (rmap Some (grammemes_cyr C (tag_of o)))) m (grammemes_cyr_t tag_of o).
  Proof.
    intros o m. unfold grammemes_cyr_t. cbn [pbind act]. apply read; [reflexivity|]. intros m1 G1 I1. cbn [exec snd fst].
    assert (K : forall s m2, grammemes_cyr C (tag_of o) = Ok s -> c_cyr_gr (h_cells m2 o) <> None -> safe (eq (rmap Some (grammemes_cyr C (tag_of o)))) m2 (act (GetCyrGr o))).
    { intros s m2 X S. apply read; [reflexivity|]. intros m3 G3 I3. cbn [exec snd]. constructor. rewrite X. destruct (c_cyr_gr (h_cells m3 o)) as [s'|] eqn:E; [rewrite (ib_cg _ I3 _ _ E) in X; injection X as ->; reflexivity|]. exfalso. exact (gw_cyr_gr _ _ G3 o S E). }
    destruct (c_cyr_gr (h_cells m1 o)) as [s|] eqn:E; cbn [pbind].
    - apply (K s); [exact (ib_cg _ I1 _ _ E)|]. rewrite E. discriminate.
    - apply (sbind2 _ _ _ _ (eq (grammemes_cyr C (tag_of o)))).
      + apply safe_pmap; [exact grows_refl|exact grows_trans|]. intros g m2 G2. cbn [pbind act]. apply read; [reflexivity|]. intros m3 _ I3. apply read; [reflexivity|]. intros m4 _ I4. cbn [exec snd]. rewrite (ib_lid _ I3), (ib_dict _ I4). unfold dget_res, sget. destruct (dget str_eqb g (tc_lat2cyr C)); constructor; reflexivity.
      + intros s m2 G2 X. cbn [pbind act]. apply (write U tag_of func); [exact b_ca|intros m3 I3; apply b_cyr_gr; auto|]. intros m3 G3 I3. apply (K s); [exact X|]. cbn. unfold set_cell. rewrite Nat.eqb_refl. cbn. discriminate.
      + intros e X. rewrite X. reflexivity.
  Qed.
  Lemma mapM_all_ok : forall A B (f : A -> B) l, mapM (fun x => Ok (f x)) l = Ok (map f l).
  Proof. intros A B f l. induction l as [|x l IH]; [reflexivity|]. cbn [mapM bind map]. rewrite IH. reflexivity. Qed.
  Lemma s_translate : forall s m, safe (eq (Ok (lat2cyr U C s))) m (translate_t U lid s).
  Proof.
    intros s m. unfold translate_t, lat2cyr, translate_tag. apply (sbind _ _ _ (eq (mapM (fun p => Ok (translate_comma (tc_lat2cyr C) p)) (split_ws (u_space U) s)))).
    - apply safe_pmap; [exact grows_refl|exact grows_trans|]. intros p m1 G1. unfold translate_comma.
      apply (sbind _ _ _ (eq (mapM (fun tok => Ok (match sget tok (tc_lat2cyr C) with Some x => x | None => tok end)) (split_on (chr ",") p)))).
      + apply safe_pmap; [exact grows_refl|exact grows_trans|]. intros tok m2 G2. cbn [pbind act]. apply read; [reflexivity|]. intros m3 _ I3. cbn [exec snd]. rewrite (ib_dict _ I3). constructor. reflexivity.
      + intros ts m2 G2 X. rewrite mapM_all_ok in X. injection X as <-. constructor. reflexivity.
      + intros e X. rewrite mapM_all_ok in X. discriminate X.
    - intros ts m2 G2 X. rewrite mapM_all_ok in X. injection X as <-. constructor. reflexivity.
    - intros e X. rewrite mapM_all_ok in X. discriminate X.
  Qed.
  Lemma s_cyr : forall o m, safe (eq (Ok (Some (lat2cyr U C (t_str (tag_of o)))))) m (cyr_repr_t U tag_of o).
  Proof.
    intros o m. unfold cyr_repr_t. cbn [pbind act]. apply read; [reflexivity|]. intros m1 G1 I1. cbn [exec snd fst].
    assert (K : forall m2, c_cyr (h_cells m2 o) <> None -> safe (eq (Ok (Some (lat2cyr U C (t_str (tag_of o)))))) m2 (act (GetCyr o))).
    { intros m2 S. apply read; [reflexivity|]. intros m3 G3 I3. cbn [exec snd]. constructor. destruct (c_cyr (h_cells m3 o)) as [s'|] eqn:E; [rewrite (ib_cy _ I3 _ _ E); reflexivity|]. exfalso. exact (gw_cyr _ _ G3 o S E). }
    destruct (c_cyr (h_cells m1 o)) as [s|] eqn:E; cbn [pbind].
    - apply K. rewrite E. discriminate.
    - apply read; [reflexivity|]. intros m2 G2 I2. cbn [exec snd]. rewrite (ib_lid _ I2). apply (sbind2 _ _ _ _ (eq (Ok (lat2cyr U C (t_str (tag_of o)))))).
      + apply s_translate.
      + intros s m3 G3 X. injection X as <-. cbn [pbind act]. apply (write U tag_of func); [exact b_ca|intros m4 I4; apply b_cyr; auto|]. intros m4 G4 I4. apply K. cbn. unfold set_cell. rewrite Nat.eqb_refl. cbn. discriminate.
      + discriminate.
  Qed.
  Lemma s_init : forall m, safe (eq (assert_initialized C)) m assert_initialized_t.
  Proof.
    intros m. unfold assert_initialized_t, assert_initialized. cbn [pbind act]. apply read; [reflexivity|]. intros m1 _ I1. apply read; [reflexivity|]. intros m2 _ I2. cbn [exec snd]. rewrite (ib_kid _ I1), (ib_set _ I2). destruct (tc_known C); constructor; reflexivity.
  Qed.
  Lemma s_known : forall gs m, safe (eq (assert_known C gs)) m (assert_known_t gs).
  Proof.
    intros gs m. unfold assert_known_t, assert_known. cbn [pbind act]. apply read; [reflexivity|]. intros m1 _ I1. apply read; [reflexivity|]. intros m2 _ I2. cbn [exec snd]. rewrite (ib_kid _ I1), (ib_set _ I2). destruct (ssub gs (tc_known C)); [constructor; reflexivity|].
    apply (sbind _ _ _ _ _ _ _ _ (s_init m2)).
    - intros [] m3 _ ->. apply read; [reflexivity|]. intros m4 _ _. constructor. reflexivity.
    - intros e ->. reflexivity.
  Qed.
  Lemma s_is_known : forall g m, safe (eq (grammeme_is_known C g)) m (grammeme_is_known_t g).
  Proof.
    intros g m. unfold grammeme_is_known_t, grammeme_is_known. apply (sbind _ _ _ _ _ _ _ _ (s_init m)).
    - intros [] m3 _ ->. cbn [pbind act bind]. apply read; [reflexivity|]. intros m4 _ I4. apply read; [reflexivity|]. intros m5 _ I5. cbn [exec snd]. rewrite (ib_kid _ I4), (ib_set _ I5). constructor. reflexivity.
    - intros e ->. reflexivity.
  Qed.
  Lemma s_contains : forall g o m, safe (eq (contains C g (tag_of o))) m (contains_t tag_of g o).
  Proof.
    intros g o m. unfold contains_t, contains. apply (sbind _ _ _ _ _ _ _ _ (s_grammemes U tag_of func IB b_ca b_gr o m)); [|discriminate].
    intros x m1 _ E. injection E as <-. cbn [the_set]. destruct (smem g (t_gr (tag_of o))) eqn:S; [constructor; auto|]. apply (sbind _ _ _ _ _ _ _ _ (s_is_known g m1)).
    - intros b m2 _ ->. cbn [bind]. destruct b; constructor; reflexivity.
    - intros e ->. reflexivity.
  Qed.
  Lemma s_contains_set : forall gs o m, safe (eq (contains_set C gs (tag_of o))) m (contains_set_t tag_of gs o).
  Proof.
    intros g o m. unfold contains_set_t, contains_set. apply (sbind _ _ _ _ _ _ _ _ (s_grammemes U tag_of func IB b_ca b_gr o m)); [|discriminate].
    intros x m1 _ E. injection E as <-. cbn [the_set]. destruct (ssub g (t_gr (tag_of o))) eqn:S; [constructor; auto|]. apply (sbind _ _ _ _ _ _ _ _ (s_known g m1)).
    - intros b m2 _ ->. constructor; reflexivity.
    - intros e ->. reflexivity.
  Qed.
  Lemma s_any : forall gs os m, safe (eq (any_contains C gs (map tag_of os))) m (any_contains_t tag_of gs os).
  Proof.
    intros gs os. induction os as [|o os IH]; intros m; [constructor; reflexivity|]. cbn [map any_contains any_contains_t]. apply (sbind _ _ _ _ _ _ _ _ (s_contains_set gs o m)).
    - intros b m2 _ ->. cbn [bind]. destruct b; [constructor; reflexivity|apply IH].
    - intros e ->. reflexivity.
  Qed.
  Lemma b_analyze : forall M o w m, m_uni M = U -> (forall t, tag_source M t -> tag_of (o t) = t) ->
    safe (eq (morph_parse (in_class C M) w)) m (parse_p U tag_of M o w) /\ safe (eq (morph_tag (in_class C M) w)) m (tag_p U tag_of M o w).
  Proof.
    intros M o w m MU OB. assert (H : forall (w : str) (b : bunit) (tm : bool) (mult : QArith_base.Q), True -> In (b, tm) (m_units M) -> b_cfg b = UHAdverb mult -> prefixb (u "по-") (u_lower U w) = true ->
      forall os m, safe (ok_or (fun _ => False) (any_contains C adverb_grammemes (map tag_of os))) m (any_contains_t tag_of adverb_grammemes os)).
    { intros w0 b tm mult _ _ _ _ os m0. refine (safe_weaken IB grows _ _ _ m0 _ _ (s_any adverb_grammemes os m0)). intros r <-. left. reflexivity. }
    split; (eapply safe_weaken; [intros r E; exact (exact_or _ _ _ E)|]).
    - apply (ok_parse U tag_of func IB b_ca b_latin b_gr (fun _ => False) M o C MU OB (fun _ => True) (fun _ _ _ _ => Logic.I) H w m Logic.I).
    - apply (ok_tag U tag_of func IB b_ca b_latin b_gr (fun _ => False) M o C MU OB (fun _ => True) (fun _ _ _ _ => Logic.I) H w m Logic.I).
  Qed.
  Lemma bq_masc : forall M o t m, (forall t, tag_source M t -> tag_of (o t) = t) -> tag_source M t -> safe (ok_or (fun _ => False) (contains C (u "masc") t)) m (contains_t tag_of (u "masc") (o t)).
  Proof. intros M o t m OB S. rewrite <- (OB t S) at 1. refine (safe_weaken IB grows _ _ _ m _ _ (s_contains (u "masc") (o t) m)). intros r <-. left. reflexivity. Qed.
  Lemma b_req : forall g acc m, safe (ok_or (fun _ => False) (let* k := grammeme_is_known C g in if k then Ok (sdiff acc (incompat_of C g)) else Err ValueError)) m
    (do* k := grammeme_is_known_t g in if k then do* inc := act (IncompatGet g) in ret (sdiff acc inc) else raise ValueError).
  Proof.
    intros g acc m. apply (ok_bind IB (fun _ => False)); [refine (safe_weaken IB grows _ _ _ m _ _ (s_is_known g m)); intros r <-; left; reflexivity|]. intros k m1 _. destruct k; [|constructor; left; reflexivity].
    cbn [pbind act]. apply read; [reflexivity|]. intros m2 _ I2. cbn [exec snd]. rewrite (ib_inc _ I2). constructor. left. reflexivity.
  Qed.
  Lemma b_lexeme : forall M o f req m, its_objects U tag_of M o -> tag_source M (p_tag f) ->
    safe (eq (get_lexeme (in_class C M) f)) m (get_lexeme_p tag_of M o f) /\ safe (eq (normalized (in_class C M) f)) m (normalized_p tag_of M o f) /\ safe (eq (inflect (in_class C M) f req)) m (inflect_p tag_of M o f req).
  Proof.
    intros M o f req m (MU & OB) S. assert (H : forall t m, tag_source M t -> safe (ok_or (fun _ => False) (contains C (u "masc") t)) m (contains_t tag_of (u "masc") (o t))) by (intros t m0 St; exact (bq_masc M o t m0 OB St)).
    split; [|split]; (eapply safe_weaken; [intros r E; exact (exact_or _ _ _ E)|]).
    - apply (ok_lexeme U tag_of func IB b_ca b_gr (fun _ => False) M o C OB H f m S).
    - apply (ok_normalized U tag_of func IB b_ca b_gr (fun _ => False) M o C OB H f m S).
    - apply (ok_inflect U tag_of func IB b_ca b_gr (fun _ => False) M o C OB H (fun _ => True) (fun g acc m _ => b_req g acc m) f req m S). auto.
  Qed.
  Lemma b_agree : forall pick M o f n m, its_objects U tag_of M o -> tag_source M (p_tag f) -> safe (eq (make_agree_with_number pick (in_class C M) f n)) m (agree_p tag_of M o pick f n).
  Proof.
    intros pick M o f n m (MU & OB) S. assert (H : forall t m, tag_source M t -> safe (ok_or (fun _ => False) (contains C (u "masc") t)) m (contains_t tag_of (u "masc") (o t))) by (intros t m0 St; exact (bq_masc M o t m0 OB St)).
    eapply safe_weaken; [intros r E; exact (exact_or _ _ _ E)|]. apply (ok_agree U tag_of func IB b_ca b_gr (fun _ => False) M o C OB H (fun _ => True) (fun g acc m _ => b_req g acc m)); auto.
    - intros m0. refine (safe_weaken IB grows _ _ _ m0 _ _ (s_init m0)). intros r <-. left. reflexivity.
    - intros m0. cbn [pbind act]. apply read; [reflexivity|]. intros m1 _ _. constructor. left. reflexivity.
  Qed.
  Lemma quiet_code : forall c m, ~ creates c -> has_objects U tag_of c -> safe (eq (pure C c)) m (code c).
  Proof.
    intros c m NC HO. destruct c; cbn [Threads.code Spec11.pure].
    - apply spret. apply (s_latin_char U tag_of func IB b_ca b_latin).
    - apply spret. apply (s_is_latin U tag_of func IB b_ca b_latin).
    - apply spret. apply (s_memo U tag_of func IB b_ca b_memo).
    - apply (spret _ _ VSet _ (Ok (Some (t_gr (tag_of o))))). apply (s_grammemes U tag_of func IB b_ca b_gr).
    - replace (rmap (fun s => VSet (Some s)) (grammemes_cyr C (tag_of o))) with (rmap VSet (rmap Some (grammemes_cyr C (tag_of o)))) by (destruct (grammemes_cyr C (tag_of o)); reflexivity). apply spret. apply s_cyr_gr.
    - apply (spret _ _ VOStr _ (Ok (Some (lat2cyr U C (t_str (tag_of o)))))). apply s_cyr.
    - apply spret. apply s_contains.
    - apply spret. apply s_contains_set.
    - apply spret. apply s_any.
    - apply spret. destruct HO. apply b_analyze; auto.
    - apply spret. destruct HO. apply b_analyze; auto.
    - apply spret. destruct HO as [O S]. apply (b_lexeme M o form [] m O S).
    - apply (spret _ _ (fun p => VParse (Some p))). destruct HO as [O S]. apply (b_lexeme M o form [] m O S).
    - apply spret. destruct HO as [O S]. apply (b_lexeme M o form req m O S).
    - change (rmap VStrs (morph_normal_forms (in_class C M) word)) with (pure C (CNormalForms M o word)). rewrite nf_pure. apply (spret _ _ nf_val). destruct HO. apply b_analyze; auto.
    - apply spret. destruct HO as [O S]. apply b_agree; auto.
    - exfalso. apply NC. exact Logic.I.
  Qed.
End Quiet.
Section QuietResults.
  Variables (U : uni) (tag_of : nat -> tag) (func : str -> res str).
  Notation runs := (runs U tag_of func).
  Notation pure := (pure U tag_of func).
  Lemma fresh_IB : forall m, fresh m -> wf m -> IB U tag_of func (class_of m) (h_known m) (h_lat m) m.
  Proof. intros m F (K & _ & _ & _). constructor; auto; [apply fresh_caches; auto| |]; intros o s; destruct F as (_ & _ & F); rewrite F; cbn; discriminate. Qed.
  Lemma F2_map : forall (f : call -> res val) cs rs, Forall2 (fun c r => f c = r) cs rs -> rs = map f cs.
  Proof. intros f cs rs H. induction H; [reflexivity|]. cbn. f_equal; auto. Qed.
  Lemma quiet_pool : forall css sched m0, fresh m0 -> wf m0 -> (forall cs c, In cs css -> In c cs -> ~ creates c) -> (forall cs c, In cs css -> In c cs -> has_objects U tag_of c) ->
    pool_ok (IB U tag_of func (class_of m0) (h_known m0) (h_lat m0)) grows (fun c r => pure (class_of m0) c = r) css (runs sched (m0, map start css)).
  Proof.
    intros css sched m0 F W NC HO. apply pool_runs; [exact grows_refl|exact grows_trans| |].
    - intros cs c H1 H2 m _. apply quiet_code; [exact (NC cs c H1 H2)|exact (HO cs c H1 H2)].
    - apply pool_start. apply fresh_IB; auto.
  Qed.
  Lemma quiet_results : forall css sched m0 i cs, fresh m0 -> wf m0 -> (forall cs c, In cs css -> In c cs -> ~ creates c) -> (forall cs c, In cs css -> In c cs -> has_objects U tag_of c) -> nth_error css i = Some cs ->
    exists t n, nth_error (snd (runs sched (m0, map start css))) i = Some t /\ th_done t = map (pure (class_of m0)) (firstn n cs).
  Proof.
    intros css sched m0 i cs F W NC HO N. destruct (pool_results _ _ _ css _ i cs (quiet_pool css sched m0 F W NC HO) N) as (t & T & dn & rest & -> & R). exists t, (length dn). split; [exact T|]. rewrite firstn_app, firstn_all, Nat.sub_diag, firstn_O, app_nil_r. apply F2_map. exact R.
  Qed.
  Lemma runs_app : forall a b s, runs (a ++ b) s = runs b (runs a s).
  Proof. intros a b s. unfold Threads.runs. apply fold_left_app. Qed.
  Lemma runs_len : forall sched s, length (snd (runs sched s)) = length (snd s).
  Proof.
    induction sched as [|i sched IH]; intros s; [reflexivity|]. cbn [Threads.runs fold_left]. unfold Threads.runs in IH. rewrite IH. unfold step. destruct (nth_error (snd s) i); [|reflexivity]. destruct (tstep U tag_of func (fst s) t). cbn [snd]. apply upd_length.
  Qed.
  Lemma quiet_finish : forall css sched m0 i cs, fresh m0 -> wf m0 -> (forall cs c, In cs css -> In c cs -> ~ creates c) -> (forall cs c, In cs css -> In c cs -> has_objects U tag_of c) -> nth_error css i = Some cs ->
    exists n t, nth_error (snd (runs (sched ++ repeat i n) (m0, map start css))) i = Some t /\ idle t /\ th_done t = map (pure (class_of m0)) cs.
  Proof.
    intros css sched m0 i cs F W NC HO N. destruct (runs_finish U tag_of func i (runs sched (m0, map start css))) as (n & t & T & ID). { rewrite runs_len. cbn [snd]. rewrite map_length. apply nth_error_Some. rewrite N. discriminate. }
    exists n, t. rewrite runs_app. split; [exact T|]. split; [exact ID|]. pose proof (quiet_pool css (sched ++ repeat i n) m0 F W NC HO) as P. rewrite runs_app in P.
    destruct (pool_thread _ _ _ css _ i cs P N) as (t' & T' & dn & R & K). rewrite T in T'. injection T' as <-. destruct ID as (N1 & N2). rewrite N1, N2, app_nil_r in K. subst dn. apply F2_map. exact R.
  Qed.
End QuietResults.
