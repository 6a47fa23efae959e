(** * Threads: inflect() while other threads load the same dictionary again *)
From Coq Require Import String List NArith ZArith Bool Lia.
From Verif Require Import Py Uni Tagset Shapes Units Analyzer Threads Spec6 Spec11.
From Verif Require Import L_Base L_Tagset L_Threads L_Threads2 L_ThreadParse L_ThreadLex L_Reload L_Threads3 L_Threads4.
Import ListNotations.
Local Open Scope nat_scope.
Local Open Scope list_scope.

Section Steady.
  Variables (U : uni) (tag_of : nat -> tag) (func : str -> res str).
  Variable C : tagclass.
  Record IE (m : mem) : Prop := {
    ie_ca : caches U tag_of func m; ie_extra : forall k, sames (looked (h_extra m) k) (extra_of C k); ie_inc : forall g, sames (looked (h_incompat m) g) (incompat_of C g) }.
  (** operations that leave the two tables as they are in [C] *)
  Definition even {R} (o : op R) : Prop :=
    honest U tag_of func o /\ match o with ExpandExtra rows => reloads C rows | SetRow rows _ r => reloads C rows /\ In r rows | _ => True end.
  Inductive steady {A} : prog A -> Prop :=
  | steady_ret : forall r, steady (Ret r)
  | steady_do : forall R (o : op R) k, even o -> (forall x, steady (k x)) -> steady (Do o k).
  Lemma even_IE : forall R (o : op R) m, even o -> IE m -> IE (fst (exec o m)).
  Proof.
    intros R o m (H & K) [A B D]. constructor; [apply honest_caches; auto| |].
    - destruct o; cbn [exec fst] in *; auto; [destruct (dget N.eqb c (h_latin m)); auto|]. cbn. exact (proj1 (reloads_rows _ _ _ K B)).
    - intros g. destruct o; cbn [exec fst] in *; auto; [destruct (dget N.eqb c (h_latin m)); auto; apply D|]. cbn. destruct K as (K & J). rewrite looked_set. destruct (str_eqb g (g_name r)) eqn:E; [|apply D]. apply str_eqb_eq in E. subst g. exact (proj2 (reloads_rows _ _ _ K B) r J).
  Qed.
  Lemma steady_bind : forall A B (p : prog A) (f : A -> prog B), steady p -> (forall a, steady (f a)) -> steady (pbind p f).
  Proof. intros A B p f H K. induction H as [r|R o k H1 H2 IH]; cbn [pbind]; [destruct r; [apply K|constructor]|]. constructor; auto. Qed.
  Lemma steady_act : forall R (o : op R), even o -> steady (act o). Proof. intros. constructor; auto. intros x. constructor. Qed.
  Lemma steady_pret : forall A (f : A -> val) p, steady p -> steady (pret f p).
  Proof. intros A f p H. apply steady_bind; [exact H|]. intros a. constructor. Qed.
  Lemma steady_piter : forall A (f : A -> prog unit) l, (forall x, In x l -> steady (f x)) -> steady (piter f l).
  Proof. intros A f l. induction l as [|x l IH]; intros H; [constructor|]. cbn [piter]. apply steady_bind; [apply H; left; reflexivity|]. intros _. apply IH. intros y J. apply H. right. exact J. Qed.
  Lemma steady_pmap : forall A B (f : A -> prog B) l, (forall x, steady (f x)) -> steady (pmap f l).
  Proof. intros A B f l H. induction l as [|x l IH]; [constructor|]. cbn [pmap]. apply steady_bind; [auto|]. intros y. apply steady_bind; [auto|]. intros ys. constructor. Qed.
  Lemma steady_inv : forall A (p : prog A), steady p -> match p with Ret _ => True | Do o k => even o /\ forall x, steady (k x) end.
  Proof. intros A p []; auto. Qed.
  (** what holds with the invariant of the caches holds here *)
  Lemma steady_from : forall A (P : res A -> Prop) m p, steady p -> safe (caches U tag_of func) grows P m p -> safe IE grows P m p.
  Proof.
    intros A P m p S K. induction K as [m r K|m R o k K1 K2 IH]; [constructor; exact K|]. apply steady_inv in S as (E & F). constructor.
    - intros m' L' I'. split; [apply even_IE; auto|exact (proj2 (K1 m' L' (ie_ca _ I')))].
    - intros m' L' I'. apply IH; auto. exact (ie_ca _ I').
  Qed.
  Lemma steady_tame : forall A (p : prog A), steady p -> tame U tag_of func p.
  Proof. intros A p H. induction H as [r|R o k H1 H2 IH]; constructor; auto. exact (proj1 H1). Qed.
  Lemma steady_safe : forall A (p : prog A) m, steady p -> safe IE grows (fun _ => True) m p.
  Proof. intros A p m H. apply steady_from; [exact H|]. apply tame_safe. apply steady_tame. exact H. Qed.

  (** the functions *)
  Ltac ev := split; exact Logic.I.
  Ltac st := repeat first [apply steady_bind | apply steady_pmap | apply steady_act; ev | apply steady_ret | intros ?].
  Lemma st_add : forall l c o, steady (add_known_t l c o).
  Proof. intros l c o. unfold add_known_t. apply steady_bind; [destruct o; unfold ret; st|]. intros []; unfold ret; st. Qed.
  Lemma st_known : forall gs, steady (assert_known_t gs).
  Proof. intros gs. unfold assert_known_t, assert_initialized_t, raise, ret. st. destruct a0; st. destruct a1; st. Qed.
  Lemma st_construct : forall rows tags adds, reloads C rows -> steady (construct_t rows tags adds).
  Proof.
    intros rows tags adds RL. unfold construct_t, init_grammemes_t, mk_tag_t. apply steady_bind; [|intros _; apply steady_bind; [apply steady_piter; intros; apply st_known|]; intros _; apply steady_piter; intros; apply st_add].
    do 3 (apply steady_bind; [apply steady_act; ev|]; intros _). apply steady_bind; [apply steady_piter; intros; apply st_add|]. intros _. apply steady_bind; [apply steady_act; split; [exact Logic.I|exact RL]|]. intros _.
    apply steady_piter. intros [i r] J. apply steady_act. split; [exact Logic.I|]. split; [exact RL|]. rewrite <- (enum_snd _ rows). apply in_map_iff. exists (i, r). auto.
  Qed.
  Lemma st_grammemes : forall o, steady (grammemes_t tag_of o).
  Proof. intros o. unfold grammemes_t, ret. st. destruct a; st. apply steady_act. split; [reflexivity|exact Logic.I]. Qed.
  Lemma st_cyr : forall o, steady (grammemes_cyr_t tag_of o) /\ steady (cyr_repr_t U tag_of o).
  Proof. intros o. unfold grammemes_cyr_t, cyr_repr_t, translate_t, ret, raise. split; st; destruct a; st; try (destruct a0; st). Qed.
  Lemma st_is_known : forall g, steady (grammeme_is_known_t g).
  Proof. intros g. unfold grammeme_is_known_t, assert_initialized_t, ret, raise. st. destruct a0; st. Qed.
  Lemma st_contains : forall g o, steady (contains_t tag_of g o).
  Proof. intros. unfold contains_t. apply steady_bind; [apply st_grammemes|]. intros gs. unfold ret, raise. destruct (smem g (the_set gs)); [st|]. apply steady_bind; [apply st_is_known|]. intros []; st. Qed.
  Lemma st_contains_set : forall g o, steady (contains_set_t tag_of g o).
  Proof. intros. unfold contains_set_t, ret. apply steady_bind; [apply st_grammemes|]. intros gs. destruct (ssub g (the_set gs)); [constructor|]. apply steady_bind; [apply st_known|]. intros _. constructor. Qed.
  Lemma st_any : forall gs os, steady (any_contains_t tag_of gs os).
  Proof. intros gs os. induction os as [|o os IH]; [constructor|]. cbn [any_contains_t]. apply steady_bind; [apply st_contains_set|]. intros []; [constructor|auto]. Qed.
  Lemma st_latin_char : forall c, steady (is_latin_char_t U c).
  Proof. intros c. unfold is_latin_char_t, ret, raise. st. destruct a; st. destruct (u_latin U c) eqn:E; [apply steady_act; split; [exact E|exact Logic.I]|st]. Qed.
  Lemma st_latin : forall s, steady (is_latin_t U s).
  Proof.
    intros s. unfold is_latin_t. destruct (existsb (u_alpha U) s); [|constructor]. induction s as [|c s IH]; [constructor|]. cbn [all_latin_t]. destruct (u_alpha U c); [|exact IH]. apply steady_bind; [apply st_latin_char|]. intros []; [exact IH|constructor].
  Qed.
  Lemma st_memo : forall k, steady (memoized_t func k).
  Proof.
    intros k. unfold memoized_t, ret, raise. st. destruct a; [st; destruct a; st|]. destruct (func k) eqn:E; cbn [pbind]; [|st]. constructor; [split; [exact E|exact Logic.I]|]. intros x. st.
  Qed.
  Lemma st_parse : forall M o w, steady (parse_p U tag_of M o w) /\ steady (tag_p U tag_of M o w).
  Proof.
    intros M o w. split; [apply (T_parse U tag_of M o (fun A => @steady A))|apply (T_tag U tag_of M o (fun A => @steady A))]; intros; try apply steady_ret; try (apply steady_bind; auto; fail); auto using st_grammemes, st_latin, st_any.
  Qed.
  Lemma st_lexeme : forall M o f req, steady (get_lexeme_p tag_of M o f) /\ steady (normalized_p tag_of M o f) /\ steady (inflect_p tag_of M o f req).
  Proof.
    intros M o f req. split; [|split]; [apply (T_lexeme tag_of M o (fun A => @steady A))|apply (T_normalized tag_of M o (fun A => @steady A))|apply (T_inflect tag_of M o (fun A => @steady A))];
      intros; try apply steady_ret; try (apply steady_bind; auto; fail); auto using st_grammemes, st_contains, st_is_known. apply steady_act. ev.
  Qed.
  Lemma st_agree : forall pick M o f n, steady (agree_p tag_of M o pick f n).
  Proof.
    intros pick M o f n. apply (T_agree tag_of M o (fun A => @steady A)); intros; try apply steady_ret; try (apply steady_bind; auto; fail); auto using st_grammemes, st_contains, st_is_known; try (apply steady_act; ev).
    unfold assert_initialized_t, ret, raise. st. destruct a0; st.
  Qed.
  Definition harmless (c : call) : Prop := match c with CMorph rows _ _ => reloads C rows | _ => True end.
  Lemma st_code : forall c, harmless c -> steady (code U tag_of func c).
  Proof.
    intros c H. destruct c; cbn [code]; apply steady_pret; auto using st_latin_char, st_latin, st_memo, st_grammemes, st_contains, st_contains_set, st_any.
    - apply st_cyr.
    - apply st_cyr.
    - apply st_parse.
    - apply st_parse.
    - apply (st_lexeme M o form []).
    - apply (st_lexeme M o form []).
    - apply (st_lexeme M o form req).
    - apply st_parse.
    - apply st_agree.
    - apply st_construct. exact H.
  Qed.

  Notation is_race := (fun e => e = RuntimeError \/ e = ValueError).
  Notation safe := (safe IE grows).
  Lemma e_gr : forall m o, IE m -> IE (fst (exec (SetGr o (t_gr (tag_of o))) m)).
  Proof. intros m o H. apply even_IE; [|exact H]. split; [reflexivity|exact Logic.I]. Qed.
  Lemma e_req : forall g acc m, In g (tc_known C) -> safe (ok_or is_race (let* k := grammeme_is_known C g in if k then Ok (sdiff acc (incompat_of C g)) else Err ValueError)) m
    (do* k := grammeme_is_known_t g in if k then do* inc := act (IncompatGet g) in ret (sdiff acc inc) else raise ValueError).
  Proof.
    intros g acc m K.
    assert (E : grammeme_is_known C g = Ok true). { unfold grammeme_is_known, assert_initialized. apply smem_In in K. destruct (tc_known C) as [|x l]; [discriminate K|]. cbn [bind]. rewrite K. reflexivity. }
    rewrite E. cbn [bind]. apply (sbind IE _ _ race _ _ _ _ (steady_from _ race m _ (st_is_known g) (r_is_known U tag_of func g m))).
    - intros [] m1 _ _; [|constructor; right; exists ValueError; auto]. cbn [pbind act]. apply read; [reflexivity|]. intros m2 _ I2. cbn [exec snd]. change (match sget g (h_incompat m2) with Some s => s | None => [] end) with (looked (h_incompat m2) g). constructor. left. f_equal. apply sdiff_same. exact (ie_inc _ I2 g).
    - intros e H. right. exists e. auto.
  Qed.
  Lemma e_inflect : forall M o f req m, its_objects U tag_of M o -> tag_source M (p_tag f) -> knows C masc_grammeme -> (forall g, In g req -> can_require C g) ->
    safe (ok_or is_race (inflect (in_class C M) f req)) m (inflect_p tag_of M o f req).
  Proof.
    intros M o f req m (MU & OB) S K KR.
    assert (H : forall t m, tag_source M t -> safe (ok_or is_race (contains C (u "masc") t)) m (contains_t tag_of (u "masc") (o t))).
    { intros t m0 St. apply steady_from; [apply st_contains|]. exact (a_masc U tag_of func C M o t m0 OB K St). }
    apply (ok_inflect U tag_of func IE ie_ca e_gr is_race M o C OB H (fun g => In g (tc_known C)) (fun g acc m J => e_req g acc m J) f req m S). exact KR.
  Qed.
  Lemma e_agree : forall pick M o f n m, its_objects U tag_of M o -> tag_source M (p_tag f) -> knows C masc_grammeme -> (forall g, In (Some g) (numeral_agreement pick (p_tag f) n) -> can_require C g) ->
    safe (ok_or is_race (make_agree_with_number pick (in_class C M) f n)) m (agree_p tag_of M o pick f n).
  Proof.
    intros pick M o f n m (MU & OB) S K KR.
    assert (H : forall t m, tag_source M t -> safe (ok_or is_race (contains C (u "masc") t)) m (contains_t tag_of (u "masc") (o t))).
    { intros t m0 St. apply steady_from; [apply st_contains|]. exact (a_masc U tag_of func C M o t m0 OB K St). }
    apply (ok_agree U tag_of func IE ie_ca e_gr is_race M o C OB H (fun g => In g (tc_known C)) (fun g acc m J => e_req g acc m J)); [| |exact S|exact KR].
    - intros m0. assert (X : steady assert_initialized_t) by (unfold assert_initialized_t, ret, raise; st; destruct a0; st). refine (safe_weaken IE grows _ _ _ m0 _ _ (steady_from _ race m0 _ X (r_init U tag_of func m0))).
      assert (E : assert_initialized C = Ok tt) by (unfold assert_initialized; specialize (K _ (or_introl eq_refl)); destruct (tc_known C); [destruct K|reflexivity]). rewrite E. intros [[]|e] J; [left; reflexivity|right; exists e; auto].
    - intros m0. cbn [pbind act]. apply read; [reflexivity|]. intros m1 _ _. constructor. left. reflexivity.
  Qed.
  Definition q_inflect (c : call) (r : res val) : Prop :=
    match c with
    | CInflect _ _ _ req => has_objects U tag_of c -> knows C masc_grammeme -> (forall g, In g req -> can_require C g) -> r = pure U tag_of func C c \/ r = Err RuntimeError \/ r = Err ValueError
    | CAgree pick _ _ f n => has_objects U tag_of c -> knows C masc_grammeme -> (forall g, In (Some g) (numeral_agreement pick (p_tag f) n) -> can_require C g) -> r = pure U tag_of func C c \/ r = Err RuntimeError \/ r = Err ValueError
    | _ => True
    end.
  Lemma inflect_code : forall c m, harmless c -> safe (q_inflect c) m (code U tag_of func c).
  Proof.
    intros c m H. pose proof (steady_safe _ _ m (st_code c H)) as S. destruct c; cbn [q_inflect]; try exact S; cbn [code] in *; (apply safe_imp; [exact S|]); intros (OB & SO); do 2 (apply safe_imp; [exact S|]; intros ?).
    2: { apply (sbind IE _ _ _ _ _ _ _ (e_agree pick M o form num m OB SO ltac:(assumption) ltac:(assumption))); [intros a m' _ X; constructor|intros e X]; apply race_or; exact (rmap_or _ _ VParse _ _ _ X). }
    apply (sbind IE _ _ _ _ _ _ _ (e_inflect M o form req m OB SO ltac:(assumption) ltac:(assumption))); [intros a m' _ X; constructor|intros e X]; apply race_or; exact (rmap_or _ _ VParse _ _ _ X).
  Qed.
End Steady.
Section Inflect.
  Variables (U : uni) (tag_of : nat -> tag) (func : str -> res str).
  Lemma inflect_calls : forall css sched m0 i cs, fresh m0 -> wf m0 -> (forall cs c, In cs css -> In c cs -> harmless (class_of m0) c) -> nth_error css i = Some cs ->
    exists t, nth_error (snd (runs U tag_of func sched (m0, map start css))) i = Some t /\ forall j c r, nth_error cs j = Some c -> nth_error (th_done t) j = Some r -> q_inflect U tag_of func (class_of m0) c r.
  Proof.
    intros css sched m0 i cs F W H N.
    assert (P : pool_ok (IE U tag_of func (class_of m0)) grows (q_inflect U tag_of func (class_of m0)) css (runs U tag_of func sched (m0, map start css))).
    { apply pool_runs; [exact grows_refl|exact grows_trans|intros cs0 c H1 H2 m _; apply inflect_code; exact (H cs0 c H1 H2)|]. apply pool_start. constructor; [apply fresh_caches; [exact F|exact (proj1 W)]|intros k x; reflexivity|intros g x; reflexivity]. }
    destruct (pool_results _ _ _ css _ i cs P N) as (t & T & dn & rest & -> & R). exists t. split; [exact T|]. intros j c r X Y. exact (F2_nth _ _ _ _ _ _ _ R X Y).
  Qed.
End Inflect.
