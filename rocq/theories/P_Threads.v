(** * C27, C28: threads *)
From Coq Require Import String List NArith ZArith Bool Lia.
From Verif Require Import Py Uni Tagset Shapes Dict Units Analyzer ConfigUk Compile Ex Threads Spec Spec6 Spec11.
From Verif Require Import L_Base L_Tagset L_Ex L_Config L_Threads L_Threads2 L_ThreadParse L_ThreadLex L_Reload L_Threads3 L_Threads4 L_Threads5.
Import ListNotations.
Local Open Scope nat_scope.
Local Open Scope list_scope.

(** a small dictionary, a second one with other Cyrillic names, one tag object *)
Definition ex_row (n a : string) : grow := MkGrow (u n) None (u a) [].
Definition ex_rows : list grow := [ex_row "NOUN" "СУЩ"; ex_row "VERB" "ГЛ"; ex_row "sing" "ед"].
Definition ex_rows' : list grow := [ex_row "NOUN" "ИМ"; ex_row "VERB" "ДЕЕ"; ex_row "sing" "од"].
Definition ex_tags : list str := map u ["NOUN,sing"; "VERB"]%string.
Definition ex_adds : list (str * str * bool) := [(u "PNCT", u "ЗПР", false)].
Definition ex_tag (o : nat) : tag := {| t_str := u "NOUN,sing"; t_gr := map u ["NOUN"; "sing"]%string |}.
Definition ex_func (k : str) : res str := match k with [] => Err ValueError | _ => Ok (rev k) end.
Definition ex_mem : mem := create_all imported [(ex_rows, ex_tags, ex_adds)].

(** ** C27 *)
(** whatever the other threads do (creating analyzers included), is_latin_char, is_latin, a memoized function and tag.grammemes
    return the value of the function without the cache *)
Theorem C27_caches : forall U tag_of func m0 css sched i cs, fresh m0 -> wf m0 -> nth_error css i = Some cs ->
  exists t, nth_error (snd (runs U tag_of func sched (m0, map start css))) i = Some t /\
    forall j c r, nth_error cs j = Some c -> nth_error (th_done t) j = Some r -> independent c -> r = pure U tag_of func (class_of m0) c.
Proof.
  intros U tag_of func m0 css sched i cs F W N. destruct (any_calls U tag_of func (class_of m0) css sched m0 i cs F W N) as (t & T & K). exists t. split; [exact T|]. intros j c r X Y. exact (proj1 (K j c r X Y)).
Qed.
Print Assumptions C27_caches.
(** as long as no analyzer is created, the same holds for every call: parse(), tag() and normal_forms() of any number of analyzers, lexeme,
    normalized, inflect() and make_agree_with_number() of analyses, grammemes_cyr, cyr_repr and membership tests as well *)
Theorem C27_quiet : forall U tag_of func m0 css sched i cs, fresh m0 -> wf m0 -> (forall cs c, In cs css -> In c cs -> ~ creates c) ->
  (forall cs c, In cs css -> In c cs -> has_objects U tag_of c) -> nth_error css i = Some cs ->
  exists t n, nth_error (snd (runs U tag_of func sched (m0, map start css))) i = Some t /\ th_done t = map (pure U tag_of func (class_of m0)) (firstn n cs).
Proof. intros U tag_of func m0 css sched i cs. apply quiet_results. Qed.
Print Assumptions C27_quiet.
(** no thread is ever stuck: after any history, enough turns finish all its calls *)
Theorem C27_progress : forall U tag_of func m0 css sched i cs, fresh m0 -> wf m0 -> nth_error css i = Some cs ->
  exists n t, nth_error (snd (runs U tag_of func (sched ++ repeat i n) (m0, map start css))) i = Some t /\ idle t /\ length (th_done t) = length cs.
Proof. intros U tag_of func m0 css sched i cs. apply any_finish. Qed.
Print Assumptions C27_progress.
Lemma ex_mem_ok : wf ex_mem /\ fresh ex_mem /\ class_of ex_mem = created (class_of imported) [(ex_rows, ex_adds)].
Proof.
  assert (W : wf imported) by (unfold wf, imported; cbn; repeat split; auto; discriminate). assert (F : fresh imported) by (repeat split).
  destruct (create_all_ok [(ex_rows, ex_tags, ex_adds)] imported W) as (A & B & D).
  - intros x [<-|[]] s g H H2. cbn [fst snd] in *. apply smem_In. assert (X : forallb (fun s => ssub (split_tag s) (map g_name ex_rows)) ex_tags = true) by (vm_compute; reflexivity). rewrite forallb_forall in X. specialize (X s H). apply smem_In. exact (proj1 (ssub_incl _ _) X g H2).
  - auto.
Qed.
Example C27_case : wf ex_mem /\ fresh ex_mem /\
  let s := runs uni_cyr ex_tag ex_func ([1; 0; 0; 1; 1; 0; 1; 0; 0; 1] ++ repeat 0 60 ++ repeat 1 60) (ex_mem, map start [[CLatinChar (chr "a"); CMemo (u "abc"); CCyrRepr 0]; [CMemo (u "abc"); CGrammemes 0; CMemo []; CContains (u "VERB") 0]]) in
  map th_done (snd s) = [ [Ok (VBool true); Ok (VStr (u "cba")); Ok (VOStr (Some (u "СУЩ,ед")))];
                          [Ok (VStr (u "cba")); Ok (VSet (Some (map u ["NOUN"; "sing"]%string))); Err ValueError; Ok (VBool false)] ].
Proof. split; [apply ex_mem_ok|]. split; [apply ex_mem_ok|]. vm_compute. reflexivity. Qed.
(** without that proviso it fails for cyr_repr, in two ways: the text is cached before another analyzer is created and is not updated
    (here even in one thread); or it is computed while the tables are empty, and stays untranslated for ever *)
Theorem C27_stale_refuted : exists U tag_of func m0 o rows tags adds s s', fresh m0 /\ wf m0 /\ tags_known rows tags /\ s <> s' /\
  let fin := runs U tag_of func (repeat 0 200) (m0, map start [[CCyrRepr o; CMorph rows tags adds; CCyrRepr o]]) in
  map th_done (snd fin) = [[Ok (VOStr (Some s)); Ok VUnit; Ok (VOStr (Some s))]] /\ pure U tag_of func (class_of (fst fin)) (CCyrRepr o) = Ok (VOStr (Some s')).
Proof.
  exists uni_cyr, ex_tag, ex_func, ex_mem, 0, ex_rows', ex_tags, ex_adds, (u "СУЩ,ед"), (u "ИМ,од"). split; [apply ex_mem_ok|]. split; [apply ex_mem_ok|]. split.
  { intros s g H H2. assert (X : forallb (fun s => ssub (split_tag s) (map g_name ex_rows')) ex_tags = true) by (vm_compute; reflexivity). rewrite forallb_forall in X. specialize (X s H). exact (proj1 (ssub_incl _ _) X g H2). }
  split; [vm_compute; discriminate|]. split; vm_compute; reflexivity.
Qed.
Print Assumptions C27_stale_refuted.
Theorem C27_poisoned_refuted : exists U tag_of func m0 o rows tags adds sched s s', fresh m0 /\ wf m0 /\ s <> s' /\
  let fin := runs U tag_of func sched (m0, map start [[CCyrRepr o; CCyrRepr o]; [CMorph rows tags adds]]) in
  map th_done (snd fin) = [[Ok (VOStr (Some s)); Ok (VOStr (Some s))]; [Ok VUnit]] /\
  pure U tag_of func (class_of m0) (CCyrRepr o) = Ok (VOStr (Some s')) /\ pure U tag_of func (class_of (fst fin)) (CCyrRepr o) = Ok (VOStr (Some s')).
Proof.
  exists uni_cyr, ex_tag, ex_func, ex_mem, 0, ex_rows, ex_tags, ex_adds, ([1; 1; 1; 1] ++ repeat 0 8 ++ repeat 1 100 ++ repeat 0 50), (u "NOUN,sing"), (u "СУЩ,ед"). split; [apply ex_mem_ok|]. split; [apply ex_mem_ok|].
  split; [vm_compute; discriminate|]. repeat split; vm_compute; reflexivity.
Qed.
Print Assumptions C27_poisoned_refuted.

(** ** C28 *)
(** the race: the grammeme is known before and after, and the answer is False both times; in between the test raises RuntimeError or
    ValueError, depending on the schedule.  The same for the test "any(grammemes in tag for tag in tags)" of the hyphen unit *)
Theorem C28_race_refuted : exists U tag_of func m0 g o rows tags adds, fresh m0 /\ wf m0 /\
  let q := CContains g o in let q' := CAny [g] [o] in
  let after := created (class_of m0) [(rows, adds)] in
  pure U tag_of func (class_of m0) q = Ok (VBool false) /\ pure U tag_of func after q = Ok (VBool false) /\
  pure U tag_of func (class_of m0) q' = Ok (VBool false) /\ pure U tag_of func after q' = Ok (VBool false) /\
  forall e, In e [RuntimeError; ValueError] -> exists sched,
    let fin := runs U tag_of func sched (m0, map start [[q]; [q']; [CMorph rows tags adds]]) in
    map th_done (snd fin) = [[Err e]; [Err e]; [Ok VUnit]] /\ class_of (fst fin) = after.
Proof.
  exists uni_cyr, ex_tag, ex_func, ex_mem, (u "VERB"), 0, ex_rows, ex_tags, ex_adds. split; [apply ex_mem_ok|]. split; [apply ex_mem_ok|]. cbv zeta. repeat (split; [vm_compute; reflexivity|]).
  intros e [<-|[<-|[]]].
  - exists ([2; 2] ++ repeat 0 20 ++ repeat 1 20 ++ repeat 2 100). split; vm_compute; reflexivity.
  - exists ([2; 2; 2; 2; 2; 2] ++ repeat 0 20 ++ repeat 1 20 ++ repeat 2 100). split; vm_compute; reflexivity.
Qed.
Print Assumptions C28_race_refuted.
(** two threads creating analyzers from the same dictionary: one of them can fail although each would succeed alone *)
Theorem C28_two_constructors_refuted : exists U tag_of func m0 rows tags adds sched e, fresh m0 /\ wf m0 /\ tags_known rows tags /\
  map th_done (snd (runs U tag_of func sched (m0, map start [[CMorph rows tags adds]; [CMorph rows tags adds]]))) = [[Err e]; [Ok VUnit]] /\
  map th_done (snd (runs U tag_of func (repeat 0 200) (m0, map start [[CMorph rows tags adds]; []]))) = [[Ok VUnit]; []].
Proof.
  exists uni_cyr, ex_tag, ex_func, ex_mem, ex_rows, ex_tags, ex_adds, (repeat 0 23 ++ [1; 1] ++ repeat 0 80 ++ repeat 1 100), RuntimeError. split; [apply ex_mem_ok|]. split; [apply ex_mem_ok|]. split.
  { intros s g H H2. assert (X : forallb (fun s => ssub (split_tag s) (map g_name ex_rows)) ex_tags = true) by (vm_compute; reflexivity). rewrite forallb_forall in X. specialize (X s H). exact (proj1 (ssub_incl _ _) X g H2). }
  split; vm_compute; reflexivity.
Qed.
Print Assumptions C28_two_constructors_refuted.
(** ... but no schedule makes a membership test answer wrongly: the answer is right or it is one of these two exceptions, and the answer
    True is never lost *)
Theorem C28_never_wrong : forall U tag_of func m0 css sched i cs, fresh m0 -> wf m0 -> nth_error css i = Some cs ->
  exists t, nth_error (snd (runs U tag_of func sched (m0, map start css))) i = Some t /\
    forall j c r, nth_error cs j = Some c -> nth_error (th_done t) j = Some r ->
      match c with
      | CContains g o => r = Ok (VBool (smem g (t_gr (tag_of o)))) \/ (smem g (t_gr (tag_of o)) = false /\ (r = Err RuntimeError \/ r = Err ValueError))
      | CContainsSet gs o => r = Ok (VBool (ssub gs (t_gr (tag_of o)))) \/ (ssub gs (t_gr (tag_of o)) = false /\ (r = Err RuntimeError \/ r = Err ValueError))
      | CAny gs os => r = Ok (VBool (existsb (fun o => ssub gs (t_gr (tag_of o))) os)) \/ r = Err RuntimeError \/ r = Err ValueError
      | _ => True
      end.
Proof.
  intros U tag_of func m0 css sched i cs F W N. destruct (any_calls U tag_of func (class_of m0) css sched m0 i cs F W N) as (t & T & K). exists t. split; [exact T|]. intros j c r X Y. pose proof (proj1 (proj2 (K j c r X Y))) as Q. destruct c; first [exact Q | exact I].
Qed.
Print Assumptions C28_never_wrong.
(** if analyzers are created in one go, at any moments between the actions of the other threads, then a test for grammemes that all the
    dictionaries have never raises *)
Theorem C28_atomic : forall U tag_of func css es m0 i cs, fresh m0 -> wf m0 -> (forall cs c, In cs css -> In c cs -> ~ creates c) -> nth_error css i = Some cs ->
  exists t, nth_error (snd (fold_left (happens U tag_of func) es (m0, map start css))) i = Some t /\
    forall j c r, nth_error cs j = Some c -> nth_error (th_done t) j = Some r ->
      match c with
      | CContains g o => always_known m0 es g -> r = Ok (VBool (smem g (t_gr (tag_of o))))
      | CContainsSet gs o => (forall g, In g gs -> always_known m0 es g) -> r = Ok (VBool (ssub gs (t_gr (tag_of o))))
      | CAny gs os => (forall g, In g gs -> always_known m0 es g) -> r = Ok (VBool (existsb (fun o => ssub gs (t_gr (tag_of o))) os))
      | CParse _ _ _ | CTag _ _ _ | CNormalForms _ _ _ => has_objects U tag_of c -> (forall g, In g adverb_grammemes -> always_known m0 es g) -> r = pure U tag_of func (class_of m0) c
      | CLexeme _ _ _ | CNormalized _ _ _ => has_objects U tag_of c -> (forall g, In g masc_grammeme -> always_known m0 es g) -> r = pure U tag_of func (class_of m0) c
      | CInflect _ _ _ req => has_objects U tag_of c -> (forall g, In g masc_grammeme -> always_known m0 es g) -> (forall g, In g req -> always_known m0 es g /\ always_known m0 es (fix_rare1 g)) ->
          (forall rows tags adds, In (Create rows tags adds) es -> reloads (class_of m0) rows) -> r = pure U tag_of func (class_of m0) c
      | CAgree pick _ _ f n => has_objects U tag_of c -> (forall g, In g masc_grammeme -> always_known m0 es g) ->
          (forall g, In (Some g) (numeral_agreement pick (p_tag f) n) -> always_known m0 es g /\ always_known m0 es (fix_rare1 g)) ->
          (forall rows tags adds, In (Create rows tags adds) es -> reloads (class_of m0) rows) -> r = pure U tag_of func (class_of m0) c
      | _ => True
      end.
Proof. exact atomic_calls. Qed.
Print Assumptions C28_atomic.
(** after any number of complete constructions the class is as if they had been done one after the other, and all threads see that *)
Theorem C28_completed : forall U tag_of func m0 l css sched i cs, fresh m0 -> wf m0 -> (forall x, In x l -> tags_known (fst (fst x)) (snd (fst x))) ->
  (forall cs c, In cs css -> In c cs -> ~ creates c) -> (forall cs c, In cs css -> In c cs -> has_objects U tag_of c) -> nth_error css i = Some cs ->
  let C := created (class_of m0) (map (fun x => (fst (fst x), snd x)) l) in
  class_of (create_all m0 l) = C /\
  exists t n, nth_error (snd (runs U tag_of func sched (create_all m0 l, map start css))) i = Some t /\ th_done t = map (pure U tag_of func C) (firstn n cs).
Proof.
  intros U tag_of func m0 l css sched i cs F W TK NC HO N C. destruct (create_all_ok l m0 W TK) as (A & B & D). split; [exact D|]. subst C. rewrite <- D. apply quiet_results; auto.
Qed.
Print Assumptions C28_completed.
(** one construction, alone, from any state: it succeeds *)
Theorem C28_alone : forall rows tags adds m, wf m -> tags_known rows tags -> exists m', run (construct_t rows tags adds) m = (m', Ok tt) /\ class_of m' = created (class_of m) [(rows, adds)].
Proof. intros rows tags adds m W H. destruct (run_construct rows tags adds m W (tags_known_ok _ _ _ H)) as (m' & A & B & _). eauto. Qed.
Print Assumptions C28_alone.
Example C28_case : wf ex_mem /\ fresh ex_mem /\ always_known ex_mem [Act 0; Act 0; Create ex_rows' ex_tags ex_adds; Act 0] (u "VERB") /\
  map th_done (snd (fold_left (happens uni_cyr ex_tag ex_func) ([Act 0; Act 0; Act 0; Act 0; Act 0; Create ex_rows' ex_tags ex_adds] ++ repeat (Act 0) 20) (ex_mem, map start [[CContains (u "VERB") 0; CContains (u "ADVB") 0]]))) = [[Ok (VBool false); Err ValueError]].
Proof.
  split; [apply ex_mem_ok|]. split; [apply ex_mem_ok|]. split; [|vm_compute; reflexivity]. split; [apply smem_In; vm_compute; reflexivity|]. intros rows tags adds H. cbn [In] in H. destruct H as [H|[H|[H|[H|[]]]]]; try discriminate H. injection H as <- <- <-. apply smem_In. vm_compute. reflexivity.
Qed.

(** ** parse() and tag() while other threads create analyzers *)
(** whatever the schedule, the result of parse() or tag() is the right one, or RuntimeError or ValueError is raised *)
Theorem C28_parse_never_wrong : forall U tag_of func m0 css sched i cs, fresh m0 -> wf m0 -> knows (class_of m0) adverb_grammemes -> nth_error css i = Some cs ->
  exists t, nth_error (snd (runs U tag_of func sched (m0, map start css))) i = Some t /\
    forall j c r, nth_error cs j = Some c -> nth_error (th_done t) j = Some r -> analyzes c -> has_objects U tag_of c ->
      r = pure U tag_of func (class_of m0) c \/ r = Err RuntimeError \/ r = Err ValueError.
Proof.
  intros U tag_of func m0 css sched i cs F W KN N. destruct (any_calls U tag_of func (class_of m0) css sched m0 i cs F W N) as (t & T & K). exists t. split; [exact T|]. intros j c r X Y A HO. exact (proj1 (proj2 (proj2 (K j c r X Y)) A HO) KN).
Qed.
Print Assumptions C28_parse_never_wrong.
(** for a word without a hyphen, and for an analyzer without HyphenAdverbAnalyzer, it is always the right one, whatever state the class
    is in and whatever the other threads are doing to it *)
Theorem C28_parse_unaffected : forall U tag_of func m0 css sched i cs C, fresh m0 -> wf m0 -> nth_error css i = Some cs ->
  exists t, nth_error (snd (runs U tag_of func sched (m0, map start css))) i = Some t /\
    forall j c r, nth_error cs j = Some c -> nth_error (th_done t) j = Some r -> analyzes c -> has_objects U tag_of c -> no_test U c -> r = pure U tag_of func C c.
Proof.
  intros U tag_of func m0 css sched i cs C F W N. destruct (any_calls U tag_of func C css sched m0 i cs F W N) as (t & T & K). exists t. split; [exact T|]. intros j c r X Y A HO. exact (proj2 (proj2 (proj2 (K j c r X Y)) A HO)).
Qed.
Print Assumptions C28_parse_unaffected.
(** the analyzer for Ukrainian is one of these *)
Theorem C28_ukrainian : forall U M o w, has_units M UK_DEFAULT_UNITS -> no_test U (CParse M o w) /\ no_test U (CTag M o w).
Proof.
  intros U M o w H. assert (X : ~ adverb_unit M); [|split; left; exact X]. intros (b & tm & mult & I & E). apply has_units_cfg in H.
  assert (F : forallb (fun x : ucfg * bool => match fst x with UHAdverb _ => false | _ => true end) (flat_cfg UK_DEFAULT_UNITS) = true) by (vm_compute; reflexivity).
  rewrite forallb_forall in F. specialize (F (b_cfg b, tm)). rewrite E in F. discriminate F. rewrite <- H. apply in_map_iff. exists (b, tm). rewrite <- E. auto.
Qed.
Print Assumptions C28_ukrainian.

(** the analyzer for Russian: its tags are objects 0, 1, ... *)
Definition demo_tags : list tag := Eval vm_compute in d_gramtab (m_dict demo) ++ concat (map (fun bt => b_tags (fst bt) ++ b_masc (fst bt) ++ b_femn (fst bt)) (m_units demo)).
Fixpoint index_of (t : tag) (l : list tag) : nat := match l with [] => 0 | x :: r => if str_eqb (t_str x) (t_str t) && list_eqb str_eqb (t_gr x) (t_gr t) then 0 else S (index_of t r) end.
Definition demo_object (t : tag) : nat := index_of t demo_tags.
Definition demo_tag_of (n : nat) : tag := nth n demo_tags (ex_tag 0).
Lemma index_of_nth : forall t d l, In t l -> nth (index_of t l) l d = t.
Proof.
  intros t d l. induction l as [|x l IH]; intros I; [destruct I|]. cbn [index_of]. destruct (str_eqb (t_str x) (t_str t) && list_eqb str_eqb (t_gr x) (t_gr t)) eqn:E.
  - apply andb_prop in E as [A B]. apply str_eqb_eq in A. apply strs_eqb_eq in B. cbn [nth]. destruct x, t. cbn in *. subst. reflexivity.
  - destruct I as [->|I]; [exfalso|exact (IH I)]. assert (A : str_eqb (t_str t) (t_str t) = true) by (apply str_eqb_eq; reflexivity). assert (B : list_eqb str_eqb (t_gr t) (t_gr t) = true) by (apply strs_eqb_eq; reflexivity). rewrite A, B in E. discriminate E.
Qed.
Definition all_tags (M : morph) : list tag := d_gramtab (m_dict M) ++ concat (map (fun bt => b_tags (fst bt) ++ b_masc (fst bt) ++ b_femn (fst bt)) (m_units M)).
Lemma all_tags_source : forall M t, tag_source M t -> In t (all_tags M).
Proof.
  intros M t S. unfold all_tags. apply in_or_app. destruct S as [S|(b & tm & A & B)]; [left; exact S|right]. apply in_concat. exists (b_tags b ++ b_masc b ++ b_femn b). split; [|exact B]. apply in_map_iff. exists (b, tm). auto.
Qed.
Lemma objects_ok : forall M l d, all_tags M = l -> m_uni M = uni_cyr -> its_objects uni_cyr (fun n => nth n l d) M (fun t => index_of t l).
Proof. intros M l d <- MU. split; [exact MU|]. intros t S. apply index_of_nth, all_tags_source, S. Qed.
Lemma demo_its : its_objects uni_cyr demo_tag_of demo demo_object.
Proof. refine (objects_ok demo demo_tags (ex_tag 0) _ _); vm_compute; reflexivity. Qed.
Lemma demo_objects : forall w, has_objects uni_cyr demo_tag_of (CParse demo demo_object w) /\ has_objects uni_cyr demo_tag_of (CTag demo demo_object w).
Proof. intros w. split; exact demo_its. Qed.
Definition demo_class : tagclass := Eval vm_compute in m_tc demo.
Lemma in_state_ok : forall C, fresh (in_state C) /\ wf (in_state C) /\ class_of (in_state C) = C.
Proof. intros C. split; [repeat split|]. split; [unfold wf, in_state; cbn; repeat split; auto; discriminate|destruct C; reflexivity]. Qed.
Lemma demo_knows : knows (class_of (in_state demo_class)) adverb_grammemes.
Proof. assert (X : ssub adverb_grammemes (tc_known demo_class) = true) by (vm_compute; reflexivity). intros g I. exact (proj1 (ssub_incl _ _) X g I). Qed.
(** two threads using the analyzer, and one that only reads tags, turn by turn *)
Notation threads_case := [[CParse demo demo_object (u "по-красному"); CTag demo demo_object (u "кот-крот")]; [CTag demo demo_object (u "по-коту"); CParse demo demo_object (u "qwerty")]; [CGrammemes 1; CContains (u "plur") 1; CParse demo demo_object (u "ультракотам")]].
Example C27_parse_case : fresh (in_state demo_class) /\ wf (in_state demo_class) /\ (forall cs c, In cs threads_case -> In c cs -> ~ creates c /\ has_objects uni_cyr demo_tag_of c) /\
  let s := runs uni_cyr demo_tag_of ex_func (flat_map (fun _ => [0; 1; 2; 1; 0; 2; 2]) (repeat 0 700)) (in_state demo_class, map start threads_case) in
  map (fun t => map (fun r => match r with Ok (VParses l) => map (fun p => (p_word p, t_str (p_tag p))) l | Ok (VTags l) => map (fun t => ([], t_str t)) l | _ => [] end) (th_done t)) (snd s) =
    [ [ [(u "по-красному", u "ADVB")]; [([], u "NOUN,anim,masc sing,nomn")] ];
      [ [([], u "NOUN,anim,masc sing,datv")]; [(u "qwerty", u "LATN")] ];
      [ []; []; [(u "ультракотам", u "NOUN,anim,masc plur,datv")] ] ].
Proof.
  split; [apply in_state_ok|]. split; [apply in_state_ok|]. split; [|vm_compute; reflexivity].
  intros cs c I1 H. cbn [In] in I1. destruct I1 as [<-|[<-|[<-|[]]]]; cbn [In] in H; decompose [or] H; clear H; try contradiction; subst c; (split; [intros []|]); first [exact (proj1 (demo_objects _)) | exact (proj2 (demo_objects _)) | exact I].
Qed.
(** the race reaches parse(): the analyses of по-коту are the same before and after a second analyzer is created from the same dictionary,
    but in between parse() raises RuntimeError or ValueError, depending on the schedule *)
Theorem C28_parse_race_refuted : exists U tag_of func m0 M o word rows tags adds ps, fresh m0 /\ wf m0 /\ has_objects U tag_of (CParse M o word) /\
  let q := CParse M o word in let after := created (class_of m0) [(rows, adds)] in
  pure U tag_of func (class_of m0) q = Ok (VParses ps) /\ ps <> [] /\ pure U tag_of func after q = Ok (VParses ps) /\
  forall e, In e [RuntimeError; ValueError] -> exists sched,
    let fin := runs U tag_of func sched (m0, map start [[q]; [CMorph rows tags adds]]) in
    map th_done (snd fin) = [[Err e]; [Ok VUnit]] /\ class_of (fst fin) = after.
Proof.
  exists uni_cyr, demo_tag_of, ex_func, (in_state demo_class), demo, demo_object, (u "по-коту"), demo_rows, (x_gramtab demo_compiled), ex_adds, (get_ok [] (morph_parse demo (u "по-коту"))).
  split; [apply in_state_ok|]. split; [apply in_state_ok|]. split; [exact (proj1 (demo_objects _))|]. cbv zeta. split; [vm_compute; reflexivity|]. split; [vm_compute; discriminate|]. split; [vm_compute; reflexivity|].
  intros e [<-|[<-|[]]].
  - exists ([1; 1] ++ repeat 0 200 ++ repeat 1 2000). split; vm_compute; reflexivity.
  - exists (repeat 1 6 ++ repeat 0 200 ++ repeat 1 2000). split; vm_compute; reflexivity.
Qed.
Print Assumptions C28_parse_race_refuted.
Lemma cyr_lower_hyphen : keeps_unhyphenated uni_cyr.
Proof.
  intros s H K. apply H. cbn [u_lower uni_cyr] in K. apply in_map_iff in K as (c & E & I). replace HY with c; [exact I|]. revert E. unfold cyr_lower1.
  repeat match goal with |- context [if ?b then _ else _] => destruct b eqn:? end; intros E; auto; exfalso; change HY with 45%N in E; unfold rng in *; rewrite ?andb_true_iff, ?N.leb_le, ?N.eqb_eq in *; lia.
Qed.
(** a word without hyphen during the same race; and three objects of the theorems above at work together *)
Example C28_parse_case : fresh (in_state demo_class) /\ wf (in_state demo_class) /\ knows (class_of (in_state demo_class)) adverb_grammemes /\
  no_test uni_cyr (CParse demo demo_object (u "ультракотам")) /\
  let fin := runs uni_cyr demo_tag_of ex_func ([1; 1] ++ repeat 0 400 ++ repeat 1 2000) (in_state demo_class, map start [[CParse demo demo_object (u "ультракотам"); CTag demo demo_object (u "по-красному")]; [CMorph demo_rows (x_gramtab demo_compiled) ex_adds]]) in
  map (fun t => map (fun r => match r with Ok (VParses l) => map (fun p => (p_word p, t_str (p_tag p))) l | Ok (VTags l) => map (fun t => ([], t_str t)) l | _ => [] end) (th_done t)) (snd fin) =
    [ [ [(u "ультракотам", u "NOUN,anim,masc plur,datv")]; [([], u "ADVB")] ]; [ [] ] ].
Proof.
  split; [apply in_state_ok|]. split; [apply in_state_ok|]. split; [exact demo_knows|]. split; [|vm_compute; reflexivity]. right. split.
  - exact cyr_lower_hyphen.
  - intros H. vm_compute in H. repeat destruct H as [H|H]; try discriminate H; destruct H.
Qed.

(** ** lexeme, normalized and inflect() while other threads create analyzers *)
Theorem C28_lexeme_never_wrong : forall U tag_of func m0 css sched i cs, fresh m0 -> wf m0 -> knows (class_of m0) masc_grammeme -> nth_error css i = Some cs ->
  exists t, nth_error (snd (runs U tag_of func sched (m0, map start css))) i = Some t /\
    forall j c r, nth_error cs j = Some c -> nth_error (th_done t) j = Some r -> inflects c -> has_objects U tag_of c ->
      r = pure U tag_of func (class_of m0) c \/ r = Err RuntimeError \/ r = Err ValueError.
Proof.
  intros U tag_of func m0 css sched i cs F W KN N. destruct (any_calls U tag_of func (class_of m0) css sched m0 i cs F W N) as (t & T & K). exists t. split; [exact T|]. intros j c r X Y A HO. pose proof (proj1 (proj2 (K j c r X Y))) as Q. destruct c; try destruct A; exact (Q HO KN).
Qed.
Print Assumptions C28_lexeme_never_wrong.
(** inflect() also reads the table of incompatible grammemes: if every dictionary the others load leaves that table as it is *)
Theorem C28_inflect_never_wrong : forall U tag_of func m0 css sched i cs, fresh m0 -> wf m0 -> knows (class_of m0) masc_grammeme -> nth_error css i = Some cs ->
  (forall cs rows tags adds, In cs css -> In (CMorph rows tags adds) cs -> reloads (class_of m0) rows) ->
  exists t, nth_error (snd (runs U tag_of func sched (m0, map start css))) i = Some t /\
    forall j M o form req r, nth_error cs j = Some (CInflect M o form req) -> nth_error (th_done t) j = Some r ->
      has_objects U tag_of (CInflect M o form req) -> (forall g, In g req -> can_require (class_of m0) g) ->
      r = rmap VParse (inflect (in_class (class_of m0) M) form req) \/ r = Err RuntimeError \/ r = Err ValueError.
Proof.
  intros U tag_of func m0 css sched i cs F W KN N RL. destruct (inflect_calls U tag_of func css sched m0 i cs F W) as (t & T & K); [|exact N|].
  - intros cs0 c H1 H2. destruct c; try exact I. exact (RL _ _ _ _ H1 H2).
  - exists t. split; [exact T|]. intros j M o form req r X Y HO KR. exact (K j _ r X Y HO KN KR).
Qed.
Print Assumptions C28_inflect_never_wrong.
Theorem C28_agree_never_wrong : forall U tag_of func m0 css sched i cs, fresh m0 -> wf m0 -> knows (class_of m0) masc_grammeme -> nth_error css i = Some cs ->
  (forall cs rows tags adds, In cs css -> In (CMorph rows tags adds) cs -> reloads (class_of m0) rows) ->
  exists t, nth_error (snd (runs U tag_of func sched (m0, map start css))) i = Some t /\
    forall j pick M o form n r, nth_error cs j = Some (CAgree pick M o form n) -> nth_error (th_done t) j = Some r ->
      has_objects U tag_of (CAgree pick M o form n) -> (forall g, In (Some g) (numeral_agreement pick (p_tag form) n) -> can_require (class_of m0) g) ->
      r = rmap VParse (make_agree_with_number pick (in_class (class_of m0) M) form n) \/ r = Err RuntimeError \/ r = Err ValueError.
Proof.
  intros U tag_of func m0 css sched i cs F W KN N RL. destruct (inflect_calls U tag_of func css sched m0 i cs F W) as (t & T & K); [|exact N|].
  - intros cs0 c H1 H2. destruct c; try exact I. exact (RL _ _ _ _ H1 H2).
  - exists t. split; [exact T|]. intros j pick M o form n r X Y HO KR. exact (K j _ r X Y HO KN KR).
Qed.
Print Assumptions C28_agree_never_wrong.
(** this is so when the same dictionary is loaded again, if its grammemes form a tree of at most three levels, as those of OpenCorpora do *)
Theorem C28_reloads : forall C rows adds, NoDup (map g_name rows) -> three_levels rows -> reloads (created C [(rows, adds)]) rows.
Proof. exact loaded_reloads. Qed.
Print Assumptions C28_reloads.
(** otherwise the answer can be a mixture: a schedule in which inflect() returns neither the form it returns before the other dictionary is
    loaded nor the form it returns afterwards *)
Definition other_rows : list grow := [gr "POST" "" "ЧР"; gr "NOUN" "POST" "СУЩ"; gr "plur" "POST" "мн"; gr "ANim" "" "Од"; gr "anim" "ANim" "од"; gr "datv" "ANim" "дт"].
Definition one_parse (w : string) : parse := nth 0 (get_ok [] (morph_parse demo (u w))) (MkParse [] (ex_tag 0) [] (QArith_base.Qmake 0 1) []).
Definition demo_kotam : parse := Eval vm_compute in one_parse "котам".
Definition demo_init : parse := Eval vm_compute in nth 6 (get_ok [] (morph_parse demo (u "А"))) (MkParse [] (ex_tag 0) [] (QArith_base.Qmake 0 1) []).
Lemma source_mem : forall M (t : tag), existsb (fun x => str_eqb (t_str x) (t_str t) && list_eqb str_eqb (t_gr x) (t_gr t)) (d_gramtab (m_dict M)) = true -> tag_source M t.
Proof. intros M t H. apply existsb_exists in H as (x & I & E). left. apply andb_prop in E as [A B]. apply str_eqb_eq in A. apply strs_eqb_eq in B. destruct x, t. cbn in *. subst. exact I. Qed.
Lemma source_unit : forall M (t : tag), existsb (fun bt : bunit * bool => existsb (fun x => str_eqb (t_str x) (t_str t) && list_eqb str_eqb (t_gr x) (t_gr t)) (b_tags (fst bt) ++ b_masc (fst bt) ++ b_femn (fst bt))) (m_units M) = true -> tag_source M t.
Proof.
  intros M t H. apply existsb_exists in H as ([b tm] & J & E). apply existsb_exists in E as (x & I & E). right. exists b, tm. split; [exact J|]. apply andb_prop in E as [A B]. apply str_eqb_eq in A. apply strs_eqb_eq in B. destruct x, t. cbn in *. subst. exact I.
Qed.
Lemma kotam_source : tag_source demo (p_tag demo_kotam). Proof. apply source_mem. vm_compute. reflexivity. Qed.
Lemma init_source : tag_source demo (p_tag demo_init). Proof. apply source_unit. vm_compute. reflexivity. Qed.
Theorem C28_inflect_mixture_refuted : exists U tag_of func m0 M o form req rows tags adds sched before after mixed, fresh m0 /\ wf m0 /\ has_objects U tag_of (CInflect M o form req) /\ tags_known rows tags /\
  let q := CInflect M o form req in
  pure U tag_of func (class_of m0) q = Ok (VParse (Some before)) /\ pure U tag_of func (created (class_of m0) [(rows, adds)]) q = Ok (VParse (Some after)) /\
  map th_done (snd (runs U tag_of func sched (m0, map start [[q]; [CMorph rows tags adds]]))) = [[Ok (VParse (Some mixed))]; [Ok VUnit]] /\
  p_word mixed <> p_word before /\ p_word mixed <> p_word after.
Proof.
  pose (q := CInflect demo demo_object demo_kotam [u "NOUN"; u "anim"]). pose (w := fun x : parse => p_word x).
  pose (get := fun r : res val => match r with Ok (VParse (Some p)) => p | _ => demo_kotam end).
  exists uni_cyr, demo_tag_of, ex_func, (in_state demo_class), demo, demo_object, demo_kotam, [u "NOUN"; u "anim"], other_rows, [], [], (repeat 1 43 ++ repeat 0 3000 ++ repeat 1 50).
  exists (get (pure uni_cyr demo_tag_of ex_func demo_class q)), (get (pure uni_cyr demo_tag_of ex_func (created demo_class [(other_rows, [])]) q)), (one_parse "коту").
  split; [apply in_state_ok|]. split; [apply in_state_ok|]. split; [split; [exact demo_its|exact kotam_source]|]. split; [intros s g []|]. cbv zeta. repeat split; try (vm_compute; reflexivity); vm_compute; discriminate.
Qed.
Print Assumptions C28_inflect_mixture_refuted.
(** and the race for the set of known grammemes reaches lexeme: the forms of an abbreviated first name are the same before and after the same
    dictionary is loaded again, in between RuntimeError or ValueError is raised *)
Theorem C28_lexeme_race_refuted : exists U tag_of func m0 M o word parses n form rows tags adds ps, fresh m0 /\ wf m0 /\ has_objects U tag_of (CLexeme M o form) /\ morph_parse M word = Ok parses /\ nth_error parses n = Some form /\
  let q := CLexeme M o form in let after := created (class_of m0) [(rows, adds)] in
  pure U tag_of func (class_of m0) q = Ok (VParses ps) /\ ps <> [] /\ pure U tag_of func after q = Ok (VParses ps) /\
  forall e, In e [RuntimeError; ValueError] -> exists sched,
    let fin := runs U tag_of func sched (m0, map start [[q]; [CMorph rows tags adds]]) in
    map th_done (snd fin) = [[Err e]; [Ok VUnit]] /\ class_of (fst fin) = after.
Proof.
  exists uni_cyr, demo_tag_of, ex_func, (in_state demo_class), demo, demo_object, (u "А"), (get_ok [] (morph_parse demo (u "А"))), 6, demo_init, demo_rows, (x_gramtab demo_compiled), ex_adds, (get_ok [] (get_lexeme demo demo_init)).
  split; [apply in_state_ok|]. split; [apply in_state_ok|]. split; [split; [exact demo_its|exact init_source]|]. split; [vm_compute; reflexivity|]. split; [vm_compute; reflexivity|].
  cbv zeta. split; [vm_compute; reflexivity|]. split; [vm_compute; discriminate|]. split; [vm_compute; reflexivity|].
  intros e [<-|[<-|[]]].
  - exists ([1; 1] ++ repeat 0 200 ++ repeat 1 2000). split; vm_compute; reflexivity.
  - exists (repeat 1 6 ++ repeat 0 200 ++ repeat 1 2000). split; vm_compute; reflexivity.
Qed.
Print Assumptions C28_lexeme_race_refuted.
Lemma demo_three_levels : NoDup (map g_name demo_rows) /\ three_levels demo_rows.
Proof.
  assert (X : nodup_strs (map g_name demo_rows) = true) by (vm_compute; reflexivity).
  assert (Y : forallb (fun r1 => match g_parent r1 with None => true | Some p1 => forallb (fun r2 => negb (str_eqb (g_name r2) p1) || match g_parent r2 with None => true | Some p2 => forallb (fun r3 => negb (str_eqb (g_name r3) p2) || match g_parent r3 with None => true | _ => false end) demo_rows end) demo_rows end) demo_rows = true) by (vm_compute; reflexivity).
  revert X Y. generalize demo_rows. intros rows X Y. split; [apply nodup_strs_ok; exact X|].
  intros r1 r2 r3 I1 I2 I3 E1 E2. rewrite forallb_forall in Y. specialize (Y r1 I1). rewrite E1 in Y. rewrite forallb_forall in Y. specialize (Y r2 I2). rewrite (proj2 (str_eqb_eq _ _) eq_refl), E2 in Y. cbn [negb orb] in Y. rewrite forallb_forall in Y. specialize (Y r3 I3). rewrite (proj2 (str_eqb_eq _ _) eq_refl) in Y. destruct (g_parent r3); [discriminate Y|reflexivity].
Qed.
(** the class of the analyzer above, and the same dictionary again *)
Lemma demo_reloads : reloads (class_of (in_state demo_class)) demo_rows.
Proof.
  assert (T : same_tables demo_class (created tc_initial [(demo_rows, [])])) by (apply equal_tables; vm_compute; reflexivity).
  destruct demo_three_levels as (ND & TL). split; [exact ND|]. change (same_tables (init_grammemes demo_class demo_rows) demo_class).
  apply (same_trans _ (init_grammemes (created tc_initial [(demo_rows, [])]) demo_rows)); [exact (init_same _ _ _ T)|]. exact (same_trans _ _ _ (proj2 (loaded_reloads tc_initial demo_rows [] ND TL)) (same_sym _ _ T)).
Qed.
(** all of them at once, without and with other threads that create analyzers *)
Notation lexeme_calls := [[CLexeme demo demo_object demo_init; CInflect demo demo_object demo_kotam [u "sing"; u "gen2"]]; [CNormalized demo demo_object demo_kotam; CInflect demo demo_object demo_kotam [u "sing"]]].
Example C27_lexeme_case : (forall cs c, In cs lexeme_calls -> In c cs -> ~ creates c /\ has_objects uni_cyr demo_tag_of c) /\
  let s := runs uni_cyr demo_tag_of ex_func (flat_map (fun _ => [0; 1; 1; 0]) (repeat 0 400)) (in_state demo_class, map start lexeme_calls) in
  map (fun t => map (fun r => match r with Ok (VParses l) => map (fun p => (p_word p, t_str (p_tag p))) l | Ok (VParse (Some p)) => [(p_word p, t_str (p_tag p))] | _ => [] end) (th_done t)) (snd s) =
    [ [ map (fun c => (u "а", u "NOUN,anim,femn,Sgtm,Name,Fixd,Abbr,Init sing," ++ u c)) ["nomn"; "gent"; "datv"; "accs"; "ablt"; "loct"]%string; [(u "кота", u "NOUN,anim,masc sing,gent")] ];
      [ [(u "кот", u "NOUN,anim,masc sing,nomn")]; [(u "коту", u "NOUN,anim,masc sing,datv")] ] ].
Proof.
  split; [|vm_compute; reflexivity]. intros cs c I1 H. cbn [In] in I1. destruct I1 as [<-|[<-|[]]]; cbn [In] in H; decompose [or] H; clear H; try contradiction; subst c; (split; [intros []|]); (split; [exact demo_its|]); first [exact init_source | exact kotam_source].
Qed.
Example C28_lexeme_case : fresh (in_state demo_class) /\ wf (in_state demo_class) /\ knows (class_of (in_state demo_class)) masc_grammeme /\ reloads (class_of (in_state demo_class)) demo_rows /\
  (forall g, In g [u "sing"; u "gen2"] -> can_require (class_of (in_state demo_class)) g) /\
  let s := runs uni_cyr demo_tag_of ex_func (repeat 2 220 ++ repeat 0 1000 ++ repeat 2 10 ++ repeat 1 1000 ++ repeat 2 2000) (in_state demo_class, map start (lexeme_calls ++ [[CMorph demo_rows (x_gramtab demo_compiled) ex_adds]])) in
  map (fun t => map (fun r => match r with Ok (VParses l) => map (fun p => p_word p) l | Ok (VParse (Some p)) => [p_word p] | Ok VUnit => [] | _ => [u "error"] end) (th_done t)) (snd s) =
    [ [ repeat (u "а") 6; [u "кота"] ]; [ [u "кот"]; [u "коту"] ]; [ [] ] ].
Proof.
  split; [apply in_state_ok|]. split; [apply in_state_ok|]. split; [|split; [exact demo_reloads|split; [|vm_compute; reflexivity]]].
  - assert (X : ssub masc_grammeme (tc_known demo_class) = true) by (vm_compute; reflexivity). intros g J. exact (proj1 (ssub_incl _ _) X g J).
  - assert (X : ssub (map u ["sing"; "gen2"; "gent"]%string) (tc_known demo_class) = true) by (vm_compute; reflexivity). intros g [<-|[<-|[]]]; split; refine (proj1 (ssub_incl _ _) X _ _); vm_compute; auto.
Qed.
(** normal_forms() and make_agree_with_number() among them *)
Definition first_of (s : sset) : option str := match s with [] => None | g :: _ => Some g end.
Definition more_calls : list (list call) := [[CNormalForms demo demo_object (u "по-красному"); CAgree first_of demo demo_object demo_kotam 21%Z]; [CAgree first_of demo demo_object demo_kotam 5%Z; CNormalForms demo demo_object (u "котам")]].
Lemma agree_requires : forall n g, n = 5%Z \/ n = 21%Z -> In (Some g) (numeral_agreement first_of (p_tag demo_kotam) n) -> can_require (class_of (in_state demo_class)) g.
Proof.
  assert (X : ssub (map u ["sing"; "plur"; "datv"]%string) (tc_known demo_class) = true) by (vm_compute; reflexivity).
  intros n g [-> | ->] J; vm_compute in J; repeat destruct J as [J|J]; try (destruct J; fail); injection J as J; subst g; split; refine (proj1 (ssub_incl _ _) X _ _); vm_compute; auto.
Qed.
Example C27_more_case : (forall cs c, In cs more_calls -> In c cs -> ~ creates c /\ has_objects uni_cyr demo_tag_of c) /\
  (forall n g, n = 5%Z \/ n = 21%Z -> In (Some g) (numeral_agreement first_of (p_tag demo_kotam) n) -> can_require (class_of (in_state demo_class)) g) /\
  let show := fun s : mem * list thread => map (fun t => map (fun r => match r with Ok (VStrs l) => l | Ok (VParse (Some p)) => [p_word p] | Ok VUnit => [] | _ => [u "error"] end) (th_done t)) (snd s) in
  show (runs uni_cyr demo_tag_of ex_func (flat_map (fun _ => [0; 1; 1; 0]) (repeat 0 500)) (in_state demo_class, map start more_calls)) =
    [ [ [u "по-красному"]; [u "коту"] ]; [ [u "котам"]; [u "кот"] ] ] /\
  show (runs uni_cyr demo_tag_of ex_func (repeat 2 220 ++ repeat 1 1000 ++ repeat 2 10 ++ repeat 0 1000 ++ repeat 2 2000) (in_state demo_class, map start (more_calls ++ [[CMorph demo_rows (x_gramtab demo_compiled) ex_adds]]))) =
    [ [ [u "по-красному"]; [u "коту"] ]; [ [u "котам"]; [u "кот"] ]; [ [] ] ].
Proof.
  split; [|split; [exact agree_requires|cbv zeta; split; vm_compute; reflexivity]]. intros cs c I1 H. cbn [In more_calls] in I1. destruct I1 as [<-|[<-|[]]]; cbn [In] in H; decompose [or] H; clear H; try contradiction; subst c; (split; [intros []|]); first [exact demo_its | split; [exact demo_its|exact kotam_source]].
Qed.
