(** * Concrete worlds and analyzers *)
From Coq Require Import String List NArith ZArith Bool Lia QArith.
From Verif Require Import Py Uni Tagset Dawg Utils Shapes Dict Units Analyzer ConfigRu ConfigUk Compile Json Storage Create Spec9 Ex.
From Verif Require Import L_Base L_Tagset L_ExS L_Create L_Create2.
Import ListNotations.
Local Open Scope nat_scope.
Local Open Scope list_scope.

(** the compiled demonstration dictionary at /dicts/ru; with a P(t|w) table at /dicts/p *)
Definition ru_folder : folder := Eval vm_compute in frun (fst demo_save) [].
Lemma ru_folder_saved : ru_folder = frun (fst demo_save) []. Proof. vm_compute. reflexivity. Qed.
Definition p_folder : folder := Eval vm_compute in sset_ (u "p_t_given_w.intdawg") [] (frun (fst (update_meta ru_folder (u "meta.json") [(u "P(t|w)", JBool true)])) ru_folder).
Definition demo_world : world :=
  MkWorld None [(u "ru", u "/old"); (u "ru", u "/dicts/ru"); (u "p", u "/dicts/p")] None
    (fun p => if str_eqb p (u "/dicts/ru") then ru_folder else if str_eqb p (u "/dicts/p") then p_folder else []) [u "__name__"]
    io_json false uni_cyr false (fun _ => Ok demo_cpd).
Definition no_args : args := MkArgs None None (Some (u "Parse")) None EstAuto SubAuto.
Definition p_args : args := MkArgs (Some (u "/dicts/p")) None None None EstAuto SubAuto.
Definition plain_args : args := MkArgs (Some (u "/dicts/p")) None None None EstNone (SubGiven []).
Definition null_analyzer : analyzer := MkAnalyzer null_morph JNull None None None [].
Definition z_of (a : args) : analyzer := get_ok null_analyzer (snd (create demo_world tc_initial a)).
Definition okcreate (a : args) : bool := match snd (create demo_world tc_initial a) with Ok _ => true | Err _ => false end.
Definition ws_of (a : args) : list warning := fst (fst (create demo_world tc_initial a)).
Definition tc_of (a : args) : tagclass := snd (fst (create demo_world tc_initial a)).
Lemma okc : forall (r : list warning * tagclass * res analyzer), match snd r with Ok _ => true | Err _ => false end = true ->
  r = (fst (fst r), snd (fst r), Ok (get_ok null_analyzer (snd r))).
Proof. intros [[w C] [z|e]] H; [reflexivity|discriminate H]. Qed.
Lemma z_ok : forall a, okcreate a = true -> create demo_world tc_initial a = (ws_of a, tc_of a, Ok (z_of a)).
Proof. intros a H. exact (okc _ H). Qed.
Lemma ok1 : okcreate plain_args = true. Proof. vm_compute. reflexivity. Qed.
Lemma ok2 : okcreate p_args = true. Proof. vm_compute. reflexivity. Qed.
Lemma ok3 : okcreate no_args = true. Proof. vm_compute. reflexivity. Qed.
Lemma drops : exists W C a ws C' z ws' C'' z', create W C a = (ws, C', Ok z) /\ create W C (reduce z) = (ws', C'', Ok z') /\
  m_prob (z_morph z) = None /\ m_prob (z_morph z') = Some demo_cpd /\ m_subst (z_morph z) = [] /\ m_subst (z_morph z') = [(chr "е", chr "ё")] /\
  word_is_known (z_morph z) (u "елка") false = false /\ word_is_known (z_morph z') (u "елка") false = true.
Proof.
  destruct (unpickle_forgets _ _ _ _ _ _ _ _ _ (z_ok _ ok1) (z_ok p_args ok2)) as (ws' & E).
  exists demo_world, tc_initial, plain_args, (ws_of plain_args), (tc_of plain_args), (z_of plain_args), ws', (tc_of p_args), (z_of p_args).
  split; [exact (z_ok _ ok1)|]. split; [exact E|]. clear E. vm_compute. repeat (split; [reflexivity|]). reflexivity.
Qed.
Lemma no_args_picks : picks demo_world no_args (u "/dicts/ru").
Proof.
  eapply picks_package; [reflexivity|reflexivity|reflexivity|]. right. split; [left; discriminate|]. exists [(u "ru", u "/old")], [(u "p", u "/dicts/p")]. split; [reflexivity|]. intros [H|[]]. discriminate H.
Qed.
Lemma create_case : picks demo_world no_args (u "/dicts/ru") /\
  (exists ws C' z m, create demo_world tc_initial no_args = (ws, C', Ok z) /\ load_meta ru_folder (u "meta.json") = Ok m /\ declares m (JStr (u "ru")) /\ ws = [] /\ z_lang z = JStr (u "ru") /\
     language_units (z_lang z) (z_units z) /\ requested no_args = Some (u "ru") /\ word_is_known (z_morph z) (u "елка") false = true) /\
  (exists ws C' z, create demo_world tc_initial (MkArgs (Some (u "/dicts/ru")) (Some (u "uk")) None None EstAuto SubAuto) = (ws, C', Ok z) /\ ws = [WMismatch (JStr (u "ru")) (u "uk")] /\ m_subst (z_morph z) = [(chr "г", chr "ґ")]) /\
  (exists ws C' z, create demo_world tc_initial (MkArgs (Some (u "/dicts/ru")) (Some (u "be")) None None EstAuto SubAuto) = (ws, C', Ok z) /\
     ws = [WMismatch (JStr (u "ru")) (u "be"); WUnknownLanguage (u "be"); WUnknownLanguage (u "be")]) /\
  create demo_world tc_initial (MkArgs None (Some (u "be")) None None EstAuto SubAuto) = ([], tc_initial, Err ValueError) /\
  create demo_world tc_initial (MkArgs (Some (u "/nowhere")) None None None EstAuto SubAuto) = ([], tc_initial, Err FileError).
Proof.
  split; [exact no_args_picks|]. split; [|split; [|split; [|split]]].
  - exists (ws_of no_args), (tc_of no_args), (z_of no_args). assert (exists m, load_meta ru_folder (u "meta.json") = Ok m /\ declares m (JStr (u "ru"))) as (m & E1 & E2).
    { assert (X : forall r : res meta, match r with Ok m => match sget (u "language_code") m with Some (JStr s) => str_eqb s (u "ru") | _ => false end | Err _ => false end = true -> exists m, r = Ok m /\ declares m (JStr (u "ru"))).
      { intros [m|] H; [|discriminate H]. exists m. split; [reflexivity|]. right. destruct (sget _ m) as [[]|]; try discriminate H. apply str_eqb_eq in H. subst. reflexivity. }
      apply X. vm_compute. reflexivity. }
    exists m. split; [exact (z_ok _ ok3)|]. split; [exact E1|]. split; [exact E2|]. split; [vm_compute; reflexivity|]. split; [vm_compute; reflexivity|]. split; [|split; [reflexivity|vm_compute; reflexivity]].
    destruct (created_defaults _ _ _ _ _ _ (z_ok _ ok3)) as (_ & H & _). apply H. reflexivity.
  - set (a := (MkArgs (Some (u "/dicts/ru")) (Some (u "uk")) None None EstAuto SubAuto)). exists (ws_of a), (tc_of a), (z_of a). split; [apply z_ok; vm_compute; reflexivity|]. split; vm_compute; reflexivity.
  - set (a := (MkArgs (Some (u "/dicts/ru")) (Some (u "be")) None None EstAuto SubAuto)). exists (ws_of a), (tc_of a), (z_of a). split; [apply z_ok; vm_compute; reflexivity|]. vm_compute; reflexivity.
  - vm_compute. reflexivity.
  - vm_compute. reflexivity.
Qed.
Lemma pickle_case : exists ws C' z, create demo_world tc_initial no_args = (ws, C', Ok z) /\ a_est no_args = EstAuto /\ a_sub no_args = SubAuto /\ picks demo_world (reduce z) (u "/dicts/ru") /\
  same_libraries demo_world demo_world /\ word_is_known (z_morph z) (u "елка") false = true.
Proof.
  exists (ws_of no_args), (tc_of no_args), (z_of no_args). split; [exact (z_ok _ ok3)|]. split; [reflexivity|]. split; [reflexivity|]. split; [|split; [constructor; reflexivity|vm_compute; reflexivity]].
  apply (picks_reduce demo_world (z_of no_args) no_args); [vm_compute; reflexivity|vm_compute; reflexivity|exact no_args_picks].
Qed.

Lemma estimator_case : exists ws C' z m, create demo_world tc_initial p_args = (ws, C', Ok z) /\ picks demo_world p_args (u "/dicts/p") /\
  load_meta (w_folder demo_world (u "/dicts/p")) (u "meta.json") = Ok m /\ announces_estimates m /\ m_prob (z_morph z) = Some demo_cpd.
Proof.
  exists (ws_of p_args), (tc_of p_args), (z_of p_args).
  assert (exists m, load_meta (w_folder demo_world (u "/dicts/p")) (u "meta.json") = Ok m /\ announces_estimates m) as (m & E1 & E2).
  { assert (X : forall r : res meta, match r with Ok m => json_true (meta_get (u "P(t|w)") m) | Err _ => false end = true -> exists m, r = Ok m /\ announces_estimates m).
    { intros [m|] H; [|discriminate H]. exists m. split; [reflexivity|]. apply announces_iff. exact H. }
    apply X. vm_compute. reflexivity. }
  exists m. split; [exact (z_ok _ ok2)|]. split; [apply picks_path; reflexivity|]. split; [exact E1|]. split; [exact E2|]. vm_compute. reflexivity.
Qed.
