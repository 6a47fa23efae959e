(** * C68: dictionaries in the format 'opencorpora-ext' (Cyrillic grammeme names) *)
From Coq Require Import String List NArith ZArith Bool QArith.
From Verif Require Import Py Uni Tagset Dawg Dict Units Analyzer ConfigRu Compile Json Storage Convert CyrTags Spec Spec18 Ex L_Base L_Tagset L_ExS L_ExT L_CyrTags2 L_CyrTags3 P_Reinit.
Import ListNotations.
Local Open Scope nat_scope.
Local Open Scope list_scope.

(** Saving writes gramtab-opencorpora-ext.json: it can be read back, and lists for each tag of the dictionary exactly what
    Tag.lat2cyr gives (the Cyrillic class had only seen grammemes of this table before). *)
Theorem C68_gramtab : forall U io big K rows x info K' ops d, save_full io big K rows x info = (K', (ops, Ok tt)) ->
  u_space U (chr " ") = true -> u_space U (chr ",") = false -> NoDup (map g_name rows) -> separable rows -> (forall r, In r rows -> plain U (g_name r)) ->
  NoDup (map fst (y_alias (snd K))) -> (forall k, In k (map fst (y_alias (snd K))) -> In k (map g_name rows)) ->
  (forall t, In t (x_gramtab x) -> table_text rows t) ->
  (let* j := read_json (frun ops d) (u "gramtab-opencorpora-ext.json") in as_strs j) = Ok (map (lat2cyr U (fst K')) (x_gramtab x)).
Proof. exact ext_saved. Qed.
Print Assumptions C68_gramtab.

(** deciding the hypotheses for concrete tables *)
Fixpoint occursb (x s : str) : bool := prefixb x s || match s with [] => false | _ :: r => occursb x r end.
Lemma occursb_ok : forall x s, occurs x s -> occursb x s = true.
Proof.
  intros x s (a & b & ->). induction a as [|c a IH]; cbn [app].
  - assert (P : prefixb x (x ++ b) = true) by (apply prefixb_spec; exists b; reflexivity). destruct (x ++ b); cbn [occursb]; rewrite P; reflexivity.
  - cbn [occursb]. rewrite IH. apply orb_true_r.
Qed.
Definition hasb (c : char) (s : str) : bool := existsb (fun d => (d =? c)%N) s.
Lemma hasb_no : forall c s, hasb c s = false -> ~ In c s.
Proof. intros c s H I. assert (E : hasb c s = true) by (apply existsb_exists; exists c; split; [exact I|apply N.eqb_refl]). congruence. Qed.
Definition separable_b (rows : list grow) : bool :=
  forallb (fun r => match g_name r, g_alias r with [], _ => false | _, [] => false | n, _ => negb (hasb (chr ",") n) && negb (hasb (chr " ") n) end) rows &&
  forallb (fun r => forallb (fun r' => (negb (occursb (g_name r) (g_name r')) || str_eqb (g_name r) (g_name r')) && negb (occursb (g_name r) (g_alias r'))) rows) rows.
Lemma separable_ok : forall rows, separable_b rows = true -> separable rows.
Proof.
  intros rows H. apply andb_true_iff in H as [A B]. rewrite forallb_forall in A, B. split.
  - intros r I. specialize (A r I). destruct (g_name r) as [|c n] eqn:N; [discriminate A|]. destruct (g_alias r) eqn:Al; [discriminate A|]. apply andb_true_iff in A as [A1 A2].
    split; [discriminate|]. split; [discriminate|]. split; apply hasb_no; apply negb_true_iff; assumption.
  - intros r r' I I'. specialize (B r I). rewrite forallb_forall in B. specialize (B r' I'). apply andb_true_iff in B as [B1 B2]. split.
    + intros O. apply occursb_ok in O. rewrite O in B1. apply str_eqb_eq. exact B1.
    + intros O. apply occursb_ok in O. rewrite O in B2. discriminate B2.
Qed.
Definition text_groups (s : str) : list (list str) := map (split_on (chr ",")) (split_on (chr " ") s).
Definition table_text_b (rows : list grow) (s : str) : bool := forallb (forallb (fun g => smem g (map g_name rows))) (text_groups s).

Lemma text_groups_ok : forall rows s, table_text_b rows s = true -> s = join (u " ") (map (join (u ",")) (text_groups s)) /\
  forall l, In l (text_groups s) -> l <> [] /\ forall g, In g l -> In g (map g_name rows).
Proof.
  intros rows s H. split.
  - unfold text_groups. rewrite map_map. change (u ",") with [chr ","]. change (u " ") with [chr " "]. rewrite (map_ext _ (fun x => x)) by (intros x; apply join_split). rewrite map_id. symmetry. apply join_split.
  - intros l I. unfold table_text_b in H. rewrite forallb_forall in H. specialize (H l I). rewrite forallb_forall in H. split; [|intros g Ig; apply smem_In, H, Ig].
    unfold text_groups in I. apply in_map_iff in I as (x & <- & _). apply split_on_nonempty.
Qed.
Lemma table_text_ok : forall rows l, forallb (table_text_b rows) l = true -> forall t, In t l -> table_text rows t.
Proof. intros rows l H t I. rewrite forallb_forall in H. exists (text_groups t). apply text_groups_ok. exact (H t I). Qed.
Lemma all_plain : forall U rows, forallb (fun r => plainb U (g_name r)) rows = true -> forall r, In r rows -> plain U (g_name r).
Proof. intros U rows H r I. rewrite forallb_forall in H. apply plainb_ok. exact (H r I). Qed.
Lemma run_eq : forall {A B} (p : A * (B * res unit)), snd (snd p) = Ok tt -> p = (fst p, (fst (snd p), Ok tt)).
Proof. intros A B [a [b r]] H. cbn [fst snd] in *. rewrite H. reflexivity. Qed.
Definition strs_eqb (r : res (list str)) (l : list str) : bool := match r with Ok m => list_eqb str_eqb m l | Err _ => false end.
Lemma strs_neq : forall r l, strs_eqb r l = false -> r <> Ok l.
Proof.
  intros r l H ->. cbn [strs_eqb] in H. assert (E : list_eqb str_eqb l l = true) by (apply (list_eqb_spec str_eqb str_eqb_eq); reflexivity). congruence.
Qed.

(** After another dictionary has been saved in the same process this fails: names of the other table are replaced too. *)
Definition c68_small : compiled := MkCompiled [u "NOUN,inan"] [] [] [] [] (MkOpt 1 1 3 []).
Definition c68_rows : list grow := [gr "NOUN" "" "СУЩ"; gr "inan" "" "неод"].
Definition c68_first : classes * saving := save_full io_json false (tc_initial, cyr_initial) [gr "in" "" "предл"] c68_small demo_info.
Definition c68_second : classes * saving := save_full io_json false (fst c68_first) c68_rows c68_small demo_info.
Theorem C68_history_refuted : exists U io rows0 x0 rows x info K0 K' ops0 ops,
  u_space U (chr " ") = true /\ u_space U (chr ",") = false /\ NoDup (map g_name rows) /\ separable rows /\ (forall r, In r rows -> plain U (g_name r)) /\
  (forall t, In t (x_gramtab x) -> table_text rows t) /\
  save_full io false (tc_initial, cyr_initial) rows0 x0 info = (K0, (ops0, Ok tt)) /\
  save_full io false K0 rows x info = (K', (ops, Ok tt)) /\
  (let* j := read_json (frun ops []) (u "gramtab-opencorpora-ext.json") in as_strs j) <> Ok (map (lat2cyr U (fst K')) (x_gramtab x)).
Proof.
  exists uni_cyr, io_json, [gr "in" "" "предл"], c68_small, c68_rows, c68_small, demo_info, (fst c68_first), (fst c68_second), (fst (snd c68_first)), (fst (snd c68_second)).
  split; [reflexivity|]. split; [reflexivity|]. split; [apply nodup_b; vm_compute; reflexivity|]. split; [apply separable_ok; vm_compute; reflexivity|].
  split; [apply all_plain; vm_compute; reflexivity|]. split; [apply table_text_ok; vm_compute; reflexivity|].
  split; [apply run_eq; vm_compute; reflexivity|]. split; [apply run_eq; vm_compute; reflexivity|]. apply strs_neq. vm_compute. reflexivity.
Qed.
Print Assumptions C68_history_refuted.

(** A dictionary saved by pymorphy2 cannot be loaded in this format: as soon as one grammeme of one tag has a Cyrillic name that
    is not itself the name of a grammeme, load_dict raises ValueError, whatever happened in the loading process before. *)
Theorem C68_not_loadable : forall io big K0 rows x info K' ops d K t r, save_full io big K0 rows x info = (K', (ops, Ok tt)) ->
  NoDup (map g_name rows) -> separable rows ->
  NoDup (map fst (y_alias (snd K0))) -> (forall k, In k (map fst (y_alias (snd K0))) -> In k (map g_name rows)) ->
  (forall r, In r rows -> ~ In (chr ",") (g_alias r) /\ ~ In (chr " ") (g_alias r)) ->
  In t (x_gramtab x) -> In r rows -> table_text_with rows (g_name r) t -> ~ In (g_alias r) (map g_name rows) ->
  snd (load_dict_ext io big (frun ops d) K) = Err ValueError.
Proof. exact ext_unloadable. Qed.
Print Assumptions C68_not_loadable.

(** Trying to load one (whatever is in the folder, and whether or not it succeeds) does not change what existing analyzers answer to
    parse, tag, lexeme and normal form; nor inflect(), if the Cyrillic class has already been initialised once. *)
Theorem C68_bystander : forall io big d K M, m_tc M = fst K ->
  let M' := in_state M (fst (fst (load_dict_ext io big d K))) in
  (forall word, morph_parse M' word = morph_parse M word /\ morph_tag M' word = morph_tag M word) /\
  (forall p, get_lexeme M' p = get_lexeme M p /\ normalized M' p = normalized M p) /\
  (y_own (snd K) <> None -> forall p req, inflect M' p req = inflect M p req).
Proof. exact ext_parses. Qed.
Print Assumptions C68_bystander.

(** The first time it can change inflect() of an existing analyzer, because the tables of incompatible grammemes are still shared:
    here the other dictionary declares 'plur' as a case. *)
Definition c68_other : list grow := [gr "CAse" "" "Падеж"; gr "nomn" "CAse" "им"; gr "datv" "CAse" "дт"; gr "plur" "CAse" "мн"].
Definition c68_folder : folder := frun (fst (snd (save_full io_json false (tc_initial, cyr_initial) c68_other c68_small demo_info))) [].
Definition c68_after : tagclass := fst (fst (load_dict_ext io_json false c68_folder (m_tc demo, cyr_initial))).
Definition word_of (r : res (option parse)) : str := match r with Ok (Some p) => p_word p | _ => [] end.
Theorem C68_bystander_refuted : exists C1 M d p req r r',
  construct uni_cyr false tc_initial demo_rows (x_gramtab demo_compiled) demo_dict None e_yo RU_DEFAULT_UNITS = Ok (C1, M) /\
  morph_parse M (u "коту") = Ok [p] /\
  inflect M p req = Ok (Some r) /\ p_word r = u "котам" /\
  inflect (in_state M (fst (fst (load_dict_ext io_json false d (C1, cyr_initial))))) p req = Ok (Some r') /\ p_word r' = u "коты".
Proof.
  exists (m_tc demo), demo, c68_folder. eexists. exists [u "plur"]. eexists. eexists. split; [exact demo_eq'|]. split; [vm_compute; reflexivity|].
  split; [vm_compute; reflexivity|]. split; [reflexivity|]. split; [vm_compute; reflexivity|]. reflexivity.
Qed.
Print Assumptions C68_bystander_refuted.

(** What is_productive() of a tag of the Cyrillic class goes by: the Cyrillic names of the non-productive grammemes (for those of them
    that are in the table), although the tag itself can only be built from the Latin names. *)
Theorem C68_productive : forall C Y rows t, y_alias Y = [] -> NoDup (map g_name rows) ->
  (cyr_is_productive (snd (cyr_init_grammemes (C, Y) rows)) t = false <->
   exists n g, In n (y_nonprod Y) /\ In g (t_gr t) /\
     ((exists r, In r rows /\ g_name r = n /\ g = g_alias r) \/ (~ In n (map g_name rows) /\ g = n))).
Proof. exact cyr_productive_iff. Qed.
Print Assumptions C68_productive.

(** updated_grammemes() of such a tag with grammemes of the table (known are only the Latin names) removes nothing: the tables of
    incompatible grammemes are kept under the Cyrillic names. *)
Theorem C68_updated : forall C Y rows t req, y_alias Y = [] -> NoDup (map g_name rows) ->
  (forall k, In k (map fst (tc_incompat (cyr_view (C, Y)))) -> In k (map g_name rows)) ->
  (forall r, In r rows -> ~ In (g_alias r) (map g_name rows)) -> (forall g, In g req -> In g (map g_name rows)) ->
  cyr_updated (cyr_init_grammemes (C, Y) rows) t req = Ok (sunion (t_gr t) req).
Proof. exact cyr_updated_all. Qed.
Print Assumptions C68_updated.

(** So the two classes answer differently about the same tag text. *)
Theorem C68_classes_refuted : exists rows s t s' t' req g, 
  let K := init_grammemes_of (cyr_init_grammemes (tc_initial, cyr_initial) rows) rows in
  mk_tag (fst K) s = Ok t /\ mk_tag (cyr_view K) s = Ok t /\ is_productive t = false /\ cyr_is_productive (snd K) t = true /\
  mk_tag (fst K) s' = Ok t' /\ mk_tag (cyr_view K) s' = Ok t' /\
  (exists a, updated_grammemes (fst K) t' req = Ok a /\ ~ In g a) /\ (exists b, cyr_updated K t' req = Ok b /\ In g b).
Proof.
  exists demo_rows, (u "PREP"). eexists. exists (u "NOUN,anim,masc sing,nomn"). eexists. exists [u "plur"], (u "sing"). cbv zeta.
  split; [vm_compute; reflexivity|]. split; [vm_compute; reflexivity|]. split; [vm_compute; reflexivity|]. split; [vm_compute; reflexivity|].
  split; [vm_compute; reflexivity|]. split; [vm_compute; reflexivity|]. split.
  - eexists. split; [vm_compute; reflexivity|]. intros H. apply smem_In in H. vm_compute in H. discriminate H.
  - eexists. split; [vm_compute; reflexivity|]. apply smem_In. vm_compute. reflexivity.
Qed.
Print Assumptions C68_classes_refuted.
Lemma no_latin_alias : forall rows, forallb (fun r => negb (smem (g_alias r) (map g_name rows))) rows = true -> forall r, In r rows -> ~ In (g_alias r) (map g_name rows).
Proof. intros rows H r I J. rewrite forallb_forall in H. specialize (H r I). apply smem_In in J. rewrite J in H. discriminate H. Qed.
Example C68_class_case : y_alias cyr_initial = [] /\ NoDup (map g_name demo_rows) /\ tc_incompat (cyr_view (tc_initial, cyr_initial)) = [] /\
  (forall r, In r demo_rows -> ~ In (g_alias r) (map g_name demo_rows)) /\
  smem (u "PREP") (y_nonprod cyr_initial) = true /\ cyr_is_productive (snd (cyr_init_grammemes (tc_initial, cyr_initial) demo_rows)) (MkTag (u "ПР") [u "ПР"]) = false /\
  cyr_is_productive (snd (cyr_init_grammemes (tc_initial, cyr_initial) demo_rows)) (MkTag (u "INTJ") [u "INTJ"]) = smem (u "INTJ") (map g_name demo_rows).
Proof.
  split; [reflexivity|]. split; [apply nodup_b; vm_compute; reflexivity|]. split; [reflexivity|]. split; [apply no_latin_alias; vm_compute; reflexivity|].
  split; [vm_compute; reflexivity|]. split; vm_compute; reflexivity.
Qed.

(** the demonstration dictionary, saved in a fresh process *)
Definition c68_saved : classes * saving := save_full io_json false (tc_initial, cyr_initial) demo_rows demo_compiled demo_info.
Lemma no_sep_alias : forall rows, forallb (fun r => negb (hasb (chr ",") (g_alias r)) && negb (hasb (chr " ") (g_alias r))) rows = true ->
  forall r, In r rows -> ~ In (chr ",") (g_alias r) /\ ~ In (chr " ") (g_alias r).
Proof. intros rows H r I. rewrite forallb_forall in H. specialize (H r I). apply andb_true_iff in H as [A B]. split; apply hasb_no, negb_true_iff; assumption. Qed.
Lemma c68_tag : In (u "NOUN,anim,masc sing,nomn") (x_gramtab demo_compiled).
Proof.
  assert (S : smem (u "NOUN,anim,masc sing,nomn") (x_gramtab demo_compiled) = true) by (vm_compute; reflexivity). exact (proj1 (smem_In _ _) S).
Qed.
Example C68_case :
  c68_saved = (fst c68_saved, (fst (snd c68_saved), Ok tt)) /\
  u_space uni_cyr (chr " ") = true /\ u_space uni_cyr (chr ",") = false /\ NoDup (map g_name demo_rows) /\ separable demo_rows /\
  (forall r, In r demo_rows -> plain uni_cyr (g_name r)) /\ NoDup (map fst (y_alias cyr_initial)) /\
  (forall k, In k (map fst (y_alias cyr_initial)) -> In k (map g_name demo_rows)) /\
  (forall t, In t (x_gramtab demo_compiled) -> table_text demo_rows t) /\
  (forall r, In r demo_rows -> ~ In (chr ",") (g_alias r) /\ ~ In (chr " ") (g_alias r)) /\
  (In (u "NOUN,anim,masc sing,nomn") (x_gramtab demo_compiled) /\ In (gr "anim" "ANim" "од") demo_rows /\
   table_text_with demo_rows (u "anim") (u "NOUN,anim,masc sing,nomn") /\ ~ In (u "од") (map g_name demo_rows)) /\
  lat2cyr uni_cyr (fst (fst c68_saved)) (u "NOUN,anim,masc sing,nomn") = u "СУЩ,од,мр ед,им" /\
  y_own (snd (fst c68_saved)) <> None.
Proof.
  split; [apply run_eq; vm_compute; reflexivity|]. split; [reflexivity|]. split; [reflexivity|]. split; [apply nodup_b; vm_compute; reflexivity|].
  split; [apply separable_ok; vm_compute; reflexivity|]. split; [apply all_plain; vm_compute; reflexivity|]. split; [constructor|]. split; [intros k []|].
  split; [apply table_text_ok; vm_compute; reflexivity|]. split; [apply no_sep_alias; vm_compute; reflexivity|]. split.
  - split; [exact c68_tag|]. split; [do 9 right; left; reflexivity|]. split.
    + exists (text_groups (u "NOUN,anim,masc sing,nomn")), [u "NOUN"; u "anim"; u "masc"].
      destruct (text_groups_ok demo_rows (u "NOUN,anim,masc sing,nomn")) as [A B]; [vm_compute; reflexivity|]. split; [exact A|]. split; [exact B|]. split; [left; vm_compute; reflexivity|right; left; reflexivity].
    + intros H. apply smem_In in H. vm_compute in H. discriminate H.
  - split; [vm_compute; reflexivity|]. intros H. vm_compute in H. discriminate H.
Qed.
