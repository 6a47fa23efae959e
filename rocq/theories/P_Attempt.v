(** * C87: creating analyzers, successfully or not, and the shared tag class *)
From Coq Require Import String List NArith ZArith Bool QArith.
From Verif Require Import Py Uni Tagset Dawg Utils Shapes Dict Units Analyzer ConfigRu ConfigUk Json Storage Create Attempt Spec Spec9 Spec18 Spec37 Ex.
From Verif Require Import L_Base L_ExS L_ExW L_Attempt L_Attempt2 P_Reinit.
Import ListNotations.
Local Open Scope nat_scope.
Local Open Scope list_scope.

(** MorphAnalyzer(...), called when the shared tag class is in any state [C], either leaves the class alone and raises, or the class
    knows afterwards exactly the grammemes of the table in the selected folder and those of the units bound before the exception (of
    all units, if there was none): nothing of what was known before remains. *)
Theorem C87_known : forall W C a ws C' r, attempt W C a = (ws, C', r) -> (C' = C /\ exists e, r = Err e) \/
  exists rows fin, its_table W a rows /\ (forall g, In g (tc_known C') <-> In g (map g_name rows) \/ exists c, In c fin /\ unit_adds c g) /\
    (forall z, r = Ok z -> fin = items_units (z_units z)) /\ (fin = [] \/ exists items more, asked_units a items /\ items_units items = fin ++ more).
Proof. exact attempt_known. Qed.
Print Assumptions C87_known.

(** The warnings, the exception or the analyzer do not depend on the state in which earlier calls left the class. *)
Theorem C87_independent : forall W C D a, fst (fst (attempt W D a)) = fst (fst (attempt W C a)) /\ same_outcome (snd (attempt W C a)) (snd (attempt W D a)).
Proof. exact attempt_independent. Qed.
Print Assumptions C87_independent.

(** However many analyzers are created, or fail to be created, after [M]: its parses, tags, lexemes and normal forms stay, as long as
    the tables of the folders tried have the four grammemes that analysis itself asks for. *)
Theorem C87_existing : forall M l, (forall g, In g (map u ["ADJF"; "sing"; "datv"; "masc"]%string) -> In g (tc_known (m_tc M))) ->
  (forall W a rows, In (W, a) l -> its_table W a rows -> forall g, In g (map u ["ADJF"; "sing"; "datv"; "masc"]%string) -> In g (map g_name rows)) ->
  (forall word, morph_parse (in_state M (attempts (m_tc M) l)) word = morph_parse M word /\ morph_tag (in_state M (attempts (m_tc M) l)) word = morph_tag M word) /\
  (forall p, get_lexeme (in_state M (attempts (m_tc M) l)) p = get_lexeme M p /\ normalized (in_state M (attempts (m_tc M) l)) p = normalized M p).
Proof. exact attempts_existing. Qed.
Print Assumptions C87_existing.

(** ... and inflect(), as long as they all have the table of the first one and no grammeme of a unit is required. *)
Theorem C87_inflect : forall W C0 a ws C1 z rows l p req, attempt W C0 a = (ws, C1, Ok z) -> its_table W a rows ->
  NoDup (map g_name rows) -> ~ In [] (map g_name rows) -> ~ In (Some []) (map g_parent rows) -> shallow rows ->
  (forall k E, sget k (tc_extra C0) = Some E -> ~ In [] E) -> In (u "masc") (map g_name rows) ->
  (forall W' a' rows', In (W', a') l -> its_table W' a' rows' -> rows' = rows) ->
  (forall g c, In g req -> unit_adds c g -> In g (map g_name rows)) ->
  inflect (in_state (z_morph z) (attempts C1 l)) p req = inflect (z_morph z) p req.
Proof. exact attempts_inflect. Qed.
Print Assumptions C87_inflect.

(** The two models of the constructor agree on successes: [create], about which C29 and C56 speak, differs only in that it reads
    max_suffix_length from the metadata even if no KnownSuffixAnalyzer is among the units. *)
Theorem C87_agrees : forall W C a ws C' z,
  (create W C a = (ws, C', Ok z) -> attempt W C a = (ws, C', Ok z)) /\
  (attempt W C a = (ws, C', Ok z) -> create W C a = (ws, C', Ok z) \/
     (~ (exists mult n, In (UKnownSuffix mult n) (items_units (z_units z))) /\
      exists p m e, picks W a p /\ load_meta (w_folder W p) (u "meta.json") = Ok m /\ max_suffix_length m = Err e)).
Proof. intros W C a ws C' z. split; [apply attempt_create|apply create_attempt]. Qed.
Print Assumptions C87_agrees.

(** A failing call is not without effect: MorphAnalyzer(units=[DictionaryAnalyzer(), []]) raises IndexError, and after it
    'UNKN' in tag raises ValueError for the analyzer that was created before, where it answered False. *)
Definition failing : args := MkArgs None None None (Some [One UDict; Group []]) EstAuto SubAuto.
Theorem C87_failed_refuted : exists ws C1 z ws' C2 t, attempt demo_world tc_initial no_args = (ws, C1, Ok z) /\ attempt demo_world C1 failing = (ws', C2, Err IndexError) /\
  (exists w p ps, morph_parse (z_morph z) w = Ok (p :: ps) /\ t = p_tag p) /\ contains C1 (u "UNKN") t = Ok false /\ contains C2 (u "UNKN") t = Err ValueError.
Proof.
  pose (x := attempt demo_world (tc_of no_args) failing).
  assert (E : match snd x with Err IndexError => true | _ => false end = true) by (vm_compute; reflexivity).
  assert (F : match morph_parse (z_morph (z_of no_args)) (u "коту") with Ok (p :: _) => match contains (tc_of no_args) (u "UNKN") (p_tag p), contains (state_after x) (u "UNKN") (p_tag p) with Ok false, Err ValueError => true | _, _ => false end | _ => false end = true) by (vm_compute; reflexivity).
  destruct (morph_parse (z_morph (z_of no_args)) (u "коту")) as [[|p ps]|] eqn:P; try discriminate F.
  exists (ws_of no_args), (tc_of no_args), (z_of no_args), (fst (fst x)), (state_after x), (p_tag p).
  split; [exact (attempt_create _ _ _ _ _ _ (z_ok _ ok3))|]. split.
  - change (x = (fst (fst x), snd (fst x), Err IndexError)). destruct x as [[w C] r]. cbn [fst snd] in *. destruct r as [z|e]; [discriminate E|]. destruct e; try discriminate E. reflexivity.
  - split; [exists (u "коту"), p, ps; split; [exact P|reflexivity]|].
    destruct (contains (tc_of no_args) (u "UNKN") (p_tag p)) as [[|]|]; try discriminate F.
    destruct (contains (state_after x) (u "UNKN") (p_tag p)) as [b|e]; [discriminate F|]. destruct e; try discriminate F. split; reflexivity.
Qed.
Print Assumptions C87_failed_refuted.

(** three more calls after the first analyzer: a failing one, one without a folder, a successful one *)
Definition more_calls : list (world * args) := [(demo_world, failing); (demo_world, MkArgs (Some (u "/nowhere")) None None None EstAuto SubAuto); (demo_world, p_args)].
Lemma table_at : forall W a p f, picks W a p -> w_folder W p = f -> forall rows, its_table W a rows <-> (let* j := read_json f (u "grammemes.json") in as_rows j) = Ok rows.
Proof.
  intros W a p f P F rows. unfold its_table. split.
  - intros (q & j & Q & J & R). rewrite (L_Create.picks_fun _ _ _ _ Q P), F in J. rewrite J. exact R.
  - intros H. destruct (read_json f (u "grammemes.json")) as [j|] eqn:J; [|discriminate H]. exists p, j. rewrite F. auto.
Qed.
Lemma ru_picks : forall r us e b, picks demo_world (MkArgs None None r us e b) (u "/dicts/ru").
Proof.
  intros r us e b. eapply picks_package; [reflexivity|reflexivity|reflexivity|]. right. split; [left; discriminate|]. exists [(u "ru", u "/old")], [(u "p", u "/dicts/p")]. split; [reflexivity|]. intros [H|[]]. discriminate H.
Qed.
Lemma ru_table : (let* j := read_json ru_folder (u "grammemes.json") in as_rows j) = Ok demo_rows. Proof. vm_compute. reflexivity. Qed.
Lemma p_table : (let* j := read_json p_folder (u "grammemes.json") in as_rows j) = Ok demo_rows. Proof. vm_compute. reflexivity. Qed.
Lemma no_table : (let* j := read_json [] (u "grammemes.json") in as_rows j) = Err FileError. Proof. vm_compute. reflexivity. Qed.
Lemma ru_at : w_folder demo_world (u "/dicts/ru") = ru_folder. Proof. vm_compute. reflexivity. Qed.
Lemma p_at : w_folder demo_world (u "/dicts/p") = p_folder. Proof. vm_compute. reflexivity. Qed.
Lemma no_at : w_folder demo_world (u "/nowhere") = []. Proof. vm_compute. reflexivity. Qed.
Lemma more_tables : forall W a rows, In (W, a) more_calls -> its_table W a rows -> rows = demo_rows.
Proof.
  assert (O : forall r : list grow, Ok demo_rows = Ok r -> r = demo_rows) by (intros r H; apply Ok_inj in H; symmetry; exact H).
  intros W a rows I T. unfold more_calls in I. destruct I as [E|[E|[E|[]]]]; apply pair_equal_spec in E as [<- <-].
  - apply (table_at demo_world failing (u "/dicts/ru") ru_folder (ru_picks _ _ _ _) ru_at) in T. rewrite ru_table in T. exact (O rows T).
  - apply (table_at demo_world (MkArgs (Some (u "/nowhere")) None None None EstAuto SubAuto) (u "/nowhere") [] (picks_path demo_world (MkArgs (Some (u "/nowhere")) None None None EstAuto SubAuto) (u "/nowhere") eq_refl) no_at) in T. rewrite no_table in T. discriminate T.
  - apply (table_at demo_world p_args (u "/dicts/p") p_folder (picks_path demo_world p_args (u "/dicts/p") eq_refl) p_at) in T. rewrite p_table in T. exact (O rows T).
Qed.
Definition outcome_code (r : res analyzer) : nat := match r with Ok _ => 0 | Err IndexError => 1 | Err FileError => 2 | Err _ => 3 end.
Example C87_case : attempt demo_world tc_initial no_args = (ws_of no_args, tc_of no_args, Ok (z_of no_args)) /\ its_table demo_world no_args demo_rows /\
  (forall W a rows, In (W, a) more_calls -> its_table W a rows -> rows = demo_rows) /\
  map (fun wa => outcome_code (snd (attempt (fst wa) (tc_of no_args) (snd wa)))) more_calls = [1; 2; 0] /\
  forallb (fun g => smem g (map g_name demo_rows) && smem g (tc_known (m_tc (z_morph (z_of no_args))))) (map u ["ADJF"; "sing"; "datv"; "masc"]%string) = true /\
  NoDup (map g_name demo_rows) /\ ~ In [] (map g_name demo_rows) /\ ~ In (Some []) (map g_parent demo_rows) /\ shallow demo_rows /\
  (forall k E, sget k (tc_extra tc_initial) = Some E -> ~ In [] E) /\
  (exists p r, morph_parse (z_morph (z_of no_args)) (u "коту") = Ok [p] /\ inflect (z_morph (z_of no_args)) p [u "plur"; u "gent"] = Ok (Some r) /\ p_word r = u "котов").
Proof.
  split; [exact (attempt_create _ _ _ _ _ _ (z_ok _ ok3))|]. split; [exact (proj2 (table_at demo_world no_args (u "/dicts/ru") ru_folder no_args_picks ru_at demo_rows) ru_table)|].
  split; [exact more_tables|]. split; [vm_compute; reflexivity|]. split; [vm_compute; reflexivity|].
  destruct C67_case as (_ & _ & _ & _ & _ & _ & H1 & H2 & H3 & H4 & H5 & _).
  split; [exact H1|]. split; [exact H2|]. split; [exact H3|]. split; [exact H4|]. split; [exact H5|].
  eexists. eexists. split; [vm_compute; reflexivity|]. split; [vm_compute; reflexivity|]. reflexivity.
Qed.
