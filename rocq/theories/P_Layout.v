(** * C92: dictionaries in the layout of format 2.4 *)
From Coq Require Import String List NArith ZArith Bool Lia QArith.
From Verif Require Import Py Uni Tagset Dawg Dict Utils Shapes Units Analyzer ConfigRu ConfigUk Compile Json Storage Create AddProb Spec3 Spec4 Spec5 Spec9 Spec16 Spec40 Ex.
From Verif Require Import L_Base L_Tagset L_Storage L_ExS L_Create L_ExW L_Layout.
Import ListNotations.
Local Open Scope nat_scope.
Local Open Scope list_scope.

(** Two folders that agree except for the place where they state the paradigm prefixes and the longest ending give the same analyzer,
    the same warnings and the same tag class; or the same exception. *)
Theorem C92_layouts : forall W C a path d' m m' pp n, picks W a path -> same_elsewhere (w_folder W path) d' m m' ->
  states_prefixes (w_folder W path) m pp -> states_prefixes d' m' pp -> states_length m n -> states_length m' n ->
  create (set_folder W path d') C a = create W C a.
Proof. exact create_layout. Qed.
Print Assumptions C92_layouts.
(** If a folder states one of them nowhere, no analyzer is created. *)
Theorem C92_missing : forall W C a path m, picks W a path -> load_meta (w_folder W path) META = Ok m ->
  (no_option_field m (u "paradigm_prefixes") /\ sget OLD_PREFIXES (w_folder W path) = None) \/ (no_option_field m (u "max_suffix_length") /\ sget PREDICTION m = None) ->
  forall ws C' z, create W C a <> (ws, C', Ok z).
Proof. exact create_missing. Qed.
Print Assumptions C92_missing.

(** ** the demonstration dictionary in both layouts *)
Definition without (k : str) (m : meta) : meta := filter (fun kv => negb (str_eqb k (fst kv))) m.
Definition old_meta (m : meta) (n : Z) : meta := without COMPILE m ++ [(PREDICTION, JObj [(u "max_suffix_length", JInt n)])].
Definition with_files (d : folder) (m : meta) (pp : list str) : folder :=
  sset_ META (bytes_or_nil (meta_json m)) (sset_ OLD_PREFIXES (bytes_or_nil (JArr (map JStr pp))) d).
Lemma without_get : forall k k' m, k' <> k -> sget k' (without k m) = sget k' m.
Proof.
  intros k k' m N. unfold sget. induction m as [|[a v] m IH]; [reflexivity|]. cbn [without filter fst]. unfold without in IH. destruct (str_eqb k a) eqn:E; cbn [negb].
  - apply str_eqb_eq in E. subst a. cbn [dget]. rewrite (proj2 (str_eqb_neq k' k) N). exact IH.
  - cbn [dget]. destruct (str_eqb k' a); [reflexivity|exact IH].
Qed.
Lemma app_get : forall k' (m : meta) k v, k' <> k -> sget k' (m ++ [(k, v)]) = sget k' m.
Proof.
  intros k' m k v N. unfold sget. induction m as [|[a w] m IH]; cbn [app dget]; [rewrite (proj2 (str_eqb_neq k' k) N); reflexivity|]. destruct (str_eqb k' a); [reflexivity|exact IH].
Qed.
Lemma old_keys : forall m n k, k <> COMPILE -> k <> PREDICTION -> sget k (old_meta m n) = sget k m.
Proof. intros m n k A B. unfold old_meta. rewrite app_get by exact B. apply without_get. exact A. Qed.
Lemma files_get : forall d m pp f, f <> META -> f <> OLD_PREFIXES -> sget f (with_files d m pp) = sget f d.
Proof. intros d m pp f A B. unfold with_files, sget, sset_. rewrite !(dget_dset_other str_eqb str_eqb_eq); auto. Qed.
Definition ru_meta : meta := Eval vm_compute in get_ok [] (load_meta ru_folder META).
Definition ru_prefixes : list str := Eval vm_compute in o_prefixes (x_options demo_compiled).
Definition ru_max : Z := Eval vm_compute in Z.of_nat (o_max_suffix (x_options demo_compiled)).
Definition ru_old : folder := Eval vm_compute in with_files ru_folder (old_meta ru_meta ru_max) ru_prefixes.
Lemma ru_old_eq : ru_old = with_files ru_folder (old_meta ru_meta ru_max) ru_prefixes. Proof. vm_compute. reflexivity. Qed.
Lemma ru_meta_ok : load_meta ru_folder META = Ok ru_meta. Proof. vm_compute. reflexivity. Qed.
Lemma ru_old_meta : load_meta ru_old META = Ok (old_meta ru_meta ru_max). Proof. vm_compute. reflexivity. Qed.
Lemma ru_gramtab : forall fmts f, sget (u "gramtab_formats") ru_meta = Some (JObj fmts) -> sget (u "opencorpora-int") fmts = Some (JStr f) -> f <> META /\ f <> OLD_PREFIXES.
Proof. intros fmts f A B. vm_compute in A. injection A as <-. vm_compute in B. injection B as <-. split; intros E; vm_compute in E; discriminate E. Qed.
Lemma ru_layouts : same_elsewhere ru_folder ru_old ru_meta (old_meta ru_meta ru_max).
Proof.
  constructor; [exact ru_meta_ok|exact ru_old_meta| |intros k A B; apply old_keys; assumption|exact ru_gramtab].
  intros f A B. rewrite ru_old_eq. apply files_get; assumption.
Qed.
Lemma ru_states : states_prefixes ru_folder ru_meta ru_prefixes /\ states_prefixes ru_old (old_meta ru_meta ru_max) ru_prefixes /\ states_length ru_meta ru_max /\ states_length (old_meta ru_meta ru_max) ru_max.
Proof.
  split; [left; eexists; split; vm_compute; reflexivity|]. split; [right; split; [left; vm_compute; reflexivity|vm_compute; reflexivity]|].
  split; [left; eexists; split; vm_compute; reflexivity|]. right. split; [left; vm_compute; reflexivity|]. eexists. split; vm_compute; reflexivity.
Qed.
Definition ru_args : args := MkArgs (Some (u "/dicts/ru")) None (Some (u "Parse")) None EstAuto SubAuto.
Lemma ru_created : okcreate ru_args = true. Proof. vm_compute. reflexivity. Qed.
Example C92_case : picks demo_world ru_args (u "/dicts/ru") /\ w_folder demo_world (u "/dicts/ru") = ru_folder /\ same_elsewhere ru_folder ru_old ru_meta (old_meta ru_meta ru_max) /\
  (states_prefixes ru_folder ru_meta ru_prefixes /\ states_prefixes ru_old (old_meta ru_meta ru_max) ru_prefixes /\ states_length ru_meta ru_max /\ states_length (old_meta ru_meta ru_max) ru_max) /\
  length ru_prefixes = 3 /\ (exists ws C' z, create demo_world tc_initial ru_args = (ws, C', Ok z)) /\
  sget OLD_PREFIXES ru_folder = None /\ no_option_field (without COMPILE ru_meta) (u "paradigm_prefixes").
Proof.
  split; [apply picks_path; reflexivity|]. split; [vm_compute; reflexivity|]. split; [exact ru_layouts|]. split; [exact ru_states|]. split; [reflexivity|].
  split; [exists (ws_of ru_args), (tc_of ru_args), (z_of ru_args); exact (z_ok _ ru_created)|]. split; [vm_compute; reflexivity|]. left. vm_compute. reflexivity.
Qed.
