(** * Tags and the tag class (C21 C22 C23 C24 C25 C26) *)
From Coq Require Import String List NArith ZArith Bool.
From Verif Require Import Py Uni Tagset Dawg Utils Shapes Dict Units Analyzer ConfigRu ConfigUk Compile Spec Ex.
From Verif Require Import L_Base L_Run L_Tagset L_Tags2 L_Ex L_Parse L_ExT.
Import ListNotations.
Local Open Scope nat_scope.
Local Open Scope list_scope.

(** ** C21 *)
Theorem C21_equality : forall a b c,
  tag_eqb a a = true /\ (tag_eqb a b = tag_eqb b a) /\
  (tag_eqb a b = true -> tag_eqb b c = true -> tag_eqb a c = true) /\
  (tag_neb a b = negb (tag_eqb a b)) /\ (tag_eqb a b = true <-> t_gr a = t_gr b).
Proof.
  intros a b c. split; [apply tag_eqb_iff; auto|]. split.
  - destruct (tag_eqb a b) eqn:E; symmetry; [apply tag_eqb_iff; apply tag_eqb_iff in E; auto|].
    destruct (tag_eqb b a) eqn:E2; auto. apply tag_eqb_iff in E2. rewrite (proj2 (tag_eqb_iff a b)) in E; auto.
  - split; [rewrite !tag_eqb_iff; congruence|]. split; [reflexivity|apply tag_eqb_iff].
Qed.
Print Assumptions C21_equality.

(** whatever function Python's tuple hash is *)
Theorem C21_hash : forall h a b, tag_eqb a b = true -> tag_hash h a = tag_hash h b.
Proof. intros h a b H. apply tag_eqb_iff in H. unfold tag_hash. rewrite H. auto. Qed.
Print Assumptions C21_hash.

Theorem C21_order : forall a b c,
  tag_ltb a a = false /\
  (tag_ltb a b = true -> tag_ltb b c = true -> tag_ltb a c = true) /\
  (tag_ltb a b = true \/ tag_ltb b a = true \/ tag_eqb a b = true) /\
  (tag_eqb a b = true -> tag_ltb a b = false /\ tag_ltb a c = tag_ltb b c /\ tag_ltb c a = tag_ltb c b) /\
  tag_gtb a b = tag_ltb b a.
Proof.
  intros a b c. split; [apply tag_ltb_irr|]. split; [apply tag_ltb_trans|]. split.
  - destruct (tag_ltb a b) eqn:E1; auto. destruct (tag_ltb b a) eqn:E2; auto. right. right.
    apply tag_ltb_total; auto.
  - split; [|reflexivity]. intro H. split; [apply tag_eqb_ltb; auto|]. apply tag_eqb_iff in H. unfold tag_ltb. rewrite H. auto.
Qed.
Print Assumptions C21_order.

(** construction from a text: every text has exactly one reading *)
Theorem C21_text : forall C s, exists gs, reads_as s gs /\ (forall gs', reads_as s gs' -> gs' = gs) /\
  ((forall g, In g gs -> In g (tc_known C)) -> mk_tag C s = Ok (MkTag s gs)) /\
  (~ (forall g, In g gs -> In g (tc_known C)) -> tc_known C <> [] -> mk_tag C s = Err ValueError) /\
  (tc_known C = [] -> mk_tag C s = Err RuntimeError).
Proof.
  intros C s. exists (split_tag s). split; [apply split_tag_reads|]. split; [intros; apply reads_unique; auto|].
  apply mk_tag_spec, split_tag_reads.
Qed.
Print Assumptions C21_text.

(** unpickling in a state that knows at least the same grammemes *)
Theorem C21_pickle : forall C C' s t, mk_tag C s = Ok t ->
  (forall g, In g (tc_known C) -> In g (tc_known C')) ->
  unpickle_tag C' t = Ok t /\ t_str t = s.
Proof. intros C C' s t H K. split; [eapply unpickle_same; eauto|]. apply mk_tag_ok in H. tauto. Qed.
Print Assumptions C21_pickle.

Example C21_case : exists a b, mk_tag (m_tc demo) (u "NOUN,anim,masc sing,nomn") = Ok a /\ mk_tag (m_tc demo) (u "NOUN,anim masc,sing,nomn") = Ok b /\
  tag_eqb a b = true /\ t_str a <> t_str b /\ t_gr a = map u ["NOUN"; "anim"; "masc"; "sing"; "nomn"]%string /\
  mk_tag (m_tc demo) (u "NOUN,animm") = Err ValueError.
Proof. do 2 eexists. split; [vm_compute; reflexivity|]. split; [vm_compute; reflexivity|]. split; [reflexivity|]. split; [discriminate|].
  split; vm_compute; reflexivity. Qed.

(** ** C22 *)
Theorem C22_member : forall C g t, tc_known C <> [] ->
  (contains C g t = Ok true <-> In g (t_gr t)) /\
  (contains C g t = Ok false <-> ~ In g (t_gr t) /\ In g (tc_known C)) /\
  (contains C g t = Err ValueError <-> ~ In g (t_gr t) /\ ~ In g (tc_known C)).
Proof.
  intros C g t N. destruct (contains_spec C g t) as (A & B & D & _).
  destruct (in_dec str_eq_dec g (t_gr t)) as [H|H].
  - specialize (A H). rewrite A. repeat split; try congruence; tauto.
  - destruct (in_dec str_eq_dec g (tc_known C)) as [K|K].
    + rewrite (B H K). repeat split; try congruence; tauto.
    + rewrite (D H K N). repeat split; try congruence; tauto.
Qed.
Print Assumptions C22_member.

Theorem C22_subset : forall C gs t, tc_known C <> [] ->
  (contains_set C gs t = Ok true <-> incl gs (t_gr t)) /\
  (contains_set C gs t = Ok false <-> ~ incl gs (t_gr t) /\ incl gs (tc_known C)) /\
  (contains_set C gs t = Err ValueError <-> ~ incl gs (t_gr t) /\ ~ incl gs (tc_known C)).
Proof.
  intros C gs t N. destruct (contains_set_spec C gs t) as (A & B & D & _).
  assert (Dec : forall a b : sset, incl a b \/ ~ incl a b).
  { intros a b. destruct (ssub a b) eqn:E; [left; exact (proj1 (ssub_incl a b) E)|right]. intro H. rewrite (proj2 (ssub_incl a b) H) in E. discriminate. }
  destruct (Dec gs (t_gr t)) as [H|H].
  - specialize (A H). rewrite A. repeat split; try congruence; tauto.
  - destruct (Dec gs (tc_known C)) as [K|K].
    + rewrite (B H K). repeat split; try congruence; tauto.
    + rewrite (D H K N). repeat split; try congruence; tauto.
Qed.
Print Assumptions C22_subset.

(** without any dictionary loaded every negative answer is a RuntimeError *)
Theorem C22_uninitialised : forall C g gs t, tc_known C = [] ->
  (~ In g (t_gr t) -> contains C g t = Err RuntimeError) /\ (~ incl gs (t_gr t) -> contains_set C gs t = Err RuntimeError).
Proof.
  intros C g gs t N. split; intro H.
  - destruct (contains_spec C g t) as (_ & _ & _ & E). auto.
  - destruct (contains_set_spec C gs t) as (_ & _ & _ & E). auto.
Qed.
Print Assumptions C22_uninitialised.

Example C22_case : exists t, mk_tag (m_tc demo) (u "NOUN,anim,masc sing,nomn") = Ok t /\ tc_known (m_tc demo) <> [] /\
  contains (m_tc demo) (u "anim") t = Ok true /\ contains (m_tc demo) (u "femn") t = Ok false /\
  contains (m_tc demo) (u "fenm") t = Err ValueError /\
  contains_set (m_tc demo) (map u ["anim"; "sing"]%string) t = Ok true /\ contains_set (m_tc demo) (map u ["anim"; "plur"]%string) t = Ok false.
Proof.
  eexists. split; [vm_compute; reflexivity|]. split; [vm_compute; discriminate|]. split; [vm_compute; reflexivity|].
  split; [vm_compute; reflexivity|]. split; [vm_compute; reflexivity|]. split; vm_compute; reflexivity.
Qed.

(** ** C23 *)
(** [pick]: which element of a set iteration yields first *)
Theorem C23_attribute : forall pick cat t, pick_ok pick ->
  match attr pick cat t with
  | None => forall g, In g cat -> ~ In g (t_gr t)
  | Some g => In g cat /\ In g (t_gr t)
  end.
Proof. exact attr_spec. Qed.
Print Assumptions C23_attribute.

Theorem C23_comparison : forall pick cat t other, pick_ok pick ->
  attr_eq true pick cat t other =
  match attr pick cat t, other with
  | None, None => Ok true
  | None, Some _ => Ok false
  | Some _, None => Ok false
  | Some g, Some o => if in_dec str_eq_dec o cat then Ok (if str_eq_dec g o then true else false) else Err ValueError
  end.
Proof.
  intros pick cat t other P. unfold attr_eq. destruct (attr pick cat t) as [g|]; [|destruct other; auto].
  destruct other as [o|]; simpl; auto. destruct (in_dec str_eq_dec o cat) as [I|I].
  - rewrite (proj2 (smem_In _ _) I). destruct (str_eq_dec g o) as [->|N]; f_equal; [apply str_eqb_refl|apply str_eqb_neq; auto].
  - rewrite (proj2 (smem_false _ _) I). auto.
Qed.
Print Assumptions C23_comparison.

(** with a single grammeme of the category (every well-formed tag) the attribute is determined *)
Theorem C23_single : forall pick cat t g, pick_ok pick -> In g cat -> In g (t_gr t) ->
  (forall g', In g' cat -> In g' (t_gr t) -> g' = g) -> attr pick cat t = Some g.
Proof.
  intros pick cat t g P H1 H2 H. pose proof (attr_spec pick cat t P) as A. destruct (attr pick cat t) as [g'|].
  - f_equal. apply H; tauto.
  - destruct (A g H1 H2).
Qed.
Print Assumptions C23_single.

Example C23_case : pick_ok (@hd_error str) /\ exists t, mk_tag (m_tc demo) (u "NOUN,anim,masc sing,nomn") = Ok t /\
  attr (@hd_error str) CASES t = Some (u "nomn") /\ attr (@hd_error str) TENSES t = None /\
  attr_eq true (@hd_error str) CASES t (Some (u "gent")) = Ok false /\
  attr_eq true (@hd_error str) CASES t (Some (u "plur")) = Err ValueError /\
  attr_eq true (@hd_error str) TENSES t (Some (u "plur")) = Ok false.
Proof.
  split; [intros [|x l]; simpl; auto|]. eexists. split; [vm_compute; reflexivity|]. split; [vm_compute; reflexivity|].
  split; [vm_compute; reflexivity|]. split; [vm_compute; reflexivity|]. split; vm_compute; reflexivity.
Qed.

(** ** C24 *)
Theorem C24_round_trip : forall U ext C rows gt mk prob subst items C' M s,
  construct U ext C rows gt mk prob subst items = Ok (C', M) ->
  u_space U (chr " ") = true -> u_space U (chr ",") = false ->
  (forall g a, In (g, a) (all_aliases rows items) -> plain U g /\ plain U a) ->
  (forall g g' a, In (g, a) (all_aliases rows items) -> In (g', a) (all_aliases rows items) -> g = g') ->
  tag_text C' s -> cyr2lat U C' (lat2cyr U C' s) = s.
Proof. exact construct_round_trip. Qed.
Print Assumptions C24_round_trip.

(** two grammemes with one Cyrillic name *)
Theorem C24_shared_alias_refuted : exists rows s, let C := init_grammemes tc_initial rows in
  NoDup (map g_name rows) /\ tag_text C s /\ cyr2lat uni_cyr C (lat2cyr uni_cyr C s) <> s.
Proof.
  exists [gr "aaaa" "" "жж"; gr "bbbb" "" "жж"], (u "aaaa"). cbv zeta. split; [|split].
  - vm_compute. repeat constructor; simpl; intuition discriminate.
  - exists [[u "aaaa"]]. split; [reflexivity|]. intros l [<-|[]]. split; [discriminate|]. intros g [<-|[]]. vm_compute. auto.
  - vm_compute. discriminate.
Qed.
Print Assumptions C24_shared_alias_refuted.

(** two spaces between the lists *)
Theorem C24_whitespace_refuted : exists rows s t, let C := init_grammemes tc_initial rows in
  mk_tag C s = Ok t /\ cyr2lat uni_cyr C (lat2cyr uni_cyr C s) <> s.
Proof.
  exists (demo_rows ++ [gr " sing" "" "1ед"]), (u "NOUN,anim  sing"). eexists. cbv zeta. split; [vm_compute; reflexivity|vm_compute; discriminate].
Qed.
Print Assumptions C24_whitespace_refuted.

Example C24_case : construct uni_cyr false tc_initial demo_rows (x_gramtab demo_compiled) demo_dict None e_yo RU_DEFAULT_UNITS = Ok (m_tc demo, demo) /\
  u_space uni_cyr (chr " ") = true /\ u_space uni_cyr (chr ",") = false /\
  (forall g a, In (g, a) (all_aliases demo_rows RU_DEFAULT_UNITS) -> plain uni_cyr g /\ plain uni_cyr a) /\
  (forall g g' a, In (g, a) (all_aliases demo_rows RU_DEFAULT_UNITS) -> In (g', a) (all_aliases demo_rows RU_DEFAULT_UNITS) -> g = g') /\
  tag_text (m_tc demo) (u "NOUN,anim,masc sing,nomn") /\
  lat2cyr uni_cyr (m_tc demo) (u "NOUN,anim,masc sing,nomn") = u "СУЩ,од,мр ед,им".
Proof. exact demo_aliases. Qed.

(** ** C25 *)
Theorem C25_updated : forall C t req r, updated_grammemes C t req = Ok r ->
  forall x, In x r <-> (In x (t_gr t) \/ In x req) /\ forall g, In g req -> ~ In x (incompat_of C g).
Proof. exact updated_spec. Qed.
Print Assumptions C25_updated.

Theorem C25_raises : forall C t req, tc_known C <> [] ->
  ((forall g, In g req -> In g (tc_known C)) <-> exists r, updated_grammemes C t req = Ok r) /\
  (~ (forall g, In g req -> In g (tc_known C)) <-> updated_grammemes C t req = Err ValueError).
Proof. exact updated_raises. Qed.
Print Assumptions C25_raises.

(** the iteration order of the set of required grammemes does not matter *)
Theorem C25_order_independent : forall C t req req', tc_known C <> [] -> (forall g, In g req <-> In g req') ->
  match updated_grammemes C t req, updated_grammemes C t req' with
  | Ok r, Ok r' => forall x, In x r <-> In x r'
  | Err e, Err e' => e = e'
  | _, _ => False
  end.
Proof. exact updated_order. Qed.
Print Assumptions C25_order_independent.

(** which grammemes are incompatible: those with the same parent (or below one that has), and what
    is declared in addition ([tc_extra]: genders for "plur") *)
Theorem C25_incompatible : forall U ext C rows gt mk prob subst items C' M r,
  construct U ext C rows gt mk prob subst items = Ok (C', M) ->
  NoDup (map g_name rows) -> ~ In (Some []) (map g_parent rows) ->
  (forall k E, sget k (tc_extra C) = Some E -> ~ In [] E) -> In r rows ->
  forall x, In x (incompat_of C' (g_name r)) <->
    x <> g_name r /\
    ((exists q, g_parent r = Some q /\ descends rows q x) \/
     (exists E, sget (g_name r) (tc_extra C) = Some E /\ (In x E \/ exists e, In e E /\ descends rows e x))).
Proof.
  intros U ext C rows gt mk prob subst items C' M r H ND NE NX Hr x. rewrite (construct_incompat _ _ _ _ _ _ _ _ _ _ _ H).
  apply init_incompat; auto. exists r. auto.
Qed.
Print Assumptions C25_incompatible.

Example C25_case : NoDup (map g_name demo_rows) /\ ~ In (Some []) (map g_parent demo_rows) /\
  (forall k E, sget k (tc_extra tc_initial) = Some E -> ~ In [] E) /\
  exists t r, mk_tag (m_tc demo) (u "NOUN,anim,masc sing,nomn") = Ok t /\ updated_grammemes (m_tc demo) t (map u ["plur"; "gent"]%string) = Ok r /\
    seq_set r (map u ["NOUN"; "anim"; "plur"; "gent"]%string) = true.
Proof. exact demo_incompat. Qed.

(** ** C26 *)
Theorem C26_known : forall U ext C rows gt mk prob subst items C' M,
  construct U ext C rows gt mk prob subst items = Ok (C', M) ->
  forall g, In g (tc_known C') <-> In g (map fst (all_aliases rows items)).
Proof. exact construct_known_aliases. Qed.
Print Assumptions C26_known.

(** re-creating an analyzer of the same kind (same grammeme table, same units), whatever was
    loaded in between *)
Theorem C26_recreate : forall U U' ext ext' C D rows gt gt' mk mk' prob prob' subst subst' items C1 M1 C2 M2,
  construct U ext C rows gt mk prob subst items = Ok (C1, M1) ->
  construct U' ext' D rows gt' mk' prob' subst' items = Ok (C2, M2) ->
  forall g gs t s, contains C2 g t = contains C1 g t /\ contains_set C2 gs t = contains_set C1 gs t /\ mk_tag C2 s = mk_tag C1 s.
Proof. exact recreate_same. Qed.
Print Assumptions C26_recreate.

(** an analyzer with fewer units makes "UNKN" unknown for everybody *)
Theorem C26_fewer_units_refuted : exists M1 t C2 M2,
  construct uni_cyr false tc_initial demo_rows (x_gramtab demo_compiled) demo_dict None e_yo RU_DEFAULT_UNITS = Ok (m_tc M1, M1) /\
  construct uni_cyr false (m_tc M1) demo_rows (x_gramtab demo_compiled) demo_dict None e_yo [One UDict] = Ok (C2, M2) /\
  morph_tag M1 (u "кот") = Ok [t] /\
  contains (m_tc M1) (u "UNKN") t = Ok false /\ contains C2 (u "UNKN") t = Err ValueError.
Proof. exact fewer_units. Qed.
Print Assumptions C26_fewer_units_refuted.

(** the incompatibility tables are never reset: what updated_grammemes returns after loading a
    dictionary depends on the dictionaries loaded before *)
Theorem C26_incompatible_leak_refuted : exists rows_before rows t req a b, let C0 := init_grammemes tc_initial rows_before in
  mk_tag (init_grammemes tc_initial rows) (t_str t) = Ok t /\ mk_tag (init_grammemes C0 rows) (t_str t) = Ok t /\
  updated_grammemes (init_grammemes tc_initial rows) t req = Ok a /\
  updated_grammemes (init_grammemes C0 rows) t req = Ok b /\ seq_set a b = false.
Proof. exact incompat_leak. Qed.
Print Assumptions C26_incompatible_leak_refuted.

Example C26_case : construct uni_cyr false tc_initial demo_rows (x_gramtab demo_compiled) demo_dict None e_yo RU_DEFAULT_UNITS = Ok (m_tc demo, demo) /\
  exists C2 M2, construct uni_cyr false (m_tc demo) demo_rows (x_gramtab demo_compiled) demo_dict (Some demo_cpd) [] RU_DEFAULT_UNITS = Ok (C2, M2).
Proof. split; [exact demo_eq'|exact demo_again]. Qed.
