(** * Concrete facts used beside the tag theorems *)
From Coq Require Import String List NArith ZArith Bool.
From Verif Require Import Py Uni Tagset Dawg Utils Shapes Dict Units Analyzer ConfigRu ConfigUk Compile Spec Ex.
From Verif Require Import L_Base L_Run L_Tagset L_Tags2 L_Ex L_Parse.
Import ListNotations.
Local Open Scope nat_scope.
Local Open Scope list_scope.

Definition demo_eq' : construct uni_cyr false tc_initial demo_rows (x_gramtab demo_compiled) demo_dict None e_yo RU_DEFAULT_UNITS = Ok (m_tc demo, demo) := demo_eq.
Definition plainb (U : uni) (s : str) : bool :=
  match s with [] => false | _ => forallb (fun c => negb (c =? chr ",")%N && negb (u_space U c)) s end.
Lemma plainb_ok : forall U s, plainb U s = true -> plain U s.
Proof.
  intros U s H. unfold plainb in H. destruct s as [|x s]; [discriminate|]. split; [discriminate|]. intros c Hc.
  rewrite forallb_forall in H. specialize (H c Hc). apply andb_true_iff in H as [A B]. apply negb_true_iff in A, B.
  split; auto. intros ->. rewrite N.eqb_refl in A. discriminate.
Qed.
Fixpoint injb (P : list (str * str)) (Q : list (str * str)) : bool :=
  match P with [] => true | (g, a) :: r => forallb (fun x => negb (str_eqb a (snd x)) || str_eqb g (fst x)) Q && injb r Q end.
Lemma injb_ok : forall P Q, injb P Q = true -> forall g g' a, In (g, a) P -> In (g', a) Q -> g = g'.
Proof.
  induction P as [|[g0 a0] P IH]; intros Q H g g' a H1 H2; [destruct H1|]. simpl in H. apply andb_true_iff in H as [A B].
  destruct H1 as [E|H1]; [|eapply IH; eauto]. inversion E; subst. rewrite forallb_forall in A. specialize (A _ H2). cbn [fst snd] in A.
  rewrite str_eqb_refl in A. apply str_eqb_eq. exact A.
Qed.
Lemma demo_aliases : construct uni_cyr false tc_initial demo_rows (x_gramtab demo_compiled) demo_dict None e_yo RU_DEFAULT_UNITS = Ok (m_tc demo, demo) /\
  u_space uni_cyr (chr " ") = true /\ u_space uni_cyr (chr ",") = false /\
  (forall g a, In (g, a) (all_aliases demo_rows RU_DEFAULT_UNITS) -> plain uni_cyr g /\ plain uni_cyr a) /\
  (forall g g' a, In (g, a) (all_aliases demo_rows RU_DEFAULT_UNITS) -> In (g', a) (all_aliases demo_rows RU_DEFAULT_UNITS) -> g = g') /\
  tag_text (m_tc demo) (u "NOUN,anim,masc sing,nomn") /\
  lat2cyr uni_cyr (m_tc demo) (u "NOUN,anim,masc sing,nomn") = u "СУЩ,од,мр ед,им".
Proof.
  split; [exact demo_eq'|]. split; [vm_compute; reflexivity|]. split; [vm_compute; reflexivity|].
  assert (P : forallb (fun x => plainb uni_cyr (fst x) && plainb uni_cyr (snd x)) (all_aliases demo_rows RU_DEFAULT_UNITS) = true) by (vm_compute; reflexivity).
  assert (I : injb (all_aliases demo_rows RU_DEFAULT_UNITS) (all_aliases demo_rows RU_DEFAULT_UNITS) = true) by (vm_compute; reflexivity).
  split.
  - intros g a H. rewrite forallb_forall in P. specialize (P _ H). cbn [fst snd] in P. apply andb_true_iff in P as [A B].
    split; apply plainb_ok; assumption.
  - split; [exact (injb_ok _ _ I)|]. split; [|vm_compute; reflexivity].
    exists [map u ["NOUN"; "anim"; "masc"]%string; map u ["sing"; "nomn"]%string]. split; [vm_compute; reflexivity|].
    assert (T : forallb (fun l => match l with [] => false | _ => ssub l (tc_known (m_tc demo)) end) [map u ["NOUN"; "anim"; "masc"]%string; map u ["sing"; "nomn"]%string] = true) by (vm_compute; reflexivity).
    intros l Hl. rewrite forallb_forall in T. specialize (T l Hl). destruct l as [|x l]; [discriminate T|]. split; [discriminate|].
    exact (proj1 (ssub_incl _ _) T).
Qed.
Lemma demo_incompat : NoDup (map g_name demo_rows) /\ ~ In (Some []) (map g_parent demo_rows) /\
  (forall k E, sget k (tc_extra tc_initial) = Some E -> ~ In [] E) /\
  exists t r, mk_tag (m_tc demo) (u "NOUN,anim,masc sing,nomn") = Ok t /\ updated_grammemes (m_tc demo) t (map u ["plur"; "gent"]%string) = Ok r /\
    seq_set r (map u ["NOUN"; "anim"; "plur"; "gent"]%string) = true.
Proof.
  split; [vm_compute; repeat constructor; simpl; intuition discriminate|]. split; [vm_compute; intuition discriminate|]. split.
  - intros k E H. apply (dget_In str_eqb str_eqb_eq) in H. destruct H as [H|[]]. inversion H; subst. vm_compute. intuition discriminate.
  - do 2 eexists. split; [vm_compute; reflexivity|]. split; vm_compute; reflexivity.
Qed.
Lemma fewer_units : exists M1 t C2 M2,
  construct uni_cyr false tc_initial demo_rows (x_gramtab demo_compiled) demo_dict None e_yo RU_DEFAULT_UNITS = Ok (m_tc M1, M1) /\
  construct uni_cyr false (m_tc M1) demo_rows (x_gramtab demo_compiled) demo_dict None e_yo [One UDict] = Ok (C2, M2) /\
  morph_tag M1 (u "кот") = Ok [t] /\
  contains (m_tc M1) (u "UNKN") t = Ok false /\ contains C2 (u "UNKN") t = Err ValueError.
Proof.
  exists demo. assert (E : exists t, morph_tag demo (u "кот") = Ok [t] /\ t_gr t = map u ["NOUN"; "anim"; "masc"; "sing"; "nomn"]%string) by (eexists; split; vm_compute; reflexivity).
  destruct E as (t & E & G). exists t.
  pose (r := construct uni_cyr false (m_tc demo) demo_rows (x_gramtab demo_compiled) demo_dict None e_yo [One UDict]).
  assert (R : exists C2 M2, r = Ok (C2, M2) /\ smem (u "UNKN") (tc_known C2) = false /\ tc_known C2 <> []).
  { do 2 eexists. split; [vm_compute; reflexivity|]. split; [vm_compute; reflexivity|vm_compute; discriminate]. }
  destruct R as (C2 & M2 & R & K & N). exists C2, M2. split; [exact demo_eq'|]. split; [exact R|]. split; [exact E|].
  unfold contains. rewrite G. split; [vm_compute; reflexivity|].
  assert (X : smem (u "UNKN") (map u ["NOUN"; "anim"; "masc"; "sing"; "nomn"]%string) = false) by (vm_compute; reflexivity). rewrite X.
  unfold grammeme_is_known, assert_initialized. destruct (tc_known C2); [destruct (N eq_refl)|]. cbn [bind]. rewrite K. reflexivity.
Qed.
(** before: "xxxx" is a gender; afterwards it is not *)
Lemma incompat_leak : exists rows_before rows t req a b, let C0 := init_grammemes tc_initial rows_before in
  mk_tag (init_grammemes tc_initial rows) (t_str t) = Ok t /\ mk_tag (init_grammemes C0 rows) (t_str t) = Ok t /\
  updated_grammemes (init_grammemes tc_initial rows) t req = Ok a /\
  updated_grammemes (init_grammemes C0 rows) t req = Ok b /\ seq_set a b = false.
Proof.
  exists [gr "GNdr" "" "хр"; gr "xxxx" "GNdr" "хх"], [gr "NMbr" "" "Число"; gr "sing" "NMbr" "ед"; gr "plur" "NMbr" "мн"; gr "xxxx" "" "хх"],
    (MkTag (u "xxxx,sing") [u "xxxx"; u "sing"]), [u "plur"]. do 2 eexists. cbv zeta.
  split; [vm_compute; reflexivity|]. split; [vm_compute; reflexivity|]. split; [vm_compute; reflexivity|]. split; vm_compute; reflexivity.
Qed.
Lemma demo_again : exists C2 M2, construct uni_cyr false (m_tc demo) demo_rows (x_gramtab demo_compiled) demo_dict (Some demo_cpd) [] RU_DEFAULT_UNITS = Ok (C2, M2).
Proof. do 2 eexists. vm_compute; reflexivity. Qed.
