(** * Facts about the example analyzer of Ex.v *)
From Coq Require Import String List NArith ZArith Bool QArith Lia.
From Verif Require Import Py Uni Tagset Dawg Utils Shapes Dict Units Analyzer ConfigRu ConfigUk Compile Ex Spec L_Base.
Import ListNotations.
Local Open Scope nat_scope.
Local Open Scope list_scope.

Lemma cyr_lower1_idem : forall c, cyr_lower1 (cyr_lower1 c) = cyr_lower1 c.
Proof.
  intro c. unfold cyr_lower1 at 2 3, rng.
  destruct (N.leb_spec 65 c), (N.leb_spec c 90), (N.leb_spec 1040 c), (N.leb_spec c 1071),
    (N.leb_spec 1024 c), (N.leb_spec c 1039), (N.eqb_spec c 1168); cbn [andb]; try lia;
  unfold cyr_lower1, rng;
  repeat match goal with
  | |- context [(?a <=? ?b)%N] => destruct (N.leb_spec a b); cbn [andb]; try lia
  | |- context [(?a =? ?b)%N] => destruct (N.eqb_spec a b); cbn [andb]; try lia
  end; auto.
Qed.
Lemma uni_cyr_stable : lower_stable uni_cyr.
Proof.
  intros w a b c E. simpl in *. apply map_eq_app in E as (a' & r & _ & _ & E).
  apply map_eq_app in E as (b' & c' & _ & E & _). subst b. rewrite map_map. apply map_ext. apply cyr_lower1_idem.
Qed.

(** boolean checks for finite dictionaries *)
Definition pred_counts_posb (D : dict) : bool :=
  forallb (fun dawg => forallb (fun ev => forallb (fun v : nat * nat * nat => let '(c, _, _) := v in 1 <=? c) (snd ev)) dawg) (d_pred D).
Lemma pred_counts_posb_ok : forall D, pred_counts_posb D = true -> pred_counts_pos D.
Proof.
  intros D H dawg e vals c p i H1 H2 H3. unfold pred_counts_posb in H. rewrite forallb_forall in H.
  specialize (H _ H1). rewrite forallb_forall in H. specialize (H _ H2). rewrite forallb_forall in H.
  specialize (H _ H3). apply Nat.leb_le in H. auto.
Qed.

Definition validb (D : dict) (para idx : nat) : bool :=
  match nth_error (d_paradigms D) para with Some p => idx <? length p / 3 | None => false end.
Lemma validb_ok : forall D para idx, validb D para idx = true -> valid_form D para idx.
Proof.
  unfold validb, valid_form. intros D para idx H. destruct (nth_error _ _) as [p|]; [|discriminate].
  exists p. split; auto. apply Nat.ltb_lt; auto.
Qed.
Definition wf_paradigmb (D : dict) (p : list nat) : bool :=
  let n := length p / 3 in
  (length p =? n + n + n)
  && forallb (fun x => x <? length (d_suffixes D)) (firstn n p)
  && forallb (fun x => x <? length (d_gramtab D)) (firstn n (skipn n p))
  && forallb (fun x => x <? length (d_prefixes D)) (skipn n (skipn n p)).
Lemma wf_paradigmb_ok : forall D p, wf_paradigmb D p = true -> wf_paradigm D p.
Proof.
  unfold wf_paradigmb. intros D p H. apply andb_true_iff in H as [H H4]. apply andb_true_iff in H as [H H3].
  apply andb_true_iff in H as [H H2]. apply Nat.eqb_eq in H. set (n := length p / 3) in *.
  exists (firstn n p), (firstn n (skipn n p)), (skipn n (skipn n p)). rewrite !firstn_skipn.
  rewrite forallb_forall in H2, H3, H4. rewrite !firstn_length, !skipn_length.
  repeat split; try lia; intros x Hx; apply Nat.ltb_lt; auto.
Qed.
Definition wf_dictb (D : dict) : bool :=
  forallb (wf_paradigmb D) (d_paradigms D)
  && forallb (fun wv => forallb (fun v : nat * nat => validb D (fst v) (snd v)) (snd wv)) (d_words D)
  && forallb (fun dawg => forallb (fun ev => forallb (fun v : nat * nat * nat => let '(_, p, i) := v in validb D p i) (snd ev)) dawg) (d_pred D)
  && (length (d_prefixes D) <=? length (d_pred D)).
Lemma wf_dictb_ok : forall D, wf_dictb D = true -> wf_dict D.
Proof.
  unfold wf_dictb. intros D H. apply andb_true_iff in H as [H H4]. apply andb_true_iff in H as [H H3].
  apply andb_true_iff in H as [H H2]. rewrite forallb_forall in H, H2, H3. split; [|split; [|split]].
  - intros p Hp. apply wf_paradigmb_ok; auto.
  - intros w vals para idx Hw Hi. specialize (H2 _ Hw). rewrite forallb_forall in H2. apply validb_ok. apply (H2 _ Hi).
  - intros dawg e vals c para idx H5 H6 H7. specialize (H3 _ H5). rewrite forallb_forall in H3. specialize (H3 _ H6).
    rewrite forallb_forall in H3. apply validb_ok. apply (H3 _ H7).
  - apply Nat.leb_le; auto.
Qed.

Lemma demo_counts : pred_counts_pos (m_dict demo).
Proof. apply pred_counts_posb_ok. vm_compute. reflexivity. Qed.
Lemma demo_wf_dict : wf_dict (m_dict demo).
Proof. apply wf_dictb_ok. vm_compute. reflexivity. Qed.
Lemma demo_ends : ends_with_unkn demo.
Proof.
  exists (removelast (m_units demo)), (fst (last (m_units demo) (MkUnit UDict [] [] [], true))),
    (snd (last (m_units demo) (MkUnit UDict [] [] [], true))).
  split; [|vm_compute; reflexivity]. rewrite <- surjective_pairing. apply app_removelast_last. vm_compute. discriminate.
Qed.
Lemma demo_isolated : unkn_isolated true (m_units demo).
Proof. vm_compute. repeat split; intros; discriminate. Qed.
Definition prefixes_nonemptyb (us : list (bunit * bool)) : bool :=
  forallb (fun bt : bunit * bool => match b_cfg (fst bt) with UKnownPrefix ps _ _ => negb (smem [] ps) | _ => true end) us.
Lemma prefixes_nonemptyb_ok : forall us, prefixes_nonemptyb us = true -> Forall (fun bt => prefixes_nonempty (fst bt)) us.
Proof.
  intros us H. unfold prefixes_nonemptyb in H. rewrite forallb_forall in H. apply Forall_forall. intros bt Hb.
  specialize (H bt Hb). unfold prefixes_nonempty.
  destruct (b_cfg (fst bt)); auto. intro N. apply negb_true_iff in H. apply smem_In in N. congruence.
Qed.
Lemma demo_prefixes : Forall (fun bt => prefixes_nonempty (fst bt)) (m_units demo).
Proof. apply prefixes_nonemptyb_ok. vm_compute. reflexivity. Qed.
Lemma demo_stable : lower_stable (m_uni demo).
Proof. exact uni_cyr_stable. Qed.

(** an analyzer with an empty known prefix (pure-Python matcher) *)
Definition empty_prefix_demo : morph :=
  MkMorph uni_cyr false null_dict [(MkUnit (UKnownPrefix [[]] 1 0) [] [] [], true);
                                   (MkUnit UUnkn [MkTag (u "UNKN") [u "UNKN"]] [] [], true)] None [] tc_initial.
Lemma empty_prefix_loops : forall fuel,
  parse_f fuel empty_prefix_demo (u "а") = Err RecursionError /\ tag_f fuel empty_prefix_demo (u "а") = Err RecursionError.
Proof.
  induction fuel as [|f [IHp IHt]]; [split; reflexivity|].
  assert (L : u_lower uni_cyr (u "а") = u "а") by (vm_compute; reflexivity).
  assert (K : kp_splits empty_prefix_demo [[]] 0 (u "а") = [([], u "а")]) by (vm_compute; reflexivity).
  assert (EU : m_units empty_prefix_demo = [(MkUnit (UKnownPrefix [[]] 1 0) [] [] [], true);
                                   (MkUnit UUnkn [MkTag (u "UNKN") [u "UNKN"]] [] [], true)]) by reflexivity.
  unfold parse_f, tag_f in *. cbn [analyze]. cbn [fst snd].
  change (m_uni empty_prefix_demo) with uni_cyr. rewrite L, EU. cbn [run_parse run_tag].
  unfold unit_parse, unit_tag. cbn [b_cfg]. unfold kp_parse, kp_tag. rewrite K. cbn [foldM snd]. rewrite IHp, IHt.
  split; reflexivity.
Qed.
