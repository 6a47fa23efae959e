(** * Facts about the example analyzers used in P_Units.v *)
From Coq Require Import String List NArith ZArith Bool QArith Lia.
From Verif Require Import Py Uni Tagset Dawg Utils Shapes Dict Units Analyzer ConfigRu ConfigUk Compile Spec Ex.
From Verif Require Import L_Base L_Run L_Made L_Words L_Config L_Ex L_Parse L_Total L_Para L_Groups L_Prob L_Units.
Import ListNotations.
Local Open Scope nat_scope.
Local Open Scope list_scope.

(** boolean test of consistent_dict *)
Definition para_rowb (D : dict) (para idx : nat) : option (str * tag * str) :=
  match nth_error (d_paradigms D) para with
  | None => None
  | Some p =>
    if idx <? length p / 3 then
      match nth_error p idx, nth_error p (length p / 3 + idx), nth_error p (length p / 3 * 2 + idx) with
      | Some sid, Some tid, Some pid =>
        match nth_error (d_suffixes D) sid, nth_error (d_gramtab D) tid, nth_error (d_prefixes D) pid with
        | Some sf, Some t, Some pre => Some (pre, t, sf)
        | _, _, _ => None
        end
      | _, _, _ => None
      end
    else None
  end.
Lemma para_rowb_ok : forall D para idx pre t sf, para_rowb D para idx = Some (pre, t, sf) -> para_row D para idx pre t sf.
Proof.
  unfold para_rowb. intros D para idx pre t sf H. destruct (nth_error (d_paradigms D) para) as [p|] eqn:Ep; [|discriminate].
  destruct (Nat.ltb_spec idx (length p / 3)); [|discriminate].
  destruct (nth_error p idx) as [sid|] eqn:E1; [|discriminate].
  destruct (nth_error p (length p / 3 + idx)) as [tid|] eqn:E2; [|discriminate].
  destruct (nth_error p (length p / 3 * 2 + idx)) as [pid|] eqn:E3; [|discriminate].
  destruct (nth_error (d_suffixes D) sid) as [sf'|] eqn:E4; [|discriminate].
  destruct (nth_error (d_gramtab D) tid) as [t'|] eqn:E5; [|discriminate].
  destruct (nth_error (d_prefixes D) pid) as [pre'|] eqn:E6; [|discriminate].
  injection H as <- <- <-. exists p, sid, tid, pid. repeat split; assumption.
Qed.
Definition fitsb (w pre sf : str) : bool :=
  prefixb pre w && suffixb sf (skipn (length pre) w).
Lemma fitsb_ok : forall w pre sf, fitsb w pre sf = true -> exists stem, w = pre ++ stem ++ sf.
Proof.
  intros w pre sf H. apply andb_true_iff in H as [H1 H2]. apply prefixb_spec in H1 as (r & ->). rewrite skipn_app_exact in H2.
  apply suffixb_spec in H2 as (stem & ->). exists stem. reflexivity.
Qed.
Definition consistent_dictb (D : dict) : bool :=
  forallb (fun wv => forallb (fun v : nat * nat =>
     match para_rowb D (fst v) (snd v) with Some (pre, _, sf) => fitsb (fst wv) pre sf | None => false end) (snd wv)) (d_words D).
Lemma consistent_dictb_ok : forall D, consistent_dictb D = true -> consistent_dict D.
Proof.
  intros D H w vals para idx Hw Hi. unfold consistent_dictb in H. rewrite forallb_forall in H. specialize (H _ Hw).
  rewrite forallb_forall in H. specialize (H _ Hi). cbn [fst snd] in H.
  destruct (para_rowb D para idx) as [[[pre t] sf]|] eqn:E; [|discriminate]. apply fitsb_ok in H as (stem & ->).
  exists pre, t, sf, stem. split; [apply para_rowb_ok; exact E|reflexivity].
Qed.
Lemma no_empty_entryb_ok : forall D, forallb (fun wv => match snd wv with [] => false | _ => true end) (d_words D) = true -> no_empty_entry D.
Proof.
  intros D H w vals Hw. rewrite forallb_forall in H. specialize (H _ Hw). cbn [snd] in H. destruct vals; [discriminate|congruence].
Qed.
Lemma demo_consistent : consistent_dict (m_dict demo).
Proof. apply consistent_dictb_ok. vm_compute. reflexivity. Qed.
Lemma demo_no_empty : no_empty_entry (m_dict demo).
Proof. apply no_empty_entryb_ok. vm_compute. reflexivity. Qed.
Lemma e_yo_proper : subst_proper e_yo.
Proof.
  intros a b H. unfold e_yo, rget in H. cbn [dget] in H. destruct (N.eqb_spec a (chr "е")) as [->|]; [|discriminate].
  injection H as <-. vm_compute. discriminate.
Qed.
Lemma e_yo_idem : subst_idempotent e_yo.
Proof.
  intros a b H. unfold e_yo, rget in H. cbn [dget] in H. destruct (N.eqb_spec a (chr "е")) as [->|]; [|discriminate].
  injection H as <-. left. vm_compute. reflexivity.
Qed.

(** the Unicode instance with a Latin name for every letter *)
Definition uni_named : uni := MkUni (u_lower uni_cyr) (u_upper uni_cyr) (u_title uni_cyr) (u_islower uni_cyr) (u_isupper uni_cyr)
  (u_istitle uni_cyr) (u_alpha uni_cyr) (u_space uni_cyr) (u_word uni_cyr) (u_punct uni_cyr)
  (fun c => Some (rng 65 90 c || rng 97 122 c)%N) (u_digit uni_cyr) (u_int_limit uni_cyr).
Lemma uni_named_stable : lower_stable uni_named.
Proof. exact uni_cyr_stable. Qed.
Lemma uni_named_ok : names_ok uni_named.
Proof. intros c _. discriminate. Qed.
Definition demo_n : morph := snd (get_ok (tc_initial, null_morph)
  (construct uni_named false tc_initial demo_rows (x_gramtab demo_compiled) demo_dict None e_yo RU_DEFAULT_UNITS)).
Lemma demo_n_eq : construct uni_named false tc_initial demo_rows (x_gramtab demo_compiled) demo_dict None e_yo RU_DEFAULT_UNITS
  = Ok (m_tc demo_n, demo_n).
Proof. apply get_snd; [vm_compute; reflexivity|]. intros C M H. exact (construct_tc _ _ _ _ _ _ _ _ _ _ _ H). Qed.
Lemma demo_n_wf_dict : wf_dict (m_dict demo_n).
Proof. apply wf_dictb_ok. vm_compute. reflexivity. Qed.
Lemma named_rows : forall l rows, forallb (fun g => smem (u g) (map g_name rows)) l = true -> forall g, In g l -> In (u g) (map g_name rows).
Proof. intros l rows H g Hg. rewrite forallb_forall in H. apply smem_In. auto. Qed.
Lemma demo_rows_adv : forall g, In g ["ADJF"; "sing"; "datv"]%string -> In (u g) (map g_name demo_rows).
Proof. apply named_rows. vm_compute. reflexivity. Qed.
Lemma demo_rows_needed : forall g, In g needed -> In g (map g_name demo_rows).
Proof. intros g H. apply in_map_iff in H as (s & <- & Hs). revert s Hs. apply named_rows. vm_compute. reflexivity. Qed.
Lemma demo_gramtab_known : forall s, In s (x_gramtab demo_compiled) -> forall g, In g (split_tag s) -> In g (map g_name demo_rows).
Proof.
  assert (E : forallb (fun s => forallb (fun g => smem g (map g_name demo_rows)) (split_tag s)) (x_gramtab demo_compiled) = true) by (vm_compute; reflexivity).
  intros s Hs g Hg. rewrite forallb_forall in E. specialize (E _ Hs). rewrite forallb_forall in E. apply smem_In. exact (E _ Hg).
Qed.

(** with a probability table *)
Definition demo_np : morph := snd (get_ok (tc_initial, null_morph)
  (construct uni_named false tc_initial demo_rows (x_gramtab demo_compiled) demo_dict (Some demo_cpd) e_yo RU_DEFAULT_UNITS)).
Lemma demo_np_eq : construct uni_named false tc_initial demo_rows (x_gramtab demo_compiled) demo_dict (Some demo_cpd) e_yo RU_DEFAULT_UNITS
  = Ok (m_tc demo_np, demo_np).
Proof. apply get_snd; [vm_compute; reflexivity|]. intros C M H. exact (construct_tc _ _ _ _ _ _ _ _ _ _ _ H). Qed.
Lemma demo_np_wf : wf_morph demo_np.
Proof.
  apply (construct_wf _ _ _ _ _ _ _ _ _ _ _ demo_np_eq (or_introl eq_refl) demo_rows_adv).
  - apply wf_dictb_ok. vm_compute. reflexivity.
  - exact uni_named_ok.
  - exact uni_named_stable.
Qed.
Lemma demo_np_scores : scores_pos demo_np.
Proof.
  assert (E : forallb (fun bt : bunit * bool => Qgtb (unit_score (b_cfg (fst bt))) 0) (m_units demo_np) = true) by (vm_compute; reflexivity).
  apply Forall_forall. intros bt H. rewrite forallb_forall in E. apply Qgtb_lt. exact (E _ H).
Qed.
Lemma demo_np_counts : pred_counts_pos (m_dict demo_np).
Proof. apply pred_counts_posb_ok. vm_compute. reflexivity. Qed.
Lemma prob_other : forall d w t, forallb (fun kv : str * N => negb (prefixb (w ++ u ":") (fst kv))) d = true -> (prob d w t == 0)%Q.
Proof.
  intros d w t H. unfold prob. destruct (sget (prob_key w t) d) as [n|] eqn:E; [|reflexivity].
  apply sget_In in E. rewrite forallb_forall in H. specialize (H _ E). cbn [fst] in H. unfold prob_key in H.
  rewrite app_assoc, prefixb_app in H. discriminate.
Qed.
Lemma colon_prefix : forall w k r c, ~ In c k -> prefixb (w ++ [c]) (k ++ c :: r) = true -> ~ In c r -> w = k.
Proof.
  induction w as [|x w IH]; intros k r c Hk H Hr; destruct k as [|y k]; simpl in H.
  - reflexivity.
  - apply andb_true_iff in H as [H _]. apply N.eqb_eq in H. subst. destruct Hk; left; reflexivity.
  - apply andb_true_iff in H as [_ H]. apply prefixb_spec in H as (q & H). destruct Hr. rewrite H, <- app_assoc. apply in_app_iff. right. left. reflexivity.
  - apply andb_true_iff in H as [E H]. apply N.eqb_eq in E. subst. f_equal. apply (IH k r c); [|exact H|exact Hr]. intro; apply Hk; right; assumption.
Qed.
Lemma colon_split : forall k r, forallb (fun x => negb (N.eqb x 58)) (k ++ r) = true -> ~ In 58%N k /\ ~ In 58%N r.
Proof.
  intros k r H. rewrite forallb_app in H. apply andb_true_iff in H as [A B]. rewrite forallb_forall in A, B.
  split; intro I; [apply A in I|apply B in I]; discriminate.
Qed.
Lemma demo_np_prob : m_prob demo_np = Some demo_cpd.
Proof. destruct (construct_units _ _ _ _ _ _ _ _ _ _ _ demo_np_eq) as (_ & _ & _ & H & _). exact H. Qed.
Lemma demo_np_no_mixture : no_mixture demo_np demo_cpd.
Proof.
  intros n w ps H. change (m_uni demo_np) with uni_named. set (lower := u_lower uni_named w).
  destruct (str_eq_dec lower (u "кота")) as [E|N].
  - right. destruct n as [|n]; [discriminate H|].
    destruct (construct_units _ _ _ _ _ _ _ _ _ _ _ demo_np_eq) as (HU & _).
    assert (NI : ~ In w RU_INITIAL_LETTERS).
    { intro I. assert (X : forallb (fun l => Nat.eqb (length (u_lower uni_named l)) 1) RU_INITIAL_LETTERS = true) by (vm_compute; reflexivity).
      rewrite forallb_forall in X. specialize (X _ I). fold lower in X. rewrite E in X. vm_compute in X. discriminate X. }
    assert (ID : in_dictionary demo_np (u "кота")).
    { exists (u "кота"). eexists. split; [|split; [vm_compute; reflexivity|discriminate]]. repeat constructor. }
    assert (ID' : in_dictionary demo_np (u_lower (m_uni demo_np) w)).
    { change (m_uni demo_np) with uni_named. fold lower. rewrite E. exact ID. }
    destruct (ru_word_prob _ _ _ _ _ HU demo_np_prob ID' NI H) as (r & Er & A).
    change (m_uni demo_np) with uni_named in Er, A. fold lower in Er, A. rewrite E in Er, A |- *. clear H E ID ID' NI HU.
    assert (X : forall d, dict_parse demo_np (Root 0) (u "кота") = Ok d -> forall d', apply_to_parses demo_cpd (u "кота") d = Ok d' ->
              forallb (fun p => Qgtb (prob demo_cpd (u "кота") (t_str (p_tag p))) 0) d' = true).
    { intros d Ed. vm_compute in Ed. apply Ok_inj in Ed. subst d. intros d' Ed'. vm_compute in Ed'. apply Ok_inj in Ed'. subst d'. vm_compute. reflexivity. }
    specialize (X _ Er _ A). rewrite forallb_forall in X. intros p Hp. apply Qgtb_lt. exact (X _ Hp).
  - left. intros p _. apply prob_other. cbn [demo_cpd forallb fst]. rewrite andb_true_r. unfold prob_key.
    apply andb_true_iff. split; apply negb_true_iff; apply not_true_is_false; intro P; apply N;
      change (u ":") with [58%N] in P; cbn [app] in P;
      (apply colon_prefix in P; [exact P| |]); intro I;
      (apply mem_char_In in I; vm_compute in I; discriminate I).
Qed.

(** ** exceptions *)
(** "тем" is a conjunction or a noun; the table knows only the conjunction *)
Definition zero_rows : list grow := demo_rows ++ [gr "CONJ" "POST" "СОЮЗ"].
Definition zero_dict (gt : list tag) : dict :=
  MkDict [[0; 0; 0]; [0; 1; 0]] gt [[]] [[]] [(u "тем", [(0, 0); (1, 0)])] [[]] 1.
Definition zero_cpd : cpd := [(prob_key (u "тем") (u "CONJ"), 1000000%N)].
Definition zero_demo : morph := snd (get_ok (tc_initial, null_morph)
  (construct uni_named false tc_initial zero_rows [u "CONJ"; u "NOUN"] zero_dict (Some zero_cpd) e_yo RU_DEFAULT_UNITS)).
Lemma zero_demo_eq : construct uni_named false tc_initial zero_rows [u "CONJ"; u "NOUN"] zero_dict (Some zero_cpd) e_yo RU_DEFAULT_UNITS
  = Ok (m_tc zero_demo, zero_demo).
Proof. apply get_snd; [vm_compute; reflexivity|]. intros C M H. exact (construct_tc _ _ _ _ _ _ _ _ _ _ _ H). Qed.
Lemma zero_demo_wf : wf_morph zero_demo.
Proof.
  apply (construct_wf _ _ _ _ _ _ _ _ _ _ _ zero_demo_eq (or_introl eq_refl)).
  - apply named_rows. vm_compute. reflexivity.
  - apply wf_dictb_ok. vm_compute. reflexivity.
  - exact uni_named_ok.
  - exact uni_named_stable.
Qed.
Lemma zero_division : exists M word, shipped_units M /\ wf_morph M /\ morph_parse M word = Err ZeroDivisionError /\
  exists ts, morph_tag M word = Ok ts.
Proof.
  exists zero_demo, (u "супертем"). split; [|split; [exact zero_demo_wf|split; [vm_compute; reflexivity|]]].
  - left. destruct (construct_units _ _ _ _ _ _ _ _ _ _ _ zero_demo_eq) as (H & _). exact H.
  - eexists. vm_compute. reflexivity.
Qed.
(** U+17000: a letter without a Unicode name *)
Lemma unnamed_letter : exists M word, shipped_units M /\ wf_dict (m_dict M) /\ lower_stable (m_uni M) /\
  morph_parse M word = Err ValueError /\ morph_tag M word = Err ValueError.
Proof.
  exists demo, [94208%N]. split; [exact demo_shipped|]. split; [exact demo_wf_dict|]. split; [exact demo_stable|].
  split; vm_compute; reflexivity.
Qed.
