(** * Lemmas: adding P(t|w) estimates (C66), the whole command *)
From Coq Require Import String List NArith ZArith Bool Lia QArith.
From Verif Require Import Py Uni Tagset Dawg Dict Utils Shapes Units Analyzer ConfigRu ConfigUk Compile Json Storage Create Preprocess Probability AddProb Spec3 Spec4 Spec5 Spec9 Spec16.
From Verif Require Import L_Base L_Tagset L_Storage L_Storage2 L_Storage3 L_Create L_Create2 L_ByUnit L_Probability L_AddProb.
Import ListNotations.
Local Open Scope nat_scope.
Local Open Scope list_scope.

Definition extra_of (uw oc mf : nat) : list (str * jval) :=
  [(u "P(t|w)", JBool true); (u "P(t|w)_unique_words", jnat uw); (u "P(t|w)_outcomes", jnat oc); (u "P(t|w)_min_word_freq", jnat mf)].
Lemma extra_keys : forall uw oc mf, map fst (extra_of uw oc mf) = [u "P(t|w)"; u "P(t|w)_unique_words"; u "P(t|w)_outcomes"; u "P(t|w)_min_word_freq"].
Proof. reflexivity. Qed.
Lemma extra_nodup : forall uw oc mf, NoDup (map fst (extra_of uw oc mf)).
Proof. intros. rewrite extra_keys. repeat constructor; cbn [In]; intuition discriminate. Qed.
Lemma extra_good : forall uw oc mf, extra_ok' (extra_of uw oc mf).
Proof. intros uw oc mf k v [H|[H|[H|[H|[]]]]]; injection H as <- <-; exact I. Qed.
Lemma extra_str : forall uw oc mf, map (fun kv => (fst kv, stringified (snd kv))) (extra_of uw oc mf) = extra_of uw oc mf.
Proof. reflexivity. Qed.
Lemma extra_none : forall uw oc mf k, prefixb (u "P(t|w)") k = false -> sget k (extra_of uw oc mf) = None.
Proof.
  intros uw oc mf k H. destruct (sget k (extra_of uw oc mf)) as [v|] eqn:S; [|reflexivity]. apply dget_In in S; [|apply str_eqb_eq].
  destruct S as [S|[S|[S|[S|[]]]]]; injection S as <- <-; vm_compute in H; discriminate H.
Qed.
Lemma meta_extra : forall M c mf x, probability_meta M c mf = Ok x -> exists d cf, estimate M c = Ok (d, cf) /\
  x = extra_of (length d) (list_sum (map (fun wf : str * fdist => fd_N (snd wf)) cf)) mf.
Proof. intros M c mf x H. unfold probability_meta in H. apply bind_ok in H as ([d cf] & E & H). apply Ok_inj in H. subst x. exists d, cf. auto. Qed.

(** ** the steps of a run *)
Definition run_of (wr : cpd -> list N) (d : folder) (T : cpd) (x : list (str * jval)) : saving :=
  sthen (write_ops TABLE (wr T), Ok tt) (update_meta (frun (write_ops TABLE (wr T)) d) META x).
Lemma add_inv : forall wr W C path c mf C1 s, add_probability wr W C path c mf = (C1, s) ->
  (exists e, s = ([], Err e)) \/
  exists ws z T x, create W C (estimating_args path) = (ws, C1, Ok z) /\ probability_table (z_morph z) c mf = Ok T /\ probability_meta (z_morph z) c mf = Ok x /\
    s = run_of wr (w_folder W path) T x.
Proof.
  intros wr W C path c mf C1 s H. unfold add_probability in H. destruct (create W C (estimating_args path)) as [[ws C0] r] eqn:E. injection H as <- <-.
  destruct r as [z|e]; cbn [bind]; [|left; exists e; reflexivity]. destruct (probability_table (z_morph z) c mf) as [T|e] eqn:ET; cbn [bind]; [|left; exists e; reflexivity].
  destruct (probability_meta (z_morph z) c mf) as [x|e] eqn:EX; cbn [bind]; [|left; exists e; reflexivity]. right. exists ws, z, T, x. auto.
Qed.
Lemma add_eq : forall wr W C path c mf ws C1 z T x, create W C (estimating_args path) = (ws, C1, Ok z) -> probability_table (z_morph z) c mf = Ok T -> probability_meta (z_morph z) c mf = Ok x ->
  add_probability wr W C path c mf = (C1, run_of wr (w_folder W path) T x).
Proof. intros wr W C path c mf ws C1 z T x E ET EX. unfold add_probability. rewrite E. cbn [bind]. rewrite ET. cbn [bind]. rewrite EX. reflexivity. Qed.
Lemma path_picks : forall W path, picks W (estimating_args path) path.
Proof. intros. apply picks_path. reflexivity. Qed.
Lemma created_meta : forall W C a path ws C1 z, picks W a path -> create W C a = (ws, C1, Ok z) -> exists m, load_meta (w_folder W path) META = Ok m.
Proof.
  intros W C a path ws C1 z P H. rewrite (create_at W C a path P) in H. destruct (load_dict _ _ _ _) as [C0 [l|e]] eqn:L; [|discriminate H].
  exists (ld_meta l). exact (load_meta_kept _ _ _ _ _ _ L).
Qed.
Lemma meta_table : META <> TABLE. Proof. discriminate. Qed.
Lemma table_written : forall wr d (T : cpd), load_meta (frun (write_ops TABLE (wr T)) d) META = load_meta d META.
Proof. intros. unfold load_meta, read_file. rewrite write_other by exact meta_table. reflexivity. Qed.
Lemma run_fst : forall wr d T x, fst (run_of wr d T x) = write_ops TABLE (wr T) ++ fst (update_meta (frun (write_ops TABLE (wr T)) d) META x).
Proof. reflexivity. Qed.
Lemma run_snd : forall wr d T x, snd (run_of wr d T x) = snd (update_meta (frun (write_ops TABLE (wr T)) d) META x).
Proof. reflexivity. Qed.
Lemma run_done : forall wr d T uw oc mf m, load_meta d META = Ok m -> let s := run_of wr d T (extra_of uw oc mf) in snd s = Ok tt ->
  load_meta (frun (fst s) d) META = Ok (meta_update m (extra_of uw oc mf)) /\ sget TABLE (frun (fst s) d) = Some (wr T) /\ agree d (frun (fst s) d) /\ keys_agree m (meta_update m (extra_of uw oc mf)).
Proof.
  intros wr d T uw oc mf m L s H. subst s. rewrite run_snd in H. rewrite run_fst, frun_app. set (d1 := frun (write_ops TABLE (wr T)) d) in *.
  assert (L1 : load_meta d1 META = Ok m) by (unfold d1; rewrite table_written; exact L).
  split; [|split; [|split]].
  - rewrite (update_done d1 META _ m L1 (extra_good uw oc mf) H), extra_str. reflexivity.
  - pose proof (update_other d1 META (extra_of uw oc mf) TABLE (length (fst (update_meta d1 META (extra_of uw oc mf))))) as X. rewrite firstn_all in X. rewrite X by (intro E; discriminate E).
    unfold d1. apply write_get.
  - intros f [F1 F2]. pose proof (update_other d1 META (extra_of uw oc mf) f (length (fst (update_meta d1 META (extra_of uw oc mf))))) as X. rewrite firstn_all in X. rewrite X by exact F1.
    unfold d1. apply write_other. exact F2.
  - intros k K. rewrite update_get by apply extra_nodup. rewrite (extra_none _ _ _ _ K). reflexivity.
Qed.
Lemma run_cut : forall wr d T uw oc mf m n, load_meta d META = Ok m -> let s := run_of wr d T (extra_of uw oc mf) in (n < length (fst s) \/ snd s <> Ok tt) ->
  agree d (frun (firstn n (fst s)) d) /\
  ((n <= S (length (wr T)) /\ sget META (frun (firstn n (fst s)) d) = sget META d /\ (n <= length (wr T) -> 0 < n -> exists k, k < length (wr T) /\ sget TABLE (frun (firstn n (fst s)) d) = Some (firstn k (wr T)))) \/
   (S (length (wr T)) < n /\ sget META (frun (firstn n (fst s)) d) <> sget META d /\ exists e, load_meta (frun (firstn n (fst s)) d) META = Err e)).
Proof.
  intros wr d T uw oc mf m n L s H. subst s. rewrite run_snd, run_fst in *. set (d1 := frun (write_ops TABLE (wr T)) d) in *. set (U := update_meta d1 META (extra_of uw oc mf)) in *.
  assert (L1 : load_meta d1 META = Ok m) by (unfold d1; rewrite table_written; exact L).
  assert (LA : length (write_ops TABLE (wr T)) = S (length (wr T))) by (unfold write_ops; cbn [length]; rewrite map_length; reflexivity).
  split.
  - intros f [F1 F2]. apply frun_other. intros o O A. apply firstn_in in O. apply in_app_or in O as [O|O].
    + apply F2. eapply about_fun; [exact A|exact (write_about _ _ _ O)].
    + apply F1. unfold U, update_meta in O. rewrite L1 in O. eapply about_fun; [exact A|exact (json_write_about _ _ _ O)].
  - destruct (Nat.le_gt_cases n (S (length (wr T)))) as [Hn|Hn].
    + left. split; [exact Hn|]. assert (EF : firstn n (write_ops TABLE (wr T) ++ fst U) = firstn n (write_ops TABLE (wr T))) by (apply firstn_le_app; lia). rewrite EF. split.
      * apply frun_other. intros o O A. apply firstn_in in O. apply meta_table. eapply about_fun; [exact A|exact (write_about _ _ _ O)].
      * intros Hk Hp. apply write_cut; [exact Hp|rewrite LA; lia].
    + right. split; [exact Hn|]. assert (EF : firstn n (write_ops TABLE (wr T) ++ fst U) = write_ops TABLE (wr T) ++ firstn (n - S (length (wr T))) (fst U)).
      { rewrite firstn_app, LA. rewrite firstn_all2 by lia. reflexivity. }
      rewrite EF, frun_app. fold d1. destruct (update_cut d1 META (extra_of uw oc mf) m (n - S (length (wr T))) L1 (extra_good uw oc mf)) as (e & E).
      * lia.
      * destruct H as [H|H]; [left; fold U; rewrite app_length, LA in H; lia|right; exact H].
      * fold U in E. split; [|exists e; exact E]. intro X. unfold load_meta, read_file in E, L. rewrite X in E. rewrite L in E. discriminate E.
Qed.

(** ** complete *)
Lemma added : forall wr W C path c mf C1 s, add_probability wr W C path c mf = (C1, s) -> snd s = Ok tt -> gramtab_apart (w_folder W path) ->
  exists ws0 z T, create W C (estimating_args path) = (ws0, C1, Ok z) /\ probability_table (z_morph z) c mf = Ok T /\
  (w_cpd W (wr T) = Ok T -> forall D a ws D' r, a_est a = EstAuto -> picks W a path -> create W D (no_estimator a) = (ws, D', r) ->
     create (set_folder W path (frun (fst s) (w_folder W path))) D a = (ws, D', rmap (fun z => analyzer_with z T) r)).
Proof.
  intros wr W C path c mf C1 s H K G. apply add_inv in H as [(e & ->)|(ws0 & z & T & x & E & ET & EX & ->)]; [discriminate K|].
  exists ws0, z, T. split; [exact E|]. split; [exact ET|]. intros R D a ws D' r EA P Z. apply meta_extra in EX as (d0 & cf & _ & ->).
  destruct (created_meta _ _ _ _ _ _ _ (path_picks W path) E) as (m & L). destruct (run_done wr _ T _ _ _ m L K) as (L' & S & A & KA).
  set (d' := frun (fst (run_of wr (w_folder W path) T _)) (w_folder W path)) in *.
  refine (create_again W a path d' m _ D T ws D' r EA P A G L L' KA _ Z).
  unfold get_prob_estimator, meta_get. rewrite update_get by apply extra_nodup. change (sget (u "P(t|w)") (extra_of (length d0) (list_sum (map (fun wf : str * fdist => fd_N (snd wf)) cf)) mf)) with (Some (JBool true)). cbn [json_true].
  unfold default_estimator. rewrite set_folder_at. unfold read_file. fold TABLE. rewrite S. cbn [bind]. change (w_cpd (set_folder W path d')) with (w_cpd W). rewrite R. reflexivity.
Qed.
(** ** interrupted *)
Lemma nothing : forall W path a D, picks W a path -> create (set_folder W path (w_folder W path)) D a = create W D a.
Proof.
  intros W path a D P. rewrite (create_at _ _ _ path (picks_set W path (w_folder W path) a path P)), set_folder_at, (create_at W D a path P). change (w_io (set_folder W path (w_folder W path))) with (w_io W). change (w_big (set_folder W path (w_folder W path))) with (w_big W).
  destruct (load_dict _ _ _ _) as [C1 [l|e]]; [|reflexivity]. assert (X : finish (set_folder W path (w_folder W path)) a path (requested a) l C1 = finish W a path (requested a) l C1); [|rewrite X; reflexivity].
  unfold finish. assert (E : get_prob_estimator (set_folder W path (w_folder W path)) (a_est a) (ld_meta l) path = get_prob_estimator W (a_est a) (ld_meta l) path).
  { unfold get_prob_estimator, default_estimator. rewrite set_folder_at. reflexivity. }
  rewrite E. reflexivity.
Qed.
Lemma add_cut : forall wr W C path c mf C1 s n, add_probability wr W C path c mf = (C1, s) -> (n < length (fst s) \/ snd s <> Ok tt) -> gramtab_apart (w_folder W path) ->
  let d := w_folder W path in let d' := frun (firstn n (fst s)) d in
  (forall f, f <> META -> f <> TABLE -> sget f d' = sget f d) /\
  forall D a, a_est a = EstAuto -> picks W a path ->
  (sget META d' <> sget META d -> exists e, create (set_folder W path d') D a = ([], D, Err e)) /\
  (sget META d' = sget META d -> ~ declares_table d -> create (set_folder W path d') D a = create W D a).
Proof.
  intros wr W C path c mf C1 s n H B G d d'. apply add_inv in H as [(e & ->)|(ws0 & z & T & x & E & ET & EX & ->)].
  - assert (d' = d) as -> by (unfold d'; cbn [fst]; rewrite firstn_nil; reflexivity). split; [reflexivity|]. intros D a EA P. split; [intros X; destruct (X eq_refl)|]. intros _ _. apply nothing. exact P.
  - apply meta_extra in EX as (d0 & cf & _ & ->). destruct (created_meta _ _ _ _ _ _ _ (path_picks W path) E) as (m & L). destruct (run_cut wr _ T _ _ _ m n L B) as (A & X). fold d d' in A, X.
    split; [intros f F1 F2; apply A; split; assumption|]. intros D a EA P. split.
    + intros N. destruct X as [(_ & S & _)|(_ & _ & e & Le)]; [destruct (N S)|]. exists e. exact (create_bad W a path d' D e P Le).
    + intros S N. exact (create_other W a path d' D EA P N A G S).
Qed.
(** a table that was there before is destroyed at once *)
Lemma add_cut_again : forall wr W C path c mf C1 s n, add_probability wr W C path c mf = (C1, s) -> gramtab_apart (w_folder W path) -> declares_table (w_folder W path) ->
  (forall T k, k < length (wr T) -> exists e, w_cpd W (firstn k (wr T)) = Err e) ->
  let d := w_folder W path in let d' := frun (firstn n (fst s)) d in
  0 < n -> (n < length (fst s) \/ snd s <> Ok tt) -> fst s <> [] ->
  (forall D a, a_est a = EstAuto -> picks W a path -> exists ws D' e, create (set_folder W path d') D a = (ws, D', Err e)) \/
  exists ws z T, create W C (estimating_args path) = (ws, C1, Ok z) /\ probability_table (z_morph z) c mf = Ok T /\ sget META d' = sget META d /\ sget TABLE d' = Some (wr T).
Proof.
  intros wr W C path c mf C1 s n H G N R d d' Hn B Z. apply add_inv in H as [(e & ->)|(ws0 & z & T & x & E & ET & EX & ->)]; [destruct (Z eq_refl)|].
  apply meta_extra in EX as (d0 & cf & _ & ->). destruct (created_meta _ _ _ _ _ _ _ (path_picks W path) E) as (m & L). destruct (run_cut wr _ T _ _ _ m n L B) as (A & X). fold d d' in A, X.
  destruct X as [(Hk & S & X)|(_ & _ & e & Le)]; [|left; intros D a EA P; exists [], D, e; exact (create_bad W a path d' D e P Le)].
  destruct (Nat.le_gt_cases n (length (wr T))) as [Hl|Hl].
  - left. destruct (X Hl Hn) as (k & K & ST). change (sget TABLE d' = Some (firstn k (wr T))) in ST. change (sget META d' = sget META d) in S. destruct (R T k K) as (e & Re). intros D a EA P.
    rewrite (create_at _ _ _ path (picks_set W path d' a path P)), set_folder_at. change (w_io (set_folder W path d')) with (w_io W). change (w_big (set_folder W path d')) with (w_big W).
    destruct (load_dict (w_io W) (w_big W) d' D) as [C2 [l|e']] eqn:LD; [|eauto].
    assert (LM : load_meta d' META = Ok (ld_meta l)) by exact (load_meta_kept _ _ _ _ _ _ LD).
    assert (LM' : load_meta d' META = load_meta d META) by (unfold load_meta, read_file; rewrite S; reflexivity).
    destruct N as (m' & Lm' & J). fold d in Lm'. rewrite LM', Lm' in LM. apply Ok_inj in LM. subst m'.
    assert (Y : forall lang, exists w e, finish (set_folder W path d') a path lang l C2 = (w, Err e)).
    { intros lang. unfold finish. destruct (dictionary l) as [Dd|e1]; [|cbn; eauto]. cbn [wbind Create.quiet snd fst app]. destruct (choose_language _ lang) as [w lg]. cbn [wbind snd fst]. rewrite EA. cbn [get_prob_estimator]. rewrite J.
      unfold default_estimator. rewrite set_folder_at. unfold read_file. fold TABLE. rewrite ST. cbn [bind]. change (w_cpd (set_folder W path d')) with (w_cpd W). rewrite Re. cbn. eauto. }
    destruct (Y (requested a)) as (w & e1 & ->). eauto.
  - right. exists ws0, z, T. split; [exact E|]. split; [exact ET|]. split; [exact S|]. clear S. assert (n = S (length (wr T))) by lia. subst n. unfold d'. rewrite run_fst, firstn_le_app by (unfold write_ops; cbn [length]; rewrite map_length; lia).
    rewrite firstn_all2 by (unfold write_ops; cbn [length]; rewrite map_length; lia). apply write_get.
Qed.

(** ** again, with another corpus *)
Lemma assoc_ext : forall (a b : meta), NoDup (map fst a) -> map fst a = map fst b -> (forall k, sget k a = sget k b) -> a = b.
Proof.
  induction a as [|[k v] a IH]; intros [|[k' v'] b] N E H; cbn [map fst] in E; try discriminate E; [reflexivity|]. injection E as <- E. cbn [map fst] in N. inversion N as [|? ? N1 N2]; subst.
  pose proof (H k) as Hk. unfold sget in Hk. cbn [dget] in Hk. rewrite str_eqb_refl in Hk. injection Hk as <-. f_equal. apply IH; [exact N2|exact E|].
  intros k0. specialize (H k0). unfold sget in H. cbn [dget] in H. destruct (str_eqb k0 k) eqn:Q; [|exact H]. apply str_eqb_eq in Q. subst k0.
  assert (X : forall (l : meta), map fst l = map fst a -> sget k l = None).
  { intros l El. destruct (sget k l) as [w|] eqn:S; [|reflexivity]. apply dget_In in S; [|apply str_eqb_eq]. exfalso. apply N1. rewrite <- El. apply in_map_iff. exists (k, w). auto. }
  rewrite (X a eq_refl), (X b (eq_sym E)). reflexivity.
Qed.
Lemma update_twice : forall (m e1 e2 : meta), NoDup (map fst m) -> NoDup (map fst e1) -> map fst e2 = map fst e1 -> meta_update (meta_update m e1) e2 = meta_update m e2.
Proof.
  intros m e1 e2 Nm N1 E. assert (N2 : NoDup (map fst e2)) by (rewrite E; exact N1). apply assoc_ext.
  - apply update_keys_nodup. apply update_keys_nodup. exact Nm.
  - rewrite !update_keys by assumption. rewrite E. set (ks := map fst e1). set (mk := map fst m).
    assert (X : filter (fun k => negb (smem k (mk ++ filter (fun k0 => negb (smem k0 mk)) ks))) ks = []).
    { destruct (filter _ ks) as [|k r] eqn:F; [reflexivity|]. assert (I : In k (k :: r)) by (left; reflexivity). rewrite <- F in I. apply filter_In in I as [I1 I2]. apply negb_true_iff in I2.
      exfalso. assert (Y : smem k (mk ++ filter (fun k0 => negb (smem k0 mk)) ks) = true); [|rewrite Y in I2; discriminate I2].
      apply smem_In. apply in_or_app. destruct (smem k mk) eqn:S; [left; apply smem_In; exact S|right; apply filter_In; rewrite S; auto]. }
    rewrite X, app_nil_r. reflexivity.
  - intros k. rewrite !update_get by assumption. destruct (sget k e2) eqn:S2; [reflexivity|]. destruct (sget k e1) eqn:S1; [|reflexivity].
    exfalso. apply dget_In in S1; [|apply str_eqb_eq]. assert (I : In k (map fst e2)) by (rewrite E; apply in_map_iff; exists (k, j); auto).
    apply in_map_iff in I as ([k' v'] & <- & I). cbn [fst] in S2. rewrite (sget_nodup _ _ _ N2 I) in S2. discriminate S2.
Qed.
Lemma finish_none : forall W a path lang l m' d' C, a_est a = EstNone -> keys_agree (ld_meta l) m' ->
  finish (set_folder W path d') a path lang (set_meta m' l) C = finish W a path lang l C.
Proof.
  intros W a path lang l m' d' C E K. unfold finish. rewrite (dictionary_again l m' K). destruct (dictionary l) as [D|e]; [|reflexivity].
  assert (EL : meta_get (u "language_code") m' = meta_get (u "language_code") (ld_meta l)) by (unfold meta_get; rewrite (K (u "language_code") eq_refl); reflexivity).
  cbn [wbind Create.quiet snd fst app set_meta ld_meta]. rewrite EL, E. reflexivity.
Qed.
Lemma create_none_again : forall W a path d' m m' D, a_est a = EstNone -> picks W a path ->
  agree (w_folder W path) d' -> gramtab_apart (w_folder W path) -> load_meta (w_folder W path) META = Ok m -> load_meta d' META = Ok m' -> keys_agree m m' ->
  create (set_folder W path d') D a = create W D a.
Proof.
  intros W a path d' m m' D E P A G L L' K. rewrite (create_at _ _ _ path (picks_set W path d' a path P)), set_folder_at, (create_at W D a path P).
  change (w_io (set_folder W path d')) with (w_io W). change (w_big (set_folder W path d')) with (w_big W). rewrite (load_again _ _ _ _ _ _ D A G L L' K).
  destruct (load_dict (w_io W) (w_big W) (w_folder W path) D) as [C1 [l|e]] eqn:EL; cbn [fst snd rmap]; [|reflexivity].
  pose proof (load_meta_kept _ _ _ _ _ _ EL) as LM. rewrite L in LM. apply Ok_inj in LM. subst m. rewrite (finish_none W a path _ l m' d' C1 E K). reflexivity.
Qed.
Lemma update_run : forall d m x f, load_meta d META = Ok m -> update_meta d META x = write_meta META (meta_update m x) /\
  (snd (write_meta META (meta_update m x)) = Ok tt -> f <> META -> sget f (frun (fst (write_meta META (meta_update m x))) d) = sget f d) /\
  (snd (write_meta META (meta_update m x)) = Ok tt -> exists b, json_bytes (meta_json (meta_update m x)) = Ok b /\ sget META (frun (fst (write_meta META (meta_update m x))) d) = Some b).
Proof.
  intros d m x f L. unfold update_meta. rewrite L. split; [reflexivity|]. unfold write_meta. split; intros H; apply json_write_ok in H as (b & B & ->).
  - intros N. apply write_other. exact N.
  - exists b. split; [exact B|apply write_get].
Qed.
Lemma add_again : forall wr W C path c1 mf1 C1 s1 D c2 mf2 C2 s2 C3 s3, gramtab_apart (w_folder W path) ->
  add_probability wr W C path c1 mf1 = (C1, s1) -> snd s1 = Ok tt -> let d := w_folder W path in let d1 := frun (fst s1) d in
  add_probability wr (set_folder W path d1) D path c2 mf2 = (C2, s2) -> add_probability wr W D path c2 mf2 = (C3, s3) ->
  C2 = C3 /\ snd s2 = snd s3 /\ (snd s2 = Ok tt -> forall f, sget f (frun (fst s2) d1) = sget f (frun (fst s3) d)).
Proof.
  intros wr W C path c1 mf1 C1 s1 D c2 mf2 C2 s2 C3 s3 G H1 K1 d d1 H2 H3.
  apply add_inv in H1 as [(e & ->)|(ws0 & z & T & x & E & ET & EX & E1)]; [discriminate K1|]. apply meta_extra in EX as (d0 & cf & _ & ->).
  destruct (created_meta _ _ _ _ _ _ _ (path_picks W path) E) as (m & L). subst s1. destruct (run_done wr _ T _ _ _ m L K1) as (L' & S & A & KA). set (x1 := extra_of _ _ mf1) in *.
  change (load_meta d1 META = Ok (meta_update m x1)) in L'. change (agree d d1) in A.
  pose proof (create_none_again W (estimating_args path) path d1 m (meta_update m x1) D eq_refl (path_picks W path) A G L L' KA) as EC.
  unfold add_probability in H2, H3. rewrite EC in H2. destruct (create W D (estimating_args path)) as [[w C0] r]. injection H2 as <- E2. injection H3 as <- E3. split; [reflexivity|].
  destruct (let* z0 := r in let* T0 := probability_table (z_morph z0) c2 mf2 in let* extra := probability_meta (z_morph z0) c2 mf2 in Ok (T0, extra)) as [[T2 x2]|e] eqn:EB; [|subst s2 s3; split; [reflexivity|intros X; discriminate X]].
  assert (X2 : exists uw oc, x2 = extra_of uw oc mf2).
  { apply bind_ok in EB as (z0 & _ & EB). apply bind_ok in EB as (T0 & _ & EB). apply bind_ok in EB as (x0 & EX & EB). apply Ok_inj in EB. injection EB as _ <-. apply meta_extra in EX as (d3 & cf3 & _ & ->). eauto. }
  destruct X2 as (uw & oc & X2). cbn [set_folder w_folder] in E2. rewrite str_eqb_refl in E2. fold d in E3. cbn [sthen fst snd] in E2, E3.
  set (da := frun (write_ops TABLE (wr T2)) d1) in *. set (db := frun (write_ops TABLE (wr T2)) d) in *.
  assert (LA : load_meta da META = Ok (meta_update m x1)) by (unfold da; rewrite table_written; exact L').
  assert (LB : load_meta db META = Ok m) by (unfold db; rewrite table_written; exact L).
  assert (U : meta_update (meta_update m x1) x2 = meta_update m x2).
  { apply update_twice; [exact (proj1 (load_meta_good _ _ _ L))|apply extra_nodup|rewrite X2; reflexivity]. }
  destruct (update_run da _ x2 [] LA) as (UA & _). destruct (update_run db _ x2 [] LB) as (UB & _). rewrite U in UA.
  change ((write_ops TABLE (wr T2) ++ fst (update_meta da META x2), snd (update_meta da META x2)) = s2) in E2.
  change ((write_ops TABLE (wr T2) ++ fst (update_meta db META x2), snd (update_meta db META x2)) = s3) in E3. rewrite UA in E2. rewrite UB in E3. subst s2 s3. cbn [snd fst]. split; [reflexivity|]. intros OK f.
  rewrite !frun_app. fold da db. destruct (update_run da _ x2 f LA) as (_ & FA & MA). destruct (update_run db _ x2 f LB) as (_ & FB & MB). rewrite U in FA, MA.
  destruct (list_eq_dec N.eq_dec f META) as [->|N].
  - destruct (MA OK) as (b & B & ->). destruct (MB OK) as (b' & B' & ->). rewrite B in B'. apply Ok_inj in B'. subst b'. reflexivity.
  - rewrite (FA OK N), (FB OK N). destruct (list_eq_dec N.eq_dec f TABLE) as [->|N2]; unfold da, db; [rewrite !write_get; reflexivity|]. rewrite !write_other by exact N2. apply A. split; assumption.
Qed.

(** ** what meta.json says *)
Lemma cfd_total : forall l, list_sum (map (fun wf : str * fdist => fd_N (snd wf)) (cond_freq l)) = length l.
Proof.
  assert (X : forall (d : list (str * fdist)) w fd, list_sum (map (fun wf : str * fdist => fd_N (snd wf)) (sset_ w fd d)) + fd_N (match sget w d with Some f => f | None => [] end) =
     list_sum (map (fun wf : str * fdist => fd_N (snd wf)) d) + fd_N fd).
  { assert (LS : forall a l, list_sum (a :: l) = a + list_sum l) by reflexivity.
    intros d w fd. unfold sset_, sget. induction d as [|[k f] d IH]; [cbn [dset dget map snd]; rewrite LS; change (fd_N []) with 0; lia|]. cbn [dset dget]. destruct (str_eqb w k); cbn [map snd]; rewrite !LS; lia. }
  induction l as [|[w g] l IH] using rev_ind; [reflexivity|]. unfold cond_freq in *. rewrite fold_left_app, app_length. cbn [fold_left length]. unfold cfd_add. cbn [fst snd].
  set (d := fold_left cfd_add l []) in *. set (f := match sget w d with Some f => f | None => [] end). specialize (X d w (incr seq_set g f)). fold f in X.
  assert (Y : fd_N (incr seq_set g f) = S (fd_N f)). { unfold incr. pose proof (dset_sum f g (match dget seq_set g f with Some n => S n | None => 1 end)) as Z. unfold fd_count in Z. destruct (dget seq_set g f); lia. }
  rewrite Y in X. change (list_sum (map (fun wf : str * fdist => fd_N (snd wf)) (sset_ w (incr seq_set g f) d)) = length l + 1).
  apply (proj1 (Nat.add_cancel_r _ _ (fd_N f))). etransitivity; [exact X|]. rewrite <- IH. lia.
Qed.
Lemma counted : forall M c l, ambiguous_words M c = Ok l -> length l = length (filter (counts M) c).
Proof.
  intros M c l H. unfold ambiguous_words in H. destruct (filterM _ (disambiguated c)) as [r|e] eqn:F; cbn [bind] in H; [|discriminate H]. apply Ok_inj in H. subst l.
  apply filterM_spec in F. subst r. induction c as [|[v ts] c IH]; [reflexivity|].
  change (disambiguated ((v, ts) :: c)) with ((match ts with [t] => [(v, t)] | _ => [] end) ++ disambiguated c). cbn [filter].
  change (counts M (v, ts)) with (match ts with [t] => str_eqb (u_lower (m_uni M) v) (u_lower (m_uni M) v) && ambiguous M v && negb (seq_set (tag2grammemes t) [u "UNKN"]) | _ => false end). rewrite str_eqb_refl.
  destruct ts as [|t [|t2 r]]; try exact IH. cbn [app]. cbn [filter]. cbn [fst snd]. unfold ambiguous. cbn [andb].
  assert ((match (let* ts := morph_tag M v in Ok (1 <? length ts)) with Ok b => b | Err _ => false end) = (match morph_tag M v with Ok (_ :: _ :: _) => true | _ => false end)) as E.
  { destruct (morph_tag M v) as [[|a [|b r]]|e]; reflexivity. }
  rewrite E. clear E. destruct (match morph_tag M v with Ok (_ :: _ :: _) => true | _ => false end); [|exact IH].
  cbn [map filter fst snd andb]. destruct (seq_set (tag2grammemes t) [u "UNKN"]); cbn [negb]; [exact IH|]. cbn [length]. f_equal. exact IH.
Qed.
Lemma estimate_counts : forall M c d cf, estimate M c = Ok (d, cf) -> list_sum (map (fun wf : str * fdist => fd_N (snd wf)) cf) = length (filter (counts M) c) /\
  NoDup (map fst d) /\ forall w, In w (map fst d) <-> occurrences M c w <> [].
Proof.
  intros M c d cf H. pose proof (estimate_get M c d cf H) as G. unfold estimate in H. destruct (ambiguous_words M c) as [l|e] eqn:A; cbn [bind] in H; [|discriminate H].
  destruct (prob_dists M (cond_freq l)) as [d0|e] eqn:P; cbn [bind] in H; [|discriminate H]. apply Ok_inj in H. injection H as -> <-.
  assert (K : map fst d = map fst (cond_freq l)).
  { revert P. generalize (cond_freq l). intros q. revert d G. clear. intros d _. unfold prob_dists. revert d. induction q as [|[w f] q IH]; intros d P; cbn [mapM] in P; [apply Ok_inj in P; subst; reflexivity|].
    apply bind_ok in P as (y & Y & P). apply bind_ok in P as (ys & YS & P). apply Ok_inj in P. subst d. apply bind_ok in Y as (ts & _ & Y). apply Ok_inj in Y. subst y. cbn [map fst]. rewrite (IH _ YS). reflexivity. }
  split; [rewrite cfd_total; apply counted; exact A|]. split; [rewrite K; apply cfd_NoDup|].
  intros w. split.
  - intros I. apply in_map_iff in I as ([w' [fd b]] & <- & I). apply G in I as (I & _). exact I.
  - intros N. rewrite K. rewrite <- (ambiguous_of M c l w A) in N. pose proof (cfd_get l w) as C. destruct (of_word w l) eqn:O; [destruct (N eq_refl)|]. apply dget_In in C; [|apply str_eqb_eq]. apply in_map_iff. eexists. split; [|exact C]. reflexivity.
Qed.
Lemma add_meta : forall wr W C path c mf C1 s, add_probability wr W C path c mf = (C1, s) -> snd s = Ok tt ->
  let d := w_folder W path in let d' := frun (fst s) d in
  (forall f, f <> META -> f <> TABLE -> sget f d' = sget f d) /\
  exists ws z m m' words, create W C (estimating_args path) = (ws, C1, Ok z) /\ load_meta d META = Ok m /\ load_meta d' META = Ok m' /\
    sget (u "P(t|w)") m' = Some (JBool true) /\ sget (u "P(t|w)_min_word_freq") m' = Some (JInt (Z.of_nat mf)) /\
    sget (u "P(t|w)_outcomes") m' = Some (JInt (Z.of_nat (length (filter (counts (z_morph z)) c)))) /\
    NoDup words /\ (forall w, In w words <-> occurrences (z_morph z) c w <> []) /\ sget (u "P(t|w)_unique_words") m' = Some (JInt (Z.of_nat (length words))) /\
    forall k, ~ In k [u "P(t|w)"; u "P(t|w)_unique_words"; u "P(t|w)_outcomes"; u "P(t|w)_min_word_freq"] -> sget k m' = sget k m.
Proof.
  intros wr W C path c mf C1 s H K d d'. apply add_inv in H as [(e & ->)|(ws0 & z & T & x & E & ET & EX & ->)]; [discriminate K|].
  apply meta_extra in EX as (d0 & cf & EE & ->). destruct (created_meta _ _ _ _ _ _ _ (path_picks W path) E) as (m & L). destruct (run_done wr _ T _ _ _ m L K) as (L' & S & A & KA). change (agree d d') in A. change (load_meta d' META = Ok (meta_update m (extra_of (length d0) (list_sum (map (fun wf : str * fdist => fd_N (snd wf)) cf)) mf))) in L'.
  split; [intros f F1 F2; apply A; split; assumption|]. destruct (estimate_counts _ _ _ _ EE) as (N1 & N2 & N3).
  exists ws0, z, m, (meta_update m (extra_of (length d0) (list_sum (map (fun wf : str * fdist => fd_N (snd wf)) cf)) mf)), (map fst d0).
  split; [exact E|]. split; [exact L|]. split; [exact L'|]. rewrite !update_get by apply extra_nodup. rewrite map_length, <- N1.
  split; [reflexivity|]. split; [reflexivity|]. split; [reflexivity|]. split; [exact N2|]. split; [exact N3|]. split; [reflexivity|].
  intros k Hk. rewrite update_get by apply extra_nodup. destruct (sget k (extra_of _ _ mf)) as [v|] eqn:SK; [|reflexivity]. exfalso. apply Hk. rewrite <- (extra_keys (length d0) (list_sum (map (fun wf : str * fdist => fd_N (snd wf)) cf)) mf).
  apply dget_In in SK; [|apply str_eqb_eq]. apply in_map_iff. exists (k, v). auto.
Qed.
