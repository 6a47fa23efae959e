(** * Known and unknown prefixes (lemmas for C65) *)
From Coq Require Import String List NArith ZArith Bool QArith Lia Sorting.Sorted Sorting.Permutation.
From Verif Require Import Py Uni Tagset Dawg Utils Shapes Dict Units Analyzer ConfigRu ConfigUk Compile Spec Spec2 Spec15.
From Verif Require Import L_Base L_Run L_Made L_Words L_ByUnit.
Import ListNotations.
Local Open Scope nat_scope.
Local Open Scope list_scope.

Lemma prefixed_ok : forall self mult prefix q, prefixed_as self mult prefix q (prefixed self mult prefix q).
Proof. intros. unfold prefixed_as, prefixed. cbn. auto. Qed.
Lemma last_opt_app : forall {A} (l : list A) x, last_opt (l ++ [x]) = Some x.
Proof. intros. unfold last_opt. rewrite rev_app_distr. reflexivity. Qed.
Lemma last_prefixed : forall self mult prefix q, last_text (prefixed self mult prefix q) = prefix.
Proof. intros. unfold last_text, prefixed. cbn [p_stack]. rewrite last_opt_app. reflexivity. Qed.

Lemma matcher_complete : forall ext ps w p r, ~ In [] ps -> In p ps -> w = p ++ r -> In p (matcher_prefixes ext ps w).
Proof.
  intros ext ps w p r N I E. destruct ext; cbn [matcher_prefixes].
  - apply filter_In. split; [|apply smem_In; exact I]. apply nonempty_prefixes_In. split; [intros ->; exact (N I)|]. exists r. exact E.
  - unfold py_prefixes. assert (P : prefixb p w = true) by (apply prefixb_spec; exists r; exact E).
    assert (X : py_is_prefixed ps w = true) by (apply existsb_exists; exists p; auto). rewrite X. apply filter_In. auto.
Qed.
Lemma kp_splits_iff : forall M prefixes minrem w prefix rest, ~ In [] prefixes -> (In (prefix, rest) (kp_splits M prefixes minrem w) <->
  In prefix prefixes /\ w = prefix ++ rest /\ minrem <= length rest).
Proof.
  intros M prefixes minrem w prefix rest N. split; [apply kp_splits_In|]. intros (I & -> & L). unfold kp_splits. apply filter_In. split.
  - apply in_map_iff. exists prefix. rewrite skipn_app_exact. split; [reflexivity|]. apply sort_desc_In. apply (matcher_complete _ _ _ _ rest N I eq_refl).
  - cbn [snd]. apply negb_true_iff, Nat.ltb_ge. exact L.
Qed.

(** the loop over the splits *)
Lemma para_key_prefixed : forall self mult prefix q, para_key_of (prefixed self mult prefix q) = para_key_of q.
Proof. intros. unfold para_key_of, prefixed. cbn [p_stack]. destruct (p_stack q) as [|[] l]; reflexivity. Qed.

Lemma prefix_loop : forall (rec : str -> res (list parse)) self mult splits res seen ps seen',
  foldM (fun st (pr : str * str) => let '(prefix, rest) := pr in let* qs := rec rest in Ok (prefix_step self mult prefix st qs)) (res, seen) splits = Ok (ps, seen') ->
  exists news, ps = res ++ concat (map snd news) /\ map fst news = splits /\ seen' = rev (map key_of (concat (map snd news))) ++ seen /\
    forall prefix rest new, In ((prefix, rest), new) news -> exists qs, rec rest = Ok qs /\
      (forall p, In p new -> exists q, In q qs /\ is_productive (p_tag q) = true /\ p = prefixed self mult prefix q) /\
      (forall q, In q qs -> is_productive (p_tag q) = true -> In (prefixed self mult prefix q) new \/ seen_mem (key_of (prefixed self mult prefix q)) seen' = true).
Proof.
  induction splits as [|[prefix rest] splits IH]; intros res seen ps seen' H; cbn [foldM] in H.
  - apply Ok_inj in H. injection H as <- <-. exists []. cbn. rewrite app_nil_r. repeat split; auto. intros ? ? ? [].
  - apply bind_ok in H as ([r1 s1] & E & H). apply bind_ok in E as (qs & R & E). apply Ok_inj in E. unfold prefix_step in E.
    apply add_parses_spec in E as (new & -> & -> & A & B). apply IH in H as (news & -> & F & -> & G).
    exists (((prefix, rest), new) :: news). cbn [map snd fst concat]. split; [rewrite app_assoc; reflexivity|]. split; [rewrite F; reflexivity|].
    split. { rewrite map_app, rev_app_distr, app_assoc. reflexivity. }
    intros pr re nw [X|X].
    + injection X as <- <- <-. exists qs. split; [exact R|]. split.
      * intros p P. apply A in P. apply in_map_iff in P as (q & <- & Q). apply filter_In in Q as [Q1 Q2]. exists q. auto.
      * intros q Q P. destruct (B (prefixed self mult prefix q)) as [Bq|Bq]; [apply in_map; apply filter_In; auto|left; exact Bq|right].
        unfold seen_mem in *. rewrite existsb_app, Bq. apply orb_true_r.
    + destruct (G pr re nw X) as (qs' & R' & G1 & G2). exists qs'. auto.
Qed.

Lemma productive_iff : forall t, is_productive t = true <-> productive t.
Proof. intro t. unfold productive. apply is_productive_spec. Qed.

Lemma Sorted_lens : forall l : list (str * str), StronglySorted (fun a b => length (fst b) <= length (fst a)) l ->
  forall news : list ((str * str) * list parse), map fst news = l ->
  (forall pr new p, In (pr, new) news -> In p new -> last_text p = fst pr) ->
  StronglySorted (fun p p' => length (last_text p') <= length (last_text p)) (concat (map snd news)).
Proof.
  induction 1 as [|a l S IH F]; intros [|[pr new] news] E H; try discriminate E; [constructor|]. cbn [map fst] in E. injection E as -> E.
  cbn [map snd concat]. specialize (IH news E (fun pr nw p X Y => H pr nw p (or_intror X) Y)).
  assert (K : forall p, In p (concat (map snd news)) -> length (last_text p) <= length (fst a)).
  { intros p P. apply in_concat in P as (nw & N & P). apply in_map_iff in N as ([pr' nw'] & <- & N). cbn [snd] in P.
    rewrite (H pr' nw' p (or_intror N) P). rewrite Forall_forall in F. apply F. rewrite <- E. exact (in_map fst _ _ N). }
  assert (T : forall p, In p new -> last_text p = fst a) by (intros p P; apply (H a new p (or_introl eq_refl) P)).
  clear H. induction new as [|p new IHn]; [exact IH|]. cbn [app]. constructor; [apply IHn; intros; apply T; right; auto|].
  apply Forall_forall. intros x X. rewrite (T p (or_introl eq_refl)). apply in_app_iff in X as [X|X]; [rewrite (T x (or_intror X)); auto|auto].
Qed.
Lemma kp_splits_sorted : forall M prefixes minrem w, StronglySorted (fun a b => length (fst b) <= length (fst a)) (kp_splits M prefixes minrem w).
Proof.
  intros. unfold kp_splits.
  assert (S : StronglySorted (fun a b => len_geb a b = true) (sort_desc len_geb (matcher_prefixes (m_ext M) prefixes w))).
  { apply sort_desc_sorted; unfold len_geb; intros; rewrite ?Nat.leb_le, ?Nat.leb_gt in *; lia. }
  induction S as [|p l S IH F]; [constructor|]. cbn [map filter]. destruct (negb _); [|exact IH]. constructor; [exact IH|].
  apply Forall_forall. intros x X. apply filter_In in X as [X _]. apply in_map_iff in X as (y & <- & Y). rewrite Forall_forall in F. specialize (F y Y). cbn [fst]. unfold len_geb in F. apply Nat.leb_le in F. exact F.
Qed.

Lemma seen_new : forall k l, seen_mem k (rev (map key_of l) ++ []) = true -> exists p, In p l /\ skey_eqb k (key_of p) = true.
Proof.
  intros k l H. rewrite app_nil_r in H. unfold seen_mem in H. apply existsb_exists in H as (x & X & E). rewrite <- in_rev in X. apply in_map_iff in X as (p & <- & P). eauto.
Qed.

Lemma loop_exact : forall (rec : str -> res (list parse)) self mult splits seen ps seen',
  foldM (fun st (pr : str * str) => let '(prefix, rest) := pr in let* qs := rec rest in Ok (prefix_step self mult prefix st qs)) ([], seen) splits = Ok (ps, seen') ->
  (forall p, In p ps -> exists prefix rest qs q, In (prefix, rest) splits /\ rec rest = Ok qs /\ In q qs /\ productive (p_tag q) /\ prefixed_as self mult prefix q p) /\
  (forall prefix rest, In (prefix, rest) splits -> exists qs, rec rest = Ok qs /\
     (seen = [] -> forall q, In q qs -> productive (p_tag q) -> exists p, In p ps /\ p_word p = prefix ++ p_word q /\ t_gr (p_tag p) = t_gr (p_tag q))) /\
  (StronglySorted (fun a b => length (fst b) <= length (fst a)) splits -> StronglySorted (fun p p' => length (last_text p') <= length (last_text p)) ps).
Proof.
  intros rec self mult splits seen ps seen' H. apply prefix_loop in H as (news & E1 & E2 & E3 & G). cbn [app] in E1. split; [|split].
  - intros p P. rewrite E1 in P. apply in_concat in P as (nw & N & P). apply in_map_iff in N as ([[prefix rest] nw'] & <- & N). cbn [snd] in P.
    destruct (G _ _ _ N) as (qs & R & A & _). destruct (A p P) as (q & Q & Pr & ->). exists prefix, rest, qs, q. split; [rewrite <- E2; exact (in_map fst _ _ N)|].
    split; [exact R|]. split; [exact Q|]. split; [apply productive_iff; exact Pr|apply prefixed_ok].
  - intros prefix rest I. rewrite <- E2 in I. apply in_map_iff in I as ([[pr re] nw] & X & N). cbn [fst] in X. injection X as -> ->.
    destruct (G _ _ _ N) as (qs & R & _ & B). exists qs. split; [exact R|]. intros -> q Q Pr. apply productive_iff in Pr. destruct (B q Q Pr) as [Y|Y].
    + exists (prefixed self mult prefix q). split; [|split; reflexivity]. rewrite E1. apply in_concat. exists nw. split; [exact (in_map snd _ _ N)|exact Y].
    + rewrite E3 in Y. apply seen_new in Y as (p & P & K). exists p. split; [rewrite E1; exact P|]. unfold key_of in K. cbn [skey_eqb] in K.
      apply andb_true_iff in K as [K _]. apply andb_true_iff in K as [K1 K2]. apply str_eqb_eq in K1. apply tag_eqb_iff in K2. split; symmetry; auto.
  - intro S. rewrite E1. apply (Sorted_lens _ S); auto. intros [prefix rest] nw p N P. destruct (G _ _ _ N) as (qs & _ & A & _). destruct (A p P) as (q & _ & _ & ->). apply last_prefixed.
Qed.

Lemma kp_unit : forall M i b prefixes mult minrem word lower seen ps seen', b_cfg b = UKnownPrefix prefixes mult minrem -> ~ In [] prefixes ->
  unit_parse (morph_parse M) (morph_tag M) M i b word lower seen = Ok (ps, seen') ->
  (forall p, In p ps -> exists prefix rest qs q, In prefix prefixes /\ lower = prefix ++ rest /\ minrem <= length rest /\
     morph_parse M rest = Ok qs /\ In q qs /\ productive (p_tag q) /\ prefixed_as (Root i) mult prefix q p) /\
  (forall prefix rest, In prefix prefixes -> lower = prefix ++ rest -> minrem <= length rest ->
     exists qs, morph_parse M rest = Ok qs /\
       (seen = [] -> forall q, In q qs -> productive (p_tag q) -> exists p, In p ps /\ p_word p = prefix ++ p_word q /\ t_gr (p_tag p) = t_gr (p_tag q))) /\
  StronglySorted (fun p p' => length (last_text p') <= length (last_text p)) ps.
Proof.
  intros M i b prefixes mult minrem word lower seen ps seen' C N H. unfold unit_parse in H. rewrite C in H. unfold kp_parse in H.
  destruct (loop_exact _ _ _ _ _ _ _ H) as (A & B & S). split; [|split; [|exact (S (kp_splits_sorted _ _ _ _))]].
  - intros p P. destruct (A p P) as (prefix & rest & qs & q & I & R). apply (kp_splits_iff M _ _ _ _ _ N) in I as (I1 & I2 & I3). exists prefix, rest, qs, q. auto.
  - intros prefix rest I1 I2 I3. apply B. apply (kp_splits_iff M _ _ _ _ _ N). auto.
Qed.
Lemma up_unit : forall M i b mult word lower seen ps seen', b_cfg b = UUnknownPrefix mult ->
  unit_parse (morph_parse M) (morph_tag M) M i b word lower seen = Ok (ps, seen') ->
  forall prefix rest, lower = prefix ++ rest -> 1 <= length prefix <= 5 -> 3 <= length rest ->
    exists qs, dict_parse M (Sub i) rest = Ok qs /\
     (seen = [] -> forall q, In q qs -> productive (p_tag q) -> exists p, In p ps /\ p_word p = prefix ++ p_word q /\ t_gr (p_tag p) = t_gr (p_tag q)).
Proof.
  intros M i b mult word lower seen ps seen' C H prefix rest E L1 L2. unfold unit_parse in H. rewrite C in H. unfold up_parse in H.
  destruct (loop_exact _ _ _ _ _ _ _ H) as (_ & B & _). apply B. apply word_splits_In. auto.
Qed.

Lemma kp_sound : forall M word ps p i b tm prefixes mult minrem, lower_stable (m_uni M) ->
  Forall (fun bt => prefixes_nonempty (fst bt)) (m_units M) ->
  morph_parse M word = Ok ps -> In p ps -> made_by p = Some (Root i) -> nth_error (m_units M) i = Some (b, tm) ->
  b_cfg b = UKnownPrefix prefixes mult minrem ->
  exists prefix rest qs q p0, In prefix prefixes /\ u_lower (m_uni M) word = prefix ++ rest /\ minrem <= length rest /\
    morph_parse M rest = Ok qs /\ In q qs /\ productive (p_tag q) /\ prefixed_as (Root i) mult prefix q p0 /\ content p = content p0 /\ (m_prob M = None -> p = p0).
Proof.
  intros M word ps p i b tm prefixes mult minrem St F H Hp Mb Hi C.
  destruct (parse_by_unit _ _ _ _ _ _ _ St F H Hp Mb Hi) as (p0 & Md & Ec & Ep).
  destruct Md; try congruence; [destruct H0 as [H0|[H0|[H0|H0]]]; congruence|].
  assert (EE : UKnownPrefix prefixes mult minrem = UKnownPrefix prefixes0 mult0 minrem0) by congruence. injection EE as <- <- <-.
  apply kp_splits_In in H1 as (I1 & I2 & I3). exists prefix, rest, ps0, p0, (prefixed (Root i) mult prefix p0).
  repeat (split; [assumption|]). split; [apply productive_iff; assumption|]. split; [apply prefixed_ok|]. auto.
Qed.

(** prefixes that can never match *)
Lemma capital_dead : forall U p c, lower_stable U -> lowers_capitals U -> In c p -> capital c = true -> forall word rest, u_lower U word <> p ++ rest.
Proof.
  intros U p c St LC I K word rest E. apply in_split in I as (a & z & ->). apply (LC c K). apply (St word a [c] (z ++ rest)).
  rewrite E, <- app_assoc. reflexivity.
Qed.
