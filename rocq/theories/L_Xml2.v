(** * XML dictionaries: whole documents *)
From Coq Require Import String List NArith ZArith Bool Lia.
From Verif Require Import Py Uni Tagset Compile Json XmlParse Spec Spec7 L_Base L_Tags2 L_Xml L_Pre.
Import ListNotations.
Local Open Scope nat_scope.
Local Open Scope list_scope.

Definition walk_go (U : uni) (lx : bool) : list xelem -> list xelem -> parsed -> res (parsed * list xelem) :=
  fix go ks kept P := match ks with
    | [] => Ok (P, kept)
    | k :: r => let* pk := walk U lx k P in go r (if lx && interesting k then [snd pk] else kept ++ [snd pk]) (fst pk)
    end.
Lemma walk_eq : forall U lx t a x ks P, walk U lx (Elem t a x ks) P =
  let* pk := walk_go U lx ks [] P in
  if interesting (Elem t a x (snd pk)) then let* P' := handle U (fst pk) (Elem t a x (snd pk)) in Ok (P', cleared (Elem t a x (snd pk)))
  else Ok (fst pk, Elem t a x (snd pk)).
Proof. reflexivity. Qed.
Lemma interesting_tag : forall t a x ks a' x' ks', interesting (Elem t a x ks) = interesting (Elem t a' x' ks'). Proof. reflexivity. Qed.

Lemma walk_boring : forall U lx e P, (forall d, In d (preorder e) -> interesting d = false) -> walk U lx e P = Ok (P, e).
Proof.
  intros U lx e. induction e as [t a x ks IH] using xelem_ind2. intros P H. rewrite walk_eq.
  assert (forall kept P, (forall k, In k ks -> forall d, In d (preorder k) -> interesting d = false) -> walk_go U lx ks kept P = Ok (P, kept ++ ks)) as G.
  { clear H P. induction ks as [|k ks IHk]; intros kept P H; [simpl; rewrite app_nil_r; auto|]. cbn [walk_go]. rewrite (IH k (or_introl eq_refl)) by (apply H; left; auto).
    cbn [bind fst snd]. rewrite (H k (or_introl eq_refl) k (preorder_self k)), andb_false_r. rewrite IHk; [rewrite <- app_assoc; auto| |].
    - intros y Iy. apply IH. right. auto.
    - intros y Iy. apply H. right. auto. }
  rewrite G.
  - cbn [bind fst snd app]. rewrite (H _ (preorder_self (Elem t a x ks))). auto.
  - intros k Ik d Id. apply H. cbn [preorder]. right. apply in_flat_map. eauto.
Qed.
Lemma filter_none : forall {A} (f : A -> bool) l, (forall x, In x l -> f x = false) -> filter f l = [].
Proof. induction l as [|x l IH]; intro H; auto. simpl. rewrite (H x (or_introl eq_refl)). apply IH. intros. apply H. right. auto. Qed.
Lemma flat_kid : forall t a x ks k, flat (Elem t a x ks) -> In k ks -> flat k.
Proof. intros t a x ks k F I e Ie. apply F. cbn [preorder]. right. apply in_flat_map. eauto. Qed.
Lemma foldM_app : forall {A S} (f : S -> A -> res S) l1 l2 s, foldM f s (l1 ++ l2) = let* s' := foldM f s l1 in foldM f s' l2.
Proof. induction l1 as [|x l1 IH]; intros l2 s; auto. cbn [app foldM]. destruct (f s x); auto. cbn [bind]. apply IH. Qed.
(** a flat document: the recorded elements are handled in document order *)
Lemma walk_flat : forall U lx e P, flat e ->
  match foldM (handle U) P (filter interesting (preorder e)) with
  | Ok P' => exists e', walk U lx e P = Ok (P', e')
  | Err x => walk U lx e P = Err x
  end.
Proof.
  intros U lx e. induction e as [t a x ks IH] using xelem_ind2. intros P F. rewrite walk_eq. cbn [preorder filter]. destruct (interesting (Elem t a x ks)) eqn:I.
  - assert (forall k, In k ks -> forall d, In d (preorder k) -> interesting d = false) as B.
    { intros k Ik d Id. eapply (F (Elem t a x ks)); eauto. left. auto. }
    rewrite (filter_none interesting (flat_map preorder ks)) by (intros d Id; apply in_flat_map in Id as (k & Ik & Id); eauto).
    assert (forall kept, walk_go U lx ks kept P = Ok (P, kept ++ ks)) as G.
    { clear IH F I. induction ks as [|k ks IHk]; intro kept; [simpl; rewrite app_nil_r; auto|]. cbn [walk_go]. rewrite walk_boring by (apply B; left; auto).
      cbn [bind fst snd]. rewrite (B k (or_introl eq_refl) k (preorder_self k)), andb_false_r. rewrite IHk; [rewrite <- app_assoc; auto|]. intros y Iy. apply B. right. auto. }
    rewrite G. cbn [bind fst snd app foldM]. rewrite I. destruct (handle U P (Elem t a x ks)) as [P'|er]; cbn [bind]; eauto.
  - assert (forall kept, match foldM (handle U) P (filter interesting (flat_map preorder ks)) with
       | Ok P' => exists ks', walk_go U lx ks kept P = Ok (P', ks')
       | Err er => walk_go U lx ks kept P = Err er end) as G.
    { assert (forall k, In k ks -> flat k) as F' by (intros; eapply flat_kid; eauto). clear F I. revert P. induction ks as [|k ks IHk]; intros P kept; [simpl; eauto|].
      cbn [flat_map]. rewrite filter_app, foldM_app. cbn [walk_go]. pose proof (IH k (or_introl eq_refl) P (F' k (or_introl eq_refl))) as W.
      destruct (foldM (handle U) P (filter interesting (preorder k))) as [P'|er]; cbn [bind].
      - destruct W as (e' & ->). cbn [bind fst snd]. apply IHk; intros; [apply IH|apply F']; try (right; auto); auto.
      - rewrite W. auto. }
    specialize (G []). destruct (foldM (handle U) P (filter interesting (flat_map preorder ks))) as [P'|er].
    + destruct G as (ks' & ->). cbn [bind fst snd]. rewrite (interesting_tag t a x ks' a x ks), I. eauto.
    + rewrite G. auto.
Qed.
Lemma parse_xml_flat : forall U lx doc, flat doc ->
  parse_xml U lx doc = foldM (handle U) (MkParsed [] [] [] (fst (get_dictionary_info doc)) (snd (get_dictionary_info doc))) (filter interesting (preorder doc)).
Proof.
  intros U lx doc F. unfold parse_xml. pose proof (walk_flat U lx doc (MkParsed [] [] [] (fst (get_dictionary_info doc)) (snd (get_dictionary_info doc))) F) as W.
  destruct (foldM _ _ _) as [P|er]; [destruct W as (e' & ->); auto|rewrite W; auto].
Qed.
Lemma libraries_agree : forall U doc, flat doc -> parse_xml U true doc = parse_xml U false doc.
Proof. intros U doc F. rewrite !parse_xml_flat; auto. Qed.

(** the three tags are different *)
Lemma tags_differ : forall e, (has_tag (u "grammeme") e = true -> has_tag (u "lemma") e = false /\ has_tag (u "link") e = false) /\
  (has_tag (u "lemma") e = true -> has_tag (u "grammeme") e = false /\ has_tag (u "link") e = false) /\
  (has_tag (u "link") e = true -> has_tag (u "grammeme") e = false /\ has_tag (u "lemma") e = false).
Proof.
  intro e. unfold has_tag. split; [|split]; intro H; apply str_eqb_eq in H; rewrite H; split; vm_compute; reflexivity.
Qed.
Lemma handle_cases : forall U P e P', interesting e = true -> handle U P e = Ok P' ->
  (has_tag (u "grammeme") e = true /\ has_tag (u "lemma") e = false /\ has_tag (u "link") e = false /\ exists r, grammeme_row e r /\
     P' = MkParsed (xp_lexemes P) (xp_links P) (xp_grammemes P ++ [r]) (xp_version P) (xp_revision P)) \/
  (has_tag (u "grammeme") e = false /\ has_tag (u "lemma") e = true /\ has_tag (u "link") e = false /\ exists fs, lemma_forms U e fs /\
     P' = MkParsed (dset (opt_eqb str_eqb) (x_get (u "id") e) fs (xp_lexemes P)) (xp_links P) (xp_grammemes P) (xp_version P) (xp_revision P)) \/
  (has_tag (u "grammeme") e = false /\ has_tag (u "lemma") e = false /\ has_tag (u "link") e = true /\
     P' = MkParsed (xp_lexemes P) (xp_links P ++ [link_row e]) (xp_grammemes P) (xp_version P) (xp_revision P)).
Proof.
  intros U P e P' I H. destruct (tags_differ e) as (T1 & T2 & T3). unfold interesting in I. unfold handle in H.
  destruct (has_tag (u "grammeme") e) eqn:G.
  - left. destruct T1 as (L & K); auto. rewrite L, K in *. split; [auto|]. split; [auto|]. split; [auto|].
    apply bind_ok in H as (P1 & H0 & H'). apply Ok_inj in H'. subst P1. rename H0 into H. unfold find_text in H.
    apply bind_ok in H as (n & N & H). apply bind_ok in H as (al & A & H). apply bind_ok in H as (d & D & H).
    destruct (find (has_tag (u "name")) (x_kids e)) as [n'|] eqn:F1; [|discriminate N].
    destruct (find (has_tag (u "alias")) (x_kids e)) as [a'|] eqn:F2; [|discriminate A].
    destruct (find (has_tag (u "description")) (x_kids e)) as [d'|] eqn:F3; [|discriminate D].
    apply Ok_inj in N. apply Ok_inj in A. apply Ok_inj in D. apply Ok_inj in H. subst. eexists. split; [|reflexivity]. exists n', a', d'. auto.
  - cbn [bind] in H. destruct (has_tag (u "lemma") e) eqn:L.
    + right. left. destruct T2 as (_ & K); auto. split; [auto|]. split; [auto|]. split; [auto|]. apply bind_ok in H as ([id fs] & W & H). apply word_forms_sound in W as (-> & W).
      apply Ok_inj in H. exists fs. cbn [fst snd] in H. auto.
    + right. right. cbn [orb] in I. rewrite I in *. apply Ok_inj in H. auto.
Qed.

Definition of_tag (t : str) (l : list xelem) : list xelem := filter (has_tag t) l.
Lemma oeqb_eq : forall a b : option str, opt_eqb str_eqb a b = true <-> a = b.
Proof. intros [a|] [b|]; simpl; split; intro H; try discriminate H; auto; [apply str_eqb_eq in H; congruence|inversion H; apply str_eqb_eq; auto]. Qed.
(** state after a list of recorded elements *)
Definition doc_inv (U : uni) (l : list xelem) (P : parsed) : Prop :=
  xp_links P = map link_row (of_tag (u "link") l) /\
  Forall2 grammeme_row (of_tag (u "grammeme") l) (xp_grammemes P) /\
  NoDup (map fst (xp_lexemes P)) /\
  (forall id fs, lexeme_with id P = Some fs -> exists p e r, of_tag (u "lemma") l = p ++ e :: r /\ x_get (u "id") e = id /\
     (forall e', In e' r -> x_get (u "id") e' <> id) /\ lemma_forms U e fs) /\
  (forall e, In e (of_tag (u "lemma") l) -> lexeme_with (x_get (u "id") e) P <> None).
Lemma dget_dset_o : forall (d : list (option str * lexeme)) k v k', dget (opt_eqb str_eqb) k' (dset (opt_eqb str_eqb) k v d) = if opt_eqb str_eqb k' k then Some v else dget (opt_eqb str_eqb) k' d.
Proof.
  assert (S : forall a b : option str, opt_eqb str_eqb a b = opt_eqb str_eqb b a).
  { intros a b. apply eq_true_iff_eq. rewrite !oeqb_eq. split; congruence. }
  induction d as [|[k0 v0] d IH]; intros k v k'; cbn [dset dget].
  - destruct (opt_eqb str_eqb k' k); auto.
  - destruct (opt_eqb str_eqb k k0) eqn:E; cbn [dget].
    + apply oeqb_eq in E. subst. destruct (opt_eqb str_eqb k' k0); auto.
    + rewrite IH. destruct (opt_eqb str_eqb k' k0) eqn:F; auto. apply oeqb_eq in F. subst. rewrite S, E. auto.
Qed.
Lemma doc_fold : forall U l P0 P, (forall e, In e l -> interesting e = true) -> xp_lexemes P0 = [] -> xp_links P0 = [] -> xp_grammemes P0 = [] ->
  foldM (handle U) P0 l = Ok P -> doc_inv U l P /\ xp_version P = xp_version P0 /\ xp_revision P = xp_revision P0.
Proof.
  intros U l P0 P I E1 E2 E3. revert P I. induction l as [|e l IH] using rev_ind; intros P I H.
  - apply Ok_inj in H. subst P. split; [|auto]. unfold doc_inv, lexeme_with. rewrite E1, E2, E3. simpl. split; [auto|]. split; [constructor|]. split; [constructor|]. split; [intros id fs X; discriminate X|intros e []].
  - rewrite foldM_app in H. apply bind_ok in H as (P1 & H1 & H). cbn [foldM] in H. apply bind_ok in H as (P2 & H0 & H2). rename H0 into H. apply Ok_inj in H2. subst P2.
    destruct (IH P1) as ((J1 & J2 & J3 & J4 & J5) & V1 & V2); [intros; apply I; apply in_or_app; auto|exact H1|].
    unfold doc_inv, of_tag. rewrite !filter_app. cbn [filter]. unfold of_tag in *.
    apply handle_cases in H as [(G & L & K & r & R & ->)|[(G & L & K & fs & R & ->)|(G & L & K & ->)]]; [| | |apply I; apply in_or_app; right; left; auto];
      rewrite G, L, K; cbn [xp_links xp_grammemes xp_lexemes xp_version xp_revision]; rewrite ?app_nil_r; (split; [|auto]).
    + split; [auto|]. split; [apply Forall2_app; auto|]. split; [auto|]. split; auto.
    + split; [auto|]. split; [auto|]. split; [apply dset_NoDup; [exact oeqb_eq|exact J3]|]. unfold lexeme_with. cbn [xp_lexemes]. split.
      * intros id fs' X. rewrite dget_dset_o in X. destruct (opt_eqb str_eqb id (x_get (u "id") e)) eqn:Q.
        { inversion X; subst. apply oeqb_eq in Q. subst id. exists (filter (has_tag (u "lemma")) l), e, []. split; [auto|]. split; [auto|]. split; [intros e' []|auto]. }
        destruct (J4 _ _ X) as (p & e0 & r & Y1 & Y2 & Y3 & Y4). exists p, e0, (r ++ [e]). split; [rewrite Y1, <- app_assoc; auto|]. split; [auto|]. split; [|auto].
        intros e' Ie. apply in_app_iff in Ie as [Ie|[<-|[]]]; auto. intro Z. rewrite Z in Q. assert (opt_eqb str_eqb id id = true) as W by (apply oeqb_eq; auto). congruence.
      * intros e' Ie. rewrite dget_dset_o. destruct (opt_eqb str_eqb (x_get (u "id") e') (x_get (u "id") e)) eqn:Q; [discriminate|].
        apply in_app_iff in Ie as [Ie|[<-|[]]]; [apply J5; auto|]. assert (opt_eqb str_eqb (x_get (u "id") e) (x_get (u "id") e) = true) as W by (apply oeqb_eq; auto). congruence.
    + split; [rewrite map_app, J1; auto|]. auto.
Qed.
Lemma iter_interesting : forall t doc, (forall e, has_tag t e = true -> interesting e = true) -> of_tag t (filter interesting (preorder doc)) = x_iter t doc.
Proof.
  intros t doc H. unfold of_tag, x_iter. induction (preorder doc) as [|e l IH]; auto. simpl. destruct (interesting e) eqn:I; simpl.
  - destruct (has_tag t e); rewrite IH; auto.
  - destruct (has_tag t e) eqn:T; [rewrite (H e T) in I; discriminate I|auto].
Qed.
Lemma document_sound : forall U lx doc P, flat doc -> parse_xml U lx doc = Ok P ->
  xp_links P = map link_row (x_iter (u "link") doc) /\
  Forall2 grammeme_row (x_iter (u "grammeme") doc) (xp_grammemes P) /\
  NoDup (map fst (xp_lexemes P)) /\
  (forall id fs, lexeme_with id P = Some fs <-> exists e, last_lemma doc e /\ x_get (u "id") e = id /\ lemma_forms U e fs) /\
  (forall e, In e (x_iter (u "lemma") doc) -> lexeme_with (x_get (u "id") e) P <> None) /\
  (xp_version P, xp_revision P) = get_dictionary_info doc.
Proof.
  intros U lx doc P F H. rewrite parse_xml_flat in H by auto. apply doc_fold in H as ((J1 & J2 & J3 & J4 & J5) & V1 & V2); auto; [|intros e I; apply filter_In in I; tauto].
  rewrite iter_interesting in J1 by (intros e T; unfold interesting; rewrite T; apply orb_true_r).
  rewrite iter_interesting in J2 by (intros e T; unfold interesting; rewrite T; auto).
  rewrite iter_interesting in J4, J5 by (intros e T; unfold interesting; rewrite T; rewrite orb_true_r; auto).
  split; [auto|]. split; [auto|]. split; [auto|]. split.
  - intros id fs. split.
    + intro X. destruct (J4 _ _ X) as (p & e & r & Y1 & Y2 & Y3 & Y4). exists e. split; [|auto]. exists p, r. split; [auto|]. rewrite Y2. auto.
    + intros (e & (p & r & Y1 & Y3) & <- & Y4). destruct (lexeme_with (x_get (u "id") e) P) as [fs'|] eqn:X.
      * destruct (J4 _ _ X) as (p' & e' & r' & Z1 & Z2 & Z3 & Z4). f_equal.
        assert (e' = e) as ->.
        { rewrite Y1 in Z1. clear - Y3 Z1 Z2 Z3. revert p' Z1. induction p as [|a p IH]; intros [|a' p'] Z1; cbn [app] in Z1; inversion Z1 as [[Z4 Z5]]; subst; auto.
          - exfalso. eapply Y3; [|exact Z2]. apply in_or_app. right. left. auto.
          - exfalso. eapply Z3; [|reflexivity]. apply in_or_app. right. left. auto.
          - eapply IH; eauto. }
        eapply lemma_forms_fun; eauto.
      * exfalso. apply (J5 e); [rewrite Y1; apply in_or_app; right; left; auto|auto].
  - split; [exact J5|]. rewrite V1, V2. cbn [xp_version xp_revision]. symmetry. apply surjective_pairing.
Qed.

(** reading succeeds on well-formed dictionaries *)
Lemma handle_total : forall U P e, interesting e = true ->
  (has_tag (u "grammeme") e = true -> forall t, In t [u "name"; u "alias"; u "description"] -> exists k, In k (x_kids e) /\ x_tag k = t) ->
  (has_tag (u "lemma") e = true -> complete e /\ (x_kids e = [] \/ length (x_iter (u "l") e) = 1)) -> exists P', handle U P e = Ok P'.
Proof.
  intros U P e I G L. destruct (tags_differ e) as (T1 & T2 & T3). unfold handle.
  destruct (has_tag (u "grammeme") e) eqn:Eg.
  - destruct T1 as (L' & K); auto. rewrite L', K. unfold find_text.
    assert (forall t, (exists k, In k (x_kids e) /\ x_tag k = t) -> exists k, find (has_tag t) (x_kids e) = Some k) as FT.
    { intros t (k & Ik & Tk). destruct (find (has_tag t) (x_kids e)) as [k'|] eqn:F; [eauto|]. pose proof (find_none _ _ F k Ik) as X. unfold has_tag in X.
      apply str_eqb_eq in Tk. rewrite Tk in X. discriminate X. }
    destruct (FT (u "name")) as (n & ->); [apply G; auto; left; auto|]. destruct (FT (u "alias")) as (a & ->); [apply G; auto; right; left; auto|].
    destruct (FT (u "description")) as (d & ->); [apply G; auto; right; right; left; auto|]. cbn [bind]. eauto.
  - cbn [bind]. destruct (has_tag (u "lemma") e) eqn:El.
    + destruct (L eq_refl) as (C & X). destruct (word_forms_total U e C X) as (fs & ->). cbn [bind]. eauto.
    + destruct (has_tag (u "link") e); eauto.
Qed.
Lemma document_total : forall U lx doc, flat doc ->
  (forall e, In e (x_iter (u "grammeme") doc) -> forall t, In t [u "name"; u "alias"; u "description"] -> exists k, In k (x_kids e) /\ x_tag k = t) ->
  (forall e, In e (x_iter (u "lemma") doc) -> complete e /\ (x_kids e = [] \/ length (x_iter (u "l") e) = 1)) -> exists P, parse_xml U lx doc = Ok P.
Proof.
  intros U lx doc F G L. rewrite parse_xml_flat by auto. set (P0 := MkParsed _ _ _ _ _). clearbody P0.
  assert (forall e, In e (filter interesting (preorder doc)) -> interesting e = true /\
    (has_tag (u "grammeme") e = true -> forall t, In t [u "name"; u "alias"; u "description"] -> exists k, In k (x_kids e) /\ x_tag k = t) /\
    (has_tag (u "lemma") e = true -> complete e /\ (x_kids e = [] \/ length (x_iter (u "l") e) = 1))) as A.
  { intros e I. apply filter_In in I as (I & J). split; [auto|]. split; intro T; [apply G|apply L]; unfold x_iter; apply filter_In; auto. }
  revert P0 A. induction (filter interesting (preorder doc)) as [|e l IH]; intros P0 A; [eexists; reflexivity|].
  cbn [foldM]. destruct (A e (or_introl eq_refl)) as (A1 & A2 & A3). destruct (handle_total U P0 e A1 A2 A3) as (P1 & ->). cbn [bind]. apply IH. intros. apply A. right. auto.
Qed.

(** version and revision *)
Lemma info_spec : forall limit l idx,
  (exists p e r, l = p ++ e :: r /\ x_tag e = u "dictionary" /\ (forall d, In d p -> x_tag d <> u "dictionary") /\ idx + length p <= limit + 1 /\
     dictionary_info limit idx l = (x_get (u "version") e, x_get (u "revision") e)) \/
  ((forall p e r, l = p ++ e :: r -> x_tag e = u "dictionary" -> (forall d, In d p -> x_tag d <> u "dictionary") -> limit + 1 < idx + length p) /\ dictionary_info limit idx l = (None, None)) \/ limit + 1 < idx.
Proof.
  intros limit. induction l as [|e l IH]; intro idx.
  - right. left. split; [|auto]. intros [|? p] e r E; discriminate E.
  - destruct (le_lt_dec idx (limit + 1)) as [Le|]; [|right; right; lia]. cbn [dictionary_info]. unfold has_tag. destruct (str_eqb (x_tag e) (u "dictionary")) eqn:T.
    + apply str_eqb_eq in T. left. exists [], e, l. split; [auto|]. split; [auto|]. split; [intros d []|]. split; [simpl; lia|auto].
    + assert (x_tag e <> u "dictionary") as NT by (intro X; apply str_eqb_eq in X; congruence).
      assert (forall p e' r, e :: l = p ++ e' :: r -> x_tag e' = u "dictionary" -> (forall d, In d p -> x_tag d <> u "dictionary") -> exists p', p = e :: p' /\ l = p' ++ e' :: r /\ forall d, In d p' -> x_tag d <> u "dictionary") as SP.
      { intros [|x p] e' r E E' N; cbn [app] in E; inversion E; subst; [congruence|]. exists p. split; [auto|]. split; [auto|]. intros. apply N. right. auto. }
      destruct (Nat.ltb_spec limit idx) as [C|C].
      * right. left. split; [|auto]. intros p e' r E E' N. destruct (SP _ _ _ E E' N) as (p' & -> & _). simpl. lia.
      * destruct (IH (S idx)) as [(p & e' & r & E & Te & N & B & R)|[(N & R)|B]]; [| |lia].
        { left. exists (e :: p), e', r. split; [simpl; congruence|]. split; [auto|]. split; [intros d [<-|Id]; auto|]. split; [simpl; lia|auto]. }
        { right. left. split; [|auto]. intros p e' r E E' Np. destruct (SP _ _ _ E E' Np) as (p' & -> & El & Np'). specialize (N p' e' r El E' Np'). simpl. lia. }
Qed.
Lemma dictionary_version : forall doc,
  (forall e, dictionary_element doc e -> get_dictionary_info doc = (x_get (u "version") e, x_get (u "revision") e)) /\
  ((forall e, ~ dictionary_element doc e) -> get_dictionary_info doc = (None, None)).
Proof.
  intro doc. unfold get_dictionary_info. destruct (info_spec 1000 (preorder doc) 0) as [(p & e & r & E & T & N & B & R)|[(N & R)|B]]; [| |lia].
  - split; [|intro X; exfalso; apply (X e); exists p, r; split; [auto|]; split; [auto|]; split; [auto|]; lia].
    intros e' (p' & r' & E' & T' & N' & B'). rewrite R. assert (e' = e) as ->; [|auto]. rewrite E in E'. clear - E' T T' N N'. revert p' E' N'.
    induction p as [|x p IH]; intros [|x' p'] E' N'; cbn [app] in E'; inversion E' as [[X Y]]; subst; auto.
    + exfalso. eapply N'; [left; reflexivity|auto].
    + exfalso. eapply N; [left; reflexivity|auto].
    + apply (IH (fun d I => N d (or_intror I)) p' Y). intros. apply N'. right. auto.
  - split; [|auto]. intros e (p & r & E & T & N' & B). specialize (N p e r E T N'). lia.
Qed.
