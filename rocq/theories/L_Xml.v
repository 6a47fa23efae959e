(** * XML dictionaries: lemmas for C55 *)
From Coq Require Import String List NArith ZArith Bool Lia.
From Verif Require Import Py Uni Tagset Compile Json XmlParse Spec Spec7 L_Base L_Tags2.
Import ListNotations.
Local Open Scope nat_scope.
Local Open Scope list_scope.

Lemma xelem_ind2 : forall Q : xelem -> Prop, (forall t a x ks, (forall k, In k ks -> Q k) -> Q (Elem t a x ks)) -> forall e, Q e.
Proof.
  intros Q H. fix IH 1. intros [t a x ks]. apply H. clear t a x. induction ks as [|k ks IHk]; intros y I; [destruct I|].
  destruct I as [<-|I]; [apply IH|apply IHk; exact I].
Qed.

(** ** One element *)
Lemma grammemes_text : forall e s, grammemes_from_elem e = Ok s <-> exists vs, grammemes_of e vs /\ s = join (u ",") vs.
Proof.
  intros e s. unfold grammemes_from_elem, grammemes_of. set (l := x_iter (u "g") e). clearbody l.
  assert (forall vs, mapM (fun g => match x_get (u "v") g with Some v => Ok v | None => Err TypeError end) l = Ok vs <-> map (x_get (u "v")) l = map Some vs) as E.
  { induction l as [|g l IH]; intro vs; simpl.
    - split; intro H; [apply Ok_inj in H; subst; auto|destruct vs; [auto|discriminate H]].
    - destruct (x_get (u "v") g) as [v|]; simpl.
      + split; intro H.
        * apply bind_ok in H as (r & H1 & H2). apply Ok_inj in H2. subst. apply IH in H1. simpl. rewrite H1. auto.
        * destruct vs as [|v' vs]; [discriminate H|]. injection H as <- H. apply IH in H. rewrite H. auto.
      + split; intro H; [discriminate H|destruct vs; discriminate H]. }
  split.
  - intro H. apply bind_ok in H as (vs & H1 & H2). apply Ok_inj in H2. exists vs. split; [apply E; auto|auto].
  - intros (vs & H1 & ->). apply E in H1. rewrite H1. auto.
Qed.
Lemma grammemes_fun : forall e a b, grammemes_of e a -> grammemes_of e b -> a = b.
Proof.
  unfold grammemes_of. intros e a b H1 H2. rewrite H1 in H2. clear H1. revert b H2. induction a; destruct b; intro H; try discriminate H; auto.
  injection H as <- H. f_equal. auto.
Qed.
Lemma grammemes_total : forall e, (forall g, In g (x_iter (u "g") e) -> x_get (u "v") g <> None) -> exists vs, grammemes_of e vs.
Proof.
  intro e. unfold grammemes_of. set (l := x_iter (u "g") e). clearbody l. induction l as [|g l IH]; intro H; [exists []; auto|].
  destruct IH as (vs & E); [intros; apply H; right; auto|]. destruct (x_get (u "v") g) as [v|] eqn:G; [|exfalso; apply (H g); [left; auto|auto]].
  exists (v :: vs). simpl. rewrite E, G. auto.
Qed.

Lemma forms_none : forall U b l, foldM (form_step U b) None l = Ok None.
Proof. induction l; simpl; auto. Qed.
Lemma forms_fold : forall U base l acc r, foldM (form_step U (join (u ",") base)) (Some acc) l = Ok r ->
  (r = None /\ exists f, In f l /\ says_nothing base f) \/
  ((forall f, In f l -> ~ says_nothing base f) /\ exists fs, r = Some (acc ++ fs) /\ Forall2 (form_of U base) l fs).
Proof.
  intros U base. induction l as [|f l IH]; intros acc r H.
  - apply Ok_inj in H. subst. right. split; [intros f []|]. exists []. rewrite app_nil_r. auto.
  - cbn [foldM] in H. apply bind_ok in H as (a & S & H). unfold form_step in S. apply bind_ok in S as (gr & G & S). apply bind_ok in S as (t & T & S).
    destruct (x_get (u "t") f) as [tx|] eqn:Et; [|discriminate T]. apply Ok_inj in T. subst tx. apply grammemes_text in G as (gs & G & ->).
    destruct (join (u ",") base ++ join (u ",") gs) as [|c s] eqn:E.
    + apply Ok_inj in S. subst a. rewrite forms_none in H. apply Ok_inj in H. subst r. left. split; [auto|]. exists f. split; [left; auto|]. exists gs. auto.
    + apply Ok_inj in S. subst a. apply IH in H as [(-> & f' & I & N)|(N & fs & -> & F)].
      * left. split; [auto|]. exists f'. split; [right; auto|auto].
      * right. split.
        { intros f' [<-|I]; [|auto]. intros (gs' & G' & X). rewrite (grammemes_fun _ _ _ G' G) in X. rewrite E in X. discriminate X. }
        eexists. split; [rewrite <- app_assoc; reflexivity|]. constructor; [|exact F]. exists t, gs. split; [auto|]. split; [auto|]. split; reflexivity.
Qed.
(** what is returned is what the specification says *)
Lemma word_forms_sound : forall U e id fs, word_forms U e = Ok (id, fs) -> id = x_get (u "id") e /\ lemma_forms U e fs.
Proof.
  intros U e id fs H. unfold word_forms in H. unfold lemma_forms. destruct (x_kids e) as [|k ks] eqn:K.
  - apply Ok_inj in H. inversion H; subst. split; [auto|]. left. auto.
  - destruct (x_iter (u "l") e) as [|l [|]] eqn:L; try discriminate H. apply bind_ok in H as (base & B & H). apply bind_ok in H as (r & F & H). apply Ok_inj in H.
    inversion H; subst; clear H. apply grammemes_text in B as (bs & B & ->). split; [auto|]. right. split; [intro X; discriminate X|]. exists l, bs. split; [auto|]. split; [auto|].
    apply forms_fold in F as [(-> & f & I & N)|(N & fs & -> & F)]; [left; exists f; auto|right; auto].
Qed.
Lemma lemma_forms_fun : forall U e a b, lemma_forms U e a -> lemma_forms U e b -> a = b.
Proof.
  intros U e a b [(K & ->)|(K & l & bs & L & B & A)] [(K' & ->)|(K' & l' & bs' & L' & B' & A')]; try congruence.
  rewrite L in L'. injection L' as <-. rewrite (grammemes_fun _ _ _ B' B) in *. clear B'.
  destruct A as [(f & I & N & ->)|(N & F)], A' as [(f' & I' & N' & ->)|(N' & F')]; auto.
  - exfalso. exact (N' _ I N).
  - exfalso. exact (N _ I' N').
  - clear N N'. revert b F'. induction F as [|f x fl xs H F IH]; intros b F'; inversion F' as [|? y ? ys H' F'']; subst; auto. f_equal; [|apply IH; auto].
    destruct x as [w t], y as [w' t']. destruct H as (tx & gs & H1 & H2 & H3 & H4), H' as (tx' & gs' & H1' & H2' & H3' & H4').
    rewrite H1 in H1'. injection H1' as <-. rewrite (grammemes_fun _ _ _ H2' H2) in *. cbn [fst snd] in *. congruence.
Qed.

(** sub-elements of a complete element are complete *)
Lemma preorder_self : forall e, In e (preorder e). Proof. intros [t a x ks]. left. auto. Qed.
Lemma preorder_trans : forall e d c, In d (preorder e) -> In c (preorder d) -> In c (preorder e).
Proof.
  induction e as [t a x ks IH] using xelem_ind2. intros d c I J. cbn [preorder] in I. destruct I as [<-|I]; [exact J|].
  apply in_flat_map in I as (k & Ik & I). cbn [preorder]. right. apply in_flat_map. exists k. split; [auto|]. eapply IH; eauto.
Qed.
Lemma iter_In : forall t e d, In d (x_iter t e) <-> In d (preorder e) /\ x_tag d = t.
Proof. intros. unfold x_iter. rewrite filter_In. unfold has_tag. rewrite str_eqb_eq. tauto. Qed.
Lemma iter_trans : forall s t e d c, In d (x_iter s e) -> In c (x_iter t d) -> In c (x_iter t e).
Proof. intros s t e d c I J. apply iter_In in I as (I & _). apply iter_In in J as (J & T). apply iter_In. split; [eapply preorder_trans; eauto|auto]. Qed.

Lemma forms_total : forall U base l acc, (forall f, In f l -> x_get (u "t") f <> None /\ forall g, In g (x_iter (u "g") f) -> x_get (u "v") g <> None) ->
  exists r, foldM (form_step U base) acc l = Ok r.
Proof.
  intros U base. induction l as [|f l IH]; intros acc H; [exists acc; auto|]. destruct acc as [lx|]; [|exists None; apply forms_none].
  destruct (H f (or_introl eq_refl)) as (T & G). apply grammemes_total in G as (vs & G).
  assert (grammemes_from_elem f = Ok (join (u ",") vs)) as E by (apply grammemes_text; eauto).
  cbn [foldM]. unfold form_step at 1. rewrite E. destruct (x_get (u "t") f) as [t|]; [|congruence]. cbn [bind].
  destruct (base ++ join (u ",") vs); cbn [bind]; apply IH; intros; apply H; right; auto.
Qed.
Lemma word_forms_total : forall U e, complete e -> (x_kids e = [] \/ length (x_iter (u "l") e) = 1) -> exists fs, word_forms U e = Ok (x_get (u "id") e, fs).
Proof.
  intros U e (CG & CF) H. unfold word_forms. destruct (x_kids e) as [|k ks] eqn:K; [exists []; auto|]. destruct H as [H|H]; [discriminate H|].
  destruct (x_iter (u "l") e) as [|l [|]] eqn:L; try discriminate H.
  assert (In l (x_iter (u "l") e)) as Il by (rewrite L; left; auto).
  destruct (grammemes_total l) as (bs & B); [intros g Hg; apply CG; eapply iter_trans; eauto|].
  assert (grammemes_from_elem l = Ok (join (u ",") bs)) as E by (apply grammemes_text; eauto). rewrite E. cbn [bind].
  destruct (forms_total U (join (u ",") bs) (x_iter (u "f") e) (Some [])) as (r & R).
  { intros f I. split; [auto|]. intros g Hg. apply CG. eapply iter_trans; eauto. }
  rewrite R. cbn [bind]. eexists. reflexivity.
Qed.
Lemma word_forms_no_l : forall U e, x_kids e <> [] -> length (x_iter (u "l") e) <> 1 -> word_forms U e = Err AssertionError.
Proof. intros U e K L. unfold word_forms. destruct (x_kids e); [congruence|]. destruct (x_iter (u "l") e) as [|? [|]]; simpl in L; auto. congruence. Qed.

(** the grammemes of a form's tag *)
Lemma replace_first_none : forall a b s, ~ In a s -> replace_first a b s = s.
Proof. induction s as [|x s IH]; simpl; intro H; auto. destruct (N.eqb_spec x a) as [->|]; [exfalso; auto|]. rewrite IH; auto. Qed.
Lemma replace_first_app : forall a b s r, ~ In a s -> replace_first a b (s ++ a :: r) = s ++ b :: r.
Proof. induction s as [|x s IH]; simpl; intros r H; [rewrite N.eqb_refl; auto|]. destruct (N.eqb_spec x a) as [->|]; [exfalso; auto|]. rewrite IH; auto. Qed.
Lemma split_on_none : forall c s, ~ In c s -> split_on c s = [s].
Proof. induction s as [|x s IH]; simpl; intro H; auto. destruct (N.eqb_spec x c) as [->|]; [exfalso; auto|]. rewrite IH; auto. Qed.
Lemma split_on_join : forall c l, l <> [] -> (forall v, In v l -> ~ In c v) -> split_on c (join [c] l) = l.
Proof.
  induction l as [|v l IH]; intros N H; [congruence|]. destruct l as [|v' l].
  - simpl. apply split_on_none. apply H. left; auto.
  - change (join [c] (v :: v' :: l)) with (v ++ c :: join [c] (v' :: l)). rewrite split_on_app_sep, split_on_none by (apply H; left; auto). rewrite IH; [auto|discriminate|intros; apply H; right; auto].
Qed.
Lemma lstrip_id : forall f s, (forall c r, s = c :: r -> f c = false) -> lstrip_by f s = s.
Proof. intros f [|c r] H; auto. simpl. rewrite (H c r eq_refl). auto. Qed.
Lemma strip_edges : forall f s a b r r', s = a :: r -> s = r' ++ [b] -> f a = false -> f b = false -> strip_by f s = s.
Proof.
  intros f s a b r r' E1 E2 A B. unfold strip_by. rewrite (lstrip_id f s) by (intros c q E; rewrite E1 in E; inversion E; subst; auto).
  rewrite (lstrip_id f (rev s)); [apply rev_involutive|]. intros c q E. rewrite E2, rev_app_distr in E. inversion E; subst. auto.
Qed.
Lemma join_first : forall U vs, vs <> [] -> (forall v, In v vs -> plain U v) -> exists c r, join (u ",") vs = c :: r /\ u_space U c = false.
Proof.
  intros U [|v vs] N H; [congruence|]. destruct (H v (or_introl eq_refl)) as (A & B). destruct v as [|c v]; [congruence|]. destruct vs; cbn [join app]; do 2 eexists; (split; [reflexivity|]); apply B; left; auto.
Qed.
Lemma join_last : forall U vs, vs <> [] -> (forall v, In v vs -> plain U v) -> exists c r, join (u ",") vs = r ++ [c] /\ u_space U c = false.
Proof.
  intros U. induction vs as [|v vs IH]; intros N H; [congruence|]. destruct vs as [|v' vs].
  - destruct (H v (or_introl eq_refl)) as (A & B). destruct (exists_last A) as (r & c & ->). exists c, r. split; [auto|]. apply B. apply in_or_app. right. left. auto.
  - destruct IH as (c & r & E & S); [discriminate|intros; apply H; right; auto|]. exists c, (v ++ u "," ++ r). split; [|auto]. change (join (u ",") (v :: v' :: vs)) with (v ++ u "," ++ join (u ",") (v' :: vs)). rewrite E, <- !app_assoc. auto.
Qed.
Lemma join_chars : forall sep vs c, In c (join sep vs) -> In c sep \/ exists v, In v vs /\ In c v.
Proof.
  intros sep. induction vs as [|v vs IH]; intros c I; [destruct I|]. destruct vs as [|v' vs]; [right; exists v; split; [left; auto|auto]|].
  change (join sep (v :: v' :: vs)) with (v ++ sep ++ join sep (v' :: vs)) in I. apply in_app_iff in I as [I|I]; [right; exists v; split; [left; auto|auto]|].
  apply in_app_iff in I as [I|I]; [left; auto|]. apply IH in I as [I|(w & I & J)]; [left; auto|]. right. exists w. split; [right; auto|auto].
Qed.
Lemma form_grammemes : forall U base gs, u_space U (chr " ") = true -> u_space U (chr ",") = false -> base ++ gs <> [] ->
  (forall v, In v (base ++ gs) -> plain U v) ->
  split_tag (strip_by (u_space U) (join (u ",") base ++ u " " ++ join (u ",") gs)) = base ++ gs.
Proof.
  intros U base gs S1 S2 N H.
  assert (forall vs, (forall v, In v vs -> plain U v) -> ~ In (chr " ") (join (u ",") vs)) as NS.
  { intros vs Hv I. apply join_chars in I as [I|(v & I & J)]; [destruct I as [I|[]]; vm_compute in I; discriminate I|]. destruct (Hv v I) as (_ & B). destruct (B _ J) as (_ & B2). rewrite S1 in B2. discriminate B2. }
  assert (forall vs, vs <> [] -> (forall v, In v vs -> plain U v) -> split_on (chr ",") (join (u ",") vs) = vs) as SJ.
  { intros vs Nv Hv. apply (split_on_join (chr ",")); auto. intros v I J. destruct (Hv v I) as (_ & B). destruct (B _ J) as (B1 & _). congruence. }
  unfold split_tag. destruct base as [|b base].
  - cbn [app] in *. cbn [join app]. destruct (join_first U gs N H) as (c & r & E & Ec). destruct (join_last U gs N H) as (d & q & E' & Ed).
    assert (strip_by (u_space U) (u " " ++ join (u ",") gs) = join (u ",") gs) as ->.
    { unfold strip_by. change (u " ") with [chr " "]. cbn [app lstrip_by]. rewrite S1. exact (strip_edges _ _ _ _ _ _ E E' Ec Ed). }
    rewrite replace_first_none by (apply NS; auto). apply SJ; auto.
  - assert (forall v, In v (b :: base) -> plain U v) as Hb by (intros; apply H; apply in_or_app; auto). assert (b :: base <> []) as Nb by discriminate.
    destruct (join_first U _ Nb Hb) as (c & r & E & Ec). destruct (join_last U _ Nb Hb) as (d & q & E' & Ed). destruct gs as [|g gs].
    + rewrite (app_nil_r (b :: base)). change (u " " ++ join (u ",") []) with (u " ").
      assert (strip_by (u_space U) (join (u ",") (b :: base) ++ u " ") = join (u ",") (b :: base)) as ->.
      { unfold strip_by. rewrite (lstrip_id (u_space U) (join (u ",") (b :: base) ++ u " ")) by (intros c' r' X; rewrite E in X; inversion X; subst; auto).
        change (u " ") with [chr " "]. rewrite rev_app_distr. cbn [rev app lstrip_by]. rewrite S1. rewrite (lstrip_id (u_space U) (rev (join (u ",") (b :: base)))); [apply rev_involutive|].
        intros c' r' X. rewrite E', rev_app_distr in X. inversion X; subst; auto. }
      rewrite replace_first_none by (apply NS; auto). apply SJ; auto.
    + assert (forall v, In v (g :: gs) -> plain U v) as Hg by (intros; apply H; apply in_or_app; auto). assert (g :: gs <> []) as Ng by discriminate.
      destruct (join_last U _ Ng Hg) as (d' & q' & E2 & Ed').
      rewrite (strip_edges (u_space U) _ c d' (r ++ u " " ++ join (u ",") (g :: gs)) (join (u ",") (b :: base) ++ u " " ++ q')); auto.
      * change (u " ") with [chr " "]. cbn [app]. rewrite replace_first_app by (apply NS; auto). rewrite split_on_app_sep, !SJ; auto.
      * rewrite E. auto.
      * rewrite E2. rewrite <- !app_assoc. auto.
Qed.
