(** * Lemmas for C75: binding *)
From Coq Require Import String List NArith ZArith Bool QArith Lia.
From Verif Require Import Py Tagset Units Analyzer Objects Spec25 L_Base L_Objects.
Import ListNotations.
Local Open Scope nat_scope.
Local Open Scope list_scope.

Lemma upd_last : forall {A} (l : list A) x y, upd (length l) y (l ++ [x]) = l ++ [y].
Proof. intros A l x y. induction l as [|a l IH]; cbn; [reflexivity|]. f_equal. exact IH. Qed.
Lemma upd_last2 : forall {A} (l : list A) x y z, upd (length l) y (l ++ [x; z]) = l ++ [y; z].
Proof. intros A l x y z. induction l as [|a l IH]; cbn; [reflexivity|]. f_equal. exact IH. Qed.
Lemma nth_last : forall {A} (l : list A) x, nth_error (l ++ [x]) (length l) = Some x.
Proof. intros A l x. induction l as [|a l IH]; cbn; [reflexivity|exact IH]. Qed.
Lemma nth_last2 : forall {A} (l : list A) x z, nth_error (l ++ [x; z]) (length l) = Some x.
Proof. intros A l x z. induction l as [|a l IH]; cbn; [reflexivity|exact IH]. Qed.
Lemma set_last : forall l it k a kvs, set_attrs (MkHeap (l ++ [MkObj k a]) it) (length l) kvs = MkHeap (l ++ [MkObj k (fold_left (fun a kv => sset_ (fst kv) (snd kv) a) kvs a)]) it.
Proof. intros. unfold set_attrs. cbn [h_objs h_iters]. rewrite nth_last, upd_last. reflexivity. Qed.
Lemma set_last2 : forall l it k a z kvs, set_attrs (MkHeap (l ++ [MkObj k a; z]) it) (length l) kvs = MkHeap (l ++ [MkObj k (fold_left (fun a kv => sset_ (fst kv) (snd kv) a) kvs a); z]) it.
Proof. intros. unfold set_attrs. cbn [h_objs h_iters]. rewrite nth_last2, upd_last2. reflexivity. Qed.

Lemma Forall2_weaken : forall {A B} (P Q : A -> B -> Prop) l r, (forall x y, P x y -> Q x y) -> Forall2 P l r -> Forall2 Q l r.
Proof. intros A B P Q l r I F. induction F; constructor; auto. Qed.

(** init of the newest object *)
Lemma init_spec : forall l it k vals c m, wf_attrs k vals c ->
  exists ob ext, init_obj (MkHeap (l ++ [MkObj k vals]) it) (length l) m = (MkHeap (l ++ ob :: ext) it, Ok tt) /\
    o_class ob = k /\ bound_cfg ob = Some c /\ attr_of ob "morph" = VMorph m.
Proof.
  intros l it k vals c m W. unfold init_obj. cbn [h_objs h_iters]. rewrite nth_last. cbn [o_class]. rewrite set_last.
  destruct W as [| |v w f q T|v w f q T|q|q|q|q|v w q T|q|v w q T|v w q n T|q|q n];
    try (eexists; exists []; repeat split; try reflexivity; unfold bound_cfg; cbn [o_class]; try reflexivity;
         match goal with |- opt2 UParticle _ _ = _ => idtac | _ => reflexivity end; fail).
  - eexists; exists []. split; [reflexivity|]. repeat split.
    change (opt2 UParticle (texts_of v) (Some q) = Some (UParticle w q)). rewrite T. reflexivity.
  - match goal with |- context[iterate ?H ?x] => change x with v end. rewrite (texts_iter _ _ _ T). rewrite set_last. eexists; exists []. split; [reflexivity|]. repeat split.
  - match goal with |- context[iterate ?H ?x] => change x with v end. rewrite (texts_iter _ _ _ T). rewrite set_last. eexists; exists []. split; [reflexivity|]. repeat split.
  - unfold alloc. cbn [h_objs h_iters]. rewrite <- app_assoc. cbn [app]. rewrite set_last2. eexists; eexists. split; [reflexivity|]. repeat split.
  - unfold alloc. cbn [h_objs h_iters]. rewrite <- app_assoc. cbn [app]. rewrite set_last2. eexists; eexists. split; [reflexivity|]. repeat split.
Qed.

Lemma bound_spec : forall H i k vals c m, nth_error (h_objs H) i = Some (MkObj k vals) -> wf_attrs k vals c ->
  exists ob ext, bound_unit true H i m = (MkHeap (h_objs H ++ ob :: ext) (h_iters H), Ok (length (h_objs H))) /\
    o_class ob = k /\ bound_cfg ob = Some c /\ attr_of ob "morph" = VMorph m.
Proof.
  intros H i k vals c m E W. unfold bound_unit. rewrite (clone_spec H i k vals c E W).
  destruct (init_spec (h_objs H) (h_iters H) k vals c m W) as (ob & ext & I & R). rewrite I. exists ob, ext. split; [reflexivity|exact R].
Qed.

(** a list of constructor calls *)
Lemma make_spec : forall calls H H' refs cfgs, make H calls = (H', Ok refs) -> map (fun kc => configured (fst kc) (snd kc)) calls = map Some cfgs ->
  exists new, H' = MkHeap (h_objs H ++ new) (h_iters H) /\ refs = seq (length (h_objs H)) (length calls) /\ length new = length calls /\
    Forall2 (fun ob c => wf_attrs (o_class ob) (o_attrs ob) c) new cfgs.
Proof.
  induction calls as [|[k kw] calls IH]; intros H H' refs cfgs M C.
  - cbn in M. injection M as <- <-. destruct cfgs; [|discriminate C]. exists []. rewrite app_nil_r. destruct H. repeat split. constructor.
  - destruct cfgs as [|c cfgs]; [discriminate C|]. cbn [map fst snd] in C. injection C as C1 C2. cbn [make] in M.
    destruct (new_unit H k kw) as [H1 [o|e]] eqn:N; [|discriminate M]. destruct (make H1 calls) as [H2 [os|e]] eqn:M2; [|discriminate M]. injection M as <- <-.
    destruct (made_spec _ _ _ _ _ _ N C1) as (vals & -> & -> & W). destruct (IH _ _ _ _ M2 C2) as (new & -> & -> & L & F). cbn [h_objs h_iters].
    exists (MkObj k vals :: new). rewrite <- app_assoc. split; [reflexivity|]. rewrite app_length. cbn [length seq]. rewrite Nat.add_1_r. split; [reflexivity|]. split; [f_equal; exact L|].
    constructor; [exact W|exact F].
Qed.

Lemma bind_objs_spec : forall l H m (cfgs : list (ucfg * bool)),
  Forall2 (fun (ob : nat * bool) (cb : ucfg * bool) => snd ob = snd cb /\ exists k vals, nth_error (h_objs H) (fst ob) = Some (MkObj k vals) /\ wf_attrs k vals (fst cb)) l cfgs ->
  exists H' l' ext, bind_objs true H m l = (H', Ok l') /\ H' = MkHeap (h_objs H ++ ext) (h_iters H) /\
    Forall2 (fun (ob : nat * bool) (cb : ucfg * bool) => snd ob = snd cb /\ length (h_objs H) <= fst ob /\
       exists o, nth_error (h_objs H') (fst ob) = Some o /\ bound_cfg o = Some (fst cb) /\ attr_of o "morph" = VMorph m) l' cfgs /\
    NoDup (map fst l') /\ Forall (fun ob => length (h_objs H) <= fst ob < length (h_objs H')) l'.
Proof.
  induction l as [|[i b] l IH]; intros H m cfgs F; inversion F as [|x y lx ly F1 F2]; subst.
  - exists H, [], []. rewrite app_nil_r. destruct H. cbn. repeat split; constructor.
  - destruct y as [c b']. destruct F1 as (Eb & k & vals & E & W). cbn [fst snd] in *. subst b'.
    destruct (bound_spec H i k vals c m E W) as (ob & ex & B & _ & K & Mo). cbn [bind_objs]. rewrite B.
    set (H1 := MkHeap (h_objs H ++ ob :: ex) (h_iters H)).
    assert (F3 : Forall2 (fun (ob : nat * bool) (cb : ucfg * bool) => snd ob = snd cb /\ exists k vals, nth_error (h_objs H1) (fst ob) = Some (MkObj k vals) /\ wf_attrs k vals (fst cb)) l ly).
    { revert F2. clear. intros F2. induction F2 as [|x y lx ly (P & k & vals & Q & W) F2 IH]; constructor; [|exact IH]. split; [exact P|]. exists k, vals. split; [|exact W].
      cbn [h_objs H1]. rewrite nth_error_app1; [exact Q|]. apply nth_error_Some. rewrite Q. discriminate. }
    destruct (IH H1 m ly F3) as (H2 & l' & ext & B2 & EH & G & ND & R). rewrite B2. cbn [h_objs h_iters H1] in EH.
    assert (LH1 : length (h_objs H1) = length (h_objs H) + S (length ex)) by (cbn [h_objs H1]; rewrite app_length; reflexivity).
    assert (LH2 : length (h_objs H1) <= length (h_objs H2)) by (rewrite EH; cbn [h_objs H1]; rewrite !app_length; lia).
    exists H2, ((length (h_objs H), b) :: l'), (ob :: ex ++ ext). split; [reflexivity|]. split; [rewrite EH, <- app_assoc; reflexivity|]. split; [|split].
    + constructor.
      * cbn [fst snd]. split; [reflexivity|]. split; [lia|]. exists ob. split; [|split; assumption]. rewrite EH. cbn [h_objs]. rewrite <- app_assoc, nth_error_app2 by lia. rewrite Nat.sub_diag. reflexivity.
      * revert G. apply Forall2_weaken; intros x y (P & Q & o & S1 & S2). split; [exact P|]. split; [lia|]. exists o. split; [exact S1|exact S2].
    + cbn [map fst]. constructor; [|exact ND]. intros I. apply in_map_iff in I as (x & Ex & I). rewrite Forall_forall in R. specialize (R x I). lia.
    + constructor; [cbn [fst]; lia|]. revert R. apply Forall_impl. intros x. lia.
Qed.

Lemma mark_last_rel : forall {A B} (P : A -> B -> Prop) l cs, Forall2 P l cs -> Forall2 (fun (x : A * bool) (y : B * bool) => snd x = snd y /\ P (fst x) (fst y)) (mark_last l) (mark_last cs).
Proof.
  intros A B P l cs F. induction F as [|x y l cs Pxy F IH]; [constructor|]. destruct F as [|x2 y2 l cs P2 F].
  - cbn. constructor; [split; [reflexivity|exact Pxy]|constructor].
  - cbn [mark_last] in *. constructor; [split; [reflexivity|exact Pxy]|exact IH].
Qed.
Lemma flat_rel : forall refs cfgs items its fl, Forall2 (item_of refs cfgs) items its -> mapM flatten_item its = Ok fl ->
  exists ofl, mapM flatten_oitem items = Ok ofl /\ Forall2 (fun (x : nat * bool) (y : ucfg * bool) => snd x = snd y /\ given refs cfgs (fst x) (fst y)) (concat ofl) (concat fl).
Proof.
  intros refs cfgs items its fl F. revert fl. induction F as [|it ci items its I F IH]; intros fl M.
  - cbn in M. apply Ok_inj in M. subst fl. exists []. split; [reflexivity|constructor].
  - cbn [mapM] in M. apply bind_ok in M as (x & E & M). apply bind_ok in M as (r & E2 & M). apply Ok_inj in M. subst fl. destruct (IH _ E2) as (ofl & Eo & Fo).
    assert (X : exists y, flatten_oitem it = Ok y /\ Forall2 (fun (x : nat * bool) (y : ucfg * bool) => snd x = snd y /\ given refs cfgs (fst x) (fst y)) y x).
    { destruct I as [o c G|l cs G].
      - cbn in E. apply Ok_inj in E. subst x. exists [(o, true)]. split; [reflexivity|]. constructor; [split; [reflexivity|exact G]|constructor].
      - destruct G as [|o c l cs G1 G]; [discriminate E|]. cbn [flatten_item] in E. apply Ok_inj in E. subst x. exists (mark_last (o :: l)). split; [reflexivity|]. apply mark_last_rel. constructor; assumption. }
    destruct X as (y & Ey & Fy). exists (y :: ofl). cbn [mapM]. rewrite Ey. cbn [bind]. rewrite Eo. split; [reflexivity|]. cbn [concat]. apply Forall2_app; assumption.
Qed.
Lemma NoDup_app_comm_free : forall {A} (l r : list A), NoDup l -> NoDup r -> (forall x, In x l -> In x r -> False) -> NoDup (l ++ r).
Proof.
  intros A l r N M D. induction N as [|a l Na N IH]; [exact M|]. cbn. constructor.
  - rewrite in_app_iff. intros [I|I]; [exact (Na I)|exact (D a (or_introl eq_refl) I)].
  - apply IH. intros x I J. exact (D x (or_intror I) J).
Qed.
Definition good (H : heap) (refs : list nat) (cfgs : list ucfg) : Prop :=
  forall o c, given refs cfgs o c -> exists k vals, nth_error (h_objs H) o = Some (MkObj k vals) /\ wf_attrs k vals c.
Lemma good_ext : forall H refs cfgs ext it, good H refs cfgs -> good (MkHeap (h_objs H ++ ext) it) refs cfgs.
Proof.
  intros H refs cfgs ext it G o c I. destruct (G o c I) as (k & vals & E & W). exists k, vals. split; [|exact W]. cbn [h_objs]. rewrite nth_error_app1; [exact E|]. apply nth_error_Some. rewrite E. discriminate.
Qed.
Lemma make_good : forall calls H H' refs cfgs, make H calls = (H', Ok refs) -> map (fun kc => configured (fst kc) (snd kc)) calls = map Some cfgs -> good H' refs cfgs.
Proof.
  intros calls H H' refs cfgs M C. destruct (make_spec calls H H' refs cfgs M C) as (new & -> & -> & L & F). intros o c (n & E1 & E2).
  destruct (Forall2_nth_r _ _ _ F n _ E2) as (ob & E3 & W). assert (n < length calls) by (rewrite <- L; apply nth_error_Some; rewrite E3; discriminate).
  rewrite (nth_error_nth' _ 0) in E1 by (rewrite seq_length; assumption). rewrite seq_nth in E1 by assumption. injection E1 as <-.
  exists (o_class ob), (o_attrs ob). split; [|exact W]. cbn [h_objs]. rewrite nth_error_app2 by lia. replace (length (h_objs H) + n - length (h_objs H)) with n by lia. rewrite E3. destruct ob. reflexivity.
Qed.
Lemma units_spec : forall H m refs cfgs items its fl, good H refs cfgs -> Forall2 (item_of refs cfgs) items its -> mapM flatten_item its = Ok fl ->
  exists us ext, init_units_obj true H m items = (MkHeap (h_objs H ++ ext) (h_iters H), Ok us) /\ bound_as (MkHeap (h_objs H ++ ext) (h_iters H)) m us (concat fl) /\
    NoDup (map fst us) /\ Forall (fun o => length (h_objs H) <= o < length (h_objs H ++ ext)) (map fst us).
Proof.
  intros H m refs cfgs items its fl G F M. destruct (flat_rel refs cfgs items its fl F M) as (ofl & Eo & Fo). unfold init_units_obj. rewrite Eo.
  assert (Fo2 : Forall2 (fun (ob : nat * bool) (cb : ucfg * bool) => snd ob = snd cb /\ exists k vals, nth_error (h_objs H) (fst ob) = Some (MkObj k vals) /\ wf_attrs k vals (fst cb)) (concat ofl) (concat fl))
    by (revert Fo; apply Forall2_weaken; intros x y (P & Q); split; [exact P|exact (G _ _ Q)]).
  destruct (bind_objs_spec (concat ofl) H m (concat fl) Fo2) as (H' & l' & ext & B & -> & F3 & ND & R). exists l', ext. split; [exact B|]. split; [|split; [exact ND|]].
  - unfold bound_as. revert F3. apply Forall2_weaken. intros x y (P & _ & Q). split; [exact P|exact Q].
  - apply Forall_map. exact R.
Qed.
Lemma bound_ext : forall H m us cfgs ext it, bound_as H m us cfgs -> bound_as (MkHeap (h_objs H ++ ext) it) m us cfgs.
Proof.
  intros H m us cfgs ext it. unfold bound_as. apply Forall2_weaken. intros x y (P & ob & E & Q). split; [exact P|]. exists ob. split; [|exact Q]. cbn [h_objs].
  rewrite nth_error_app1; [exact E|]. apply nth_error_Some. rewrite E. discriminate.
Qed.
Lemma analyzers_spec : forall jobs H m refs cfgs its fls, good H refs cfgs -> Forall2 (Forall2 (item_of refs cfgs)) jobs its -> mapM (mapM flatten_item) its = Ok fls ->
  exists rs ext, analyzers true H m jobs = (MkHeap (h_objs H ++ ext) (h_iters H), Ok rs) /\ length rs = length fls /\
    (forall n us fl, nth_error rs n = Some us -> nth_error fls n = Some fl -> bound_as (MkHeap (h_objs H ++ ext) (h_iters H)) (m + n) us (concat fl)) /\
    NoDup (map fst (concat rs)) /\ Forall (fun o => length (h_objs H) <= o < length (h_objs H ++ ext)) (map fst (concat rs)).
Proof.
  induction jobs as [|items jobs IH]; intros H m refs cfgs its fls G F M; inversion F as [|x y lx ly F1 F2]; subst.
  - cbn in M. apply Ok_inj in M. subst fls. exists [], []. rewrite app_nil_r. destruct H. cbn. repeat split; [|constructor|constructor]. intros [|n] us fl E; discriminate E.
  - cbn [mapM] in M. apply bind_ok in M as (fl & E & M). apply bind_ok in M as (fls' & E2 & M). apply Ok_inj in M. subst fls.
    destruct (units_spec H m refs cfgs items y fl G F1 E) as (us & ext & A & B & ND & R).
    set (H1 := MkHeap (h_objs H ++ ext) (h_iters H)) in *.
    destruct (IH H1 (S m) refs cfgs ly fls' (good_ext H refs cfgs ext _ G) F2 E2) as (rs & ext2 & A2 & L & B2 & ND2 & R2).
    exists (us :: rs), (ext ++ ext2). cbn [analyzers]. rewrite A. unfold H1 in A2 at 1. unfold H1. rewrite A2. cbn [h_objs h_iters H1]. rewrite <- app_assoc. split; [reflexivity|].
    split; [cbn; f_equal; exact L|]. split; [|cbn [concat]; rewrite map_app; split].
    + intros [|n] vs gl Ev Eg.
      * cbn in Ev, Eg. injection Ev as <-. injection Eg as <-. rewrite Nat.add_0_r. pose proof (bound_ext H1 m us (concat fl) ext2 (h_iters H) B) as X. cbn [h_objs H1] in X. rewrite <- app_assoc in X. exact X.
      * cbn in Ev, Eg. specialize (B2 n vs gl Ev Eg). cbn [h_objs h_iters H1] in B2. rewrite <- app_assoc in B2. rewrite Nat.add_succ_r. exact B2.
    + apply NoDup_app_comm_free; [exact ND|exact ND2|]. rewrite Forall_forall in R, R2. intros o I1 I2. specialize (R o I1). specialize (R2 o I2). cbn [h_objs H1] in R2. lia.
    + rewrite Forall_app. cbn [h_objs H1] in R2. rewrite !app_length in *. split; [revert R|revert R2]; apply Forall_impl; intros o; lia.
Qed.
Lemma units_shared : forall H0 calls H refs cfgs, make H0 calls = (H, Ok refs) -> map (fun kc => configured (fst kc) (snd kc)) calls = map Some cfgs ->
  forall m jobs its fls, Forall2 (Forall2 (item_of refs cfgs)) jobs its -> mapM (mapM flatten_item) its = Ok fls ->
  exists H' rs, analyzers true H m jobs = (H', Ok rs) /\ firstn (length (h_objs H)) (h_objs H') = h_objs H /\ length rs = length fls /\
    (forall n us fl, nth_error rs n = Some us -> nth_error fls n = Some fl -> bound_as H' (m + n) us (concat fl)) /\
    NoDup (refs ++ map fst (concat rs)).
Proof.
  intros H0 calls H refs cfgs M C m jobs its fls F E. destruct (analyzers_spec jobs H m refs cfgs its fls (make_good _ _ _ _ _ M C) F E) as (rs & ext & A & L & B & ND & R).
  exists (MkHeap (h_objs H ++ ext) (h_iters H)), rs. split; [exact A|]. cbn [h_objs]. split; [rewrite firstn_app, Nat.sub_diag, firstn_all; cbn; apply app_nil_r|]. split; [exact L|]. split; [exact B|].
  destruct (make_spec calls H0 H refs cfgs M C) as (new & EH & -> & Ln & _). apply NoDup_app_comm_free; [apply seq_NoDup|exact ND|].
  intros o I1 I2. apply in_seq in I1. rewrite Forall_forall in R. specialize (R o I2). rewrite EH in R. cbn [h_objs] in R. rewrite app_length in R. lia.
Qed.
Lemma clone_fresh : forall H0 calls H refs cfgs, make H0 calls = (H, Ok refs) -> map (fun kc => configured (fst kc) (snd kc)) calls = map Some cfgs ->
  forall o, In o refs -> exists ob H', nth_error (h_objs H) o = Some ob /\ clone true H o = (H', Ok (length (h_objs H))) /\ h_objs H' = h_objs H ++ [ob] /\ h_iters H' = h_iters H.
Proof.
  intros H0 calls H refs cfgs M C o I. pose proof (make_good _ _ _ _ _ M C) as G. destruct (make_spec calls H0 H refs cfgs M C) as (new & EH & Er & Ln & F). subst refs.
  apply In_nth_error in I as (n & En). assert (n < length calls) by (rewrite <- (seq_length (length calls) (length (h_objs H0))); apply nth_error_Some; rewrite En; discriminate).
  destruct (nth_error cfgs n) as [c|] eqn:Ec.
  - destruct (G o c (ex_intro _ n (conj En Ec))) as (k & vals & E & W). exists (MkObj k vals). eexists. split; [exact E|]. rewrite (clone_spec H o k vals c E W). repeat split.
  - apply nth_error_None in Ec. pose proof (f_equal (@length _) C) as X. rewrite !map_length in X. lia.
Qed.
