(** * Threads: caches are transparent *)
From Coq Require Import String List NArith ZArith Bool Lia.
From Verif Require Import Py Uni Tagset Shapes Units Threads Spec11.
From Verif Require Import L_Base L_Tagset L_Threads.
Import ListNotations.
Local Open Scope nat_scope.
Local Open Scope list_scope.

(** caches are never emptied, KNOWN_GRAMMEMES is only rebound to newer objects *)
Record grows (m m' : mem) : Prop := {
  gw_memo : forall k, sget k (h_memo m) <> None -> sget k (h_memo m') <> None;
  gw_gr : forall o, c_gr (h_cells m o) <> None -> c_gr (h_cells m' o) <> None;
  gw_cyr_gr : forall o, c_cyr_gr (h_cells m o) <> None -> c_cyr_gr (h_cells m' o) <> None;
  gw_cyr : forall o, c_cyr (h_cells m o) <> None -> c_cyr (h_cells m' o) <> None;
  gw_known : h_known m <= h_known m';
  gw_sets : length (h_sets m) <= length (h_sets m') }.
Lemma grows_refl : forall m, grows m m. Proof. intros m. constructor; auto. Qed.
Lemma grows_trans : forall a b c, grows a b -> grows b c -> grows a c.
Proof. intros a b c [] []. constructor; eauto; lia. Qed.
Lemma sset_some : forall (k k' v : str) (d : list (str * str)), sget k d <> None -> sget k (sset_ k' v d) <> None.
Proof.
  intros k k' v d H. unfold sget, sset_ in *. destruct (list_eq_dec N.eq_dec k k') as [->|N]; [rewrite dget_dset_same by apply str_eqb_eq; discriminate|]. rewrite dget_dset_other by (auto; apply str_eqb_eq). exact H.
Qed.
Lemma exec_grows : forall R (o : op R) m, h_known m <= length (h_sets m) -> grows m (fst (exec o m)).
Proof.
  intros R o m H. destruct o; cbn [exec fst]; try apply grows_refl; try (constructor; cbn; auto; rewrite ?upd_length, ?app_length; cbn; auto; lia).
  - destruct (dget N.eqb c (h_latin m)); cbn [fst]; constructor; cbn; auto.
  - constructor; cbn; auto. intros k0 K. apply sset_some. exact K.
  - constructor; cbn; auto; intros o0 K; unfold set_cell; destruct (o0 =? o); cbn; auto. discriminate.
  - constructor; cbn; auto; intros o0 K; unfold set_cell; destruct (o0 =? o); cbn; auto. discriminate.
  - constructor; cbn; auto; intros o0 K; unfold set_cell; destruct (o0 =? o); cbn; auto. discriminate.
Qed.
Lemma exec_known : forall R (o : op R) m, h_known m < length (h_sets m) -> h_known (fst (exec o m)) < length (h_sets (fst (exec o m))).
Proof. intros R o m H. destruct o; cbn [exec fst]; auto; try (cbn; rewrite ?upd_length, ?app_length; cbn; auto; lia). destruct (dget N.eqb c (h_latin m)); cbn; auto. Qed.

Section Transparent.
  Variables (U : uni) (tag_of : nat -> tag) (func : str -> res str).
  Variable I : mem -> Prop.
  Notation safe := (safe I grows).
  Record caches (m : mem) : Prop := {
    ca_latin : forall c b, dget N.eqb c (h_latin m) = Some b -> u_latin U c = Some b;
    ca_memo : forall k v, sget k (h_memo m) = Some v -> func k = Ok v;
    ca_gr : forall o s, c_gr (h_cells m o) = Some s -> s = t_gr (tag_of o);
    ca_known : h_known m < length (h_sets m) }.
  Hypothesis I_caches : forall m, I m -> caches m.
  Hypothesis I_latin : forall m c b, I m -> u_latin U c = Some b -> I (fst (exec (LatinSetdefault c b) m)).
  Hypothesis I_memo : forall m k v, I m -> func k = Ok v -> I (fst (exec (MemoSet k v) m)).
  Hypothesis I_gr : forall m o, I m -> I (fst (exec (SetGr o (t_gr (tag_of o))) m)).
  Lemma I_grows : forall R (o : op R) m, I m -> grows m (fst (exec o m)).
  Proof. intros R o m H. apply exec_grows. apply I_caches in H as [_ _ _ K]. lia. Qed.
  Lemma read : forall A R (o : op R) (k : R -> prog A) P m, (forall m', fst (exec o m') = m') -> (forall m', grows m m' -> I m' -> safe P m' (k (snd (exec o m')))) -> safe P m (Do o k).
  Proof. intros A R o k P m RO H. constructor; intros m' G IM; rewrite RO; [split; [exact IM|apply grows_refl]|]. apply H; auto. Qed.
  Lemma write : forall A R (o : op R) (k : R -> prog A) P m, (forall m', I m' -> I (fst (exec o m'))) -> (forall m', grows m m' -> I m' -> safe P (fst (exec o m')) (k (snd (exec o m')))) -> safe P m (Do o k).
  Proof. intros A R o k P m W H. constructor; intros m' G IM; [split; [auto|apply I_grows; exact IM]|apply H; auto]. Qed.
  Lemma sbind : forall A B (P : res A -> Prop) (Q : res B -> Prop) f p m, safe P m p ->
    (forall a m', grows m m' -> P (Ok a) -> safe Q m' (f a)) -> (forall e, P (Err e) -> Q (Err e)) -> safe Q m (pbind p f).
  Proof. intros A B P Q f p m. apply safe_bind; [exact grows_refl|exact grows_trans]. Qed.
  Lemma sbind2 : forall A B D (P : res A -> Prop) (Q : res D -> Prop) (f : A -> prog B) (g : B -> prog D) p m, safe P m p ->
    (forall a m', grows m m' -> P (Ok a) -> safe Q m' (pbind (f a) g)) -> (forall e, P (Err e) -> Q (Err e)) -> safe Q m (pbind (pbind p f) g).
  Proof. intros A B D P Q f g p m. apply safe_bind2; [exact grows_refl|exact grows_trans]. Qed.
  Lemma sret : forall A (P : res A -> Prop) m a, P (Ok a) -> safe P m (ret a). Proof. intros. constructor. auto. Qed.
  Lemma spret : forall A (f : A -> val) p (x : res A) m, safe (eq x) m p -> safe (eq (rmap f x)) m (pret f p).
  Proof. intros A f p x m H. apply (sbind _ _ _ _ _ _ _ H); [intros a m' _ ->; constructor; reflexivity|intros e ->; reflexivity]. Qed.

  Lemma s_latin_char : forall c m, safe (eq (is_latin_char U c)) m (is_latin_char_t U c).
  Proof.
    intros c m. unfold is_latin_char_t. cbn [pbind act]. apply read; [reflexivity|]. intros m1 G1 I1. cbn [exec snd fst]. unfold is_latin_char. destruct (dget N.eqb c (h_latin m1)) as [b|] eqn:E.
    - rewrite (ca_latin _ (I_caches _ I1) _ _ E). constructor. reflexivity.
    - destruct (u_latin U c) as [b|] eqn:L; [|constructor; reflexivity]. apply write; [intros m2 I2; apply I_latin; auto|]. intros m2 G2 I2. constructor. cbn [exec]. destruct (dget N.eqb c (h_latin m2)) as [b'|] eqn:E2; [|reflexivity].
      cbn [snd]. rewrite (ca_latin _ (I_caches _ I2) _ _ E2) in L. injection L as ->. reflexivity.
  Qed.
  Lemma s_all_latin : forall s m, safe (eq (all_latin U s)) m (all_latin_t U s).
  Proof.
    induction s as [|c s IH]; intros m; [constructor; reflexivity|]. cbn [all_latin all_latin_t]. destruct (u_alpha U c); [|apply IH]. apply (sbind _ _ _ _ _ _ _ (s_latin_char c m)).
    - intros b m' _ ->. cbn [bind]. destruct b; [apply IH|constructor; reflexivity].
    - intros e ->. reflexivity.
  Qed.
  Lemma s_is_latin : forall s m, safe (eq (is_latin U s)) m (is_latin_t U s).
  Proof. intros s m. unfold is_latin, is_latin_t. destruct (existsb (u_alpha U) s); [apply s_all_latin|constructor; reflexivity]. Qed.
  Lemma s_memo : forall k m, safe (eq (func k)) m (memoized_t func k).
  Proof.
    intros k m. unfold memoized_t. cbn [pbind act]. apply read; [reflexivity|]. intros m1 G1 I1. cbn [exec snd fst]. destruct (sget k (h_memo m1)) as [v|] eqn:E.
    - cbn [pbind]. apply read; [reflexivity|]. intros m2 G2 I2. cbn [exec snd]. destruct (sget k (h_memo m2)) as [v2|] eqn:E2; [|exfalso; apply (gw_memo _ _ G2 k); [rewrite E; discriminate|exact E2]].
      constructor. rewrite (ca_memo _ (I_caches _ I2) _ _ E2). reflexivity.
    - destruct (func k) as [v|e] eqn:F; [|constructor; exact (eq_sym F) || reflexivity]. cbn [pbind]. apply write; [intros m2 I2; apply I_memo; auto|]. intros m2 G2 I2. constructor. reflexivity.
  Qed.
  Lemma s_grammemes : forall o m, safe (eq (Ok (Some (t_gr (tag_of o))))) m (grammemes_t tag_of o).
  Proof.
    intros o m. unfold grammemes_t. cbn [pbind act]. apply read; [reflexivity|]. intros m1 G1 I1. cbn [exec snd fst].
    assert (K : forall m2, c_gr (h_cells m2 o) <> None -> safe (eq (Ok (Some (t_gr (tag_of o))))) m2 (act (GetGr o))).
    { intros m2 S. apply read; [reflexivity|]. intros m3 G3 I3. cbn [exec snd]. constructor. destruct (c_gr (h_cells m3 o)) as [s|] eqn:E; [rewrite (ca_gr _ (I_caches _ I3) _ _ E); reflexivity|]. exfalso. exact (gw_gr _ _ G3 o S E). }
    destruct (c_gr (h_cells m1 o)) as [s|] eqn:E; cbn [pbind].
    - apply K. rewrite E. discriminate.
    - apply write; [intros m2 I2; apply I_gr; exact I2|]. intros m2 G2 I2. apply K. cbn. unfold set_cell. rewrite Nat.eqb_refl. cbn. discriminate.
  Qed.
End Transparent.

(** ** programs that cannot spoil the caches *)
Section Tame.
  Variables (U : uni) (tag_of : nat -> tag) (func : str -> res str).
  Definition honest {R} (o : op R) : Prop :=
    match o with LatinSetdefault c b => u_latin U c = Some b | MemoSet k v => func k = Ok v | SetGr o s => s = t_gr (tag_of o) | _ => True end.
  Inductive tame {A} : prog A -> Prop :=
  | tame_ret : forall r, tame (Ret r)
  | tame_do : forall R (o : op R) k, honest o -> (forall x, tame (k x)) -> tame (Do o k).
  Lemma dset_N : forall c b (d : list (char * bool)) c' b', dget N.eqb c' (dset N.eqb c b d) = Some b' -> (c' = c /\ b' = b) \/ dget N.eqb c' d = Some b'.
  Proof.
    intros c b d c' b' H. destruct (N.eq_dec c' c) as [->|N]; [rewrite dget_dset_same in H by apply N.eqb_eq; injection H as <-; auto|]. rewrite dget_dset_other in H by (auto; apply N.eqb_eq). auto.
  Qed.
  Lemma honest_caches : forall R (o : op R) m, honest o -> caches U tag_of func m -> caches U tag_of func (fst (exec o m)).
  Proof.
    intros R o m H [A B D E]. pose proof (exec_known _ o m E) as K. destruct o; cbn [exec fst honest] in *; try (constructor; cbn in *; auto; fail).
    - destruct (dget N.eqb c (h_latin m)) eqn:G; cbn [fst] in *; constructor; cbn; auto. intros c' b' X. apply dset_N in X as [[-> ->]|X]; auto.
    - constructor; cbn; auto. intros k' v' X. destruct (list_eq_dec N.eq_dec k' k) as [->|N]; unfold sget, sset_ in X; [rewrite dget_dset_same in X by apply str_eqb_eq; injection X as <-; exact H|]. rewrite dget_dset_other in X by (auto; apply str_eqb_eq). auto.
    - constructor; cbn; auto. intros o' s' X. unfold set_cell in X. destruct (o' =? o) eqn:Q; [apply Nat.eqb_eq in Q; subst o'; cbn in X; injection X as <-; exact H|]. auto.
    - constructor; cbn; auto. intros o' s' X. unfold set_cell in X. destruct (o' =? o); cbn in X; auto.
    - constructor; cbn; auto. intros o' s' X. unfold set_cell in X. destruct (o' =? o); cbn in X; auto.
  Qed.
  Lemma tame_safe : forall A (p : prog A) m, tame p -> safe (caches U tag_of func) grows (fun _ => True) m p.
  Proof.
    intros A p m H. revert m. induction H as [r|R o k H1 H2 IH]; intros m; constructor; auto. intros m' G C. split; [apply honest_caches; auto|]. apply exec_grows. destruct C as [_ _ _ K]. lia.
  Qed.
  Lemma tame_bind : forall A B (p : prog A) (f : A -> prog B), tame p -> (forall a, tame (f a)) -> tame (pbind p f).
  Proof. intros A B p f H K. induction H as [r|R o k H1 H2 IH]; cbn [pbind]; [destruct r; [apply K|constructor]|]. constructor; auto. Qed.
  Lemma tame_act : forall R (o : op R), honest o -> tame (act o). Proof. intros. constructor; auto. intros x. constructor. Qed.
  Lemma tame_pmap : forall A B (f : A -> prog B) l, (forall x, tame (f x)) -> tame (pmap f l).
  Proof. intros A B f l H. induction l as [|x l IH]; [constructor|]. cbn [pmap]. apply tame_bind; [auto|]. intros y. apply tame_bind; [auto|]. intros ys. constructor. Qed.
  Lemma tame_piter : forall A (f : A -> prog unit) l, (forall x, tame (f x)) -> tame (piter f l).
  Proof. intros A f l H. induction l as [|x l IH]; [constructor|]. cbn [piter]. apply tame_bind; auto. Qed.
  Ltac tm := repeat first [apply tame_bind | apply tame_pmap | apply tame_piter | apply tame_act; exact I | apply tame_ret | intros ?].
  Lemma tame_add : forall l c o, tame (add_known_t l c o).
  Proof. intros l c o. unfold add_known_t. apply tame_bind; [destruct o; unfold ret; tm|]. intros []; unfold ret; tm. Qed.
  Lemma tame_known : forall gs, tame (assert_known_t gs).
  Proof. intros gs. unfold assert_known_t, assert_initialized_t, raise, ret. tm. destruct a0; tm. destruct a1; tm. Qed.
  Lemma tame_construct : forall rows tags adds, tame (construct_t rows tags adds).
  Proof.
    intros. unfold construct_t, init_grammemes_t, mk_tag_t. repeat first [apply tame_add | apply tame_known | apply tame_bind | apply tame_pmap | apply tame_piter | apply tame_act; exact I | apply tame_ret | intros ?].
  Qed.
  Lemma tame_grammemes : forall o, tame (grammemes_t tag_of o).
  Proof. intros o. unfold grammemes_t, ret. tm. destruct a; tm. apply tame_act. reflexivity. Qed.
  Lemma tame_cyr : forall o, tame (grammemes_cyr_t tag_of o) /\ tame (cyr_repr_t U tag_of o).
  Proof. intros o. unfold grammemes_cyr_t, cyr_repr_t, translate_t, ret, raise. split; tm; destruct a; tm; try (destruct a0; tm). Qed.
  Lemma tame_contains : forall g o, tame (contains_t tag_of g o).
  Proof. intros. unfold contains_t, grammeme_is_known_t, assert_initialized_t, ret, raise. apply tame_bind; [apply tame_grammemes|]. intros gs. destruct (smem g (the_set gs)); tm. destruct a0; tm. destruct a; tm. Qed.
  Lemma tame_contains_set : forall g o, tame (contains_set_t tag_of g o).
  Proof. intros. unfold contains_set_t, ret. apply tame_bind; [apply tame_grammemes|]. intros gs. destruct (ssub g (the_set gs)); [constructor|]. apply tame_bind; [apply tame_known|]. intros _. constructor. Qed.
  Lemma tame_any : forall gs os, tame (any_contains_t tag_of gs os).
  Proof. intros gs os. induction os as [|o os IH]; [constructor|]. cbn [any_contains_t]. apply tame_bind; [apply tame_contains_set|]. intros []; [constructor|auto]. Qed.
End Tame.
