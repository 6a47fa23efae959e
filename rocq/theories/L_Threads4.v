(** * Threads: creating analyzers in one go *)
From Coq Require Import String List NArith ZArith Bool Lia.
From Verif Require Import Py Uni Tagset Shapes Units Analyzer Threads Spec6 Spec11.
From Verif Require Import L_Base L_Tagset L_Threads L_Threads2 L_ThreadParse L_ThreadLex L_Reload L_Threads3.
Import ListNotations.
Local Open Scope nat_scope.
Local Open Scope list_scope.

Lemma run_bind : forall A B (p : prog A) (f : A -> prog B) m, run (pbind p f) m = match snd (run p m) with Ok a => run (f a) (fst (run p m)) | Err e => (fst (run p m), Err e) end.
Proof. intros A B p f. induction p as [r|R o k IH]; intros m; cbn [pbind run]; [destruct r; reflexivity|]. destruct (exec o m) as [m' x]. apply IH. Qed.
Lemma nth_upd_same : forall A i (f : A -> A) l d, i < length l -> nth i (upd_nth i f l) d = f (nth i l d).
Proof. intros A i f l d. revert i. induction l as [|x l IH]; intros [|i] H; cbn in *; try lia; auto. apply IH. lia. Qed.
Lemma nth_upd_other : forall A i j (f : A -> A) l d, i <> j -> nth i (upd_nth j f l) d = nth i l d.
Proof. intros A i j f l d. revert i j. induction l as [|x l IH]; intros [|i] [|j] H; cbn; auto; try lia. Qed.

(** what a construction leaves alone: the caches, and the set objects bound before *)
Record kept (m m' : mem) : Prop := {
  k_latin : h_latin m' = h_latin m; k_memo : h_memo m' = h_memo m; k_cells : h_cells m' = h_cells m }.
Lemma kept_refl : forall m, kept m m. Proof. constructor; reflexivity. Qed.
Lemma kept_trans : forall a b c, kept a b -> kept b c -> kept a c. Proof. intros a b c [] []. constructor; congruence. Qed.
(** [m'] continues [m] with the same objects bound, one of the sets changed *)
Record goes_on (m m' : mem) : Prop := {
  go_kept : kept m m'; go_known : h_known m' = h_known m; go_len : length (h_sets m') = length (h_sets m);
  go_old : forall id, id <> h_known m -> nth id (h_sets m') [] = nth id (h_sets m) []; go_wf : wf m' }.
Lemma goes_refl : forall m, wf m -> goes_on m m. Proof. intros m W. constructor; auto. apply kept_refl. Qed.
Lemma goes_trans : forall a b c, goes_on a b -> goes_on b c -> goes_on a c.
Proof. intros a b c [A1 A2 A3 A4 A5] [B1 B2 B3 B4 B5]. constructor; auto; try congruence; [exact (kept_trans _ _ _ A1 B1)|]. intros id H. rewrite B4 by congruence. auto. Qed.

Lemma run_add : forall l c o m, wf m -> exists m', run (add_known_t l c o) m = (m', Ok tt) /\ class_of m' = add_known (class_of m) l c o /\ goes_on m m'.
Proof.
  intros l c o m W.
  assert (K : exists m', run (do* id := act KnownRef in do* _ := act (SetAdd l id) in do* x := act LatRef in do* _ := act (DictSet l c x) in do* y := act CyrRef in act (DictSet c l y)) m = (m', Ok tt) /\
              class_of m' = add_known (class_of m) l c true /\ goes_on m m').
  { eexists. cbn. split; [reflexivity|]. destruct W as (W1 & W2 & W3 & W4). unfold class_of, add_known. cbn. split; [f_equal|].
    - rewrite nth_upd_same by exact W1. reflexivity.
    - rewrite nth_upd_other by exact W4. rewrite nth_upd_same by exact W2. reflexivity.
    - rewrite nth_upd_same by (rewrite upd_length; exact W3). rewrite nth_upd_other by auto. reflexivity.
    - constructor; cbn; rewrite ?upd_length; auto; [constructor; reflexivity|intros id H; apply nth_upd_other; exact H|]. unfold wf. cbn. rewrite !upd_length. auto. }
  destruct o; [exact K|]. unfold add_known_t. cbn [pbind act run exec fst snd]. unfold add_known at 1. cbn [negb andb class_of tc_known].
  destruct (smem l (nth (h_known m) (h_sets m) [])) eqn:S.
  - exists m. split; [reflexivity|]. split; [reflexivity|]. apply goes_refl. exact W.
  - destruct K as (m' & R & Q & G). exists m'. split; [exact R|]. split; [|exact G]. rewrite Q. unfold add_known. cbn [negb andb class_of tc_known]. rewrite S. reflexivity.
Qed.
Lemma run_piter : forall A (f : A -> prog unit) (g : tagclass -> A -> tagclass) l m, wf m ->
  (forall x m, In x l -> wf m -> exists m', run (f x) m = (m', Ok tt) /\ class_of m' = g (class_of m) x /\ goes_on m m') ->
  exists m', run (piter f l) m = (m', Ok tt) /\ class_of m' = fold_left g l (class_of m) /\ goes_on m m'.
Proof.
  intros A f g l. induction l as [|x l IH]; intros m W H; [exists m; repeat split; auto; apply goes_refl; exact W|]. cbn [piter fold_left]. rewrite run_bind. destruct (H x m (or_introl eq_refl) W) as (m1 & R1 & Q1 & G1). rewrite R1. cbn [fst snd].
  destruct (IH m1 (go_wf _ _ G1) (fun y m2 Hy => H y m2 (or_intror Hy))) as (m2 & R2 & Q2 & G2). exists m2. rewrite R2, Q2, Q1. split; [reflexivity|]. split; [reflexivity|]. exact (goes_trans _ _ _ G1 G2).
Qed.
(** [m'] after a fresh set was bound *)
Record begins (m m' : mem) : Prop := {
  be_kept : kept m m'; be_known : h_known m' = length (h_sets m); be_len : length (h_sets m') = S (length (h_sets m));
  be_old : forall id, id < length (h_sets m) -> nth id (h_sets m') [] = nth id (h_sets m) []; be_wf : wf m' }.
Lemma begins_goes : forall a b c, begins a b -> goes_on b c -> begins a c.
Proof. intros a b c [A1 A2 A3 A4 A5] [B1 B2 B3 B4 B5]. constructor; auto; try congruence; [exact (kept_trans _ _ _ A1 B1)|]. intros id H. rewrite B4 by lia. auto. Qed.

Lemma fold_rows_extra : forall rows C, tc_extra (fold_left add_row rows C) = tc_extra C /\ tc_incompat (fold_left add_row rows C) = tc_incompat C /\ tc_indices (fold_left add_row rows C) = tc_indices C.
Proof. intros rows. induction rows as [|r rows IH]; intros C; [auto|]. cbn [fold_left]. destruct (IH (add_row C r)) as (-> & -> & ->). unfold add_row, add_known. cbn. auto. Qed.
Lemma run_init : forall rows m, wf m -> exists m', run (init_grammemes_t rows) m = (m', Ok tt) /\ class_of m' = init_grammemes (class_of m) rows /\ begins m m'.
Proof.
  intros rows m W. unfold init_grammemes_t. cbn [pbind act run exec]. rewrite run_bind.
  match goal with |- context [run (piter _ rows) ?X] => set (m1 := X) end.
  assert (L2 : length (h_dicts m ++ [[]]) = S (length (h_dicts m))) by (rewrite app_length; cbn; lia).
  assert (B1 : begins m m1). { constructor; [constructor; reflexivity|reflexivity|subst m1; cbn; rewrite app_length; cbn; lia|intros id H; subst m1; cbn; apply app_nth1; exact H|]. unfold wf. subst m1. cbn. rewrite !app_length. cbn. repeat split; lia. }
  assert (C1 : class_of m1 = reset_known (class_of m)).
  { subst m1. unfold class_of, reset_known. cbn. f_equal.
    - rewrite app_nth2, Nat.sub_diag by lia. reflexivity.
    - rewrite app_nth2, Nat.sub_diag by lia. reflexivity.
    - rewrite app_nth1 by lia. rewrite app_nth2, Nat.sub_diag by lia. reflexivity. }
  destruct (run_piter _ (fun r => add_known_t (g_name r) (g_alias r) true) add_row rows m1 (be_wf _ _ B1)) as (m2 & R2 & Q2 & G2). { intros r mm _ Wm. destruct (run_add (g_name r) (g_alias r) true mm Wm) as (m' & R & Q & G). eauto. }
  rewrite R2. cbn [fst snd pbind act run exec].
  match goal with |- context [run (piter _ (enum rows)) ?X] => set (m3 := X) end.
  set (extra := expand_extra rows (h_extra m2)).
  assert (G3 : goes_on m2 m3) by (constructor; try reflexivity; [constructor; reflexivity|exact (go_wf _ _ G2)]).
  assert (K : forall l mm, wf mm -> h_extra mm = extra -> exists m', run (piter (fun ir => act (SetRow rows (fst ir) (snd ir))) l) mm = (m', Ok tt) /\ class_of m' = fold_left (set_row rows extra) l (class_of mm) /\ goes_on mm m').
  { induction l as [|[i r] l IH]; intros mm Wm X; [exists mm; repeat split; auto; apply goes_refl; exact Wm|]. cbn [piter]. cbn [pbind act run exec fst snd fold_left].
    match goal with |- context [run (piter _ l) ?X] => set (m4 := X) end. assert (G4 : goes_on mm m4) by (constructor; try reflexivity; [constructor; reflexivity|exact Wm]).
    destruct (IH m4 (go_wf _ _ G4) X) as (m5 & R5 & Q5 & G5). exists m5. split; [exact R5|]. split; [rewrite Q5; f_equal; unfold class_of, set_row; subst m4; cbn; rewrite X; reflexivity|]. exact (goes_trans _ _ _ G4 G5). }
  destruct (K (enum rows) m3 (go_wf _ _ G3) eq_refl) as (m4 & R4 & Q4 & G4). exists m4. split; [exact R4|]. split.
  - rewrite Q4. unfold init_grammemes. rewrite <- C1, <- Q2. cbn [class_of tc_extra]. fold extra. reflexivity.
  - exact (begins_goes _ _ _ B1 (goes_trans _ _ _ G2 (goes_trans _ _ _ G3 G4))).
Qed.
Lemma run_known : forall gs m, run (assert_known_t gs) m = (m, assert_known (class_of m) gs).
Proof.
  intros gs m. unfold assert_known_t, assert_initialized_t, assert_known, assert_initialized. cbn [pbind act run exec class_of tc_known]. destruct (ssub gs (nth (h_known m) (h_sets m) [])); [reflexivity|]. cbn [pbind act run exec].
  destruct (nth (h_known m) (h_sets m) []) eqn:E; reflexivity.
Qed.
Lemma run_tags : forall tags m, fst (run (piter mk_tag_t tags) m) = m /\ (snd (run (piter mk_tag_t tags) m) = Ok tt <-> Forall (fun s => ssub (split_tag s) (tc_known (class_of m)) = true) tags).
Proof.
  induction tags as [|s tags IH]; intros m; [cbn; repeat split; constructor|]. cbn [piter]. rewrite run_bind. rewrite (run_known (split_tag s) m : run (mk_tag_t s) m = _). cbn [fst snd]. unfold assert_known, assert_initialized.
  destruct (ssub (split_tag s) (tc_known (class_of m))) eqn:E.
  - destruct (IH m) as (A & B). split; [exact A|]. rewrite B. split; intros H; [constructor; auto|inversion H; auto].
  - destruct (tc_known (class_of m)) eqn:K; cbn [bind fst snd]; (split; [reflexivity|]); (split; [discriminate|]); intros H; inversion H as [|? ? H1 H2]; subst; rewrite E in H1; discriminate H1.
Qed.
Lemma run_adds : forall (adds : list (str * str * bool)) m, wf m -> exists m', run (piter (fun a => add_known_t (fst (fst a)) (snd (fst a)) (snd a)) adds) m = (m', Ok tt) /\
  class_of m' = fold_left (fun C a => add_known C (fst (fst a)) (snd (fst a)) (snd a)) adds (class_of m) /\ goes_on m m'.
Proof. intros adds m W. apply run_piter; [exact W|]. intros a mm _ Wm. apply run_add. exact Wm. Qed.
(** a complete construction *)
Lemma run_construct : forall rows tags adds m, wf m -> Forall (fun s => ssub (split_tag s) (tc_known (init_grammemes (class_of m) rows)) = true) tags ->
  exists m', run (construct_t rows tags adds) m = (m', Ok tt) /\ class_of m' = created (class_of m) [(rows, adds)] /\ begins m m'.
Proof.
  intros rows tags adds m W H. unfold construct_t. rewrite run_bind. destruct (run_init rows m W) as (m1 & R1 & Q1 & B1). rewrite R1. cbn [fst snd]. rewrite run_bind. destruct (run_tags tags m1) as (T1 & T2). rewrite T1. rewrite Q1 in T2. apply T2 in H. rewrite H.
  destruct (run_adds adds m1 (be_wf _ _ B1)) as (m2 & R2 & Q2 & G2). exists m2. split; [exact R2|]. split; [|exact (begins_goes _ _ _ B1 G2)]. rewrite Q2, Q1. reflexivity.
Qed.
(** every construction, failed or not, binds one fresh set that ends up with the names of the rows *)
Lemma In_smem : forall g (s : sset), smem g s = true <-> In g s.
Proof. intros. apply smem_In. Qed.
Lemma add_known_keeps : forall C l c o g, In g (tc_known C) -> In g (tc_known (add_known C l c o)).
Proof. intros C l c o g H. unfold add_known. destruct (negb o && smem l (tc_known C)); [exact H|]. cbn. destruct (smem l (tc_known C)); [exact H|]. apply in_or_app. auto. Qed.
Lemma add_known_has : forall C l c o, In l (tc_known (add_known C l c o)).
Proof.
  intros C l c o. unfold add_known. destruct (smem l (tc_known C)) eqn:E; [apply In_smem in E; destruct (negb o); cbn; exact E|]. rewrite andb_false_r. cbn. apply in_or_app. right. left. reflexivity.
Qed.
Lemma rows_keep : forall rows C g, In g (tc_known C) -> In g (tc_known (fold_left add_row rows C)).
Proof. induction rows as [|r rows IH]; intros C g H; [exact H|]. cbn [fold_left]. apply IH. apply add_known_keeps. exact H. Qed.
Lemma rows_have : forall rows C g, In g (map g_name rows) -> In g (tc_known (fold_left add_row rows C)).
Proof. induction rows as [|r rows IH]; intros C g H; [destruct H|]. cbn [fold_left map] in *. destruct H as [<-|H]; [apply rows_keep; apply add_known_has|apply IH; exact H]. Qed.
Lemma set_rows_known : forall l rows e C, tc_known (fold_left (set_row rows e) l C) = tc_known C.
Proof. induction l as [|[i r] l IH]; intros rows e C; [reflexivity|]. cbn [fold_left]. rewrite IH. reflexivity. Qed.
Lemma init_has : forall rows C g, In g (map g_name rows) -> In g (tc_known (init_grammemes C rows)).
Proof. intros rows C g H. unfold init_grammemes. rewrite set_rows_known. cbn [tc_known]. apply rows_have. exact H. Qed.
Lemma adds_keep : forall (adds : list (str * str * bool)) C g, In g (tc_known C) -> In g (tc_known (fold_left (fun C a => add_known C (fst (fst a)) (snd (fst a)) (snd a)) adds C)).
Proof. induction adds as [|a adds IH]; intros C g H; [exact H|]. cbn [fold_left]. apply IH. apply add_known_keeps. exact H. Qed.
Lemma construct_always : forall rows tags adds m, wf m -> begins m (fst (run (construct_t rows tags adds) m)) /\
  forall g, In g (map g_name rows) -> In g (tc_known (class_of (fst (run (construct_t rows tags adds) m)))).
Proof.
  intros rows tags adds m W. unfold construct_t. rewrite run_bind. destruct (run_init rows m W) as (m1 & R1 & Q1 & B1). rewrite R1. cbn [fst snd]. rewrite run_bind. destruct (run_tags tags m1) as (T1 & _). rewrite T1.
  destruct (snd (run (piter mk_tag_t tags) m1)); cbn [fst].
  - destruct (run_adds adds m1 (be_wf _ _ B1)) as (m2 & R2 & Q2 & G2). rewrite R2. cbn [fst]. split; [exact (begins_goes _ _ _ B1 G2)|]. intros g H. rewrite Q2, Q1. apply adds_keep. apply init_has. exact H.
  - split; [exact B1|]. intros g H. rewrite Q1. apply init_has. exact H.
Qed.
Lemma construct_tables : forall rows tags adds m, wf m -> let C' := class_of (fst (run (construct_t rows tags adds) m)) in
  tc_extra C' = tc_extra (init_grammemes (class_of m) rows) /\ tc_incompat C' = tc_incompat (init_grammemes (class_of m) rows).
Proof.
  intros rows tags adds m W. unfold construct_t. rewrite run_bind. destruct (run_init rows m W) as (m1 & R1 & Q1 & B1). rewrite R1. cbn [fst snd]. rewrite run_bind. destruct (run_tags tags m1) as (T1 & _). rewrite T1.
  destruct (snd (run (piter mk_tag_t tags) m1)); cbn [fst]; [|rewrite Q1; split; reflexivity].
  destruct (run_adds adds m1 (be_wf _ _ B1)) as (m2 & R2 & Q2 & G2). rewrite R2. cbn [fst]. rewrite Q2, Q1. apply adds_tables.
Qed.
Lemma tags_known_ok : forall rows tags C, tags_known rows tags -> Forall (fun s => ssub (split_tag s) (tc_known (init_grammemes C rows)) = true) tags.
Proof. intros rows tags C H. apply Forall_forall. intros s S. apply ssub_incl. intros g G. apply init_has. exact (H s g S G). Qed.
Lemma kept_fresh : forall m m', kept m m' -> fresh m -> fresh m'.
Proof. intros m m' [A B D] (X & Y & Z). split; [congruence|]. split; [congruence|]. intros o. rewrite D. apply Z. Qed.
Lemma create_all_ok : forall l m, wf m -> (forall x, In x l -> tags_known (fst (fst x)) (snd (fst x))) ->
  wf (create_all m l) /\ (fresh m -> fresh (create_all m l)) /\ class_of (create_all m l) = created (class_of m) (map (fun x => (fst (fst x), snd x)) l).
Proof.
  induction l as [|[[rows tags] adds] l IH]; intros m W H; [auto|]. cbn [create_all fold_left fst snd map]. destruct (run_construct rows tags adds m W) as (m1 & R1 & Q1 & B1). { apply tags_known_ok. exact (H _ (or_introl eq_refl)). }
  rewrite R1. cbn [fst]. destruct (IH m1 (be_wf _ _ B1) (fun x Hx => H x (or_intror Hx))) as (A & B & D). split; [exact A|]. split; [intros F; apply B; exact (kept_fresh _ _ (be_kept _ _ B1) F)|]. unfold create_all in D. rewrite D, Q1. reflexivity.
Qed.

(** ** programs that do not change the class *)
Section Atomic.
  Variables (U : uni) (tag_of : nat -> tag) (func : str -> res str).
  Variables (gb : str -> bool) (k0 n0 : nat).
  Variables (C0 : tagclass) (ST : Prop).
  Notation G := (fun g => gb g = true).
  Notation code := (code U tag_of func).
  Record ID (m : mem) : Prop := {
    id_ca : caches U tag_of func m; id_wf : wf m; id_k : h_known m = k0 \/ n0 <= h_known m; id_n : n0 <= length (h_sets m);
    id_has : forall id g, id = k0 \/ n0 <= id -> id < length (h_sets m) -> G g -> In g (nth id (h_sets m) []);
    id_st : ST -> same_tables (class_of m) C0 }.
  Notation safe := (safe ID grows).
  Definition calm {R} (o : op R) : Prop :=
    match o with
    | LatinSetdefault c b => u_latin U c = Some b | MemoSet k v => func k = Ok v | SetGr o s => s = t_gr (tag_of o)
    | NewKnown | NewLat | NewCyr | SetAdd _ _ | DictSet _ _ _ | ExpandExtra _ | SetRow _ _ _ => False
    | _ => True
    end.
  Lemma calm_ID : forall R (o : op R) m, calm o -> ID m -> ID (fst (exec o m)).
  Proof.
    intros R o m H [A B D NN E X]. assert (A' : caches U tag_of func (fst (exec o m))) by (apply honest_caches; [destruct o; cbn in *; auto|exact A]).
    destruct o; cbn [exec fst calm] in *; try (destruct H; fail); try (constructor; auto; fail). destruct (dget N.eqb c (h_latin m)); cbn [fst] in *; constructor; auto.
  Qed.
  Inductive calmly {A} : prog A -> Prop :=
  | calm_ret : forall r, calmly (Ret r)
  | calm_do : forall R (o : op R) k, calm o -> (forall x, calmly (k x)) -> calmly (Do o k).
  Lemma calm_safe : forall A (p : prog A) (P : res A -> Prop) m, calmly p -> (forall r, P r) -> safe P m p.
  Proof.
    intros A p P m H X. revert m. induction H as [r|R o k H1 H2 IH]; intros m; constructor; auto. intros m' Gm C. split; [apply calm_ID; auto|]. apply exec_grows. destruct C as [[_ _ _ K] _ _ _ _ _]. lia.
  Qed.
  Lemma calm_bind : forall A B (p : prog A) (f : A -> prog B), calmly p -> (forall a, calmly (f a)) -> calmly (pbind p f).
  Proof. intros A B p f H K. induction H as [r|R o k H1 H2 IH]; cbn [pbind]; [destruct r; [apply K|constructor]|]. constructor; auto. Qed.
  Lemma calm_act : forall R (o : op R), calm o -> calmly (act o). Proof. intros. constructor; auto. intros x. constructor. Qed.
  Lemma calm_pmap : forall A B (f : A -> prog B) l, (forall x, calmly (f x)) -> calmly (pmap f l).
  Proof. intros A B f l H. induction l as [|x l IH]; [constructor|]. cbn [pmap]. apply calm_bind; [auto|]. intros y. apply calm_bind; [auto|]. intros ys. constructor. Qed.
  Ltac tm := repeat first [apply calm_bind | apply calm_pmap | apply calm_act; exact I | apply calm_ret | intros ?].
  Lemma calm_latin : forall c, calmly (is_latin_char_t U c).
  Proof. intros c. unfold is_latin_char_t, ret, raise. tm. destruct a; [constructor|]. destruct (u_latin U c) eqn:E; [|constructor]. apply calm_act. exact E. Qed.
  Lemma calm_all_latin : forall s, calmly (all_latin_t U s).
  Proof. induction s as [|c s IH]; [constructor|]. cbn [all_latin_t]. destruct (u_alpha U c); [|exact IH]. apply calm_bind; [apply calm_latin|]. intros []; [exact IH|constructor]. Qed.
  Lemma calm_memo : forall k, calmly (memoized_t func k).
  Proof. intros k. unfold memoized_t, ret, raise. apply calm_bind; [tm|]. intros []; [tm; destruct a; constructor|]. destruct (func k) eqn:F; cbn [pbind]; [|constructor]. apply calm_bind; [apply calm_act; exact F|]. intros _. constructor. Qed.
  Lemma calm_grammemes : forall o, calmly (grammemes_t tag_of o).
  Proof. intros o. unfold grammemes_t, ret. tm. destruct a; tm. apply calm_act. reflexivity. Qed.
  Lemma calm_cyr : forall o, calmly (grammemes_cyr_t tag_of o) /\ calmly (cyr_repr_t U tag_of o).
  Proof. intros o. unfold grammemes_cyr_t, cyr_repr_t, translate_t, ret, raise. split; tm; destruct a; tm; try (destruct a0; tm). Qed.
  (** the answers *)
  Definition q_at (c : call) (r : res val) : Prop :=
    match c with
    | CContains g o => G g -> r = Ok (VBool (smem g (t_gr (tag_of o))))
    | CContainsSet gs o => (forall g, In g gs -> G g) -> r = Ok (VBool (ssub gs (t_gr (tag_of o))))
    | CAny gs os => (forall g, In g gs -> G g) -> r = Ok (VBool (existsb (fun o => ssub gs (t_gr (tag_of o))) os))
    | CParse _ _ _ | CTag _ _ _ | CNormalForms _ _ _ => has_objects U tag_of c -> (forall g, In g adverb_grammemes -> G g) -> forall C, knows C adverb_grammemes -> r = pure U tag_of func C c
    | CLexeme _ _ _ | CNormalized _ _ _ => has_objects U tag_of c -> (forall g, In g masc_grammeme -> G g) -> forall C, knows C masc_grammeme -> r = pure U tag_of func C c
    | CInflect _ _ _ req => has_objects U tag_of c -> (forall g, In g masc_grammeme -> G g) -> knows C0 masc_grammeme -> ST -> (forall g, In g req -> G g /\ G (fix_rare1 g)) -> (forall g, In g req -> can_require C0 g) -> r = pure U tag_of func C0 c
    | CAgree pick _ _ f n => has_objects U tag_of c -> (forall g, In g masc_grammeme -> G g) -> knows C0 masc_grammeme -> ST -> (forall g, In (Some g) (numeral_agreement pick (p_tag f) n) -> G g /\ G (fix_rare1 g)) ->
        (forall g, In (Some g) (numeral_agreement pick (p_tag f) n) -> can_require C0 g) -> r = pure U tag_of func C0 c
    | _ => True
    end.
  Lemma d_gr : forall m o, ID m -> ID (fst (exec (SetGr o (t_gr (tag_of o))) m)).
  Proof. intros m o H. apply calm_ID; auto. reflexivity. Qed.
  Lemma d_ca : forall m, ID m -> caches U tag_of func m. Proof. intros m []. auto. Qed.
  Lemma d_init : forall g m, G g -> safe (eq (Ok tt)) m assert_initialized_t.
  Proof.
    intros g m Gg. unfold assert_initialized_t. cbn [pbind act]. apply read; [reflexivity|]. intros m1 G1 I1. cbn [exec fst snd]. apply read; [reflexivity|]. intros m2 G2 I2. cbn [exec snd].
    assert (X : In g (nth (h_known m1) (h_sets m2) [])). { apply (id_has _ I2); [exact (id_k _ I1)| |exact Gg]. pose proof (gw_sets _ _ G2). destruct (id_wf _ I1). lia. }
    destruct (nth (h_known m1) (h_sets m2) []); [destruct X|constructor; reflexivity].
  Qed.
  Lemma d_is_known : forall g m, G g -> safe (eq (Ok true)) m (grammeme_is_known_t g).
  Proof.
    intros g m Gg. unfold grammeme_is_known_t. apply (sbind _ _ _ _ _ _ _ _ (d_init g m Gg)); [|discriminate]. intros [] m0 _ _. cbn [pbind act]. apply read; [reflexivity|]. intros m1 G1 I1. cbn [exec fst snd]. apply read; [reflexivity|]. intros m2 G2 I2. cbn [exec snd].
    assert (X : In g (nth (h_known m1) (h_sets m2) [])). { apply (id_has _ I2); [exact (id_k _ I1)| |exact Gg]. pose proof (gw_sets _ _ G2). destruct (id_wf _ I1). lia. }
    apply smem_In in X. rewrite X. constructor. reflexivity.
  Qed.
  Lemma d_known : forall gs m, (forall g, In g gs -> G g) -> safe (eq (Ok tt)) m (assert_known_t gs).
  Proof.
    intros gs m Gg. unfold assert_known_t. cbn [pbind act]. apply read; [reflexivity|]. intros m1 G1 I1. cbn [exec fst snd]. apply read; [reflexivity|]. intros m2 G2 I2. cbn [exec snd].
    assert (X : ssub gs (nth (h_known m1) (h_sets m2) []) = true). { apply ssub_incl. intros g Hg. apply (id_has _ I2); [exact (id_k _ I1)| |exact (Gg g Hg)]. pose proof (gw_sets _ _ G2). destruct (id_wf _ I1). lia. }
    rewrite X. constructor. reflexivity.
  Qed.
  Lemma d_contains_set : forall gs o m, (forall g, In g gs -> G g) -> safe (eq (Ok (ssub gs (t_gr (tag_of o))))) m (contains_set_t tag_of gs o).
  Proof.
    intros gs o m Gg. unfold contains_set_t. apply (sbind _ _ _ _ _ _ _ _ (s_grammemes U tag_of func ID d_ca d_gr o m)); [|discriminate].
    intros x m1 _ E. injection E as <-. cbn [the_set]. destruct (ssub gs (t_gr (tag_of o))) eqn:S; [constructor; auto|]. apply (sbind _ _ _ _ _ _ _ _ (d_known gs m1 Gg)); [|discriminate].
    intros [] m2 _ _. constructor. reflexivity.
  Qed.
  Lemma d_any : forall gs os m, (forall g, In g gs -> G g) -> safe (eq (Ok (existsb (fun o => ssub gs (t_gr (tag_of o))) os))) m (any_contains_t tag_of gs os).
  Proof.
    intros gs os m Gg. revert m. induction os as [|o os IH]; intros m; [constructor; auto|]. cbn [any_contains_t existsb]. apply (sbind _ _ _ _ _ _ _ _ (d_contains_set gs o m Gg)); [|discriminate].
    intros b m1 _ E. injection E as <-. destruct (ssub gs (t_gr (tag_of o))); cbn [orb]; [constructor; auto|apply IH].
  Qed.
  Lemma calm_assert_init : calmly assert_initialized_t.
  Proof. unfold assert_initialized_t, ret, raise. tm. destruct a0; constructor. Qed.
  Lemma calm_known : forall gs, calmly (assert_known_t gs).
  Proof. intros gs. unfold assert_known_t, ret, raise. apply calm_bind; [tm|]. intros id. apply calm_bind; [tm|]. intros []; [tm|]. apply calm_bind; [apply calm_assert_init|]. intros _. tm. Qed.
  Lemma calm_contains : forall g o, calmly (contains_t tag_of g o).
  Proof.
    intros g o. unfold contains_t, grammeme_is_known_t, ret, raise. apply calm_bind; [apply calm_grammemes|]. intros gs. destruct (smem g (the_set gs)); [constructor|]. apply calm_bind.
    - apply calm_bind; [apply calm_assert_init|]. intros _. tm.
    - intros []; constructor.
  Qed.
  Lemma calm_contains_set : forall gs o, calmly (contains_set_t tag_of gs o).
  Proof. intros gs o. unfold contains_set_t, ret. apply calm_bind; [apply calm_grammemes|]. intros mine. destruct (ssub gs (the_set mine)); [constructor|]. apply calm_bind; [apply calm_known|]. intros _. constructor. Qed.
  Lemma calm_any : forall gs os, calmly (any_contains_t tag_of gs os).
  Proof. intros gs os. induction os as [|o os IH]; [constructor|]. cbn [any_contains_t]. apply calm_bind; [apply calm_contains_set|]. intros []; [constructor|exact IH]. Qed.
  Lemma calm_pret : forall A (f : A -> val) p, calmly p -> calmly (pret f p).
  Proof. intros A f p H. apply calm_bind; [exact H|]. intros a. constructor. Qed.
  Lemma d_contains : forall g o m, gb g = true -> safe (eq (Ok (smem g (t_gr (tag_of o))))) m (contains_t tag_of g o).
  Proof.
    intros g o m Gg. unfold contains_t. apply (sbind _ _ _ _ _ _ _ _ (s_grammemes U tag_of func ID d_ca d_gr o m)); [|discriminate].
    intros x m1 _ E. injection E as <-. cbn [the_set]. destruct (smem g (t_gr (tag_of o))) eqn:S; [constructor; auto|]. apply (sbind _ _ _ _ _ _ _ _ (d_is_known g m1 Gg)); [|discriminate].
    intros b m2 _ X. injection X as <-. constructor. reflexivity.
  Qed.
  Lemma calm_is_latin : forall s, calmly (is_latin_t U s).
  Proof. intros s. unfold is_latin_t. destruct (existsb (u_alpha U) s); [apply calm_all_latin|constructor]. Qed.
  Lemma calm_parse : forall M o w, calmly (parse_p U tag_of M o w) /\ calmly (tag_p U tag_of M o w).
  Proof.
    intros M o w. split; [apply (T_parse U tag_of M o (fun A => @calmly A))|apply (T_tag U tag_of M o (fun A => @calmly A))]; intros; try apply calm_ret; try (apply calm_bind; auto; fail); auto using calm_grammemes, calm_is_latin, calm_any.
  Qed.
  Lemma d_latin : forall m c b, ID m -> u_latin U c = Some b -> ID (fst (exec (LatinSetdefault c b) m)).
  Proof. intros m c b H E. apply calm_ID; auto. Qed.
  Lemma d_analyze : forall C M o w m, m_uni M = U -> (forall t, tag_source M t -> tag_of (o t) = t) -> (forall g, In g adverb_grammemes -> G g) -> knows C adverb_grammemes ->
    safe (eq (morph_parse (in_class C M) w)) m (parse_p U tag_of M o w) /\ safe (eq (morph_tag (in_class C M) w)) m (tag_p U tag_of M o w).
  Proof.
    intros C M o w m MU OB Gg K. assert (H : forall (w : str) (b : bunit) (tm : bool) (mult : QArith_base.Q), True -> In (b, tm) (m_units M) -> b_cfg b = UHAdverb mult -> prefixb (u "по-") (u_lower U w) = true ->
      forall os m, safe (ok_or (fun _ => False) (any_contains C adverb_grammemes (map tag_of os))) m (any_contains_t tag_of adverb_grammemes os)).
    { intros w0 b tm mult _ _ _ _ os m0. rewrite any_known by exact K. rewrite existsb_map. refine (safe_weaken ID grows _ _ _ m0 _ _ (d_any adverb_grammemes os m0 Gg)). intros r <-. left. reflexivity. }
    split; (eapply safe_weaken; [intros r E; exact (exact_or _ _ _ E)|]).
    - apply (ok_parse U tag_of func ID d_ca d_latin d_gr (fun _ => False) M o C MU OB (fun _ => True) (fun _ _ _ _ => I) H w m I).
    - apply (ok_tag U tag_of func ID d_ca d_latin d_gr (fun _ => False) M o C MU OB (fun _ => True) (fun _ _ _ _ => I) H w m I).
  Qed.
  Lemma calm_is_known : forall g, calmly (grammeme_is_known_t g).
  Proof. intros g. unfold grammeme_is_known_t. apply calm_bind; [apply calm_assert_init|]. intros _. tm. Qed.
  Lemma calm_lexeme : forall M o f req, calmly (get_lexeme_p tag_of M o f) /\ calmly (normalized_p tag_of M o f) /\ calmly (inflect_p tag_of M o f req).
  Proof.
    intros M o f req. split; [|split]; [apply (T_lexeme tag_of M o (fun A => @calmly A))|apply (T_normalized tag_of M o (fun A => @calmly A))|apply (T_inflect tag_of M o (fun A => @calmly A))];
      intros; try apply calm_ret; try (apply calm_bind; auto; fail); auto using calm_grammemes, calm_contains, calm_is_known. apply calm_act. exact I.
  Qed.
  Lemma calm_agree : forall pick M o f n, calmly (agree_p tag_of M o pick f n).
  Proof.
    intros pick M o f n. apply (T_agree tag_of M o (fun A => @calmly A)); intros; try apply calm_ret; try (apply calm_bind; auto; fail); auto using calm_grammemes, calm_contains, calm_is_known, calm_assert_init; apply calm_act; exact I.
  Qed.
  Lemma d_masc : forall C M o t m, (forall t, tag_source M t -> tag_of (o t) = t) -> (forall g, In g masc_grammeme -> G g) -> knows C masc_grammeme -> tag_source M t -> safe (ok_or (fun _ => False) (contains C (u "masc") t)) m (contains_t tag_of (u "masc") (o t)).
  Proof.
    intros C M o t m OB Gg K S. rewrite (contains_known C (u "masc") t) by (apply K; left; reflexivity). rewrite <- (OB t S) at 1. refine (safe_weaken ID grows _ _ _ m _ _ (d_contains (u "masc") (o t) m (Gg _ (or_introl eq_refl)))). intros r <-. left. reflexivity.
  Qed.
  Lemma d_lexeme : forall C M o f m, its_objects U tag_of M o -> tag_source M (p_tag f) -> (forall g, In g masc_grammeme -> G g) -> knows C masc_grammeme ->
    safe (eq (get_lexeme (in_class C M) f)) m (get_lexeme_p tag_of M o f) /\ safe (eq (normalized (in_class C M) f)) m (normalized_p tag_of M o f).
  Proof.
    intros C M o f m (MU & OB) S Gg K. assert (H : forall t m, tag_source M t -> safe (ok_or (fun _ => False) (contains C (u "masc") t)) m (contains_t tag_of (u "masc") (o t))) by (intros t m0 St; exact (d_masc C M o t m0 OB Gg K St)).
    split; (eapply safe_weaken; [intros r E; exact (exact_or _ _ _ E)|]).
    - apply (ok_lexeme U tag_of func ID d_ca d_gr (fun _ => False) M o C OB H f m S).
    - apply (ok_normalized U tag_of func ID d_ca d_gr (fun _ => False) M o C OB H f m S).
  Qed.
  Lemma is_known_ok : forall C g, In g (tc_known C) -> grammeme_is_known C g = Ok true.
  Proof. intros C g K. unfold grammeme_is_known, assert_initialized. apply smem_In in K. destruct (tc_known C) as [|x l]; [discriminate K|]. cbn [bind]. rewrite K. reflexivity. Qed.
  Lemma d_req : forall g acc m, ST -> G g /\ In g (tc_known C0) -> safe (ok_or (fun _ => False) (let* k := grammeme_is_known C0 g in if k then Ok (sdiff acc (incompat_of C0 g)) else Err ValueError)) m
    (do* k := grammeme_is_known_t g in if k then do* inc := act (IncompatGet g) in ret (sdiff acc inc) else raise ValueError).
  Proof.
    intros g acc m st (Gg & K). rewrite (is_known_ok C0 g K). apply (ok_bind ID (fun _ => False)); [refine (safe_weaken ID grows _ _ _ m _ _ (d_is_known g m Gg)); intros r <-; left; reflexivity|]. intros k m1 E. apply Ok_inj in E. subst k.
    cbn [pbind act]. apply read; [reflexivity|]. intros m2 _ I2. cbn [exec snd]. constructor. left. f_equal. symmetry. apply sdiff_same. intros x. symmetry. exact (proj2 (id_st _ I2 st) g x).
  Qed.
  Lemma d_inflect : forall M o f req m, its_objects U tag_of M o -> tag_source M (p_tag f) -> (forall g, In g masc_grammeme -> G g) -> knows C0 masc_grammeme -> ST -> (forall g, In g req -> G g /\ G (fix_rare1 g)) -> (forall g, In g req -> can_require C0 g) ->
    safe (eq (inflect (in_class C0 M) f req)) m (inflect_p tag_of M o f req).
  Proof.
    intros M o f req m (MU & OB) S Gg K st Gr Kr. assert (H : forall t m, tag_source M t -> safe (ok_or (fun _ => False) (contains C0 (u "masc") t)) m (contains_t tag_of (u "masc") (o t))) by (intros t m0 St; exact (d_masc C0 M o t m0 OB Gg K St)).
    eapply safe_weaken; [intros r E; exact (exact_or _ _ _ E)|].
    apply (ok_inflect U tag_of func ID d_ca d_gr (fun _ => False) M o C0 OB H (fun g => G g /\ In g (tc_known C0)) (fun g acc m X => d_req g acc m st X) f req m S). intros g J. destruct (Gr g J), (Kr g J). auto.
  Qed.
  Lemma d_agree : forall pick M o f n m, its_objects U tag_of M o -> tag_source M (p_tag f) -> (forall g, In g masc_grammeme -> G g) -> knows C0 masc_grammeme -> ST ->
    (forall g, In (Some g) (numeral_agreement pick (p_tag f) n) -> G g /\ G (fix_rare1 g)) -> (forall g, In (Some g) (numeral_agreement pick (p_tag f) n) -> can_require C0 g) ->
    safe (eq (make_agree_with_number pick (in_class C0 M) f n)) m (agree_p tag_of M o pick f n).
  Proof.
    intros pick M o f n m (MU & OB) S Gg K st Gr Kr. assert (H : forall t m, tag_source M t -> safe (ok_or (fun _ => False) (contains C0 (u "masc") t)) m (contains_t tag_of (u "masc") (o t))) by (intros t m0 St; exact (d_masc C0 M o t m0 OB Gg K St)).
    eapply safe_weaken; [intros r E; exact (exact_or _ _ _ E)|].
    apply (ok_agree U tag_of func ID d_ca d_gr (fun _ => False) M o C0 OB H (fun g => G g /\ In g (tc_known C0)) (fun g acc m X => d_req g acc m st X)); [| |exact S|intros g J; destruct (Gr g J), (Kr g J); auto].
    - intros m0. refine (safe_weaken ID grows _ _ _ m0 _ _ (d_init (u "masc") m0 (Gg _ (or_introl eq_refl)))). intros r <-. left. unfold assert_initialized. specialize (K _ (or_introl eq_refl)). destruct (tc_known C0); [destruct K|reflexivity].
    - intros m0. cbn [pbind act]. apply read; [reflexivity|]. intros m1 _ _. constructor. left. reflexivity.
  Qed.
  Lemma safe_all : forall A B (P : B -> res A -> Prop) m p, safe (fun _ => True) m p -> (forall b, safe (P b) m p) -> safe (fun r => forall b, P b r) m p.
  Proof.
    intros A B P m p S. induction S as [m r S|m R o k S1 S2 IH]; intros K.
    - constructor. intros h. exact (safe_inv _ _ _ _ _ _ (K h)).
    - constructor; [exact S1|]. intros m' L' I'. apply IH; auto. intros h. exact (safe_inv _ _ _ _ _ _ (K h) m' L' I').
  Qed.
  Lemma at_code : forall c m, ~ creates c -> safe (q_at c) m (code c).
  Proof.
    intros c m NC. destruct c; cbn [Threads.code].
    - apply calm_safe; [apply calm_pret, calm_latin|intros r; exact I].
    - apply calm_safe; [apply calm_pret; unfold is_latin_t; destruct (existsb (u_alpha U) s); [apply calm_all_latin|constructor]|intros r; exact I].
    - apply calm_safe; [apply calm_pret, calm_memo|intros r; exact I].
    - apply calm_safe; [apply calm_pret, calm_grammemes|intros r; exact I].
    - apply calm_safe; [apply calm_pret, calm_cyr|intros r; exact I].
    - apply calm_safe; [apply calm_pret, calm_cyr|intros r; exact I].
    - destruct (gb g) eqn:E; [|apply calm_safe; [apply calm_pret, calm_contains|intros r; cbn; rewrite E; discriminate]].
      apply (safe_weaken ID grows _ (eq (rmap VBool (Ok (smem g (t_gr (tag_of o))))))); [intros r <-; cbn; auto|]. apply spret. apply d_contains. exact E.
    - destruct (forallb gb gs) eqn:E.
      + apply (safe_weaken ID grows _ (eq (rmap VBool (Ok (ssub gs (t_gr (tag_of o))))))); [intros r <-; cbn; auto|]. apply spret. apply d_contains_set. intros g H. rewrite forallb_forall in E. auto.
      + apply calm_safe; [apply calm_pret, calm_contains_set|]. intros r H. exfalso. assert (X : forallb gb gs = true) by (apply forallb_forall; exact H). rewrite X in E. discriminate E.
    - destruct (forallb gb gs) eqn:E.
      + apply (safe_weaken ID grows _ (eq (rmap VBool (Ok (existsb (fun o => ssub gs (t_gr (tag_of o))) os))))); [intros r <-; cbn; auto|]. apply spret. apply d_any. intros g H. rewrite forallb_forall in E. auto.
      + apply calm_safe; [apply calm_pret, calm_any|]. intros r H. exfalso. assert (X : forallb gb gs = true) by (apply forallb_forall; exact H). rewrite X in E. discriminate E.
    - assert (S : safe (fun _ => True) m (pret VParses (parse_p U tag_of M o word))) by (apply calm_safe; [apply calm_pret, calm_parse|auto]). cbn [q_at].
      apply safe_imp; [exact S|]. intros (MU & OB). apply safe_imp; [exact S|]. intros K. apply safe_all; [exact S|]. intros C. apply safe_imp; [exact S|]. intros KC.
      apply (safe_weaken ID grows _ (eq (pure U tag_of func C (CParse M o word)))); [auto|]. apply spret. apply d_analyze; auto.
    - assert (S : safe (fun _ => True) m (pret VTags (tag_p U tag_of M o word))) by (apply calm_safe; [apply calm_pret, calm_parse|auto]). cbn [q_at].
      apply safe_imp; [exact S|]. intros (MU & OB). apply safe_imp; [exact S|]. intros K. apply safe_all; [exact S|]. intros C. apply safe_imp; [exact S|]. intros KC.
      apply (safe_weaken ID grows _ (eq (pure U tag_of func C (CTag M o word)))); [auto|]. apply spret. apply d_analyze; auto.
    - assert (S : safe (fun _ => True) m (pret VParses (get_lexeme_p tag_of M o form))) by (apply calm_safe; [apply calm_pret, (calm_lexeme M o form [])|auto]). cbn [q_at].
      apply safe_imp; [exact S|]. intros (OB & SO). apply safe_imp; [exact S|]. intros K. apply safe_all; [exact S|]. intros C. apply safe_imp; [exact S|]. intros KC.
      apply (safe_weaken ID grows _ (eq (pure U tag_of func C (CLexeme M o form)))); [auto|]. apply spret. apply d_lexeme; auto.
    - assert (S : safe (fun _ => True) m (pret (fun p => VParse (Some p)) (normalized_p tag_of M o form))) by (apply calm_safe; [apply calm_pret, (calm_lexeme M o form [])|auto]). cbn [q_at].
      apply safe_imp; [exact S|]. intros (OB & SO). apply safe_imp; [exact S|]. intros K. apply safe_all; [exact S|]. intros C. apply safe_imp; [exact S|]. intros KC.
      apply (safe_weaken ID grows _ (eq (pure U tag_of func C (CNormalized M o form)))); [auto|]. apply (spret _ _ (fun p => VParse (Some p))). apply d_lexeme; auto.
    - assert (S : safe (fun _ => True) m (pret VParse (inflect_p tag_of M o form req))) by (apply calm_safe; [apply calm_pret, (calm_lexeme M o form req)|auto]). cbn [q_at].
      apply safe_imp; [exact S|]. intros (OB & SO). do 5 (apply safe_imp; [exact S|]; intros ?).
      apply (safe_weaken ID grows _ (eq (pure U tag_of func C0 (CInflect M o form req)))); [auto|]. apply spret. apply d_inflect; auto.
    - assert (S : safe (fun _ => True) m (pret nf_val (parse_p U tag_of M o word))) by (apply calm_safe; [apply calm_pret, calm_parse|auto]). cbn [q_at].
      apply safe_imp; [exact S|]. intros (MU & OB). apply safe_imp; [exact S|]. intros K. apply safe_all; [exact S|]. intros C. apply safe_imp; [exact S|]. intros KC.
      apply (safe_weaken ID grows _ (eq (pure U tag_of func C (CNormalForms M o word)))); [auto|]. rewrite nf_pure. apply (spret _ _ nf_val). apply d_analyze; auto.
    - assert (S : safe (fun _ => True) m (pret VParse (agree_p tag_of M o pick form num))) by (apply calm_safe; [apply calm_pret, calm_agree|auto]). cbn [q_at].
      apply safe_imp; [exact S|]. intros (OB & SO). do 5 (apply safe_imp; [exact S|]; intros ?).
      apply (safe_weaken ID grows _ (eq (pure U tag_of func C0 (CAgree pick M o form num)))); [auto|]. apply spret. apply d_agree; auto.
    - exfalso. apply NC. exact I.
  Qed.
  Lemma create_ID : forall rows tags adds m, ID m -> (forall g, gb g = true -> In g (map g_name rows)) -> (ST -> reloads C0 rows) ->
    ID (fst (run (construct_t rows tags adds) m)) /\ grows m (fst (run (construct_t rows tags adds) m)).
  Proof.
    intros rows tags adds m [A B D NN E ES] H RL. destruct (construct_tables rows tags adds m B) as (TE & TI). destruct (construct_always rows tags adds m B) as ([[K1 K2 K3] B2 B3 B4 B5] & X). set (m' := fst (run (construct_t rows tags adds) m)) in *. split.
    - constructor; [|exact B5| | | |].
      + destruct A as [A1 A2 A3 A4]. constructor; [rewrite K1; exact A1|rewrite K2; exact A2|rewrite K3; exact A3|destruct B5; auto].
      + right. lia.
      + lia.
      + intros id g L1 L2 Gg. destruct (Nat.eq_dec id (length (h_sets m))) as [->|N]; [|rewrite B4 by lia; apply E; auto; lia]. specialize (X g (H g Gg)). cbn [class_of tc_known] in X. rewrite B2 in X. exact X.
      + intros st. destruct (RL st) as (_ & RS). fold m' in TE, TI. apply (same_trans _ (init_grammemes (class_of m) rows)); [|exact (same_trans _ _ _ (init_same _ _ rows (ES st)) RS)]. split; intros k x; [unfold extra_of; rewrite TE; reflexivity|unfold incompat_of; rewrite TI; reflexivity].
    - constructor; rewrite ?K1, ?K2, ?K3; auto; [destruct B; lia|lia].
  Qed.
  Lemma happens_ok : forall css es s, pool_ok ID grows q_at css s -> (forall cs c, In cs css -> In c cs -> ~ creates c) ->
    (forall rows tags adds g, In (Create rows tags adds) es -> gb g = true -> In g (map g_name rows)) -> (forall rows tags adds, In (Create rows tags adds) es -> ST -> reloads C0 rows) -> pool_ok ID grows q_at css (fold_left (happens U tag_of func) es s).
  Proof.
    intros css es. induction es as [|e es IH]; intros s P NC H RL; [exact P|]. cbn [fold_left]. apply IH; [|exact NC|intros rows tags adds g X; apply (H rows tags adds g); right; exact X|intros rows tags adds X; apply (RL rows tags adds); right; exact X]. destruct e as [i|rows tags adds]; cbn [happens].
    - apply pool_step; [exact grows_refl|exact grows_trans| |exact P]. intros cs c H1 H2 m _. apply at_code. exact (NC cs c H1 H2).
    - destruct s as [m ts]. cbn [fst snd] in *. destruct (create_ID rows tags adds m (proj1 P) (fun g => H rows tags adds g (or_introl eq_refl)) (RL rows tags adds (or_introl eq_refl))) as (X & Y). exact (pool_env ID grows grows_trans q_at css _ _ _ X Y P).
  Qed.
End Atomic.

(** ** call by call *)
Section Calls.
  Variables (U : uni) (tag_of : nat -> tag) (func : str -> res str).
  Notation runs := (runs U tag_of func).
  Lemma F2_nth : forall (Q : call -> res val -> Prop) dn rs j c r rest, Forall2 Q dn rs -> nth_error (dn ++ rest) j = Some c -> nth_error rs j = Some r -> Q c r.
  Proof.
    intros Q dn rs j c r rest H. revert j. induction H as [|x y dn rs A H IH]; intros [|j] X Y; cbn in *; try discriminate Y; [injection X as <-; injection Y as <-; exact A|eauto].
  Qed.
  Lemma any_calls : forall C css sched m0 i cs, fresh m0 -> wf m0 -> nth_error css i = Some cs ->
    exists t, nth_error (snd (runs sched (m0, map start css))) i = Some t /\ forall j c r, nth_error cs j = Some c -> nth_error (th_done t) j = Some r -> q_any U tag_of func C c r.
  Proof.
    intros C css sched m0 i cs F W N. destruct (any_results U tag_of func C css sched m0 i cs F (proj1 W) N) as (t & T & dn & rest & -> & R). exists t. split; [exact T|]. intros j c r X Y. exact (F2_nth _ _ _ _ _ _ _ R X Y).
  Qed.
  Lemma any_finish : forall css sched m0 i cs, fresh m0 -> wf m0 -> nth_error css i = Some cs ->
    exists n t, nth_error (snd (runs (sched ++ repeat i n) (m0, map start css))) i = Some t /\ idle t /\ length (th_done t) = length cs.
  Proof.
    intros css sched m0 i cs F W N. destruct (runs_finish U tag_of func i (runs sched (m0, map start css))) as (n & t & T & Id). { rewrite runs_len. cbn [snd]. rewrite map_length. apply nth_error_Some. rewrite N. discriminate. }
    exists n, t. rewrite runs_app. split; [exact T|]. split; [exact Id|].
    assert (P : pool_ok (caches U tag_of func) grows (q_any U tag_of func tc_initial) css (runs (sched ++ repeat i n) (m0, map start css))).
    { apply pool_runs; [exact grows_refl|exact grows_trans|intros cs0 c _ _ m _; apply any_code|]. apply pool_start. apply fresh_caches; [exact F|exact (proj1 W)]. }
    rewrite runs_app in P. destruct (pool_thread _ _ _ css _ i cs P N) as (t' & T' & dn & R & K). rewrite T in T'. injection T' as <-. destruct Id as (N1 & N2). rewrite N1, N2, app_nil_r in K. subst dn. clear - R. induction R; cbn; auto.
  Qed.
  Lemma atomic_calls : forall css es m0 i cs, fresh m0 -> wf m0 -> (forall cs c, In cs css -> In c cs -> ~ creates c) -> nth_error css i = Some cs ->
    exists t, nth_error (snd (fold_left (happens U tag_of func) es (m0, map start css))) i = Some t /\
      forall j c r, nth_error cs j = Some c -> nth_error (th_done t) j = Some r ->
        match c with
        | CContains g o => always_known m0 es g -> r = Ok (VBool (smem g (t_gr (tag_of o))))
        | CContainsSet gs o => (forall g, In g gs -> always_known m0 es g) -> r = Ok (VBool (ssub gs (t_gr (tag_of o))))
        | CAny gs os => (forall g, In g gs -> always_known m0 es g) -> r = Ok (VBool (existsb (fun o => ssub gs (t_gr (tag_of o))) os))
        | CParse _ _ _ | CTag _ _ _ | CNormalForms _ _ _ => has_objects U tag_of c -> (forall g, In g adverb_grammemes -> always_known m0 es g) -> r = pure U tag_of func (class_of m0) c
        | CLexeme _ _ _ | CNormalized _ _ _ => has_objects U tag_of c -> (forall g, In g masc_grammeme -> always_known m0 es g) -> r = pure U tag_of func (class_of m0) c
        | CInflect _ _ _ req => has_objects U tag_of c -> (forall g, In g masc_grammeme -> always_known m0 es g) -> (forall g, In g req -> always_known m0 es g /\ always_known m0 es (fix_rare1 g)) ->
            (forall rows tags adds, In (Create rows tags adds) es -> reloads (class_of m0) rows) -> r = pure U tag_of func (class_of m0) c
        | CAgree pick _ _ f n => has_objects U tag_of c -> (forall g, In g masc_grammeme -> always_known m0 es g) ->
            (forall g, In (Some g) (numeral_agreement pick (p_tag f) n) -> always_known m0 es g /\ always_known m0 es (fix_rare1 g)) ->
            (forall rows tags adds, In (Create rows tags adds) es -> reloads (class_of m0) rows) -> r = pure U tag_of func (class_of m0) c
        | _ => True
        end.
  Proof.
    intros css es m0 i cs F W NC N.
    set (gb := fun g => smem g (tc_known (class_of m0)) && forallb (fun e => match e with Create rows _ _ => smem g (map g_name rows) | Act _ => true end) es).
    assert (GB : forall g, always_known m0 es g -> gb g = true).
    { intros g (A & B). unfold gb. apply andb_true_intro. split; [apply smem_In; exact A|]. apply forallb_forall. intros [j|rows tags adds] H; [reflexivity|]. apply smem_In. exact (B _ _ _ H). }
    set (ST := forall rows tags adds, In (Create rows tags adds) es -> reloads (class_of m0) rows).
    assert (P : pool_ok (ID U tag_of func gb (h_known m0) (length (h_sets m0)) (class_of m0) ST) grows (q_at U tag_of func gb (class_of m0) ST) css (fold_left (happens U tag_of func) es (m0, map start css))).
    { apply happens_ok; [|exact NC| |].
      - apply pool_start. constructor; [apply fresh_caches; [exact F|exact (proj1 W)]|exact W|auto|auto| |intros _; apply same_refl]. intros id g L1 L2 H. unfold gb in H. apply andb_prop in H as (H & _). apply smem_In in H. destruct L1 as [->|L1]; [exact H|lia].
      - intros rows tags adds g H X. unfold gb in X. apply andb_prop in X as (_ & X). rewrite forallb_forall in X. specialize (X _ H). cbn in X. apply smem_In. exact X.
      - intros rows tags adds H st. exact (st rows tags adds H). }
    destruct (pool_results _ _ _ css _ i cs P N) as (t & T & dn & rest & -> & R). exists t. split; [exact T|]. intros j c r X Y. pose proof (F2_nth _ _ _ _ _ _ _ R X Y) as Q. destruct c; cbn [q_at] in *; auto; try (intros HO K; apply Q; auto; intros g Hg; exact (proj1 (K g Hg))).
    all: intros HO K KR st. all: apply Q; auto; [intros g Hg; exact (proj1 (K g Hg))|intros g Hg; destruct (KR g Hg); auto|]; intros g Hg; destruct (KR g Hg) as ((A & _) & B & _); split; auto.
  Qed.
End Calls.
