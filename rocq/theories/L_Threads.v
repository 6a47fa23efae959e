(** * Reasoning about threads: an invariant every operation keeps *)
From Coq Require Import String List NArith ZArith Bool Lia.
From Verif Require Import Py Uni Tagset Shapes Units Threads Spec11.
From Verif Require Import L_Base L_Tagset.
Import ListNotations.
Local Open Scope nat_scope.
Local Open Scope list_scope.

Section Safe.
  Variable I : mem -> Prop.
  Variable L : mem -> mem -> Prop.
  Inductive safe {A} (P : res A -> Prop) : mem -> prog A -> Prop :=
  | safe_ret : forall m r, P r -> safe P m (Ret r)
  | safe_do : forall m R (o : op R) k, (forall m', L m m' -> I m' -> I (fst (exec o m')) /\ L m' (fst (exec o m'))) ->
      (forall m', L m m' -> I m' -> safe P (fst (exec o m')) (k (snd (exec o m')))) -> safe P m (Do o k).
  Hypothesis L_refl : forall a, L a a.
  Hypothesis L_trans : forall a b c, L a b -> L b c -> L a c.
  Lemma safe_mono : forall A (P : res A -> Prop) m m' p, L m m' -> safe P m p -> safe P m' p.
  Proof. intros A P m m' p LE H. destruct H as [m r H|m R o k H K]; constructor; auto; intros m2 L2 I2; [apply H|apply K]; eauto. Qed.
  Lemma safe_weaken : forall A (P Q : res A -> Prop) m p, (forall r, P r -> Q r) -> safe P m p -> safe Q m p.
  Proof. intros A P Q m p W H. induction H as [m r H|m R o k H K IH]; constructor; auto. Qed.
  Lemma safe_bind : forall A B (P : res A -> Prop) (Q : res B -> Prop) f p m, safe P m p ->
    (forall a m', L m m' -> P (Ok a) -> safe Q m' (f a)) -> (forall e, P (Err e) -> Q (Err e)) -> safe Q m (pbind p f).
  Proof.
    intros A B P Q f p m H K E. assert (LR : L m m) by auto. revert LR K. generalize m at 1 3 as m0. induction H as [m1 r H|m1 R o k H1 H2 IH]; intros m0 LR K; cbn [pbind].
    - destruct r as [a|e]; [apply K; auto|constructor; auto].
    - constructor; [exact H1|]. intros m2 L2 I2. destruct (H1 m2 L2 I2) as (X & Y). apply (IH m2 L2 I2 m0); [|exact K]. eauto.
  Qed.
  Lemma safe_bind2 : forall A B D (P : res A -> Prop) (Q : res D -> Prop) (f : A -> prog B) (g : B -> prog D) p m, safe P m p ->
    (forall a m', L m m' -> P (Ok a) -> safe Q m' (pbind (f a) g)) -> (forall e, P (Err e) -> Q (Err e)) -> safe Q m (pbind (pbind p f) g).
  Proof.
    intros A B D P Q f g p m H K E. assert (LR : L m m) by auto. revert LR K. generalize m at 1 3 as m0. induction H as [m1 r H|m1 R o k H1 H2 IH]; intros m0 LR K; cbn [pbind].
    - destruct r as [a|e]; [apply K; auto|constructor; auto].
    - constructor; [exact H1|]. intros m2 L2 I2. destruct (H1 m2 L2 I2) as (X & Y). apply (IH m2 L2 I2 m0); [|exact K]. eauto.
  Qed.
  Lemma safe_act : forall R (o : op R) (P : res R -> Prop) m, (forall m', L m m' -> I m' -> I (fst (exec o m')) /\ L m' (fst (exec o m')) /\ P (Ok (snd (exec o m')))) -> safe P m (act o).
  Proof. intros R o P m H. constructor; [intros m' L' I'; destruct (H m' L' I') as (A & B & _); auto|]. intros m' L' I'. constructor. apply H; auto. Qed.
  Lemma safe_pmap : forall A B (f : A -> prog B) (g : A -> res B) l m, (forall x m', L m m' -> safe (eq (g x)) m' (f x)) -> safe (eq (mapM g l)) m (pmap f l).
  Proof.
    intros A B f g l. induction l as [|x l IH]; intros m H; [constructor; reflexivity|]. cbn [pmap mapM]. apply (safe_bind _ _ (eq (g x))); [apply H; auto| |].
    - intros y m' L' ->. cbn [bind]. apply (safe_bind _ _ (eq (mapM g l))); [apply IH; intros z m2 L2; apply H; eauto| |].
      + intros ys m2 L2 ->. constructor. reflexivity.
      + intros e ->. reflexivity.
    - intros e ->. reflexivity.
  Qed.
  Lemma safe_piter : forall A (f : A -> prog unit) l m, (forall x m', In x l -> L m m' -> safe (fun _ => True) m' (f x)) -> safe (fun _ => True) m (piter f l).
  Proof.
    intros A f l. induction l as [|x l IH]; intros m H; [constructor; exact Logic.I|]. cbn [piter]. apply (safe_bind _ _ (fun _ => True)); [apply H; [left; reflexivity|auto]| |auto].
    intros _ m' L' _. apply IH. intros z m2 Z L2. apply H; [right; exact Z|eauto].
  Qed.

  (** ** the pool *)
  Variables (U : uni) (tag_of : nat -> tag) (func : str -> res str).
  Variable Q : call -> res val -> Prop.
  Definition thread_ok (m : mem) (cs : list call) (t : thread) : Prop := exists dn, Forall2 Q dn (th_done t) /\
    match th_now t with None => cs = dn ++ th_todo t | Some p => exists c, cs = dn ++ c :: th_todo t /\ safe (Q c) m p end.
  Lemma thread_mono : forall m m' cs t, L m m' -> thread_ok m cs t -> thread_ok m' cs t.
  Proof. intros m m' cs t LE (dn & F & H). exists dn. split; [exact F|]. destruct (th_now t); [|exact H]. destruct H as (c & E & S). exists c. split; [exact E|]. exact (safe_mono _ _ _ _ _ LE S). Qed.
  Lemma thread_step : forall m cs t, I m -> (forall c, In c cs -> forall m, I m -> safe (Q c) m (code U tag_of func c)) -> thread_ok m cs t ->
    I (fst (tstep U tag_of func m t)) /\ L m (fst (tstep U tag_of func m t)) /\ thread_ok (fst (tstep U tag_of func m t)) cs (snd (tstep U tag_of func m t)).
  Proof.
    intros m cs t IM H (dn & F & K). unfold tstep. destruct (th_now t) as [p|] eqn:N.
    - destruct K as (c & E & S). destruct S as [m r Hr|m R o k H1 H2].
      + cbn [fst snd]. split; [exact IM|]. split; [auto|]. exists (dn ++ [c]). cbn [th_done th_now th_todo]. split; [apply Forall2_app; auto|]. rewrite <- app_assoc. exact E.
      + destruct (H1 m (L_refl m) IM) as (A & B). specialize (H2 m (L_refl m) IM). destruct (exec o m) as [m' x] eqn:EX. cbn [fst snd] in *. split; [exact A|]. split; [exact B|]. exists dn. cbn [th_done th_now th_todo]. split; [exact F|]. exists c. auto.
    - destruct (th_todo t) as [|c cs'] eqn:T; cbn [fst snd]; (split; [exact IM|]); (split; [auto|]).
      + exists dn. rewrite N, T. auto.
      + exists dn. cbn [th_done th_now th_todo]. split; [exact F|]. exists c. split; [exact K|]. apply H; [|exact IM]. rewrite K. apply in_or_app. right. left. reflexivity.
  Qed.
  Definition pool_ok (css : list (list call)) (s : mem * list thread) : Prop := I (fst s) /\ Forall2 (thread_ok (fst s)) css (snd s).
  Lemma pool_step : forall css s i, (forall cs c, In cs css -> In c cs -> forall m, I m -> safe (Q c) m (code U tag_of func c)) -> pool_ok css s -> pool_ok css (step U tag_of func i s).
  Proof.
    intros css [m ts] i H [IM F]. unfold step. cbn [fst snd] in *. destruct (nth_error ts i) as [t|] eqn:N; [|split; auto].
    assert (exists cs, nth_error css i = Some cs /\ thread_ok m cs t) as (cs & NC & T).
    { clear H. revert i N. induction F as [|cs t' css ts K F IH]; intros [|i] N; try discriminate N; cbn [nth_error] in *; [injection N as <-; eauto|eauto]. }
    destruct (thread_step m cs t IM (fun c Hc => H cs c (nth_error_In _ _ NC) Hc) T) as (A & B & D). destruct (tstep U tag_of func m t) as [m' t']. cbn [fst snd] in *. split; [exact A|]. cbn [fst snd].
    assert (F' : Forall2 (thread_ok m') css ts) by (clear - F B L_trans; induction F; constructor; auto; eapply thread_mono; eauto). clear F T N. revert i NC. induction F' as [|cs0 t0 css ts K F IH]; intros [|i] NC; cbn [upd_nth nth_error] in *; try discriminate NC.
    - injection NC as ->. constructor; auto.
    - constructor; auto. apply IH; auto. intros cs1 c1 H1. apply H. right. exact H1.
  Qed.
  Lemma pool_runs : forall css sched s, (forall cs c, In cs css -> In c cs -> forall m, I m -> safe (Q c) m (code U tag_of func c)) -> pool_ok css s -> pool_ok css (runs U tag_of func sched s).
  Proof. intros css sched. induction sched as [|i sched IH]; intros s H K; [exact K|]. cbn [runs fold_left]. apply IH; [exact H|]. apply pool_step; auto. Qed.
  Lemma pool_env : forall css m m' ts, I m' -> L m m' -> pool_ok css (m, ts) -> pool_ok css (m', ts).
  Proof. intros css m m' ts A B [IM F]. split; [exact A|]. cbn [fst snd] in *. clear - F B L_trans. induction F; constructor; auto. eapply thread_mono; eauto. Qed.
  Lemma pool_start : forall css m, I m -> pool_ok css (m, map start css).
  Proof. intros css m IM. split; [exact IM|]. cbn [fst snd]. induction css; constructor; auto. exists []. split; [constructor|reflexivity]. Qed.
  Lemma pool_thread : forall css s i cs, pool_ok css s -> nth_error css i = Some cs -> exists t, nth_error (snd s) i = Some t /\ thread_ok (fst s) cs t.
  Proof. intros css [m ts] i cs [_ F] N. cbn [fst snd] in *. revert i N. induction F as [|cs0 t css ts K F IH]; intros [|i] N; try discriminate N; cbn [nth_error] in *; [|eauto]. injection N as ->. eauto. Qed.
  Lemma pool_results : forall css s i cs, pool_ok css s -> nth_error css i = Some cs -> exists t, nth_error (snd s) i = Some t /\ exists dn rest, cs = dn ++ rest /\ Forall2 Q dn (th_done t).
  Proof.
    intros css [m ts] i cs [_ F] N. cbn [fst snd] in *. revert i N. induction F as [|cs0 t css ts K F IH]; intros [|i] N; try discriminate N; cbn [nth_error] in *; [|eauto]. injection N as ->. exists t. split; [reflexivity|].
    destruct K as (dn & A & B). exists dn. destruct (th_now t) as [p|]; [destruct B as (c & -> & _); eauto|eauto].
  Qed.
End Safe.

(** ** a thread that gets enough turns finishes *)
Section Progress.
  Variables (U : uni) (tag_of : nat -> tag) (func : str -> res str).
  Definition idle (t : thread) : Prop := th_now t = None /\ th_todo t = [].
  Fixpoint alone (n : nat) (m : mem) (t : thread) : mem * thread := match n with 0 => (m, t) | S n' => let '(m', t') := tstep U tag_of func m t in alone n' m' t' end.
  Lemma finish_prog : forall (p : prog val) m dn todo, exists n m' r, alone n m (MkThread dn (Some p) todo) = (m', MkThread (dn ++ [r]) None todo).
  Proof.
    induction p as [r|R o k IH]; intros m dn todo; [exists 1, m, r; reflexivity|]. destruct (exec o m) as [m' x] eqn:E. destruct (IH x m' dn todo) as (n & m2 & r & K). exists (S n), m2, r. cbn [alone tstep th_now]. rewrite E. exact K.
  Qed.
  Lemma alone_add : forall a b m t, alone (a + b) m t = let '(m', t') := alone a m t in alone b m' t'.
  Proof. induction a as [|a IH]; intros b m t; [reflexivity|]. cbn [Nat.add alone]. destruct (tstep U tag_of func m t). apply IH. Qed.
  Lemma finish_calls : forall todo m dn, exists n m' rs, alone n m (MkThread dn None todo) = (m', MkThread (dn ++ rs) None []) /\ length rs = length todo.
  Proof.
    induction todo as [|c cs IH]; intros m dn; [exists 0, m, []; rewrite app_nil_r; auto|]. destruct (finish_prog (code U tag_of func c) m dn cs) as (n & m' & r & K). destruct (IH m' (dn ++ [r])) as (n2 & m2 & rs & K2 & E2).
    exists (S (n + n2)), m2, (r :: rs). split; [|cbn; auto]. cbn [alone tstep th_now th_todo th_done]. rewrite alone_add, K. rewrite <- app_assoc in K2. exact K2.
  Qed.
  Lemma finish_thread : forall m t, exists n m' t', alone n m t = (m', t') /\ idle t'.
  Proof.
    intros m [dn now todo]. destruct now as [p|].
    - destruct (finish_prog p m dn todo) as (n & m' & r & K). destruct (finish_calls todo m' (dn ++ [r])) as (n2 & m2 & rs & K2 & _). exists (n + n2). rewrite alone_add, K, K2. do 2 eexists. split; [reflexivity|split; reflexivity].
    - destruct (finish_calls todo m dn) as (n & m' & rs & K & _). exists n, m'. eexists. split; [exact K|]. split; reflexivity.
  Qed.
  Lemma upd_upd : forall A i (x y : A) l, upd_nth i (fun _ => y) (upd_nth i (fun _ => x) l) = upd_nth i (fun _ => y) l.
  Proof. intros A i x y l. revert i. induction l as [|z l IH]; intros [|i]; cbn; auto. f_equal. apply IH. Qed.
  Lemma nth_upd : forall A i (x : A) l, i < length l -> nth_error (upd_nth i (fun _ => x) l) i = Some x.
  Proof. intros A i x l. revert i. induction l as [|z l IH]; intros [|i] H; cbn in *; try lia; auto. apply IH. lia. Qed.
  Lemma upd_same : forall A i (x : A) l, nth_error l i = Some x -> upd_nth i (fun _ => x) l = l.
  Proof. intros A i x l. revert i. induction l as [|z l IH]; intros [|i] H; cbn in *; try discriminate H; auto; [injection H as ->; reflexivity|]. f_equal. auto. Qed.
  Lemma runs_alone : forall n i m ts t, nth_error ts i = Some t -> runs U tag_of func (repeat i n) (m, ts) = (fst (alone n m t), upd_nth i (fun _ => snd (alone n m t)) ts).
  Proof.
    induction n as [|n IH]; intros i m ts t N; [cbn; rewrite (upd_same _ _ _ _ N); reflexivity|]. cbn [repeat runs fold_left alone]. unfold step at 2. cbn [fst snd]. rewrite N. destruct (tstep U tag_of func m t) as [m' t'] eqn:T.
    fold (runs U tag_of func (repeat i n) (m', upd_nth i (fun _ => t') ts)). assert (LT : i < length ts) by (apply nth_error_Some; rewrite N; discriminate). rewrite (IH i m' _ t' (nth_upd _ _ _ _ LT)). rewrite upd_upd. reflexivity.
  Qed.
  Lemma upd_length : forall A i (f : A -> A) l, length (upd_nth i f l) = length l.
  Proof. intros A i f l. revert i. induction l as [|z l IH]; intros [|i]; cbn; auto. Qed.
  Lemma runs_finish : forall i s, i < length (snd s) -> exists n t, nth_error (snd (runs U tag_of func (repeat i n) s)) i = Some t /\ idle t.
  Proof.
    intros i [m ts] H. cbn [snd] in H. destruct (nth_error ts i) as [t|] eqn:N; [|apply nth_error_None in N; lia]. destruct (finish_thread m t) as (n & m' & t' & K & ID). exists n, t'. rewrite (runs_alone n i m ts t N), K. cbn [fst snd].
    split; [apply nth_upd; exact H|exact ID].
  Qed.
End Progress.
