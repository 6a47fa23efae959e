(** * Lemmas for C75: getargspec, one-shot iterators, repr *)
From Coq Require Import String List NArith ZArith Bool QArith Lia Permutation.
From Verif Require Import Py Tagset Units Analyzer Objects Spec25 L_Base L_Tagset L_Objects L_Objects2.
Import ListNotations.
Local Open Scope nat_scope.
Local Open Scope list_scope.

Lemma insert_kw_comm : forall {V} (x y : str * V) l, fst x <> fst y -> insert_kw x (insert_kw y l) = insert_kw y (insert_kw x l).
Proof.
  intros V x y l D. induction l as [|z l IH].
  - cbn. destruct (str_ltb (fst x) (fst y)) eqn:E1, (str_ltb (fst y) (fst x)) eqn:E2; try reflexivity.
    + pose proof (str_ltb_trans _ _ _ E1 E2) as X. rewrite str_ltb_irr in X. discriminate X.
    + contradiction (D (str_ltb_total _ _ E1 E2)).
  - cbn [insert_kw]. destruct (str_ltb (fst y) (fst z)) eqn:Y, (str_ltb (fst x) (fst z)) eqn:X; cbn [insert_kw]; rewrite ?X, ?Y; cbn [insert_kw].
    + destruct (str_ltb (fst x) (fst y)) eqn:E1, (str_ltb (fst y) (fst x)) eqn:E2; cbn [insert_kw]; rewrite ?X, ?Y; try reflexivity.
      * pose proof (str_ltb_trans _ _ _ E1 E2) as Z. rewrite str_ltb_irr in Z. discriminate Z.
      * contradiction (D (str_ltb_total _ _ E1 E2)).
    + destruct (str_ltb (fst x) (fst y)) eqn:E1.
      * rewrite (str_ltb_trans _ _ _ E1 Y) in X. discriminate X.
      * cbn [insert_kw]. rewrite ?X, ?Y. reflexivity.
    + destruct (str_ltb (fst y) (fst x)) eqn:E1.
      * rewrite (str_ltb_trans _ _ _ E1 X) in Y. discriminate Y.
      * cbn [insert_kw]. rewrite ?X, ?Y. reflexivity.
    + rewrite IH. reflexivity.
Qed.
Lemma sorted_kw_perm : forall {V} (l r : list (str * V)), Permutation l r -> NoDup (map fst l) -> sorted_kw l = sorted_kw r.
Proof.
  intros V l r P. induction P as [|x l r P IH|x y l|l r t P1 IH1 P2 IH2]; intros N.
  - reflexivity.
  - unfold sorted_kw in *. cbn [fold_right]. f_equal. apply IH. inversion N; assumption.
  - unfold sorted_kw. cbn [fold_right]. apply insert_kw_comm. cbn [map] in N. inversion N as [|a b Na Nb]. intros E. apply Na. left. symmetry. exact E.
  - rewrite IH1 by exact N. apply IH2. eapply Permutation_NoDup; [|exact N]. apply Permutation_map. exact P1.
Qed.
(** values of hidden parameters do not matter *)
Lemma insert_kw_map : forall {V W} (f : str -> V -> W) (x : str * V) l,
  map (fun kv => (fst kv, f (fst kv) (snd kv))) (insert_kw x l) = insert_kw (fst x, f (fst x) (snd x)) (map (fun kv => (fst kv, f (fst kv) (snd kv))) l).
Proof. intros V W f x l. induction l as [|y l IH]; [reflexivity|]. cbn [insert_kw map fst snd]. destruct (str_ltb (fst x) (fst y)); cbn [map]; [reflexivity|]. rewrite IH. reflexivity. Qed.
Lemma sorted_kw_map : forall {V W} (f : str -> V -> W) l, map (fun kv => (fst kv, f (fst kv) (snd kv))) (sorted_kw l) = sorted_kw (map (fun kv => (fst kv, f (fst kv) (snd kv))) l).
Proof. intros V W f l. induction l as [|x l IH]; [reflexivity|]. unfold sorted_kw in *. cbn [fold_right map]. rewrite insert_kw_map, IH. reflexivity. Qed.
Definition shown {V} (rep : V -> str) (hidden : list str) (k : str) (v : V) : str := if smem k hidden then u "<...>" else rep v.
Lemma kwargs_repr_shown : forall {V} (rep : V -> str) kw hidden,
  kwargs_repr rep kw hidden = join (u ", ") (map (fun kt => fst kt ++ u "=" ++ snd kt) (sorted_kw (map (fun kv => (fst kv, shown rep hidden (fst kv) (snd kv))) kw))).
Proof. intros V rep kw hidden. unfold kwargs_repr. rewrite <- (sorted_kw_map (shown rep hidden)), map_map. reflexivity. Qed.
Lemma kwargs_repr_indep : forall (V : Type) (rep : V -> str) (hidden : list str) (kw kw' kw2 : list (str * V)), NoDup (map fst kw) -> Permutation kw kw' ->
  Forall2 (fun a b => fst a = fst b /\ (In (fst a) hidden \/ rep (snd a) = rep (snd b))) kw' kw2 ->
  kwargs_repr rep kw hidden = kwargs_repr rep kw2 hidden.
Proof.
  intros V rep hidden kw kw' kw2 N P F. rewrite !kwargs_repr_shown. do 2 f_equal.
  assert (E : map (fun kv => (fst kv, shown rep hidden (fst kv) (snd kv))) kw' = map (fun kv => (fst kv, shown rep hidden (fst kv) (snd kv))) kw2).
  { clear -F. induction F as [|a b l r (E & H) F IH]; [reflexivity|]. cbn [map]. rewrite IH. f_equal. rewrite <- E. f_equal. unfold shown. destruct (smem (fst a) hidden) eqn:S; [reflexivity|].
    destruct H as [H|H]; [|exact H]. apply smem_In in H. rewrite H in S. discriminate S. }
  rewrite <- E. apply sorted_kw_perm; [apply Permutation_map; exact P|]. rewrite map_map. exact N.
Qed.
Lemma insert_kw_perm : forall {V} (x : str * V) l, Permutation (x :: l) (insert_kw x l).
Proof. intros V x l. induction l as [|y l IH]; [reflexivity|]. cbn [insert_kw]. destruct (str_ltb (fst x) (fst y)); [reflexivity|]. rewrite perm_swap. constructor. exact IH. Qed.
Lemma sorted_kw_same : forall {V} (l : list (str * V)), Permutation l (sorted_kw l).
Proof. intros V l. induction l as [|x l IH]; [reflexivity|]. unfold sorted_kw in *. cbn [fold_right]. rewrite <- insert_kw_perm. constructor. exact IH. Qed.
Lemma insert_kw_sorted : forall {V} (x : str * V) l, ~ In (fst x) (map fst l) -> Sorted.StronglySorted (fun a b : str * V => str_ltb (fst a) (fst b) = true) l -> Sorted.StronglySorted (fun a b : str * V => str_ltb (fst a) (fst b) = true) (insert_kw x l).
Proof.
  intros V x l D S. induction S as [|y l S IH F]; [cbn; repeat constructor|]. cbn [insert_kw]. cbn [map] in D. destruct (str_ltb (fst x) (fst y)) eqn:E.
  - constructor; [constructor; assumption|]. constructor; [exact E|]. revert F. apply Forall_impl. intros a. apply (str_ltb_trans _ _ _ E).
  - constructor; [apply IH; intros I; apply D; right; exact I|]. apply (Permutation_Forall (insert_kw_perm x l)). constructor; [|exact F].
    destruct (str_ltb (fst y) (fst x)) eqn:E2; [reflexivity|]. contradiction D. left. exact (str_ltb_total _ _ E2 E).
Qed.
Lemma sorted_kw_sorted : forall {V} (l : list (str * V)), NoDup (map fst l) -> Sorted.StronglySorted (fun a b : str * V => str_ltb (fst a) (fst b) = true) (sorted_kw l).
Proof.
  intros V l. induction l as [|x l IH]; intros N; [constructor|]. unfold sorted_kw in *. cbn [fold_right]. inversion N as [|a b Na Nb]. apply insert_kw_sorted; [|apply IH; exact Nb].
  intros I. apply Na. eapply Permutation_in; [|exact I]. apply Permutation_map. symmetry. apply (@sorted_kw_same V l).
Qed.
Lemma kwargs_repr_form : forall (V : Type) (rep : V -> str) (hidden : list str) (kw : list (str * V)), NoDup (map fst kw) ->
  exists l, Permutation kw l /\ Sorted.StronglySorted (fun a b => str_ltb (fst a) (fst b) = true) l /\
    kwargs_repr rep kw hidden = join (u ", ") (map (fun kv => fst kv ++ u "=" ++ (if smem (fst kv) hidden then u "<...>" else rep (snd kv))) l).
Proof. intros V rep hidden kw N. exists (sorted_kw kw). split; [apply sorted_kw_same|]. split; [apply sorted_kw_sorted; exact N|reflexivity]. Qed.

(** ** without inspect.getargspec *)
Definition plain (k : uclass) : Prop := k = KDict \/ k = KUnkn.
Lemma bind_objs_noargs : forall l H m, Forall (fun ob => fst ob < length (h_objs H)) l ->
  (exists ob b o, In (ob, b) l /\ nth_error (h_objs H) ob = Some o /\ ~ plain (o_class o)) -> exists H', bind_objs false H m l = (H', Err AttributeError).
Proof.
  induction l as [|[i b] l IH]; intros H m F (ob & b' & o & I & E & P); [destruct I|]. inversion F as [|x y F1 F2]; subst. cbn [fst] in F1. cbn [bind_objs]. unfold bound_unit, clone.
  destruct (nth_error (h_objs H) i) as [oi|] eqn:Ei; [|apply nth_error_None in Ei; lia]. unfold get_params.
  destruct (own_init (o_class oi)) eqn:Oi; cbn [negb].
  - eexists. reflexivity.
  - assert (K : plain (o_class oi)) by (destruct (o_class oi); try discriminate Oi; [left|right]; reflexivity).
    assert (N : new_unit H (o_class oi) [] = (MkHeap (h_objs H ++ [MkObj (o_class oi) []]) (h_iters H), Ok (length (h_objs H)))) by (destruct K as [-> | ->]; reflexivity).
    rewrite N. unfold init_obj. cbn [h_objs h_iters]. rewrite nth_last. cbn [o_class]. rewrite set_last.
    set (ob1 := MkObj (o_class oi) _).
    assert (X : exists H', bind_objs false (MkHeap (h_objs H ++ [ob1]) (h_iters H)) m l = (H', Err AttributeError)).
    { apply IH.
      - revert F2. apply Forall_impl. intros x. cbn [h_objs]. rewrite app_length. cbn. lia.
      - exists ob, b', o. destruct I as [I|I]; [injection I as -> ->; rewrite E in Ei; injection Ei as ->; contradiction (P K)|]. split; [exact I|]. split; [|exact P]. cbn [h_objs].
        rewrite nth_error_app1; [exact E|]. apply nth_error_Some. rewrite E. discriminate. }
    destruct X as (H' & X). exists H'. destruct K as [-> | ->]; rewrite X; reflexivity.
Qed.
Lemma mark_last_fst : forall {A} (l : list A), map fst (mark_last l) = l.
Proof. intros A l. induction l as [|x [|y l] IH]; [reflexivity|reflexivity|]. cbn [mark_last map fst] in *. rewrite IH. reflexivity. Qed.
Lemma flat_refs : forall items, (forall l, In (OGroup l) items -> l <> []) -> exists fl, mapM flatten_oitem items = Ok fl /\ map fst (concat fl) = concat (map refs_of items).
Proof.
  induction items as [|it items IH]; intros N; [exists []; split; reflexivity|]. destruct IH as (fl & E & M); [intros l I; apply N; right; exact I|].
  assert (X : exists y, flatten_oitem it = Ok y /\ map fst y = refs_of it).
  { destruct it as [o|l]; [eexists; split; reflexivity|]. destruct l as [|o l]; [contradiction (N [] (or_introl eq_refl) eq_refl)|]. exists (mark_last (o :: l)). split; [reflexivity|apply mark_last_fst]. }
  destruct X as (y & Ey & My). exists (y :: fl). cbn [mapM]. rewrite Ey. cbn [bind]. rewrite E. split; [reflexivity|]. cbn [concat map]. rewrite map_app, My, M. reflexivity.
Qed.
Lemma no_argspec : forall H m items, (forall l, In (OGroup l) items -> l <> []) -> Forall (fun o => o < length (h_objs H)) (concat (map refs_of items)) ->
  (exists o ob, In o (concat (map refs_of items)) /\ nth_error (h_objs H) o = Some ob /\ o_class ob <> KDict /\ o_class ob <> KUnkn) ->
  exists H', init_units_obj false H m items = (H', Err AttributeError).
Proof.
  intros H m items N F (o & ob & I & E & P1 & P2). destruct (flat_refs items N) as (fl & Ef & M). unfold init_units_obj. rewrite Ef. apply bind_objs_noargs.
  - rewrite <- M in F. rewrite Forall_map in F. exact F.
  - rewrite <- M in I. apply in_map_iff in I as ([o' b] & Eo & I). cbn in Eo. subst o'. exists o, b, ob. split; [exact I|]. split; [exact E|]. intros [K|K]; contradiction.
Qed.
