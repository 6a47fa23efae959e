(** * Lemmas for C75 *)
From Coq Require Import String List NArith ZArith Bool QArith Lia.
From Verif Require Import Py Tagset Units Analyzer Objects Spec25 L_Base.
Import ListNotations.
Local Open Scope nat_scope.
Local Open Scope list_scope.

Inductive wf_attrs : uclass -> list (str * pyval) -> ucfg -> Prop :=
| W_dict : wf_attrs KDict [] UDict
| W_unkn : wf_attrs KUnkn [] UUnkn
| W_first : forall v l f q, texts_of v = Some l -> wf_attrs KFirstName [(u "letters", v); (u "tag_pattern", VPattern f); (u "score", VNum q); (u "_letters_set", VSeq l)] (UInit true l f q)
| W_patr : forall v l f q, texts_of v = Some l -> wf_attrs KPatronymic [(u "letters", v); (u "tag_pattern", VPattern f); (u "score", VNum q); (u "_letters_set", VSeq l)] (UInit false l f q)
| W_number : forall q, wf_attrs KNumber [(u "score", VNum q)] (UNumber q)
| W_punct : forall q, wf_attrs KPunct [(u "score", VNum q)] (UPunct q)
| W_latin : forall q, wf_attrs KLatin [(u "score", VNum q)] (ULatin q)
| W_roman : forall q, wf_attrs KRoman [(u "score", VNum q)] (URoman q)
| W_particle : forall v l q, texts_of v = Some l -> wf_attrs KParticle [(u "particles_after_hyphen", v); (u "score_multiplier", VNum q)] (UParticle l q)
| W_adverb : forall q, wf_attrs KHAdverb [(u "score_multiplier", VNum q)] (UHAdverb q)
| W_hyph : forall v l q, texts_of v = Some l -> wf_attrs KHyph [(u "skip_prefixes", v); (u "score_multiplier", VNum q)] (UHyph l q)
| W_known : forall v l q n, texts_of v = Some l -> wf_attrs KKnownPrefix [(u "known_prefixes", v); (u "score_multiplier", VNum q); (u "min_remainder_length", VNat n)] (UKnownPrefix l q n)
| W_unknown : forall q, wf_attrs KUnknownPrefix [(u "score_multiplier", VNum q)] (UUnknownPrefix q)
| W_suffix : forall q n, wf_attrs KKnownSuffix [(u "score_multiplier", VNum q); (u "min_word_length", VNat n)] (UKnownSuffix q n).

Lemma texts_iter : forall H v l, texts_of v = Some l -> iterate H v = (H, Ok l).
Proof. intros H v w E. destruct v; cbn in E; try discriminate E; injection E as <-; reflexivity. Qed.
Lemma number_inv : forall v q, number v = Some q -> v = VNum q. Proof. intros v w E. destruct v; cbn in E; try discriminate E. injection E as <-. reflexivity. Qed.
Lemma integer_inv : forall v q, integer v = Some q -> v = VNat q. Proof. intros v w E. destruct v; cbn in E; try discriminate E. injection E as <-. reflexivity. Qed.
Lemma texts_inv : forall kw n l, texts kw n = Some l -> exists v, sget (u n) kw = Some v /\ texts_of v = Some l.
Proof. intros kw n l E. unfold texts in E. destruct (sget (u n) kw) as [[]|]; try discriminate E; eexists; split; try reflexivity; exact E. Qed.
Lemma opt3_inv : forall {A B C D} (f : A -> B -> C -> D) a b c d, opt3 f a b c = Some d -> exists x y z, a = Some x /\ b = Some y /\ c = Some z /\ d = f x y z.
Proof. intros A B C D f [x|] [y|] [z|] d E; try discriminate E. injection E as <-. exists x, y, z. repeat split. Qed.
Lemma opt2_inv : forall {A B C} (f : A -> B -> C) a b d, opt2 f a b = Some d -> exists x y, a = Some x /\ b = Some y /\ d = f x y.
Proof. intros A B C f [x|] [y|] d E; try discriminate E. injection E as <-. exists x, y. repeat split. Qed.
Lemma map_inv : forall {A B} (f : A -> B) a d, option_map f a = Some d -> exists x, a = Some x /\ d = f x.
Proof. intros A B f [x|] d E; try discriminate E. injection E as <-. exists x. repeat split. Qed.


Definition bound_args (ps : list (str * option pyval)) (kw : list (str * pyval)) : list (str * pyval) :=
  map (fun p : str * option pyval => (fst p, match sget (fst p) kw with Some v => v | None => match snd p with Some d => d | None => VNone end end)) ps.
Lemma bind_args_ok : forall ps kw a, bind_args ps kw = Ok a -> a = bound_args ps kw.
Proof.
  intros ps kw a H. unfold bind_args in H. destruct (existsb _ kw); [discriminate H|]. revert a H. induction ps as [|[n d] ps IH]; intros a H.
  - cbn in H. apply Ok_inj in H. subst a. reflexivity.
  - cbn [mapM] in H. apply bind_ok in H as (x & E & H). apply bind_ok in H as (r & E2 & H). apply Ok_inj in H. subst a. rewrite (IH _ E2). unfold bound_args. cbn [map fst snd] in *. f_equal.
    destruct (sget n kw) as [v|]; [apply Ok_inj in E; symmetry; exact E|]. destruct d as [v|]; [apply Ok_inj in E; symmetry; exact E|discriminate E].
Qed.
Lemma bind_args_total : forall ps kw, existsb (fun kv => negb (smem (fst kv) (map fst ps))) kw = false -> forallb (fun p : str * option pyval => match sget (fst p) kw, snd p with None, None => false | _, _ => true end) ps = true ->
  bind_args ps kw = Ok (bound_args ps kw).
Proof.
  intros ps kw H F. unfold bind_args. rewrite H. clear H. induction ps as [|[n d] ps IH]; [reflexivity|]. cbn [forallb fst snd] in F. apply andb_prop in F as [F1 F2].
  cbn [mapM]. rewrite (IH F2). cbn [fst snd]. unfold bound_args. cbn [map fst snd]. destruct (sget n kw); [reflexivity|]. destruct d; [reflexivity|discriminate F1].
Qed.
Lemma bound_ini : forall k kw, (k = KFirstName \/ k = KPatronymic) -> bound_args (params k) kw = [(u "letters", arg kw "letters" VNone); (u "tag_pattern", arg kw "tag_pattern" VNone); (u "score", arg kw "score" (VNum (1#10)))].
Proof. intros k kw [-> | ->]; reflexivity. Qed.
Lemma ini_get : forall a b c, sget (u "tag_pattern") [(u "letters", a); (u "tag_pattern", b); (u "score", c)] = Some (b : pyval). Proof. reflexivity. Qed.
Lemma ini_set : forall a b c d, sset_ (u "tag_pattern") d [(u "letters", a); (u "tag_pattern", b); (u "score", c)] = [(u "letters", a); (u "tag_pattern", d : pyval); (u "score", c)]. Proof. reflexivity. Qed.
Lemma ini_letters : forall a b c, sget (u "letters") [(u "letters", a); (u "tag_pattern", b); (u "score", c)] = Some (a : pyval). Proof. reflexivity. Qed.

Lemma texts_arg : forall kw n l d, texts kw n = Some l -> texts_of (arg kw n d) = Some l.
Proof. intros kw n l d E. apply texts_inv in E as (v & E & F). unfold arg. rewrite E. exact F. Qed.
Definition own_pattern (k : uclass) : str -> str -> str := match k with KFirstName => name_pattern | _ => patr_pattern end.
Lemma ini_new : forall H k a b c f l, (k = KFirstName \/ k = KPatronymic) -> pattern (own_pattern k) b = Some f -> texts_of a = Some l ->
  (let pat := match sget (u "tag_pattern") [(u "letters", a); (u "tag_pattern", b); (u "score", c)] with Some VNone | None => class_pattern k | Some v => v end in
   let args := sset_ (u "tag_pattern") pat [(u "letters", a); (u "tag_pattern", b); (u "score", c)] in
   match iterate H (match sget (u "letters") args with Some v => v | None => VNone end) with
   | (H', Err e) => (H', Err e)
   | (H', Ok l) => let '(H2, o) := alloc H' (MkObj k (args ++ [(u "_letters_set", VSeq l)])) in (H2, Ok o)
   end) = (MkHeap (h_objs H ++ [MkObj k [(u "letters", a); (u "tag_pattern", VPattern f); (u "score", c); (u "_letters_set", VSeq l)]]) (h_iters H), Ok (length (h_objs H))).
Proof.
  intros H k a b c f l K P T. cbv zeta. rewrite ini_get, ini_set, ini_letters, (texts_iter _ _ _ T).
  assert (E : match b with VNone => class_pattern k | _ => b end = VPattern f) by (destruct b; cbn in P; try discriminate P; injection P as <-; [destruct K as [-> | ->]; reflexivity|reflexivity]).
  rewrite E. reflexivity.
Qed.
Lemma pair_inj : forall {A B} (a a' : A) (b b' : B), (a, Ok b) = (a', Ok b') -> a' = a /\ b' = b.
Proof. intros A B a a' b b' E. split; [symmetry; exact (f_equal fst E)|]. apply (f_equal snd) in E. cbn [snd] in E. apply Ok_inj in E. symmetry. exact E. Qed.
Lemma new_simple : forall H k kw H1 o, k <> KFirstName -> k <> KPatronymic -> new_unit H k kw = (H1, Ok o) ->
  H1 = MkHeap (h_objs H ++ [MkObj k (bound_args (params k) kw)]) (h_iters H) /\ o = length (h_objs H).
Proof.
  intros H k kw H1 o K1 K2 N. unfold new_unit in N. destruct (bind_args (params k) kw) as [a|e] eqn:B; [|discriminate N]. apply bind_args_ok in B. rewrite <- B. clear B.
  destruct k; try (apply pair_inj in N; exact N); [contradiction (K1 eq_refl)|contradiction (K2 eq_refl)].
Qed.
Lemma new_ini : forall H k kw H1 o f l, (k = KFirstName \/ k = KPatronymic) -> pattern (own_pattern k) (arg kw "tag_pattern" VNone) = Some f -> texts_of (arg kw "letters" VNone) = Some l -> new_unit H k kw = (H1, Ok o) ->
  H1 = MkHeap (h_objs H ++ [MkObj k [(u "letters", arg kw "letters" VNone); (u "tag_pattern", VPattern f); (u "score", arg kw "score" (VNum (1#10))); (u "_letters_set", VSeq l)]]) (h_iters H) /\ o = length (h_objs H).
Proof.
  intros H k kw H1 o f l K P T N. unfold new_unit in N. destruct (bind_args (params k) kw) as [a|e] eqn:B; [|discriminate N]. apply bind_args_ok in B. rewrite (bound_ini k kw K) in B. subst a.
  pose proof (ini_new H k (arg kw "letters" VNone) (arg kw "tag_pattern" VNone) (arg kw "score" (VNum (1#10))) f l K P T) as E.
  apply pair_inj. rewrite <- N. symmetry. destruct K as [-> | ->]; exact E.
Qed.
Lemma made_ini : forall H k kw H1 o x f q, (k = KFirstName \/ k = KPatronymic) -> new_unit H k kw = (H1, Ok o) -> texts kw "letters" = Some x ->
  pattern (own_pattern k) (arg kw "tag_pattern" VNone) = Some f -> number (arg kw "score" (VNum (1#10))) = Some q ->
  exists v, H1 = MkHeap (h_objs H ++ [MkObj k [(u "letters", v); (u "tag_pattern", VPattern f); (u "score", VNum q); (u "_letters_set", VSeq x)]]) (h_iters H) /\ o = length (h_objs H) /\ texts_of v = Some x.
Proof.
  intros H k kw H1 o x f q K N T P Q. destruct (new_ini H k kw H1 o f x K P (texts_arg _ _ _ VNone T) N) as [-> ->]. apply number_inv in Q. rewrite Q.
  exists (arg kw "letters" VNone). split; [reflexivity|]. split; [reflexivity|]. exact (texts_arg _ _ _ VNone T).
Qed.
Lemma made_simple : forall H k kw H1 o vals c, k <> KFirstName -> k <> KPatronymic -> new_unit H k kw = (H1, Ok o) -> bound_args (params k) kw = vals -> wf_attrs k vals c ->
  exists vals, H1 = MkHeap (h_objs H ++ [MkObj k vals]) (h_iters H) /\ o = length (h_objs H) /\ wf_attrs k vals c.
Proof. intros H k kw H1 o vals c A B N <- W. destruct (new_simple H k kw H1 o A B N) as [-> ->]. eexists. split; [reflexivity|]. split; [reflexivity|exact W]. Qed.
Lemma bound1 : forall k kw n d v, params k = [(u n, Some d)] -> arg kw n d = v -> bound_args (params k) kw = [(u n, v)].
Proof. intros k kw n d v E <-. rewrite E. reflexivity. Qed.
Lemma bound2 : forall k kw n n2 d d2 v v2, params k = [(u n, d); (u n2, Some d2)] -> arg kw n (match d with Some x => x | None => VNone end) = v -> arg kw n2 d2 = v2 -> bound_args (params k) kw = [(u n, v); (u n2, v2)].
Proof. intros k kw n n2 d d2 v v2 E <- <-. rewrite E. reflexivity. Qed.
Lemma bound3 : forall k kw n n2 n3 d d2 d3 v v2 v3, params k = [(u n, d); (u n2, Some d2); (u n3, Some d3)] -> arg kw n (match d with Some x => x | None => VNone end) = v -> arg kw n2 d2 = v2 -> arg kw n3 d3 = v3 -> bound_args (params k) kw = [(u n, v); (u n2, v2); (u n3, v3)].
Proof. intros k kw n n2 n3 d d2 d3 v v2 v3 E <- <- <-. rewrite E. reflexivity. Qed.
Lemma made_spec : forall H k kw H1 o c, new_unit H k kw = (H1, Ok o) -> configured k kw = Some c ->
  exists vals, H1 = MkHeap (h_objs H ++ [MkObj k vals]) (h_iters H) /\ o = length (h_objs H) /\ wf_attrs k vals c.
Proof.
  intros H k kw H1 o c N C. destruct k; cbn [configured] in C.
  - injection C as <-. apply (made_simple H KDict kw H1 o []); [discriminate|discriminate|exact N|reflexivity|constructor].
  - apply opt3_inv in C as (x & y & z & Ex & Ey & Ez & ->). destruct (made_ini H KFirstName kw H1 o x y z (or_introl eq_refl) N Ex Ey Ez) as (v & -> & -> & T). eexists. split; [reflexivity|]. split; [reflexivity|constructor; exact T].
  - apply opt3_inv in C as (x & y & z & Ex & Ey & Ez & ->). destruct (made_ini H KPatronymic kw H1 o x y z (or_intror eq_refl) N Ex Ey Ez) as (v & -> & -> & T). eexists. split; [reflexivity|]. split; [reflexivity|constructor; exact T].
  - apply map_inv in C as (x & Ex & ->). apply number_inv in Ex. apply (made_simple H KNumber kw H1 o [(u "score", VNum x)]); [discriminate|discriminate|exact N|exact (bound1 KNumber kw _ _ _ eq_refl Ex)|constructor].
  - apply map_inv in C as (x & Ex & ->). apply number_inv in Ex. apply (made_simple H KPunct kw H1 o [(u "score", VNum x)]); [discriminate|discriminate|exact N|exact (bound1 KPunct kw _ _ _ eq_refl Ex)|constructor].
  - apply map_inv in C as (x & Ex & ->). apply number_inv in Ex. apply (made_simple H KLatin kw H1 o [(u "score", VNum x)]); [discriminate|discriminate|exact N|exact (bound1 KLatin kw _ _ _ eq_refl Ex)|constructor].
  - apply map_inv in C as (x & Ex & ->). apply number_inv in Ex. apply (made_simple H KRoman kw H1 o [(u "score", VNum x)]); [discriminate|discriminate|exact N|exact (bound1 KRoman kw _ _ _ eq_refl Ex)|constructor].
  - apply opt2_inv in C as (x & y & Ex & Ey & ->). apply number_inv in Ey. eapply (made_simple H KParticle kw H1 o); [discriminate|discriminate|exact N|exact (bound2 KParticle kw _ _ _ _ _ _ eq_refl eq_refl Ey)|constructor; exact (texts_arg _ _ _ VNone Ex)].
  - apply map_inv in C as (x & Ex & ->). apply number_inv in Ex. apply (made_simple H KHAdverb kw H1 o [(u "score_multiplier", VNum x)]); [discriminate|discriminate|exact N|exact (bound1 KHAdverb kw _ _ _ eq_refl Ex)|constructor].
  - apply opt2_inv in C as (x & y & Ex & Ey & ->). apply number_inv in Ey. eapply (made_simple H KHyph kw H1 o); [discriminate|discriminate|exact N|exact (bound2 KHyph kw _ _ _ _ _ _ eq_refl eq_refl Ey)|constructor; exact (texts_arg _ _ _ VNone Ex)].
  - apply opt3_inv in C as (x & y & z & Ex & Ey & Ez & ->). apply number_inv in Ey. apply integer_inv in Ez. eapply (made_simple H KKnownPrefix kw H1 o); [discriminate|discriminate|exact N|exact (bound3 KKnownPrefix kw _ _ _ _ _ _ _ _ _ eq_refl eq_refl Ey Ez)|constructor; exact (texts_arg _ _ _ VNone Ex)].
  - apply map_inv in C as (x & Ex & ->). apply number_inv in Ex. apply (made_simple H KUnknownPrefix kw H1 o [(u "score_multiplier", VNum x)]); [discriminate|discriminate|exact N|exact (bound1 KUnknownPrefix kw _ _ _ eq_refl Ex)|constructor].
  - apply opt2_inv in C as (x & y & Ex & Ey & ->). apply number_inv in Ex. apply integer_inv in Ey. eapply (made_simple H KKnownSuffix kw H1 o); [discriminate|discriminate|exact N|exact (bound2 KKnownSuffix kw _ _ _ _ _ _ eq_refl Ex Ey)|constructor].
  - injection C as <-. apply (made_simple H KUnkn kw H1 o []); [discriminate|discriminate|exact N|reflexivity|constructor].
Qed.

(** cloning a unit with such attributes *)
Lemma clone_spec : forall H i k vals c, nth_error (h_objs H) i = Some (MkObj k vals) -> wf_attrs k vals c ->
  clone true H i = (MkHeap (h_objs H ++ [MkObj k vals]) (h_iters H), Ok (length (h_objs H))).
Proof.
  intros H i k vals c E W. unfold clone. rewrite E. unfold get_params. cbn [o_class o_attrs].
  destruct W as [| |v l f q T|v l f q T|q|q|q|q|v l q T|q|v l q T|v l q n T|q|q n]; cbn [own_init negb]; try reflexivity;
    unfold new_unit; rewrite bind_args_total by reflexivity; try reflexivity.
  - assert (B : bound_args (params KFirstName) (map (fun n => (n, match sget n [(u "letters", v); (u "tag_pattern", VPattern f); (u "score", VNum q); (u "_letters_set", VSeq l)] with Some w => w | None => VNone end)) (sorted_names (map fst (params KFirstName)))) = [(u "letters", v); (u "tag_pattern", VPattern f); (u "score", VNum q)]) by reflexivity.
    rewrite B. refine (eq_trans (ini_new H KFirstName v (VPattern f) (VNum q) f l _ _ _) _); [left; reflexivity|reflexivity|exact T|reflexivity].
  - assert (B : bound_args (params KPatronymic) (map (fun n => (n, match sget n [(u "letters", v); (u "tag_pattern", VPattern f); (u "score", VNum q); (u "_letters_set", VSeq l)] with Some w => w | None => VNone end)) (sorted_names (map fst (params KPatronymic)))) = [(u "letters", v); (u "tag_pattern", VPattern f); (u "score", VNum q)]) by reflexivity.
    rewrite B. refine (eq_trans (ini_new H KPatronymic v (VPattern f) (VNum q) f l _ _ _) _); [right; reflexivity|reflexivity|exact T|reflexivity].
Qed.
