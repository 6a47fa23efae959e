(** * Letter case (lemmas for C64) *)
From Coq Require Import String List NArith ZArith Bool QArith Lia.
From Verif Require Import Py Uni Tagset Dawg Utils Shapes Dict Units Analyzer ConfigRu ConfigUk Compile Spec Spec14.
From Verif Require Import L_Base.
Import ListNotations.
Local Open Scope nat_scope.
Local Open Scope list_scope.

(** forgetting the whole parse tuples in the seen set: they are never looked up *)
Definition no_parse : parse := MkParse [] (MkTag [] []) [] 0 [].
Definition er (k : skey) : skey := match k with SKey _ _ _ => k | SFull _ => SFull no_parse end.
Definition er2 {A} (x : A * list skey) : A * list skey := (fst x, map er (snd x)).

Lemma seen_er : forall w t k s, seen_mem (SKey w t k) (map er s) = seen_mem (SKey w t k) s.
Proof. unfold seen_mem. induction s as [|x s IH]; simpl; auto. rewrite IH. destruct x; reflexivity. Qed.
Lemma add_er : forall st p, add_parse_if_not_seen (er2 st) p = er2 (add_parse_if_not_seen st p).
Proof.
  intros [r s] p. unfold er2. cbn [fst snd add_parse_if_not_seen]. rewrite seen_er.
  destruct (seen_mem (SKey (p_word p) (p_tag p) (para_key_of p)) s); reflexivity.
Qed.
Lemma adds_er : forall l st, fold_left add_parse_if_not_seen l (er2 st) = er2 (fold_left add_parse_if_not_seen l st).
Proof. induction l as [|p l IH]; intro st; cbn [fold_left]; auto. rewrite add_er. apply IH. Qed.
Lemma foldM_er : forall {A S T} (phi : S -> T) (f : S -> A -> res S) (g : T -> A -> res T), (forall s x, g (phi s) x = rmap phi (f s x)) ->
  forall l s, foldM g (phi s) l = rmap phi (foldM f s l).
Proof.
  intros A S T phi f g H. induction l as [|x l IH]; intro s; cbn [foldM]; auto. rewrite H. destruct (f s x); cbn [bind rmap]; auto.
Qed.
Lemma er2_nil : forall {A} (s : list skey), (@nil A, map er s) = er2 ([], s).
Proof. reflexivity. Qed.

Lemma particle_er : forall recP self particles mult lower s,
  particle_parse recP self particles mult lower (map er s) = rmap er2 (particle_parse recP self particles mult lower s).
Proof.
  intros. unfold particle_parse. destruct (particle_splits particles lower) as [|[w pt] r]; [reflexivity|].
  destruct (recP w); [|reflexivity]. cbn [bind rmap]. rewrite er2_nil, adds_er. reflexivity.
Qed.
Lemma kp_er : forall recP M self prefixes mult minrem lower s,
  kp_parse recP M self prefixes mult minrem lower (map er s) = rmap er2 (kp_parse recP M self prefixes mult minrem lower s).
Proof.
  intros. unfold kp_parse. rewrite er2_nil. apply foldM_er. intros st [p r]. destruct (recP r); [|reflexivity]. cbn [bind rmap].
  unfold prefix_step. rewrite adds_er. reflexivity.
Qed.
Lemma up_er : forall M self sub mult lower s, up_parse M self sub mult lower (map er s) = rmap er2 (up_parse M self sub mult lower s).
Proof.
  intros. unfold up_parse. rewrite er2_nil. apply foldM_er. intros st [p r]. destruct (dict_parse M sub r); [|reflexivity]. cbn [bind rmap].
  unfold prefix_step. rewrite adds_er. reflexivity.
Qed.
Definition er3 (st : ksst) : ksst := MkKs (ks_res st) (map er (ks_seen st)) (ks_total st).
Lemma ks_step_er : forall M self sub pid fw fs st v, ks_step M self sub pid fw fs (er3 st) v = rmap er3 (ks_step M self sub pid fw fs st v).
Proof.
  intros M self sub pid fw fs st [[cnt para] idx]. unfold ks_step. destruct (build_tag_info (m_dict M) para idx) as [t|]; [|reflexivity]. cbn [bind].
  destruct (negb (is_productive t)); [reflexivity|]. cbn [er3 ks_seen ks_res ks_total]. rewrite seen_er.
  destruct (seen_mem (SKey fw t (PNum para)) (ks_seen st)); [reflexivity|]. destruct (build_normal_form (m_dict M) para idx fw); reflexivity.
Qed.
Lemma ks_lengths_er : forall M self sub pid dawg lower is st, ks_lengths M self sub pid dawg lower (er3 st) is = rmap er3 (ks_lengths M self sub pid dawg lower st is).
Proof.
  intros M self sub pid dawg lower. induction is as [|i r IH]; intro st; cbn [ks_lengths]; [reflexivity|].
  assert (E : ks_at M self sub pid dawg lower (er3 st) i = rmap er3 (ks_at M self sub pid dawg lower st i)).
  { unfold ks_at. apply foldM_er. intros st' [fs vals]. apply foldM_er. intros. apply ks_step_er. }
  rewrite E. destruct (ks_at M self sub pid dawg lower st i) as [st'|]; [|reflexivity]. cbn [bind rmap er3 ks_total].
  destruct (1 <? ks_total st'); [reflexivity|]. apply IH.
Qed.
Lemma ks_er : forall M self sub mult minlen word lower s,
  ks_parse M self sub mult minlen word lower (map er s) = rmap er2 (ks_parse M self sub mult minlen word lower s).
Proof.
  intros. unfold ks_parse. destruct (length word <? minlen); [reflexivity|]. rewrite er2_nil.
  rewrite (foldM_er er2 (ks_prefix M self sub mult lower)).
  - destruct (foldM _ _ _); reflexivity.
  - intros st [pid pre]. unfold ks_prefix. destruct (nth_res (d_pred (m_dict M)) pid) as [dawg|]; [|reflexivity]. cbn [bind].
    change (MkKs [] (snd (er2 st)) 1) with (er3 (MkKs [] (snd st) 1)). rewrite ks_lengths_er.
    destruct (ks_lengths _ _ _ _ _ _ _ _); reflexivity.
Qed.

Definition rel_out (w w' : str) (r r' : res (list parse * list skey)) : Prop :=
  match r, r' with
  | Ok (ps, s), Ok (ps', s') => Forall2 (same_but_quote w w') ps ps' /\ map er s = map er s'
  | Err e, Err e' => e' = e
  | _, _ => False
  end.
Lemma sbq_refl : forall w w' p, same_but_quote w w' p p.
Proof. intros. unfold same_but_quote. repeat (split; [reflexivity|]). left. reflexivity. Qed.
Lemma sbqs_refl : forall w w' ps, Forall2 (same_but_quote w w') ps ps.
Proof. induction ps; constructor; auto using sbq_refl. Qed.
Lemma er_out : forall w w' r r' s s', map er s = map er s' ->
  (forall s, r (map er s) = rmap er2 (r s)) -> (forall s, r' s = r s) -> rel_out w w' (r s) (r' s').
Proof.
  intros w w' r r' s s' E H H'. rewrite H'. pose proof (H s) as A. pose proof (H s') as B. rewrite E in A. rewrite A in B.
  destruct (r s) as [[ps s1]|e], (r s') as [[ps' s1']|e']; cbn [rmap er2 fst snd] in B; try discriminate B.
  - injection B as -> B. split; [apply sbqs_refl|exact B].
  - injection B as <-. reflexivity.
Qed.

Lemma unit_case : forall recP recT M i b tm w w' lower s s', In (b, tm) (m_units M) -> length w = length w' -> same_shape (m_uni M) w w' ->
  not_initial M w -> not_initial M w' -> map er s = map er s' ->
  rel_out w w' (unit_parse recP recT M i b w lower s) (unit_parse recP recT M i b w' lower s').
Proof.
  intros recP recT M i b tm w w' lower s s' HB L (S1 & S2 & S3 & S4) NI NI' E. unfold unit_parse.
  assert (SH : shape_tag (m_uni M) b w' = shape_tag (m_uni M) b w) by (unfold shape_tag; rewrite S1, S2, S3, S4; reflexivity).
  assert (SP : forall score, rel_out w w' (let* ps := shape_parse (m_uni M) (Root i) b score w lower in Ok (ps, s))
                                          (let* ps := shape_parse (m_uni M) (Root i) b score w' lower in Ok (ps, s'))).
  { intro score. unfold shape_parse. rewrite SH. destruct (shape_tag (m_uni M) b w) as [[t|]|e]; cbn [bind rel_out]; try reflexivity; split; auto.
    constructor; [|constructor]. unfold same_but_quote; cbn. repeat (split; [reflexivity|]). right. exists i. auto. }
  destruct (b_cfg b) eqn:CF; try exact (SP _).
  - destruct (dict_parse M (Root i) lower); cbn; [split; auto using sbqs_refl|reflexivity].
  - assert (X : smem w letters = false). { destruct (smem w letters) eqn:X; auto. exfalso. apply (NI b tm _ _ _ _ HB CF). apply smem_In. exact X. }
    assert (Y : smem w' letters = false). { destruct (smem w' letters) eqn:Y; auto. exfalso. apply (NI' b tm _ _ _ _ HB CF). apply smem_In. exact Y. }
    rewrite X, Y. split; auto.
  - apply er_out; auto. intro. apply particle_er.
  - destruct (adverb_should_parse recT M lower) as [[|]|]; cbn [bind]; try reflexivity; [|split; auto].
    destruct (nth_res (b_tags b) 0); cbn [bind rel_out]; [|reflexivity]. split; [|cbn; rewrite E; reflexivity].
    constructor; [|constructor]. unfold same_but_quote; cbn. repeat (split; [reflexivity|]). right. exists i. auto.
  - unfold hyph_parse. destruct (negb (hyph_should_parse M skip lower)); [split; auto|]. destruct (split_once HY lower) as [lw [rw|]]; [|reflexivity].
    destruct (recP lw); [|reflexivity]. cbn [bind]. destruct (recP rw); [|reflexivity]. cbn [bind rel_out]. split; auto using sbqs_refl.
  - apply er_out; auto. intro. apply kp_er.
  - apply er_out; auto. intro. apply up_er.
  - apply (er_out w w' (ks_parse M (Root i) (Sub i) mult minlen w lower) (ks_parse M (Root i) (Sub i) mult minlen w' lower)); auto; intro.
    + apply ks_er.
    + unfold ks_parse. rewrite L. reflexivity.
  - destruct s as [|x s], s' as [|x' s']; try discriminate E.
    + destruct (nth_res (b_tags b) 0); cbn [bind rel_out]; [|reflexivity]. split; auto.
      constructor; [|constructor]. unfold same_but_quote; cbn. repeat (split; [reflexivity|]). right. exists i. auto.
    + split; auto.
Qed.

Lemma run_case : forall recP recT M w w' lower us, (forall bt, In bt us -> In bt (m_units M)) -> length w = length w' -> same_shape (m_uni M) w w' ->
  not_initial M w -> not_initial M w' -> forall i acc acc' s s', Forall2 (same_but_quote w w') acc acc' -> map er s = map er s' ->
  same_parses w w' (run_parse recP recT M w lower i us acc s) (run_parse recP recT M w' lower i us acc' s').
Proof.
  intros recP recT M w w' lower us HU L SS NI NI'. induction us as [|[b tm] us IH]; intros i acc acc' s s' A E; cbn [run_parse]; [exact A|].
  pose proof (unit_case recP recT M i b tm w w' lower s s' (HU _ (or_introl eq_refl)) L SS NI NI' E) as U.
  destruct (unit_parse recP recT M i b w lower s) as [[ps s1]|e], (unit_parse recP recT M i b w' lower s') as [[ps' s1']|e']; cbn [rel_out] in U; try (exact U); try (destruct U; fail).
  destruct U as [U1 U2]. cbn [bind]. pose proof (Forall2_app A U1) as AA.
  assert (N : (match acc ++ ps with [] => false | _ => true end) = (match acc' ++ ps' with [] => false | _ => true end)) by (destruct AA; reflexivity).
  rewrite N. destruct (tm && match acc' ++ ps' with [] => false | _ => true end); [exact AA|].
  apply IH; auto. intros bt H. apply HU. right. auto.
Qed.

Lemma insert_rel : forall {A} (R : A -> A -> Prop) (geb : A -> A -> bool), (forall x x' y y', R x x' -> R y y' -> geb x' y' = geb x y) ->
  forall l l' x x', R x x' -> Forall2 R l l' -> Forall2 R (insert_desc geb x l) (insert_desc geb x' l').
Proof.
  intros A R geb H l l' x x' X F. induction F as [|y y' l l' Y F IH]; cbn [insert_desc]; [constructor; auto|].
  rewrite (H _ _ _ _ X Y). destruct (geb x y); constructor; auto.
Qed.
Lemma sort_rel : forall {A} (R : A -> A -> Prop) (geb : A -> A -> bool), (forall x x' y y', R x x' -> R y y' -> geb x' y' = geb x y) ->
  forall l l', Forall2 R l l' -> Forall2 R (sort_desc geb l) (sort_desc geb l').
Proof. intros A R geb H l l' F. induction F; cbn [sort_desc]; auto. apply insert_rel; auto. Qed.

Lemma apply_case : forall w w' d lower ps ps', Forall2 (same_but_quote w w') ps ps' ->
  same_parses w w' (apply_to_parses d lower ps) (apply_to_parses d lower ps').
Proof.
  intros w w' d lower ps ps' F.
  assert (M1 : map (fun p => prob d lower (t_str (p_tag p))) ps' = map (fun p => prob d lower (t_str (p_tag p))) ps).
  { induction F as [|p p' l l' (_ & T & _) F IH]; simpl; auto. rewrite IH, T. reflexivity. }
  assert (M2 : map p_score ps' = map p_score ps).
  { clear M1. induction F as [|p p' l l' (_ & _ & _ & T & _) F IH]; simpl; auto. rewrite IH, T. reflexivity. }
  assert (WS : forall p p' q, same_but_quote w w' p p' -> same_but_quote w w' (with_score p q) (with_score p' q)).
  { intros p p' q (A & B & C & D & E). unfold same_but_quote, with_score; cbn. auto. }
  unfold apply_to_parses. rewrite M1, M2. clear M2. destruct F as [|p p' l l' P F]; [constructor|].
  assert (F2 : Forall2 (same_but_quote w w') (p :: l) (p' :: l')) by (constructor; auto). clear P F. set (ps := p :: l) in *. set (ps' := p' :: l') in *.
  destruct (Qeq_bool _ _).
  - destruct (Qeq_bool _ _); [reflexivity|]. cbn [same_parses]. generalize (Qsum (map p_score ps)). clear M1. intro sm.
    induction F2 as [|x x' m m' X F IH]; simpl; constructor; auto. destruct X as (A & B & C & D & E). rewrite D. apply WS. unfold same_but_quote. auto.
  - cbn [same_parses]. apply sort_rel.
    + intros x x' y y' (_ & _ & _ & X & _) (_ & _ & _ & Y & _). unfold score_geb. rewrite X, Y. reflexivity.
    + generalize (map (fun p => prob d lower (t_str (p_tag p))) ps). clear M1. induction F2 as [|x x' m m' X F IH]; intros [|q qs]; simpl; constructor; auto.
Qed.

Lemma parse_case : forall M w w', respelled M w w' -> same_parses w w' (morph_parse M w) (morph_parse M w').
Proof.
  intros M w w' (LO & L & SS & NI & NI'). unfold morph_parse, fuel_for, parse_f. cbn [analyze fst]. rewrite <- LO.
  pose proof (run_case (fst (analyze (length (u_lower (m_uni M) w)) M)) (snd (analyze (length (u_lower (m_uni M) w)) M)) M w w' (u_lower (m_uni M) w) (m_units M)
    (fun bt H => H) L SS NI NI' 0 [] [] [] [] (Forall2_nil _) eq_refl) as R.
  destruct (run_parse _ _ M w _ 0 (m_units M) [] []) as [ps|e], (run_parse _ _ M w' _ 0 (m_units M) [] []) as [ps'|e']; cbn [same_parses bind] in R |- *; try (exact R); try (destruct R; fail).
  destruct (m_prob M) as [d|]; [apply apply_case; auto|exact R].
Qed.

Lemma unit_tag_case : forall recP recT M i b tm w w' lower s, In (b, tm) (m_units M) -> length w = length w' -> same_shape (m_uni M) w w' ->
  not_initial M w -> not_initial M w' -> unit_tag recP recT M i b w' lower s = unit_tag recP recT M i b w lower s.
Proof.
  intros recP recT M i b tm w w' lower s HB L (S1 & S2 & S3 & S4) NI NI'. unfold unit_tag.
  assert (SH : shape_tag (m_uni M) b w' = shape_tag (m_uni M) b w) by (unfold shape_tag; rewrite S1, S2, S3, S4; reflexivity).
  unfold shape_tags. rewrite SH. destruct (b_cfg b) eqn:CF; try reflexivity.
  - assert (X : smem w letters = false). { destruct (smem w letters) eqn:X; auto. exfalso. apply (NI b tm _ _ _ _ HB CF). apply smem_In. exact X. }
    assert (Y : smem w' letters = false). { destruct (smem w' letters) eqn:Y; auto. exfalso. apply (NI' b tm _ _ _ _ HB CF). apply smem_In. exact Y. }
    rewrite X, Y. reflexivity.
  - unfold ks_tag. rewrite L. reflexivity.
Qed.
Lemma tag_case : forall M w w', respelled M w w' -> morph_tag M w' = morph_tag M w.
Proof.
  intros M w w' (LO & L & SS & NI & NI'). unfold morph_tag, fuel_for, tag_f. cbn [analyze snd]. rewrite <- LO.
  set (rp := fst _). set (rt := snd _). set (lower := u_lower (m_uni M) w).
  assert (R : forall us, (forall bt, In bt us -> In bt (m_units M)) -> forall i acc s, run_tag rp rt M w' lower i us acc s = run_tag rp rt M w lower i us acc s).
  { induction us as [|[b tm] us IH]; intros HU i acc s; cbn [run_tag]; [reflexivity|]. rewrite (unit_tag_case rp rt M i b tm w w' lower s (HU _ (or_introl eq_refl)) L SS NI NI').
    destruct (unit_tag _ _ _ _ _ _ _ _) as [[ts s']|]; [|reflexivity]. cbn [bind]. destruct (tm && _); [reflexivity|]. apply IH. intros bt H. apply HU. right. auto. }
  rewrite R by auto. reflexivity.
Qed.

Lemma strip_head : forall f c r, f c = false -> exists r', strip_by f (c :: r) = c :: r'.
Proof.
  intros f c r H. unfold strip_by. cbn [lstrip_by]. rewrite H. cbn [rev].
  assert (K : forall l, exists l', lstrip_by f (l ++ [c]) = l' ++ [c]).
  { induction l as [|x l [l' IH]]; cbn [app lstrip_by]; [rewrite H; exists []; reflexivity|]. destruct (f x); [exists l'; exact IH|exists (x :: l); reflexivity]. }
  destruct (K (rev r)) as [l' ->]. rewrite rev_app_distr. exists (rev l'). reflexivity.
Qed.
Lemma foreign_shape : forall U c r, foreign_letter U c -> number_shape U (c :: r) = None /\ is_punctuation U (c :: r) = false /\ is_latin U (c :: r) = Ok false /\ is_roman_number (c :: r) = false.
Proof.
  intros U c r (B & N4 & N5 & A & L & S & D & P).
  assert (ND : num_digit U c = false) by (unfold num_digit; rewrite (proj2 (N.ltb_ge c 128) B), D; reflexivity).
  assert (NS : num_space U c = false) by (unfold num_space; rewrite (proj2 (N.ltb_ge c 128) B), S; reflexivity).
  assert (NE : forall k, (k < 128)%N -> (c =? k)%N = false) by (intros k K; apply N.eqb_neq; lia).
  assert (NE' : forall k, (k < 128)%N -> (k =? c)%N = false) by (intros k K; apply N.eqb_neq; lia).
  split; [|split; [|split]].
  - unfold number_shape, int_ok. destruct (strip_head _ c r NS) as [r' ->]. cbn [drop_sign]. unfold is_sign. rewrite !NE by lia. cbn [orb digit_run]. rewrite ND, NE by lia. cbn [andb].
    unfold float_ok.
    assert (R : exists r1, replace_char (chr ",") (chr ".") (c :: r) = c :: r1). { unfold replace_char. cbn [map]. change (chr ",") with 44%N. rewrite NE by lia || idtac. eexists. reflexivity. }
    destruct R as [r1 ->]. destruct (strip_head _ c r1 NS) as [r2 ->]. cbn [filter]. rewrite NE by lia. cbn [negb drop_sign]. unfold is_sign. rewrite !NE by lia. cbn [orb].
    assert (SF : forall l, special_float (c :: l) = false).
    { intro l. unfold special_float, ascii_lower. cbn [map]. unfold rng. replace (c <=? 90)%N with false by (symmetry; apply N.leb_gt; lia). rewrite andb_false_r.
      unfold smem. cbn [existsb]. cbv [u]. cbn. rewrite !NE by lia. reflexivity. }
    rewrite SF. unfold decimal_ok. cbn [drop_digits starts_digit]. rewrite ND, NE by lia. cbn [orb andb]. rewrite andb_false_r. reflexivity.
  - unfold is_punctuation. cbn [filter]. rewrite S. cbn [negb forallb]. rewrite P. cbn [andb]. apply andb_false_r.
  - unfold is_latin. cbn [existsb all_latin]. rewrite A. cbn [orb]. unfold is_latin_char. rewrite L. reflexivity.
  - assert (I : forall k, (k < 95)%N -> icase k c = false).
    { intros k K. unfold icase. rewrite NE by lia. rewrite NE by lia. rewrite (proj2 (N.eqb_neq _ _) N4), (proj2 (N.eqb_neq _ _) N5). destruct (k =? 73)%N; reflexivity. }
    assert (E : roman_re (c :: r) = [c :: r]).
    { set (z := c :: r).
      assert (LI : forall k m, (k < 95)%N -> m_seq (m_lit k) m z = []) by (intros k m K; unfold m_seq, m_lit, z; rewrite I by exact K; reflexivity).
      assert (SN : forall a b, a z = [] -> m_seq a b z = []) by (intros a b H; unfold m_seq; rewrite H; reflexivity).
      assert (SE : forall a b, a z = [z] -> m_seq a b z = b z) by (intros a b H; unfold m_seq; rewrite H; cbn; apply app_nil_r).
      assert (AL : forall a b, a z = [] -> m_alt a b z = b z) by (intros a b H; unfold m_alt; rewrite H; reflexivity).
      assert (OP : forall a, a z = [] -> m_opt a z = [z]) by (intros a H; unfold m_opt; rewrite AL by exact H; reflexivity).
      assert (UP : forall n a, a z = [] -> m_upto n a z = [z]) by (intros n a H; destruct n; [reflexivity|]; cbn [m_upto]; apply OP; apply SN; exact H).
      assert (WO : forall k w, (k < 95)%N -> fold_right (fun c m => m_seq (m_lit c) m) m_eps (k :: w) z = []) by (intros; apply LI; auto).
      unfold roman_re. rewrite SE by (apply UP, WO; reflexivity).
      rewrite SE; [|rewrite AL by (apply WO; reflexivity); rewrite AL by (apply WO; reflexivity); rewrite SE by (apply OP, WO; reflexivity); apply UP, WO; reflexivity].
      rewrite SE; [|rewrite AL by (apply WO; reflexivity); rewrite AL by (apply WO; reflexivity); rewrite SE by (apply OP, WO; reflexivity); apply UP, WO; reflexivity].
      rewrite AL by (apply WO; reflexivity). rewrite AL by (apply WO; reflexivity). rewrite SE by (apply OP, WO; reflexivity). apply UP, WO; reflexivity. }
    unfold is_roman_number. rewrite E. cbn. destruct r; rewrite ?NE by lia; reflexivity.
Qed.

(** ** Witnesses *)
From Verif Require Import Ex L_Ex L_Config L_Parse L_ExU.
Definition not_initialb (M : morph) (w : str) : bool :=
  forallb (fun bt => match b_cfg (fst bt) with UInit _ letters _ _ => negb (smem w letters) | _ => true end) (m_units M).
Lemma not_initialb_ok : forall M w, not_initialb M w = true -> not_initial M w.
Proof.
  intros M w H b tm first letters pat score HB CF I. unfold not_initialb in H. rewrite forallb_forall in H. specialize (H _ HB). cbn [fst] in H. rewrite CF in H.
  apply smem_In in I. rewrite I in H. discriminate H.
Qed.
Lemma demo_n_shipped : shipped_units demo_n.
Proof. left. pose proof demo_n_eq as E. apply construct_units in E as (E & _). exact E. Qed.
Definition case_tag : tag := Eval vm_compute in match morph_tag demo_n (u "А") with Ok (t :: _) => t | _ => MkTag [] [] end.
Lemma initials_differ : exists M w w', shipped_units M /\ u_lower (m_uni M) w = u_lower (m_uni M) w' /\ length w = length w' /\ same_shape (m_uni M) w w' /\
  exists t, (match morph_tag M w with Ok ts => In t ts | Err _ => False end) /\ (match morph_tag M w' with Ok ts => ~ In t ts | Err _ => False end).
Proof.
  exists demo_n, (u "А"), (u "а"). split; [exact demo_n_shipped|]. split; [vm_compute; reflexivity|]. split; [reflexivity|].
  split; [repeat split; vm_compute; reflexivity|]. exists case_tag.
  assert (A : existsb (tag_eqb case_tag) (get_ok [] (morph_tag demo_n (u "А"))) = true) by (vm_compute; reflexivity).
  assert (B : existsb (fun t => str_eqb (t_str t) (t_str case_tag)) (get_ok [] (morph_tag demo_n (u "а"))) = false) by (vm_compute; reflexivity).
  assert (A' : match morph_tag demo_n (u "А") with Ok ts => hd_error ts | Err _ => None end = Some case_tag) by (vm_compute; reflexivity).
  assert (B' : match morph_tag demo_n (u "а") with Ok _ => true | Err _ => false end = true) by (vm_compute; reflexivity).
  split.
  - destruct (morph_tag demo_n (u "А")) as [[|x ts]|]; cbn [hd_error] in A'; try discriminate A'. injection A' as ->. left. reflexivity.
  - destruct (morph_tag demo_n (u "а")) as [ts|]; [|discriminate B']. cbn [get_ok] in B. intro H.
    assert (X : existsb (fun t => str_eqb (t_str t) (t_str case_tag)) ts = true).
    { apply existsb_exists. exists case_tag. split; [exact H|]. apply str_eqb_eq. reflexivity. }
    rewrite X in B. discriminate B.
Qed.
Lemma case_case : respelled demo_n (u "кота") (u "КоТА") /\ respelled demo_n (u "ЗЮКОТА") (u "Зюкота") /\
  (exists p q, morph_parse demo_n (u "КоТА") = Ok [p; q]) /\ (exists ps, morph_parse demo_n (u "ЗЮКОТА") = Ok ps /\ 2 <= length ps).
Proof.
  assert (R : forall w w', u_lower (m_uni demo_n) w = u_lower (m_uni demo_n) w' -> length w = length w' -> same_shape (m_uni demo_n) w w' -> not_initialb demo_n w = true -> not_initialb demo_n w' = true -> respelled demo_n w w').
  { intros. split; auto. split; auto. split; auto. split; apply not_initialb_ok; auto. }
  split; [|split; [|split]].
  - apply R; try (vm_compute; reflexivity). repeat split; vm_compute; reflexivity.
  - apply R; try (vm_compute; reflexivity). repeat split; vm_compute; reflexivity.
  - do 2 eexists. vm_compute. reflexivity.
  - eexists. split; [vm_compute; reflexivity|]. apply Nat.leb_le. vm_compute. reflexivity.
Qed.
