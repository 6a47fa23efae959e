(** * Lexemes of coherent parses (C10-C13) *)
From Coq Require Import String List NArith ZArith Bool QArith Lia.
From Verif Require Import Py Uni Tagset Dawg Utils Shapes Dict Units Analyzer ConfigRu ConfigUk Spec.
From Verif Require Import L_Base L_Run L_Made L_Words L_Config L_Total L_Para.
Import ListNotations.
Local Open Scope nat_scope.
Local Open Scope list_scope.

Definition is_shape (c : ucfg) : Prop :=
  match c with UNumber _ | UPunct _ | ULatin _ | URoman _ | UHAdverb _ | UUnkn => True | _ => False end.
Definition is_prefix_unit (c : ucfg) : Prop :=
  match c with UKnownPrefix _ _ _ | UUnknownPrefix _ => True | _ => False end.
(** the gender lists of an initials unit fit its tags *)
Definition init_ok (M : morph) (b : bunit) : Prop :=
  match b_cfg b with
  | UInit true _ _ _ => forall t, In t (b_tags b) -> exists m, contains (m_tc M) (u "masc") t = Ok m /\
      let l := if m then b_masc b else b_femn b in
      In t l /\ forall t', In t' l -> In t' (b_tags b) /\ contains (m_tc M) (u "masc") t' = Ok m
  | _ => True
  end.

Definition dict_form (D : dict) (self : uref) (para idx : nat) (w : str) (t : tag) (nf : str) (sc : Q) (p : parse) : Prop :=
  (exists pre sf pre0 t0 sf0 stem, para_row D para idx pre t sf /\ para_row D para 0 pre0 t0 sf0 /\
     w = pre ++ stem ++ sf /\ nf = pre0 ++ stem ++ sf0) /\
  p = MkParse w t nf sc [MDict self w para idx].

Inductive Good (M : morph) : uref -> parse -> Prop :=
| G_dict : forall i b tm para idx w t nf sc p, nth_error (m_units M) i = Some (b, tm) -> b_cfg b = UDict ->
    dict_form (m_dict M) (Root i) para idx w t nf sc p -> Good M (Root i) p
| G_sub : forall i para idx w t nf sc p, dict_form (m_dict M) (Sub i) para idx w t nf sc p -> Good M (Sub i) p
| G_ks : forall i b tm mult minlen fs who p, nth_error (m_units M) i = Some (b, tm) -> b_cfg b = UKnownSuffix mult minlen ->
    Good M who p -> Good M (Root i) (append_method p (MStr (Root i) fs))
| G_shape : forall i b tm w t sc mw, nth_error (m_units M) i = Some (b, tm) -> is_shape (b_cfg b) ->
    Good M (Root i) (MkParse w t w sc [MStr (Root i) mw])
| G_init : forall i b tm first letters pat s0 w t sc mw, nth_error (m_units M) i = Some (b, tm) -> b_cfg b = UInit first letters pat s0 ->
    init_ok M b -> In t (b_tags b) -> Good M (Root i) (MkParse w t w sc [MStr (Root i) mw])
| G_prefix : forall i b tm prefix who p, nth_error (m_units M) i = Some (b, tm) -> is_prefix_unit (b_cfg b) ->
    Good M who p -> Good M (Root i) (append_method (with_prefix p prefix) (MStr (Root i) prefix))
| G_particle : forall i b tm ps mult particle who p, nth_error (m_units M) i = Some (b, tm) -> b_cfg b = UParticle ps mult -> particle <> [] ->
    Good M who p -> Good M (Root i) (append_method (with_suffix p particle) (MStr (Root i) particle))
| G_fixed : forall i b tm skip mult lw who p, nth_error (m_units M) i = Some (b, tm) -> b_cfg b = UHyph skip mult ->
    Good M who p -> Good M (Root i) (replace_methods_stack (with_prefix p (lw ++ [HY])) [MHyphFixed (Root i) lw (p_stack p)]).

Lemma good_score : forall M who p, Good M who p -> forall q, Good M who (with_score p q).
Proof.
  intros M who p H. induction H; intro q.
  - destruct H1 as [D ->]. eapply G_dict; eauto. split; [exact D|reflexivity].
  - destruct H as [D ->]. eapply G_sub. split; [exact D|reflexivity].
  - change (with_score (append_method p (MStr (Root i) fs)) q) with (append_method (with_score p q) (MStr (Root i) fs)). eapply G_ks; eauto.
  - eapply G_shape; eauto.
  - eapply G_init; eauto.
  - change (Good M (Root i) (append_method (with_prefix (with_score p q) prefix) (MStr (Root i) prefix))). eapply G_prefix; eauto.
  - change (Good M (Root i) (append_method (with_suffix (with_score p q) particle) (MStr (Root i) particle))). eapply G_particle; eauto.
  - change (Good M (Root i) (replace_methods_stack (with_prefix (with_score p q) (lw ++ [HY])) [MHyphFixed (Root i) lw (p_stack (with_score p q))])).
    eapply G_fixed; eauto.
Qed.
Lemma last_unit_app : forall st m, last_unit (st ++ [m]) = Ok (m_unit m).
Proof. intros. unfold last_unit. rewrite rev_app_distr. reflexivity. Qed.
Lemma good_last : forall M who p, Good M who p -> last_unit (p_stack p) = Ok who.
Proof.
  intros M who p H; inversion H; subst; try reflexivity.
  - destruct H2 as [_ ->]. reflexivity.
  - destruct H0 as [_ ->]. reflexivity.
  - cbn [p_stack append_method replace_methods_stack]. apply last_unit_app.
  - cbn [p_stack append_method replace_methods_stack with_prefix]. apply last_unit_app.
  - cbn [p_stack append_method replace_methods_stack with_suffix]. apply last_unit_app.
Qed.
Lemma stack_size_app : forall a b, stack_size (a ++ b) = stack_size a + stack_size b.
Proof. induction a as [|x a IH]; intros b; auto. simpl. change (fold_right (fun x n => method_size x + n) 0 (a ++ b)) with (stack_size (a ++ b)). rewrite IH. unfold stack_size. lia. Qed.
Lemma last_unit_split : forall st who, last_unit st = Ok who -> exists st' m, st = st' ++ [m] /\ m_unit m = who.
Proof.
  intros st who H. unfold last_unit in H. destruct (rev st) as [|m r] eqn:E; [discriminate|]. apply Ok_inj in H.
  exists (rev r), m. split; auto. rewrite <- (rev_involutive st), E. reflexivity.
Qed.
Lemma method_info_app : forall st who this, last_unit st = Ok who -> exists base, method_info (st ++ [this]) = Ok (base, this) /\ m_unit base = who.
Proof.
  intros st who this H. apply last_unit_split in H as (st' & m & -> & E). exists m. split; auto. unfold method_info. rewrite !rev_app_distr. reflexivity.
Qed.
Lemma slice_to_last : forall {A} (l : list A) x, slice_to (l ++ [x]) (-1) = l.
Proof. intros A l x. change (-1)%Z with (- Z.of_nat (length [x]))%Z. apply slice_to_app. discriminate. Qed.
Lemma undec_prefix : forall p s m, without_last_method (without_fixed_prefix (append_method (with_prefix p s) m) (length s)) = p.
Proof.
  intros [w t nf sc st] s m. unfold without_last_method, without_fixed_prefix, append_method, with_prefix, replace_methods_stack. cbn [p_word p_tag p_nf p_score p_stack].
  rewrite slice_to_last, !slice_from_pos, !skipn_app_exact. reflexivity.
Qed.
Lemma undec_suffix : forall p s m, s <> [] -> without_last_method (without_fixed_suffix (append_method (with_suffix p s) m) (length s)) = p.
Proof.
  intros [w t nf sc st] s m N. unfold without_last_method, without_fixed_suffix, append_method, with_suffix, replace_methods_stack. cbn [p_word p_tag p_nf p_score p_stack].
  rewrite slice_to_last, !slice_to_app by auto. reflexivity.
Qed.
Lemma undec_none : forall p m, without_last_method (append_method p m) = p.
Proof.
  intros [w t nf sc st] m. unfold without_last_method, append_method, replace_methods_stack. cbn [p_word p_tag p_nf p_score p_stack]. rewrite slice_to_last. reflexivity.
Qed.

Definition lex_ok (M : morph) (who : uref) (p : parse) : Prop := exists fam,
  (forall n, stack_size (p_stack p) < n -> lexeme_f n M who p = Ok fam) /\
  (exists f, In f fam /\ reading f = reading p) /\
  (forall f, In f fam -> Good M who f /\ p_nf f = p_nf p /\ stack_size (p_stack f) = stack_size (p_stack p) /\
      forall n, stack_size (p_stack f) < n -> lexeme_f n M who f = Ok fam) /\
  exists q f0, (forall n, stack_size (p_stack p) < n -> normalized_f n M who p = Ok q) /\ nth_error fam 0 = Some f0 /\
      reading q = reading f0 /\ p_word q = p_nf p /\ Good M who q /\ stack_size (p_stack q) = stack_size (p_stack p) /\
      (forall n, stack_size (p_stack q) < n -> normalized_f n M who q = Ok q).

(** ** dictionary forms *)
Lemma map_enum_nth : forall {A B} (g : nat * A -> B) l k, nth_error (map g (enum l)) k = option_map (fun x => g (k, x)) (nth_error l k).
Proof. intros. rewrite nth_error_map, enum_nth. destruct (nth_error l k); auto. Qed.
Lemma dict_form_lexeme : forall M self para idx w t nf sc p, wf_dict (m_dict M) -> dict_form (m_dict M) self para idx w t nf sc p ->
  exists fam, dict_lexeme M self p = Ok fam /\
    (exists f, In f fam /\ reading f = reading p) /\
    (forall f, In f fam -> exists idx' w' t', dict_form (m_dict M) self para idx' w' t' nf 1%Q f /\ dict_lexeme M self f = Ok fam) /\
    exists q f0, dict_normalized M self p = Ok q /\ nth_error fam 0 = Some f0 /\ reading q = reading f0 /\ p_word q = nf /\
      (exists t0 sc0, dict_form (m_dict M) self para 0 nf t0 nf sc0 q) /\ dict_normalized M self q = Ok q.
Proof.
  intros M self para idx w t nf sc p W ((pre & sf & pre0 & t0 & sf0 & stem & R & R0 & Ew & Enf) & ->).
  assert (SR : uref_eqb self self = true) by (destruct self; simpl; apply Nat.eqb_refl).
  pose proof R as (pp & s & ti & q & A1 & A2 & _).
  destruct (paradigm_info_ok _ _ _ W A1) as (rows & Er & Lr).
  set (g := fun x : nat * (str * tag * str) => let '(index, (prefix, t, suffix)) := x in
     {| p_word := prefix ++ stem ++ suffix; p_tag := t; p_nf := nf; p_score := 1;
        p_stack := [MDict self (prefix ++ stem ++ suffix) para index] |}).
  assert (LX : forall k pre1 t1 sf1 sc1, para_row (m_dict M) para k pre1 t1 sf1 ->
     dict_lexeme M self (MkParse (pre1 ++ stem ++ sf1) t1 nf sc1 [MDict self (pre1 ++ stem ++ sf1) para k]) = Ok (map g (enum rows))).
  { intros k pre1 t1 sf1 sc1 R1. unfold dict_lexeme. cbn [p_stack p_word p_nf extract_para_info]. rewrite SR. cbn [bind].
    rewrite (proj2 (nth_res_ok _ _ _) A1). cbn [bind]. rewrite (row_stem _ _ _ _ _ _ _ _ R1 A1), middle_app. cbn [bind]. rewrite Er. cbn [bind]. reflexivity. }
  exists (map g (enum rows)). subst w. split; [apply LX; auto|]. split; [|split].
  - exists (g (idx, (pre, t, sf))). split; [|reflexivity]. apply in_map. apply enum_In. apply (paradigm_info_nth _ _ _ idx Er). exact R.
  - intros f Hf. apply in_map_iff in Hf as ([k [[pre1 t1] sf1]] & <- & Hk). apply enum_In in Hk. apply (paradigm_info_nth _ _ _ k Er) in Hk. cbn [fst snd] in Hk.
    exists k, (pre1 ++ stem ++ sf1), t1. split; [|apply LX; auto]. split; [|reflexivity]. exists pre1, sf1, pre0, t0, sf0, stem. auto.
  - assert (N0 : nth_error (map g (enum rows)) 0 = Some (g (0, (pre0, t0, sf0)))).
    { rewrite map_enum_nth. assert (X : nth_error rows 0 = Some (pre0, t0, sf0)) by (apply (paradigm_info_nth _ _ _ 0 Er); exact R0). rewrite X. reflexivity. }
    assert (D0 : forall sc0, dict_form (m_dict M) self para 0 nf t0 nf sc0 (MkParse nf t0 nf sc0 [MDict self nf para 0])).
    { intro sc0. split; [|reflexivity]. exists pre0, sf0, pre0, t0, sf0, stem. auto. }
    assert (I0 : forall sc0, dict_normalized M self (MkParse nf t0 nf sc0 [MDict self nf para 0]) = Ok (MkParse nf t0 nf sc0 [MDict self nf para 0])).
    { intro sc0. unfold dict_normalized. cbn [p_stack extract_para_info]. rewrite SR. reflexivity. }
    unfold dict_normalized at 1. cbn [p_stack extract_para_info]. rewrite SR. cbn [bind]. destruct (Nat.eqb_spec idx 0) as [->|Ni].
    + destruct (para_row_fun _ _ _ _ _ _ _ _ _ R R0) as (-> & -> & ->). rewrite <- Enf.
      eexists; exists (g (0, (pre, t, sf))). split; [reflexivity|]. split; [exact N0|]. split; [cbn [g]; unfold reading; rewrite Enf; reflexivity|].
      split; [reflexivity|]. split; [exists t, sc; apply D0|apply I0].
    + rewrite (para_row_tag _ _ _ _ _ _ R0). cbn [bind p_nf fix_stack tl p_stack].
      eexists; exists (g (0, (pre0, t0, sf0))). split; [reflexivity|]. split; [exact N0|]. split; [cbn [g]; unfold reading; rewrite Enf; reflexivity|].
      split; [reflexivity|]. split; [exists t0, 1%Q; apply D0|apply I0].
Qed.
Lemma dict_lex_ok : forall M self para idx w t nf sc p, wf_dict (m_dict M) -> dict_form (m_dict M) self para idx w t nf sc p ->
  (forall n x, lexeme_f (S n) M self x = dict_lexeme M self x) -> (forall n x, normalized_f (S n) M self x = dict_normalized M self x) ->
  (forall idx w t nf sc p, dict_form (m_dict M) self para idx w t nf sc p -> Good M self p) -> lex_ok M self p.
Proof.
  intros M self para idx w t nf sc p W D HL HN HG. pose proof D as [_ Ep].
  destruct (dict_form_lexeme _ _ _ _ _ _ _ _ _ W D) as (fam & L & A & B & q & f0 & N & N0 & Rq & Wq & (t0 & sc0 & Dq) & Nq).
  exists fam. split; [intros [|n] Hn; [lia|rewrite HL; auto]|]. split; [auto|]. split.
  - intros f Hf. destruct (B f Hf) as (i' & w' & t' & Df & Lf). pose proof Df as [_ Ef]. split; [eapply HG; eauto|].
    subst f p. cbn [p_nf p_stack]. split; auto. split; [reflexivity|]. intros [|n] Hn; [lia|rewrite HL; auto].
  - exists q, f0. split; [intros [|n] Hn; [lia|rewrite HN; auto]|]. split; auto. split; auto. subst p. split; [exact Wq|].
    split; [eapply HG; eauto|]. pose proof Dq as [_ Eq]. split; [subst q; reflexivity|]. intros [|n] Hn; [lia|rewrite HN; auto].
Qed.

(** ** decorated forms *)
Lemma dec_lex_ok : forall M who who' (dec : parse -> parse) p, lex_ok M who p -> Good M who p ->
  (forall x, Good M who x -> Good M who' (dec x)) ->
  (forall x, stack_size (p_stack (dec x)) = S (stack_size (p_stack x))) ->
  (forall x y, p_nf x = p_nf y -> p_nf (dec x) = p_nf (dec y)) ->
  (forall x y, p_word x = p_nf y -> p_word (dec x) = p_nf (dec y)) ->
  (forall x y, reading x = reading y -> reading (dec x) = reading (dec y)) ->
  (forall n x, Good M who x -> lexeme_f (S n) M who' (dec x) = (let* fs := lexeme_f n M who x in Ok (map dec fs))) ->
  (forall n x, Good M who x -> normalized_f (S n) M who' (dec x) = (let* y := normalized_f n M who x in Ok (dec y))) ->
  lex_ok M who' (dec p).
Proof.
  intros M who who' dec p (fam & L & (f1 & If & Rf) & B & q & f0 & N & N0 & Rq & Wq & Gq & Sq & Nq) G HG HS Hnf Hw Hr HL HN.
  exists (map dec fam). split; [|split; [|split]].
  - intros [|n] Hn; [lia|]. rewrite HL by auto. rewrite HS in Hn. rewrite L by lia. reflexivity.
  - exists (dec f1). split; [apply in_map; auto|auto].
  - intros f Hf. apply in_map_iff in Hf as (x & <- & Hx). destruct (B x Hx) as (Gx & Nx & Sx & Lx). split; [auto|]. split; [auto|].
    split; [rewrite !HS; auto|]. intros [|n] Hn; [lia|]. rewrite HL by auto. rewrite HS in Hn. rewrite Lx by lia. reflexivity.
  - exists (dec q), (dec f0). split; [intros [|n] Hn; [lia|]; rewrite HN by auto; rewrite HS in Hn; rewrite N by lia; reflexivity|].
    split; [rewrite nth_error_map, N0; reflexivity|]. split; [auto|]. split; [auto|]. split; [auto|]. split; [rewrite !HS; auto|].
    intros [|n] Hn; [lia|]. rewrite HN by auto. rewrite HS in Hn. rewrite Nq by lia. reflexivity.
Qed.
Lemma reading_inv : forall x y, reading x = reading y -> p_word x = p_word y /\ p_tag x = p_tag y /\ p_nf x = p_nf y /\ p_stack x = p_stack y.
Proof. intros x y H. unfold reading in H. inversion H. auto. Qed.
Lemma good_nonempty : forall M who p, Good M who p -> p_stack p <> [].
Proof. intros M who p H E. apply good_last in H. rewrite E in H. discriminate. Qed.

Lemma fixed_undec : forall p lw rs m, rs = p_stack p ->
  without_fixed_prefix (replace_methods_stack (replace_methods_stack (with_prefix p (lw ++ [HY])) m) rs) (length (lw ++ [HY])) = p.
Proof.
  intros [w t nf sc st] lw rs m ->. unfold without_fixed_prefix, with_prefix, replace_methods_stack. cbn [p_word p_tag p_nf p_score p_stack].
  rewrite !slice_from_pos, !skipn_app_exact. reflexivity.
Qed.
Lemma uref_eqb_refl : forall r, uref_eqb r r = true.
Proof. destruct r; simpl; apply Nat.eqb_refl. Qed.
Lemma sequence_ok : forall {A B} (f : A -> B) l, sequence (map (fun x => Ok (f x)) l) = Ok (map f l).
Proof. intros A B f l. unfold sequence. induction l as [|x l IH]; auto. cbn [map mapM]. cbn [bind]. rewrite IH. reflexivity. Qed.

Theorem good_lex_ok : forall M, wf_dict (m_dict M) -> forall who p, Good M who p -> lex_ok M who p.
Proof.
  intros M W who p H. induction H.
  - assert (X : forall n x, lexeme_f (S n) M (Root i) x = dict_lexeme M (Root i) x) by (intros; cbn [lexeme_f]; unfold nth_res; rewrite H; cbn [bind fst]; rewrite H0; reflexivity).
    assert (Y : forall n x, normalized_f (S n) M (Root i) x = dict_normalized M (Root i) x) by (intros; cbn [normalized_f]; unfold nth_res; rewrite H; cbn [bind fst]; rewrite H0; reflexivity).
    eapply dict_lex_ok; eauto. intros. eapply G_dict; eauto.
  - eapply dict_lex_ok; eauto. intros. eapply G_sub; eauto.
  - apply (dec_lex_ok M who (Root i) (fun x => append_method x (MStr (Root i) fs))); auto.
    + intros x Gx. eapply G_ks; eauto.
    + intros x. cbn [append_method replace_methods_stack p_stack]. rewrite stack_size_app. simpl. lia.
    + intros x y E. apply reading_inv in E as (E1 & E2 & E3 & E4). unfold reading. cbn [append_method replace_methods_stack p_word p_tag p_nf p_stack]. congruence.
    + intros n x Gx. cbn [lexeme_f]. unfold nth_res. rewrite H. cbn [bind fst]. rewrite H0.
      destruct (method_info_app (p_stack x) who (MStr (Root i) fs) (good_last _ _ _ Gx)) as (base & Eb & Ub).
      cbn [append_method replace_methods_stack p_stack]. cbn [p_stack append_method replace_methods_stack] in *. rewrite Eb. cbn [bind].
      change {| p_word := p_word x; p_tag := p_tag x; p_nf := p_nf x; p_score := p_score x; p_stack := p_stack x ++ [MStr (Root i) fs] |} with (append_method x (MStr (Root i) fs)).
      rewrite undec_none, Ub. reflexivity.
    + intros n x Gx. cbn [normalized_f]. unfold nth_res. rewrite H. cbn [bind fst]. rewrite H0.
      destruct (method_info_app (p_stack x) who (MStr (Root i) fs) (good_last _ _ _ Gx)) as (base & Eb & Ub).
      cbn [p_stack append_method replace_methods_stack]. rewrite Eb. cbn [bind].
      change {| p_word := p_word x; p_tag := p_tag x; p_nf := p_nf x; p_score := p_score x; p_stack := p_stack x ++ [MStr (Root i) fs] |} with (append_method x (MStr (Root i) fs)).
      rewrite undec_none, Ub. reflexivity.
  - set (p := MkParse w t w sc [MStr (Root i) mw]).
    assert (L : forall n, lexeme_f (S n) M (Root i) p = Ok [p]).
    { intro n. cbn [lexeme_f]. unfold nth_res. rewrite H. cbn [bind fst]. destruct (b_cfg b); try destruct H0; reflexivity. }
    assert (N : forall n, normalized_f (S n) M (Root i) p = Ok p).
    { intro n. cbn [normalized_f]. unfold nth_res. rewrite H. cbn [bind fst]. destruct (b_cfg b); try destruct H0; reflexivity. }
    assert (G : Good M (Root i) p) by (eapply G_shape; eauto).
    exists [p]. split; [intros [|n] Hn; [lia|apply L]|]. split; [exists p; split; [left|]; auto|]. split.
    + intros f [<-|[]]. split; [exact G|]. split; [reflexivity|]. split; [reflexivity|]. intros [|n] Hn; [lia|apply L].
    + exists p, p. split; [intros [|n] Hn; [lia|apply N]|]. split; [reflexivity|]. split; [reflexivity|]. split; [reflexivity|]. split; [exact G|].
      split; [reflexivity|]. intros [|n] Hn; [lia|apply N].
  - (* initials *)
    assert (G : forall t', In t' (b_tags b) -> Good M (Root i) (MkParse w t' w sc [MStr (Root i) mw])) by (intros; eapply G_init; eauto).
    assert (X : exists l t0 r, l = t0 :: r /\ In t l /\ (forall t', In t' l -> In t' (b_tags b) /\
      (forall n, lexeme_f (S n) M (Root i) (MkParse w t' w sc [MStr (Root i) mw]) = Ok (map (fun t => MkParse w t w sc [MStr (Root i) mw]) l)) /\
      (forall n, normalized_f (S n) M (Root i) (MkParse w t' w sc [MStr (Root i) mw]) = Ok (MkParse w t0 w sc [MStr (Root i) mw])))).
    { destruct first.
      - unfold init_ok in H1. rewrite H0 in H1. destruct (H1 t H2) as (m & Cm & Il & Hl).
        destruct (if m then b_masc b else b_femn b) as [|t0 r] eqn:El; [destruct Il|]. exists (t0 :: r), t0, r. split; auto. split; auto.
        intros t' Ht. destruct (Hl t' Ht) as [I' C']. split; auto. split; intro n.
        + cbn [lexeme_f]. unfold nth_res. rewrite H. cbn [bind fst]. rewrite H0. unfold gender_tags. cbn [p_tag]. rewrite C'. cbn [bind].
          rewrite El. reflexivity.
        + cbn [normalized_f]. unfold nth_res. rewrite H. cbn [bind fst]. rewrite H0. unfold gender_tags. cbn [p_tag]. rewrite C'. cbn [bind].
          rewrite El. reflexivity.
      - destruct (b_tags b) as [|t0 r] eqn:El; [destruct H2|]. exists (t0 :: r), t0, r. split; auto. split; auto.
        intros t' Ht. split; auto. split; intro n.
        + cbn [lexeme_f]. unfold nth_res. rewrite H. cbn [bind fst]. rewrite H0, El. reflexivity.
        + cbn [normalized_f]. unfold nth_res. rewrite H. cbn [bind fst]. rewrite H0, El. reflexivity. }
    destruct X as (l & t0 & r & El & It & Hl). exists (map (fun t => MkParse w t w sc [MStr (Root i) mw]) l).
    assert (I0 : In t0 l) by (rewrite El; left; auto).
    split; [intros [|n] Hn; [lia|apply (Hl t It)]|]. split; [eexists; split; [apply in_map; exact It|reflexivity]|]. split.
    + intros f Hf. apply in_map_iff in Hf as (t' & <- & Ht). destruct (Hl t' Ht) as (I' & L' & _). split; [apply G; auto|].
      split; [reflexivity|]. split; [reflexivity|]. intros [|n] Hn; [lia|apply L'].
    + exists (MkParse w t0 w sc [MStr (Root i) mw]), (MkParse w t0 w sc [MStr (Root i) mw]).
      split; [intros [|n] Hn; [lia|apply (Hl t It)]|]. split; [rewrite El; reflexivity|]. split; [reflexivity|]. split; [reflexivity|].
      split; [apply G; apply (Hl t0 I0)|]. split; [reflexivity|]. intros [|n] Hn; [lia|apply (Hl t0 I0)].
  - apply (dec_lex_ok M who (Root i) (fun x => append_method (with_prefix x prefix) (MStr (Root i) prefix))); auto.
    + intros x Gx. eapply G_prefix; eauto.
    + intros x. cbn [append_method replace_methods_stack p_stack with_prefix]. rewrite stack_size_app. simpl. lia.
    + intros x y E. cbn [append_method replace_methods_stack p_nf with_prefix]. congruence.
    + intros x y E. cbn [append_method replace_methods_stack p_nf p_word with_prefix]. congruence.
    + intros x y E. apply reading_inv in E as (E1 & E2 & E3 & E4). unfold reading. cbn [append_method replace_methods_stack p_word p_tag p_nf p_stack with_prefix]. congruence.
    + intros n x Gx. destruct (method_info_app (p_stack x) who (MStr (Root i) prefix) (good_last _ _ _ Gx)) as (base & Eb & Ub).
      pose proof (undec_prefix x prefix (MStr (Root i) prefix)) as Ud.
      assert (Es : p_stack (append_method (with_prefix x prefix) (MStr (Root i) prefix)) = p_stack x ++ [MStr (Root i) prefix]) by reflexivity.
      set (X := append_method (with_prefix x prefix) (MStr (Root i) prefix)) in *.
      cbn [lexeme_f]. unfold nth_res. rewrite H. cbn [bind fst]. destruct (b_cfg b); try destruct H0; rewrite Es, Eb; cbn [bind method_arg1]; rewrite Ud, Ub; reflexivity.
    + intros n x Gx. destruct (method_info_app (p_stack x) who (MStr (Root i) prefix) (good_last _ _ _ Gx)) as (base & Eb & Ub).
      pose proof (undec_prefix x prefix (MStr (Root i) prefix)) as Ud.
      assert (Es : p_stack (append_method (with_prefix x prefix) (MStr (Root i) prefix)) = p_stack x ++ [MStr (Root i) prefix]) by reflexivity.
      set (X := append_method (with_prefix x prefix) (MStr (Root i) prefix)) in *.
      cbn [normalized_f]. unfold nth_res. rewrite H. cbn [bind fst]. destruct (b_cfg b); try destruct H0; rewrite Es, Eb; cbn [bind method_arg1]; rewrite Ud, Ub; reflexivity.
  - apply (dec_lex_ok M who (Root i) (fun x => append_method (with_suffix x particle) (MStr (Root i) particle))); auto.
    + intros x Gx. eapply G_particle; eauto.
    + intros x. cbn [append_method replace_methods_stack p_stack with_suffix]. rewrite stack_size_app. simpl. lia.
    + intros x y E. cbn [append_method replace_methods_stack p_nf with_suffix]. congruence.
    + intros x y E. cbn [append_method replace_methods_stack p_nf p_word with_suffix]. congruence.
    + intros x y E. apply reading_inv in E as (E1 & E2 & E3 & E4). unfold reading. cbn [append_method replace_methods_stack p_word p_tag p_nf p_stack with_suffix]. congruence.
    + intros n x Gx. destruct (method_info_app (p_stack x) who (MStr (Root i) particle) (good_last _ _ _ Gx)) as (base & Eb & Ub).
      pose proof (undec_suffix x particle (MStr (Root i) particle) H1) as Ud.
      assert (Es : p_stack (append_method (with_suffix x particle) (MStr (Root i) particle)) = p_stack x ++ [MStr (Root i) particle]) by reflexivity.
      set (X := append_method (with_suffix x particle) (MStr (Root i) particle)) in *.
      cbn [lexeme_f]. unfold nth_res. rewrite H. cbn [bind fst]. rewrite H0. rewrite Es, Eb; cbn [bind method_arg1]; rewrite Ud, Ub; reflexivity.
    + intros n x Gx. destruct (method_info_app (p_stack x) who (MStr (Root i) particle) (good_last _ _ _ Gx)) as (base & Eb & Ub).
      pose proof (undec_suffix x particle (MStr (Root i) particle) H1) as Ud.
      assert (Es : p_stack (append_method (with_suffix x particle) (MStr (Root i) particle)) = p_stack x ++ [MStr (Root i) particle]) by reflexivity.
      set (X := append_method (with_suffix x particle) (MStr (Root i) particle)) in *.
      cbn [normalized_f]. unfold nth_res. rewrite H. cbn [bind fst]. rewrite H0. rewrite Es, Eb; cbn [bind method_arg1]; rewrite Ud, Ub; reflexivity.
  - set (dec := fun x => replace_methods_stack (with_prefix x (lw ++ [HY])) [MHyphFixed (Root i) lw (p_stack x)]).
    change (lex_ok M (Root i) (dec p)).
    assert (HF : forall n x fs, Good M who x -> lexeme_f n M who x = Ok fs -> hyph_forms (lexeme_f n M) (Root i) (dec x) = Ok (map (fun f => Ok (dec f)) fs)).
    { intros n x fs Gx E. assert (Es : p_stack (dec x) = [MHyphFixed (Root i) lw (p_stack x)]) by reflexivity.
      assert (Ud : without_fixed_prefix (replace_methods_stack (dec x) (p_stack x)) (length (lw ++ [HY])) = x) by (apply fixed_undec; reflexivity).
      unfold hyph_forms. rewrite Es, uref_eqb_refl. cbn [negb]. cbv zeta. rewrite Ud, (good_last _ _ _ Gx). cbn [bind]. rewrite E. cbn [bind]. reflexivity. }
    assert (HL : forall n x fs, Good M who x -> lexeme_f n M who x = Ok fs -> lexeme_f (S n) M (Root i) (dec x) = Ok (map dec fs)).
    { intros n x fs Gx E. cbn [lexeme_f]. unfold nth_res. rewrite H. cbn [bind fst]. rewrite H0. rewrite (HF _ _ _ Gx E). cbn [bind]. apply sequence_ok. }
    assert (HN : forall n x f0 fs, Good M who x -> lexeme_f n M who x = Ok (f0 :: fs) -> normalized_f (S n) M (Root i) (dec x) = Ok (dec f0)).
    { intros n x f0 fs Gx E. cbn [normalized_f]. unfold nth_res. rewrite H. cbn [bind fst]. rewrite H0. rewrite (HF _ _ _ Gx E). cbn [bind]. reflexivity. }
    assert (HS : forall x, stack_size (p_stack (dec x)) = S (stack_size (p_stack x))) by (intro x; unfold stack_size; simpl; lia).
    assert (HG : forall x, Good M who x -> Good M (Root i) (dec x)) by (intros; eapply G_fixed; eauto).
    destruct IHGood as (fam & L & (f1 & If & Rf) & B & q & f0 & N & N0 & Rq & Wq & Gq & Sq & Nq).
    destruct fam as [|f0' fam']; [discriminate N0|]. cbn in N0. injection N0 as ->. set (fam := f0 :: fam') in *.
    exists (map dec fam). split; [|split; [|split]].
    + intros [|n] Hn; [lia|]. rewrite HS in Hn. apply HL; auto. apply L; lia.
    + exists (dec f1). split; [apply in_map; auto|]. apply reading_inv in Rf as (E1 & E2 & E3 & E4). unfold reading, dec.
      cbn [replace_methods_stack p_word p_tag p_nf p_stack with_prefix]. congruence.
    + intros f Hf. apply in_map_iff in Hf as (x & <- & Hx). destruct (B x Hx) as (Gx & Nx & Sx & Lx). split; [auto|].
      split; [unfold dec; cbn [replace_methods_stack p_nf with_prefix]; congruence|].
      split; [rewrite !HS; auto|]. intros [|n] Hn; [lia|]. rewrite HS in Hn. apply HL; auto. apply Lx; lia.
    + assert (I0 : In f0 fam) by (left; auto). destruct (B f0 I0) as (G0 & Nf0 & S0 & L0).
      apply reading_inv in Rq as (E1 & E2 & E3 & E4).
      exists (dec f0), (dec f0). split; [intros [|n] Hn; [lia|]; rewrite HS in Hn; apply (HN n p f0 fam'); auto; apply L; lia|].
      split; [reflexivity|]. split; [reflexivity|]. split; [unfold dec; cbn [replace_methods_stack p_word p_nf with_prefix]; congruence|].
      split; [auto|]. split; [rewrite !HS; congruence|].
      intros [|n] Hn; [lia|]. rewrite HS in Hn. apply (HN n f0 f0 fam'); auto. apply L0; lia.
Qed.
