(** * No form ever fails to have a lexeme (C78) *)
From Coq Require Import String List NArith ZArith Bool QArith Lia.
From Verif Require Import Py Uni Tagset Dawg Dict Utils Shapes Units Analyzer ConfigRu ConfigUk Spec Spec2 Spec19 Spec28.
From Verif Require Import L_Base L_Run L_Made L_Words L_Config L_Total L_Para L_Groups L_Units L_Lexeme L_LexParse L_Inflect L_Compose L_Compose2 L_ByUnit.
Import ListNotations.
Local Open Scope nat_scope.
Local Open Scope list_scope.

Definition small (t : tag) : Prop := (N.of_nat (length (t_gr t)) < 500000)%N.
Definition dict_ref (M : morph) (r : uref) : Prop :=
  match r with Sub _ => True | Root i => unit_is M i (fun c => c = UDict) end.
Definition is_init (c : ucfg) : Prop := match c with UInit _ _ _ _ => True | _ => False end.
Definition is_hyph (c : ucfg) : Prop := match c with UHyph _ _ => True | _ => False end.
Definition is_particle (c : ucfg) : Prop := match c with UParticle _ _ => True | _ => False end.
(** stacks whose lexeme can be built for any word *)
Inductive tame (M : morph) : list method -> Prop :=
| T_dict : forall r w para idx, dict_ref M r -> valid_form (m_dict M) para idx -> tame M [MDict r w para idx]
| T_atom : forall i a, unit_is M i (fun c => is_shape c \/ is_init c) -> tame M [MStr (Root i) a]
| T_att : forall st i a, unit_is M i attaching -> tame M st -> tame M (st ++ [MStr (Root i) a])
| T_fixed : forall i lw st, unit_is M i is_hyph -> tame M st -> tame M [MHyphFixed (Root i) lw st].
(** parses whose lexeme can be built *)
Inductive fits (M : morph) : parse -> Prop :=
| F_tame : forall p, tame M (p_stack p) -> small (p_tag p) -> fits M p
| F_both : forall i l r p, p_stack p = [MHyphBoth (Root i) l r] -> unit_is M i is_hyph -> tame M l -> tame M r ->
    In HY (p_word p) -> In HY (p_nf p) -> small (p_tag p) -> fits M p
| F_prefix : forall i a p, unit_is M i is_prefix_unit -> fits M p -> fits M (append_method (with_prefix p a) (MStr (Root i) a))
| F_particle : forall i a p, unit_is M i is_particle -> a <> [] -> fits M p -> fits M (append_method (with_suffix p a) (MStr (Root i) a)).

Record units_fit (M : morph) : Prop := {
  uf_init : forall i b tm, nth_error (m_units M) i = Some (b, tm) -> is_init (b_cfg b) ->
    (forall t, In t (b_tags b) -> small t) /\ match b_cfg b with UInit true _ _ _ =>
      b_masc b <> [] /\ b_femn b <> [] /\ (forall t, In t (b_masc b ++ b_femn b) -> small t) | _ => b_tags b <> [] end;
  uf_tags : forall i b tm t, nth_error (m_units M) i = Some (b, tm) -> In t (b_tags b) -> small t;
  uf_masc : In (u "masc") (tc_known (m_tc M)) }.

Lemma tame_last : forall M st, tame M st -> exists who, last_unit st = Ok who.
Proof. intros M st H. destruct H; try (eexists; reflexivity). exists (Root i). apply last_unit_app. Qed.
Lemma fits_last : forall M p, fits M p -> exists who, last_unit (p_stack p) = Ok who.
Proof.
  intros M p H. destruct H.
  - eapply tame_last; eauto.
  - rewrite H. eexists; reflexivity.
  - exists (Root i). apply last_unit_app.
  - exists (Root i). apply last_unit_app.
Qed.
Lemma fits_small : forall M p, fits M p -> small (p_tag p).
Proof. intros M p H. induction H; auto. Qed.
Lemma contains_masc : forall M t, In (u "masc") (tc_known (m_tc M)) -> exists m, contains (m_tc M) (u "masc") t = Ok m.
Proof.
  intros M t K. unfold contains, grammeme_is_known, assert_initialized. destruct (smem (u "masc") (t_gr t)); [eauto|].
  destruct (tc_known (m_tc M)) eqn:Ek; [destruct K|]. cbn [bind]. rewrite (proj2 (smem_In _ _) K). cbn [bind negb]. eauto.
Qed.

Definition good_list (M : morph) (P : parse -> Prop) (r : res (list parse)) : Prop :=
  exists fam, r = Ok fam /\ fam <> [] /\ forall f, In f fam -> P f.
Definition good_one (P : parse -> Prop) (r : res parse) : Prop := exists q, r = Ok q /\ P q.
Definition tamep (M : morph) (p : parse) : Prop := tame M (p_stack p) /\ small (p_tag p).

Section Reach.
  Variable M : morph.
  Hypothesis W : wf_dict (m_dict M).
  Hypothesis MT : modest_tags (m_dict M).
  Hypothesis UF : units_fit M.

  Lemma dict_lex_tame : forall r w para idx p, dict_ref M r -> valid_form (m_dict M) para idx -> p_stack p = [MDict r w para idx] ->
    good_list M (tamep M) (dict_lexeme M r p).
  Proof.
    intros r w para idx p R V E. unfold dict_lexeme. rewrite E. cbn [extract_para_info]. rewrite uref_eqb_refl. cbn [bind].
    destruct V as (pp & N & L). rewrite (nth_res_some _ _ _ N). cbn [bind].
    destruct (tot_stem _ W _ _ _ (p_word p) N L) as (stem & ES). rewrite ES. cbn [bind].
    destruct (paradigm_info_ok _ _ _ W N) as (rows & ER & LR). rewrite ER. cbn [bind]. eexists. split; [reflexivity|]. split.
    - rewrite <- LR in L. destruct rows as [|[[? ?] ?] rows]; [exfalso; inversion L|]. unfold enum. cbn. discriminate.
    - intros f Hf. apply in_map_iff in Hf as ([k [[pre t] sf]] & <- & Hk). apply enum_In in Hk. pose proof Hk as Hk'. apply (paradigm_info_nth _ _ _ k ER) in Hk'. cbn [fst snd] in Hk'.
      split; cbn [p_stack p_tag fix_stack tl].
      + unfold fix_stack. cbn [tl]. apply T_dict; [exact R|]. apply para_row_valid in Hk'. exact Hk'.
      + destruct Hk' as (p' & sid & tid & pid & A1 & A2 & A3 & A4 & A5 & A6 & A7 & A8). apply MT. eapply nth_error_In; eauto.
  Qed.
  Lemma dict_norm_tame : forall r w para idx p, dict_ref M r -> valid_form (m_dict M) para idx -> p_stack p = [MDict r w para idx] -> small (p_tag p) ->
    good_one (tamep M) (dict_normalized M r p).
  Proof.
    intros r w para idx p R V E S. unfold dict_normalized. rewrite E. cbn [extract_para_info]. rewrite uref_eqb_refl. cbn [bind].
    assert (V0 : valid_form (m_dict M) para 0) by (destruct V as (pp & N & L); exists pp; split; [exact N|lia]).
    destruct (idx =? 0).
    - exists p. split; [reflexivity|]. split; [rewrite E; apply T_dict; assumption|exact S].
    - destruct (tot_tag_info _ W para 0 V0) as (t & -> & It). cbn [bind]. eexists. split; [reflexivity|]. split; cbn [p_stack p_tag].
      + unfold fix_stack. cbn [tl]. apply T_dict; assumption.
      + apply MT. exact It.
  Qed.
  Lemma att_parts : forall st i a p who, p_stack p = st ++ [MStr (Root i) a] -> last_unit st = Ok who -> exists base, method_info (p_stack p) = Ok (base, MStr (Root i) a) /\ m_unit base = who.
  Proof. intros st i a p who E L. rewrite E. apply method_info_app. exact L. Qed.
  Lemma att_size : forall st i a, stack_size (st ++ [MStr (Root i) a]) = S (stack_size st).
  Proof. intros. rewrite stack_size_app. simpl. lia. Qed.

  Lemma tame_lex : forall st, tame M st -> forall p n who, p_stack p = st -> small (p_tag p) -> stack_size st < n -> last_unit st = Ok who ->
    good_list M (tamep M) (lexeme_f n M who p) /\ good_one (tamep M) (normalized_f n M who p).
  Proof.
    intros st H. induction H as [r w para idx R V|i a (b & tm & N & K)|st i a (b & tm & N & K) H IH|i lw st (b & tm & N & K) H IH]; intros p n who E SM Hn LU.
    - apply Ok_inj in LU. cbn [m_unit] in LU. subst who. destruct n as [|n]; [lia|].
      assert (EL : lexeme_f (S n) M r p = dict_lexeme M r p /\ normalized_f (S n) M r p = dict_normalized M r p).
      { destruct r as [i|i]; [|split; reflexivity]. destruct R as (b & tm & N & K). cbn [lexeme_f normalized_f]. rewrite (nth_res_some _ _ _ N). cbn [bind fst]. rewrite K. split; reflexivity. }
      destruct EL as [-> ->]. split; [eapply dict_lex_tame; eauto|eapply dict_norm_tame; eauto].
    - apply Ok_inj in LU. cbn [m_unit] in LU. subst who. destruct n as [|n]; [lia|].
      assert (TP : forall q, p_stack q = p_stack p -> small (p_tag q) -> tamep M q).
      { intros q Eq Sq. split; [rewrite Eq, E; apply T_atom; exists b, tm; auto|exact Sq]. }
      cbn [lexeme_f normalized_f]. rewrite (nth_res_some _ _ _ N). cbn [bind fst].
      destruct K as [K|K].
      + assert (X : good_list M (tamep M) (Ok [p]) /\ good_one (tamep M) (Ok p)).
        { split; [exists [p]; split; [reflexivity|]; split; [discriminate|]; intros f [<-|[]]; apply TP; auto|exists p; split; [reflexivity|]; apply TP; auto]. }
        destruct (b_cfg b); try destruct K; exact X.
      + destruct (uf_init M UF i b tm N K) as [TS X]. 
        assert (Y : forall l, l <> [] -> (forall t, In t l -> small t) -> good_list M (tamep M) (Ok (map (with_tag p) l)) /\ good_one (tamep M) (let* t := nth_res l 0 in Ok (with_tag p t))).
        { intros l NE SL. split.
          - eexists. split; [reflexivity|]. split; [destruct l; [contradiction|discriminate]|]. intros f Hf. apply in_map_iff in Hf as (t & <- & It). apply TP; [reflexivity|]. apply SL. exact It.
          - destruct l as [|t l]; [contradiction|]. exists (with_tag p t). split; [reflexivity|]. apply TP; [reflexivity|]. apply SL. left; reflexivity. }
        destruct (b_cfg b) as [|[] ? ? ?| | | | | | | | | | |]; try destruct K.
        * unfold gender_tags. destruct (contains_masc M (p_tag p) (uf_masc M UF)) as (m & ->). cbn [bind]. destruct X as (X1 & X2 & X3).
          assert (Z : (if m then b_masc b else b_femn b) <> [] /\ forall t, In t (if m then b_masc b else b_femn b) -> small t).
          { destruct m; (split; [assumption|]); intros t It; apply X3, in_app_iff; auto. }
          destruct Z as [Z1 Z2]. apply Y; assumption.
        * apply Y; assumption.
    - rewrite last_unit_app in LU. apply Ok_inj in LU. cbn [m_unit] in LU. subst who. rewrite att_size in Hn. destruct n as [|n]; [lia|].
      destruct (tame_last M st H) as (who & LU). destruct (att_parts st i a p who E LU) as (base & MI & MU).
      cbn [lexeme_f normalized_f]. rewrite (nth_res_some _ _ _ N). cbn [bind fst].
      assert (UA : unit_is M i attaching) by (exists b, tm; auto).
      assert (X : forall (un : parse -> parse) (dec : parse -> parse), (forall x, p_stack (un x) = p_stack x) -> (forall x, p_tag (un x) = p_tag x) -> (forall x, p_stack (dec x) = p_stack x) -> (forall x, p_tag (dec x) = p_tag x) ->
        good_list M (tamep M) (let* fs := lexeme_f n M (m_unit base) (without_last_method (un p)) in Ok (map (fun x => append_method (dec x) (MStr (Root i) a)) fs)) /\
        good_one (tamep M) (let* x := normalized_f n M (m_unit base) (without_last_method (un p)) in Ok (append_method (dec x) (MStr (Root i) a)))).
      { intros un dec U1 U2 D1 D2. rewrite MU.
        destruct (IH (without_last_method (un p)) n who) as [(fam & -> & NE & HF) (q & -> & Hq)]; [| |lia|exact LU|].
        - unfold without_last_method, replace_methods_stack. cbn [p_stack]. rewrite U1, E. apply slice_to_last.
        - unfold without_last_method, replace_methods_stack. cbn [p_tag]. rewrite U2. exact SM.
        - cbn [bind]. split.
          + eexists. split; [reflexivity|]. split; [destruct fam; [contradiction|discriminate]|]. intros f Hf. apply in_map_iff in Hf as (x & <- & Hx).
            destruct (HF x Hx) as [T1 T2]. split; cbn [append_method replace_methods_stack p_stack p_tag]; [rewrite D1; apply T_att; [exact UA|exact T1]|rewrite D2; exact T2].
          + eexists. split; [reflexivity|]. destruct Hq as [T1 T2]. split; cbn [append_method replace_methods_stack p_stack p_tag]; [rewrite D1; apply T_att; [exact UA|exact T1]|rewrite D2; exact T2]. }
      destruct (b_cfg b) eqn:EB; try destruct K; rewrite MI; cbn [bind method_arg1];
        first [apply (X (fun x => without_fixed_suffix x (length a)) (fun x => with_suffix x a)); reflexivity | apply (X (fun x => without_fixed_prefix x (length a)) (fun x => with_prefix x a)); reflexivity | apply (X (fun x => x) (fun x => x)); reflexivity].
    - apply Ok_inj in LU. cbn [m_unit] in LU. subst who. destruct n as [|n]; [lia|].
      assert (SZ : stack_size [MHyphFixed (Root i) lw st] = S (stack_size st)) by (cbn; unfold stack_size; lia). rewrite SZ in Hn.
      destruct (tame_last M st H) as (who & LU).
      destruct (IH (without_fixed_prefix (replace_methods_stack p st) (length (lw ++ [HY]))) n who eq_refl SM) as [(fam & EF & NE & HF) _]; [lia|exact LU|].
      cbn [lexeme_f normalized_f]. rewrite (nth_res_some _ _ _ N). cbn [bind fst]. assert (UH : unit_is M i is_hyph) by (exists b, tm; auto). destruct (b_cfg b); try destruct K.
      assert (HH : hyph_forms (lexeme_f n M) (Root i) p = Ok (map (fun f => Ok (replace_methods_stack (with_prefix f (lw ++ [HY])) [MHyphFixed (Root i) lw (p_stack f)])) fam)).
      { unfold hyph_forms. rewrite E, uref_eqb_refl. cbn [negb]. cbv zeta. rewrite LU. cbn [bind]. rewrite EF. reflexivity. }
      rewrite HH. cbn [bind].
      assert (TP : forall f, In f fam -> tamep M (replace_methods_stack (with_prefix f (lw ++ [HY])) [MHyphFixed (Root i) lw (p_stack f)])).
      { intros f Hf. destruct (HF f Hf) as [T1 T2]. split; [|exact T2]. cbn [replace_methods_stack p_stack]. apply T_fixed; [exact UH|exact T1]. }
      split.
      + eexists. split; [apply sequence_ok|]. split; [destruct fam; [contradiction|discriminate]|]. intros f Hf. apply in_map_iff in Hf as (x & <- & Hx). apply TP. exact Hx.
      + destruct fam as [|f fam]; [contradiction|]. cbn [map]. eexists. split; [reflexivity|]. apply TP. left; reflexivity.
  Qed.

  Lemma index_some : forall s, In HY s -> exists i, index_sub [HY] s = Ok i.
  Proof.
    intros s H. unfold index_sub. assert (X : exists i, find_sub [HY] s = Some i); [|destruct X as (i & ->); eauto].
    induction s as [|c s IH]; [destruct H|]. cbn [find_sub]. destruct (prefixb [HY] (c :: s)) eqn:P; [eauto|].
    destruct H as [->|H]; [cbn [prefixb] in P; rewrite N.eqb_refl in P; cbn [andb] in P; discriminate P|]. destruct (IH H) as (i & ->). cbn [option_map]. eauto.
  Qed.
  Lemma fits_lex : forall p, fits M p -> forall n who, stack_size (p_stack p) < n -> last_unit (p_stack p) = Ok who ->
    good_list M (fits M) (lexeme_f n M who p) /\ good_one (fits M) (normalized_f n M who p).
  Proof.
    intros p H. induction H as [p T SM|i l r p E (b & tm & N & K) Tl Tr Hw Hn SM|i a p UI H IH|i a p UI NA H IH]; intros n who Hs LU.
    - destruct (tame_lex _ T p n who eq_refl SM Hs LU) as [(fam & EF & NE & HF) (q & EQ & T1 & T2)]. split.
      + exists fam. split; [exact EF|]. split; [exact NE|]. intros f Hf. destruct (HF f Hf). apply F_tame; assumption.
      + exists q. split; [exact EQ|]. apply F_tame; assumption.
    - rewrite E in LU, Hs. apply Ok_inj in LU. cbn [m_unit] in LU. subst who. destruct n as [|n]; [lia|].
      assert (SZ : stack_size [MHyphBoth (Root i) l r] = S (stack_size l + stack_size r)) by (cbn; unfold stack_size; lia). rewrite SZ in Hs.
      destruct (index_some _ Hw) as (iw & Ew). destruct (index_some _ Hn) as (jn & Ej). destruct (tame_last _ _ Tl) as (wl & LL). destruct (tame_last _ _ Tr) as (wr & LR).
      assert (UH : unit_is M i is_hyph) by (exists b, tm; auto).
      set (fl := {| p_word := firstn iw (p_word p); p_tag := p_tag p; p_nf := firstn jn (p_nf p); p_score := p_score p; p_stack := l |}).
      set (fr := {| p_word := skipn (iw + 1) (p_word p); p_tag := p_tag p; p_nf := skipn (jn + 1) (p_nf p); p_score := p_score p; p_stack := r |}).
      destruct (tame_lex l Tl fl n wl eq_refl SM ltac:(lia) LL) as [(ll & EL & NL & HL) _].
      destruct (tame_lex r Tr fr n wr eq_refl SM ltac:(lia) LR) as [(rl & ER & NR & HR) _].
      assert (HH : hyph_forms (lexeme_f n M) (Root i) p = Ok (map (merge1 (Root i) ll) rl)).
      { unfold hyph_forms. rewrite E, uref_eqb_refl. cbn [negb]. unfold without_right_part, without_left_part. cbn [replace_methods_stack p_word p_nf p_tag p_score p_stack]. rewrite Ew, Ej. cbn [bind].
        fold fl. fold fr. rewrite LL. cbn [bind]. rewrite EL. cbn [bind]. rewrite LR. cbn [bind]. rewrite ER. reflexivity. }
      assert (MG : forall x, In x rl -> exists g, merge1 (Root i) ll x = Ok g /\ fits M g).
      { intros x Hx. destruct (merge_best (Root i) i ll x eq_refl) as (g & Eg & lf & (xs & ys & k & EL' & _) & J).
        - destruct ll as [|y ll]; [contradiction|]. exists y. split; [left; reflexivity|]. destruct (HL y (or_introl eq_refl)) as [_ S1]. destruct (HR x Hx) as [_ S2]. unfold small in *. lia.
        - exists g. split; [exact Eg|]. destruct J as (J1 & J2 & J3 & J4). assert (IL : In lf ll) by (rewrite EL'; apply in_or_app; right; left; reflexivity).
          destruct (HL lf IL) as [T1 S1]. destruct (HR x Hx) as [T2 _]. eapply F_both; eauto.
          + rewrite J1. apply in_or_app. right. left. reflexivity.
          + rewrite J3. apply in_or_app. right. left. reflexivity.
          + rewrite J2. exact S1. }
      cbn [lexeme_f normalized_f]. rewrite (nth_res_some _ _ _ N). cbn [bind fst]. destruct (b_cfg b); try destruct K. rewrite HH. cbn [bind]. split.
      + assert (SQ : forall rs, (forall x, In x rs -> exists g, merge1 (Root i) ll x = Ok g /\ fits M g) -> exists gs, sequence (map (merge1 (Root i) ll) rs) = Ok gs /\ length gs = length rs /\ forall g, In g gs -> fits M g).
        { clear. unfold sequence. induction rs as [|x rs IH]; intros H; [exists []; split; [reflexivity|]; split; [reflexivity|]; intros g []|].
          destruct (H x (or_introl eq_refl)) as (g & E & F). cbn [map mapM]. rewrite E. cbn [bind]. destruct IH as (gs & -> & L & A); [intros y I; apply H; right; exact I|]. cbn [bind].
          exists (g :: gs). split; [reflexivity|]. split; [cbn; congruence|]. intros y [<-|I]; auto. }
        destruct (SQ rl MG) as (gs & -> & L & A). exists gs. split; [reflexivity|]. split; [|exact A]. destruct gs; [destruct rl; [contradiction|discriminate L]|discriminate].
      + destruct rl as [|x rl]; [contradiction|]. cbn [map]. destruct (MG x (or_introl eq_refl)) as (g & -> & F). exists g. auto.
    - cbn [p_stack append_method replace_methods_stack with_prefix] in LU, Hs. rewrite last_unit_app in LU. apply Ok_inj in LU. cbn [m_unit] in LU. subst who. rewrite att_size in Hs. destruct n as [|n]; [lia|].
      destruct (fits_last _ _ H) as (who & LU). destruct (IH n who) as [(fam & EF & NE & HF) (q & EQ & Fq)]; [lia|exact LU|].
      pose proof UI as (b & tm & N & K). destruct (method_info_app (p_stack p) who (MStr (Root i) a) LU) as (base & MI & MU).
      pose proof (undec_prefix p a (MStr (Root i) a)) as Ud.
      assert (Es : p_stack (append_method (with_prefix p a) (MStr (Root i) a)) = p_stack p ++ [MStr (Root i) a]) by reflexivity.
      set (X := append_method (with_prefix p a) (MStr (Root i) a)) in *. rewrite <- Es in MI.
      cbn [lexeme_f normalized_f]. rewrite (nth_res_some _ _ _ N). cbn [bind fst].
      destruct (b_cfg b); try destruct K; rewrite MI; cbn [bind method_arg1]; rewrite Ud, MU, EF, EQ; cbn [bind];
        (split; [eexists; split; [reflexivity|]; split; [destruct fam; [contradiction|discriminate]|]; intros f Hf; apply in_map_iff in Hf as (x & <- & Hx); apply F_prefix; auto|eexists; split; [reflexivity|]; apply F_prefix; auto]).
    - cbn [p_stack append_method replace_methods_stack with_suffix] in LU, Hs. rewrite last_unit_app in LU. apply Ok_inj in LU. cbn [m_unit] in LU. subst who. rewrite att_size in Hs. destruct n as [|n]; [lia|].
      destruct (fits_last _ _ H) as (who & LU). destruct (IH n who) as [(fam & EF & NE & HF) (q & EQ & Fq)]; [lia|exact LU|].
      pose proof UI as (b & tm & N & K). destruct (method_info_app (p_stack p) who (MStr (Root i) a) LU) as (base & MI & MU).
      pose proof (undec_suffix p a (MStr (Root i) a) NA) as Ud.
      assert (Es : p_stack (append_method (with_suffix p a) (MStr (Root i) a)) = p_stack p ++ [MStr (Root i) a]) by reflexivity.
      set (X := append_method (with_suffix p a) (MStr (Root i) a)) in *. rewrite <- Es in MI.
      cbn [lexeme_f normalized_f]. rewrite (nth_res_some _ _ _ N). cbn [bind fst].
      destruct (b_cfg b); try destruct K; rewrite MI; cbn [bind method_arg1]; rewrite Ud, MU, EF, EQ; cbn [bind];
        (split; [eexists; split; [reflexivity|]; split; [destruct fam; [contradiction|discriminate]|]; intros f Hf; apply in_map_iff in Hf as (x & <- & Hx); apply F_particle; auto|eexists; split; [reflexivity|]; apply F_particle; auto]).
  Qed.

  Lemma tame_score : forall p q, tamep M p -> tamep M (with_score p q).
  Proof. intros p q H. exact H. Qed.
  Lemma fits_score : forall p, fits M p -> forall q, fits M (with_score p q).
  Proof.
    intros p H. induction H; intro q.
    - apply F_tame; assumption.
    - eapply F_both; eauto.
    - change (fits M (append_method (with_prefix (with_score p q) a) (MStr (Root i) a))). apply F_prefix; auto.
    - change (fits M (append_method (with_suffix (with_score p q) a) (MStr (Root i) a))). apply F_particle; auto.
  Qed.
  Lemma entry_tame : forall r lower p, dict_ref M r -> dict_entry M r lower p -> tamep M p.
  Proof.
    intros r lower p R (w & vals & para & idx & nf & t & Hw & Hv & Hi & En & Et & ->). apply sget_In in Hv. destruct W as (_ & WW & _).
    pose proof (WW _ _ _ _ Hv Hi) as V. split; cbn [p_stack p_tag]; [apply T_dict; assumption|].
    destruct (tot_tag_info _ W _ _ V) as (t' & E' & I'). rewrite Et in E'. apply Ok_inj in E'. subst t'. apply MT. exact I'.
  Qed.
  Lemma shape_tag_In : forall U b w t, shape_tag U b w = Ok (Some t) -> In t (b_tags b).
  Proof.
    intros U b w t H. unfold shape_tag in H.
    assert (X : forall k, rmap Some (nth_res (b_tags b) k) = Ok (Some t) -> In t (b_tags b)).
    { intros k Hk. apply rmap_ok in Hk as (a & Ha & Ea). injection Ea as ->. apply nth_res_ok in Ha. eapply nth_error_In; eauto. }
    destruct (b_cfg b); try discriminate H.
    - destruct (number_shape U w) as [[]|]; try discriminate H; eauto.
    - destruct (is_punctuation U w); try discriminate H; eauto.
    - apply bind_ok in H as (l & _ & H). destruct l; try discriminate H; eauto.
    - destruct (is_roman_number w); try discriminate H; eauto.
  Qed.

  (** what a unit builds, given what the analyses of shorter words are *)
  Lemma made_tame : forall recP recT i b tm word lower p, nth_error (m_units M) i = Some (b, tm) -> made recP recT M i b word lower p -> ~ In HY lower ->
    (forall a c ps q, lower = a ++ c -> recP c = Ok ps -> In q ps -> tamep M q) -> tamep M p.
  Proof.
    intros recP recT i b tm word lower p N H NH IH.
    assert (AT : forall t sc w nf, (is_shape (b_cfg b) \/ is_init (b_cfg b)) -> In t (b_tags b) -> tamep M {| p_word := w; p_tag := t; p_nf := nf; p_score := sc; p_stack := [MStr (Root i) word] |}).
    { intros t sc w nf K It. split; cbn [p_stack p_tag]; [apply T_atom; exists b, tm; auto|]. eapply uf_tags; eauto. }
    assert (HH : forall skip, hyph_should_parse M skip lower = true -> False).
    { intros skip X. unfold hyph_should_parse in X. rewrite !andb_true_iff in X. destruct X as [[[X _] _] _]. apply mem_char_In in X. contradiction. }
    destruct H.
    - apply (entry_tame (Root i) lower); [exists b, tm; auto|assumption].
    - apply AT; [right; rewrite H; exact I|assumption].
    - apply AT; [left; destruct H as [H|[H|[H|H]]]; rewrite H; exact I|]. eapply shape_tag_In; eauto.
    - contradiction.
    - apply AT; [left; rewrite H; exact I|]. eapply nth_error_In; eauto.
    - destruct (HH skip H0).
    - destruct (HH skip H0).
    - apply kp_splits_In in H0 as (_ & -> & _). destruct (IH prefix rest ps p eq_refl H1 H2) as [T1 T2]. split; [|exact T2]. cbn [prefixed p_stack]. apply T_att; [|exact T1]. exists b, tm. split; [exact N|]. rewrite H. exact I.
    - destruct (entry_tame (Sub i) rest p I H1) as [T1 T2]. split; [|exact T2]. cbn [prefixed p_stack]. apply T_att; [|exact T1]. exists b, tm. split; [exact N|]. rewrite H. exact I.
    - destruct H1 as (pid & pre & dawg & j & fs & vals & cnt & para & idx & t & nf & total & A1 & A2 & A3 & A4 & A5 & A6 & A7 & Et & A9 & En & A11 & ->).
      apply sget_In in A6. apply nth_error_In in A3. assert (V : valid_form (m_dict M) para idx) by (eapply W; eauto).
      split; cbn [p_stack p_tag].
      + apply (T_att M [MDict (Sub i) _ para idx] i fs); [exists b, tm; split; [exact N|]; rewrite H; exact I|]. apply T_dict; [exact I|exact V].
      + destruct (tot_tag_info _ W _ _ V) as (t' & E' & I'). rewrite Et in E'. apply Ok_inj in E'. subst t'. apply MT. exact I'.
    - apply AT; [left; rewrite H; exact I|]. eapply nth_error_In; eauto.
  Qed.
  Hypothesis LS : lower_stable (m_uni M).
  Lemma parse_tame : forall n word ps p, ~ In HY (u_lower (m_uni M) word) -> parse_f n M word = Ok ps -> In p ps -> tamep M p.
  Proof.
    induction n as [|n IH]; intros word ps p NH H Hp; [discriminate H|].
    destruct (parse_f_made _ _ _ _ _ H Hp) as (i & b & tm & p0 & q & N & Md & ->). apply tame_score. eapply made_tame; eauto.
    intros a c qs q0 E R I. apply (IH c qs q0); [|exact R|exact I]. assert (EL : u_lower (m_uni M) c = c) by (apply (LS word a c []); rewrite app_nil_r; exact E).
    rewrite EL. intros X. apply NH. rewrite E. apply in_or_app. right. exact X.
  Qed.
  Lemma parse_fits : forall n word ps p, parse_f n M word = Ok ps -> In p ps -> fits M p.
  Proof.
    induction n as [|n IH]; intros word ps p H Hp; [discriminate H|].
    destruct (parse_f_made _ _ _ _ _ H Hp) as (i & b & tm & p0 & q & N & Md & ->). apply fits_score. clear H Hp.
    assert (TF : forall x, tamep M x -> fits M x) by (intros x [A B]; apply F_tame; assumption).
    assert (HY2 : forall skip lw rw, hyph_should_parse M skip (u_lower (m_uni M) word) = true -> split_once HY (u_lower (m_uni M) word) = (lw, Some rw) ->
      ~ In HY (u_lower (m_uni M) lw) /\ ~ In HY (u_lower (m_uni M) rw)).
    { intros skip lw rw X SO. unfold hyph_should_parse in X. apply andb_true_iff in X as [X _]. apply inner_hyphen in X as (l & r & O). pose proof O as (Ew & _ & _ & Hl & Hr).
      rewrite (split_once_inner _ _ _ O) in SO. injection SO as <- <-. rewrite (LS word [] l (u "-" ++ r)) by (rewrite Ew; reflexivity). rewrite (LS word (l ++ u "-") r []) by (rewrite Ew, app_nil_r, app_assoc; reflexivity). split; assumption. }
    assert (NHc : ~ In HY (u_lower (m_uni M) word) -> fits M p0).
    { intros NH. apply TF. eapply made_tame; eauto. intros a c qs q0 E R I. apply (parse_tame n c qs q0); [|exact R|exact I].
      rewrite (LS word a c []) by (rewrite app_nil_r; exact E). intros X. apply NH. rewrite E. apply in_or_app. right. exact X. }
    destruct Md.
    - apply TF. apply (entry_tame (Root i) (u_lower (m_uni M) word)); [exists b, tm; auto|assumption].
    - apply TF. split; cbn [p_stack p_tag]; [apply T_atom; exists b, tm; split; [exact N|]; right; rewrite H; exact I|eapply uf_tags; eauto].
    - apply TF. split; cbn [p_stack p_tag]; [apply T_atom; exists b, tm; split; [exact N|]; left; destruct H as [H|[H|[H|H]]]; rewrite H; exact I|]. eapply uf_tags; eauto. eapply shape_tag_In; eauto.
    - change (suffixed (Root i) mult particle p) with (append_method (with_suffix (with_score p (p_score p * mult)%Q) particle) (MStr (Root i) particle)).
      apply F_particle; [exists b, tm; split; [exact N|]; rewrite H; exact I| |apply fits_score; eauto].
      intros ->. apply H2. rewrite <- H3. exact (slice_to_0 _).
    - apply TF. split; cbn [p_stack p_tag]; [apply T_atom; exists b, tm; split; [exact N|]; left; rewrite H; exact I|]. eapply uf_tags; eauto. eapply nth_error_In; eauto.
    - destruct (HY2 _ _ _ H0 H1) as [NL NR]. destruct (parse_tame _ _ _ _ NL H2 H4) as [T1 S1]. destruct (parse_tame _ _ _ _ NR H3 H5) as [T2 _].
      eapply F_both; [reflexivity|exists b, tm; split; [exact N|]; rewrite H; exact I|exact T1|exact T2| | |exact S1]; cbn [both_parse p_word p_nf]; apply in_or_app; right; left; reflexivity.
    - destruct (HY2 _ _ _ H0 H1) as [NL NR]. destruct (parse_tame _ _ _ _ NR H2 H3) as [T2 S2]. apply TF. split; [|exact S2]. cbn [fixed_left_parse p_stack]. apply T_fixed; [exists b, tm; split; [exact N|]; rewrite H; exact I|exact T2].
    - change (prefixed (Root i) mult prefix p) with (append_method (with_prefix (with_score p (p_score p * mult)%Q) prefix) (MStr (Root i) prefix)).
      apply F_prefix; [exists b, tm; split; [exact N|]; rewrite H; exact I|apply fits_score; eauto].
    - destruct (entry_tame (Sub i) rest p I H1) as [T1 T2]. apply TF. split; [|exact T2]. cbn [prefixed p_stack]. apply T_att; [|exact T1]. exists b, tm. split; [exact N|]. rewrite H. exact I.
    - apply TF. destruct H1 as (pid & pre & dawg & j & fs & vals & cnt & para & idx & t & nf & total & A1 & A2 & A3 & A4 & A5 & A6 & A7 & Et & A9 & En & A11 & ->).
      apply sget_In in A6. apply nth_error_In in A3. assert (V : valid_form (m_dict M) para idx) by (eapply W; eauto).
      split; cbn [p_stack p_tag].
      + apply (T_att M [MDict (Sub i) _ para idx] i fs); [exists b, tm; split; [exact N|]; rewrite H; exact I|]. apply T_dict; [exact I|exact V].
      + destruct (tot_tag_info _ W _ _ V) as (t' & E' & I'). rewrite Et in E'. apply Ok_inj in E'. subst t'. apply MT. exact I'.
    - apply TF. split; cbn [p_stack p_tag]; [apply T_atom; exists b, tm; split; [exact N|]; left; rewrite H; exact I|]. eapply uf_tags; eauto. eapply nth_error_In; eauto.
  Qed.
End Reach.

Lemma small20 : forall t, (length (t_gr t) <? 20) = true -> small t.
Proof. intros t H. apply Nat.ltb_lt in H. unfold small. lia. Qed.
Lemma mk_tag_gr : forall C s t, mk_tag C s = Ok t -> t_gr t = split_tag s.
Proof. intros C s t H. unfold mk_tag in H. apply bind_ok in H as (x & _ & H). apply Ok_inj in H. subst t. reflexivity. Qed.
Lemma mk_tag_small : forall C s t, (length (split_tag s) <? 20) = true -> mk_tag C s = Ok t -> small t.
Proof. intros C s t L H. apply small20. rewrite (mk_tag_gr _ _ _ H). exact L. Qed.
Lemma shipped_pattern : forall M i b tm first letters pat sc, shipped_units M -> nth_error (m_units M) i = Some (b, tm) -> b_cfg b = UInit first letters pat sc ->
  (first = true /\ pat = name_pattern) \/ (first = false /\ pat = patr_pattern).
Proof.
  intros M i b tm first letters pat sc H N Eb.
  assert (X : exists items C C', init_units C items = Ok (C', m_units M) /\ (items = RU_DEFAULT_UNITS \/ items = UK_DEFAULT_UNITS)).
  { destruct H as [(C & C' & H)|(C & C' & H)]; [exists RU_DEFAULT_UNITS|exists UK_DEFAULT_UNITS]; exists C, C'; auto. }
  destruct X as (items & C & C' & X & I).
  assert (T : In (UInit first letters pat sc) (flat_map (fun it => map fst (with_terminal it)) items)).
  { apply L_Groups.terminal_flags in X as [X _].
    assert (T : In (b_cfg b) (map fst (flat_map with_terminal items))).
    { rewrite <- X, map_map. apply nth_error_In in N. apply in_map_iff. exists (b, tm). auto. }
    rewrite Eb in T. clear - T. induction items as [|it items IHi]; [destruct T|]. cbn [flat_map] in *. rewrite map_app in T.
    apply in_app_iff in T. apply in_app_iff. destruct T as [T|T]; [left|right]; auto. }
  destruct I as [-> | ->]; unfold RU_DEFAULT_UNITS, UK_DEFAULT_UNITS, ru_units, uk_units in T; cbn [flat_map with_terminal map fst removelast last app In] in T;
    repeat (destruct T as [T|T]; [try discriminate T; try (left; inversion T; split; reflexivity); try (right; inversion T; split; reflexivity)|]); destruct T.
Qed.
Lemma pattern_small : forall pat t, pat = name_pattern \/ pat = patr_pattern -> In t (tags_of_pattern pat) -> small t.
Proof.
  intros pat t P It. apply small20. assert (A : forallb (fun t => length (t_gr t) <? 20) (tags_of_pattern pat) = true) by (destruct P as [-> | ->]; vm_compute; reflexivity).
  rewrite forallb_forall in A. apply A. exact It.
Qed.
Lemma shipped_fit : forall M, shipped_units M -> In (u "masc") (tc_known (m_tc M)) -> units_fit M.
Proof.
  intros M H K.
  assert (TG : forall i b tm t, nth_error (m_units M) i = Some (b, tm) -> In t (b_tags b) -> small t).
  { intros i b tm t N It. destruct (unit_of_shipped M i b tm H N) as (C & C' & B). pose proof (shipped_pattern M i b tm) as SP.
    assert (SG : forall lat cyr (c : ucfg) (k : ucfg), (length (split_tag (u lat)) <? 20) = true -> (let* r := init_single C lat cyr in Ok (fst r, {| b_cfg := c; b_tags := [snd r]; b_masc := []; b_femn := [] |})) = Ok (C', b) -> small t).
    { intros lat cyr c k L E. apply bind_ok in E as (r & E1 & E). apply Ok_inj in E. injection E as _ E. unfold init_single in E1. apply bind_ok in E1 as (t0 & E0 & E1). apply Ok_inj in E1. subst r. cbn [snd] in E. rewrite <- E in It.
      cbn [b_tags] in It. destruct It as [<-|[]]. eapply mk_tag_small; eauto. }
    assert (SI : Ok (C, {| b_cfg := b_cfg b; b_tags := []; b_masc := []; b_femn := [] |}) = Ok (C', b) -> small t).
    { intros E. apply Ok_inj in E. injection E as _ E. rewrite <- E in It. destruct It. }
    destruct (b_cfg b) eqn:Eb; cbn [bind_unit] in B; try (exact (SI B)); try (refine (SG _ _ _ UUnkn _ B); vm_compute; reflexivity).
    - destruct (init_unit_tags _ _ _ _ _ _ _ _ eq_refl B) as [T _]. rewrite T in It. apply (pattern_small pattern t); [|exact It]. destruct (SP _ _ _ _ H N eq_refl) as [[_ P]|[_ P]]; [left|right]; exact P.
    - apply bind_ok in B as (t1 & E1 & B). apply bind_ok in B as (t2 & E2 & B). apply Ok_inj in B. injection B as _ B. rewrite <- B in It. cbn [b_tags] in It.
      destruct It as [<-|[<-|[]]]; [eapply mk_tag_small; [|exact E1]|eapply mk_tag_small; [|exact E2]]; vm_compute; reflexivity.
    - apply bind_ok in B as (t1 & E1 & B). apply Ok_inj in B. injection B as _ B. rewrite <- B in It. cbn [b_tags] in It.
      destruct It as [<-|[]]. eapply mk_tag_small; [|exact E1]. vm_compute; reflexivity. }
  split; [|exact TG|exact K]. intros i b tm N KI. split; [intros t It; exact (TG i b tm t N It)|].
  destruct (b_cfg b) as [|first letters pat sc| | | | | | | | | | |] eqn:Eb; try destruct KI. destruct (unit_of_shipped M i b tm H N) as (C & C' & B). rewrite Eb in B.
  destruct (init_unit_tags _ _ _ _ _ _ _ _ eq_refl B) as [T G]. destruct (shipped_pattern M i b tm _ _ _ _ H N Eb) as [[-> ->]|[-> ->]].
  - destruct (G eq_refl) as [-> ->]. split; [vm_compute; discriminate|]. split; [vm_compute; discriminate|].
    intros t It. apply (pattern_small name_pattern); [left; reflexivity|]. apply in_app_iff in It as [It|It]; apply filter_In in It as [It _]; exact It.
  - rewrite T. vm_compute. discriminate.
Qed.
Lemma shipped_first : forall M, shipped_units M -> unit_is M 0 (fun c => c = UDict).
Proof.
  intros M H.
  assert (X : exists items C C', init_units C items = Ok (C', m_units M) /\ (items = RU_DEFAULT_UNITS \/ items = UK_DEFAULT_UNITS)).
  { destruct H as [(C & C' & H)|(C & C' & H)]; [exists RU_DEFAULT_UNITS|exists UK_DEFAULT_UNITS]; exists C, C'; auto. }
  destruct X as (items & C & C' & X & I). apply L_Groups.terminal_flags in X as [X _].
  assert (Hd : forall (A : Type) (l m : list A), l = m -> hd_error l = hd_error m) by (intros A l m ->; reflexivity).
  apply Hd in X. assert (HI : hd_error (map fst (flat_map with_terminal items)) = Some UDict) by (destruct I as [-> | ->]; reflexivity).
  destruct (m_units M) as [|[b tm] r] eqn:E.
  - assert (Y : hd_error (map fst (flat_map with_terminal items)) = None) by (destruct (flat_map with_terminal items); [reflexivity|discriminate X]). rewrite Y in HI. discriminate HI.
  - exists b, tm. split; [rewrite E; reflexivity|]. destruct (flat_map with_terminal items) as [|[c t] l]; [discriminate X|]. cbn in X, HI. injection X as X _. injection HI as HI. congruence.
Qed.

Lemma known_fits : forall M prefix ps p, wf_dict (m_dict M) -> modest_tags (m_dict M) -> unit_is M 0 (fun c => c = UDict) -> iter_known_word_parses M prefix = Ok ps -> In p ps -> fits M p.
Proof.
  intros M prefix ps p W MT U H Hp. unfold iter_known_word_parses in H. apply bind_ok in H as (l & E & H). apply Ok_inj in H. subst ps.
  apply in_map_iff in Hp as ([[[[w t] nf] para] idx] & <- & Hx). unfold iter_known_words in E. eapply mapM_In in E as ([w0 [para0 idx0]] & Hw & E); eauto.
  apply bind_ok in E as (t' & Et & E). apply bind_ok in E as (nf' & En & E). apply Ok_inj in E. injection E as -> -> -> -> ->.
  assert (V : valid_form (m_dict M) para idx).
  { unfold iteritems in Hw. apply in_flat_map in Hw as ([w1 vals] & Hw & Hv). destruct W as (_ & WW & _). 
    cbn [fst snd] in Hv. destruct (prefixb prefix w1); [|destruct Hv]. apply in_map_iff in Hv as (v & Ev & Iv). injection Ev as -> ->. eapply WW; eauto. }
  apply F_tame; cbn [p_stack p_tag]; [apply T_dict; [exact U|exact V]|].
  destruct (tot_tag_info _ W _ _ V) as (t2 & E' & I'). rewrite Et in E'. apply Ok_inj in E'. subst t2. apply MT. exact I'.
Qed.

Lemma get_lexeme_fits : forall M p, wf_dict (m_dict M) -> modest_tags (m_dict M) -> units_fit M -> fits M p ->
  (exists lex, get_lexeme M p = Ok lex /\ lex <> [] /\ forall f, In f lex -> fits M f) /\ (exists q, normalized M p = Ok q /\ fits M q).
Proof.
  intros M p W MT UF F. destruct (fits_last _ _ F) as (who & LU). unfold get_lexeme, normalized. rewrite LU. cbn [bind].
  destruct (fits_lex M W MT UF p F (S (stack_size (p_stack p))) who ltac:(lia) LU) as [A B]. split; [exact A|exact B].
Qed.
Lemma obtainable_fits : forall M, shipped_units M -> wf_dict (m_dict M) -> modest_tags (m_dict M) -> In (u "masc") (tc_known (m_tc M)) -> lower_stable (m_uni M) ->
  forall p, obtainable M p -> fits M p.
Proof.
  intros M H W MT K LS p O. pose proof (shipped_fit M H K) as UF. induction O as [word ps p P I|pre ps p P I|p lex f O IH L I|p q O IH Q|p req q O IH Q].
  - eapply parse_fits; eauto.
  - eapply known_fits; eauto. apply shipped_first; auto.
  - destruct (get_lexeme_fits M p W MT UF IH) as [(lex' & E & _ & A) _]. rewrite L in E. apply Ok_inj in E. subst lex'. auto.
  - destruct (get_lexeme_fits M p W MT UF IH) as [_ (q' & E & A)]. rewrite Q in E. apply Ok_inj in E. subst q'. auto.
  - destruct (get_lexeme_fits M p W MT UF IH) as [(lex' & E & _ & A) _]. destruct (inflect_sound _ _ _ _ Q) as (lex & L & I & _). rewrite L in E. apply Ok_inj in E. subst lex'. auto.
Qed.

Lemma obtainable_total : forall M p, shipped_units M -> wf_dict (m_dict M) -> modest_tags (m_dict M) -> In (u "masc") (tc_known (m_tc M)) -> lower_stable (m_uni M) ->
  obtainable M p ->
  (exists lex, get_lexeme M p = Ok lex /\ lex <> []) /\ (exists q, normalized M p = Ok q) /\
  (commons_known (m_tc M) -> forall req, (forall g, In g req -> In g (tc_known (m_tc M))) -> exists r, inflect M p req = Ok r).
Proof.
  intros M p H W MT K LS O. pose proof (obtainable_fits M H W MT K LS p O) as F. destruct (get_lexeme_fits M p W MT (shipped_fit M H K) F) as [(lex & L & NE & _) (q & Q & _)].
  split; [exists lex; auto|]. split; [exists q; exact Q|]. intros CK req KR.
  assert (KN : tc_known (m_tc M) <> []) by (intros E; rewrite E in K; destruct K).
  destruct (inflect_known M p req lex L KN) as (used & U & A & _). apply A. intros g Ig. destruct U as [[-> _]|[U _]]; [auto|].
  apply U in Ig as (g0 & I0 & [R|[-> _]]); [exact (CK _ _ R)|auto].
Qed.
Lemma obtainable_members : forall M p lex, shipped_units M -> wf_dict (m_dict M) -> modest_tags (m_dict M) -> In (u "masc") (tc_known (m_tc M)) -> lower_stable (m_uni M) ->
  obtainable M p -> get_lexeme M p = Ok lex -> forall f, In f lex -> exists lex', get_lexeme M f = Ok lex' /\ lex' <> [].
Proof. intros M p lex H W MT K LS O L f I. apply (obtainable_total M f H W MT K LS). eapply ob_member; eauto. Qed.
