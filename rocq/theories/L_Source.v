(** * Every tag comes from the dictionary or from a unit *)
From Coq Require Import String List NArith ZArith Bool QArith Lia.
From Verif Require Import Py Uni Tagset Dawg Utils Shapes Dict Units Analyzer Spec Spec6 L_Base L_Made L_Tagset L_Units.
Import ListNotations.
Local Open Scope nat_scope.
Local Open Scope list_scope.

Lemma nth_res_In : forall {A} (l : list A) i x, nth_res l i = Ok x -> In x l.
Proof. intros A l i x H. unfold nth_res in H. destruct (nth_error l i) eqn:E; [|discriminate H]. apply Ok_inj in H. subst. eapply nth_error_In; eauto. Qed.
Lemma tag_info_source : forall M para idx t, build_tag_info (m_dict M) para idx = Ok t -> tag_source M t.
Proof.
  intros M para idx t H. unfold build_tag_info in H. apply bind_ok in H as (p & _ & H). apply bind_ok in H as (tid & _ & H).
  left. eapply nth_res_In; eauto.
Qed.
Lemma unit_source : forall M i b tm t, nth_error (m_units M) i = Some (b, tm) -> In t (b_tags b) -> tag_source M t.
Proof. intros M i b tm t H I. right. exists b, tm. split; [eapply nth_error_In; eauto|apply in_or_app; auto]. Qed.
Lemma shape_source : forall U b w t, shape_tag U b w = Ok (Some t) -> In t (b_tags b).
Proof.
  intros U b w t H.
  assert (forall k, rmap Some (nth_res (b_tags b) k) = Ok (Some t) -> In t (b_tags b)) as X.
  { intros k E. destruct (nth_res (b_tags b) k) eqn:F; [|discriminate E]. simpl in E. apply Ok_inj in E. injection E as ->. eapply nth_res_In; eauto. }
  unfold shape_tag in H. destruct (b_cfg b); try discriminate H.
  - destruct (number_shape U w) as [[]|]; eauto; discriminate H.
  - destruct (is_punctuation U w); eauto; discriminate H.
  - destruct (is_latin U w) as [[]|]; simpl in H; eauto; discriminate H.
  - destruct (is_roman_number w); eauto; discriminate H.
Qed.
Lemma parse_source_f : forall n M word ps p, parse_f n M word = Ok ps -> In p ps -> tag_source M (p_tag p).
Proof.
  induction n as [|n IH]; intros M word ps p H Hp; [discriminate H|].
  destruct (parse_f_made _ _ _ _ _ H Hp) as (i & b & tm & p0 & q & Hn & Md & ->). cbn [with_score p_tag].
  destruct Md; cbn [p_tag suffixed both_parse fixed_left_parse prefixed]; eauto using unit_source, shape_source, nth_error_In.
  - destruct H1 as (w & vals & para & idx & nf & t & _ & _ & _ & _ & T & ->). cbn [p_tag]. eapply tag_info_source; eauto.
  - destruct H2 as (w & vals & para & idx & nf & t & _ & _ & _ & _ & T & ->). cbn [p_tag]. eapply tag_info_source; eauto.
  - destruct H2 as (pid & pre & dawg & j & fs & vals & cnt & para & idx & t & nf & total & H2).
    destruct H2 as (_ & _ & _ & _ & _ & _ & _ & T & _ & _ & _ & ->). cbn [p_tag]. eapply tag_info_source; eauto.
Qed.

(** lexemes *)
Definition lex_source (M : morph) (r : res (list parse)) : Prop := forall l f, r = Ok l -> In f l -> tag_source M (p_tag f).
Lemma para_info_source : forall M para infos pre t suf, build_paradigm_info (m_dict M) para = Ok infos -> In (pre, t, suf) infos -> tag_source M t.
Proof.
  intros M para infos pre t suf H I. unfold build_paradigm_info in H. apply bind_ok in H as (p & _ & H).
  destruct (mapM_In _ _ _ _ H I) as (idx & _ & E).
  repeat (apply bind_ok in E as (? & ? & E)). apply Ok_inj in E. injection E as -> -> ->. eapply tag_info_source; eauto.
Qed.
Lemma dict_lexeme_source : forall M self form, lex_source M (dict_lexeme M self form).
Proof.
  intros M self form l f H I. unfold dict_lexeme in H. apply bind_ok in H as ([[w para] idx] & _ & H).
  apply bind_ok in H as (p & _ & H). apply bind_ok in H as (stem & _ & H). apply bind_ok in H as (infos & E & H). apply Ok_inj in H. subst l.
  apply in_map_iff in I as ([index [[pre t] suf]] & <- & I). cbn [p_tag]. apply enum_In in I. eapply para_info_source; [exact E|].
  eapply nth_error_In. exact I.
Qed.
Lemma gender_source : forall M i b tm t ts x, nth_error (m_units M) i = Some (b, tm) -> gender_tags M b t = Ok ts -> In x ts -> tag_source M x.
Proof.
  intros M i b tm t ts x N H I. unfold gender_tags in H. apply bind_ok in H as (m & _ & H). apply Ok_inj in H. subst ts.
  right. exists b, tm. split; [eapply nth_error_In; eauto|]. rewrite !in_app_iff. destruct m; auto.
Qed.
Lemma closest_tag : forall r ls best cur l, closest r ls best cur = Some l -> cur = Some l \/ In l ls.
Proof.
  induction ls as [|x ls IH]; intros best cur l H; simpl in H; [auto|].
  destruct (_ <? _)%N; apply IH in H as [H|H]; simpl; auto. injection H as ->. auto.
Qed.
Lemma lexeme_source_f : forall n M who form, tag_source M (p_tag form) -> lex_source M (lexeme_f n M who form).
Proof.
  induction n as [|n IH]; intros M who form HF l f H I; [discriminate H|]. cbn [lexeme_f] in H.
  destruct who as [i|i]; [|eapply dict_lexeme_source; eauto].
  apply bind_ok in H as ([b tm] & N & H). cbn [fst] in H.
  assert (nth_error (m_units M) i = Some (b, tm)) as N'. { unfold nth_res in N. destruct (nth_error (m_units M) i); [apply Ok_inj in N; congruence|discriminate N]. }
  assert (forall (undec dec : str -> parse -> parse) na,
    (forall a x, p_tag (undec a x) = p_tag x) -> (forall a x, p_tag (dec a x) = p_tag x) ->
    (let* mi := method_info (p_stack form) in let '(base, this) := mi in
     let* a := if (na : bool) then method_arg1 this else Ok [] in
     let* fs := lexeme_f n M (m_unit base) (without_last_method (undec a form)) in
     Ok (map (fun x => append_method (dec a x) this) fs)) = Ok l -> tag_source M (p_tag f)) as AN.
  { intros undec dec na U D E. apply bind_ok in E as ([base this] & _ & E). apply bind_ok in E as (a & _ & E).
    apply bind_ok in E as (fs & E1 & E). apply Ok_inj in E. subst l. apply in_map_iff in I as (x & <- & I).
    unfold append_method, replace_methods_stack. cbn [p_tag]. rewrite D.
    eapply IH; [|exact E1|exact I]. unfold without_last_method, replace_methods_stack. cbn [p_tag]. rewrite U. exact HF. }
  destruct (b_cfg b) as [|first letters pat sc|sc|sc|sc|sc|parts mult|mult|skip mult|pfx mult mr|mult|mult ml|].
  - eapply dict_lexeme_source; eauto.
  - destruct first.
    + apply bind_ok in H as (ts & G & H). apply Ok_inj in H. subst l. apply in_map_iff in I as (t & <- & I). cbn [with_tag p_tag]. eapply gender_source; eauto.
    + apply Ok_inj in H. subst l. apply in_map_iff in I as (t & <- & I). cbn [with_tag p_tag]. eapply unit_source; eauto.
  - apply Ok_inj in H. subst l. destruct I as [<-|[]]. exact HF.
  - apply Ok_inj in H. subst l. destruct I as [<-|[]]. exact HF.
  - apply Ok_inj in H. subst l. destruct I as [<-|[]]. exact HF.
  - apply Ok_inj in H. subst l. destruct I as [<-|[]]. exact HF.
  - apply (AN (fun a x => without_fixed_suffix x (length a)) (fun a x => with_suffix x a) true); [reflexivity|reflexivity|exact H].
  - apply Ok_inj in H. subst l. destruct I as [<-|[]]. exact HF.
  - (* hyphenated *)
    apply bind_ok in H as (dl & HF2 & H). unfold sequence in H. destruct (mapM_In _ _ _ _ H I) as (rf & J & Er). subst rf.
    unfold hyph_forms in HF2. destruct (p_stack form) as [|m [|m2 r]]; try discriminate HF2.
    2:{ destruct m; discriminate HF2. }
    destruct m as [| |r lw rs|r lsk rsk]; try discriminate HF2.
    + destruct (negb (uref_eqb r (Root i))); [discriminate HF2|].
      apply bind_ok in HF2 as (base & _ & HF2). apply bind_ok in HF2 as (fs & E & HF2). apply Ok_inj in HF2. subst dl.
      apply in_map_iff in J as (x & Ex & J). apply Ok_inj in Ex. subst f. unfold replace_methods_stack, with_prefix. cbn [p_tag].
      eapply IH; [|exact E|exact J]. exact HF.
    + destruct (negb (uref_eqb r (Root i))); [discriminate HF2|].
      apply bind_ok in HF2 as (lf & E1 & HF2). apply bind_ok in HF2 as (rf & E2 & HF2).
      apply bind_ok in HF2 as (lu & _ & HF2). apply bind_ok in HF2 as (ll & E3 & HF2).
      apply bind_ok in HF2 as (ru & _ & HF2). apply bind_ok in HF2 as (rl & E4 & HF2). apply Ok_inj in HF2. subst dl.
      apply in_map_iff in J as (x & Ex & J). unfold merge1 in Ex. destruct (closest x ll 1000000 None) as [lx|] eqn:Cl; [|discriminate Ex].
      apply Ok_inj in Ex. subst f. cbn [p_tag]. apply closest_tag in Cl as [Cl|Cl]; [discriminate Cl|].
      eapply IH; [|exact E3|exact Cl]. unfold without_right_part in E1. apply bind_ok in E1 as (? & _ & E1). apply bind_ok in E1 as (? & _ & E1).
      apply Ok_inj in E1. subst lf. exact HF.
  - apply (AN (fun a x => without_fixed_prefix x (length a)) (fun a x => with_prefix x a) true); [reflexivity|reflexivity|exact H].
  - apply (AN (fun a x => without_fixed_prefix x (length a)) (fun a x => with_prefix x a) true); [reflexivity|reflexivity|exact H].
  - apply (AN (fun _ x => x) (fun _ x => x) false); [reflexivity|reflexivity|exact H].
  - apply Ok_inj in H. subst l. destruct I as [<-|[]]. exact HF.
Qed.
Lemma tags_have_source : forall M word ps p, morph_parse M word = Ok ps -> In p ps -> tag_source M (p_tag p) /\
  forall lex f, get_lexeme M p = Ok lex -> In f lex -> tag_source M (p_tag f).
Proof.
  intros M word ps p H I. pose proof (parse_source_f _ _ _ _ _ H I) as S. split; [exact S|].
  intros lex f G J. unfold get_lexeme in G. apply bind_ok in G as (who & _ & G). exact (lexeme_source_f _ _ _ _ S _ _ G J).
Qed.

(** tags built at construction have only known grammemes *)
Lemma mapM_mk_known : forall C l ts t, mapM (mk_tag C) l = Ok ts -> In t ts -> t_gr t = split_tag (t_str t) /\ forall g, In g (t_gr t) -> In g (tc_known C).
Proof.
  intros C l ts t H I. destruct (mapM_In _ _ _ _ H I) as (s & _ & E). apply mk_tag_ok in E as (E1 & E2 & E3). rewrite E1. auto.
Qed.
Lemma filterM_In : forall {A} (f : A -> res bool) l r x, filterM f l = Ok r -> In x r -> In x l.
Proof.
  induction l as [|y l IH]; simpl; intros r x H I; [apply Ok_inj in H; subst; destruct I|].
  apply bind_ok in H as (b & _ & H). apply bind_ok in H as (r' & E & H). apply Ok_inj in H. subst r. destruct b; [destruct I as [->|I]; auto|]; right; eauto.
Qed.
Lemma bind_unit_sound : forall C c C' b t, bind_unit C c = Ok (C', b) -> In t (b_tags b ++ b_masc b ++ b_femn b) ->
  t_gr t = split_tag (t_str t) /\ forall g, In g (t_gr t) -> In g (tc_known C').
Proof.
  intros C c C' b t H It.
  assert (forall C0 s x, mk_tag C0 s = Ok x -> t_gr x = split_tag (t_str x) /\ forall g, In g (t_gr x) -> In g (tc_known C0)) as MK.
  { intros C0 s x E. apply mk_tag_ok in E as (E1 & E2 & E3). rewrite E1. auto. }
  destruct c as [|first letters pat sc|sc|sc|sc|sc|parts mult|mult|skip mult|pfx mult mr|mult|mult ml|]; cbn [bind_unit] in H;
    try (apply Ok_inj in H; inversion H; subst; destruct It; fail).
  - apply bind_ok in H as (tags & G & H). unfold gender_case_tags in G. destruct first.
    + apply bind_ok in H as (masc & E1 & H). apply bind_ok in H as (femn & E2 & H). apply bind_ok in H as (? & _ & H).
      apply Ok_inj in H. inversion H; subst. cbn [b_tags b_masc b_femn] in It. rewrite !in_app_iff in It.
      assert (In t tags) as J by (destruct It as [J|[J|J]]; eauto using filterM_In).
      destruct (mapM_In _ _ _ _ G J) as (gc & _ & E). exact (MK _ _ _ E).
    + apply Ok_inj in H. inversion H; subst. cbn [b_tags b_masc b_femn] in It. rewrite !app_nil_r in It.
      destruct (mapM_In _ _ _ _ G It) as (gc & _ & E). exact (MK _ _ _ E).
  - apply bind_ok in H as (t1 & E1 & H). apply bind_ok in H as (t2 & E2 & H). apply Ok_inj in H. inversion H; subst. cbn [b_tags b_masc b_femn app] in It.
    destruct It as [<-|[<-|[]]]; eauto.
  - apply bind_ok in H as ([C1 x] & E & H). apply Ok_inj in H. inversion H; subst. apply bind_ok in E as (y & E & F). apply Ok_inj in F. inversion F; subst.
    cbn [b_tags b_masc b_femn app snd] in It. destruct It as [<-|[]]. exact (MK _ _ _ E).
  - apply bind_ok in H as ([C1 x] & E & H). apply Ok_inj in H. inversion H; subst. apply bind_ok in E as (y & E & F). apply Ok_inj in F. inversion F; subst.
    cbn [b_tags b_masc b_femn app snd] in It. destruct It as [<-|[]]. exact (MK _ _ _ E).
  - apply bind_ok in H as ([C1 x] & E & H). apply Ok_inj in H. inversion H; subst. apply bind_ok in E as (y & E & F). apply Ok_inj in F. inversion F; subst.
    cbn [b_tags b_masc b_femn app snd] in It. destruct It as [<-|[]]. exact (MK _ _ _ E).
  - apply bind_ok in H as (x & E & H). apply Ok_inj in H. inversion H; subst. cbn [b_tags b_masc b_femn app snd] in It. destruct It as [<-|[]]. exact (MK _ _ _ E).
  - apply bind_ok in H as ([C1 x] & E & H). apply Ok_inj in H. inversion H; subst. apply bind_ok in E as (y & E & F). apply Ok_inj in F. inversion F; subst.
    cbn [b_tags b_masc b_femn app snd] in It. destruct It as [<-|[]]. exact (MK _ _ _ E).
Qed.
Lemma bind_all_sound : forall l C C' us b tm t, bind_all C l = Ok (C', us) -> In (b, tm) us -> In t (b_tags b ++ b_masc b ++ b_femn b) ->
  t_gr t = split_tag (t_str t) /\ forall g, In g (t_gr t) -> In g (tc_known C').
Proof.
  induction l as [|[c bb] l IH]; intros C C' us b tm t H I J; simpl in H.
  - apply Ok_inj in H. inversion H; subst. destruct I.
  - apply bind_ok in H as ([C1 x] & E1 & H). apply bind_ok in H as ([C2 y] & E2 & H). apply Ok_inj in H. inversion H; subst. cbn [fst snd] in *.
    destruct I as [I|I]; [|eapply IH; eauto]. inversion I; subst. destruct (bind_unit_sound _ _ _ _ _ E1 J) as (A & B). split; [exact A|].
    intros g Hg. apply (bind_all_known _ _ _ _ E2). left. auto.
Qed.
Lemma constructed_tags : forall U ext C rows gt mk prob subst items C' M,
  construct U ext C rows gt mk prob subst items = Ok (C', M) -> (forall g, d_gramtab (mk g) = g) ->
  forall t, tag_source M t -> t_gr t = split_tag (t_str t) /\ forall g, In g (t_gr t) -> In g (tc_known (m_tc M)).
Proof.
  intros U ext C rows gt mk prob subst items C' M H K t S. unfold construct in H. apply bind_ok in H as (ts & E1 & H).
  apply bind_ok in H as ([C1 us] & E2 & H). apply Ok_inj in H. inversion H; subst. clear H. cbn [m_tc m_dict m_units fst snd] in *.
  unfold init_units in E2. apply bind_ok in E2 as (fl & _ & E2).
  destruct S as [S|(b & tm & I & J)].
  - cbn [m_dict] in S. rewrite K in S. destruct (mapM_mk_known _ _ _ _ E1 S) as (A & B). split; [exact A|]. intros g Hg. apply (bind_all_known _ _ _ _ E2). left. auto.
  - cbn [m_units] in I. eapply bind_all_sound; eauto.
Qed.
Lemma constructed_known : forall U ext C rows gt mk prob subst items C' M word ps p,
  construct U ext C rows gt mk prob subst items = Ok (C', M) -> (forall g, d_gramtab (mk g) = g) ->
  morph_parse M word = Ok ps -> In p ps ->
  (forall g, In g (t_gr (p_tag p)) -> In g (tc_known (m_tc M))) /\
  forall lex f g, get_lexeme M p = Ok lex -> In f lex -> In g (t_gr (p_tag f)) -> In g (tc_known (m_tc M)).
Proof.
  intros U ext C rows gt mk prob subst items C' M word ps p H K P I. destruct (tags_have_source _ _ _ _ P I) as (S & L).
  pose proof (constructed_tags _ _ _ _ _ _ _ _ _ _ _ H K) as X. split; [apply X; exact S|]. intros lex f g G J Hg. exact (proj2 (X _ (L _ _ G J)) g Hg).
Qed.
