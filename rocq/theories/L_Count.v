(** * Lemmas for C81, C82 *)
From Coq Require Import String List NArith ZArith Bool QArith Qround Lia.
From Verif Require Import Py Uni Tagset Dawg Dict Units Analyzer Spec Spec2 Spec20 Spec32 Counting.
From Verif Require Import L_Base L_Tagset L_Inflect L_LexParse L_Reach.
Import ListNotations.
Local Open Scope nat_scope.
Local Open Scope list_scope.

(** ** attributes *)
Lemma attr_only : forall pick cat t g, pick_ok pick -> the_only cat t g -> attr pick cat t = Some g.
Proof.
  intros pick cat t g P (A & B & D). unfold attr. specialize (P (sinter cat (t_gr t))). destruct (pick (sinter cat (t_gr t))) as [x|].
  - f_equal. unfold sinter in P. apply filter_In in P as [X Y]. apply D; [exact X|apply smem_In; exact Y].
  - assert (X : In g (sinter cat (t_gr t))) by (unfold sinter; apply filter_In; split; [exact A|apply smem_In; exact B]). rewrite P in X. destruct X.
Qed.
Lemma attr_none : forall pick cat t, pick_ok pick -> (forall g, In g cat -> ~ In g (t_gr t)) -> attr pick cat t = None.
Proof.
  intros pick cat t P N. unfold attr. specialize (P (sinter cat (t_gr t))). destruct (pick (sinter cat (t_gr t))) as [x|]; [|reflexivity].
  unfold sinter in P. apply filter_In in P as [X Y]. apply smem_In in Y. destruct (N x X Y).
Qed.
Lemma only_same : forall cat t g x, the_only cat t g -> In x cat -> In x (t_gr t) -> g = x.
Proof. intros cat t g x (_ & _ & D) I J. symmetry. apply D; assumption. Qed.
Lemma number_case : In (u "sing") NUMBERS /\ In (u "plur") NUMBERS. Proof. split; apply smem_In; vm_compute; reflexivity. Qed.
Lemma sing_plur : forall t m, the_only NUMBERS t m -> In (u "sing") (t_gr t) -> In (u "plur") (t_gr t) -> False.
Proof.
  intros t m O A B. assert (X := only_same _ _ _ _ O (proj1 number_case) A). assert (Y := only_same _ _ _ _ O (proj2 number_case) B).
  rewrite X in Y. vm_compute in Y. discriminate Y.
Qed.
Lemma agree_req : forall pick M p n req, numeral_agreement pick (p_tag p) n = map Some req -> make_agree_with_number pick M p n = inflect M p req.
Proof. intros pick M p n req H. unfold make_agree_with_number, inflect_opt. rewrite H. rewrite (proj2 (all_some_spec (map Some req) req) eq_refl). reflexivity. Qed.
(** a form that has what it is asked for keeps its grammemes, if those that the requirement excludes are shared by all candidates *)
Lemma slen_incl : forall a b : sset, incl a b -> slen a <= slen b.
Proof. intros a b H. unfold slen. apply NoDup_incl_length; [apply snodup_NoDup|]. intros x Hx. rewrite snodup_In in *. apply H. exact Hx. Qed.
Lemma slen_incl_eq : forall a b : sset, incl a b -> slen b <= slen a -> incl b a.
Proof.
  intros a b H L x Hx. unfold slen in L. assert (X : incl (snodup b) (snodup a)).
  { apply NoDup_length_incl; [apply snodup_NoDup|exact L|]. intros y Hy. rewrite snodup_In in *. apply H. exact Hy. }
  apply snodup_In. apply X. apply snodup_In. exact Hx.
Qed.
Lemma inflect_keeps : forall M p req lex, get_lexeme M p = Ok lex ->
  (forall g, In g req -> In g (tc_known (m_tc M))) ->
  (exists f0, In f0 lex /\ forall x, In x (t_gr (p_tag f0)) <-> In x (t_gr (p_tag p))) ->
  has req p ->
  (forall g x, In g req -> In x (t_gr (p_tag p)) -> In x (incompat_of (m_tc M) g) -> forall h, In h lex -> has req h -> In x (t_gr (p_tag h))) ->
  exists f, inflect M p req = Ok (Some f) /\ In f lex /\ forall x, In x (t_gr (p_tag f)) <-> In x (t_gr (p_tag p)).
Proof.
  intros M p req lex L K (f0 & Hf0 & S0) I NI. destruct (inflect_shape M p req lex L) as (used & U & E).
  assert (used = req).
  { destruct U as [[-> _]|[_ U2]]; auto. destruct (U2 f0 Hf0). intros g Hg. apply S0. auto. }
  subst used. destruct (updated_ok (m_tc M) (p_tag p) req K) as (want & W). rewrite W in E. cbn [bind] in E.
  assert (EW : forall x, In x want <-> In x (t_gr (p_tag p)) /\ forall g, In g req -> ~ In x (incompat_of (m_tc M) g)).
  { intro x. rewrite (updated_spec _ _ _ _ W x). split; [intros [[?|?] ?]; split; auto|]. intros [? ?]. split; auto. }
  assert (C0 : In f0 (filter (has_all req) lex)).
  { apply filter_In. split; auto. apply has_all_has. intros g Hg. apply S0. auto. }
  destruct (max_first (fun a b => Qgtb (similarity want a) (similarity want b)) (filter (has_all req) lex)) as [f|] eqn:X.
  2:{ destruct (filter (has_all req) lex); [destruct C0|discriminate X]. }
  exists f. split; [exact E|]. pose proof (max_first_closest _ _ _ X) as (i & N & F).
  assert (Hf : In f (filter (has_all req) lex)) by (eapply nth_error_In; eauto). apply filter_In in Hf as [If HA]. apply has_all_has in HA. split; [exact If|].
  apply In_nth_error in C0 as (j & Nj). destruct (F j f0 _ _ Nj (zclose_closeness want f) (zclose_closeness want f0)) as [Le _].
  unfold zclose in Le. set (R := filter (fun x => negb (smem x want)) (t_gr (p_tag p))).
  assert (RI : forall x, In x R <-> In x (t_gr (p_tag p)) /\ ~ In x want).
  { intro x. unfold R. rewrite filter_In, negb_true_iff. split; intros [A B]; (split; [exact A|]).
    - intro Z. apply (proj2 (smem_In _ _)) in Z. congruence.
    - destruct (smem x want) eqn:Z; [|reflexivity]. destruct B. apply smem_In. exact Z. }
  assert (RH : forall h, In h lex -> has req h -> forall x, In x R -> In x (t_gr (p_tag h))).
  { intros h Ih Hh x Hx. apply RI in Hx as [A B].
    destruct (existsb (fun g => smem x (incompat_of (m_tc M) g)) req) eqn:Z.
    - apply existsb_exists in Z as (g & G1 & G2). apply smem_In in G2. exact (NI g x G1 A G2 h Ih Hh).
    - destruct B. apply EW. split; [exact A|]. intros g G1 G2. assert (Y : existsb (fun g => smem x (incompat_of (m_tc M) g)) req = true) by (apply existsb_exists; exists g; split; [exact G1|apply smem_In; exact G2]). congruence. }
  assert (D0 : incl (ssymdiff want (t_gr (p_tag f0))) R).
  { intros x Hx. unfold ssymdiff, sdiff in Hx. apply RI. apply in_app_iff in Hx as [Hx|Hx]; apply filter_In in Hx as [H1 H2]; apply negb_true_iff in H2.
    - exfalso. apply EW in H1 as [H1 _]. apply S0 in H1. apply (proj2 (smem_In _ _)) in H1. congruence.
    - split; [apply S0; exact H1|]. intro Z. apply (proj2 (smem_In _ _)) in Z. congruence. }
  assert (D1 : incl R (ssymdiff want (t_gr (p_tag f)))).
  { intros x Hx. unfold ssymdiff, sdiff. apply in_app_iff. right. apply filter_In. split; [exact (RH f If HA x Hx)|]. apply RI in Hx as [_ Hx]. apply negb_true_iff.
    destruct (smem x want) eqn:Z; [|reflexivity]. destruct Hx. apply smem_In. exact Z. }
  assert (C1 : incl (sinter want (t_gr (p_tag f))) want) by (intros x Hx; unfold sinter in Hx; apply filter_In in Hx; tauto).
  assert (C2 : incl want (sinter want (t_gr (p_tag f0)))).
  { intros x Hx. unfold sinter. apply filter_In. split; [exact Hx|]. apply smem_In. apply S0. apply EW in Hx. tauto. }
  assert (L0 := slen_incl _ _ D0). assert (L1 := slen_incl _ _ D1). assert (L2 := slen_incl _ _ C1). assert (L3 := slen_incl _ _ C2).
  assert (Y1 := slen_incl_eq _ _ C1 ltac:(lia)). assert (Y2 := slen_incl_eq _ _ D1 ltac:(lia)).
  intro x. split; intro Hx.
  - destruct (smem x want) eqn:Z; [apply smem_In in Z; apply EW in Z; tauto|].
    assert (Q : In x R). { apply Y2. unfold ssymdiff, sdiff. apply in_app_iff. right. apply filter_In. split; [exact Hx|rewrite Z; reflexivity]. }
    apply RI in Q. tauto.
  - destruct (smem x want) eqn:Z.
    + apply smem_In in Z. apply Y1 in Z. unfold sinter in Z. apply filter_In in Z as [_ Z]. apply smem_In. exact Z.
    + apply (RH f If HA). apply RI. split; [exact Hx|]. intro V. apply (proj2 (smem_In _ _)) in V. congruence.
Qed.
Lemma agree_keep : forall pick M f n req lex, get_lexeme M f = Ok lex -> In f lex -> coherent (m_tc M) lex (p_tag f) ->
  numeral_agreement pick (p_tag f) n = map Some req -> has req f ->
  exists g, make_agree_with_number pick M f n = Ok (Some g) /\ In g lex /\ alike_forms f g.
Proof.
  intros pick M f n req lex L I CO E H. rewrite (agree_req _ _ _ _ _ E).
  destruct (inflect_keeps M f req lex L) as (g & G1 & G2 & G3).
  - intros x X. apply CO. apply H. exact X.
  - exists f. split; [exact I|]. intro x; tauto.
  - exact H.
  - intros g x X Y Z h Ih Hh. destruct (CO g (H g X)) as (_ & W). apply (W x Y Z h Ih). apply Hh. exact X.
  - exists g. split; [exact G1|]. split; [exact G2|]. intro x. symmetry. apply G3.
Qed.
(** which requirement the result satisfies *)
Lemma agree_used : forall pick M p n f lex a c, get_lexeme M p = Ok lex -> numeral_agreement pick (p_tag p) n = [Some a; Some c] ->
  fix_rare1 a = a -> make_agree_with_number pick M p n = Ok (Some f) ->
  In f lex /\ In a (t_gr (p_tag f)) /\ (In c (t_gr (p_tag f)) \/ In (fix_rare1 c) (t_gr (p_tag f))).
Proof.
  intros pick M p n f lex a c L E FA H. change [Some a; Some c] with (map (@Some str) [a; c]) in E. rewrite (agree_req _ _ _ _ _ E) in H.
  destruct (inflect_sound _ _ _ _ H) as (lex' & L' & I & D). rewrite L in L'. injection L' as <-. split; [exact I|].
  destruct D as [D|(_ & req' & CM & D)].
  - split; [|left]; apply D; [left; reflexivity|right; left; reflexivity].
  - assert (X : forall g, In g [a; c] -> In (fix_rare1 g) (t_gr (p_tag f))).
    { intros g G. apply D. apply CM. apply (fix_commoned [a; c]). unfold fix_rare_cases. apply in_map. exact G. }
    split; [rewrite <- FA; apply X; left; reflexivity|right; apply X; right; left; reflexivity].
Qed.

(** ** nouns *)
Lemma fix_number : fix_rare1 (u "sing") = u "sing" /\ fix_rare1 (u "plur") = u "plur". Proof. split; vm_compute; reflexivity. Qed.
Lemma fix_case : forall c, In c CASES -> In (fix_rare1 c) CASES.
Proof.
  assert (X : forallb (fun c => smem (fix_rare1 c) CASES) CASES = true) by (vm_compute; reflexivity).
  intros c I. rewrite forallb_forall in X. apply smem_In. exact (X c I).
Qed.
Lemma oblique_facts : forall c, oblique c -> ~ direct c /\ oblique (fix_rare1 c) /\ In c CASES.
Proof.
  assert (X : forallb (fun c => negb (str_eqb c (u "nomn")) && negb (str_eqb c (u "accs")) && smem (fix_rare1 c) (map u ["gent"; "datv"; "ablt"; "loct"; "gen1"; "gen2"; "loc1"; "loc2"]%string) && smem c CASES)
    (map u ["gent"; "datv"; "ablt"; "loct"; "gen1"; "gen2"; "loc1"; "loc2"]%string) = true) by (vm_compute; reflexivity).
  intros c I. rewrite forallb_forall in X. specialize (X c I). apply andb_prop in X as [X D]. apply andb_prop in X as [X C]. apply andb_prop in X as [A B].
  split; [|split; [unfold oblique; apply smem_In; exact C|apply smem_In; exact D]].
  apply negb_true_iff in A, B. intros [E|E]; subst c; [discriminate A|discriminate B].
Qed.
Lemma direct_facts : forall c, direct c -> fix_rare1 c = c /\ In c CASES.
Proof. intros c [-> | ->]; (split; [vm_compute; reflexivity|apply smem_In; vm_compute; reflexivity]). Qed.
Lemma gent_facts : oblique (u "gent") /\ In (u "gent") CASES /\ fix_rare1 (u "gent") = u "gent".
Proof. split; [left; reflexivity|]. split; [apply smem_In; vm_compute; reflexivity|vm_compute; reflexivity]. Qed.
Definition noun_with (t : tag) (c : str) : Prop := the_only PARTS_OF_SPEECH t (u "NOUN") /\ the_only CASES t c.
Lemma direct_dec : forall c, direct c \/ ~ direct c.
Proof. intro c. unfold direct. destruct (str_eqb c (u "nomn")) eqn:A; [apply str_eqb_eq in A; auto|]. destruct (str_eqb c (u "accs")) eqn:B; [apply str_eqb_eq in B; auto|].
  right. intros [E|E]; subst c; [rewrite str_eqb_refl in A; discriminate A|rewrite str_eqb_refl in B; discriminate B].
Qed.
Lemma noun_one : forall pick t c n, pick_ok pick -> noun_with t c -> like_1 n -> numeral_agreement pick t n = [Some (u "sing"); Some c].
Proof.
  intros pick t c n P (N & C) H. assert (EN := attr_only _ _ _ _ P N). assert (EC := attr_only _ _ _ _ P C). destruct (direct_dec c) as [D|D].
  - destruct (agree_noun_direct pick t n EN) as (A & B & _). { rewrite EC. destruct D as [-> | ->]; auto. }
    destruct D as [-> | ->]; [exact (A H EC)|exact (B H EC)].
  - destruct (agree_noun_oblique pick t n EN) as (A & _).
    + rewrite EC. intro E. injection E as E. apply D. left. exact E.
    + rewrite EC. intro E. injection E as E. apply D. right. exact E.
    + rewrite (A H), EC. reflexivity.
Qed.
Lemma noun_oblique : forall pick t c n, pick_ok pick -> noun_with t c -> ~ direct c -> ~ like_1 n -> numeral_agreement pick t n = [Some (u "plur"); Some c].
Proof.
  intros pick t c n P (N & C) D H. assert (EN := attr_only _ _ _ _ P N). assert (EC := attr_only _ _ _ _ P C).
  destruct (agree_noun_oblique pick t n EN) as (_ & A).
  - rewrite EC. intro E. injection E as E. apply D. left. exact E.
  - rewrite EC. intro E. injection E as E. apply D. right. exact E.
  - rewrite (A H), EC. reflexivity.
Qed.
Lemma noun_direct : forall pick t c n, pick_ok pick -> noun_with t c -> direct c ->
  (like_2 n -> numeral_agreement pick t n = [Some (u "sing"); Some (u "gent")]) /\ (like_5 n -> numeral_agreement pick t n = [Some (u "plur"); Some (u "gent")]).
Proof.
  intros pick t c n P (N & C) D. assert (EN := attr_only _ _ _ _ P N). assert (EC := attr_only _ _ _ _ P C).
  destruct (agree_noun_direct pick t n EN) as (_ & _ & A & B). { rewrite EC. destruct D as [-> | ->]; auto. } split; assumption.
Qed.
(** what is needed of the lexeme *)
Definition closed_lexeme (M : morph) (p : parse) (lex : list parse) : Prop :=
  get_lexeme M p = Ok lex /\ (forall h, In h lex -> get_lexeme M h = Ok lex).
Lemma two_of : forall a b f, In a (t_gr (p_tag f)) -> In b (t_gr (p_tag f)) -> has [a; b] f.
Proof. intros a b f A B g [<-|[<-|[]]]; assumption. Qed.
(** the case of the result *)
Lemma noun_result : forall pick M p n f lex a c, get_lexeme M p = Ok lex -> lexeme_of noun_tag (m_tc M) lex ->
  numeral_agreement pick (p_tag p) n = [Some a; Some c] -> In a NUMBERS -> In c CASES -> make_agree_with_number pick M p n = Ok (Some f) ->
  In f lex /\ In a (t_gr (p_tag f)) /\ exists cf, noun_with (p_tag f) cf /\ (cf = c \/ cf = fix_rare1 c).
Proof.
  intros pick M p n f lex a c L K E IA IC H.
  assert (FA : fix_rare1 a = a). { destruct IA as [<-|[<-|[]]]; apply fix_number. }
  destruct (agree_used pick M p n f lex a c L E FA H) as (I & A & D). split; [exact I|]. split; [exact A|].
  destruct (K f I) as (_ & N & (cf & C) & _). exists cf. split; [split; assumption|]. destruct D as [D|D].
  - left. apply (only_same CASES (p_tag f) cf c C IC D).
  - right. apply (only_same CASES (p_tag f) cf _ C (fix_case c IC) D).
Qed.
Lemma noun_again : forall pick M p n f lex c, pick_ok pick -> closed_lexeme M p lex -> lexeme_of noun_tag (m_tc M) lex -> noun_with (p_tag p) c ->
  make_agree_with_number pick M p n = Ok (Some f) -> like_1 n \/ (like_5 n /\ direct c) \/ oblique c ->
  exists g, make_agree_with_number pick M f n = Ok (Some g) /\ In g lex /\ alike_forms f g.
Proof.
  intros pick M p n f lex c P (L & CL) K Np H D. assert (IC : In c CASES) by (destruct Np as (_ & (X & _)); exact X).
  assert (X : exists a cf, In f lex /\ In a (t_gr (p_tag f)) /\ noun_with (p_tag f) cf /\ numeral_agreement pick (p_tag f) n = map Some [a; cf]).
  { destruct (proj1 (like_kinds n)) as [H1|H25].
    - destruct (noun_result pick M p n f lex _ _ L K (noun_one pick _ _ n P Np H1) (proj1 number_case) IC H) as (I & A & cf & Nf & _).
      exists (u "sing"), cf. split; [exact I|]. split; [exact A|]. split; [exact Nf|]. exact (noun_one pick _ _ n P Nf H1).
    - assert (NH : ~ like_1 n). { destruct (like_kinds n) as (_ & N2 & N3 & _). intro Z. destruct H25; tauto. }
      destruct D as [D|[(H5 & D)|D]]; [destruct (NH D)| |].
      + destruct (noun_result pick M p n f lex _ _ L K (proj2 (noun_direct pick _ _ n P Np D) H5) (proj2 number_case) (proj1 (proj2 gent_facts)) H) as (I & A & cf & Nf & E).
        assert (cf = u "gent") by (destruct E as [->|E]; [reflexivity|rewrite E; apply gent_facts]). subst cf.
        exists (u "plur"), (u "gent"). split; [exact I|]. split; [exact A|]. split; [exact Nf|]. apply (noun_oblique pick _ _ n P Nf); [apply (oblique_facts _ (proj1 gent_facts))|exact NH].
      + destruct (oblique_facts c D) as (ND & OF & _).
        destruct (noun_result pick M p n f lex _ _ L K (noun_oblique pick _ _ n P Np ND NH) (proj2 number_case) IC H) as (I & A & cf & Nf & E).
        exists (u "plur"), cf. split; [exact I|]. split; [exact A|]. split; [exact Nf|]. apply (noun_oblique pick _ _ n P Nf); [|exact NH].
        destruct E as [->| ->]; [exact ND|apply (oblique_facts _ OF)]. }
  destruct X as (a & cf & I & A & Nf & E). apply (agree_keep pick M f n [a; cf] lex (CL f I) I (proj1 (K f I)) E). apply two_of; [exact A|]. destruct Nf as (_ & (_ & X & _)). exact X.
Qed.
(** two, then two again *)
Lemma noun_two_again : forall pick M p n f lex c, pick_ok pick -> closed_lexeme M p lex -> lexeme_of noun_tag (m_tc M) lex -> noun_with (p_tag p) c ->
  make_agree_with_number pick M p n = Ok (Some f) -> like_2 n -> direct c ->
  has [u "sing"; u "gent"] f /\ forall g, make_agree_with_number pick M f n = Ok (Some g) -> In g lex /\ has [u "plur"; u "gent"] g /\ ~ alike_forms f g.
Proof.
  intros pick M p n f lex c P (L & CL) K Np H H2 D.
  destruct (noun_result pick M p n f lex _ _ L K (proj1 (noun_direct pick _ _ n P Np D) H2) (proj1 number_case) (proj1 (proj2 gent_facts)) H) as (I & A & cf & Nf & E).
  assert (cf = u "gent") by (destruct E as [->|E]; [reflexivity|rewrite E; apply gent_facts]). subst cf.
  split; [apply two_of; [exact A|destruct Nf as (_ & (_ & X & _)); exact X]|]. intros g G.
  assert (NH : ~ like_1 n). { destruct (like_kinds n) as (_ & N2 & _). tauto. }
  assert (NA := noun_oblique pick _ _ n P Nf (proj1 (oblique_facts _ (proj1 gent_facts))) NH).
  destruct (noun_result pick M f n g lex _ _ (CL f I) K NA (proj2 number_case) (proj1 (proj2 gent_facts)) G) as (Ig & Ag & cg & Ng & Eg).
  assert (cg = u "gent") by (destruct Eg as [->|Eg]; [reflexivity|rewrite Eg; apply gent_facts]). subst cg.
  split; [exact Ig|]. split; [apply two_of; [exact Ag|destruct Ng as (_ & (_ & X & _)); exact X]|].
  intro AL. destruct (K f I) as (_ & _ & _ & (m & O)). apply (sing_plur (p_tag f) m O A). apply AL. exact Ag.
Qed.
(** counting again, with another number *)
Lemma noun_recount : forall pick M p n f lex c, pick_ok pick -> closed_lexeme M p lex -> lexeme_of noun_tag (m_tc M) lex -> noun_with (p_tag p) c ->
  make_agree_with_number pick M p n = Ok (Some f) ->
  (fix_rare1 c = c -> like_1 n \/ ~ direct c -> forall m, numeral_agreement pick (p_tag f) m = numeral_agreement pick (p_tag p) m) /\
  (~ like_1 n -> direct c -> forall m, (like_1 m -> numeral_agreement pick (p_tag f) m = [Some (u "sing"); Some (u "gent")]) /\
                                      (~ like_1 m -> numeral_agreement pick (p_tag f) m = [Some (u "plur"); Some (u "gent")])).
Proof.
  intros pick M p n f lex c P (L & CL) K Np H. assert (IC : In c CASES) by (destruct Np as (_ & (X & _)); exact X). split.
  - intros FX D.
    assert (Nf : noun_with (p_tag f) c).
    { assert (X : exists a, In a NUMBERS /\ numeral_agreement pick (p_tag p) n = [Some a; Some c]).
      { destruct (proj1 (like_kinds n)) as [H1|H25]; [exists (u "sing"); split; [apply number_case|exact (noun_one pick _ _ n P Np H1)]|].
        assert (NH : ~ like_1 n). { destruct (like_kinds n) as (_ & N2 & N3 & _). intro Z. destruct H25; tauto. }
        destruct D as [D|D]; [destruct (NH D)|]. exists (u "plur"). split; [apply number_case|exact (noun_oblique pick _ _ n P Np D NH)]. }
      destruct X as (a & IA & E). destruct (noun_result pick M p n f lex _ _ L K E IA IC H) as (_ & _ & cf & Nf & X). rewrite FX in X.
      assert (cf = c) by (destruct X; assumption). subst cf. exact Nf. }
    intro m. destruct (proj1 (like_kinds m)) as [H1|H25].
    + rewrite (noun_one pick _ _ m P Nf H1), (noun_one pick _ _ m P Np H1). reflexivity.
    + assert (NH : ~ like_1 m). { destruct (like_kinds m) as (_ & N2 & N3 & _). intro Z. destruct H25; tauto. }
      destruct (direct_dec c) as [Dc|Dc].
      * destruct (noun_direct pick _ _ m P Nf Dc) as (A2 & A5). destruct (noun_direct pick _ _ m P Np Dc) as (B2 & B5).
        destruct H25 as [H2|H5]; [rewrite (A2 H2), (B2 H2)|rewrite (A5 H5), (B5 H5)]; reflexivity.
      * rewrite (noun_oblique pick _ _ m P Nf Dc NH), (noun_oblique pick _ _ m P Np Dc NH). reflexivity.
  - intros NH D.
    assert (X : exists a, In a NUMBERS /\ numeral_agreement pick (p_tag p) n = [Some a; Some (u "gent")]).
    { destruct (noun_direct pick _ _ n P Np D) as (A2 & A5). destruct (proj1 (like_kinds n)) as [H1|[H2|H5]]; [destruct (NH H1)| |].
      - exists (u "sing"). split; [apply number_case|exact (A2 H2)].
      - exists (u "plur"). split; [apply number_case|exact (A5 H5)]. }
    destruct X as (a & IA & E). destruct (noun_result pick M p n f lex _ _ L K E IA (proj1 (proj2 gent_facts)) H) as (_ & _ & cf & Nf & X).
    assert (cf = u "gent") by (destruct X as [->|X]; [reflexivity|rewrite X; apply gent_facts]). subst cf. intro m. split; intro Hm.
    + exact (noun_one pick _ _ m P Nf Hm).
    + exact (noun_oblique pick _ _ m P Nf (proj1 (oblique_facts _ (proj1 gent_facts))) Hm).
Qed.

(** ** adjectives and participles *)
Lemma attr_in : forall pick cat t g, pick_ok pick -> attr pick cat t = Some g -> In g (t_gr t).
Proof.
  intros pick cat t g P E. unfold attr in E. specialize (P (sinter cat (t_gr t))). rewrite E in P. unfold sinter in P. apply filter_In in P as [_ Y]. apply smem_In. exact Y.
Qed.
Lemma adj_result : forall pick M p n f lex a c, get_lexeme M p = Ok lex -> lexeme_of adjective_tag (m_tc M) lex ->
  numeral_agreement pick (p_tag p) n = map (fun s => Some (u s)) [a; c] -> In (u a) NUMBERS -> In (u c) CASES -> fix_rare1 (u c) = u c -> make_agree_with_number pick M p n = Ok (Some f) ->
  In f lex /\ In (u a) (t_gr (p_tag f)) /\ the_only CASES (p_tag f) (u c) /\ has [u a; u c] f.
Proof.
  intros pick M p n f lex a c L K E IA IC FC H. cbn [map] in E.
  assert (FA : fix_rare1 (u a) = u a). { destruct IA as [X|[X|[]]]; rewrite <- X; apply fix_number. }
  destruct (agree_used pick M p n f lex (u a) (u c) L E FA H) as (I & A & D). rewrite FC in D.
  assert (D' : In (u c) (t_gr (p_tag f))) by (destruct D; assumption).
  split; [exact I|]. split; [exact A|]. split; [|apply two_of; assumption].
  destruct (K f I) as (_ & _ & (cf & C) & _). rewrite <- (only_same CASES (p_tag f) cf (u c) C IC D'). exact C.
Qed.
Lemma direct_case_facts : (In (u "nomn") CASES /\ fix_rare1 (u "nomn") = u "nomn") /\ (In (u "accs") CASES /\ fix_rare1 (u "accs") = u "accs").
Proof. split; (split; [apply smem_In; vm_compute; reflexivity|vm_compute; reflexivity]). Qed.
Lemma adj_parts : forall pick t, pick_ok pick -> adjective_tag t -> exists pos, (pos = u "ADJF" \/ pos = u "PRTF") /\ attr pick PARTS_OF_SPEECH t = Some pos.
Proof. intros pick t P ((pos & H1 & H2) & _). exists pos. split; [exact H1|]. exact (attr_only _ _ _ _ P H2). Qed.
Lemma adj_plural : forall pick t, pick_ok pick -> adjective_tag t -> In (u "plur") (t_gr t) -> attr pick GENDERS t <> Some (u "femn").
Proof. intros pick t P (_ & _ & _ & G) I. rewrite (attr_none pick GENDERS t P (G I)). discriminate. Qed.
Lemma nomn_accs : u "accs" <> u "nomn". Proof. vm_compute. discriminate. Qed.
Lemma adj_again : forall pick M p n f lex, pick_ok pick -> closed_lexeme M p lex -> lexeme_of adjective_tag (m_tc M) lex -> adjective_tag (p_tag p) ->
  make_agree_with_number pick M p n = Ok (Some f) -> ~ (like_2 n /\ In (u "femn") (t_gr (p_tag p))) ->
  exists g, make_agree_with_number pick M f n = Ok (Some g) /\ In g lex /\ alike_forms f g.
Proof.
  intros pick M p n f lex P (L & CL) K Ap H D.
  destruct (adj_parts pick _ P Ap) as (pos & HP & EP). destruct (agree_adj pick (p_tag p) n pos HP EP) as (A1 & A1' & A2 & A2' & A5).
  assert (X : exists a c, In f lex /\ has [u a; u c] f /\ numeral_agreement pick (p_tag f) n = map Some [u a; u c]).
  { destruct (proj1 (like_kinds n)) as [H1|H25].
    - assert (Y : exists c, (c = "nomn" \/ c = "accs")%string /\ numeral_agreement pick (p_tag p) n = map (fun s => Some (u s)) ["sing"; c]%string /\ In (u c) CASES /\ fix_rare1 (u c) = u c).
      { destruct Ap as (_ & (c & C) & _). assert (EC := attr_only _ _ _ _ P C).
        destruct (str_eqb c (u "nomn")) eqn:Z.
        - apply str_eqb_eq in Z. subst c. exists "nomn"%string. split; [auto|]. split; [exact (A1 H1 EC)|apply direct_case_facts].
        - exists "accs"%string. split; [auto|]. split; [|apply direct_case_facts]. apply (A1' H1). rewrite EC. intro W. injection W as W. rewrite W, str_eqb_refl in Z. discriminate Z. }
      destruct Y as (c & Hc & E & IC & FC). destruct (adj_result pick M p n f lex "sing" c L K E (proj1 number_case) IC FC H) as (I & A & C & HS).
      exists "sing"%string, c. split; [exact I|]. split; [exact HS|].
      destruct (adj_parts pick _ P (proj2 (K f I))) as (pos' & HP' & EP'). destruct (agree_adj pick (p_tag f) n pos' HP' EP') as (B1 & B1' & _).
      assert (EC := attr_only _ _ _ _ P C). destruct Hc as [-> | ->]; [exact (B1 H1 EC)|]. apply (B1' H1). rewrite EC. discriminate.
    - assert (E : numeral_agreement pick (p_tag p) n = map (fun s => Some (u s)) ["plur"; "gent"]%string).
      { destruct H25 as [H2|H5]; [|exact (A5 H5)]. apply (A2' H2). intro W. apply D. split; [exact H2|exact (attr_in _ _ _ _ P W)]. }
      destruct (adj_result pick M p n f lex "plur" "gent" L K E (proj2 number_case) (proj1 (proj2 gent_facts)) (proj2 (proj2 gent_facts)) H) as (I & A & C & HS).
      exists "plur"%string, "gent"%string. split; [exact I|]. split; [exact HS|].
      destruct (adj_parts pick _ P (proj2 (K f I))) as (pos' & HP' & EP'). destruct (agree_adj pick (p_tag f) n pos' HP' EP') as (_ & _ & _ & B2' & B5).
      destruct H25 as [H2|H5]; [|exact (B5 H5)]. apply (B2' H2). exact (adj_plural pick _ P (proj2 (K f I)) A). }
  destruct X as (a & c & I & HS & E). apply (agree_keep pick M f n [u a; u c] lex (CL f I) I (proj1 (K f I)) E HS).
Qed.
Lemma adj_two_again : forall pick M p n f lex, pick_ok pick -> closed_lexeme M p lex -> lexeme_of adjective_tag (m_tc M) lex -> adjective_tag (p_tag p) ->
  make_agree_with_number pick M p n = Ok (Some f) -> like_2 n -> the_only GENDERS (p_tag p) (u "femn") ->
  has [u "plur"; u "nomn"] f /\ forall g, make_agree_with_number pick M f n = Ok (Some g) -> In g lex /\ has [u "plur"; u "gent"] g /\ ~ alike_forms f g.
Proof.
  intros pick M p n f lex P (L & CL) K Ap H H2 G.
  destruct (adj_parts pick _ P Ap) as (pos & HP & EP). destruct (agree_adj pick (p_tag p) n pos HP EP) as (_ & _ & A2 & _).
  destruct (adj_result pick M p n f lex "plur" "nomn" L K (A2 H2 (attr_only _ _ _ _ P G)) (proj2 number_case) (proj1 (proj1 direct_case_facts)) (proj2 (proj1 direct_case_facts)) H) as (I & A & C & HS).
  split; [exact HS|]. intros g Hg.
  destruct (adj_parts pick _ P (proj2 (K f I))) as (pos' & HP' & EP'). destruct (agree_adj pick (p_tag f) n pos' HP' EP') as (_ & _ & _ & B2' & _).
  assert (E := B2' H2 (adj_plural pick _ P (proj2 (K f I)) A)).
  destruct (adj_result pick M f n g lex "plur" "gent" (CL f I) K E (proj2 number_case) (proj1 (proj2 gent_facts)) (proj2 (proj2 gent_facts)) Hg) as (Ig & Ag & Cg & HSg).
  split; [exact Ig|]. split; [exact HSg|]. intro AL.
  assert (X : u "gent" = u "nomn"). { symmetry. apply (only_same CASES (p_tag f) (u "nomn") (u "gent") C (proj1 (proj2 gent_facts))). apply AL. apply HSg. right; left; reflexivity. }
  vm_compute in X. discriminate X.
Qed.
(** ** everything else *)
Lemma uncounted : forall pick M p n lex, pick_ok pick -> get_lexeme M p = Ok lex -> (exists f, In f lex /\ p_tag f = p_tag p) ->
  (forall pos, In pos (map u ["NOUN"; "ADJF"; "PRTF"]%string) -> ~ In pos (t_gr (p_tag p))) ->
  exists g, make_agree_with_number pick M p n = Ok (Some g) /\ In g lex /\ alike_forms p g.
Proof.
  intros pick M p n lex P L (f & I & E) N.
  assert (R : numeral_agreement pick (p_tag p) n = map Some []).
  { apply agree_other; intro X; apply (attr_in _ _ _ _ P) in X; revert X; apply N; cbn; auto. }
  rewrite (agree_req _ _ _ _ _ R). destruct (inflect_same M p [] lex L) as (g & G1 & G2 & G3).
  - intros g [].
  - exists f. split; [exact I|]. rewrite E. intro x; tauto.
  - intros g [].
  - intros g x [].
  - exists g. split; [exact G1|]. split; [exact G2|]. intro x. symmetry. apply G3.
Qed.

(** ** fractions *)
Lemma qmod_int : forall n d, (qmod (inject_Z n) d == inject_Z (n mod Z.pos d))%Q.
Proof.
  intros n d. unfold qmod.
  assert (E : Qfloor (inject_Z n / inject_Z (Z.pos d)) = (n / Z.pos d)%Z).
  { rewrite <- Zdiv_Qdiv. reflexivity. }
  rewrite E. unfold Qminus. rewrite <- inject_Z_opp, <- inject_Z_plus. rewrite (Z.mod_eq n (Z.pos d)) by lia. reflexivity.
Qed.
Lemma floor_unique : forall x z, (inject_Z z <= x)%Q -> (x < inject_Z (z + 1))%Q -> Qfloor x = z.
Proof.
  intros x z A B. assert (A' := Qfloor_le x). assert (B' := Qlt_floor x).
  assert (X : (inject_Z z < inject_Z (Qfloor x + 1))%Q) by (eapply Qle_lt_trans; [exact A|exact B']).
  assert (Y : (inject_Z (Qfloor x) < inject_Z (z + 1))%Q) by (eapply Qle_lt_trans; [exact A'|exact B]).
  rewrite <- Zlt_Qlt in X, Y. lia.
Qed.
Lemma floor_div : forall x d, Qfloor (x / inject_Z (Z.pos d)) = (Qfloor x / Z.pos d)%Z.
Proof.
  intros x d. assert (D : (0 < inject_Z (Z.pos d))%Q) by reflexivity. apply floor_unique.
  - apply Qle_shift_div_l; [exact D|]. rewrite <- inject_Z_mult. eapply Qle_trans; [|apply Qfloor_le]. rewrite <- Zle_Qle. assert (X := Z.mul_div_le (Qfloor x) (Z.pos d) ltac:(lia)). lia.
  - apply Qlt_shift_div_r; [exact D|]. rewrite <- inject_Z_mult. eapply Qlt_le_trans; [apply Qlt_floor|]. rewrite <- Zle_Qle.
    assert (X := Z.mul_succ_div_gt (Qfloor x) (Z.pos d) ltac:(lia)). lia.
Qed.
Lemma qmod_floor : forall x d, (qmod x d == inject_Z (Qfloor x mod Z.pos d) + (x - inject_Z (Qfloor x)))%Q.
Proof.
  intros x d. unfold qmod. rewrite floor_div. rewrite (Z.mod_eq (Qfloor x) (Z.pos d)) by lia. unfold Zminus. rewrite inject_Z_plus, inject_Z_opp. ring.
Qed.
Lemma index_q_int : forall n, agreement_index_q (inject_Z n) = agreement_index n.
Proof.
  intro n. unfold agreement_index_q, agreement_index.
  assert (E : forall (a b : Z), Qeq_bool (inject_Z a) (inject_Z b) = (a =? b)%Z).
  { intros a b. destruct (Z.eqb_spec a b) as [->|X]; [apply Qeq_bool_iff; reflexivity|]. destruct (Qeq_bool (inject_Z a) (inject_Z b)) eqn:Y; [|reflexivity].
    apply Qeq_bool_iff in Y. destruct X. unfold Qeq in Y. cbn in Y. lia. }
  assert (L : forall (a b : Z), Qle_bool (inject_Z a) (inject_Z b) = (a <=? b)%Z).
  { intros a b. destruct (Z.leb_spec a b) as [X|X]; [apply Qle_bool_iff; rewrite <- Zle_Qle; exact X|]. destruct (Qle_bool (inject_Z a) (inject_Z b)) eqn:Y; [|reflexivity].
    apply Qle_bool_iff in Y. rewrite <- Zle_Qle in Y. lia. }
  assert (Q10 := qmod_int n 10). assert (Q100 := qmod_int n 100). change (Z.pos 10) with 10%Z in Q10. change (Z.pos 100) with 100%Z in Q100.
  rewrite !Q10, !Q100. change 1%Q with (inject_Z 1). change 11%Q with (inject_Z 11). change 2%Q with (inject_Z 2). change 4%Q with (inject_Z 4). change 10%Q with (inject_Z 10). change 20%Q with (inject_Z 20).
  rewrite !E, !L. rewrite !Z.geb_leb. rewrite (Z.ltb_antisym 10 (n mod 100))%Z. reflexivity.
Qed.
Lemma agree_q_int : forall pick t n, numeral_agreement_q pick t (inject_Z n) = numeral_agreement pick t n.
Proof. intros pick t n. unfold numeral_agreement_q, numeral_agreement. rewrite index_q_int. reflexivity. Qed.
(** a number between two integers *)
Lemma index_q_fraction : forall q k, (inject_Z k < q)%Q -> (q < inject_Z (k + 1))%Q ->
  agreement_index_q q = if ((2 <=? k mod 10) && (k mod 10 <=? 3) && ((k mod 100 <? 10) || (20 <=? k mod 100)))%Z then 1 else 2.
Proof.
  intros q k A B. assert (F : Qfloor q = k) by (apply floor_unique; [apply Qlt_le_weak; exact A|exact B]).
  assert (Q10 := qmod_floor q 10). assert (Q100 := qmod_floor q 100). rewrite F in Q10, Q100. set (r := (q - inject_Z k)%Q) in *.
  assert (R0 : (0 < r)%Q) by (unfold r, Qminus; apply (proj1 (Qlt_minus_iff _ _)); exact A).
  assert (R1 : (r < 1)%Q). { unfold r. rewrite inject_Z_plus in B. apply (Qplus_lt_l _ _ (inject_Z k)). setoid_replace (q - inject_Z k + inject_Z k)%Q with q by ring. setoid_replace (1 + inject_Z k)%Q with (inject_Z k + inject_Z 1)%Q by (rewrite Qplus_comm; reflexivity). exact B. }
  assert (LE : forall a z, Qle_bool (inject_Z z) (inject_Z a + r) = (z <=? a)%Z).
  { intros a z. destruct (Z.leb_spec z a) as [X|X].
    - apply Qle_bool_iff. rewrite Zle_Qle in X. eapply Qle_trans; [exact X|]. rewrite <- (Qplus_0_r (inject_Z a)) at 1. apply Qplus_le_compat; [apply Qle_refl|apply Qlt_le_weak; exact R0].
    - destruct (Qle_bool (inject_Z z) (inject_Z a + r)) eqn:Y; [|reflexivity]. exfalso. apply Qle_bool_iff in Y. assert (Z1 : (a + 1 <= z)%Z) by lia. rewrite Zle_Qle, inject_Z_plus in Z1.
      assert (W : (inject_Z a + 1 <= inject_Z a + r)%Q) by (eapply Qle_trans; [exact Z1|exact Y]). apply Qplus_le_r in W. exact (Qlt_not_le _ _ R1 W). }
  assert (GE : forall a z, Qle_bool (inject_Z a + r) (inject_Z z) = (a <=? z - 1)%Z).
  { intros a z. destruct (Z.leb_spec a (z - 1)) as [X|X].
    - apply Qle_bool_iff. assert (Z1 : (a + 1 <= z)%Z) by lia. rewrite Zle_Qle, inject_Z_plus in Z1. eapply Qle_trans; [|exact Z1]. apply Qplus_le_compat; [apply Qle_refl|apply Qlt_le_weak; exact R1].
    - destruct (Qle_bool (inject_Z a + r) (inject_Z z)) eqn:Y; [|reflexivity]. exfalso. apply Qle_bool_iff in Y. assert (Z1 : (z <= a)%Z) by lia. rewrite Zle_Qle in Z1.
      assert (W : (inject_Z a + r <= inject_Z a + 0)%Q) by (rewrite Qplus_0_r; eapply Qle_trans; [exact Y|exact Z1]). apply Qplus_le_r in W. exact (Qlt_not_le _ _ R0 W). }
  assert (EQ : forall a z, Qeq_bool (inject_Z a + r) (inject_Z z) = false).
  { intros a z. destruct (Qeq_bool (inject_Z a + r) (inject_Z z)) eqn:Y; [|reflexivity]. exfalso. apply Qeq_bool_iff in Y.
    assert (Y1 : Qle_bool (inject_Z a + r) (inject_Z z) = true) by (apply Qle_bool_iff; rewrite Y; apply Qle_refl).
    assert (Y2 : Qle_bool (inject_Z z) (inject_Z a + r) = true) by (apply Qle_bool_iff; rewrite Y; apply Qle_refl).
    rewrite GE in Y1. rewrite LE in Y2. apply Z.leb_le in Y1, Y2. lia. }
  unfold agreement_index_q. change (Z.pos 10) with 10%Z in Q10. change (Z.pos 100) with 100%Z in Q100. rewrite !Q10, !Q100.
  change 1%Q with (inject_Z 1). change 11%Q with (inject_Z 11). change 2%Q with (inject_Z 2). change 4%Q with (inject_Z 4). change 10%Q with (inject_Z 10). change 20%Q with (inject_Z 20).
  rewrite !EQ, !LE, !GE. cbn [andb]. change (4 - 1)%Z with 3%Z. rewrite (Z.ltb_antisym 10 (k mod 100))%Z. reflexivity.
Qed.
Lemma noun_fraction : forall pick t c q k, pick_ok pick -> noun_with t c -> (inject_Z k < q)%Q -> (q < inject_Z (k + 1))%Q ->
  (direct c -> (k mod 10 = 2 \/ k mod 10 = 3)%Z -> (k mod 100 <> 12 /\ k mod 100 <> 13)%Z -> numeral_agreement_q pick t q = [Some (u "sing"); Some (u "gent")]) /\
  (direct c -> ~ ((k mod 10 = 2 \/ k mod 10 = 3)%Z /\ (k mod 100 <> 12 /\ k mod 100 <> 13)%Z) -> numeral_agreement_q pick t q = [Some (u "plur"); Some (u "gent")]) /\
  (~ direct c -> numeral_agreement_q pick t q = [Some (u "plur"); Some c]).
Proof.
  intros pick t c q k P (N & C) A B. assert (EN := attr_only _ _ _ _ P N). assert (EC := attr_only _ _ _ _ P C).
  assert (IX := index_q_fraction q k A B). unfold numeral_agreement_q. rewrite EN, EC, IX. clear IX.
  assert (E : (k mod 10 = (k mod 100) mod 10)%Z) by (apply Znumtheory.Zmod_div_mod; [lia|lia|exists 10%Z; reflexivity]).
  assert (R : (0 <= k mod 100 < 100)%Z) by (apply Z.mod_pos_bound; lia).
  assert (X : ((2 <=? k mod 10) && (k mod 10 <=? 3) && ((k mod 100 <? 10) || (20 <=? k mod 100)))%Z = true <-> ((k mod 10 = 2 \/ k mod 10 = 3)%Z /\ (k mod 100 <> 12 /\ k mod 100 <> 13)%Z)).
  { rewrite E. set (j := (k mod 100)%Z) in *. clearbody j. rewrite !andb_true_iff, orb_true_iff, !Z.leb_le, Z.ltb_lt. assert (D := Z.div_mod j 10 ltac:(lia)). lia. }
  split; [|split].
  - intros D H1 H2. rewrite (proj2 X (conj H1 H2)). destruct D as [-> | ->]; reflexivity.
  - intros D H. destruct (_ && _)%bool eqn:Y; [destruct H; apply X; reflexivity|]. destruct D as [-> | ->]; reflexivity.
  - intros D. assert (Z : opt_in (Some c) ["nomn"; "accs"]%string = false).
    { unfold opt_in. cbn [existsb]. rewrite !orb_false_iff. repeat split; apply opt_is_false; intro W; injection W as W; apply D; [left|right]; exact W. }
    rewrite Z. destruct (_ && _)%bool; reflexivity.
Qed.
(** ** readings of words *)
Lemma simple_closed : forall M word p lex, simple_reading M word p lex -> closed_lexeme M p lex /\ exists f, In f lex /\ p_tag f = p_tag p.
Proof.
  intros M word p lex (SU & WF & CD & MC & (ps & HP & I) & SS & L).
  destruct (shipped_lex _ M word ps p SU WF CD MC HP I SS) as (lex' & q & f0 & L' & _ & (pm & Ipm & Rpm) & CL & _). rewrite L in L'. injection L' as <-.
  split; [split; [exact L|]|].
  - intros h Ih. apply CL. exact Ih.
  - exists pm. split; [exact Ipm|]. unfold reading in Rpm. injection Rpm as _ T _ _. exact T.
Qed.
Lemma simple_kind : forall kind M word p lex, simple_reading M word p lex -> lexeme_of kind (m_tc M) lex -> kind (p_tag p).
Proof. intros kind M word p lex R K. destruct (simple_closed M word p lex R) as (_ & f & I & E). rewrite <- E. apply K. exact I. Qed.
Lemma simple_noun : forall M word p lex c, simple_reading M word p lex -> lexeme_of noun_tag (m_tc M) lex -> has_case p c -> noun_with (p_tag p) c.
Proof. intros M word p lex c R K C. destruct (simple_kind _ _ _ _ _ R K) as (N & _). split; assumption. Qed.
Lemma c81_noun : forall pick M word p lex c n f, pick_ok pick -> simple_reading M word p lex -> lexeme_of noun_tag (m_tc M) lex -> has_case p c ->
  make_agree_with_number pick M p n = Ok (Some f) -> like_1 n \/ (like_5 n /\ direct c) \/ oblique c ->
  exists g, make_agree_with_number pick M f n = Ok (Some g) /\ In g lex /\ alike_forms f g.
Proof. intros pick M word p lex c n f P R K C H D. apply (noun_again pick M p n f lex c P (proj1 (simple_closed _ _ _ _ R)) K (simple_noun _ _ _ _ _ R K C) H D). Qed.
Lemma c81_noun_two : forall pick M word p lex c n f, pick_ok pick -> simple_reading M word p lex -> lexeme_of noun_tag (m_tc M) lex -> has_case p c ->
  make_agree_with_number pick M p n = Ok (Some f) -> like_2 n -> direct c ->
  has [u "sing"; u "gent"] f /\ forall g, make_agree_with_number pick M f n = Ok (Some g) -> In g lex /\ has [u "plur"; u "gent"] g /\ ~ alike_forms f g.
Proof. intros pick M word p lex c n f P R K C H H2 D. apply (noun_two_again pick M p n f lex c P (proj1 (simple_closed _ _ _ _ R)) K (simple_noun _ _ _ _ _ R K C) H H2 D). Qed.
Lemma recount_case : forall c, In c (map u ["nomn"; "gent"; "datv"; "accs"; "ablt"; "loct"]%string) -> fix_rare1 c = c.
Proof.
  assert (X : forallb (fun c => str_eqb (fix_rare1 c) c) (map u ["nomn"; "gent"; "datv"; "accs"; "ablt"; "loct"]%string) = true) by (vm_compute; reflexivity).
  intros c I. rewrite forallb_forall in X. apply str_eqb_eq. exact (X c I).
Qed.
Lemma c81_recount : forall pick M word p lex c n f, pick_ok pick -> simple_reading M word p lex -> lexeme_of noun_tag (m_tc M) lex -> has_case p c ->
  make_agree_with_number pick M p n = Ok (Some f) ->
  (In c (map u ["nomn"; "gent"; "datv"; "accs"; "ablt"; "loct"]%string) -> like_1 n \/ ~ direct c -> forall m, numeral_agreement pick (p_tag f) m = numeral_agreement pick (p_tag p) m) /\
  (~ like_1 n -> direct c -> forall m, (like_1 m -> numeral_agreement pick (p_tag f) m = [Some (u "sing"); Some (u "gent")]) /\
                                      (~ like_1 m -> numeral_agreement pick (p_tag f) m = [Some (u "plur"); Some (u "gent")])).
Proof.
  intros pick M word p lex c n f P R K C H. destruct (noun_recount pick M p n f lex c P (proj1 (simple_closed _ _ _ _ R)) K (simple_noun _ _ _ _ _ R K C) H) as (A & B).
  split; [|exact B]. intros I. apply A. apply recount_case. exact I.
Qed.
Lemma c81_adj : forall pick M word p lex n f, pick_ok pick -> simple_reading M word p lex -> lexeme_of adjective_tag (m_tc M) lex ->
  make_agree_with_number pick M p n = Ok (Some f) -> ~ (like_2 n /\ In (u "femn") (t_gr (p_tag p))) ->
  exists g, make_agree_with_number pick M f n = Ok (Some g) /\ In g lex /\ alike_forms f g.
Proof. intros pick M word p lex n f P R K H D. apply (adj_again pick M p n f lex P (proj1 (simple_closed _ _ _ _ R)) K (simple_kind _ _ _ _ _ R K) H D). Qed.
Lemma c81_adj_two : forall pick M word p lex n f, pick_ok pick -> simple_reading M word p lex -> lexeme_of adjective_tag (m_tc M) lex ->
  make_agree_with_number pick M p n = Ok (Some f) -> like_2 n -> the_only GENDERS (p_tag p) (u "femn") ->
  has [u "plur"; u "nomn"] f /\ forall g, make_agree_with_number pick M f n = Ok (Some g) -> In g lex /\ has [u "plur"; u "gent"] g /\ ~ alike_forms f g.
Proof. intros pick M word p lex n f P R K H D. apply (adj_two_again pick M p n f lex P (proj1 (simple_closed _ _ _ _ R)) K (simple_kind _ _ _ _ _ R K) H D). Qed.
Lemma c81_uncounted : forall pick M word p lex n, pick_ok pick -> simple_reading M word p lex ->
  (forall pos, In pos (map u ["NOUN"; "ADJF"; "PRTF"]%string) -> ~ In pos (t_gr (p_tag p))) ->
  exists g, make_agree_with_number pick M p n = Ok (Some g) /\ In g lex /\ alike_forms p g.
Proof. intros pick M word p lex n P R N. destruct (simple_closed _ _ _ _ R) as ((L & _) & X). apply (uncounted pick M p n lex P L X N). Qed.
Lemma c82_fraction : forall pick t c q k, pick_ok pick -> the_only PARTS_OF_SPEECH t (u "NOUN") -> the_only CASES t c -> (inject_Z k < q)%Q -> (q < inject_Z (k + 1))%Q ->
  (direct c -> (k mod 10 = 2 \/ k mod 10 = 3)%Z -> (k mod 100 <> 12 /\ k mod 100 <> 13)%Z -> numeral_agreement_q pick t q = [Some (u "sing"); Some (u "gent")]) /\
  (direct c -> ~ ((k mod 10 = 2 \/ k mod 10 = 3)%Z /\ (k mod 100 <> 12 /\ k mod 100 <> 13)%Z) -> numeral_agreement_q pick t q = [Some (u "plur"); Some (u "gent")]) /\
  (~ direct c -> numeral_agreement_q pick t q = [Some (u "plur"); Some c]).
Proof. intros pick t c q k P A B. apply (noun_fraction pick t c q k P (conj A B)). Qed.
Lemma c82_integer : forall pick M p n, make_agree_with_number_q pick M p (inject_Z n) = make_agree_with_number pick M p n.
Proof. intros. unfold make_agree_with_number_q, make_agree_with_number. rewrite agree_q_int. reflexivity. Qed.
