(** * Inflection lemmas (C14-C18) *)
From Coq Require Import String List NArith ZArith Znumtheory Bool QArith Lia.
From Verif Require Import Py Uni Tagset Dawg Utils Shapes Dict Units Analyzer ConfigRu ConfigUk Spec Spec2.
From Verif Require Import L_Base L_Made L_Tagset L_Tags2.
Import ListNotations.
Local Open Scope nat_scope.
Local Open Scope list_scope.

Lemma has_all_has : forall req f, has_all req f = true <-> has req f.
Proof. intros. exact (ssub_incl req (t_gr (p_tag f))). Qed.
Lemma has_all_hasb : forall req f, has_all req f = hasb req f.
Proof.
  intros req f. apply eq_true_iff_eq. rewrite has_all_has. unfold hasb, has. rewrite forallb_forall. split; intros H g Hg; specialize (H g Hg).
  - destruct (in_dec grammeme_dec g (t_gr (p_tag f))); auto.
  - destruct (in_dec grammeme_dec g (t_gr (p_tag f))); [auto|discriminate].
Qed.
Lemma rare_sget : forall g x, rare g x <-> sget g RARE_CASES = Some x.
Proof.
  intros g x. split.
  - intro H. unfold rare in H. cbn [map fst snd In] in H.
    repeat (destruct H as [H|H]; [injection H as <- <-; reflexivity|]). destruct H.
  - intro H. apply sget_In in H. exact H.
Qed.
Lemma fix_commoned : forall req, commoned req (fix_rare_cases req).
Proof.
  intros req x. unfold fix_rare_cases. rewrite in_map_iff. split.
  - intros (g & E & Hg). exists g. split; auto. unfold fix_rare1 in E. destruct (sget g RARE_CASES) as [y|] eqn:R; subst x.
    + left. apply rare_sget; auto.
    + right. split; auto. intros y Hy. apply rare_sget in Hy. congruence.
  - intros (g & Hg & [R|[-> R]]); exists g; (split; [|exact Hg]); unfold fix_rare1.
    + apply rare_sget in R. rewrite R. reflexivity.
    + destruct (sget g RARE_CASES) as [y|] eqn:E; auto. destruct (R y). apply rare_sget; auto.
Qed.
Lemma filter_nil : forall {A} (f : A -> bool) l, filter f l = [] <-> forall x, In x l -> f x = false.
Proof.
  intros A f l. split.
  - intros E x Hx. destruct (f x) eqn:F; auto. assert (In x (filter f l)) by (apply filter_In; auto). rewrite E in H. destruct H.
  - intro H. induction l as [|y l IH]; auto. simpl. rewrite (H y) by (left; auto). apply IH. intros; apply H; right; auto.
Qed.

(** the shape of inflect *)
Lemma inflect_shape : forall M p req lex, get_lexeme M p = Ok lex ->
  exists used, used_requirement lex req used /\
    inflect M p req = let* want := updated_grammemes (m_tc M) (p_tag p) used in
      Ok (max_first (fun a b => Qgtb (similarity want a) (similarity want b)) (filter (has_all used) lex)).
Proof.
  intros M p req lex L. unfold inflect. rewrite L. cbn [bind].
  destruct (filter (has_all req) lex) as [|f0 r] eqn:F.
  - exists (fix_rare_cases req). split; [|reflexivity]. right. split; [apply fix_commoned|].
    intros f Hf H. apply has_all_has in H. rewrite filter_nil in F. rewrite (F f Hf) in H. discriminate.
  - exists req. split; [|rewrite F; reflexivity]. left. split; auto. exists f0.
    assert (Hin : In f0 (filter (has_all req) lex)) by (rewrite F; left; auto). apply filter_In in Hin as [H1 H2]. split; auto. apply has_all_has; auto.
Qed.
Lemma inflect_needs_lexeme : forall M p req r, inflect M p req = Ok r -> exists lex, get_lexeme M p = Ok lex.
Proof. intros M p req r H. unfold inflect in H. destruct (get_lexeme M p); [eauto|discriminate H]. Qed.

(** ** closeness *)
Lemma card_unique : forall P n m, card P n -> card P m -> n = m.
Proof.
  intros P n m (l & N1 & H1 & <-) (l' & N2 & H2 & <-). apply Permutation.Permutation_length, Permutation.NoDup_Permutation; auto.
  intro x. rewrite H1, H2. tauto.
Qed.
Lemma slen_card : forall (s : sset) P, (forall x, In x s <-> P x) -> card P (slen s).
Proof. intros s P H. exists (snodup s). split; [apply snodup_NoDup|]. split; [|reflexivity]. intro x. rewrite snodup_In. apply H. Qed.
Definition zclose (want : sset) (f : parse) : Z :=
  (10 * Z.of_nat (slen (sinter want (t_gr (p_tag f)))) - Z.of_nat (slen (ssymdiff want (t_gr (p_tag f)))))%Z.
Lemma zclose_closeness : forall want f, closeness want f (zclose want f).
Proof.
  intros want f. unfold zclose. do 2 eexists. split; [|split; [|reflexivity]]; apply slen_card; intro x.
  - unfold sinter. rewrite filter_In. split; intros [A B]; split; auto; [apply smem_In in B; exact B|apply smem_In; exact B].
  - unfold ssymdiff, sdiff. rewrite in_app_iff, !filter_In. rewrite !negb_true_iff.
    assert (N : forall (l : sset), smem x l = false <-> ~ In x l).
    { intro l. split; [intros E H; apply smem_In in H; congruence|]. intro H. destruct (smem x l) eqn:E; auto. apply smem_In in E. tauto. }
    rewrite !N. split; intros [[A B]|[A B]]; tauto.
Qed.
Lemma closeness_unique : forall want f z z', closeness want f z -> closeness want f z' -> z = z'.
Proof.
  intros want f z z' (a & b & A & B & ->) (a' & b' & A' & B' & ->). rewrite (card_unique _ _ _ A A'), (card_unique _ _ _ B B'). reflexivity.
Qed.
Lemma similarity_zclose : forall want f, (similarity want f == (zclose want f) # 10)%Q.
Proof.
  intros. unfold similarity, zclose. generalize (slen (sinter want (t_gr (p_tag f)))) (slen (ssymdiff want (t_gr (p_tag f)))). intros a b.
  unfold Qeq, Qminus, Qplus, Qopp, Qmult, inject_Z. cbn [Qnum Qden]. change (1 * (10 * 1))%positive with 10%positive. lia.
Qed.
Lemma gt_zclose : forall want a b, Qgtb (similarity want a) (similarity want b) = (zclose want b <? zclose want a)%Z.
Proof.
  intros. unfold Qgtb. apply eq_true_iff_eq. rewrite negb_true_iff, Z.ltb_lt.
  assert (E : (similarity want a <= similarity want b)%Q <-> (zclose want a <= zclose want b)%Z).
  { rewrite !similarity_zclose. unfold Qle. simpl. lia. }
  destruct (Qle_bool (similarity want a) (similarity want b)) eqn:Q.
  - apply Qle_bool_iff in Q. split; [discriminate|]. intro. apply E in Q. lia.
  - split; auto. intros _. destruct (Z_lt_le_dec (zclose want b) (zclose want a)); auto. apply E in l. apply Qle_bool_iff in l. congruence.
Qed.
Lemma max_first_closest : forall want l f, max_first (fun a b => Qgtb (similarity want a) (similarity want b)) l = Some f ->
  first_closest want l f.
Proof.
  intros want [|b l] f H; [discriminate H|]. cbn [max_first] in H. injection H as <-.
  set (gtb := fun a b => Qgtb (similarity want a) (similarity want b)).
  assert (G : forall a b, gtb a b = (zclose want b <? zclose want a)%Z) by (intros; apply gt_zclose).
  assert (G1 : forall x, gtb x x = false) by (intro; rewrite G; apply Z.ltb_irrefl).
  assert (G2 : forall x y z, gtb x y = false -> gtb y z = false -> gtb x z = false) by (intros x y z; rewrite !G, !Z.ltb_ge; lia).
  assert (G3 : forall x y, gtb x y = true -> gtb y x = false) by (intros x y; rewrite !G, Z.ltb_lt, Z.ltb_ge; lia).
  destruct (max_from_first gtb G1 G2 G3 l b) as (l1 & l2 & E & F).
  exists (length l1). rewrite E, nth_error_app2, Nat.sub_diag by lia. split; [reflexivity|].
  intros j f' z z' N Z1 Z2. rewrite (closeness_unique _ _ _ _ Z1 (zclose_closeness _ _)), (closeness_unique _ _ _ _ Z2 (zclose_closeness _ _)).
  split.
  - assert (Hin : In f' (b :: l)) by (rewrite E; eapply nth_error_In; eauto).
    pose proof (max_from_ge gtb G1 G2 G3 l b f' Hin) as M. rewrite G, Z.ltb_ge in M. exact M.
  - intro J. rewrite nth_error_app1 in N by lia. apply nth_error_In in N. specialize (F _ N). rewrite G, Z.ltb_lt in F. exact F.
Qed.
Lemma first_closest_In : forall want l f, first_closest want l f -> In f l.
Proof. intros want l f (i & N & _). eapply nth_error_In; eauto. Qed.

Lemma filter_ext_has : forall used lex, filter (has_all used) lex = filter (hasb used) lex.
Proof. intros. apply filter_ext. intro. apply has_all_hasb. Qed.

(** ** C15 *)
Lemma inflect_closest : forall M p req lex r, get_lexeme M p = Ok lex -> inflect M p req = Ok r ->
  exists used want, used_requirement lex req used /\ target (m_tc M) p used want /\
    match r with
    | None => forall f, In f lex -> ~ has used f
    | Some f => first_closest want (filter (hasb used) lex) f
    end.
Proof.
  intros M p req lex r L H. destruct (inflect_shape M p req lex L) as (used & U & E). rewrite E in H. clear E.
  destruct (updated_grammemes (m_tc M) (p_tag p) used) as [want|] eqn:W; [|discriminate H]. cbn [bind] in H. apply Ok_inj in H.
  exists used, want. split; auto. split; [intro x; apply (updated_spec _ _ _ _ W)|]. subst r.
  destruct (max_first _ _) as [f|] eqn:X.
  - apply max_first_closest in X. rewrite <- filter_ext_has. exact X.
  - destruct (filter (has_all used) lex) as [|f0 r] eqn:F; [|discriminate X]. rewrite filter_nil in F.
    intros f Hf HH. apply has_all_has in HH. rewrite (F f Hf) in HH. discriminate.
Qed.
Lemma inflect_none : forall M p req lex, get_lexeme M p = Ok lex ->
  inflect M p req = Ok None -> forall f, In f lex -> ~ has req f /\ exists used, commoned req used /\ ~ has used f.
Proof.
  intros M p req lex L H f Hf. destruct (inflect_closest _ _ _ _ _ L H) as (used & want & U & _ & N).
  destruct U as [[-> (f0 & Hf0 & R)]|[U1 U2]]; [destruct (N f0 Hf0 R)|]. split; eauto.
Qed.
Lemma inflect_none_complete : forall M p req lex, get_lexeme M p = Ok lex -> tc_known (m_tc M) <> [] ->
  (forall used, commoned req used -> forall g, In g used -> In g (tc_known (m_tc M))) ->
  (forall f, In f lex -> ~ has req f) -> (forall used, commoned req used -> forall f, In f lex -> ~ has used f) ->
  inflect M p req = Ok None.
Proof.
  intros M p req lex L K Kn N1 N2. destruct (inflect_shape M p req lex L) as (used & U & E). rewrite E. clear E.
  destruct U as [[-> (f0 & Hf0 & R)]|[U1 U2]]; [destruct (N1 f0 Hf0 R)|].
  destruct (proj1 (proj1 (updated_raises (m_tc M) (p_tag p) used K)) (Kn used U1)) as (want & ->). cbn [bind].
  replace (filter (has_all used) lex) with (@nil parse); [reflexivity|]. symmetry. apply filter_nil.
  intros f Hf. destruct (has_all used f) eqn:X; auto. apply has_all_has in X. destruct (N2 used U1 f Hf X).
Qed.

(** ** C17 *)
Lemma inflect_known : forall M p req lex, get_lexeme M p = Ok lex -> tc_known (m_tc M) <> [] ->
  exists used, used_requirement lex req used /\
    ((forall g, In g used -> In g (tc_known (m_tc M))) <-> exists r, inflect M p req = Ok r) /\
    (~ (forall g, In g used -> In g (tc_known (m_tc M))) <-> inflect M p req = Err ValueError).
Proof.
  intros M p req lex L K. destruct (inflect_shape M p req lex L) as (used & U & E). exists used. split; auto. rewrite E. clear E.
  destruct (updated_raises (m_tc M) (p_tag p) used K) as [A B]. split.
  - rewrite A. split; intros (r & H).
    + rewrite H. cbn [bind]. eauto.
    + destruct (updated_grammemes (m_tc M) (p_tag p) used); [eauto|discriminate H].
  - rewrite B. split; intro H.
    + rewrite H. reflexivity.
    + destruct (updated_grammemes (m_tc M) (p_tag p) used) as [|e]; [discriminate H|]. cbn [bind] in H. injection H as ->. reflexivity.
Qed.

(** ** C16 *)
Lemma nodup_incl_eq : forall (a b : sset), NoDup a -> NoDup b -> incl a b -> length b <= length a -> incl b a.
Proof. intros. apply NoDup_length_incl; auto. Qed.
Lemma inflect_same : forall M p req lex, get_lexeme M p = Ok lex ->
  (forall g, In g req -> In g (tc_known (m_tc M))) ->
  (exists f0, In f0 lex /\ forall x, In x (t_gr (p_tag f0)) <-> In x (t_gr (p_tag p))) ->
  (forall g, In g req -> In g (t_gr (p_tag p))) ->
  (forall g x, In g req -> In x (t_gr (p_tag p)) -> ~ In x (incompat_of (m_tc M) g)) ->
  exists f, inflect M p req = Ok (Some f) /\ In f lex /\ forall x, In x (t_gr (p_tag f)) <-> In x (t_gr (p_tag p)).
Proof.
  intros M p req lex L K (f0 & Hf0 & S0) I NI. destruct (inflect_shape M p req lex L) as (used & U & E).
  assert (used = req).
  { destruct U as [[-> _]|[_ U2]]; auto. destruct (U2 f0 Hf0). intros g Hg. apply S0. auto. }
  subst used. destruct (updated_ok (m_tc M) (p_tag p) req K) as (want & W). rewrite W in E. cbn [bind] in E.
  assert (EW : forall x, In x want <-> In x (t_gr (p_tag p))).
  { intro x. rewrite (updated_spec _ _ _ _ W x). split; [intros [[?|?] _]; auto|]. intro. split; auto. }
  assert (C0 : In f0 (filter (has_all req) lex)).
  { apply filter_In. split; auto. apply has_all_has. intros g Hg. apply S0. auto. }
  destruct (max_first (fun a b => Qgtb (similarity want a) (similarity want b)) (filter (has_all req) lex)) as [f|] eqn:X.
  2:{ destruct (filter (has_all req) lex); [destruct C0|discriminate X]. }
  exists f. split; [exact E|]. pose proof (max_first_closest _ _ _ X) as (i & N & F).
  assert (Hf : In f (filter (has_all req) lex)) by (eapply nth_error_In; eauto). split; [apply filter_In in Hf; tauto|].
  apply In_nth_error in C0 as (j & Nj). destruct (F j f0 _ _ Nj (zclose_closeness want f) (zclose_closeness want f0)) as [Le _].
  unfold zclose in Le.
  assert (Z0 : slen (ssymdiff want (t_gr (p_tag f0))) = 0).
  { assert (Em : ssymdiff want (t_gr (p_tag f0)) = []).
    { destruct (ssymdiff want (t_gr (p_tag f0))) as [|x r] eqn:Y; auto. exfalso.
      assert (Hx : In x (ssymdiff want (t_gr (p_tag f0)))) by (rewrite Y; left; auto).
      unfold ssymdiff, sdiff in Hx. apply in_app_iff in Hx as [Hx|Hx]; apply filter_In in Hx as [H1 H2]; apply negb_true_iff in H2;
        [apply EW, S0 in H1|apply S0, EW in H1]; apply smem_In in H1; congruence. }
    rewrite Em. reflexivity. }
  assert (I0 : slen (sinter want (t_gr (p_tag f0))) = slen want).
  { apply card_unique with (P := fun x => In x want); apply slen_card; intro x; [|tauto]. unfold sinter. rewrite filter_In. split; [tauto|].
    intro H. split; auto. apply smem_In. apply S0, EW. auto. }
  rewrite Z0, I0 in Le.
  assert (I1 : slen (sinter want (t_gr (p_tag f))) <= slen want).
  { unfold slen. apply NoDup_incl_length; [apply snodup_NoDup|]. intros x Hx. rewrite snodup_In in *. unfold sinter in Hx. apply filter_In in Hx. tauto. }
  assert (I2 : slen (ssymdiff want (t_gr (p_tag f))) = 0) by lia.
  assert (NS : ssymdiff want (t_gr (p_tag f)) = []).
  { unfold slen in I2. apply length_zero_iff_nil in I2. destruct (ssymdiff want (t_gr (p_tag f))) as [|x r] eqn:Y; auto. exfalso.
    assert (Hx : In x (snodup (x :: r))) by (apply snodup_In; left; auto). rewrite I2 in Hx. destruct Hx. }
  assert (D : forall x, ~ In x (ssymdiff want (t_gr (p_tag f)))) by (intros x Hx; rewrite NS in Hx; destruct Hx).
  intro x. rewrite <- EW. unfold ssymdiff, sdiff in D. specialize (D x). rewrite in_app_iff, !filter_In in D.
  split; intro H.
  - destruct (smem x want) eqn:Y; [apply smem_In in Y; exact Y|]. destruct D. right. split; [exact H|]. reflexivity.
  - destruct (smem x (t_gr (p_tag f))) eqn:Y; [apply smem_In in Y; exact Y|]. destruct D. left. split; [exact H|]. reflexivity.
Qed.

(** ** C14 *)
Lemma inflect_sound : forall M p req f, inflect M p req = Ok (Some f) ->
  exists lex, get_lexeme M p = Ok lex /\ In f lex /\
    (has req f \/ ((forall h, In h lex -> ~ has req h) /\ exists req', commoned req req' /\ has req' f)).
Proof.
  intros M p req f H. destruct (inflect_needs_lexeme _ _ _ _ H) as (lex & L). exists lex. split; auto.
  destruct (inflect_closest _ _ _ _ _ L H) as (used & want & U & _ & F). apply first_closest_In in F. apply filter_In in F as [F1 F2].
  rewrite <- has_all_hasb in F2. apply has_all_has in F2. split; auto. destruct U as [[-> _]|[U1 U2]]; auto. right. split; auto. exists used; auto.
Qed.

(** ** C18 *)
Lemma index_like : forall n, (agreement_index n = 0 <-> like_1 n) /\ (agreement_index n = 1 <-> like_2 n) /\ (agreement_index n = 2 <-> like_5 n).
Proof.
  intro n. unfold agreement_index, like_5, like_1, like_2.
  assert (A := Z.mod_pos_bound n 10 ltac:(lia)). assert (B := Z.mod_pos_bound n 100 ltac:(lia)).
  assert (E : (n mod 10 = (n mod 100) mod 10)%Z) by (apply Znumtheory.Zmod_div_mod; [lia|lia|exists 10%Z; reflexivity]).
  assert (D : (n mod 100 = 10 * (n mod 100 / 10) + n mod 10)%Z) by (rewrite E; apply Z.div_mod; lia).
  set (m := (n mod 100)%Z) in *. set (d := (n mod 10)%Z) in *. set (q := (m / 10)%Z) in *. clearbody m d q. clear E.
  rewrite Z.geb_leb, Z.geb_leb.
  destruct (Z.eqb_spec d 1), (Z.eqb_spec m 11), (Z.leb_spec 2 d), (Z.leb_spec d 4), (Z.ltb_spec m 10), (Z.leb_spec 20 m); cbn [andb orb negb];
    (split; [|split]); split; intro; try discriminate; try reflexivity; try lia; try (exfalso; lia).
Qed.
Lemma like_mod : forall n, agreement_index n = agreement_index (n mod 100).
Proof.
  intro n. unfold agreement_index. rewrite Z.mod_mod by lia.
  replace ((n mod 100) mod 10)%Z with (n mod 10)%Z; [reflexivity|]. apply Znumtheory.Zmod_div_mod; [lia|lia|exists 10%Z; reflexivity].
Qed.

Lemma opt_is_iff : forall a s, opt_is a s = true <-> a = Some (u s).
Proof.
  intros [x|] s; cbn [opt_is]; [|split; discriminate]. rewrite str_eqb_eq. split; [intros ->; auto|intro H; injection H; auto].
Qed.
Lemma opt_in_iff : forall a l, opt_in a l = true <-> exists s, In s l /\ a = Some (u s).
Proof.
  intros a l. unfold opt_in. rewrite existsb_exists. split; intros (s & H1 & H2); exists s; (split; [exact H1|]); apply opt_is_iff; exact H2.
Qed.
Lemma opt_is_false : forall a s, opt_is a s = false <-> a <> Some (u s).
Proof. intros. rewrite <- opt_is_iff. destruct (opt_is a s); split; congruence. Qed.
Lemma agree_noun_direct : forall pick t n, attr pick PARTS_OF_SPEECH t = Some (u "NOUN") ->
  attr pick CASES t = Some (u "nomn") \/ attr pick CASES t = Some (u "accs") ->
  (like_1 n -> attr pick CASES t = Some (u "nomn") -> numeral_agreement pick t n = map (fun s => Some (u s)) ["sing"; "nomn"]%string) /\
  (like_1 n -> attr pick CASES t = Some (u "accs") -> numeral_agreement pick t n = map (fun s => Some (u s)) ["sing"; "accs"]%string) /\
  (like_2 n -> numeral_agreement pick t n = map (fun s => Some (u s)) ["sing"; "gent"]%string) /\
  (like_5 n -> numeral_agreement pick t n = map (fun s => Some (u s)) ["plur"; "gent"]%string).
Proof.
  intros pick t n P C. destruct (index_like n) as (I0 & I1 & I2). unfold numeral_agreement. rewrite P.
  split; [|split; [|split]].
  - intros H E. rewrite (proj2 I0 H), E. reflexivity.
  - intros H E. rewrite (proj2 I0 H), E. reflexivity.
  - intros H. rewrite (proj2 I1 H). destruct C as [-> | ->]; reflexivity.
  - intros H. rewrite (proj2 I2 H). destruct C as [-> | ->]; reflexivity.
Qed.
Lemma agree_noun_oblique : forall pick t n, attr pick PARTS_OF_SPEECH t = Some (u "NOUN") ->
  attr pick CASES t <> Some (u "nomn") -> attr pick CASES t <> Some (u "accs") ->
  (like_1 n -> numeral_agreement pick t n = [Some (u "sing"); attr pick CASES t]) /\
  (~ like_1 n -> numeral_agreement pick t n = [Some (u "plur"); attr pick CASES t]).
Proof.
  intros pick t n P C1 C2. destruct (index_like n) as (I0 & I1 & I2). unfold numeral_agreement. rewrite P.
  assert (X : opt_in (attr pick CASES t) ["nomn"; "accs"]%string = false).
  { unfold opt_in. cbn [existsb]. rewrite (proj2 (opt_is_false _ _) C1), (proj2 (opt_is_false _ _) C2). reflexivity. }
  rewrite X. change (opt_in (Some (u "NOUN")) ["NOUN"; "ADJF"; "PRTF"]%string) with true. change (opt_is (Some (u "NOUN")) "NOUN") with true. cbn [andb negb].
  split; intro H.
  - rewrite (proj2 I0 H). reflexivity.
  - destruct (Nat.eqb_spec (agreement_index n) 0) as [E|E]; [destruct H; apply I0; exact E|reflexivity].
Qed.
Lemma agree_adj : forall pick t n pos, pos = u "ADJF" \/ pos = u "PRTF" -> attr pick PARTS_OF_SPEECH t = Some pos ->
  (like_1 n -> attr pick CASES t = Some (u "nomn") -> numeral_agreement pick t n = map (fun s => Some (u s)) ["sing"; "nomn"]%string) /\
  (like_1 n -> attr pick CASES t <> Some (u "nomn") -> numeral_agreement pick t n = map (fun s => Some (u s)) ["sing"; "accs"]%string) /\
  (like_2 n -> attr pick GENDERS t = Some (u "femn") -> numeral_agreement pick t n = map (fun s => Some (u s)) ["plur"; "nomn"]%string) /\
  (like_2 n -> attr pick GENDERS t <> Some (u "femn") -> numeral_agreement pick t n = map (fun s => Some (u s)) ["plur"; "gent"]%string) /\
  (like_5 n -> numeral_agreement pick t n = map (fun s => Some (u s)) ["plur"; "gent"]%string).
Proof.
  intros pick t n pos HP P. destruct (index_like n) as (I0 & I1 & I2). unfold numeral_agreement. rewrite P.
  assert (A1 : opt_in (Some pos) ["NOUN"; "ADJF"; "PRTF"]%string = true) by (destruct HP as [-> | ->]; reflexivity).
  assert (A2 : opt_is (Some pos) "NOUN" = false) by (destruct HP as [-> | ->]; reflexivity).
  assert (A3 : opt_in (Some pos) ["ADJF"; "PRTF"]%string = true) by (destruct HP as [-> | ->]; reflexivity).
  rewrite A1, A2, A3. cbn [negb andb]. cbv zeta. clear A1 A2 A3.
  split; [|split; [|split; [|split]]].
  - intros H E. rewrite (proj2 I0 H), E. reflexivity.
  - intros H E. apply opt_is_false in E. rewrite (proj2 I0 H), E. reflexivity.
  - intros H E. rewrite (proj2 I1 H), E. reflexivity.
  - intros H E. apply opt_is_false in E. rewrite (proj2 I1 H), E. reflexivity.
  - intros H. rewrite (proj2 I2 H). destruct (opt_is (attr pick GENDERS t) "femn"); reflexivity.
Qed.
Lemma agree_other : forall pick t n, attr pick PARTS_OF_SPEECH t <> Some (u "NOUN") -> attr pick PARTS_OF_SPEECH t <> Some (u "ADJF") ->
  attr pick PARTS_OF_SPEECH t <> Some (u "PRTF") -> numeral_agreement pick t n = [].
Proof.
  intros pick t n H1 H2 H3. unfold numeral_agreement. unfold opt_in at 1. cbn [existsb].
  rewrite (proj2 (opt_is_false _ _) H1), (proj2 (opt_is_false _ _) H2), (proj2 (opt_is_false _ _) H3). reflexivity.
Qed.
Lemma agree_mod : forall pick t n, numeral_agreement pick t n = numeral_agreement pick t (n mod 100).
Proof. intros. unfold numeral_agreement. rewrite <- like_mod. reflexivity. Qed.
Lemma all_some_spec : forall {A} (l : list (option A)) r, all_some l = Some r <-> l = map Some r.
Proof.
  intros A. induction l as [|[x|] l IH]; intros r; cbn [all_some].
  - split; [intro H; injection H as <-; reflexivity|]. destruct r; [reflexivity|discriminate].
  - destruct (all_some l) as [r'|] eqn:E; cbn [option_map].
    + split; [intro H; injection H as <-; cbn [map]; rewrite (proj1 (IH r') eq_refl); reflexivity|]. destruct r as [|y r]; [discriminate|]. cbn [map].
      intro H. injection H as -> H. apply IH in H. injection H as ->. reflexivity.
    + split; [discriminate|]. destruct r as [|y r]; [discriminate|]. cbn [map]. intro H. injection H as -> H. apply IH in H. discriminate.
  - split; [discriminate|]. destruct r; discriminate.
Qed.
Lemma agree_sound : forall pick M p n f, make_agree_with_number pick M p n = Ok (Some f) ->
  exists lex req, get_lexeme M p = Ok lex /\ In f lex /\ numeral_agreement pick (p_tag p) n = map Some req /\
    (has req f \/ ((forall h, In h lex -> ~ has req h) /\ exists req', commoned req req' /\ has req' f)).
Proof.
  intros pick M p n f H. unfold make_agree_with_number, inflect_opt in H.
  destruct (all_some (numeral_agreement pick (p_tag p) n)) as [req|] eqn:E.
  - apply all_some_spec in E. destruct (inflect_sound _ _ _ _ H) as (lex & L & Hf & S). exists lex, req. auto.
  - destruct (get_lexeme M p); [|discriminate H]. cbn [bind] in H. destruct (assert_initialized (m_tc M)); discriminate H.
Qed.
Lemma agree_no_case : forall pick M p n lex, attr pick PARTS_OF_SPEECH (p_tag p) = Some (u "NOUN") -> attr pick CASES (p_tag p) = None ->
  get_lexeme M p = Ok lex -> tc_known (m_tc M) <> [] -> make_agree_with_number pick M p n = Err ValueError.
Proof.
  intros pick M p n lex P C L K. unfold make_agree_with_number.
  destruct (agree_noun_oblique pick (p_tag p) n P) as [A B]; [rewrite C; discriminate|rewrite C; discriminate|].
  destruct (index_like n) as (I0 & _).
  assert (E : exists x, numeral_agreement pick (p_tag p) n = [Some x; None]).
  { rewrite C in *. destruct (Nat.eq_dec (agreement_index n) 0) as [Z|Z]; [eexists; apply A, I0; auto|eexists; apply B; rewrite <- I0; auto]. }
  destruct E as (x & ->). unfold inflect_opt. cbn [all_some option_map]. rewrite L. cbn [bind]. unfold assert_initialized.
  destruct (tc_known (m_tc M)); [destruct (K eq_refl)|reflexivity].
Qed.
Lemma like_kinds : forall n, (like_1 n \/ like_2 n \/ like_5 n) /\ ~ (like_1 n /\ like_2 n) /\ ~ (like_1 n /\ like_5 n) /\ ~ (like_2 n /\ like_5 n).
Proof. intro n. unfold like_5, like_1, like_2. lia. Qed.
