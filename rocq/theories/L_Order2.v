(** * The order of dictionary records in the results (C80) *)
From Coq Require Import String List NArith ZArith QArith Bool Lia Permutation Sorted ZifyN ZifyNat Zify.
From Verif Require Import Py Uni Tagset Dawg Utils Shapes Dict Units Analyzer ConfigRu ConfigUk Compile Spec Spec2 Spec3 Spec30.
From Verif Require Import L_Base L_Tagset L_Groups L_Compile L_Compile2 L_Compile4 L_EndToEnd L_ByUnit L_Order.
Import ListNotations.
Local Open Scope nat_scope.
Local Open Scope list_scope.
Ltac Zify.zify_post_hook ::= Z.to_euclidean_division_equations.

Lemma place_small : forall x y, (x < y -> y < 52 -> place x < place y)%N.
Proof.
  intros x y L H. unfold place.
  destruct (x =? 62)%N eqn:A1; [apply N.eqb_eq in A1; lia|]. destruct (x =? 63)%N eqn:A2; [apply N.eqb_eq in A2; lia|]. destruct (52 <=? x)%N eqn:A3; [apply N.leb_le in A3; lia|].
  destruct (y =? 62)%N eqn:B1; [apply N.eqb_eq in B1; lia|]. destruct (y =? 63)%N eqn:B2; [apply N.eqb_eq in B2; lia|]. destruct (52 <=? y)%N eqn:B3; [apply N.leb_le in B3; lia|]. lia.
Qed.
Lemma place_large : forall x y, (x < 52 -> 52 <= y -> y < 64 -> place y < place x)%N.
Proof.
  intros x y Hx L H. unfold place.
  destruct (x =? 62)%N eqn:A1; [apply N.eqb_eq in A1; lia|]. destruct (x =? 63)%N eqn:A2; [apply N.eqb_eq in A2; lia|]. destruct (52 <=? x)%N eqn:A3; [apply N.leb_le in A3; lia|].
  destruct (y =? 62)%N eqn:B1; [lia|]. destruct (y =? 63)%N eqn:B2; [lia|]. apply N.eqb_neq in B1, B2. destruct (52 <=? y)%N eqn:B3; [|apply N.leb_gt in B3; lia]. lia.
Qed.
Lemma forms_order : forall p i j, i < j -> j < 208 -> record_before (p, i) (p, j).
Proof.
  intros p i j L H. unfold record_before, signs2. cbn [fst snd]. assert (Hi : (N.of_nat i < N.of_nat j)%N) by lia. assert (Hj : (N.of_nat j < 208)%N) by lia. clear L H.
  generalize dependent (N.of_nat i). generalize dependent (N.of_nat j). generalize (N.of_nat p). clear. intros p j Hj i Hi.
  assert (I1 : (i / 16384 = 0)%N) by lia. assert (J1 : (j / 16384 = 0)%N) by lia. assert (I2 : (i / 256 mod 64 = 0)%N) by lia. assert (J2 : (j / 256 mod 64 = 0)%N) by lia.
  rewrite I1, J1, I2, J2. destruct (N.eq_dec (i / 4 mod 64) (j / 4 mod 64)) as [E|E].
  - rewrite E. exists [p / 1024; p / 16 mod 64; p mod 16 * 4 + 0; 0; j / 4 mod 64]%N, (i mod 4 * 16)%N, (j mod 4 * 16)%N, [], [].
    split; [reflexivity|]. split; [reflexivity|]. apply place_small; lia.
  - exists [p / 1024; p / 16 mod 64; p mod 16 * 4 + 0; 0]%N, (i / 4 mod 64)%N, (j / 4 mod 64)%N, [i mod 4 * 16]%N, [j mod 4 * 16]%N.
    split; [reflexivity|]. split; [reflexivity|]. apply place_small; lia.
Qed.
Lemma numeric_order : forall p q i j, p < q -> q < 13 -> (N.of_nat i < 65536)%N -> (N.of_nat j < 65536)%N -> record_before (p, i) (q, j).
Proof.
  intros p q i j L H Hi Hj. unfold record_before, signs2. cbn [fst snd]. assert (Hp : (N.of_nat p < N.of_nat q)%N) by lia. assert (Hq : (N.of_nat q < 13)%N) by lia. clear L H.
  generalize dependent (N.of_nat i). generalize dependent (N.of_nat j). generalize dependent (N.of_nat p). generalize dependent (N.of_nat q). clear. intros q Hq p Hp j Hj i Hi.
  assert (A1 : (p / 1024 = 0)%N) by lia. assert (A2 : (q / 1024 = 0)%N) by lia. assert (A3 : (p / 16 mod 64 = 0)%N) by lia. assert (A4 : (q / 16 mod 64 = 0)%N) by lia.
  rewrite A1, A2, A3, A4. do 5 eexists. split; [apply (eq_refl ([0; 0]%N ++ _ :: _))|]. split; [apply (eq_refl ([0; 0]%N ++ _ :: _))|]. apply place_small; lia.
Qed.
Lemma paradigm_order : forall p q i j, p / 16 = q / 16 -> p mod 16 < 13 -> 13 <= q mod 16 -> (N.of_nat i < 65536)%N -> (N.of_nat j < 65536)%N -> record_before (q, j) (p, i).
Proof.
  intros p q i j E H1 H2 Hi Hj. unfold record_before, signs2. cbn [fst snd].
  assert (E' : (N.of_nat p / 16 = N.of_nat q / 16)%N) by lia. assert (H1' : (N.of_nat p mod 16 < 13)%N) by lia. assert (H2' : (13 <= N.of_nat q mod 16)%N) by lia. clear E H1 H2.
  generalize dependent (N.of_nat i). generalize dependent (N.of_nat j). generalize dependent (N.of_nat p). generalize dependent (N.of_nat q). clear. intros q H2 p E H1 j Hj i Hi.
  assert (A : (p / 1024 = q / 1024)%N) by lia. rewrite E, A.
  do 5 eexists. split; [apply (eq_refl ([q / 1024; q / 16 mod 64]%N ++ _ :: _))|]. split; [apply (eq_refl ([q / 1024; q / 16 mod 64]%N ++ _ :: _))|]. apply place_large; lia.
Qed.

(** ** sorted results *)
Lemma SS_app : forall {A} (R : A -> A -> Prop) a b, StronglySorted R a -> StronglySorted R b -> (forall x y, In x a -> In y b -> R x y) -> StronglySorted R (a ++ b).
Proof.
  intros A R a b Sa Sb H. induction Sa as [|x a Sa IH F]; [exact Sb|]. cbn. constructor.
  - apply IH. intros y z I. apply H. right. exact I.
  - apply Forall_app. split; [exact F|]. apply Forall_forall. intros y I. apply H; [left; reflexivity|exact I].
Qed.
Lemma SS_map : forall {A B} (f : A -> B) (R : B -> B -> Prop) l, StronglySorted (fun a b => R (f a) (f b)) l -> StronglySorted R (map f l).
Proof. intros A B f R l S. induction S as [|a l S IH F]; cbn; constructor; [exact IH|]. rewrite Forall_map. exact F. Qed.
Lemma SS_unmap : forall {A B} (f : A -> B) (R : B -> B -> Prop) l, StronglySorted R (map f l) -> StronglySorted (fun a b => R (f a) (f b)) l.
Proof. intros A B f R l. induction l as [|a l IH]; cbn; intros S; constructor; inversion S; subst; auto. rewrite Forall_map in H2. exact H2. Qed.
Lemma SS_flat_map : forall {A B} (f : A -> list B) (R : A -> A -> Prop) (S : B -> B -> Prop) l,
  StronglySorted R l -> (forall a, In a l -> StronglySorted S (f a)) -> (forall a b x y, In a l -> In b l -> R a b -> In x (f a) -> In y (f b) -> S x y) -> StronglySorted S (flat_map f l).
Proof.
  intros A B f R S l H. induction H as [|a l H IH F]; intros H1 H2; [constructor|]. cbn. apply SS_app.
  - apply H1. left. reflexivity.
  - apply IH; [intros b I; apply H1; right; exact I|intros b c x y I J; apply H2; right; assumption].
  - intros x y Ix Iy. apply in_flat_map in Iy as (b & Ib & Iy). rewrite Forall_forall in F. exact (H2 a b x y (or_introl eq_refl) (or_intror Ib) (F b Ib) Ix Iy).
Qed.
Lemma SS_filter : forall {A} (R : A -> A -> Prop) f l, StronglySorted R l -> StronglySorted R (filter f l).
Proof.
  intros A R f l S. induction S as [|a l S IH F]; [constructor|]. cbn. destruct (f a); [|exact IH]. constructor; [exact IH|].
  rewrite Forall_forall in *. intros b I. apply filter_In in I as [I _]. auto.
Qed.
Definition shown (p : parse) := (p_word p, p_stack p).
Definition shown_by (x y : str * list method) : Prop :=
  exists a i b j, snd x = [MDict (Root 0) (fst x) a i] /\ snd y = [MDict (Root 0) (fst y) b j] /\ record_before (a, i) (b, j).
Lemma vals_shown : forall w vals, StronglySorted record_before vals -> StronglySorted shown_by (map (fun v : nat * nat => (w, [MDict (Root 0) w (fst v) (snd v)])) vals).
Proof.
  intros w vals S. apply SS_map. refine (SS_mono _ _ (fun _ => True) _ _ _ S); [|apply Forall_forall; intros; exact I].
  intros [a i] [b j] _ _ H. exists a, i, b, j. auto.
Qed.
Lemma iter_sorted : forall M prefix ps, wf_dict (m_dict M) -> consistent_dict (m_dict M) -> rsorted record_before (d_words (m_dict M)) ->
  iter_known_word_parses M prefix = Ok ps -> StronglySorted by_word_and_record ps.
Proof.
  intros M prefix ps W C [K V] H. destruct (iter_known M prefix W C) as (ps' & H' & E & _). rewrite H in H'. apply Ok_inj in H'. subst ps'.
  apply (SS_unmap shown (fun x y => text_before (fst x) (fst y) \/ (fst x = fst y /\ shown_by x y)) ps).
  change (map shown ps) with (map (fun p => (p_word p, p_stack p)) ps). rewrite E.
  apply (SS_flat_map _ (fun x y => text_before (fst x) (fst y))).
  - apply SS_filter. apply SS_unmap. exact K.
  - intros [w vals] I. apply filter_In in I as [I _]. cbn [fst snd]. destruct (V w vals I) as [_ S].
    refine (SS_mono _ _ (fun x => fst x = w) _ _ _ (vals_shown w vals S)); [intros x y Ex Ey H1; right; split; [congruence|exact H1]|].
    apply Forall_forall. intros x J. apply in_map_iff in J as (v & <- & _). reflexivity.
  - intros [w vals] [w' vals'] x y _ _ L Ix Iy. cbn [fst snd] in *. apply in_map_iff in Ix as (v & <- & _). apply in_map_iff in Iy as (v' & <- & _). left. exact L.
Qed.
Lemma NoDup_SS : forall {A} (l : list A), NoDup l -> StronglySorted (fun a b => a <> b) l.
Proof. intros A l N. induction N as [|a l I N IH]; constructor; [exact IH|]. apply Forall_forall. intros b J ->. auto. Qed.
Lemma readings_sorted : forall M lower ps, rsorted record_before (d_words (m_dict M)) -> subst_proper (m_subst M) -> dictionary_readings M lower ps ->
  StronglySorted (fun p q => p_word p = p_word q -> by_record p q) ps.
Proof.
  intros M lower ps [K V] SP [(sp & _ & N & E) _]. specialize (N SP).
  apply (SS_unmap shown (fun x y => fst x = fst y -> shown_by x y) ps). change (map shown ps) with (map (fun p => (p_word p, p_stack p)) ps). rewrite E.
  apply (SS_flat_map _ (fun x y => x <> y)).
  - exact (NoDup_SS _ N).
  - intros w _. destruct (sget w (d_words (m_dict M))) as [vals|] eqn:G; [|constructor]. apply (dget_In str_eqb str_eqb_eq) in G. destruct (V w vals G) as [_ S].
    refine (SS_mono _ _ (fun _ => True) _ _ _ (vals_shown w vals S)); [intros x y _ _ H _; exact H|apply Forall_forall; intros; exact I].
  - intros w w' x y _ _ D Ix Iy. apply in_map_iff in Ix as (v & <- & _). apply in_map_iff in Iy as (v' & <- & _). cbn [fst]. intros F. contradiction.
Qed.
Lemma compiled_readings : forall n o lx links x M word ps, compile_parsed_dict o lx links = Ok x -> loaded x (m_dict M) -> m_prob M = None -> subst_proper (m_subst M) ->
  (has_units M RU_DEFAULT_UNITS /\ ~ In word RU_INITIAL_LETTERS) \/
  (has_units M UK_DEFAULT_UNITS /\ ~ In word UK_INITIAL_LETTERS /\ is_roman_number word = false /\ is_latin (m_uni M) word = Ok false) ->
  in_dictionary M (u_lower (m_uni M) word) -> parse_f n M word = Ok ps ->
  StronglySorted (fun p q => p_word p = p_word q -> by_record p q) ps.
Proof.
  intros n o lx links x M word ps Hc Hl HP SP HU ID H. assert (S := proj1 (compile_parsed_sorted _ _ _ _ Hc)).
  assert (Hc' := Hc). unfold compile_parsed_dict in Hc'. apply bind_ok in Hc' as (lxs & _ & Hc'). destruct (compiled_wf' _ _ _ _ Hc' Hl) as (W & Cn & _).
  assert (Ew : d_words (m_dict M) = x_words x) by (destruct Hl as (_ & _ & _ & _ & Ew & _); exact Ew). rewrite <- Ew in S.
  apply (readings_sorted M (u_lower (m_uni M) word)); [exact S|exact SP|].
  destruct HU as [[HU NI]|(HU & NI & NR & NL)]; [exact (ru_dictionary_word n M word ps HU HP W Cn ID NI H)|exact (uk_dictionary_word n M word ps HU HP W Cn ID NI NR NL H)].
Qed.
Lemma compiled_iter : forall o lx links x M prefix ps, compile_parsed_dict o lx links = Ok x -> loaded x (m_dict M) ->
  iter_known_word_parses M prefix = Ok ps -> StronglySorted by_word_and_record ps.
Proof.
  intros o lx links x M prefix ps Hc Hl H. assert (S := proj1 (compile_parsed_sorted _ _ _ _ Hc)).
  assert (Hc' := Hc). unfold compile_parsed_dict in Hc'. apply bind_ok in Hc' as (lxs & _ & Hc'). destruct (compiled_wf' _ _ _ _ Hc' Hl) as (W & Cn & _).
  assert (Ew : d_words (m_dict M) = x_words x) by (destruct Hl as (_ & _ & _ & _ & Ew & _); exact Ew). rewrite <- Ew in S. exact (iter_sorted M prefix ps W Cn S H).
Qed.
Lemma compiled_unique : forall o lx links x o' lx' links' y, compile_parsed_dict o lx links = Ok x -> compile_parsed_dict o' lx' links' = Ok y ->
  ((forall w v, recorded (x_words x) w v <-> recorded (x_words y) w v) -> x_words x = x_words y) /\
  (forall k d e, nth_error (x_pred x) k = Some d -> nth_error (x_pred y) k = Some e -> (forall w v, recorded d w v <-> recorded e w v) -> d = e).
Proof.
  intros o lx links x o' lx' links' y Hx Hy. destruct (compile_parsed_sorted _ _ _ _ Hx) as [Wx Px]. destruct (compile_parsed_sorted _ _ _ _ Hy) as [Wy Py]. split.
  - apply (rsorted_unique record_before); [intros a; apply signs_irr|intros a b; apply signs_asym|assumption|assumption].
  - intros k d e Hd He. apply (rsorted_unique record3_before); [intros a; apply signs_irr|intros a b; apply signs_asym|apply Px; exact (nth_error_In _ _ Hd)|apply Py; exact (nth_error_In _ _ He)].
Qed.
