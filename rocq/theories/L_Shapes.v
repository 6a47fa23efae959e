(** * Proofs about shapes (C44-C47) *)
From Coq Require Import String List NArith ZArith Bool Lia.
From Verif Require Import Py Uni Shapes Spec2 L_Base.
Import ListNotations.
Local Open Scope nat_scope.
Local Open Scope list_scope.

Lemma icase_iff : forall c x, icase c x = true <-> roman_letter c x.
Proof.
  intros c x. unfold icase, roman_letter. rewrite !orb_true_iff, andb_true_iff, orb_true_iff, !N.eqb_eq.
  change (chr "I") with 73%N. tauto.
Qed.
(** the matcher accepts exactly the spellings of the words [L] *)
Definition accepts (m : matcher) (L : list str) : Prop :=
  forall s r, In r (m s) <-> exists w w', In w L /\ Forall2 roman_letter w w' /\ s = w' ++ r.
Definition cat2 (L L' : list str) : list str := flat_map (fun a => map (fun b => a ++ b) L') L.
Lemma acc_seq : forall a b L L', accepts a L -> accepts b L' -> accepts (m_seq a b) (cat2 L L').
Proof.
  intros a b L L' A B s r. unfold m_seq, cat2. rewrite in_flat_map. split.
  - intros (s1 & H1 & H2). apply A in H1 as (w1 & w1' & I1 & F1 & ->). apply B in H2 as (w2 & w2' & I2 & F2 & ->).
    exists (w1 ++ w2), (w1' ++ w2'). split; [|split; [apply Forall2_app; auto|rewrite app_assoc; auto]].
    apply in_flat_map. exists w1. split; auto. apply in_map_iff. eauto.
  - intros (w & w' & I & F & ->). apply in_flat_map in I as (w1 & I1 & I). apply in_map_iff in I as (w2 & <- & I2).
    apply Forall2_app_inv_l in F as (w1' & w2' & F1 & F2 & ->). exists (w2' ++ r). split.
    + apply A. exists w1, w1'. rewrite app_assoc. auto.
    + apply B. exists w2, w2'. auto.
Qed.
Lemma acc_alt : forall a b L L', accepts a L -> accepts b L' -> accepts (m_alt a b) (L ++ L').
Proof.
  intros a b L L' A B s r. unfold m_alt. rewrite in_app_iff. rewrite (A s r), (B s r). split.
  - intros [(w & w' & I & H)|(w & w' & I & H)]; exists w, w'; rewrite in_app_iff; auto.
  - intros (w & w' & I & H). apply in_app_iff in I as [I|I]; [left|right]; exists w, w'; auto.
Qed.
Lemma acc_eps : accepts m_eps [[]].
Proof.
  intros s r. simpl. split.
  - intros [->|[]]. exists [], []. simpl. auto.
  - intros (w & w' & [<-|[]] & F & ->). inversion F; subst. auto.
Qed.
Lemma acc_lit : forall c, accepts (m_lit c) [[c]].
Proof.
  intros c s r. unfold m_lit. split.
  - destruct s as [|x s]; [intros []|]. destruct (icase c x) eqn:E; [|intros []]. intros [->|[]].
    exists [c], [x]. split; [left; auto|]. split; auto. constructor; [apply icase_iff; auto|constructor].
  - intros (w & w' & [<-|[]] & F & ->). inversion F as [|? x ? ? R F' E1 E2]; subst. inversion F'; subst. simpl.
    apply icase_iff in R. rewrite R. left; auto.
Qed.
Lemma acc_word : forall w, accepts (fold_right (fun c m => m_seq (m_lit c) m) m_eps w) [w].
Proof.
  induction w as [|c w IH]; simpl; [exact acc_eps|]. exact (acc_seq _ _ _ _ (acc_lit c) IH).
Qed.
Fixpoint upto_words (n : nat) (w : str) : list str :=
  match n with 0 => [[]] | S n' => cat2 [w] (upto_words n' w) ++ [[]] end.
Lemma acc_upto : forall n m w, accepts m [w] -> accepts (m_upto n m) (upto_words n w).
Proof.
  induction n as [|n IH]; intros m w H; [exact acc_eps|]. simpl m_upto. simpl upto_words.
  apply (acc_alt _ _ (cat2 [w] (upto_words n w)) _); [|exact acc_eps]. apply acc_seq; auto.
Qed.
Definition group_words (one five ten : char) : list str :=
  [[one; ten]] ++ ([[one; five]] ++ cat2 ([[five]] ++ [[]]) (upto_words 3 [one])).
Definition roman_words : list str :=
  cat2 (upto_words 4 [chr "M"]) (cat2 (group_words (chr "C") (chr "D") (chr "M"))
    (cat2 (group_words (chr "X") (chr "L") (chr "C")) (group_words (chr "I") (chr "V") (chr "X")))).
Lemma acc_roman : accepts roman_re roman_words.
Proof.
  unfold roman_re, roman_words, group_words.
  repeat first [apply acc_seq | apply acc_alt | apply acc_upto | exact acc_eps | apply acc_word | unfold m_opt].
Qed.
Lemma group_iff : forall one five ten w, In w (group_words one five ten) <-> exists d, d < 10 /\ w = roman_digit one five ten d.
Proof.
  intros one five ten w. split.
  - intros H. simpl in H.
    repeat match goal with H : _ \/ _ |- _ => destruct H as [H|H] end; try (destruct H); subst;
    match goal with |- exists d, _ /\ ?w = _ =>
      match w with
      | [one; ten] => exists 9 | [one; five] => exists 4 | [five; one; one; one] => exists 8 | [five; one; one] => exists 7
      | [five; one] => exists 6 | [five] => exists 5 | [one; one; one] => exists 3 | [one; one] => exists 2 | [one] => exists 1 | [] => exists 0
      end end; (split; [lia|reflexivity]).
  - intros (d & L & ->). do 10 (destruct d as [|d]; [simpl; tauto|]). lia.
Qed.
Lemma thousands_iff : forall w, In w (upto_words 4 [chr "M"]) <-> exists d, d < 5 /\ w = repeat (chr "M") d.
Proof.
  intros w. split.
  - intros H. simpl in H.
    repeat match goal with H : _ \/ _ |- _ => destruct H as [H|H] end; try (destruct H); subst;
    [exists 4|exists 3|exists 2|exists 1|exists 0]; (split; [lia|reflexivity]).
  - intros (d & L & ->). do 5 (destruct d as [|d]; [simpl; tauto|]). lia.
Qed.
Lemma cat2_In : forall L L' w, In w (cat2 L L') <-> exists a b, In a L /\ In b L' /\ w = a ++ b.
Proof.
  intros. unfold cat2. rewrite in_flat_map. split.
  - intros (a & Ha & H). apply in_map_iff in H as (b & <- & Hb). eauto.
  - intros (a & b & Ha & Hb & ->). exists a. split; auto. apply in_map_iff. eauto.
Qed.
Lemma roman_words_iff : forall w, In w roman_words <-> exists n, n < 5000 /\ w = roman n.
Proof.
  intros w. unfold roman_words. split.
  - intros H. apply cat2_In in H as (a & x & Ha & H & ->). apply cat2_In in H as (b & y & Hb & H & ->).
    apply cat2_In in H as (c & d & Hc & Hd & ->). apply thousands_iff in Ha as (m & Hm & ->).
    apply group_iff in Hb as (h & Hh & ->). apply group_iff in Hc as (t & Ht & ->). apply group_iff in Hd as (o & Ho & ->).
    exists (m * 1000 + h * 100 + t * 10 + o). split; [lia|]. unfold roman.
    assert (E1 : (m * 1000 + h * 100 + t * 10 + o) / 1000 = m) by (symmetry; apply (Nat.div_unique _ _ m (h * 100 + t * 10 + o)); lia).
    assert (E2 : (m * 1000 + h * 100 + t * 10 + o) / 100 = m * 10 + h) by (symmetry; apply (Nat.div_unique _ _ _ (t * 10 + o)); lia).
    assert (E3 : (m * 1000 + h * 100 + t * 10 + o) / 10 = m * 100 + h * 10 + t) by (symmetry; apply (Nat.div_unique _ _ _ o); lia).
    assert (E4 : (m * 1000 + h * 100 + t * 10 + o) mod 10 = o) by (symmetry; apply (Nat.mod_unique _ _ (m * 100 + h * 10 + t)); lia).
    assert (E5 : (m * 10 + h) mod 10 = h) by (symmetry; apply (Nat.mod_unique _ _ m); lia).
    assert (E6 : (m * 100 + h * 10 + t) mod 10 = t) by (symmetry; apply (Nat.mod_unique _ _ (m * 10 + h)); lia).
    rewrite E1, E2, E3, E4, E5, E6. reflexivity.
  - intros (n & L & ->). unfold roman. apply cat2_In. eexists _, _. split; [|split; [|reflexivity]].
    + apply thousands_iff. exists (n / 1000). split; auto. apply Nat.div_lt_upper_bound; lia.
    + apply cat2_In. eexists _, _. split; [|split; [|reflexivity]].
      * apply group_iff. exists (n / 100 mod 10). split; auto. apply Nat.mod_upper_bound; lia.
      * apply cat2_In. eexists _, _. split; [|split; [|reflexivity]]; apply group_iff; eexists; split; try reflexivity; apply Nat.mod_upper_bound; lia.
Qed.
Lemma roman_iff : forall token, is_roman_number token = true <->
  token <> [] /\ exists n w, n < 5000 /\ Forall2 roman_letter (roman n) w /\ (token = w \/ token = w ++ [10%N]).
Proof.
  intros token. unfold is_roman_number. destruct token as [|c token]; [split; [discriminate|intros [H _]; congruence]|].
  rewrite existsb_exists. split.
  - intros (r & H & D). split; [discriminate|]. apply acc_roman in H as (w & w' & I & F & E). apply roman_words_iff in I as (n & L & ->).
    exists n, w'. split; auto. split; auto. rewrite E. destruct r as [|x [|]]; try discriminate D.
    + left. apply app_nil_r.
    + right. apply N.eqb_eq in D. subst. auto.
  - intros (_ & n & w & L & F & E). assert (I : In (roman n) roman_words) by (apply roman_words_iff; eauto).
    destruct E as [E|E].
    + exists []. split; auto. apply acc_roman. exists (roman n), w. rewrite app_nil_r. auto.
    + exists [10%N]. split; auto. apply acc_roman. exists (roman n), w. auto.
Qed.

(** values *)
Lemma roman_values : forall n, n < 5000 -> roman_value (roman n) = Z.of_nat n.
Proof.
  assert (H : forallb (fun n => Z.eqb (roman_value (roman n)) (Z.of_nat n)) (seq 0 (5 * 1000)) = true) by (vm_compute; reflexivity).
  intros n L. rewrite forallb_forall in H. apply Z.eqb_eq. apply H. apply in_seq. lia.
Qed.
Lemma roman_nil : forall n, n < 5000 -> roman n = [] -> n = 0.
Proof. intros n L H. pose proof (roman_values n L) as V. rewrite H in V. simpl in V. lia. Qed.
Lemma roman_exact : forall token, is_roman_number token = true <->
  token = [10%N] \/ exists n w, 1 <= n < 5000 /\ Forall2 roman_letter (roman n) w /\ (token = w \/ token = w ++ [10%N]).
Proof.
  intros token. rewrite roman_iff. split.
  - intros (NE & n & w & L & F & E). destruct n as [|n].
    + change (roman 0) with (@nil char) in F. inversion F; subst. destruct E as [E|E]; [congruence|left; auto].
    + right. exists (S n), w. split; [lia|auto].
  - intros [->|(n & w & L & F & E)].
    + split; [discriminate|]. exists 0, []. split; [lia|]. split; [constructor|right; auto].
    + split; [|exists n, w; split; [lia|auto]]. intros ->. destruct E as [E|E]; [subst w|destruct w; discriminate].
      assert (E0 : roman n = []) by (destruct (roman n); [auto|inversion F]). apply roman_nil in E0; lia.
Qed.

(** ** Numbers *)
Lemma lstrip_pre : forall f s, exists a, s = a ++ lstrip_by f s /\ forall c, In c a -> f c = true.
Proof.
  intros f s. induction s as [|c s IH]; simpl; [exists []; split; [auto|intros ? []]|]. destruct (f c) eqn:E.
  - destruct IH as (a & E1 & E2). exists (c :: a). split; [simpl; congruence|]. intros x [<-|Hx]; auto.
  - exists []. split; [reflexivity|intros ? []].
Qed.
Lemma lstrip_app : forall f a s, (forall c, In c a -> f c = true) -> lstrip_by f (a ++ s) = lstrip_by f s.
Proof. intros f a s H. induction a as [|c a IH]; auto. simpl. rewrite H by (left; auto). apply IH. intros; apply H; right; auto. Qed.
Lemma lstrip_all : forall f a, (forall c, In c a -> f c = true) -> lstrip_by f a = [].
Proof. intros f a H. rewrite <- (app_nil_r a). rewrite lstrip_app; auto. Qed.
Lemma lstrip_stop : forall f c s, f c = false -> lstrip_by f (c :: s) = c :: s.
Proof. intros f c s H. simpl. rewrite H. auto. Qed.
Lemma strip_padded : forall U s, padded U (strip_by (num_space U) s) s.
Proof.
  intros U s. unfold padded, strip_by. destruct (lstrip_pre (num_space U) s) as (a & E1 & E2).
  destruct (lstrip_pre (num_space U) (rev (lstrip_by (num_space U) s))) as (b & E3 & E4).
  exists a, (rev b). split.
  - rewrite <- rev_app_distr, <- E3, rev_involutive. exact E1.
  - intros c Hc. apply in_app_iff in Hc as [Hc|Hc]; auto. apply E4, in_rev; auto.
Qed.
(** a core that does not begin or end with white space *)
Definition tight (U : uni) (s : str) : Prop :=
  (exists c r, s = c :: r /\ num_space U c = false) /\ (exists r c, s = r ++ [c] /\ num_space U c = false).
Lemma padded_strip : forall U core s, tight U core -> padded U core s -> strip_by (num_space U) s = core.
Proof.
  intros U core s [(c & r & E1 & N1) (r' & c' & E2 & N2)] (a & b & -> & H). unfold strip_by.
  rewrite lstrip_app by (intros; apply H, in_app_iff; auto).
  replace (lstrip_by (num_space U) (core ++ b)) with (core ++ b) by (rewrite E1; symmetry; exact (lstrip_stop _ _ _ N1)).
  rewrite rev_app_distr, lstrip_app by (intros x Hx; apply H, in_app_iff; right; apply in_rev; auto).
  replace (lstrip_by (num_space U) (rev core)) with (rev core); [apply rev_involutive|].
  rewrite E2, rev_app_distr. symmetry. exact (lstrip_stop _ _ _ N2).
Qed.
Lemma not_digit_95 : forall U, num_digit U 95%N = false. Proof. reflexivity. Qed.
Lemma digit_not_sign : forall U c, num_digit U c = true -> is_sign c = false.
Proof.
  intros U c H. unfold is_sign. destruct (N.eqb_spec c 43) as [->|]; [discriminate|]. destruct (N.eqb_spec c 45) as [->|]; [discriminate|]. auto.
Qed.
Lemma digit_run_iff : forall U s, (digit_run U false s = true <-> digits U s) /\
  (digit_run U true s = true <-> s = [] \/ digits U s \/ exists r, s = chr "_" :: r /\ digits U r).
Proof.
  intros U s. induction s as [|c s [IH1 IH2]].
  - simpl. split; split; auto; try discriminate; intros H; inversion H.
  - change (chr "_") with 95%N in *. simpl. destruct (num_digit U c) eqn:D.
    + rewrite IH2. assert (X : (s = [] \/ digits U s \/ (exists r, s = 95%N :: r /\ digits U r)) <-> digits U (c :: s)).
      { split.
        - intros [->|[H|(r & -> & H)]]; [apply dg_one|apply dg_more|exact (dg_under U c r D H)]; auto.
        - intros H. inversion H; subst; auto. right; right. eauto. }
      split; [exact X|]. rewrite X. split; [intros H; right; left; auto|]. intros [H|[H|(r & H & _)]]; [discriminate|auto|].
      injection H as -> ->. rewrite not_digit_95 in D. discriminate.
    + assert (ND : ~ digits U (c :: s)) by (intros H; inversion H; congruence).
      rewrite andb_false_r. simpl. split; [split; [discriminate|tauto]|]. rewrite andb_true_r, andb_true_iff, N.eqb_eq, IH1. split.
      * intros [-> H]. right; right. eauto.
      * intros [H|[H|(r & H & G)]]; [discriminate|tauto|]. injection H as -> ->. auto.
Qed.
Lemma digits_first : forall U s, digits U s -> exists c r, s = c :: r /\ num_digit U c = true.
Proof. intros U s H. inversion H; subst; eauto. Qed.
Lemma digits_last : forall U s, digits U s -> exists r c, s = r ++ [c] /\ num_digit U c = true.
Proof.
  intros U s H. induction H as [c D|c r D H (r' & c' & -> & D')|c r D H (r' & c' & -> & D')].
  - exists [], c. auto.
  - exists (c :: r'), c'. auto.
  - exists (c :: chr "_" :: r'), c'. auto.
Qed.
Lemma sign_not_space : forall U c, is_sign c = true -> num_space U c = false.
Proof.
  intros U c H. unfold is_sign in H. apply orb_true_iff in H as [H|H]; apply N.eqb_eq in H; subst; reflexivity.
Qed.
Lemma signed_iff : forall body s, (exists c r, body = c :: r /\ is_sign c = false) -> (signed body s <-> drop_sign s = body).
Proof.
  intros body s (c & r & -> & N). unfold signed. split.
  - intros [->|(x & X & ->)]; simpl; [rewrite N; auto|]. destruct X as [->| ->]; reflexivity.
  - intros H. destruct s as [|x s]; [discriminate|]. simpl in H. destruct (is_sign x) eqn:E; [|left; auto]. subst s.
    right. exists x. split; auto. unfold is_sign in E. apply orb_true_iff in E as [E|E]; apply N.eqb_eq in E; subst; [left|right]; reflexivity.
Qed.
Lemma signed_tight : forall U body s, tight U body -> signed body s -> tight U s.
Proof.
  intros U body s [(c & r & E1 & N1) (r' & c' & E2 & N2)] [->|(x & X & ->)]; [split; eauto|].
  split; [exists x, body; split; auto; destruct X as [->| ->]; reflexivity|exists (x :: r'), c'; rewrite E2; auto].
Qed.
Lemma digits_count : forall U d, digits U d -> filter (num_digit U) d = filter (fun c => negb (c =? chr "_")%N) d.
Proof.
  assert (X : forall U c, num_digit U c = true -> (c =? chr "_")%N = false).
  { intros U c H. destruct (N.eqb_spec c (chr "_")); [|reflexivity]. subst c. discriminate H. }
  intros U d D. induction D as [c H|c r H D IH|c r H D IH]; cbn [filter]; rewrite H, (X U c H); cbn [negb]; try rewrite IH; try reflexivity.
Qed.
Lemma few_iff : forall U d, digits U d -> (few_digits U d = true <-> within_limit U d).
Proof.
  intros U d D. unfold few_digits, within_limit. rewrite (digits_count U d D). destruct (u_int_limit U) as [n|]; [|split; [intros _ n H; discriminate H|reflexivity]].
  rewrite Nat.leb_le. split; [intros H m E; injection E as <-; exact H|intros H; exact (H n eq_refl)].
Qed.
Lemma int_iff : forall U s, digits_ok U -> (int_ok U s = true <-> int_literal U s).
Proof.
  intros U s Ok. unfold int_ok, int_literal. cbv zeta. rewrite andb_true_iff. split.
  - intros [H L]. apply (digit_run_iff U) in H. apply (few_iff U _ H) in L. exists (drop_sign (strip_by (num_space U) s)), (strip_by (num_space U) s).
    split; auto. split; auto. split; [|apply strip_padded]. apply signed_iff; auto. destruct (digits_first _ _ H) as (c & r & E & D).
    exists c, r. split; auto. eapply digit_not_sign; eauto.
  - intros (d & b & D & L & S & P). rewrite (padded_strip U b s); auto.
    + destruct (digits_first _ _ D) as (c & r & E & Dc). rewrite (proj1 (signed_iff d b (ex_intro _ c (ex_intro _ r (conj E (digit_not_sign _ _ Dc)))))) by auto.
      split; [apply digit_run_iff; auto|apply few_iff; auto].
    + apply (signed_tight U d b); auto. destruct (digits_first _ _ D) as (c & r & E & Dc). destruct (digits_last _ _ D) as (r' & c' & E' & Dc').
      split; [exists c, r|exists r', c']; auto.
Qed.

(** ** float() *)
Notation nou := (filter (fun c => negb (c =? 95)%N)).
Lemma nou_id : forall s, ~ In 95%N s -> nou s = s.
Proof.
  induction s as [|c s IH]; intros H; auto. simpl. destruct (N.eqb_spec c 95); [subst; exfalso; apply H; left; auto|].
  simpl. rewrite IH; auto. intros X; apply H; right; auto.
Qed.
Lemma unders_none : forall U s p, ~ In 95%N s -> underscores_ok U p s = true.
Proof.
  induction s as [|c s IH]; intros p H; auto. simpl. destruct (N.eqb_spec c 95); [subst; exfalso; apply H; left; auto|].
  apply IH. intros X; apply H; right; auto.
Qed.
(** cutting the leading digits off *)
Lemma cut_digits : forall U t p, underscores_ok U p t = true -> exists a t2, t = a ++ t2 /\ nou t2 = drop_digits U (nou t) /\
  underscores_ok U false t2 = true /\
  (p = false -> opt_digits U a /\ (starts_digit U (nou t) = true <-> a <> [])) /\
  (a = [] \/ digits U a \/ exists r, a = 95%N :: r /\ digits U r).
Proof.
  intros U. induction t as [|c t IH]; intros p H.
  - exists [], []. split; auto. split; auto. split; auto. split; auto. intros _. split; [left; auto|]. simpl. split; congruence.
  - simpl in H. destruct (N.eqb_spec c 95) as [->|Nc].
    + apply andb_true_iff in H as [H H1]. apply andb_true_iff in H as [-> H2]. destruct (IH false H1) as (a & t2 & E & E1 & E2 & E3 & _).
      exists (95%N :: a), t2. split; [simpl; congruence|]. split; [simpl; auto|]. split; auto. split; [discriminate|]. right; right.
      exists a. split; auto. destruct (E3 eq_refl) as [[->|D] S]; auto. exfalso. apply S; auto.
      destruct t as [|c' t]; [discriminate|]. simpl. destruct (N.eqb_spec c' 95) as [->|]; [discriminate|]. simpl. auto.
    + destruct (num_digit U c) eqn:D.
      * destruct (IH true H) as (a & t2 & E & E1 & E2 & _ & E4). exists (c :: a), t2. split; [simpl; congruence|].
        replace (nou (c :: t)) with (c :: nou t) by (simpl; destruct (N.eqb_spec c 95); [congruence|auto]).
        assert (Dg : digits U (c :: a)).
        { destruct E4 as [->|[E4|(r & -> & E4)]]; [apply dg_one|apply dg_more|exact (dg_under U c r D E4)]; auto. }
        split; [simpl; rewrite D; auto|]. split; auto. split; [|auto]. intros _. split; [right; auto|]. simpl. rewrite D. split; auto. discriminate.
      * exists [], (c :: t). split; auto. replace (nou (c :: t)) with (c :: nou t) by (simpl; destruct (N.eqb_spec c 95); [congruence|auto]).
        split; [simpl; rewrite D; auto|]. split; [simpl; destruct (N.eqb_spec c 95); [congruence|rewrite D; auto]|].
        split; [|auto]. intros _. split; [left; auto|]. simpl. rewrite D. split; congruence.
Qed.
Lemma unders_cons : forall U c t, underscores_ok U false (c :: t) = true -> c <> 95%N.
Proof. intros U c t H ->. discriminate. Qed.
Lemma nou_cons : forall c t, c <> 95%N -> nou (c :: t) = c :: nou t.
Proof. intros c t H. simpl. destruct (N.eqb_spec c 95); [congruence|auto]. Qed.
Lemma nou_nil : forall U t, underscores_ok U false t = true -> nou t = [] -> t = [].
Proof. intros U [|c t] H E; auto. pose proof (unders_cons _ _ _ H). rewrite nou_cons in E; auto. discriminate. Qed.
Lemma nou_sign : forall U t, underscores_ok U false t = true ->
  drop_sign (nou t) = nou (drop_sign t) /\ underscores_ok U false (drop_sign t) = true.
Proof.
  intros U [|c t] H; auto. pose proof (unders_cons _ _ _ H) as N. rewrite nou_cons by auto. unfold drop_sign. destruct (is_sign c) eqn:S.
  - split; auto. simpl in H. destruct (N.eqb_spec c 95); [congruence|]. destruct (num_digit U c) eqn:D; auto.
    rewrite (digit_not_sign U c D) in S. discriminate.
  - rewrite nou_cons by auto. auto.
Qed.
Lemma unders_tail : forall U c t, underscores_ok U false (c :: t) = true -> num_digit U c = false -> underscores_ok U false t = true.
Proof. intros U c t H D. simpl in H. destruct (c =? 95)%N; [discriminate|]. rewrite D in H. auto. Qed.
Lemma e_not_digit : forall U c, (c = 101 \/ c = 69 \/ c = 46)%N -> num_digit U c = false.
Proof. intros U c [->|[->| ->]]; reflexivity. Qed.
Lemma signed_drop : forall s, signed (drop_sign s) s.
Proof.
  intros [|c s]; [left; auto|]. simpl. destruct (is_sign c) eqn:E; [|left; auto]. right. exists c. split; auto.
  unfold is_sign in E. apply orb_true_iff in E as [E|E]; apply N.eqb_eq in E; subst; [left|right]; reflexivity.
Qed.
Lemma exponent_fwd : forall U t, underscores_ok U false t = true -> exponent_ok U (nou t) = true -> exponent U t.
Proof.
  intros U t H E. destruct t as [|c t]; [left; auto|]. right. rewrite nou_cons in E by (eapply unders_cons; eauto).
  unfold exponent_ok in E. apply andb_true_iff in E as [E E3]. apply andb_true_iff in E as [E1 E2].
  assert (C : c = 101%N \/ c = 69%N) by (apply orb_true_iff in E1 as [E1|E1]; apply N.eqb_eq in E1; auto).
  assert (H1 : underscores_ok U false t = true) by (eapply unders_tail; eauto; apply e_not_digit; tauto).
  destruct (nou_sign U t H1) as [F1 F2]. rewrite F1 in E2, E3. destruct (cut_digits U _ _ F2) as (a & t2 & G1 & G2 & G3 & G4 & _).
  rewrite <- G2 in E3. destruct (nou t2) eqn:NT; [|discriminate]. apply (nou_nil U) in NT; auto. subst t2. rewrite app_nil_r in G1.
  destruct (G4 eq_refl) as [[->|D] S]; [exfalso; apply S; auto|]. exists c, a, t.
  split; [destruct C as [->| ->]; [left|right]; reflexivity|]. split; auto. split; auto. rewrite <- G1. apply signed_drop.
Qed.
Lemma decimal_fwd : forall U t, underscores_ok U false t = true -> decimal_ok U (nou t) = true -> decimal U t.
Proof.
  intros U t H E. unfold decimal_ok in E. destruct (cut_digits U _ _ H) as (a & t2 & -> & G2 & G3 & G4 & _). rewrite <- G2 in E.
  destruct (G4 eq_refl) as [Oa Sa]. destruct t2 as [|c t2].
  - simpl in E. exists a, []. split; [left; auto|]. split; auto. left. destruct Oa as [->|D]; auto. apply Sa in E. congruence.
  - rewrite nou_cons in E by (eapply unders_cons; eauto). destruct (N.eqb_spec c 46) as [->|Nc].
    + apply andb_true_iff in E as [E1 E2]. assert (H2 : underscores_ok U false t2 = true) by (eapply unders_tail; eauto).
      destruct (cut_digits U _ _ H2) as (b & t3 & -> & K2 & K3 & K4 & _). rewrite <- K2 in E2. apply exponent_fwd in E2; auto.
      destruct (K4 eq_refl) as [Ob Sb]. exists (a ++ u "." ++ b), t3. split; auto. split; [rewrite <- !app_assoc; reflexivity|].
      right. exists a, b. split; auto. split; auto. split; auto. intros [-> ->]. apply orb_true_iff in E1 as [E1|E1]; [apply Sa in E1|apply Sb in E1]; congruence.
    + apply andb_true_iff in E as [E1 E2]. rewrite <- nou_cons in E2 by (eapply unders_cons; eauto). apply exponent_fwd in E2; auto.
      exists a, (c :: t2). split; auto. split; auto. left. destruct Oa as [->|D]; auto. apply Sa in E1. congruence.
Qed.
(** the other direction *)
Lemma digit_not_under : forall U c, num_digit U c = true -> c <> 95%N.
Proof. intros U c H ->. discriminate. Qed.
Lemma digits_unders : forall U a t p, digits U a -> underscores_ok U p (a ++ t) = underscores_ok U true t.
Proof.
  intros U a t p H. revert p. induction H as [c D|c r D H IH|c r D H IH]; intros p.
  - simpl. pose proof (digit_not_under _ _ D). destruct (N.eqb_spec c 95); [congruence|]. rewrite D. auto.
  - simpl. pose proof (digit_not_under _ _ D). destruct (N.eqb_spec c 95); [congruence|]. rewrite D. auto.
  - simpl. pose proof (digit_not_under _ _ D). destruct (N.eqb_spec c 95); [congruence|]. rewrite D. simpl.
    destruct (digits_first _ _ H) as (x & r' & -> & Dx). simpl. rewrite Dx. rewrite <- (IH false). simpl. rewrite Dx. reflexivity.
Qed.
Lemma digits_drop : forall U a t, digits U a -> drop_digits U (nou (a ++ t)) = drop_digits U (nou t) /\ starts_digit U (nou (a ++ t)) = true.
Proof.
  intros U a t H. induction H as [c D|c r D H [IH _]|c r D H [IH _]]; pose proof (digit_not_under _ _ D).
  - cbn [app]. rewrite nou_cons by auto. simpl. rewrite D. auto.
  - cbn [app]. rewrite nou_cons by auto. simpl. rewrite D. auto.
  - cbn [app]. rewrite nou_cons by auto. simpl. rewrite D. auto.
Qed.
Lemma unders_first : forall U t p, (forall c r, t = c :: r -> c <> 95%N) -> underscores_ok U p t = underscores_ok U false t.
Proof. intros U [|c t] p H; auto. simpl. pose proof (H c t eq_refl). destruct (N.eqb_spec c 95); [congruence|auto]. Qed.
Lemma exponent_first : forall U x, exponent U x -> x = [] \/ exists c r, x = c :: r /\ (c = 101 \/ c = 69)%N.
Proof.
  intros U x [->|(e & d & d' & C & _ & _ & ->)]; [left; auto|right]. exists e, d'. split; [reflexivity|]. destruct C as [->| ->]; [left|right]; reflexivity.
Qed.
Lemma signed_digits_ok : forall U d s, digits U d -> signed d s -> underscores_ok U false s = true /\ drop_sign (nou s) = nou d.
Proof.
  intros U d s D S. assert (V : underscores_ok U false d = true) by (rewrite <- (app_nil_r d), digits_unders by auto; reflexivity).
  destruct S as [->|(c & C & ->)].
  - split; auto. destruct (digits_first _ _ D) as (x & r & -> & Dx). rewrite nou_cons by (eapply digit_not_under; eauto). simpl. rewrite (digit_not_sign _ _ Dx). auto.
  - split; [destruct C as [->| ->]; exact V|]. destruct C as [->| ->]; reflexivity.
Qed.
Lemma exponent_bwd : forall U x, exponent U x -> underscores_ok U false x = true /\ exponent_ok U (nou x) = true /\
  drop_digits U (nou x) = nou x /\ starts_digit U (nou x) = false.
Proof.
  intros U x [->|(e & d & d' & C & D & S & ->)]; [auto|]. destruct (signed_digits_ok _ _ _ D S) as [A B].
  assert (E : drop_digits U (nou d) = [] /\ starts_digit U (nou d) = true).
  { destruct (digits_drop U d [] D) as [E1 E2]. rewrite app_nil_r in E1, E2. auto. }
  destruct E as [E1 E2]. destruct C as [->| ->].
  - split; [exact A|]. rewrite nou_cons by discriminate. split; [|split; reflexivity]. unfold exponent_ok. change (nou d') with (nou d') in *. rewrite B, E1, E2. reflexivity.
  - split; [exact A|]. rewrite nou_cons by discriminate. split; [|split; reflexivity]. unfold exponent_ok. rewrite B, E1, E2. reflexivity.
Qed.
Lemma opt_digits_ok : forall U a t, opt_digits U a -> (forall c r, t = c :: r -> c <> 95%N) -> starts_digit U (nou t) = false ->
  drop_digits U (nou t) = nou t ->
  underscores_ok U false (a ++ t) = underscores_ok U false t /\ drop_digits U (nou (a ++ t)) = nou t /\
  (starts_digit U (nou (a ++ t)) = true <-> a <> []).
Proof.
  intros U a t [->|D] F S Dr; simpl.
  - split; auto. split; auto. rewrite S. split; congruence.
  - destruct (digits_drop U a t D) as [E1 E2]. rewrite digits_unders by auto. rewrite unders_first by auto. split; auto. split; [congruence|].
    rewrite E2. split; auto. intros _ ->. inversion D.
Qed.
Lemma decimal_bwd : forall U t, decimal U t -> underscores_ok U false t = true /\ decimal_ok U (nou t) = true.
Proof.
  intros U t (m & x & X & -> & H). destruct (exponent_bwd _ _ X) as (X1 & X2 & X3 & X4).
  assert (XF : forall c r, x = c :: r -> c <> 95%N).
  { intros c r E. destruct (exponent_first _ _ X) as [->|(c' & r' & -> & C)]; [discriminate|]. injection E as -> ->. destruct C as [->| ->]; discriminate. }
  destruct H as [D|(a & b & -> & Oa & Ob & NE)].
  - destruct (opt_digits_ok U m x (or_intror D) XF X4 X3) as (A1 & A2 & A3). split; [congruence|].
    unfold decimal_ok. rewrite A2. assert (SM : starts_digit U (nou (m ++ x)) = true) by (apply A3; intros ->; inversion D).
    rewrite SM. destruct (exponent_first _ _ X) as [->|(c & r & -> & C)]; [reflexivity|]. rewrite nou_cons in * by (destruct C as [->| ->]; discriminate).
    destruct C as [->| ->]; simpl in *; auto.
  - destruct (opt_digits_ok U b x Ob XF X4 X3) as (B1 & B2 & B3).
    assert (Y : forall c r, u "." ++ b ++ x = c :: r -> c <> 95%N) by (intros c r E; injection E as <- _; discriminate).
    destruct (opt_digits_ok U a (u "." ++ b ++ x) Oa Y eq_refl eq_refl) as (A1 & A2 & A3).
    rewrite <- !app_assoc. split; [rewrite A1; change (underscores_ok U false (b ++ x) = true); congruence|].
    unfold decimal_ok. rewrite A2. change (nou (u "." ++ b ++ x)) with (46%N :: nou (b ++ x)). cbv iota beta. rewrite N.eqb_refl, B2, X2, andb_true_r.
    apply orb_true_iff. destruct a as [|ca a]; [right; apply B3; intros ->; apply NE; auto|left; apply A3; discriminate].
Qed.
Lemma float_word_iff : forall s, special_float s = true <-> float_word s.
Proof.
  intros s. unfold special_float, float_word. rewrite smem_In.
  assert (X : forall w, (forall c, In c w -> (97 <= c <= 122)%N) -> (ascii_lower s = w <-> Forall2 (fun c x => x = c \/ x = (c - 32)%N) w s)).
  { intros w. revert s. induction w as [|c w IH]; intros s H.
    - destruct s; simpl; split; intros E; try discriminate; auto; inversion E.
    - assert (Hc := H c (or_introl eq_refl)). destruct s as [|x s]; simpl; [split; [discriminate|intros E; inversion E]|].
      assert (K : (if rng 65 90 x then (x + 32)%N else x) = c <-> x = c \/ x = (c - 32)%N).
      { unfold rng. destruct (N.leb_spec 65 x), (N.leb_spec x 90); simpl; lia. }
      split.
      + intros E. injection E as E1 E2. constructor; [apply K; auto|]. apply IH; auto. intros; apply H; right; auto.
      + intros E. inversion E; subst. f_equal; [apply K; auto|]. apply IH; auto. intros; apply H; right; auto. }
  split.
  - intros H. exists (ascii_lower s). split; [exact H|]. apply X; auto. intros c Hc. 
    assert (B : forallb (fun w => forallb (fun c => (97 <=? c)%N && (c <=? 122)%N) w) (map u ["inf"; "infinity"; "nan"]%string) = true) by reflexivity.
    rewrite forallb_forall in B. specialize (B _ H). rewrite forallb_forall in B. specialize (B _ Hc). apply andb_true_iff in B as [B1 B2]. apply N.leb_le in B1, B2. auto.
  - intros (w & H & F). apply X in F; [rewrite F; exact H|]. intros c Hc.
    assert (B : forallb (fun w => forallb (fun c => (97 <=? c)%N && (c <=? 122)%N) w) (map u ["inf"; "infinity"; "nan"]%string) = true) by reflexivity.
    rewrite forallb_forall in B. specialize (B _ H). rewrite forallb_forall in B. specialize (B _ Hc). apply andb_true_iff in B as [B1 B2]. apply N.leb_le in B1, B2. auto.
Qed.
Lemma float_word_chars : forall s c, float_word s -> In c s -> (97 <= c <= 122 \/ 65 <= c <= 90)%N.
Proof.
  intros s c (w & H & F) I.
  assert (B : forallb (fun w => forallb (fun c => (97 <=? c)%N && (c <=? 122)%N) w) (map u ["inf"; "infinity"; "nan"]%string) = true) by reflexivity.
  rewrite forallb_forall in B. specialize (B _ H). rewrite forallb_forall in B. clear H. induction F as [|x y w s R F IH]; [destruct I|].
  destruct I as [<-|I]; [|apply IH; auto; intros; apply B; right; auto]. specialize (B x (or_introl eq_refl)). apply andb_true_iff in B as [B1 B2].
  apply N.leb_le in B1, B2. destruct R as [->| ->]; lia.
Qed.
Lemma decimal_first_last : forall U d, digits_ok U -> decimal U d -> tight U d /\ (exists c r, d = c :: r /\ is_sign c = false).
Proof.
  intros U d Ok (m & x & X & -> & H).
  assert (ML : exists r c, m = r ++ [c] /\ num_space U c = false).
  { destruct H as [D|(a & b & -> & Oa & Ob & NE)].
    - destruct (digits_last _ _ D) as (r & c & -> & Dc). eauto.
    - destruct Ob as [->|D]; [exists a, (chr "."); split; reflexivity|]. destruct (digits_last _ _ D) as (r & c & -> & Dc).
      exists (a ++ u "." ++ r), c. rewrite <- !app_assoc. auto. }
  assert (MF : exists c r, m = c :: r /\ num_space U c = false /\ is_sign c = false).
  { assert (G : forall a, digits U a -> exists c r, a = c :: r /\ num_space U c = false /\ is_sign c = false).
    { intros a D. destruct (digits_first _ _ D) as (c & r & -> & Dc). exists c, r. split; auto. split; auto. eapply digit_not_sign; eauto. }
    destruct H as [D|(a & b & -> & Oa & Ob & NE)]; auto. destruct Oa as [->|D].
    - exists (chr "."), b. split; [reflexivity|split; reflexivity].
    - destruct (G a D) as (c & r & -> & N). exists c, (r ++ u "." ++ b). auto. }
  destruct MF as (c & r & -> & N1 & N2). split; [|exists c, (r ++ x); auto]. split; [exists c, (r ++ x); auto|].
  destruct X as [->|(e & d & d' & C & D & S & ->)].
  - rewrite app_nil_r. exact ML.
  - destruct (digits_last _ _ D) as (r2 & c2 & -> & D2).
    destruct S as [->|(s & _ & ->)]; [exists ((c :: r) ++ e :: r2), c2|exists ((c :: r) ++ e :: s :: r2), c2]; rewrite <- app_assoc; auto.
Qed.
Lemma word_first_last : forall U d, float_word d -> tight U d /\ (exists c r, d = c :: r /\ is_sign c = false).
Proof.
  intros U d W. assert (Ch := fun c => float_word_chars d c W).
  assert (NE : d <> []).
  { intros ->. destruct W as (w & H & F). inversion F; subst. simpl in H. repeat (destruct H as [H|H]; [discriminate|]). destruct H. }
  assert (S : forall c, (97 <= c <= 122 \/ 65 <= c <= 90)%N -> num_space U c = false /\ is_sign c = false).
  { intros c Hc. unfold num_space, is_sign, rng. split.
    - destruct (N.ltb_spec c 128); [|lia]. destruct (N.leb_spec 9 c), (N.leb_spec c 13), (N.eqb_spec c 32); simpl; auto; lia.
    - destruct (N.eqb_spec c 43), (N.eqb_spec c 45); simpl; auto; lia. }
  destruct d as [|c r]; [congruence|]. split; [split|].
  - exists c, r. split; auto. apply S, Ch. left; auto.
  - destruct (exists_last NE) as (r' & c' & E). exists r', c'. split; auto. apply S, Ch. rewrite E. apply in_app_iff. right; left; auto.
  - exists c, r. split; auto. apply S, Ch. left; auto.
Qed.
Lemma float_iff : forall U s, digits_ok U -> (float_ok U s = true <-> float_literal U s).
Proof.
  intros U s Ok. unfold float_ok, float_literal. split.
  - intros H. apply andb_true_iff in H as [H1 H2]. set (t := strip_by (num_space U) s) in *. destruct (nou_sign U t H1) as [E1 E2].
    rewrite E1 in H2. exists (drop_sign t), t. split; [|split; [apply signed_drop|apply strip_padded]].
    apply orb_true_iff in H2 as [H2|H2]; [right|left; apply decimal_fwd; auto]. apply float_word_iff in H2.
    replace (drop_sign t) with (nou (drop_sign t)); auto.
    clear - E2 H2. assert (G : forall v p, underscores_ok U p v = true -> (forall c, In c (nou v) -> num_digit U c = false) -> p = false -> nou v = v).
    { induction v as [|c v IH]; intros p A B ->; auto. pose proof (unders_cons _ _ _ A) as N. rewrite nou_cons in * by auto.
      f_equal. apply (IH false); auto; [|intros; apply B; right; auto]. eapply unders_tail; eauto. apply B. left; auto. }
    apply (G _ false); auto. intros c Hc. apply (float_word_chars _ c H2) in Hc. unfold num_digit, rng.
    destruct (N.ltb_spec c 128); [|lia]. destruct (N.leb_spec 48 c), (N.leb_spec c 57); simpl; auto; lia.
  - intros (d & b & D & S & P). 
    assert (T : tight U d /\ (exists c r, d = c :: r /\ is_sign c = false)) by (destruct D; [apply decimal_first_last|apply word_first_last]; auto).
    destruct T as [T Fi]. rewrite (padded_strip U b s) by (auto; eapply signed_tight; eauto).
    assert (V : underscores_ok U false d = true /\ (special_float (nou d) || decimal_ok U (nou d)) = true).
    { destruct D as [D|D].
      - destruct (decimal_bwd _ _ D) as [A B]. rewrite B, orb_true_r. auto.
      - assert (N : ~ In 95%N d) by (intros I; apply (float_word_chars _ _ D) in I; lia).
        rewrite nou_id by auto. split; [apply unders_none; auto|]. apply float_word_iff in D. rewrite D. auto. }
    destruct V as [V1 V2]. assert (B : underscores_ok U false b = true /\ drop_sign (nou b) = nou d).
    { destruct S as [->|(c & C & ->)].
      - split; auto. destruct Fi as (c & r & -> & N). rewrite nou_cons by (eapply unders_cons; eauto). simpl. rewrite N. auto.
      - destruct C as [->| ->]; split; auto. }
    destruct B as [B1 B2]. rewrite B1, B2, V2. auto.
Qed.
Lemma number_iff : forall U w, digits_ok U ->
  (number_shape U w = Some Intg <-> int_literal U w) /\
  (number_shape U w = Some Real <-> ~ int_literal U w /\ float_literal U (replace_char (chr ",") (chr ".") w)).
Proof.
  intros U w Ok. rewrite <- (int_iff U w Ok), <- (float_iff U _ Ok). unfold number_shape.
  destruct (int_ok U w), (float_ok U (replace_char (chr ",") (chr ".") w)); split; split; intros; try discriminate; auto; try tauto;
  try (split; [discriminate|auto]). all: destruct H; congruence.
Qed.
Lemma digits_no_comma : forall U d, digits U d -> replace_char (chr ",") (chr ".") d = d.
Proof.
  assert (X : forall U c, num_digit U c = true -> (c =? chr ",")%N = false).
  { intros U c H. destruct (N.eqb_spec c (chr ",")); [|reflexivity]. subst c. discriminate H. }
  intros U d D. induction D as [c H|c r H D IH|c r H D IH]; unfold replace_char in *; cbn [map]; rewrite (X U c H); try rewrite IH; reflexivity.
Qed.
Lemma long_real : forall U n d, digits_ok U -> u_int_limit U = Some n -> digits U d -> n < length (filter (fun c => negb (c =? chr "_")%N) d) ->
  number_shape U d = Some Real.
Proof.
  intros U n d Ok E D L.
  assert (T : tight U d).
  { destruct (digits_first _ _ D) as (c & r & E1 & Dc). destruct (digits_last _ _ D) as (r' & c' & E' & Dc'). split; [exists c, r|exists r', c']; auto. }
  assert (P : padded U d d) by (exists [], []; split; [rewrite app_nil_r; reflexivity|intros c []]).
  apply (number_iff U d Ok). split.
  - intros (d' & b & D' & W & S & P').
    assert (T' : tight U b).
    { apply (signed_tight U d' b); auto. destruct (digits_first _ _ D') as (c & r & E1 & Dc). destruct (digits_last _ _ D') as (r' & c' & E' & Dc'). split; [exists c, r|exists r', c']; auto. }
    assert (B : b = d) by (rewrite <- (padded_strip U b d T' P'); apply padded_strip; assumption). subst b.
    destruct S as [->|(x & X & ->)].
    + specialize (W n E). lia.
    + destruct (digits_first _ _ D) as (c & r & E1 & Dc). injection E1 as <- _. destruct X as [->| ->]; discriminate Dc.
  - rewrite (digits_no_comma U d D). exists d, d. split; [left|split; [left; reflexivity|exact P]].
    exists d, []. split; [left; reflexivity|]. split; [rewrite app_nil_r; reflexivity|left; exact D].
Qed.

