(** * Tokenizer, capitalization, splits, common substrings, largest elements (C30-C34) *)
From Coq Require Import String List NArith ZArith Bool Lia Permutation Sorted.
From Verif Require Import Py Uni Tagset Dawg Utils Shapes Tokenizers Dict Units Analyzer Spec Spec2.
From Verif Require Import L_Base L_Tagset.
Import ListNotations.
Local Open Scope nat_scope.
Local Open Scope list_scope.

(** ** Tokenizer *)
Lemma wordish_sep : forall U c, is_sep U c = false <-> wordish U c.
Proof.
  intros U c. unfold is_sep, wordish. rewrite orb_false_iff, negb_false_iff, !orb_true_iff, !N.eqb_eq, N.eqb_neq. unfold chr. simpl. tauto.
Qed.
Lemma sep_not_wordish : forall U c, is_sep U c = true <-> ~ wordish U c.
Proof. intros. rewrite <- wordish_sep. destruct (is_sep U c); split; congruence. Qed.
Lemma re_split_nonempty : forall U s, re_split U s <> [].
Proof. intros U [|c r]; simpl; [discriminate|]. destruct (is_sep U c); [discriminate|]. destruct (re_split U r); discriminate. Qed.
Lemma re_split_run : forall U run r, (forall c, In c run -> wordish U c) -> (forall c r', r = c :: r' -> ~ wordish U c) ->
  exists tl, re_split U r = [] :: tl /\ re_split U (run ++ r) = run :: tl.
Proof.
  intros U run r H1 H2.
  assert (E : exists tl, re_split U r = [] :: tl).
  { destruct r as [|c r]; simpl; [eauto|]. rewrite (proj2 (sep_not_wordish U c) (H2 c r eq_refl)). eauto. }
  destruct E as (tl & E). exists tl. split; auto. induction run as [|c run IH]; auto. simpl.
  rewrite (proj2 (wordish_sep U c)) by (apply H1; left; auto). rewrite IH by (intros; apply H1; right; auto). reflexivity.
Qed.
Definition keepb (U : uni) (t : str) : bool := nonempty t && negb (str_isspace U t).
Lemma tokenize_tokens : forall U text ts, spaces_ok U -> tokens U text ts -> simple_word_tokenize U text = ts.
Proof.
  intros U text ts [S1 S2] H. unfold simple_word_tokenize. induction H.
  - reflexivity.
  - assert (N : is_sep U c = true).
    { apply sep_not_wordish. intro W. rewrite (S2 c W) in H. discriminate. }
    simpl. rewrite N. simpl. rewrite H. exact IHtokens.
  - simpl. rewrite (proj2 (sep_not_wordish U c) H0). simpl. rewrite H. simpl. f_equal. exact IHtokens.
  - destruct (re_split_run U run r H0 H1) as (tl & E1 & E2). rewrite E2. rewrite E1 in IHtokens. simpl in *.
    replace (nonempty run && negb (str_isspace U run)) with true; [f_equal; exact IHtokens|].
    destruct run as [|c run]; [congruence|]. simpl. rewrite (S2 c) by (apply H0; left; auto). reflexivity.
Qed.
Lemma tokens_exist : forall U text, spaces_ok U -> exists ts, tokens U text ts.
Proof.
  intros U text [S1 S2]. remember (length text) as n eqn:L. revert text L.
  induction n as [n IH] using lt_wf_ind. intros text ->. destruct text as [|c r]; [exists []; constructor|].
  destruct (is_sep U c) eqn:E.
  - destruct (IH (length r) ltac:(simpl; lia) r eq_refl) as (ts & T). destruct (u_space U c) eqn:S.
    + exists ts. constructor; auto.
    + exists ([c] :: ts). apply tok_other; auto. apply sep_not_wordish; auto.
  - set (run := fix run s := match s with [] => [] | x :: s' => if is_sep U x then [] else x :: run s' end).
    assert (X : forall s, exists rest, s = run s ++ rest /\ (forall x, In x (run s) -> wordish U x) /\ (forall x r', rest = x :: r' -> ~ wordish U x)).
    { induction s as [|x s IHs]; simpl; [exists []; split; [reflexivity|split; [intros x []|discriminate]]|]. destruct IHs as (rest & E1 & E2 & E3).
      destruct (is_sep U x) eqn:Ex.
      - exists (x :: s). split; [reflexivity|]. split; [intros y []|]. intros y r' H. injection H as -> ->. apply sep_not_wordish; auto.
      - exists rest. simpl. rewrite <- E1. split; [reflexivity|]. split; [|exact E3]. intros y [<-|Hy]; auto. apply wordish_sep; auto. }
    destruct (X (c :: r)) as (rest & E1 & E2 & E3). assert (NE : run (c :: r) <> []) by (simpl; rewrite E; discriminate).
    assert (LL : length rest < length (c :: r)). { pose proof (f_equal (@length char) E1) as LE. rewrite app_length in LE. destruct (run (c :: r)); [congruence|cbn [length] in *; lia]. }
    destruct (IH _ LL rest eq_refl) as (ts & T). exists (run (c :: r) :: ts). rewrite E1 at 1. apply tok_run; auto.
Qed.
Lemma tokenize_spec : forall U text, spaces_ok U -> tokens U text (simple_word_tokenize U text).
Proof. intros U text H. destruct (tokens_exist U text H) as (ts & T). rewrite (tokenize_tokens U text ts H T). exact T. Qed.
Lemma tokens_concat : forall U text ts, spaces_ok U -> tokens U text ts -> concat ts = filter (fun c => negb (u_space U c)) text.
Proof.
  intros U text ts [S1 S2] H. induction H; simpl; auto.
  - rewrite H. auto.
  - rewrite H. simpl. congruence.
  - rewrite filter_app, <- IHtokens. f_equal. clear - H0 S2. induction run as [|c run IH]; auto. simpl.
    rewrite (S2 c) by (apply H0; left; auto). simpl. f_equal. apply IH. intros; apply H0; right; auto.
Qed.
Lemma tokens_shape : forall U text ts t, spaces_ok U -> tokens U text ts -> In t ts ->
  t <> [] /\ ((forall c, In c t -> wordish U c) \/ exists c, t = [c] /\ ~ wordish U c /\ u_space U c = false).
Proof.
  intros U text ts t [S1 S2] H Ht. induction H; [destruct Ht|auto| |]; destruct Ht as [<-|Ht]; auto.
  split; [discriminate|]. right. exists c. auto.
Qed.
Lemma tokens_again : forall U ts text, spaces_ok U -> tokens U text ts -> tokens U (join (u " ") ts) ts.
Proof.
  intros U ts text [S1 S2] H. assert (NW : ~ wordish U (chr " ")) by (intro W; rewrite (S2 _ W) in S1; discriminate).
  assert (A : forall t r, t <> [] -> (forall c, In c t -> wordish U c) \/ (exists c, t = [c] /\ ~ wordish U c /\ u_space U c = false) ->
     tokens U (join (u " ") r) r -> tokens U (join (u " ") (t :: r)) (t :: r)).
  { intros t r N K T.
    assert (J : join (u " ") (t :: r) = t ++ match r with [] => [] | _ => chr " " :: join (u " ") r end).
    { destruct r; simpl; [rewrite app_nil_r; auto|reflexivity]. }
    rewrite J.
    assert (T' : tokens U (match r with [] => [] | _ => chr " " :: join (u " ") r end) r) by (destruct r; [constructor|apply tok_space; auto]).
    destruct K as [K|(c & -> & K1 & K2)].
    - apply tok_run; auto. intros c r' E. destruct r; [discriminate|]. injection E as <- <-. auto.
    - simpl. apply tok_other; auto. }
  induction H; auto.
  - constructor.
  - apply A; auto; [discriminate|]. right. exists c. auto.
Qed.

(** ** Capitalization *)
Lemma make_case : forall U e p, cased_like U e p (make_the_same_case U p e).
Proof.
  intros U e p. unfold cased_like, make_the_same_case. repeat split; intros; repeat match goal with H : _ = _ |- _ => rewrite H; clear H end; reflexivity.
Qed.
Lemma split_on_pieces : forall c s, pieces c s (split_on c s).
Proof. intros. split; [apply split_on_nonempty|]. split; [apply join_split|]. intros p. apply split_on_clean. Qed.
Lemma pieces_eq : forall c s l, pieces c s l -> l = split_on c s.
Proof. intros c s l (N & <- & H). symmetry. apply split_join; auto. Qed.
Lemma restore_parts_length : forall U ps es, length (restore_parts U ps es) = length ps.
Proof. induction ps as [|p ps IH]; intros [|e es]; simpl; auto. Qed.
Lemma restore_parts_nth : forall U ps es i p, nth_error ps i = Some p ->
  exists r, nth_error (restore_parts U ps es) i = Some r /\
    (forall e, nth_error es i = Some e -> cased_like U e p r) /\ (nth_error es i = None -> r = u_lower U p).
Proof.
  induction ps as [|p0 ps IH]; intros es [|i] p H; try discriminate H; simpl in H.
  - injection H as ->. destruct es as [|e es]; simpl; eexists; (split; [reflexivity|]); split; intros; try discriminate; auto.
    injection H as ->. apply make_case.
  - destruct es as [|e es]; simpl.
    + destruct (IH [] i p H) as (r & A & B & C). exists r. split; auto. split; [intros e0 He; destruct i; discriminate|]. intros _. apply C. destruct i; auto.
    + apply IH; auto.
Qed.
Lemma restore_hyphen : forall U w e ws es, In (chr "-") e -> pieces (chr "-") w ws -> pieces (chr "-") e es ->
  exists rs, restore_capitalization U w e = join (u "-") rs /\ length rs = length ws /\
    forall i p, nth_error ws i = Some p -> exists r, nth_error rs i = Some r /\
      (forall x, nth_error es i = Some x -> cased_like U x p r) /\ (nth_error es i = None -> r = u_lower U p).
Proof.
  intros U w e ws es H Hw He. unfold restore_capitalization. rewrite (pieces_eq _ _ _ Hw), (pieces_eq _ _ _ He).
  rewrite (proj2 (mem_char_In _ _) H). eexists. split; [reflexivity|]. split; [apply restore_parts_length|].
  intros i p. apply restore_parts_nth.
Qed.
Lemma restore_plain : forall U w e, ~ In (chr "-") e -> cased_like U e w (restore_capitalization U w e).
Proof.
  intros U w e H. unfold restore_capitalization. destruct (mem_char (chr "-") e) eqn:E; [apply mem_char_In in E; tauto|]. apply make_case.
Qed.
Lemma make_same : forall U w a p b e, regular_case U w -> w = a ++ p ++ b -> Forall2 (same_letter U) p (make_the_same_case U p e).
Proof.
  intros U w a p b e R E. destruct (R a p b E) as (A & B & C). unfold make_the_same_case.
  destruct (u_islower U e), (u_isupper U e), (u_istitle U e); auto.
Qed.
Lemma restore_same : forall U w e, regular_case U w -> Forall2 (same_letter U) w (restore_capitalization U w e).
Proof.
  intros U w e R. unfold restore_capitalization. destruct (mem_char (chr "-") e).
  2:{ eapply (make_same U w [] w []); auto. rewrite app_nil_r. reflexivity. }
  assert (X : forall ps a, w = a ++ join (u "-") ps -> forall es, Forall2 (same_letter U) (join (u "-") ps) (join (u "-") (restore_parts U ps es))).
  { induction ps as [|p ps IH]; intros a E es; [constructor|].
    assert (P : forall q, Forall2 (same_letter U) p q -> forall es', Forall2 (same_letter U) (join (u "-") (p :: ps)) (join (u "-") (q :: restore_parts U ps es'))).
    { intros q Q es'. destruct ps as [|p2 ps].
      - simpl. exact Q.
      - assert (Y : exists q2 qs, restore_parts U (p2 :: ps) es' = q2 :: qs) by (destruct es'; simpl; eauto). destruct Y as (q2 & qs & Y).
        change (join (u "-") (p :: p2 :: ps)) with (p ++ u "-" ++ join (u "-") (p2 :: ps)).
        rewrite Y. change (join (u "-") (q :: q2 :: qs)) with (q ++ u "-" ++ join (u "-") (q2 :: qs)). rewrite <- Y.
        apply Forall2_app; auto. constructor; [split; [reflexivity|tauto]|]. apply (IH (a ++ p ++ u "-")). rewrite E, <- !app_assoc. reflexivity. }
    assert (W : exists b, w = a ++ p ++ b) by (destruct ps; [exists []; rewrite app_nil_r; exact E|eexists; exact E]). destruct W as (b & W).
    destruct es as [|e0 es]; simpl restore_parts; apply P.
    - apply (R a p b W).
    - eapply make_same; eauto. }
  pose proof (X (split_on (chr "-") w) [] ltac:(simpl; symmetry; apply join_split) (split_on (chr "-") e)) as Y.
  change (u "-") with [chr "-"] in *. rewrite join_split in Y. exact Y.
Qed.
(** restoring the capitalization of a lower-cased word from the word itself *)
Lemma restore_self : forall U w ws, pieces (chr "-") w ws -> pieces (chr "-") (u_lower U w) (map (u_lower U) ws) ->
  (forall p, In p ws -> (u_islower U p = true /\ u_lower U (u_lower U p) = p) \/
     (u_islower U p = false /\ u_isupper U p = true /\ u_upper U (u_lower U p) = p) \/
     (u_islower U p = false /\ u_isupper U p = false /\ u_istitle U p = true /\ u_title U (u_lower U p) = p)) ->
  restore_capitalization U (u_lower U w) w = w.
Proof.
  intros U w ws Hw Hl H.
  assert (M : forall p, In p ws -> make_the_same_case U (u_lower U p) p = p).
  { intros p Hp. unfold make_the_same_case. destruct (H p Hp) as [(A & B)|[(A & B & C)|(A & B & C & D)]]; rewrite A; auto; rewrite B; auto. rewrite C. auto. }
  unfold restore_capitalization. destruct (mem_char (chr "-") w) eqn:E.
  - rewrite <- (pieces_eq _ _ _ Hw), <- (pieces_eq _ _ _ Hl). destruct Hw as (_ & J & _). etransitivity; [|exact J]. f_equal.
    clear - M. induction ws as [|p ws IH]; auto. simpl. f_equal; [apply M; left; auto|]. apply IH. intros; apply M; right; auto.
  - assert (ws = [w]).
    { rewrite (pieces_eq _ _ _ Hw). apply split_on_nil. intro X. apply mem_char_In in X. congruence. }
    subst ws. apply M. left; auto.
Qed.

(** ** Splits *)
Lemma splits_spec : forall mn mx w p r, In (p, r) (word_splits_with mn mx w) <-> w = p ++ r /\ 1 <= length p <= mx /\ mn <= length r.
Proof.
  intros mn mx w p r. unfold word_splits_with. rewrite in_map_iff. split.
  - intros (i & E & Hi). apply in_seq in Hi. injection E as <- <-. split; [symmetry; apply firstn_skipn|].
    rewrite firstn_length, skipn_length. lia.
  - intros (-> & A & B). rewrite app_length. exists (length p). split.
    + rewrite firstn_app, skipn_app, Nat.sub_diag, firstn_all, skipn_all. simpl. rewrite app_nil_r. reflexivity.
    + apply in_seq. lia.
Qed.
Lemma splits_order : forall mn mx w, exists k, map (fun x => length (fst x)) (word_splits_with mn mx w) = seq 1 k.
Proof.
  intros mn mx w. unfold word_splits_with. rewrite map_map.
  set (k := Z.to_nat _). assert (K : k <= length w) by (unfold k; lia). clearbody k. exists k.
  transitivity (map (fun i => i) (seq 1 k)); [|apply map_id]. apply map_ext_in. intros i Hi. apply in_seq in Hi. cbn [fst]. rewrite firstn_length. lia.
Qed.

(** ** Longest common substring *)
Definition at_pos (data : list str) (x s : str) (i : nat) : Prop := exists j, i + j <= length x /\ s = firstn j (skipn i x) /\ common_substring s data.
Lemma all_sub : forall s data, forallb (substrb s) data = true <-> common_substring s data.
Proof.
  intros s data. rewrite forallb_forall. split; intros H x Hx; apply substrb_spec; auto.
Qed.
(** the best after trying lengths < n at position i *)
Lemma inner_spec : forall data x i n best, i + n <= S (length x) ->
  let r := fold_left (fun best j => let cand := firstn j (skipn i x) in
       if (length best <? j) && forallb (substrb cand) data then cand else best) (seq 0 n) best in
  (r = best \/ (length best < length r /\ exists j, j < n /\ r = firstn j (skipn i x) /\ common_substring r data)) /\
  (forall j, j < n -> common_substring (firstn j (skipn i x)) data -> j <= length r).
Proof.
  intros data x i n. induction n as [|n IH]; intros best L; cbv zeta.
  - simpl. split; auto. intros; lia.
  - rewrite seq_S, fold_left_app. cbn [fold_left Nat.add]. destruct (IH best ltac:(lia)) as [A B].
    set (r0 := fold_left _ (seq 0 n) best) in *. clearbody r0. cbv zeta in *.
    assert (LN : length (firstn n (skipn i x)) = n) by (rewrite firstn_length, skipn_length; lia).
    destruct (Nat.ltb_spec (length r0) n) as [Lt|Ge]; cbn [andb].
    + destruct (forallb (substrb (firstn n (skipn i x))) data) eqn:F.
      * split.
        -- right. split; [destruct A as [->|[A _]]; lia|]. exists n. split; [lia|]. split; auto. apply all_sub; auto.
        -- intros j Hj _. rewrite LN. lia.
      * split.
        -- destruct A as [->|(A & j & J & E & C)]; auto. right. split; auto. exists j. split; [lia|]. auto.
        -- intros j Hj C. destruct (Nat.eq_dec j n) as [->|]; [apply all_sub in C; congruence|]. apply B; auto. lia.
    + split.
      * destruct A as [->|(A & j & J & E & C)]; auto. right. split; auto. exists j. split; [lia|]. auto.
      * intros j Hj C. destruct (Nat.eq_dec j n) as [->|]; [lia|]. apply B; auto. lia.
Qed.
Lemma lcs_inner_spec : forall data x i best, i <= length x -> let r := lcs_inner data x i best in
  (r = best \/ (length best < length r /\ at_pos data x r i)) /\ (forall s, at_pos data x s i -> length s <= length r).
Proof.
  intros data x i best L r. unfold r, lcs_inner. destruct (inner_spec data x i (length x - i + 1) best ltac:(lia)) as [A B]. cbv zeta in A, B. split.
  - destruct A as [A|(A & j & J & E & C)]; [left; exact A|right]. split; [exact A|]. exists j. split; [lia|]. split; auto.
  - intros s (j & J & -> & C). rewrite firstn_length, skipn_length. specialize (B j ltac:(lia) C). lia.
Qed.
Lemma outer_spec : forall data x n, n <= length x ->
  let r := fold_left (fun best i => lcs_inner data x i best) (seq 0 n) [] in
  (r = [] \/ exists i, i < n /\ at_pos data x r i /\ forall i' s, i' < i -> at_pos data x s i' -> length s < length r) /\
  (forall i s, i < n -> at_pos data x s i -> length s <= length r).
Proof.
  intros data x n. induction n as [|n IH]; intros L; cbv zeta.
  - simpl. split; auto. intros; lia.
  - rewrite seq_S, fold_left_app. cbn [fold_left Nat.add]. destruct (IH ltac:(lia)) as [A B]. cbv zeta in A, B.
    set (r0 := fold_left (fun (best : str) (i : nat) => lcs_inner data x i best) (seq 0 n) []) in *. clearbody r0. destruct (lcs_inner_spec data x n r0 ltac:(lia)) as [C D].
    set (r := lcs_inner data x n r0) in *. clearbody r. destruct C as [->|[C1 C2]].
    + split.
      * destruct A as [A|(i & Hi & P & Q)]; auto. right. exists i. split; [lia|]. auto.
      * intros i s Hi Hs. destruct (Nat.eq_dec i n) as [->|]; [apply D; auto|]. apply (B i); auto. lia.
    + split.
      * right. exists n. split; [lia|]. split; auto. intros i' s Hi Hs. specialize (B i' s Hi Hs). lia.
      * intros i s Hi Hs. destruct (Nat.eq_dec i n) as [->|]; [apply D; auto|]. specialize (B i s ltac:(lia) Hs). lia.
Qed.
Lemma sub_of_first : forall data x s, common_substring s (x :: data) -> exists i, i <= length x /\ at_pos (x :: data) x s i /\ firstn (length s) (skipn i x) = s.
Proof.
  intros data x s H. destruct (H x (or_introl eq_refl)) as (a & b & E). exists (length a).
  assert (E2 : firstn (length s) (skipn (length a) x) = s).
  { rewrite E, skipn_app, Nat.sub_diag, skipn_all. simpl. rewrite firstn_app, Nat.sub_diag, firstn_all. simpl. apply app_nil_r. }
  assert (E3 : length x = length a + (length s + length b)) by (rewrite E, !app_length; auto).
  split; [lia|]. split; [|exact E2]. exists (length s). split; [lia|]. split; auto.
Qed.
(** [s] starts at position [i] of [x] *)
Lemma lcs_spec : forall x data, let r := longest_common_substring (x :: data) in
  common_substring r (x :: data) /\ (forall s, common_substring s (x :: data) -> length s <= length r) /\
  exists a b, x = a ++ r ++ b /\ forall a' s b', common_substring s (x :: data) -> length s = length r -> x = a' ++ s ++ b' -> length a <= length a'.
Proof.
  intros x data. destruct data as [|y data].
  - cbn [longest_common_substring]. split; [intros s [<-|[]]; exists [], []; simpl; rewrite app_nil_r; auto|]. split.
    + intros s H. destruct (H x (or_introl eq_refl)) as (a & b & ->). rewrite !app_length. lia.
    + exists [], []. split; [simpl; rewrite app_nil_r; auto|]. intros. simpl. lia.
  - set (d := x :: y :: data). assert (EM : common_substring [] d) by (intros s _; exists [], s; auto).
    destruct x as [|c x].
    + cbn. split; [exact EM|]. split.
      * intros s H. destruct (H [] (or_introl eq_refl)) as (a & b & E). destruct a, s, b; simpl in *; try discriminate; lia.
      * exists [], []. split; auto. intros; simpl; lia.
    + set (x0 := c :: x) in *.
      assert (R : longest_common_substring d = fold_left (fun best i => lcs_inner d x0 i best) (seq 0 (length x0)) []) by reflexivity.
      rewrite R. destruct (outer_spec d x0 (length x0) ltac:(lia)) as [A B]. cbv zeta in A, B.
      set (r := fold_left (fun (best : str) (i : nat) => lcs_inner d x0 i best) (seq 0 (length x0)) []) in *. clearbody r. clear R. cbv zeta.
      assert (MX : forall s, common_substring s d -> length s <= length r).
      { intros s H. destruct (sub_of_first _ _ _ H) as (i & Hi & P & E). destruct (Nat.eq_dec i (length x0)) as [->|].
        - rewrite skipn_all, firstn_nil in E. rewrite <- E. simpl. lia.
        - apply (B i); auto. lia. }
      destruct A as [->|(i & Hi & (j & J & E & C) & F)].
      * split; auto. split; auto. exists [], x0. split; auto. intros. simpl. lia.
      * split; auto. split; auto. exists (firstn i x0), (skipn j (skipn i x0)). split.
        -- rewrite E. rewrite firstn_skipn, firstn_skipn. auto.
        -- intros a' s b' Hs Ls Ex. rewrite firstn_length. destruct (Nat.le_gt_cases i (length a')) as [|G]; [lia|]. exfalso.
           assert (P : at_pos d x0 s (length a')).
           { exists (length s). rewrite Ex, !app_length. split; [lia|]. split; [|exact Hs].
             rewrite skipn_app, Nat.sub_diag, skipn_all. simpl. rewrite firstn_app, Nat.sub_diag, firstn_all. simpl. rewrite app_nil_r. auto. }
           specialize (F _ _ G P). lia.
Qed.

(** ** Largest elements *)
Lemma zmem_In : forall k l, zmem k l = true <-> In k l.
Proof. intros. unfold zmem. rewrite existsb_exists. split; [intros (x & H & E); apply Z.eqb_eq in E; subst; auto|intro H; exists k; split; auto; apply Z.eqb_refl]. Qed.
Lemma znodup_In : forall l x, In x (znodup l) <-> In x l.
Proof.
  induction l as [|y l IH]; intro x; simpl; [tauto|]. destruct (zmem y l) eqn:E; simpl; rewrite IH; [|tauto].
  apply zmem_In in E. split; auto. intros [->|]; auto.
Qed.
Lemma znodup_NoDup : forall l, NoDup (znodup l).
Proof.
  induction l as [|y l IH]; simpl; [constructor|]. destruct (zmem y l) eqn:E; auto. constructor; auto. rewrite znodup_In.
  intro H. apply zmem_In in H. congruence.
Qed.
Lemma filter_nil_t : forall {A} (f : A -> bool) l, (forall x, In x l -> f x = false) -> filter f l = [].
Proof. intros A f l H. induction l as [|y l IH]; auto. simpl. rewrite (H y) by (left; auto). apply IH. intros; apply H; right; auto. Qed.
Lemma firstn_sorted : forall n S k, NoDup S -> StronglySorted (fun a b => (a >=? b)%Z = true) S ->
  (In k (firstn n S) <-> In k S /\ length (filter (fun z => k <? z)%Z S) < n).
Proof.
  induction n as [|n IH]; intros S k ND SS; [simpl; split; [tauto|intros [_ H]; lia]|].
  destruct S as [|x S]; [simpl; split; [tauto|intros [[] _]]|]. inversion ND; subst. inversion SS; subst.
  simpl. rewrite IH by auto. rewrite Forall_forall in H4.
  assert (LT : forall z, In z S -> (z < x)%Z).
  { intros z Hz. specialize (H4 z Hz). rewrite Z.geb_leb, Z.leb_le in H4. assert (z <> x) by (intros ->; auto). lia. }
  destruct (Z.ltb_spec k x) as [L|G].
  - cbn [length]. split; [intros [->|[A B]]; [lia|split; [auto|lia]]|]. intros [[->|A] B]; [lia|]. right. split; auto. lia.
  - assert (E : filter (fun z => (k <? z)%Z) S = []).
    { apply filter_nil_t. intros z Hz. apply Z.ltb_ge. specialize (LT z Hz). lia. }
    rewrite E. cbn [length]. split; [intros [->|[A B]]; split; auto; lia|]. intros [[->|A] B]; [auto|]. specialize (LT k A). lia.
Qed.
Lemma largest_spec : forall {A} (key : A -> Z) n l, exists f, largest_elements key n l = filter f l /\
  forall x, In x l -> (f x = true <-> among_largest key n l (key x)).
Proof.
  intros A key n l. unfold largest_elements. eexists. split; [reflexivity|]. intros x Hx. cbv beta. rewrite zmem_In. unfold nlargest.
  set (S := sort_desc Z.geb (znodup (map key l))).
  assert (P : Permutation (znodup (map key l)) S) by apply sort_desc_perm.
  assert (ND : NoDup S) by (eapply Permutation_NoDup; [exact P|apply znodup_NoDup]).
  assert (SS : StronglySorted (fun a b => (a >=? b)%Z = true) S).
  { apply sort_desc_sorted; intros a b; rewrite !Z.geb_leb; [rewrite Z.leb_gt, Z.leb_le; lia|]. intro c. rewrite !Z.geb_leb, !Z.leb_le. lia. }
  assert (I : forall z, In z S <-> exists y, In y l /\ key y = z).
  { intro z. unfold S. rewrite sort_desc_In, znodup_In, in_map_iff. split; intros (y & a & b); exists y; auto. }
  rewrite firstn_sorted by auto. clearbody S. split.
  - intros [_ L]. exists (filter (fun z => (key x <? z)%Z) S). split; [apply NoDup_filter; auto|]. split; [|exact L].
    intro z. rewrite filter_In, I, Z.ltb_lt. tauto.
  - intros (g & N & G & L). split; [apply I; eauto|]. replace (length (filter (fun z => (key x <? z)%Z) S)) with (length g); auto.
    apply Permutation_length, NoDup_Permutation; auto; [apply NoDup_filter; auto|]. intro z. rewrite filter_In, I, Z.ltb_lt, G. tauto.
Qed.

Lemma tokenize_iff : forall U text ts, spaces_ok U -> (simple_word_tokenize U text = ts <-> tokens U text ts).
Proof.
  intros U text ts S. split; [intros <-; apply tokenize_spec; auto|apply tokenize_tokens; auto].
Qed.
Lemma tokenize_concat : forall U text, spaces_ok U ->
  concat (simple_word_tokenize U text) = filter (fun c => negb (u_space U c)) text.
Proof. intros. apply tokens_concat; auto. apply tokenize_spec; auto. Qed.
Lemma tokenize_shape : forall U text t, spaces_ok U -> In t (simple_word_tokenize U text) ->
  t <> [] /\ ((forall c, In c t -> wordish U c) \/ exists c, t = [c] /\ ~ wordish U c /\ u_space U c = false).
Proof. intros U text t S H. eapply tokens_shape; eauto. apply tokenize_spec; auto. Qed.
Lemma tokenize_again : forall U text, spaces_ok U ->
  simple_word_tokenize U (join (u " ") (simple_word_tokenize U text)) = simple_word_tokenize U text.
Proof. intros. apply tokenize_tokens; auto. eapply tokens_again; eauto. apply tokenize_spec; auto. Qed.
Lemma pieces_unique : forall c s, exists l, pieces c s l /\ forall l', pieces c s l' -> l' = l.
Proof. intros. exists (split_on c s). split; [apply split_on_pieces|apply pieces_eq]. Qed.

(** the example tables meet the assumptions *)
Ltac nsplit := repeat (match goal with
  | |- context [(?a <=? ?c)%N] => is_var c; destruct (N.leb_spec a c)
  | |- context [(?c <=? ?b)%N] => is_var c; destruct (N.leb_spec c b)
  | |- context [(?c =? ?b)%N] => is_var c; destruct (N.eqb_spec c b)
  end; cbn [andb orb negb]; try lia).
Ltac nsplit2 := nsplit; repeat (match goal with
  | |- context [(?a <=? ?b)%N] => destruct (N.leb_spec a b)
  | |- context [(?a =? ?b)%N] => destruct (N.eqb_spec a b)
  end; cbn [andb orb negb]; try lia).
Lemma cyr_lower_lower : forall c, cyr_lower1 (cyr_lower1 c) = cyr_lower1 c.
Proof. intros c. unfold cyr_lower1, rng. nsplit2; auto. Qed.
Lemma cyr_lower_upper : forall c, cyr_lower1 (cyr_upper1 c) = cyr_lower1 c.
Proof. intros c. unfold cyr_lower1, cyr_upper1, rng. nsplit2; auto. Qed.
Lemma cyr_lower_hyph : forall c, c = 45%N <-> cyr_lower1 c = 45%N.
Proof. intros c. unfold cyr_lower1, rng. nsplit2. Qed.
Lemma cyr_upper_hyph : forall c, c = 45%N <-> cyr_upper1 c = 45%N.
Proof. intros c. unfold cyr_upper1, rng. nsplit2. Qed.
Lemma uni_cyr_regular : forall w, regular_case uni_cyr w.
Proof.
  intros w a p b _. cbn [u_lower u_upper u_title uni_cyr].
  assert (L : forall c, same_letter uni_cyr c (cyr_lower1 c)).
  { intros c. split; [cbn; f_equal; symmetry; apply cyr_lower_lower|apply cyr_lower_hyph]. }
  assert (UP : forall c, same_letter uni_cyr c (cyr_upper1 c)).
  { intros c. split; [cbn; f_equal; symmetry; apply cyr_lower_upper|apply cyr_upper_hyph]. }
  split; [|split].
  - induction p; cbn; constructor; auto.
  - induction p; cbn; constructor; auto.
  - generalize false. induction p as [|c p IH]; intros f; cbn; constructor; auto. destruct f; auto.
Qed.
Lemma cyr_word_space : forall c, cyr_word c = true -> cyr_space c = false.
Proof.
  intros c. unfold cyr_word, cyr_alpha, is_cased, is_lo, is_up, cyr_space.
  destruct (rng 9 13 c || rng 28 32 c || (c =? 133)%N || (c =? 160)%N || (c =? 8232)%N || (c =? 8233)%N) eqn:S; auto.
  intros H. exfalso. revert H.
  assert (R : (9 <= c <= 13)%N \/ (28 <= c <= 32)%N \/ c = 133%N \/ c = 160%N \/ c = 8232%N \/ c = 8233%N).
  { rewrite !orb_true_iff in S. unfold rng in S. rewrite !andb_true_iff, !N.leb_le, !N.eqb_eq in S. tauto. }
  unfold cyr_upper1, cyr_lower1, rng. clear S. intros H. revert H. nsplit2; intros; try discriminate; destruct R as [|[|[|[|[]]]]]; lia.
Qed.
Lemma uni_cyr_spaces : spaces_ok uni_cyr.
Proof.
  split; [reflexivity|]. intros c [[H|[->| ->]] _]; [apply cyr_word_space; exact H|reflexivity|reflexivity].
Qed.
