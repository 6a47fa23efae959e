(** * Lemmas: truncated JSON files are refused *)
From Coq Require Import String List NArith ZArith Bool Lia.
From Verif Require Import Py Json Spec4 L_Base L_Json.
Import ListNotations.
Local Open Scope nat_scope.
Local Open Scope list_scope.

(** ** Fuel *)
Lemma join_len : forall sep (l : list str), l <> [] -> length (join sep l) + length sep = fold_right (fun x n => length x + length sep + n) 0 l.
Proof.
  intros sep l. induction l as [|x l IH]; [congruence|]. intros _. destruct l as [|y l].
  - cbn [join fold_right]. lia.
  - rewrite join_cons2, !app_length. assert (Z : y :: l <> []) by discriminate. specialize (IH Z). cbn [fold_right] in *. lia.
Qed.
Lemma need_len : forall v, jok v -> forall lvl, need v <= 2 * length (jwrite lvl v).
Proof.
  intros v. induction v as [|b|z|x|s|l IH|l IH] using jval_rect'; intros J lvl;
    try (destruct (jwrite_head lvl _ J) as (c & r & E & _); rewrite E; cbn [need length]; lia).
  - destruct l as [|y l']; [cbn; lia|]. cbn [jok] in J.
    assert (X : fold_right (fun x n => S (need x) + n) 0 (y :: l') <= 2 * length (join ([44%N] ++ nl (S lvl)) (map (jwrite (S lvl)) (y :: l'))) + 2 * length ([44%N] ++ nl (S lvl))).
    { rewrite <- Nat.mul_add_distr_l. rewrite join_len by discriminate. clear - IH J. induction IH as [|x l Hx F IHl]; [cbn; lia|]. cbn [fold_right map] in *. destruct J as [Jx Jl]. specialize (Hx Jx (S lvl)). specialize (IHl Jl).
      assert (1 <= length ([44%N] ++ nl (S lvl))) by (cbn [app length]; lia). unfold str, char in *. lia. }
    cbn [need jwrite]. rewrite !app_length. cbn [length]. rewrite !app_length in X. unfold nl in *. cbn [length] in *. rewrite !repeat_length in *. unfold str, char in *. lia.
  - destruct l as [|y l']; [cbn; lia|]. cbn [jok] in J. destruct J as [_ J].
    assert (X : fold_right (fun kv n => S (need (snd kv)) + n) 0 (y :: l') <= 2 * length (join ([44%N] ++ nl (S lvl)) (map (fun kv => jstr (fst kv) ++ [58; 32]%N ++ jwrite (S lvl) (snd kv)) (y :: l'))) + 2 * length ([44%N] ++ nl (S lvl))).
    { rewrite <- Nat.mul_add_distr_l. rewrite join_len by discriminate. clear - IH J. induction IH as [|x l Hx F IHl]; [cbn; lia|]. cbn [fold_right map] in *. destruct J as [Jx Jl]. specialize (Hx Jx (S lvl)). specialize (IHl Jl).
      assert (1 <= length ([44%N] ++ nl (S lvl))) by (cbn [app length]; lia). rewrite !app_length in *. unfold str, char in *. lia. }
    cbn [need jwrite]. rewrite !app_length. cbn [length]. rewrite !app_length in X. unfold nl in *. cbn [length] in *. rewrite !repeat_length in *. unfold str, char in *. lia.
Qed.
Lemma head_not_bom : forall v lvl c r, jok v -> jwrite lvl v = c :: r -> c <> 65279%N.
Proof.
  intros v lvl c r J E X. subst c.
  assert (D : forall s (r0 : str), (is_digit s = true \/ (s = 45%N /\ exists d r', r0 = d :: r' /\ is_digit d = true)) -> s <> 65279%N).
  { intros s r0 [H|[-> _]]; [|discriminate]. pose proof (digit_range _ H). lia. }
  destruct v as [|[|]|z|t|s|l|l]; try discriminate E.
  - cbn [jwrite] in E. destruct (int_head z) as (c & r' & E' & H). rewrite E' in E. injection E as -> ->. exact (D _ _ H eq_refl).
  - cbn [jwrite] in E. destruct J as [J|[->|[->| ->]]]; try discriminate E. destruct (real_head t J) as (c & r' & E' & H). rewrite E' in E. injection E as -> ->. exact (D _ _ H eq_refl).
  - destruct l; discriminate E.
  - destruct l; discriminate E.
Qed.
Lemma loads_write : forall fs v, jok v -> json_loads fs (jwrite 0 v) = Ok (rd fs v).
Proof.
  intros fs v J. destruct (jwrite_head 0 v J) as (c & r & E & W & _). pose proof (head_not_bom v 0 c r J E) as B. unfold json_loads. rewrite E. rewrite (proj2 (N.eqb_neq _ _) B).
  rewrite <- E at 1. rewrite (skip_non c r W), <- E. rewrite <- (app_nil_r (jwrite 0 v)) at 2. rewrite (value_rt fs v J 0); [reflexivity| |exact I].
  pose proof (need_len v J 0). lia.
Qed.

Definition Mono {A B} (g : nat -> A -> res B) : Prop := forall f x y, g f x = Ok y -> forall f', f <= f' -> g f' x = Ok y.
Lemma fuel_mono : forall fs f,
  (forall s y, scan_value f fs s = Ok y -> forall f', f <= f' -> scan_value f' fs s = Ok y) /\
  (forall acc s y, scan_items f fs acc s = Ok y -> forall f', f <= f' -> scan_items f' fs acc s = Ok y) /\
  (forall acc s y, scan_members f fs acc s = Ok y -> forall f', f <= f' -> scan_members f' fs acc s = Ok y).
Proof.
  intros fs f. induction f as [|f (IHv & IHi & IHm)]; [repeat split; intros; discriminate|]. split; [|split].
  - intros s y H f' L. destruct f' as [|f']; [lia|]. assert (L' : f <= f') by lia. cbn [scan_value] in *. destruct s as [|c r]; [discriminate|].
    destruct (c =? 34)%N; [exact H|]. destruct (c =? 123)%N.
    { destruct (skip_ws r) as [|d r2]; [discriminate|]. destruct (d =? 125)%N; [exact H|]. exact (IHm _ _ _ H _ L'). }
    destruct (c =? 91)%N; [|exact H]. destruct (skip_ws r) as [|d r2]; [discriminate|]. destruct (d =? 93)%N; [exact H|]. exact (IHi _ _ _ H _ L').
  - intros acc s y H f' L. destruct f' as [|f']; [lia|]. assert (L' : f <= f') by lia. cbn [scan_items] in *. destruct (scan_value f fs s) as [[v t]|] eqn:E; [|discriminate]. rewrite (IHv _ _ E _ L'). cbn [bind fst snd] in *.
    destruct (skip_ws t) as [|d r]; [discriminate|]. destruct (d =? 93)%N; [exact H|]. destruct (d =? 44)%N; [|discriminate]. exact (IHi _ _ _ H _ L').
  - intros acc s y H f' L. destruct f' as [|f']; [lia|]. assert (L' : f <= f') by lia. cbn [scan_members] in *. destruct s as [|q r]; [discriminate|]. destruct (q =? 34)%N; [|discriminate].
    destruct (scan_str r) as [[k t]|]; [|discriminate]. cbn [bind fst snd] in *. destruct (skip_ws t) as [|d r2]; [discriminate|]. destruct (d =? 58)%N; [|discriminate].
    destruct (scan_value f fs (skip_ws r2)) as [[v t2]|] eqn:E; [|discriminate]. rewrite (IHv _ _ E _ L'). cbn [bind fst snd] in *.
    destruct (skip_ws t2) as [|d2 r3]; [discriminate|]. destruct (d2 =? 125)%N; [exact H|]. destruct (d2 =? 44)%N; [|discriminate]. exact (IHm _ _ _ H _ L').
Qed.

(** ** What was read does not change when more text follows *)
Definition pick (r3 : str) : option N :=
  match r3 with
  | b1 :: u1 :: a' :: b' :: c' :: d' :: _ => if ((b1 =? 92) && (u1 =? 117))%N then hex4 a' b' c' d' else None
  | _ => None
  end.
Definition after_u (n : N) (r3 : str) : res (str * str) :=
  if between 55296 n 56319 then
    match pick r3 with
    | Some m => if between 56320 m 57343 then let* xt := scan_str (skipn 6 r3) in Ok ((65536 + (n - 55296) * 1024 + (m - 56320))%N :: fst xt, snd xt)
                else let* xt := scan_str r3 in Ok (n :: fst xt, snd xt)
    | None => let* xt := scan_str r3 in Ok (n :: fst xt, snd xt)
    end
  else let* xt := scan_str r3 in Ok (n :: fst xt, snd xt).
Lemma scan_str_u : forall a b c d r, scan_str (92%N :: 117%N :: a :: b :: c :: d :: r) = match hex4 a b c d with None => Err ValueError | Some n => after_u n r end.
Proof.
  intros a b c d r. cbn [scan_str]. change (92 =? 34)%N with false. change (92 =? 92)%N with true. change (117 =? 117)%N with true. cbv iota. destruct (hex4 a b c d) as [n|]; [|reflexivity].
  unfold after_u, pick. destruct (between 55296 n 56319); [|reflexivity]. destruct r as [|b1 [|u1 [|a' [|b' [|c' [|d' s']]]]]]; try reflexivity.
Qed.
Lemma pick_ext : forall r x y t, scan_str r = Ok (x, y) -> pick (r ++ t) = pick r.
Proof.
  intros r x y t H. destruct r as [|b1 [|u1 r]]; [discriminate| |].
  - cbn [scan_str] in H. destruct (b1 =? 34)%N eqn:E1; [apply N.eqb_eq in E1; subst b1|].
    + destruct t as [|? [|? [|? [|? [|? ?]]]]]; reflexivity.
    + destruct (b1 =? 92)%N; [discriminate|]. destruct (b1 <? 32)%N; discriminate.
  - destruct ((b1 =? 92) && (u1 =? 117))%N eqn:B.
    + apply andb_true_iff in B as [B1 B2]. apply N.eqb_eq in B1, B2. subst b1 u1. destruct r as [|a' [|b' [|c' [|d' s']]]]; try discriminate H. reflexivity.
    + unfold pick. cbn [app]. rewrite B. destruct r as [|a' [|b' [|c' [|d' s']]]]; cbn [app]; try reflexivity; destruct t as [|? [|? [|? [|? [|? ?]]]]]; reflexivity.
Qed.
Lemma pick_len : forall r m, pick r = Some m -> exists a b c d e f s, r = a :: b :: c :: d :: e :: f :: s.
Proof. intros r m H. destruct r as [|b1 [|u1 [|a' [|b' [|c' [|d' s']]]]]]; try discriminate. repeat eexists. Qed.
Lemma pick_start : forall r m, pick r = Some m -> exists a b c d s, r = 92%N :: 117%N :: a :: b :: c :: d :: s /\ hex4 a b c d = Some m.
Proof.
  intros r m H. destruct r as [|b1 [|u1 [|a' [|b' [|c' [|d' s']]]]]]; try discriminate. cbn [pick] in H. destruct ((b1 =? 92) && (u1 =? 117))%N eqn:B; [|discriminate].
  apply andb_true_iff in B as [B1 B2]. apply N.eqb_eq in B1, B2. subst. eexists _, _, _, _, _. split; [reflexivity|exact H].
Qed.
Lemma scan_str_ext : forall n s x r, length s <= n -> scan_str s = Ok (x, r) -> forall t, scan_str (s ++ t) = Ok (x, r ++ t).
Proof.
  induction n as [|n IH]; intros s x r L H t.
  - destruct s; [discriminate|simpl in L; lia].
  - assert (K : forall p y, length p <= n -> (let* xt := scan_str p in Ok (y :: fst xt, snd xt)) = Ok (x, r) -> (let* xt := scan_str (p ++ t) in Ok (y :: fst xt, snd xt)) = Ok (x, r ++ t)).
    { intros p y Lp Hp. destruct (scan_str p) as [[x1 r1]|] eqn:E; [|discriminate]. cbn [bind fst snd] in Hp. apply Ok_inj in Hp. injection Hp as <- <-. rewrite (IH p x1 r1 Lp E t). reflexivity. }
    destruct s as [|c s]; [discriminate|]. cbn [length] in L.
    destruct (c =? 34)%N eqn:C1. { cbn [app scan_str] in *. rewrite C1 in *. apply Ok_inj in H. injection H as <- <-. reflexivity. }
    destruct (c =? 92)%N eqn:C2.
    + apply N.eqb_eq in C2. subst c. destruct s as [|e s]; [discriminate|]. cbn [length] in L. destruct (e =? 117)%N eqn:U.
      * apply N.eqb_eq in U. subst e. destruct s as [|a [|b [|c2 [|d s]]]]; try discriminate. cbn [length] in L. cbn [app]. rewrite scan_str_u in *. destruct (hex4 a b c2 d) as [m|]; [|discriminate].
        unfold after_u in *. destruct (between 55296 m 56319); [|apply K; [lia|exact H]].
        destruct (pick s) as [q|] eqn:P.
        -- destruct (pick_start _ _ P) as (a1 & b1 & c1 & d1 & s1 & -> & Hx). cbn [length] in L.
           match goal with |- context [pick ?z] => replace (pick z) with (Some q) by (symmetry; exact Hx) end. destruct (between 56320 q 57343); [|apply K; [cbn [length]; lia|exact H]].
           cbn [app skipn] in *. apply K; [lia|exact H].
        -- destruct (scan_str s) as [[x1 y1]|] eqn:Es; [|discriminate]. rewrite (pick_ext _ _ _ t Es), P. apply K; [lia|]. rewrite Es. exact H.
      * cbn [app scan_str] in *. change (92 =? 34)%N with false in *. change (92 =? 92)%N with true in *. cbv iota in *. rewrite U in *. destruct (simple_esc e); [|discriminate]. apply K; [lia|exact H].
    + cbn [app scan_str] in *. rewrite C1, C2 in *. destruct (c <? 32)%N; [discriminate|]. apply K; [lia|exact H].
Qed.
Definition delimited (r : str) : Prop := match r with [] => False | c :: _ => is_ws c = true \/ c = 44%N \/ c = 93%N \/ c = 125%N end.
Lemma delim_char : forall c, is_ws c = true \/ c = 44%N \/ c = 93%N \/ c = 125%N -> is_digit c = false /\ c <> 46%N /\ c <> 101%N /\ c <> 69%N.
Proof.
  intros c [H|[->|[->| ->]]]; try (repeat split; discriminate). unfold is_ws in H. rewrite !orb_true_iff, !N.eqb_eq in H. destruct H as [[[->| ->]| ->]| ->]; repeat split; discriminate.
Qed.
Lemma span_spec : forall s a b, span_digits s = (a, b) -> s = a ++ b /\ (forall c, In c a -> is_digit c = true) /\ stops b.
Proof.
  induction s as [|c s IH]; intros a b H; cbn [span_digits] in H.
  - injection H as <- <-. repeat split; simpl; tauto.
  - destruct (is_digit c) eqn:D.
    + destruct (span_digits s) as [a1 b1]. injection H as <- <-. destruct (IH _ _ eq_refl) as (-> & A & B). repeat split; auto. intros x [<-|Hx]; auto.
    + injection H as <- <-. repeat split; simpl; tauto.
Qed.
Lemma span_ext : forall s a b t, span_digits s = (a, b) -> b <> [] -> span_digits (s ++ t) = (a, b ++ t).
Proof.
  intros s a b t H N. destruct (span_spec _ _ _ H) as (-> & A & B). rewrite <- app_assoc. apply span_app; [exact A|]. destruct b; [congruence|exact B].
Qed.
Lemma delim_ndelim : forall r t, delimited r -> ndelim (r ++ t).
Proof. intros [|c r] t H; [destruct H|]. exact (delim_char c H). Qed.
Lemma delim_ne : forall r, delimited r -> r <> [].
Proof. intros [|c r] H; [destruct H|discriminate]. Qed.
Lemma exp_ext : forall s ex r t, scan_exp s = (ex, r) -> delimited r -> scan_exp (s ++ t) = (ex, r ++ t).
Proof.
  intros s ex r t H D. destruct s as [|e s]; [cbn in H; injection H as <- <-; destruct D|]. cbn [app]. unfold scan_exp in *.
  destruct ((e =? 101) || (e =? 69))%N eqn:E.
  - assert (NE : (e :: s, r) = (r, r) -> False).
    { intros X. injection X as X. rewrite <- X in D. destruct (delim_char e D) as (_ & _ & A & B). rewrite (proj2 (N.eqb_neq _ _) A), (proj2 (N.eqb_neq _ _) B) in E. discriminate. }
    destruct s as [|g s]; [injection H as <- <-; destruct (NE eq_refl)|]. cbn [app]. destruct ((g =? 43) || (g =? 45))%N.
    + destruct (span_digits s) as [x t2] eqn:S. destruct x as [|x0 x]; [injection H as <- <-; destruct (NE eq_refl)|]. injection H as <- <-. rewrite (span_ext _ _ _ t S (delim_ne _ D)). reflexivity.
    + destruct (span_digits (g :: s)) as [x t2] eqn:S. destruct x as [|x0 x]; [injection H as <- <-; destruct (NE eq_refl)|]. injection H as <- <-.
      change (g :: s ++ t) with ((g :: s) ++ t). rewrite (span_ext _ _ _ t S (delim_ne _ D)). reflexivity.
  - injection H as <- <-. reflexivity.
Qed.
Lemma exp_app_eq : forall s ex r, scan_exp s = (ex, r) -> s = ex ++ r.
Proof.
  intros s ex r H. destruct s as [|e s]; [cbn in H; injection H as <- <-; reflexivity|]. unfold scan_exp in H. destruct ((e =? 101) || (e =? 69))%N; [|injection H as <- <-; reflexivity].
  destruct s as [|g s]; [injection H as <- <-; reflexivity|]. destruct ((g =? 43) || (g =? 45))%N.
  - destruct (span_digits s) as [x t2] eqn:S. destruct (span_spec _ _ _ S) as (E & _). destruct x as [|x0 x]; injection H as <- <-; [reflexivity|]. rewrite E. reflexivity.
  - destruct (span_digits (g :: s)) as [x t2] eqn:S. destruct (span_spec _ _ _ S) as (E & _). destruct x as [|x0 x]; injection H as <- <-; [reflexivity|]. rewrite E. reflexivity.
Qed.
Lemma int_part_ext : forall s d r t, int_part s = (d, r) -> d <> [] -> r <> [] -> int_part (s ++ t) = (d, r ++ t).
Proof.
  intros s d r t H N1 N2. destruct s as [|c s]; [cbn in H; injection H as <- <-; congruence|]. unfold int_part in *. cbn [app]. destruct (c =? 48)%N.
  - injection H as <- <-. reflexivity.
  - change (c :: s ++ t) with ((c :: s) ++ t). apply span_ext; assumption.
Qed.
Lemma num_body_ext : forall fs b s v r t, num_body fs b s = Ok (v, r) -> delimited r -> num_body fs b (s ++ t) = Ok (v, r ++ t).
Proof.
  intros fs b s v r t H D. unfold num_body in *. destruct (int_part s) as [ds s2] eqn:Ei. destruct ds as [|d0 ds]; [discriminate|].
  destruct (scan_frac s2) as [frac s3] eqn:Ef. destruct (scan_exp s3) as [ex s4] eqn:Ee.
  destruct (frac ++ ex) as [|q0 q] eqn:Q.
  - apply Ok_inj in H. injection H as <- <-. rewrite (int_part_ext _ _ _ t Ei ltac:(discriminate) (delim_ne _ D)).
    rewrite (frac_none _ (delim_ndelim s2 t D)), (exp_none _ (delim_ndelim s2 t D)). reflexivity.
  - apply Ok_inj in H. injection H as <- <-.
    pose proof (exp_app_eq _ _ _ Ee) as E3. assert (N3 : s3 <> []). { intros ->. destruct ex; [|discriminate]. cbn in E3. subst s4. destruct D. }
    assert (F : scan_frac (s2 ++ t) = (frac, s3 ++ t) /\ s2 <> []).
    { destruct s2 as [|d s2]; [cbn in Ef; injection Ef as <- <-; congruence|]. split; [|discriminate]. unfold scan_frac in *. cbn [app]. destruct (d =? 46)%N eqn:E46; [|injection Ef as <- <-; reflexivity].
      apply N.eqb_eq in E46. subst d. destruct (span_digits s2) as [x t2] eqn:S. destruct x as [|x0 x].
      - injection Ef as <- <-. cbn in Ee. injection Ee as <- <-. discriminate Q.
      - injection Ef as <- <-. rewrite (span_ext _ _ _ t S N3). reflexivity. }
    destruct F as [F N2]. rewrite (int_part_ext _ _ _ t Ei ltac:(discriminate) N2). rewrite F. rewrite (exp_ext _ _ _ t Ee D). rewrite Q. reflexivity.
Qed.
Lemma num_body_digit : forall fs b s v r, num_body fs b s = Ok (v, r) -> exists c s', s = c :: s' /\ is_digit c = true.
Proof.
  intros fs b s v r H. unfold num_body in H. destruct s as [|c s]; [discriminate|]. exists c, s. split; [reflexivity|]. cbn [int_part] in H. destruct (c =? 48)%N eqn:E; [apply N.eqb_eq in E; subst; reflexivity|].
  cbn [span_digits] in H. destruct (is_digit c); [reflexivity|discriminate].
Qed.
Lemma number_ext : forall fs s v r t, scan_number fs s = Ok (v, r) -> delimited r -> scan_number fs (s ++ t) = Ok (v, r ++ t).
Proof.
  intros fs s v r t H D. destruct s as [|c s]; [discriminate|]. destruct (N.eq_dec c 45) as [->|N].
  - rewrite scan_number_neg in H. cbn [app]. rewrite scan_number_neg. exact (num_body_ext _ _ _ _ _ t H D).
  - rewrite scan_number_pos in H by exact N. cbn [app]. rewrite scan_number_pos by exact N. exact (num_body_ext fs false (c :: s) _ _ t H D).
Qed.
Lemma number_head : forall fs s v r, scan_number fs s = Ok (v, r) -> exists c s', s = c :: s' /\ (is_digit c = true \/ (c = 45%N /\ exists d r', s' = d :: r' /\ is_digit d = true)).
Proof.
  intros fs s v r H. destruct s as [|c s]; [discriminate|]. exists c, s. split; [reflexivity|]. destruct (N.eq_dec c 45) as [->|N].
  - rewrite scan_number_neg in H. destruct (num_body_digit _ _ _ _ _ H) as (d & s' & -> & D). right. split; [reflexivity|]. exists d, s'. split; [reflexivity|exact D].
  - rewrite scan_number_pos in H by exact N. destruct (num_body_digit _ _ _ _ _ H) as (d & s' & E & D). injection E as -> ->. left. exact D.
Qed.
Lemma number_not_inf : forall fs s v r t, scan_number fs s = Ok (v, r) -> prefixb (u "-Infinity") (s ++ t) = false.
Proof.
  intros fs s v r t H. destruct (number_head _ _ _ _ H) as (c & s' & -> & [D|(-> & d & r' & -> & D)]).
  - change (u "-Infinity") with (45%N :: u "Infinity"). cbn [app prefixb]. rewrite N.eqb_sym, (digit_neq c 45%N D) by reflexivity. reflexivity.
  - change (u "-Infinity") with (45%N :: 73%N :: u "nfinity"). cbn [app prefixb]. rewrite (N.eqb_sym 73 d), (digit_neq d 73%N D) by reflexivity. rewrite andb_false_r. reflexivity.
Qed.
Lemma prefixb_ext : forall p s t, prefixb p s = true -> prefixb p (s ++ t) = true /\ skipn (length p) (s ++ t) = skipn (length p) s ++ t.
Proof.
  induction p as [|c p IH]; intros s t H; [split; reflexivity|]. destruct s as [|d s]; [discriminate|]. cbn [prefixb] in H. apply andb_true_iff in H as [H1 H2].
  destruct (IH s t H2) as [A B]. cbn [app prefixb length skipn]. rewrite H1, A. split; [reflexivity|exact B].
Qed.
Lemma lit_ext : forall p v s x r t, lit p v s = Ok (x, r) -> lit p v (s ++ t) = Ok (x, r ++ t).
Proof.
  intros p v s x r t H. unfold lit in *. destruct (prefixb (u p) s) eqn:P; [|discriminate]. apply Ok_inj in H. injection H as <- <-. destruct (prefixb_ext _ _ t P) as [A B]. rewrite A, B. reflexivity.
Qed.
Lemma skip_ext : forall s c r t, skip_ws s = c :: r -> skip_ws (s ++ t) = c :: r ++ t.
Proof.
  induction s as [|x s IH]; intros c r t H; [discriminate|]. cbn [app skip_ws] in *. destruct (is_ws x); [exact (IH _ _ t H)|]. injection H as <- <-. reflexivity.
Qed.
Lemma skip_delim : forall s c r, skip_ws s = c :: r -> c = 44%N \/ c = 93%N \/ c = 125%N -> delimited s.
Proof. intros [|x s] c r H C; [discriminate|]. cbn [skip_ws] in H. cbn [delimited]. destruct (is_ws x) eqn:W; [left; reflexivity|]. injection H as -> ->. right. exact C. Qed.
Lemma skip_head : forall s c r, skip_ws s = c :: r -> is_ws c = false.
Proof. induction s as [|x s IH]; intros c r H; [discriminate|]. cbn [skip_ws] in H. destruct (is_ws x) eqn:W; [exact (IH _ _ H)|]. injection H as -> ->. exact W. Qed.
(** text of an array or an object is read the same way whatever follows; text of other values if a delimiter follows *)
Lemma value_ext : forall fs f,
  (forall s v r t, scan_value f fs s = Ok (v, r) -> delimited r \/ (exists c s', s = c :: s' /\ (c = 91%N \/ c = 123%N)) -> scan_value f fs (s ++ t) = Ok (v, r ++ t)) /\
  (forall acc s v r t, scan_items f fs acc s = Ok (v, r) -> scan_items f fs acc (s ++ t) = Ok (v, r ++ t)) /\
  (forall acc s v r t, scan_members f fs acc s = Ok (v, r) -> scan_members f fs acc (s ++ t) = Ok (v, r ++ t)).
Proof.
  intros fs f. induction f as [|f (IHv & IHi & IHm)]; [repeat split; intros; discriminate|]. split; [|split].
  - intros s v r t H D. destruct s as [|c s]; [discriminate|]. cbn [app]. cbn [scan_value] in *.
    destruct (c =? 34)%N. { destruct (scan_str s) as [[x y]|] eqn:E; [|discriminate]. rewrite (scan_str_ext _ _ _ _ (le_n _) E t). cbn [bind fst snd] in *. apply Ok_inj in H. injection H as <- <-. reflexivity. }
    destruct (c =? 123)%N.
    { destruct (skip_ws s) as [|d r2] eqn:S; [discriminate|]. rewrite (skip_ext _ _ _ t S). destruct (d =? 125)%N; [apply Ok_inj in H; injection H as <- <-; reflexivity|]. exact (IHm _ (d :: r2) _ _ t H). }
    destruct (c =? 91)%N.
    { destruct (skip_ws s) as [|d r2] eqn:S; [discriminate|]. rewrite (skip_ext _ _ _ t S). destruct (d =? 93)%N; [apply Ok_inj in H; injection H as <- <-; reflexivity|]. exact (IHi _ (d :: r2) _ _ t H). }
    destruct (c =? 110)%N; [exact (lit_ext _ _ (c :: s) _ _ t H)|]. destruct (c =? 116)%N; [exact (lit_ext _ _ (c :: s) _ _ t H)|]. destruct (c =? 102)%N; [exact (lit_ext _ _ (c :: s) _ _ t H)|].
    destruct (c =? 78)%N; [exact (lit_ext _ _ (c :: s) _ _ t H)|]. destruct (c =? 73)%N; [exact (lit_ext _ _ (c :: s) _ _ t H)|].
    destruct (prefixb (u "-Infinity") (c :: s)) eqn:P.
    { destruct (prefixb_ext _ _ t P) as [A _]. cbn [app] in A. rewrite A. exact (lit_ext _ _ (c :: s) _ _ t H). }
    pose proof (number_not_inf _ _ _ _ t H) as NI. cbn [app] in NI. rewrite NI.
    destruct D as [D|(c' & s' & E & C)]; [exact (number_ext fs (c :: s) _ _ t H D)|]. injection E as <- <-.
    destruct (number_head _ _ _ _ H) as (c1 & s1 & E & [Dg|(Dg & _)]); injection E as <- <-; destruct C as [-> | ->]; discriminate Dg.
  - intros acc s v r t H. cbn [scan_items] in *. destruct (scan_value f fs s) as [[x y]|] eqn:E; [|discriminate]. cbn [bind fst snd] in H.
    destruct (skip_ws y) as [|d r2] eqn:S; [discriminate|]. 
    assert (D : delimited y). { destruct (d =? 93)%N eqn:E1; [apply N.eqb_eq in E1; subst; eapply skip_delim; [exact S|tauto]|]. destruct (d =? 44)%N eqn:E2; [apply N.eqb_eq in E2; subst; eapply skip_delim; [exact S|tauto]|discriminate]. }
    rewrite (IHv _ _ _ t E (or_introl D)). cbn [bind fst snd]. rewrite (skip_ext _ _ _ t S). destruct (d =? 93)%N; [apply Ok_inj in H; injection H as <- <-; reflexivity|]. destruct (d =? 44)%N; [|discriminate].
    destruct (skip_ws r2) as [|d3 r3] eqn:S3.
    + exfalso. destruct f as [|f']; [discriminate|]. cbn [scan_items] in H. destruct f' as [|f'']; discriminate.
    + rewrite (skip_ext _ _ _ t S3). exact (IHi _ _ _ _ t H).
  - intros acc s v r t H. cbn [scan_members] in *. destruct s as [|q s]; [discriminate|]. cbn [app]. destruct (q =? 34)%N; [|discriminate].
    destruct (scan_str s) as [[k y]|] eqn:E; [|discriminate]. rewrite (scan_str_ext _ _ _ _ (le_n _) E t). cbn [bind fst snd] in *.
    destruct (skip_ws y) as [|d r2] eqn:S; [discriminate|]. rewrite (skip_ext _ _ _ t S). destruct (d =? 58)%N; [|discriminate].
    destruct (skip_ws r2) as [|d2 r3] eqn:S2; [destruct f; discriminate|]. rewrite (skip_ext _ _ _ t S2).
    destruct (scan_value f fs (d2 :: r3)) as [[x z]|] eqn:E2; [|discriminate]. cbn [bind fst snd] in H. destruct (skip_ws z) as [|d4 r4] eqn:S4; [discriminate|].
    assert (D : delimited z). { destruct (d4 =? 125)%N eqn:E1; [apply N.eqb_eq in E1; subst; eapply skip_delim; [exact S4|tauto]|]. destruct (d4 =? 44)%N eqn:E3; [apply N.eqb_eq in E3; subst; eapply skip_delim; [exact S4|tauto]|discriminate]. }
    change (d2 :: r3 ++ t) with ((d2 :: r3) ++ t). rewrite (IHv _ _ _ t E2 (or_introl D)). cbn [bind fst snd]. rewrite (skip_ext _ _ _ t S4). destruct (d4 =? 125)%N; [apply Ok_inj in H; injection H as <- <-; reflexivity|].
    destruct (d4 =? 44)%N; [|discriminate]. destruct (skip_ws r4) as [|d5 r5] eqn:S5.
    + exfalso. destruct f as [|f']; [discriminate|]. discriminate.
    + rewrite (skip_ext _ _ _ t S5). exact (IHm _ _ _ _ t H).
Qed.
(** a proper prefix of the text of an array or object is refused *)
Lemma prefix_refused : forall fs v p t, jok v -> composite v -> jwrite 0 v = p ++ t -> t <> [] -> exists e, json_loads fs p = Err e.
Proof.
  intros fs v p t J C E N. destruct (json_loads fs p) as [w|e] eqn:L; [exfalso|exists e; reflexivity]. unfold json_loads in L. destruct p as [|c p]; [discriminate|]. destruct (c =? 65279)%N; [discriminate|].
  assert (Hc : c = 91%N \/ c = 123%N). { destruct C as [[l ->]|[l ->]]; destruct l; cbn in E; injection E as <- _; auto. }
  assert (W : is_ws c = false) by (destruct Hc as [->| ->]; reflexivity). rewrite (skip_non c p W) in L.
  destruct (scan_value (2 * length (c :: p) + 2) fs (c :: p)) as [[x r]|] eqn:S; [|discriminate]. 
  pose proof (proj1 (value_ext fs (2 * length (c :: p) + 2)) _ _ _ t S (or_intror (ex_intro _ c (ex_intro _ p (conj eq_refl Hc))))) as S2.
  pose proof (value_rt fs v J 0 (need v) [] (le_n _) I) as R. rewrite app_nil_r in R. rewrite E in R.
  pose proof (proj1 (fuel_mono fs _) _ _ S2 _ (Nat.le_max_l _ (need v))) as M1. pose proof (proj1 (fuel_mono fs _) _ _ R _ (Nat.le_max_r (2 * length (c :: p) + 2) (need v))) as M2.
  rewrite M1 in M2. apply Ok_inj in M2. injection M2 as _ M2. destruct (app_eq_nil _ _ M2). congruence.
Qed.
