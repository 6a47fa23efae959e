(** * Lemmas: JSON text and UTF-8 round trips, truncation *)
From Coq Require Import Decimal DecimalN DecimalFacts String List NArith ZArith Bool Lia.
From Verif Require Import Py Json Spec4 L_Base.
Import ListNotations.
Local Open Scope nat_scope.
Local Open Scope list_scope.

Section JInd.
  Variable P : jval -> Prop.
  Hypotheses (Hn : P JNull) (Hb : forall b, P (JBool b)) (Hi : forall z, P (JInt z)) (Hr : forall t, P (JReal t)) (Hs : forall s, P (JStr s))
    (Ha : forall l, Forall P l -> P (JArr l)) (Ho : forall l, Forall (fun kv => P (snd kv)) l -> P (JObj l)).
  Fixpoint jval_rect' (v : jval) : P v :=
    match v with
    | JNull => Hn | JBool b => Hb b | JInt z => Hi z | JReal t => Hr t | JStr s => Hs s
    | JArr l => Ha l ((fix go l : Forall P l := match l with [] => Forall_nil _ | x :: r => Forall_cons _ (jval_rect' x) (go r) end) l)
    | JObj l => Ho l ((fix go l : Forall (fun kv => P (snd kv)) l := match l with [] => Forall_nil _ | x :: r => Forall_cons _ (jval_rect' (snd x)) (go r) end) l)
    end.
End JInd.

(** ** Strings *)
Lemma hexd_val : forall n, (n < 16)%N -> hexval (hexd n) = Some n.
Proof.
  intros n H. unfold hexd, hexval. destruct (n <? 10)%N eqn:E.
  - apply N.ltb_lt in E. replace ((48 <=? 48 + n) && (48 + n <=? 57))%N with true; [f_equal; lia|]. symmetry. apply andb_true_iff. split; apply N.leb_le; lia.
  - apply N.ltb_ge in E. replace ((48 <=? 87 + n) && (87 + n <=? 57))%N with false.
    + replace ((97 <=? 87 + n) && (87 + n <=? 102))%N with true; [f_equal; lia|]. symmetry. apply andb_true_iff. split; apply N.leb_le; lia.
    + symmetry. apply andb_false_iff. right. apply N.leb_gt. lia.
Qed.
Lemma scan_esc : forall c t, scan_str (esc_char c ++ t) = let* xt := scan_str t in Ok (c :: fst xt, snd xt).
Proof.
  intros c t. unfold esc_char.
  destruct (c =? 92)%N eqn:E1; [apply N.eqb_eq in E1; subst; reflexivity|].
  destruct (c =? 34)%N eqn:E2; [apply N.eqb_eq in E2; subst; reflexivity|].
  destruct (c =? 8)%N eqn:E3; [apply N.eqb_eq in E3; subst; reflexivity|].
  destruct (c =? 12)%N eqn:E4; [apply N.eqb_eq in E4; subst; reflexivity|].
  destruct (c =? 10)%N eqn:E5; [apply N.eqb_eq in E5; subst; reflexivity|].
  destruct (c =? 13)%N eqn:E6; [apply N.eqb_eq in E6; subst; reflexivity|].
  destruct (c =? 9)%N eqn:E7; [apply N.eqb_eq in E7; subst; reflexivity|].
  destruct (c <? 32)%N eqn:E8.
  - apply N.ltb_lt in E8. cbn [app scan_str]. change (92 =? 34)%N with false. change (92 =? 92)%N with true. change (117 =? 117)%N with true. cbv iota.
    assert (D : (c / 16 < 16)%N) by (apply N.div_lt_upper_bound; lia). assert (M : (c mod 16 < 16)%N) by (apply N.mod_lt; lia).
    unfold hex4. rewrite (hexd_val _ D), (hexd_val _ M). change (hexval 48%N) with (Some 0%N). cbv iota beta.
    assert (X : (((0 * 16 + 0) * 16 + c / 16) * 16 + c mod 16 = c)%N) by (rewrite (N.div_mod c 16) at 3; lia).
    rewrite X. replace (between 55296 c 56319) with false; [reflexivity|]. unfold between. symmetry. apply andb_false_iff. left. apply N.leb_gt. lia.
  - cbn [app scan_str]. rewrite E2, E1, E8. reflexivity.
Qed.
Lemma scan_jstr : forall s t, scan_str (flat_map esc_char s ++ [34%N] ++ t) = Ok (s, t).
Proof. induction s as [|c s IH]; intros t; [reflexivity|]. cbn [flat_map]. rewrite <- app_assoc. rewrite scan_esc, IH. reflexivity. Qed.

(** ** Numbers *)
Lemma uint_round : forall d, str_uint (uint_str d) = d.
Proof. induction d; simpl; rewrite ?IHd; reflexivity. Qed.
Lemma uint_digits : forall d c, In c (uint_str d) -> is_digit c = true.
Proof. induction d; simpl; intros c H; [contradiction|..]; (destruct H as [<-|H]; [reflexivity|exact (IHd _ H)]). Qed.
Definition stops (t : str) : Prop := match t with [] => True | c :: _ => is_digit c = false end.
Lemma span_app : forall a t, (forall c, In c a -> is_digit c = true) -> stops t -> span_digits (a ++ t) = (a, t).
Proof.
  induction a as [|c a IH]; intros t H S.
  - simpl. destruct t as [|c t]; [reflexivity|]. simpl in *. rewrite S. reflexivity.
  - cbn [app span_digits]. rewrite (H c (or_introl eq_refl)). rewrite IH; [reflexivity| |exact S]. intros x Hx. apply H. right. exact Hx.
Qed.
Lemma to_uint_norm : forall n, unorm (N.to_uint n) = N.to_uint n.
Proof. intros n. rewrite <- (DecimalN.Unsigned.to_of (N.to_uint n)). rewrite DecimalN.Unsigned.of_to. reflexivity. Qed.
Lemma dec_N_head : forall n, dec_N n = [48%N] \/ exists c r, dec_N n = c :: r /\ c <> 48%N /\ is_digit c = true.
Proof.
  intros n. unfold dec_N. pose proof (to_uint_norm n) as H. destruct (N.to_uint n) as [|d|d|d|d|d|d|d|d|d|d] eqn:E; try (right; eexists _, _; split; [reflexivity|]; split; [discriminate|reflexivity]).
  - simpl in H. discriminate.
  - left. assert (X : d = Nil); [|subst; reflexivity]. unfold unorm in H. rewrite nzhead_D0 in H. pose proof (nzhead_nonzero d d) as Z. destruct (nzhead d) eqn:F; congruence.
Qed.
Lemma dec_N_digits : forall n c, In c (dec_N n) -> is_digit c = true.
Proof. intros n c. apply uint_digits. Qed.
Lemma dec_N_ne : forall n, dec_N n <> [].
Proof. intros n. destruct (dec_N_head n) as [->|(c & r & -> & _)]; discriminate. Qed.
Lemma int_of_dec : forall neg n, int_of neg (dec_N n) = if neg then (- Z.of_N n)%Z else Z.of_N n.
Proof. intros neg n. unfold int_of, dec_N. rewrite uint_round, DecimalN.Unsigned.of_to. reflexivity. Qed.
Definition ndelim (t : str) : Prop := match t with [] => True | c :: _ => is_digit c = false /\ c <> 46%N /\ c <> 101%N /\ c <> 69%N end.
Lemma ndelim_stops : forall t, ndelim t -> stops t.
Proof. destruct t; simpl; tauto. Qed.
Lemma frac_none : forall t, ndelim t -> scan_frac t = ([], t).
Proof. destruct t as [|c t]; simpl; [reflexivity|]. intros (_ & H & _). rewrite (proj2 (N.eqb_neq _ _) H). reflexivity. Qed.
Lemma exp_none : forall t, ndelim t -> scan_exp t = ([], t).
Proof. destruct t as [|c t]; simpl; [reflexivity|]. intros (_ & _ & H & H2). rewrite (proj2 (N.eqb_neq _ _) H), (proj2 (N.eqb_neq _ _) H2). reflexivity. Qed.
(** the integer part *)
Definition int_part (s1 : str) : str * str :=
  match s1 with c :: r => if (c =? 48)%N then ([c], r) else span_digits s1 | [] => ([], s1) end.
Lemma int_part_app : forall ip t, digits ip -> (ip = u "0" \/ hd 0%N ip <> 48%N) -> stops t -> int_part (ip ++ t) = (ip, t).
Proof.
  intros ip t [N D] H S. destruct H as [->|H]; [reflexivity|]. destruct ip as [|c r]; [congruence|]. cbn [hd] in H. unfold int_part. cbn [app]. rewrite (proj2 (N.eqb_neq _ _) H).
  change (c :: r ++ t) with ((c :: r) ++ t). apply span_app; [|exact S]. intros x Hx. apply D in Hx. unfold is_digit, between. apply andb_true_iff. split; apply N.leb_le; lia.
Qed.
Lemma digits_true : forall d c, digits d -> In c d -> is_digit c = true.
Proof. intros d c [_ D] Hx. apply D in Hx. unfold is_digit, between. apply andb_true_iff. split; apply N.leb_le; lia. Qed.
Lemma digit_range : forall c, is_digit c = true -> (48 <= c <= 57)%N.
Proof. intros c H. unfold is_digit, between in H. apply andb_true_iff in H as [A B]. apply N.leb_le in A, B. lia. Qed.
Lemma dec_N_digits' : forall n, digits (dec_N n).
Proof. intros n. split; [apply dec_N_ne|]. intros c H. apply digit_range. exact (dec_N_digits _ _ H). Qed.
Lemma dec_N_lead : forall n, dec_N n = u "0" \/ hd 0%N (dec_N n) <> 48%N.
Proof. intros n. destruct (dec_N_head n) as [->|(c & r & -> & H & _)]; [left; reflexivity|right; exact H]. Qed.
Definition num_body (fs neg : bool) (s1 : str) : res (jval * str) :=
  let '(digits, s2) := int_part s1 in
  match digits with
  | [] => Err ValueError
  | _ =>
    let '(frac, s3) := scan_frac s2 in
    let '(ex, s4) := scan_exp s3 in
    match frac ++ ex with
    | [] => Ok (JInt (int_of neg digits), s2)
    | fe => let text := (if neg then [45%N] else []) ++ digits ++ fe in
            Ok (if fs then JStr text else JReal text, s4)
    end
  end.
Lemma scan_number_neg : forall fs s, scan_number fs (45%N :: s) = num_body fs true s.
Proof. reflexivity. Qed.
Lemma scan_number_pos : forall fs c s, c <> 45%N -> scan_number fs (c :: s) = num_body fs false (c :: s).
Proof. intros fs c s H. unfold scan_number. rewrite (proj2 (N.eqb_neq _ _) H). reflexivity. Qed.
Lemma num_body_int : forall fs neg ip t, digits ip -> (ip = u "0" \/ hd 0%N ip <> 48%N) -> ndelim t -> num_body fs neg (ip ++ t) = Ok (JInt (int_of neg ip), t).
Proof.
  intros fs neg ip t D L S. unfold num_body. rewrite (int_part_app ip t D L (ndelim_stops _ S)). destruct ip as [|c r] eqn:E; [destruct D; congruence|]. rewrite <- E.
  rewrite (frac_none t S), (exp_none t S). reflexivity.
Qed.
Lemma num_int : forall fs z t, ndelim t -> scan_number fs (dec_Z z ++ t) = Ok (JInt z, t).
Proof.
  intros fs z t S.
  assert (X : forall n, scan_number fs (dec_N n ++ t) = num_body fs false (dec_N n ++ t)).
  { intros n. destruct (dec_N_head n) as [E|(c & r & E & H & D)]; rewrite E; cbn [app]; apply scan_number_pos; [discriminate|]. intros ->. discriminate. }
  destruct z as [|p|p]; cbn [dec_Z].
  - rewrite X, (num_body_int fs _ _ t (dec_N_digits' _) (dec_N_lead _) S), int_of_dec. reflexivity.
  - rewrite X, (num_body_int fs _ _ t (dec_N_digits' _) (dec_N_lead _) S), int_of_dec. reflexivity.
  - cbn [app]. rewrite scan_number_neg, (num_body_int fs _ _ t (dec_N_digits' _) (dec_N_lead _) S), int_of_dec. reflexivity.
Qed.
Lemma frac_app : forall frac t, (frac = [] \/ exists d, digits d /\ frac = u "." ++ d) -> stops t -> (frac = [] -> match t with c :: _ => c <> 46%N | [] => True end) ->
  scan_frac (frac ++ t) = (frac, t).
Proof.
  intros frac t [->|(d & D & ->)] S H.
  - specialize (H eq_refl). cbn [app]. destruct t as [|c t]; [reflexivity|]. simpl. rewrite (proj2 (N.eqb_neq _ _) H). reflexivity.
  - change (u ".") with [46%N]. cbn [app]. unfold scan_frac. change (46 =? 46)%N with true. cbv iota. rewrite (span_app d t (fun c => digits_true d c D) S). destruct d; [destruct D; congruence|reflexivity].
Qed.
Lemma exp_app : forall ex t, (ex = [] \/ exists e sign d, (e = u "e" \/ e = u "E") /\ (sign = [] \/ sign = u "+" \/ sign = u "-") /\ digits d /\ ex = e ++ sign ++ d) -> ndelim t ->
  scan_exp (ex ++ t) = (ex, t).
Proof.
  intros ex t [->|(e & sign & d & E & S & D & ->)] T; [exact (exp_none t T)|].
  pose proof (span_app d t (fun c => digits_true d c D) (ndelim_stops _ T)) as Sp. destruct d as [|d0 d']; [destruct D; congruence|]. pose proof (digit_range _ (digits_true _ d0 D (or_introl eq_refl))) as R.
  assert (E' : exists e0, e = [e0] /\ ((e0 =? 101) || (e0 =? 69))%N = true) by (destruct E as [->| ->]; eexists; split; reflexivity). destruct E' as (e0 & -> & E0).
  destruct S as [->|S].
  - cbn [app] in *. unfold scan_exp. rewrite E0. replace ((d0 =? 43) || (d0 =? 45))%N with false by (symmetry; apply orb_false_iff; split; apply N.eqb_neq; lia). rewrite Sp. reflexivity.
  - assert (S' : exists g, sign = [g] /\ ((g =? 43) || (g =? 45))%N = true) by (destruct S as [->| ->]; eexists; split; reflexivity). destruct S' as (g & -> & G).
    cbn [app] in *. unfold scan_exp. rewrite E0, G, Sp. reflexivity.
Qed.
Lemma num_real : forall fs x t, real_text x -> ndelim t -> scan_number fs (x ++ t) = Ok (if fs then JStr x else JReal x, t).
Proof.
  intros fs x t (neg & ip & frac & ex & -> & Ng & D & L & F & E & Ne) T.
  assert (B : forall b, num_body fs b (ip ++ frac ++ ex ++ t) = Ok (let text := (if b then [45%N] else []) ++ ip ++ frac ++ ex in if fs then JStr text else JReal text, t)).
  { intros b. unfold num_body. assert (Sx : stops (frac ++ ex ++ t)).
    { destruct F as [->|(d & _ & ->)]; [|reflexivity]. destruct E as [->|(e & sign & d & E & _ & _ & ->)]; [exact (ndelim_stops _ T)|]. destruct E as [->| ->]; reflexivity. }
    rewrite (int_part_app ip _ D L Sx). destruct ip as [|c r] eqn:Ei; [destruct D; congruence|]. rewrite <- Ei.
    rewrite (frac_app frac (ex ++ t) F).
    - rewrite (exp_app ex t E T). destruct (frac ++ ex) as [|y z] eqn:Q; [congruence|]. reflexivity.
    - destruct E as [->|(e & sign & d & E & _ & _ & ->)]; [exact (ndelim_stops _ T)|]. destruct E as [->| ->]; reflexivity.
    - intros _. destruct E as [->|(e & sign & d & E & _ & _ & ->)]; [destruct t; [exact I|exact (proj1 (proj2 T))]|]. destruct E as [->| ->]; discriminate. }
  rewrite <- !app_assoc. destruct Ng as [->| ->].
  - cbn [app]. destruct ip as [|c r]; [destruct D; congruence|]. specialize (B false). cbn [app] in *. rewrite scan_number_pos; [exact B|].
    pose proof (digit_range _ (digits_true _ c D (or_introl eq_refl))). lia.
  - change (u "-") with [45%N]. cbn [app]. rewrite scan_number_neg. rewrite B. reflexivity.
Qed.

(** ** Values *)
Lemma real_head : forall x, real_text x -> exists c r, x = c :: r /\ (is_digit c = true \/ (c = 45%N /\ exists d r', r = d :: r' /\ is_digit d = true)).
Proof.
  intros x (neg & ip & frac & ex & -> & Ng & D & _). destruct ip as [|c r]; [destruct D; congruence|]. pose proof (digits_true _ c D (or_introl eq_refl)) as Hc.
  destruct Ng as [->| ->].
  - exists c, (r ++ frac ++ ex). split; [reflexivity|]. left. exact Hc.
  - exists 45%N, ((c :: r) ++ frac ++ ex). split; [reflexivity|]. right. split; [reflexivity|]. exists c, (r ++ frac ++ ex). split; [reflexivity|exact Hc].
Qed.
Lemma int_head : forall z, exists c r, dec_Z z = c :: r /\ (is_digit c = true \/ (c = 45%N /\ exists d r', r = d :: r' /\ is_digit d = true)).
Proof.
  intros z. assert (X : forall n, exists c r, dec_N n = c :: r /\ is_digit c = true).
  { intros n. destruct (dec_N_head n) as [->|(c & r & E & _ & D)]; [exists 48%N, []; split; reflexivity|exists c, r; split; assumption]. }
  destruct z as [|p|p]; cbn [dec_Z].
  - destruct (X 0%N) as (c & r & E & D). exists c, r. split; [exact E|left; exact D].
  - destruct (X (N.pos p)) as (c & r & E & D). exists c, r. split; [exact E|left; exact D].
  - destruct (X (N.pos p)) as (c & r & E & D). exists 45%N, (dec_N (N.pos p)). split; [reflexivity|]. right. split; [reflexivity|]. exists c, r. split; assumption.
Qed.
Lemma digit_neq : forall c k, is_digit c = true -> is_digit k = false -> (c =? k)%N = false.
Proof. intros c k H1 H2. apply N.eqb_neq. intros ->. congruence. Qed.
Lemma scan_value_num : forall f fs c r, (is_digit c = true \/ (c = 45%N /\ exists d r', r = d :: r' /\ is_digit d = true)) ->
  scan_value (S f) fs (c :: r) = scan_number fs (c :: r).
Proof.
  intros f fs c r [D|(-> & d & r' & -> & D)].
  - cbn [scan_value]. rewrite !(digit_neq c _ D) by reflexivity. replace (prefixb (u "-Infinity") (c :: r)) with false; [reflexivity|].
    change (u "-Infinity") with (45%N :: u "Infinity"). cbn [prefixb]. rewrite N.eqb_sym, (digit_neq c 45%N D) by reflexivity. reflexivity.
  - cbn [scan_value]. change (u "-Infinity") with (45%N :: 73%N :: u "nfinity"). cbn [prefixb]. rewrite (N.eqb_sym 73 d), (digit_neq d 73%N D) by reflexivity. rewrite andb_false_r.
    reflexivity.
Qed.
Fixpoint need (v : jval) : nat :=
  match v with
  | JArr l => S (fold_right (fun x n => S (need x) + n) 0 l)
  | JObj l => S (fold_right (fun kv n => S (need (snd kv)) + n) 0 l)
  | _ => 1
  end.
Definition rd (fs : bool) (v : jval) : jval := if fs then stringified v else v.
Definition vdelim (t : str) : Prop := match t with [] => True | c :: _ => c = 44%N \/ c = 10%N end.
Lemma vdelim_n : forall t, vdelim t -> ndelim t.
Proof. destruct t as [|c t]; [auto|]. intros [->| ->]; simpl; repeat split; discriminate. Qed.
Lemma skip_nl : forall lvl s, skip_ws (nl lvl ++ s) = skip_ws s.
Proof. intros lvl s. unfold nl. cbn [app skip_ws]. change (is_ws 10%N) with true. cbv iota. induction (2 * lvl) as [|n IH]; [reflexivity|]. cbn [repeat app skip_ws]. change (is_ws 32%N) with true. exact IH. Qed.
Lemma skip_non : forall c s, is_ws c = false -> skip_ws (c :: s) = c :: s.
Proof. intros c s H. cbn [skip_ws]. rewrite H. reflexivity. Qed.
Lemma lit_app : forall p v t, lit p v (u p ++ t) = Ok (v, t).
Proof.
  intros p v t. unfold lit. assert (X : prefixb (u p) (u p ++ t) = true) by (generalize (u p); induction s as [|c s IH]; [reflexivity|]; cbn [app prefixb]; rewrite N.eqb_refl; exact IH).
  rewrite X. rewrite skipn_app, skipn_all, Nat.sub_diag. reflexivity.
Qed.
(** first characters of values *)
Lemma jwrite_head : forall lvl v, jok v -> exists c r, jwrite lvl v = c :: r /\ is_ws c = false /\ c <> 93%N /\ c <> 125%N.
Proof.
  assert (D : forall c, (is_digit c = true \/ c = 45%N) -> is_ws c = false /\ c <> 93%N /\ c <> 125%N).
  { intros c [H| ->]; [|repeat split; discriminate]. pose proof (digit_range _ H) as R. split; [|split; lia]. unfold is_ws. rewrite !(digit_neq c _ H) by reflexivity. reflexivity. }
  intros lvl v H. destruct v as [|[|]|z|t|s|l|l]; try (eexists _, _; split; [reflexivity|]; split; [reflexivity|]; split; discriminate).
  - destruct (int_head z) as (c & r & E & Hd). exists c, r. split; [exact E|]. apply D. tauto.
  - destruct H as [H|H].
    + destruct (real_head t H) as (c & r & E & Hd). exists c, r. split; [exact E|]. apply D. tauto.
    + destruct H as [->|[->| ->]]; (eexists _, _; split; [reflexivity|]; split; [reflexivity|]; split; discriminate).
  - destruct l; (eexists _, _; split; [reflexivity|]; split; [reflexivity|]; split; discriminate).
  - destruct l; (eexists _, _; split; [reflexivity|]; split; [reflexivity|]; split; discriminate).
Qed.
Definition RT (fs : bool) (v : jval) : Prop := jok v -> forall lvl f t, need v <= f -> vdelim t -> scan_value f fs (jwrite lvl v ++ t) = Ok (rd fs v, t).
Lemma join_cons2 : forall sep x y (r : list str), join sep (x :: y :: r) = x ++ sep ++ join sep (y :: r).
Proof. reflexivity. Qed.
Lemma items_rt : forall fs lvl l, Forall (RT fs) l -> l <> [] -> fold_right (fun x P => jok x /\ P) True l -> forall f acc t,
  fold_right (fun x n => S (need x) + n) 0 l <= f ->
  scan_items f fs acc (join ([44%N] ++ nl (S lvl)) (map (jwrite (S lvl)) l) ++ nl lvl ++ [93%N] ++ t) = Ok (JArr (rev acc ++ map (rd fs) l), t).
Proof.
  intros fs lvl l F. induction F as [|x l Hx F IH]; intros Ne J f acc t Hf; [congruence|]. cbn [fold_right] in J, Hf. destruct J as [Jx Jl]. destruct f as [|f]; [lia|].
  cbn [scan_items]. destruct l as [|y l'].
  - cbn [map join]. rewrite (Hx Jx (S lvl) f (nl lvl ++ [93%N] ++ t)); [|lia|right; reflexivity]. cbn [bind snd fst]. rewrite skip_nl.
    cbn [app skip_ws]. change (is_ws 93%N) with false. cbv iota. change (93 =? 93)%N with true. cbv iota. cbn [rev map]. reflexivity.
  - cbn [map]. rewrite join_cons2. rewrite <- !app_assoc. rewrite (Hx Jx (S lvl) f); [|lia|left; reflexivity]. cbn [bind snd fst].
    cbn [app skip_ws]. change (is_ws 44%N) with false. cbv iota. change (44 =? 93)%N with false. change (44 =? 44)%N with true. cbv iota. rewrite skip_nl.
    cbn [fold_right] in Jl. destruct (jwrite_head (S lvl) y (proj1 Jl)) as (c & r & E & W & _).
    assert (S1 : forall z, skip_ws (join (44%N :: nl (S lvl)) (jwrite (S lvl) y :: map (jwrite (S lvl)) l') ++ z) = join (44%N :: nl (S lvl)) (jwrite (S lvl) y :: map (jwrite (S lvl)) l') ++ z).
    { intros z. destruct l'; cbn [map]; [cbn [join]|rewrite join_cons2]; rewrite E; cbn [app]; apply skip_non; exact W. }
    rewrite S1. change (jwrite (S lvl) y :: map (jwrite (S lvl)) l') with (map (jwrite (S lvl)) (y :: l')). 
    etransitivity; [exact (IH ltac:(discriminate) Jl f (rd fs x :: acc) t ltac:(lia))|]. cbn [rev]. rewrite <- app_assoc. reflexivity.
Qed.
Lemma sset_new : forall (k : str) (v : jval) d, ~ In k (map fst d) -> sset_ k v d = d ++ [(k, v)].
Proof.
  induction d as [|[k' v'] d IH]; intros H; [reflexivity|]. unfold sset_ in *. cbn [dset]. cbn [map In fst] in H. destruct (str_eqb k k') eqn:E.
  - apply str_eqb_eq in E. subst. tauto.
  - rewrite IH by tauto. reflexivity.
Qed.
Lemma members_rt : forall fs lvl l, Forall (fun kv => RT fs (snd kv)) l -> l <> [] -> fold_right (fun kv P => jok (snd kv) /\ P) True l -> forall f acc t,
  NoDup (map fst acc ++ map fst l) ->
  fold_right (fun kv n => S (need (snd kv)) + n) 0 l <= f ->
  scan_members f fs acc (join ([44%N] ++ nl (S lvl)) (map (fun kv => jstr (fst kv) ++ [58; 32]%N ++ jwrite (S lvl) (snd kv)) l) ++ nl lvl ++ [125%N] ++ t) =
    Ok (JObj (acc ++ map (fun kv => (fst kv, rd fs (snd kv))) l), t).
Proof.
  intros fs lvl l F. induction F as [|[k x] l Hx F IH]; intros Ne J f acc t ND Hf; [congruence|]. cbn [fold_right snd] in J, Hf, Hx. destruct J as [Jx Jl]. destruct f as [|f]; [lia|].
  assert (NI : ~ In k (map fst acc)). { intros I. cbn [map fst] in ND. apply NoDup_remove_2 in ND. apply ND. apply in_or_app. left. exact I. }
  destruct (jwrite_head (S lvl) x Jx) as (c & r & E & W & _).
  assert (V : forall z, skip_ws (32%N :: jwrite (S lvl) x ++ z) = jwrite (S lvl) x ++ z).
  { intros z. cbn [skip_ws]. change (is_ws 32%N) with true. cbv iota. rewrite E. cbn [app]. apply skip_non. exact W. }
  cbn [scan_members]. destruct l as [|y l'].
  - cbn [map join fst snd]. unfold jstr. rewrite <- !app_assoc. cbn [app]. change (34 =? 34)%N with true. cbv iota. change (34%N :: 58%N :: 32%N :: ?z) with ([34%N] ++ 58%N :: 32%N :: z). rewrite scan_jstr. cbn [bind snd fst].
    rewrite (skip_non 58%N) by reflexivity. change (58 =? 58)%N with true. cbv iota. rewrite V. rewrite (Hx Jx (S lvl) f); [|lia|right; reflexivity]. cbn [bind snd fst]. rewrite skip_nl, (skip_non 125%N) by reflexivity.
    change (125 =? 125)%N with true. cbv iota. rewrite sset_new by exact NI. reflexivity.
  - cbn [map fst snd]. rewrite join_cons2. unfold jstr at 1. rewrite <- !app_assoc. cbn [app]. change (34 =? 34)%N with true. cbv iota. change (34%N :: 58%N :: 32%N :: ?z) with ([34%N] ++ 58%N :: 32%N :: z). rewrite scan_jstr. cbn [bind snd fst].
    rewrite (skip_non 58%N) by reflexivity. change (58 =? 58)%N with true. cbv iota. rewrite V. rewrite (Hx Jx (S lvl) f); [|lia|left; reflexivity]. cbn [bind snd fst]. rewrite (skip_non 44%N) by reflexivity.
    change (44 =? 125)%N with false. change (44 =? 44)%N with true. cbv iota. rewrite skip_nl. rewrite sset_new by exact NI.
    assert (S1 : forall (m : list (str * jval)) z, skip_ws (join (44%N :: nl (S lvl)) ((jstr (fst y) ++ 58%N :: 32%N :: jwrite (S lvl) (snd y)) :: map (fun kv => jstr (fst kv) ++ 58%N :: 32%N :: jwrite (S lvl) (snd kv)) m) ++ z) =
      join (44%N :: nl (S lvl)) ((jstr (fst y) ++ 58%N :: 32%N :: jwrite (S lvl) (snd y)) :: map (fun kv => jstr (fst kv) ++ 58%N :: 32%N :: jwrite (S lvl) (snd kv)) m) ++ z).
    { intros m z. destruct m; cbn [map]; [cbn [join]|rewrite join_cons2]; unfold jstr at 1; cbn [app]; apply skip_non; reflexivity. }
    rewrite S1.
    assert (ND' : NoDup (map fst (acc ++ [(k, rd fs x)]) ++ map fst (y :: l'))). { rewrite map_app. cbn [map fst]. rewrite <- app_assoc. exact ND. }
    etransitivity; [exact (IH ltac:(discriminate) Jl f (acc ++ [(k, rd fs x)]) t ND' ltac:(lia))|]. rewrite <- app_assoc. reflexivity.
Qed.
Lemma value_rt : forall fs v, RT fs v.
Proof.
  intros fs v. induction v as [|b|z|x|s|l IH|l IH] using jval_rect'; intros J lvl f t Hf T; (destruct f as [|f]; [cbn [need] in Hf; lia|]).
  - exact (lit_app "null" JNull t) || (destruct fs; exact (lit_app "null" JNull t)).
  - destruct b, fs; cbn [jwrite rd stringified]; first [exact (lit_app "true" (JBool true) t) | exact (lit_app "false" (JBool false) t)].
  - cbn [jwrite]. destruct (int_head z) as (c & r & E & Hd).
    transitivity (scan_number fs (dec_Z z ++ t)).
    + rewrite E. cbn [app]. apply scan_value_num. destruct Hd as [Hd|(-> & d & r' & -> & D)]; [left; exact Hd|right; split; [reflexivity|]; exists d, (r' ++ t); split; [reflexivity|exact D]].
    + rewrite (num_int fs z t (vdelim_n _ T)). destruct fs; reflexivity.
  - cbn [jwrite]. destruct J as [J|J].
    + destruct (real_head x J) as (c & r & E & Hd). transitivity (scan_number fs (x ++ t)).
      * rewrite E. cbn [app]. apply scan_value_num. destruct Hd as [Hd|(-> & d & r' & -> & D)]; [left; exact Hd|right; split; [reflexivity|]; exists d, (r' ++ t); split; [reflexivity|exact D]].
      * rewrite (num_real fs x t J (vdelim_n _ T)). destruct fs; [|reflexivity]. cbn [rd stringified].
        assert (Sp : specialb x = false).
        { unfold specialb. subst x. destruct Hd as [Hd|(-> & d & r' & -> & D)].
          - change (u "NaN") with (78%N :: u "aN"). change (u "Infinity") with (73%N :: u "nfinity"). change (u "-Infinity") with (45%N :: u "Infinity"). unfold str_eqb. cbn [list_eqb].
            rewrite !(digit_neq c _ Hd) by reflexivity. reflexivity.
          - change (u "NaN") with (78%N :: u "aN"). change (u "Infinity") with (73%N :: u "nfinity"). change (u "-Infinity") with (45%N :: 73%N :: u "nfinity"). unfold str_eqb. cbn [list_eqb].
            rewrite !(digit_neq d _ D) by reflexivity. reflexivity. }
        rewrite Sp. reflexivity.
    + destruct J as [->|[->| ->]]; destruct fs; cbn [rd stringified]; first [exact (lit_app "NaN" (JReal (u "NaN")) t) | exact (lit_app "Infinity" (JReal (u "Infinity")) t) | exact (lit_app "-Infinity" (JReal (u "-Infinity")) t)].
  - cbn [jwrite]. unfold jstr. rewrite <- app_assoc. cbn [app]. cbn [scan_value]. change (34 =? 34)%N with true. cbv iota. rewrite <- app_assoc. rewrite scan_jstr. cbn [bind fst snd]. destruct fs; reflexivity.
  - destruct l as [|y l'].
    + cbn [jwrite]. destruct fs; reflexivity.
    + cbn [need] in Hf. cbn [jok] in J. pose proof (items_rt fs lvl (y :: l') IH ltac:(discriminate) J f [] t ltac:(lia)) as I.
      cbn [jwrite]. change (u "[]") with [91%N; 93%N]. rewrite <- ?app_assoc. rewrite <- ?app_assoc in I. cbn [app]. cbn [scan_value]. change (91 =? 34)%N with false. change (91 =? 123)%N with false. change (91 =? 91)%N with true. cbv iota.
      rewrite skip_nl. destruct (jwrite_head (S lvl) y (proj1 J)) as (c & r & E & W & N1 & _).
      assert (S1 : exists z, join ([44%N] ++ nl (S lvl)) (map (jwrite (S lvl)) (y :: l')) ++ nl lvl ++ [93%N] ++ t = c :: z).
      { destruct l'; cbn [map]; [cbn [join]|rewrite join_cons2]; rewrite E; cbn [app]; eexists; reflexivity. }
      destruct S1 as (z & Z). cbn [app] in Z, I. cbn [map] in Z, I |- *. match goal with |- context [skip_ws ?a] => replace a with (c :: z) by (symmetry; exact Z) end. pose proof (eq_trans (f_equal (scan_items f fs []) (eq_sym Z)) I) as I'. rewrite skip_non by exact W. rewrite (proj2 (N.eqb_neq _ _) N1). rewrite I'. destruct fs; [reflexivity|].
      unfold rd. rewrite map_id. reflexivity.
  - destruct l as [|y l'].
    + cbn [jwrite]. destruct fs; reflexivity.
    + cbn [need] in Hf. cbn [jok] in J. destruct J as [ND J]. pose proof (members_rt fs lvl (y :: l') IH ltac:(discriminate) J f [] t ND ltac:(lia)) as I.
      cbn [jwrite]. rewrite <- ?app_assoc. rewrite <- ?app_assoc in I. cbn [app]. cbn [scan_value]. change (123 =? 34)%N with false. change (123 =? 123)%N with true. cbv iota.
      rewrite skip_nl.
      assert (S1 : exists z, join ([44%N] ++ nl (S lvl)) (map (fun kv => jstr (fst kv) ++ [58; 32]%N ++ jwrite (S lvl) (snd kv)) (y :: l')) ++ nl lvl ++ [125%N] ++ t = 34%N :: z).
      { destruct l'; cbn [map]; [cbn [join]|rewrite join_cons2]; unfold jstr at 1; cbn [app]; eexists; reflexivity. }
      destruct S1 as (z & Z). cbn [app] in Z, I. cbn [map] in Z, I |- *. match goal with |- context [skip_ws ?a] => replace a with (34%N :: z) by (symmetry; exact Z) end. pose proof (eq_trans (f_equal (scan_members f fs []) (eq_sym Z)) I) as I'. rewrite skip_non by reflexivity. change (34 =? 125)%N with false. cbv iota. etransitivity; [exact I'|].
      destruct fs; cbn [rd stringified map]; [reflexivity|]. assert (X : forall m : list (str * jval), map (fun kv => (fst kv, snd kv)) m = m) by (induction m as [|[? ?] m IHm]; [reflexivity|cbn [map fst snd]; rewrite IHm; reflexivity]). rewrite X. destruct y; reflexivity.
Qed.
