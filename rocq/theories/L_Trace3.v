(** * Lemmas for C71: the lower bound *)
From Coq Require Import String List NArith ZArith Bool QArith Lia Permutation.
From Verif Require Import Py Uni Tagset Dawg Dict Shapes Units Analyzer Trace Spec Spec21.
From Verif Require Import L_Base L_Words L_Made L_Trace L_Trace2.
Import ListNotations.
Local Open Scope nat_scope.
Local Open Scope list_scope.

Lemma matcher_complete : forall ext ps w p, In p ps -> p <> [] -> (exists r, w = p ++ r) -> In p (matcher_prefixes ext ps w).
Proof.
  intros [] ps w p I N E; cbn [matcher_prefixes].
  - apply filter_In. split; [apply nonempty_prefixes_In; auto|apply smem_In; exact I].
  - unfold py_prefixes. assert (P : prefixb p w = true) by (apply prefixb_spec; exact E).
    assert (X : py_is_prefixed ps w = true) by (apply existsb_exists; exists p; auto). rewrite X. apply filter_In. auto.
Qed.
Lemma kp_splits_complete : forall M ps minrem p v, In p ps -> p <> [] -> minrem <= length v -> In (p, v) (kp_splits M ps minrem (p ++ v)).
Proof.
  intros M ps minrem p v I N L. unfold kp_splits. apply filter_In. split.
  - apply in_map_iff. exists p. rewrite skipn_app_exact. split; [reflexivity|]. eapply Permutation_in; [apply sort_desc_perm|]. apply matcher_complete; [exact I|exact N|eauto].
  - cbn [snd]. apply negb_true_iff. apply Nat.ltb_ge. exact L.
Qed.
(** if the loop over the splits succeeds, every remainder was analysed successfully *)
Lemma kp_fold_full : forall (tP : str -> tr (list parse)) self mult l st r, snd (tfold (fun st (pr : str * str) => let '(prefix, rest) := pr in tbind (tP rest) (fun ps => tlift (Ok (prefix_step self mult prefix st ps)))) st l) = Ok r ->
  (forall pr, In pr l -> exists ps, snd (tP (snd pr)) = Ok ps) /\
  length (fst (tfold (fun st (pr : str * str) => let '(prefix, rest) := pr in tbind (tP rest) (fun ps => tlift (Ok (prefix_step self mult prefix st ps)))) st l)) = list_sum (map (fun pr => length (fst (tP (snd pr)))) l).
Proof.
  intros tP self mult l. induction l as [|[prefix rest] l IH]; intros st r H; [split; [intros pr []|reflexivity]|].
  cbn [tfold] in H |- *. rewrite snd_tbind, snd_tbind in H. rewrite fst_tbind, fst_tbind, snd_tbind. destruct (snd (tP rest)) as [ps|e] eqn:E; [|discriminate H]. cbn [bind snd fst tlift] in H |- *.
  destruct (IH _ _ H) as [A B]. split.
  - intros pr [<-|I]; [exists ps; exact E|auto].
  - rewrite app_nil_r, app_length. change (list_sum (map (fun pr : str * str => length (fst (tP (snd pr)))) ((prefix, rest) :: l))) with (length (fst (tP rest)) + list_sum (map (fun pr : str * str => length (fst (tP (snd pr)))) l)). rewrite <- B. reflexivity.
Qed.
Definition quiet_units (M : morph) (us : list (bunit * bool)) (w lower : str) : Prop :=
  forall recP recT j b tm, In (b, tm) us -> unit_parse recP recT M j b w lower [] = Ok ([], []).
(** units that find nothing are passed over *)
Lemma run_quiet : forall tP tT M w lower us b tm us2 i r, quiet_units M us w lower ->
  snd (run_parse_t tP tT M w lower i (us ++ (b, tm) :: us2) [] []) = Ok r ->
  exists out, snd (unit_parse_t tP tT M (i + length us) b w lower []) = Ok out /\
   length (fst (unit_parse_t tP tT M (i + length us) b w lower [])) <= length (fst (run_parse_t tP tT M w lower i (us ++ (b, tm) :: us2) [] [])).
Proof.
  intros tP tT M w lower us b tm us2. induction us as [|[b' tm'] us IH]; intros i r Q H.
  - cbn [app length]. rewrite Nat.add_0_r. cbn [app run_parse_t] in H |- *. rewrite snd_tbind in H. rewrite fst_tbind, app_length. destruct (snd (unit_parse_t tP tT M i b w lower [])) as [out|e]; [|discriminate H]. exists out. split; [reflexivity|lia].
  - cbn [app run_parse_t] in H |- *. rewrite snd_tbind in H. rewrite fst_tbind, app_length. 
    assert (E : snd (unit_parse_t tP tT M i b' w lower []) = Ok ([], [])).
    { rewrite (unit_parse_snd (fun w => snd (tP w)) (fun w => snd (tT w))) by auto. apply (Q _ _ i b' tm'). left; reflexivity. }
    rewrite E in H |- *. cbn [bind app] in H |- *. rewrite andb_false_r in H |- *.
    destruct (IH (S i) r) as (out & O & L); [intros recP recT j b0 tm0 I; apply (Q recP recT j b0 tm0); right; exact I|exact H|].
    exists out. cbn [length]. rewrite Nat.add_succ_r. rewrite Nat.add_succ_l in O, L. split; [exact O|lia].
Qed.
Lemma sum_two : forall (l : list (str * str)) (g : str * str -> nat) x y, In x l -> In y l -> x <> y -> g x + g y <= list_sum (map g l).
Proof.
  assert (ONE : forall (l : list (str * str)) (g : str * str -> nat) x, In x l -> g x <= list_sum (map g l)).
  { intros l g x. induction l as [|z l IH]; intros I; [destruct I|]. cbn. fold (list_sum (map g l)). destruct I as [->|I]; [lia|]. specialize (IH I). unfold list_sum in *. lia. }
  intros l g x y. induction l as [|z l IH]; intros Ix Iy N; [destruct Ix|]. cbn. fold (list_sum (map g l)). destruct Ix as [->|Ix]; destruct Iy as [->|Iy].
  - destruct N; reflexivity.
  - specialize (ONE l g y Iy). unfold list_sum in *. lia.
  - specialize (ONE l g x Ix). unfold list_sum in *. lia.
  - specialize (IH Ix Iy N). unfold list_sum in *. lia.
Qed.
(** the analyses of a word whose readings can only come from the prefix unit *)
Lemma prefix_work : forall M us b tm us2 prefixes mult minrem w f ps, m_units M = us ++ (b, tm) :: us2 -> b_cfg b = UKnownPrefix prefixes mult minrem ->
  u_lower (m_uni M) w = w -> quiet_units M us w w -> parse_f (S f) M w = Ok ps ->
  (forall pr, In pr (kp_splits M prefixes minrem w) -> exists qs, parse_f f M (snd pr) = Ok qs) /\
  list_sum (map (fun pr => length (fst (fst (analyze_t f M) (snd pr)))) (kp_splits M prefixes minrem w)) < length (fst (fst (analyze_t (S f) M) w)).
Proof.
  intros M us b tm us2 prefixes mult minrem w f ps U C LW Q H. rewrite <- (proj1 (analyze_snd (S f) M w)) in H. cbn [analyze_t fst snd enter] in H |- *. rewrite LW in H |- *.
  rewrite snd_tbind in H. apply bind_ok in H as (r & H & _). rewrite U in H |- *.
  destruct (run_quiet (fst (analyze_t f M)) (snd (analyze_t f M)) M w w us b tm us2 0 r Q H) as (out & O & L).
  unfold unit_parse_t in O, L. rewrite C in O, L. unfold kp_parse_t in O, L. apply kp_fold_full in O as [O1 O2]. rewrite O2 in L. split.
  - intros pr I. destruct (O1 pr I) as (qs & E). exists qs. rewrite (proj1 (analyze_snd f M (snd pr))) in E. exact E.
  - cbn [length]. rewrite fst_tbind, app_length. lia.
Qed.
Lemma doubling : forall M us b tm us2 prefixes mult minrem x y tail, m_units M = us ++ (b, tm) :: us2 -> b_cfg b = UKnownPrefix prefixes mult minrem ->
  In x prefixes -> In y prefixes -> In (x ++ y) prefixes -> x <> [] -> y <> [] -> minrem <= length tail ->
  (forall k, let v := repeated k (x ++ y) ++ tail in u_lower (m_uni M) (x ++ y ++ v) = x ++ y ++ v /\ u_lower (m_uni M) (y ++ v) = y ++ v /\ quiet_units M us (x ++ y ++ v) (x ++ y ++ v) /\ quiet_units M us (y ++ v) (y ++ v)) ->
  forall k f ps, parse_f f M (repeated k (x ++ y) ++ tail) = Ok ps -> 2 ^ k <= length (fst (fst (analyze_t f M) (repeated k (x ++ y) ++ tail))).
Proof.
  intros M us b tm us2 prefixes mult minrem x y tail U C Ix Iy Ixy Nx Ny LT QU. induction k as [|k IH]; intros f ps H.
  { destruct f; cbn; lia. }
  set (v := repeated k (x ++ y) ++ tail) in *. assert (LV : minrem <= length v) by (unfold v; rewrite app_length; lia).
  assert (E : repeated (S k) (x ++ y) ++ tail = x ++ y ++ v) by (unfold v; cbn [repeated]; rewrite <- !app_assoc; reflexivity). rewrite E in H |- *.
  destruct (QU k) as (L1 & L2 & Q1 & Q2). fold v in L1, L2, Q1, Q2.
  destruct f as [|f]; [discriminate H|].
  destruct (prefix_work M us b tm us2 prefixes mult minrem (x ++ y ++ v) f ps U C L1 Q1 H) as [O W].
  assert (I1 : In (x, y ++ v) (kp_splits M prefixes minrem (x ++ y ++ v))) by (apply kp_splits_complete; auto; rewrite app_length; lia).
  assert (I2 : In (x ++ y, v) (kp_splits M prefixes minrem (x ++ y ++ v))) by (rewrite app_assoc; apply kp_splits_complete; auto; destruct x; [congruence|discriminate]).
  assert (NE : (x, y ++ v) <> (x ++ y, v)). { intros X. injection X as X _. apply (f_equal (@length _)) in X. rewrite app_length in X. destruct y; [congruence|cbn in X; lia]. }
  assert (SUM := sum_two _ (fun pr : str * str => length (fst (fst (analyze_t f M) (snd pr)))) _ _ I1 I2 NE). cbn [snd] in SUM.
  destruct (O _ I2) as (q2 & P2). cbn [snd] in P2. assert (B2 := IH f q2 P2).
  destruct (O _ I1) as (q1 & P1). cbn [snd] in P1. destruct f as [|f]; [discriminate P1|].
  destruct (prefix_work M us b tm us2 prefixes mult minrem (y ++ v) f q1 U C L2 Q2 P1) as [O' W'].
  assert (I3 : In (y, v) (kp_splits M prefixes minrem (y ++ v))) by (apply kp_splits_complete; auto).
  destruct (O' _ I3) as (q3 & P3). cbn [snd] in P3. assert (B3 := IH f q3 P3).
  assert (ONE : length (fst (fst (analyze_t f M) v)) <= list_sum (map (fun pr : str * str => length (fst (fst (analyze_t f M) (snd pr)))) (kp_splits M prefixes minrem (y ++ v)))).
  { clear -I3. change (length (fst (fst (analyze_t f M) v))) with ((fun pr : str * str => length (fst (fst (analyze_t f M) (snd pr)))) (y, v)). generalize (fun pr : str * str => length (fst (fst (analyze_t f M) (snd pr)))) as g. intros g.
    induction (kp_splits M prefixes minrem (y ++ v)) as [|z l IH]; [destruct I3|]. cbn. fold (list_sum (map g l)). destruct I3 as [->|I]; [lia|]. specialize (IH I). unfold list_sum in *. lia. }
  cbn [Nat.pow]. lia.
Qed.
