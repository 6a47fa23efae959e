(** * Lexemes of hyphenated words with two inflected parts *)
From Coq Require Import String List NArith ZArith Bool QArith Lia.
From Verif Require Import Py Uni Tagset Dawg Dict Utils Units Analyzer Spec Spec2 Spec19 L_Base L_Run L_Made L_Lexeme L_LexParse L_Inflect L_Compose.
Import ListNotations.
Local Open Scope nat_scope.
Local Open Scope list_scope.

Lemma index_hyphen : forall a b, ~ In HY a -> index_sub [HY] (a ++ HY :: b) = Ok (length a).
Proof.
  intros a b H. unfold index_sub. assert (F : find_sub [HY] (a ++ HY :: b) = Some (length a)); [|rewrite F; reflexivity].
  induction a as [|c a IH]; [reflexivity|]. cbn [app]. assert (NC : c <> HY) by (intros ->; apply H; left; reflexivity).
  cbn [find_sub]. assert (P : prefixb [HY] (c :: a ++ HY :: b) = false).
  { cbn [prefixb]. destruct (N.eqb_spec HY c) as [E|]; [congruence|reflexivity]. }
  rewrite P. rewrite IH by (intros I; apply H; right; exact I). reflexivity.
Qed.
Lemma repl1_In : forall gr rep (s : sset) g, In g (if smem gr s then sunion (filter (fun x => negb (str_eqb x gr)) s) [rep] else s) <-> In g (map (fun x => if str_eqb x gr then rep else x) s).
Proof.
  intros gr rep s g. destruct (smem gr s) eqn:M.
  - apply smem_In in M. rewrite sunion_In, filter_In, in_map_iff. cbn [In]. split.
    + intros [[I N]|[<-|[]]]; [exists g; split; [|exact I]; destruct (str_eqb g gr); [discriminate N|reflexivity]|exists gr; split; [rewrite str_eqb_refl; reflexivity|exact M]].
    + intros (x & E & I). destruct (str_eqb x gr) eqn:X; [right; left; exact E|]. left. subst g. split; [exact I|rewrite X; reflexivity].
  - rewrite in_map_iff. assert (NI : forall x, In x s -> str_eqb x gr = false) by (intros x I; destruct (str_eqb x gr) eqn:X; [|reflexivity]; apply str_eqb_eq in X; subst x; apply smem_In in I; congruence).
    split; [intros I; exists g; rewrite (NI g I); auto|]. intros (x & E & I). rewrite (NI x I) in E. subst g. exact I.
Qed.
Lemma hy_In : forall t g, In g (hy_grammemes t) <-> has_alike t g.
Proof.
  intros t g. unfold hy_grammemes, has_alike, replace_grammemes, CONSIDER_THE_SAME. cbn [fold_left]. 
  assert (C : forall gr rep (s s' : sset), (forall x, In x s <-> In x s') -> forall x, In x (map (fun x => if str_eqb x gr then rep else x) s) <-> In x (map (fun x => if str_eqb x gr then rep else x) s')).
  { intros gr rep s s' H x. rewrite !in_map_iff. split; intros (y & E & I); exists y; (split; [exact E|apply H; exact I]). }
  rewrite repl1_In. rewrite (C _ _ _ _ (fun x => repl1_In _ _ _ x)). rewrite (C _ _ _ _ (fun x => C _ _ _ _ (fun x => repl1_In _ _ _ x) x)). rewrite !map_map.
  assert (E : forall x, (if str_eqb (if str_eqb (if str_eqb x (u "V-oy") then u "V-ey" else x) (u "gen1") then u "gent" else if str_eqb x (u "V-oy") then u "V-ey" else x) (u "loc1") then u "loct"
      else if str_eqb (if str_eqb x (u "V-oy") then u "V-ey" else x) (u "gen1") then u "gent" else if str_eqb x (u "V-oy") then u "V-ey" else x) = alike x).
  { intros x. unfold alike. destruct (str_eqb x (u "V-oy")); [reflexivity|]. destruct (str_eqb x (u "gen1")); [reflexivity|]. reflexivity. }
  rewrite (map_ext _ _ E). reflexivity.
Qed.
Lemma apart_dist : forall l r n, apart (p_tag l) (p_tag r) n <-> N.to_nat (hy_dist l r) = n.
Proof.
  intros l r n. unfold hy_dist. rewrite Nnat.Nat2N.id. set (s := ssymdiff (hy_grammemes (p_tag l)) (hy_grammemes (p_tag r))).
  assert (S : forall g, In g s <-> (has_alike (p_tag l) g /\ ~ has_alike (p_tag r) g) \/ (has_alike (p_tag r) g /\ ~ has_alike (p_tag l) g)) by (intros g; unfold s; rewrite ssymdiff_In, !hy_In; reflexivity).
  split.
  - intros (d & ND & <- & H). unfold slen. apply Nat.le_antisymm; apply NoDup_incl_length; auto using snodup_NoDup; intros g I; [apply H, S, snodup_In, I|apply snodup_In, S, H, I].
  - intros <-. exists (snodup s). split; [apply snodup_NoDup|]. split; [reflexivity|]. intros g. rewrite snodup_In. apply S.
Qed.
Lemma closest_spec : forall r ls best cur l, closest r ls best cur = Some l ->
  (cur = Some l /\ forall l', In l' ls -> (best <= hy_dist l' r)%N) \/
  exists x y, ls = x ++ l :: y /\ (hy_dist l r < best)%N /\ (forall l', In l' x -> (hy_dist l r < hy_dist l' r)%N) /\ forall l', In l' y -> (hy_dist l r <= hy_dist l' r)%N.
Proof.
  intros r ls. induction ls as [|h ls IH]; intros best cur l H; cbn [closest] in H; [left; split; [exact H|intros l' []]|].
  destruct (N.ltb_spec (hy_dist h r) best) as [L|L].
  - apply IH in H as [[E B]|(x & y & -> & D & X & Y)].
    + right. injection E as <-. exists [], ls. split; [reflexivity|]. split; [exact L|]. split; [intros l' []|exact B].
    + right. exists (h :: x), y. split; [reflexivity|]. split; [lia|]. split; [|exact Y]. intros l' [<-|I]; [exact D|apply X; exact I].
  - apply IH in H as [[E B]|(x & y & -> & D & X & Y)].
    + left. split; [exact E|]. intros l' [<-|I]; [exact L|apply B; exact I].
    + right. exists (h :: x), y. split; [reflexivity|]. split; [exact D|]. split; [|exact Y]. intros l' [<-|I]; [lia|apply X; exact I].
Qed.
Lemma closest_some : forall r ls best cur, (exists l, In l ls /\ (hy_dist l r < best)%N) \/ cur <> None -> closest r ls best cur <> None.
Proof.
  intros r ls. induction ls as [|h ls IH]; intros best cur H; cbn [closest]; [destruct H as [(l & [] & _)|H]; exact H|].
  destruct (N.ltb_spec (hy_dist h r) best) as [L|L]; apply IH; [right; discriminate|]. destruct H as [(l & [<-|I] & D)|H]; [lia|left; exists l; auto|right; exact H].
Qed.
Lemma dist_bound : forall l r, (hy_dist l r <= N.of_nat (length (t_gr (p_tag l)) + length (t_gr (p_tag r))))%N.
Proof.
  intros l r. unfold hy_dist.
  assert (H : slen (ssymdiff (hy_grammemes (p_tag l)) (hy_grammemes (p_tag r))) <= length (map alike (t_gr (p_tag l)) ++ map alike (t_gr (p_tag r)))).
  { unfold slen. apply NoDup_incl_length; [apply snodup_NoDup|]. intros g I. rewrite snodup_In, ssymdiff_In, !hy_In in I. apply in_or_app. unfold has_alike in I. tauto. }
  rewrite app_length, !map_length in H. lia.
Qed.
Lemma merge_best : forall self i ls r, self = Root i -> (exists l, In l ls /\ (N.of_nat (length (t_gr (p_tag l)) + length (t_gr (p_tag r))) < 1000000)%N) ->
  exists g, merge1 self ls r = Ok g /\ exists l, best_match ls r l /\ joined_form i l r g.
Proof.
  intros self i ls r -> (l0 & I0 & B0). unfold merge1. destruct (closest r ls 1000000 None) as [l|] eqn:C.
  - eexists. split; [reflexivity|]. exists l. split; [|repeat split].
    apply closest_spec in C as [[E _]|(x & y & -> & D & X & Y)]; [discriminate E|]. exists x, y, (N.to_nat (hy_dist l r)). split; [reflexivity|]. split; [apply apart_dist; reflexivity|]. split.
    + intros l' m I A. apply apart_dist in A. specialize (X l' I). lia.
    + intros l' m I A. apply apart_dist in A. specialize (Y l' I). lia.
  - exfalso. revert C. apply closest_some. left. exists l0. split; [exact I0|]. pose proof (dist_bound l0 r). lia.
Qed.
Lemma merges_best : forall i ls rs, (forall r, In r rs -> exists l, In l ls /\ (N.of_nat (length (t_gr (p_tag l)) + length (t_gr (p_tag r))) < 1000000)%N) ->
  exists gs, sequence (map (merge1 (Root i) ls) rs) = Ok gs /\ Forall2 (fun r g => exists l, best_match ls r l /\ joined_form i l r g) rs gs.
Proof.
  intros i ls rs. unfold sequence. induction rs as [|r rs IH]; intros H; [exists []; split; [reflexivity|constructor]|]. cbn [map mapM].
  destruct (merge_best (Root i) i ls r eq_refl) as (g & -> & B); [apply H; left; reflexivity|]. cbn [bind]. destruct IH as (gs & -> & F); [intros r' I; apply H; right; exact I|]. cbn [bind].
  exists (g :: gs). split; [reflexivity|constructor; assumption].
Qed.
Lemma best_match_reading : forall ls ls' r l, map reading ls = map reading ls' -> best_match ls r l -> exists l', reading l = reading l' /\ best_match ls' r l'.
Proof.
  intros ls ls' r l H (x & y & n & -> & A & X & Y). rewrite map_app in H. cbn [map] in H. symmetry in H. apply map_eq_app in H as (x' & y0 & -> & Hx & H). destruct y0 as [|l' y']; [discriminate H|]. cbn [map] in H. apply cons_inv in H as [Hl Hy].
  assert (Q : forall u v : list parse, map reading u = map reading v -> forall p, In p u -> exists q, In q v /\ p_tag p = p_tag q).
  { clear. induction u as [|a u IH]; intros [|b v] H p I; cbn [map] in H; try discriminate; [destruct I|]. apply cons_inv in H as [H1 H2]. destruct I as [<-|I]; [exists b; split; [left; reflexivity|]; apply reading_inv in H1; tauto|].
    destruct (IH v H2 p I) as (q & Iq & E). exists q. split; [right; exact Iq|exact E]. }
  exists l'. split; [symmetry; exact Hl|]. pose proof Hl as Hl'. apply reading_inv in Hl' as (_ & Tl & _). exists x', y', n. split; [reflexivity|]. split; [rewrite Tl; exact A|]. split.
  - intros q m I A'. destruct (Q x' x Hx q I) as (q' & Iq & E). rewrite E in A'. exact (X q' m Iq A').
  - intros q m I A'. destruct (Q y' y Hy q I) as (q' & Iq & E). rewrite E in A'. exact (Y q' m Iq A').
Qed.
Lemma joined_lexeme : forall M i a b p la lb, unit_is M i (fun c => match c with UHyph _ _ => True | _ => False end) -> joined_form i a b p ->
  ~ In (chr "-") (p_word a) -> ~ In (chr "-") (p_nf a) -> from_dictionary M (p_stack b) ->
  get_lexeme M a = Ok la -> get_lexeme M b = Ok lb ->
  (forall r, In r lb -> exists l, In l la /\ (N.of_nat (length (t_gr (p_tag l)) + length (t_gr (p_tag r))) < 1000000)%N) ->
  exists lp, get_lexeme M p = Ok lp /\ Forall2 (fun r g => exists l, best_match la r l /\ joined_form i l r g) lb lp.
Proof.
  intros M i a b p la lb (bu & tm & N & U) (Hw & Ht & Hn & Hs) NW NN FD LA LB SM.
  unfold get_lexeme in LA, LB. apply bind_ok in LA as (wa & LUA & LA). apply bind_ok in LB as (wb & LUB & LB).
  unfold get_lexeme. rewrite Hs. assert (LU : last_unit [MHyphBoth (Root i) (p_stack a) (p_stack b)] = Ok (Root i)) by reflexivity. rewrite LU. cbn [bind].
  assert (FU : stack_size [MHyphBoth (Root i) (p_stack a) (p_stack b)] = S (stack_size (p_stack a) + stack_size (p_stack b))) by (cbn; unfold stack_size; lia). rewrite FU.
  apply (lexeme_mono _ _ _ _ _ (S (stack_size (p_stack a) + stack_size (p_stack b)))) in LA; [|lia]. apply (lexeme_mono _ _ _ _ _ (S (stack_size (p_stack a) + stack_size (p_stack b)))) in LB; [|lia].
  revert LA LB. generalize (S (stack_size (p_stack a) + stack_size (p_stack b))) as n. intros n LA LB. cbn [lexeme_f]. rewrite (nth_res_some _ _ _ N). cbn [bind fst].
  destruct (b_cfg bu); try contradiction. unfold hyph_forms. rewrite Hs, uref_eqb_refl. cbn [negb].
  unfold without_right_part, without_left_part, replace_methods_stack. cbn [p_word p_nf p_tag p_score p_stack]. change (u "-") with [HY] in Hw, Hn. cbn [app] in Hw, Hn.
  rewrite Hw, Hn, !index_hyphen by assumption. cbn [bind]. rewrite LUA. cbn [bind].
  set (A := {| p_word := _; p_tag := _; p_nf := _; p_score := _; p_stack := p_stack a |}). set (B := {| p_word := _; p_tag := _; p_nf := _; p_score := _; p_stack := p_stack b |}).
  assert (SL : same_lex (lexeme_f n M wa a) (lexeme_f n M wa A)).
  { apply lexeme_reading. apply reading_eq; cbn [A p_word p_tag p_nf p_stack]; [rewrite firstn_app_exact; reflexivity|congruence|rewrite firstn_app_exact; reflexivity|reflexivity]. }
  rewrite LA in SL. destruct (lexeme_f n M wa A) as [la'|e]; [|destruct SL]. cbn in SL. cbn [bind]. rewrite LUB. cbn [bind].
  assert (EB : lexeme_f n M wb B = lexeme_f n M wb b).
  { apply (lexeme_tag M (p_stack b) FD); [exact LUB|reflexivity|reflexivity| |]; cbn [B p_word p_nf].
    - change (p_word a ++ HY :: p_word b) with (p_word a ++ [HY] ++ p_word b). rewrite app_assoc. replace (length (p_word a) + 1) with (length (p_word a ++ [HY])) by (rewrite app_length; reflexivity). apply skipn_app_exact.
    - change (p_nf a ++ HY :: p_nf b) with (p_nf a ++ [HY] ++ p_nf b). rewrite app_assoc. replace (length (p_nf a) + 1) with (length (p_nf a ++ [HY])) by (rewrite app_length; reflexivity). apply skipn_app_exact. }
  rewrite EB, LB. cbn [bind].
  assert (SM' : forall r, In r lb -> exists l, In l la' /\ (N.of_nat (length (t_gr (p_tag l)) + length (t_gr (p_tag r))) < 1000000)%N).
  { intros r I. destruct (SM r I) as (l & Il & L). assert (X : In (reading l) (map reading la')) by (rewrite <- SL; apply in_map; exact Il). apply in_map_iff in X as (l' & E & Il'). exists l'. split; [exact Il'|]. apply reading_inv in E as (_ & E & _). rewrite E. exact L. }
  destruct (merges_best i la' lb SM') as (gs & E & F). exists gs. split; [exact E|].
  clear - F SL. induction F as [|r g rs gs (l & B & J) F IH]; [constructor|]. constructor; [|exact IH].
  destruct (best_match_reading la' la r l (eq_sym SL) B) as (l' & R & B'). exists l'. split; [exact B'|]. apply reading_inv in R as (Rw & Rt & Rn & Rs). destruct J as (J1 & J2 & J3 & J4). repeat split; congruence.
Qed.
