(** * Preprocessing of parsed dictionaries (C39 C40) *)
From Coq Require Import String List NArith ZArith Bool Lia Permutation.
From Verif Require Import Py Uni Tagset Dawg Utils Compile Preprocess Spec Spec2 Spec3 L_Base L_Tagset L_Tags2 L_Compile.
Import ListNotations.
Local Open Scope nat_scope.
Local Open Scope list_scope.

Section Replace.
  Variables (pat new : str).
  Hypothesis Lp : length pat = 4.
  Hypothesis Cp : forall c, c = chr "," \/ c = chr " " -> ~ In c pat /\ ~ In c new.
  Definition swap (g : str) : str := if str_eqb g pat then new else g.
  Lemma ra_fuel : forall n s, length s <= n -> replace_all_f n pat new s = replace_all pat new s.
  Proof.
    assert (X : forall n m s, length s <= n -> length s <= m -> replace_all_f n pat new s = replace_all_f m pat new s).
    { induction n as [|n IH]; intros m s Hn Hm; [destruct s; [destruct m; auto|simpl in Hn; lia]|]. destruct m as [|m]; [destruct s; [auto|simpl in Hm; lia]|].
      cbn [replace_all_f]. destruct s as [|x s]; auto. destruct (prefixb pat (x :: s)).
      - f_equal. assert (length (skipn (length pat) (x :: s)) <= length s) by (rewrite skipn_length, Lp; simpl; lia). apply IH; simpl in *; lia.
      - f_equal. apply IH; simpl in *; lia. }
    intros n s H. unfold replace_all. apply X; auto.
  Qed.
  Lemma ra_cons : forall x s, replace_all pat new (x :: s) = if prefixb pat (x :: s) then new ++ replace_all pat new (skipn (length pat) (x :: s)) else x :: replace_all pat new s.
  Proof.
    intros x s. unfold replace_all at 1. cbn [length replace_all_f]. destruct (prefixb pat (x :: s)); [|reflexivity]. f_equal. apply ra_fuel. rewrite skipn_length, Lp. simpl. lia.
  Qed.
  Lemma ra_nil : replace_all pat new [] = []. Proof. reflexivity. Qed.
  Lemma prefix_sep : forall q c rest, c = chr "," \/ c = chr " " -> prefixb pat (q ++ c :: rest) = true -> exists r, q = pat ++ r.
  Proof.
    intros q c rest Hc H. destruct (Cp c Hc) as [Hn _]. apply prefixb_spec in H as (r & E). clear - E Hn. revert q E.
    induction pat as [|a p IH]; intros q E; [exists q; auto|]. destruct q as [|b q]; simpl in E; injection E as -> E; [exfalso; apply Hn; left; auto|].
    destruct (IH (fun h => Hn (or_intror h)) q E) as (r' & ->). exists r'. auto.
  Qed.
  Lemma ra_short : forall q, length q < 4 -> forall c rest, c = chr "," \/ c = chr " " -> replace_all pat new (q ++ c :: rest) = q ++ c :: replace_all pat new rest.
  Proof.
    induction q as [|x q IH]; intros H c rest Hc; cbn [app].
    - rewrite ra_cons. destruct (prefixb pat (c :: rest)) eqn:P; auto. apply (prefix_sep [] c rest Hc) in P as (r & E). exfalso. assert (length pat = 0) by (destruct pat; [auto|discriminate]). lia.
    - rewrite ra_cons. destruct (prefixb pat (x :: q ++ c :: rest)) eqn:P; [|f_equal; apply IH; auto; simpl in H; lia].
      apply (prefix_sep (x :: q) c rest Hc) in P as (r & E). exfalso. apply (f_equal (@length _)) in E. rewrite app_length in E. simpl in E, H. lia.
  Qed.
  Lemma ra_piece : forall g c rest, length g <= 4 -> c = chr "," \/ c = chr " " -> replace_all pat new (g ++ c :: rest) = swap g ++ c :: replace_all pat new rest.
  Proof.
    intros g c rest H Hc. unfold swap. destruct (str_eqb g pat) eqn:E.
    - apply str_eqb_eq in E. subst g. destruct pat as [|x p] eqn:Ep; [discriminate|]. cbn [app]. rewrite <- Ep in *. rewrite ra_cons. rewrite Ep at 1. rewrite (prefixb_app (x :: p) (c :: rest) : prefixb (x :: p) (x :: p ++ c :: rest) = true).
      f_equal. replace (skipn (length pat) (x :: p ++ c :: rest)) with (c :: rest).
      + exact (ra_short [] ltac:(simpl; lia) c rest Hc).
      + rewrite Ep. cbn [length skipn]. rewrite skipn_app, skipn_all, Nat.sub_diag. reflexivity.
    - destruct (Nat.eq_dec (length g) 4) as [Eg|Ng]; [|apply ra_short; auto; lia]. destruct g as [|x g]; [discriminate|]. cbn [app]. rewrite ra_cons.
      destruct (prefixb pat (x :: g ++ c :: rest)) eqn:P; [|f_equal; apply ra_short; auto; simpl in Eg; lia].
      apply (prefix_sep (x :: g) c rest Hc) in P as (r & Er). assert (r = []). { apply (f_equal (@length _)) in Er. rewrite app_length in Er. destruct r; auto. simpl in *. lia. }
      subst r. rewrite app_nil_r in Er. rewrite Er in E. rewrite (proj2 (str_eqb_eq pat pat) eq_refl) in E. discriminate.
  Qed.
  Lemma ra_last : forall g, length g <= 4 -> replace_all pat new g = swap g.
  Proof.
    assert (Z : forall q, length q < 4 -> replace_all pat new q = q).
    { induction q as [|x q IH]; intros H; auto. rewrite ra_cons. destruct (prefixb pat (x :: q)) eqn:P; [|f_equal; apply IH; simpl in H; lia].
      apply prefixb_spec in P as (r & E). apply (f_equal (@length _)) in E. rewrite app_length in E. simpl in *. lia. }
    intros g H. unfold swap. destruct (str_eqb g pat) eqn:E.
    - apply str_eqb_eq in E. subst g. destruct pat as [|x p] eqn:Ep; [discriminate|]. rewrite <- Ep in *. rewrite Ep at 2. rewrite ra_cons. rewrite Ep at 1. pose proof (prefixb_app (x :: p) []) as Q. rewrite app_nil_r in Q. rewrite Q.
      rewrite Ep at 2. rewrite skipn_all. rewrite ra_nil, app_nil_r. reflexivity.
    - destruct (Nat.eq_dec (length g) 4) as [Eg|Ng]; [|apply Z; lia]. destruct g as [|x g]; [discriminate|]. rewrite ra_cons.
      destruct (prefixb pat (x :: g)) eqn:P; [|f_equal; apply Z; simpl in Eg; lia]. apply prefixb_spec in P as (r & Er).
      assert (r = []). { apply (f_equal (@length _)) in Er. rewrite app_length in Er. destruct r; auto. simpl in *. lia. }
      subst r. rewrite app_nil_r in Er. rewrite Er in E. rewrite (proj2 (str_eqb_eq pat pat) eq_refl) in E. discriminate.
  Qed.
  Lemma swap_sep : forall g c, c = chr "," \/ c = chr " " -> ~ In c g -> ~ In c (swap g).
  Proof. intros g c Hc H. unfold swap. destruct (str_eqb g pat); auto. apply Cp; auto. Qed.
  Lemma ra_join : forall ps tail, ps <> [] -> short ps -> (tail = [] \/ exists rest, tail = chr " " :: rest) ->
    replace_all pat new (join (u ",") ps ++ tail) = join (u ",") (map swap ps) ++ match tail with [] => [] | c :: r => c :: replace_all pat new r end.
  Proof.
    induction ps as [|g ps IH]; intros tail N S T; [congruence|]. assert (Sg : length g <= 4) by (apply S; left; auto). destruct ps as [|g2 ps].
    - cbn [join map]. destruct T as [->|(rest & ->)]; [rewrite !app_nil_r; apply ra_last; auto|apply ra_piece; auto].
    - change (join (u ",") (g :: g2 :: ps)) with (g ++ chr "," :: join (u ",") (g2 :: ps)). rewrite <- app_assoc. cbn [app]. rewrite ra_piece by auto.
      change (map swap (g :: g2 :: ps)) with (swap g :: swap g2 :: map swap ps). change (join (u ",") (swap g :: swap g2 :: map swap ps)) with (swap g ++ chr "," :: join (u ",") (map swap (g2 :: ps))).
      rewrite IH; [rewrite <- app_assoc; reflexivity|discriminate|intros x Hx; apply S; right; auto|auto].
  Qed.
  Lemma join_no : forall ps c, c <> chr "," -> ~ In c (join (u ",") ps) <-> forall g, In g ps -> ~ In c g.
  Proof.
    induction ps as [|g ps IH]; intros c Hc; [simpl; split; [intros _ ? []|auto]|]. destruct ps as [|g2 ps].
    - simpl. split; [intros H x [<-|[]]; auto|intros H; apply H; auto].
    - change (join (u ",") (g :: g2 :: ps)) with (g ++ chr "," :: join (u ",") (g2 :: ps)). rewrite in_app_iff. cbn [In]. split.
      + intros H x [<-|Hx]; [tauto|]. apply (proj1 (IH c Hc)); [tauto|auto].
      + intros H [A|[A|A]]; [apply (H g); [left; auto|auto]|congruence|]. revert A. apply (proj2 (IH c Hc)). intros x Hx. apply H. right; auto.
  Qed.
  Lemma pieces_swap : forall s ps, comma_pieces s ps -> comma_pieces (join (u ",") (map swap ps)) (map swap ps).
  Proof.
    intros s ps (N & _ & C). split; [destruct ps; [congruence|discriminate]|]. split; auto. intros g H. apply in_map_iff in H as (g0 & <- & H). apply swap_sep; auto.
  Qed.
  Lemma ra_reads : forall s gs, reads_as s gs -> short gs -> reads_as (replace_all pat new s) (map swap gs).
  Proof.
    assert (NC : chr " " <> chr ",") by (intros E; vm_compute in E; discriminate).
    intros s gs [(H & P)|(a & b & ga & gb & -> & H & Pa & Pb & ->)] S.
    - pose proof P as (N & J & C). rewrite <- J, <- (app_nil_r (join (u ",") gs)). rewrite ra_join by auto. rewrite app_nil_r. left. split; [|eapply pieces_swap; eauto].
      apply (join_no _ _ NC). intros g Hg. apply in_map_iff in Hg as (g0 & <- & Hg). apply swap_sep; auto. rewrite <- J in H. apply (proj1 (join_no _ _ NC) H); auto.
    - pose proof Pa as (Na & Ja & Ca). pose proof Pb as (Nb & Jb & Cb). change (u " " ++ b) with (chr " " :: b). rewrite <- Ja. rewrite ra_join; [|auto|intros x Hx; apply S; apply in_app_iff; auto|eauto].
      assert (Eb : replace_all pat new b = join (u ",") (map swap gb)). { rewrite <- Jb, <- (app_nil_r (join (u ",") gb)). rewrite ra_join; [apply app_nil_r|auto|intros x Hx; apply S; apply in_app_iff; auto|auto]. }
      rewrite Eb. right. exists (join (u ",") (map swap ga)), (join (u ",") (map swap gb)), (map swap ga), (map swap gb). split; [reflexivity|].
      split; [|split; [eapply pieces_swap; eauto|split; [eapply pieces_swap; eauto|apply map_app]]].
      apply (join_no _ _ NC). intros g Hg. apply in_map_iff in Hg as (g0 & <- & Hg). apply swap_sep; auto. rewrite <- Ja in H. apply (proj1 (join_no _ _ NC) H); auto.
  Qed.
End Replace.

Lemma pat_ok : forall a b : str, forallb (fun c => negb (N.eqb c (chr ",")) && negb (N.eqb c (chr " "))) (a ++ b) = true ->
  forall c, c = chr "," \/ c = chr " " -> ~ In c a /\ ~ In c b.
Proof.
  intros a b H c Hc. rewrite forallb_forall in H. split; intros I; (assert (X : In c (a ++ b)) by (apply in_app_iff; auto)); apply H in X; apply andb_true_iff in X as [X1 X2];
  destruct Hc as [->| ->]; [rewrite N.eqb_refl in X1|rewrite N.eqb_refl in X2|rewrite N.eqb_refl in X1|rewrite N.eqb_refl in X2]; discriminate.
Qed.
Lemma common_swap : forall g, swap (u "acc1") (u "accs") (swap (u "gen1") (u "gent") (swap (u "loc1") (u "loct") g)) = common_case g.
Proof.
  intros g. unfold common_case.
  assert (D : forall a : str, swap a a g = g -> True) by auto. clear D.
  assert (S : forall p n x, swap p n x = if grammeme_dec x p then n else x).
  { intros p n x. unfold swap. destruct (grammeme_dec x p) as [->|N]; [rewrite (proj2 (str_eqb_eq p p) eq_refl); auto|]. destruct (str_eqb x p) eqn:E; auto. apply str_eqb_eq in E. contradiction. }
  rewrite (S (u "loc1")). destruct (grammeme_dec g (u "loc1")) as [->|N1]; [vm_compute; reflexivity|].
  rewrite (S (u "gen1")). destruct (grammeme_dec g (u "gen1")) as [->|N2]; [vm_compute; reflexivity|].
  rewrite (S (u "acc1")). reflexivity.
Qed.
Lemma swap_short : forall p n gs, length n <= 4 -> short gs -> short (map (swap p n) gs).
Proof. intros p n gs L S g H. apply in_map_iff in H as (g0 & <- & H). unfold swap. destruct (str_eqb g0 p); auto. Qed.
Lemma redundant_reads : forall t gs, reads_as t gs -> short gs -> reads_as (replace_redundant t) (map common_case gs).
Proof.
  intros t gs R S. unfold replace_redundant.
  replace (map common_case gs) with (map (swap (u "acc1") (u "accs")) (map (swap (u "gen1") (u "gent")) (map (swap (u "loc1") (u "loct")) gs))).
  - apply ra_reads; [reflexivity|apply pat_ok; vm_compute; reflexivity| |apply swap_short; [vm_compute; lia|apply swap_short; [vm_compute; lia|exact S]]].
    apply ra_reads; [reflexivity|apply pat_ok; vm_compute; reflexivity| |apply swap_short; [vm_compute; lia|exact S]].
    apply ra_reads; [reflexivity|apply pat_ok; vm_compute; reflexivity|exact R|exact S].
  - rewrite !map_map. apply map_ext. intros g. apply common_swap.
Qed.
Lemma redundant_split : forall t, short (split_tag t) -> tag2grammemes t = map common_case (split_tag t).
Proof. intros t S. symmetry. apply reads_unique. apply redundant_reads; auto. apply split_tag_reads. Qed.
Lemma common_idem : forall g, common_case (common_case g) = common_case g.
Proof.
  intros g. destruct (grammeme_dec g (u "loc1")) as [->|N1]; [vm_compute; reflexivity|]. destruct (grammeme_dec g (u "gen1")) as [->|N2]; [vm_compute; reflexivity|].
  destruct (grammeme_dec g (u "acc1")) as [->|N3]; [vm_compute; reflexivity|].
  assert (E : common_case g = g). { unfold common_case. destruct (grammeme_dec g (u "loc1")); [contradiction|]. destruct (grammeme_dec g (u "gen1")); [contradiction|]. destruct (grammeme_dec g (u "acc1")); [contradiction|auto]. }
  rewrite E. exact E.
Qed.
Lemma common_short : forall gs, short gs -> short (map common_case gs).
Proof.
  intros gs S g H. apply in_map_iff in H as (g0 & <- & H). unfold common_case. destruct (grammeme_dec g0 (u "loc1")); [vm_compute; lia|]. destruct (grammeme_dec g0 (u "gen1")); [vm_compute; lia|]. destruct (grammeme_dec g0 (u "acc1")); [vm_compute; lia|auto].
Qed.

(** ** the replacement table *)
Definition same_set (a b : list str) : Prop := forall g, In g a <-> In g b.
Lemma same_set_eqb : forall a b, seq_set a b = true <-> same_set a b. Proof. intros. apply seq_set_iff. Qed.
Definition sp_ok (tags : list str) (sp : spellings) : Prop := forall g cur t n, In (g, cur) sp -> In (t, n) cur -> same_set (tag2grammemes t) g /\ In t tags.
Lemma dset_gen : forall {K V} (eqb : K -> K -> bool) k (v : V) d k' v', In (k', v') (dset eqb k v d) -> In (k', v') d \/ (v' = v /\ (k' = k \/ eqb k k' = true)).
Proof.
  intros K V eqb k v. induction d as [|[a b] d IH]; intros k' v' H; simpl in H.
  - destruct H as [H|[]]. injection H as -> ->. auto.
  - destruct (eqb k a) eqn:E.
    + destruct H as [H|H]; [injection H as -> ->; auto|left; right; auto].
    + destruct H as [H|H]; [left; left; auto|]. apply IH in H as [H|H]; [left; right; auto|auto].
Qed.
Lemma dget_gen : forall {K V} (eqb : K -> K -> bool) k (v : V) d, dget eqb k d = Some v -> exists k', In (k', v) d /\ eqb k k' = true.
Proof. intros K V eqb k v. induction d as [|[a b] d IH]; intros H; simpl in H; [discriminate|]. destruct (eqb k a) eqn:E; [injection H as ->; exists a; split; [left; auto|auto]|]. destruct (IH H) as (k' & I & Q). exists k'. split; [right; auto|auto]. Qed.
Lemma dset_str : forall {V} k (v : V) d k' v', In (k', v') (dset str_eqb k v d) -> (k', v') = (k, v) \/ In (k', v') d.
Proof. intros V k v d k' v' H. apply dset_gen in H as [H|[-> [->|H]]]; auto. apply str_eqb_eq in H. subst. auto. Qed.
Lemma incr_In : forall t cur x n, In (x, n) (incr str_eqb t cur) -> x = t \/ exists m, In (x, m) cur.
Proof.
  intros t cur x n H. unfold incr in H. apply dset_str in H as [H|H]; [injection H as -> _; auto|eauto].
Qed.
Lemma add_spelling_ok : forall tags sp t, sp_ok tags sp -> In t tags -> sp_ok tags (add_spelling sp t).
Proof.
  intros tags sp t O It g cur x n Hg Hx. unfold add_spelling in Hg.
  set (cur0 := match dget seq_set (tag2grammemes t) sp with Some c => c | None => [] end) in Hg.
  assert (C0 : forall x m, In (x, m) cur0 -> same_set (tag2grammemes x) (tag2grammemes t) /\ In x tags).
  { intros y m Hy. unfold cur0 in Hy. destruct (dget seq_set (tag2grammemes t) sp) as [c|] eqn:E; [|destruct Hy]. apply dget_gen in E as (k & I & Q). apply same_set_eqb in Q.
    destruct (O _ _ _ _ I Hy) as [S1 S2]. split; auto. intros z. rewrite (S1 z). symmetry. apply Q. }
  apply dset_gen in Hg as [Hg|[-> Hk]]; [eapply O; eauto|].
  assert (Sk : same_set (tag2grammemes t) g) by (destruct Hk as [->|Hk]; [intros z; tauto|apply same_set_eqb; auto]).
  apply incr_In in Hx as [->|(m & Hx)]; [auto|]. destruct (C0 _ _ Hx) as [S1 S2]. split; auto. intros z. rewrite (S1 z). apply Sk.
Qed.
Lemma spellings_ok : forall lx, sp_ok (itertags lx) (get_tag_spellings lx).
Proof.
  intros lx. unfold get_tag_spellings.
  assert (X : forall l sp, (forall t, In t l -> In t (itertags lx)) -> sp_ok (itertags lx) sp -> sp_ok (itertags lx) (fold_left add_spelling l sp)).
  { induction l as [|t l IH]; intros sp H O; simpl; auto. apply IH; [intros; apply H; right; auto|]. apply add_spelling_ok; auto. apply H. left; auto. }
  apply X; auto. intros g cur t n [].
Qed.
Definition reps_ok (tags : list str) (reps : list (str * str)) : Prop := forall a b, In (a, b) reps -> same_set (tag2grammemes a) (tag2grammemes b) /\ In a tags /\ In b tags.
Lemma dup_ok : forall tags skip sp reps, sp_ok tags sp -> reps_ok tags reps -> reps_ok tags (fold_left (dup_step skip) sp reps).
Proof.
  intros tags skip. induction sp as [|[g cur] sp IH]; intros reps O R; simpl; auto. apply IH; [intros g' c' t n Hg Ht; apply (O g' c' t n); [right; auto|auto]|].
  unfold dup_step. cbn [snd]. destruct (is_ambiguous (map fst cur) skip); auto. destruct (sort_desc (fun a b : str * nat => snd b <=? snd a) cur) as [|[top tn] rest] eqn:E; auto.
  assert (In_cur : forall t n, In (t, n) ((top, tn) :: rest) -> same_set (tag2grammemes t) g /\ In t tags).
  { intros t n H. rewrite <- E in H. apply (Permutation_in _ (Permutation_sym (sort_desc_perm (fun a b : str * nat => snd b <=? snd a) cur))) in H. apply (O g cur t n); [left; auto|auto]. }
  cbn [fst]. destruct (In_cur top tn) as [T1 T2]; [left; auto|].
  assert (Y : forall (l : list (str * nat)) r, (forall t n, In (t, n) l -> same_set (tag2grammemes t) g /\ In t tags) -> reps_ok tags r -> reps_ok tags (fold_left (fun r (tc : str * nat) => sset_ (fst tc) top r) l r)).
  { induction l as [|[t n] l IHl]; intros r Hl Hr; simpl; auto. apply IHl; [intros; eapply Hl; right; eauto|]. intros a b H. unfold sset_ in H. apply dset_str in H as [H|H]; [|apply Hr; auto].
    injection H as -> ->. destruct (Hl t n) as [S1 S2]; [left; auto|]. split; [|auto]. intros z. rewrite (S1 z). symmetry. apply T1. }
  apply Y; auto. intros t n H. eapply In_cur. right; eauto.
Qed.
Lemma simplify_tag_ok : forall lx skip t, (forall x, In x (itertags lx) -> short (split_tag x)) -> In t (itertags lx) ->
  same_grammemes (split_tag (simplify_tag (duplicate_replaces (get_tag_spellings lx) skip) t)) (split_tag t).
Proof.
  intros lx skip t S It. assert (St : short (split_tag t)) by auto. unfold simplify_tag.
  assert (R0 : split_tag (replace_redundant t) = map common_case (split_tag t)) by (symmetry; apply reads_unique; apply redundant_reads; auto; apply split_tag_reads).
  assert (E0 : map common_case (split_tag (replace_redundant t)) = map common_case (split_tag t)) by (rewrite R0, map_map; apply map_ext; apply common_idem).
  destruct (sget (replace_redundant t) (duplicate_replaces (get_tag_spellings lx) skip)) as [x|] eqn:G.
  - apply (dget_In str_eqb str_eqb_eq) in G. assert (RO : reps_ok (itertags lx) (duplicate_replaces (get_tag_spellings lx) skip)) by (apply dup_ok; [apply spellings_ok|intros a b []]).
    destruct (RO _ _ G) as (Q & _ & Ix). rewrite (redundant_split x) in Q by auto. rewrite redundant_split in Q by (rewrite R0; apply common_short; auto). rewrite E0 in Q.
    intros g. symmetry. apply Q.
  - intros g. rewrite E0. tauto.
Qed.
(** C39 *)
Definition simplified (o n : N * lexeme) : Prop :=
  fst n = fst o /\ Forall2 (fun a b : str * str => fst b = fst a /\ same_grammemes (split_tag (snd b)) (split_tag (snd a))) (snd o) (snd n).
Lemma simplify_tags_ok : forall lx skip, (forall id l w t, In (id, l) lx -> In (w, t) l -> short (split_tag t)) ->
  Forall2 simplified lx (simplify_tags lx skip).
Proof.
  intros lx skip S. unfold simplify_tags, map_lexemes. set (reps := duplicate_replaces (get_tag_spellings lx) skip).
  assert (S' : forall x, In x (itertags lx) -> short (split_tag x)).
  { intros x H. apply in_flat_map in H as ([id l] & H1 & H2). apply in_map_iff in H2 as ([w t] & <- & H2). eapply S; eauto. }
  assert (X : forall sub, (forall y, In y sub -> In y lx) -> Forall2 simplified sub (map (fun l => (fst l, map (fun wt => (fst wt, simplify_tag reps (snd wt))) (snd l))) sub)).
  { induction sub as [|[id l] sub IH]; intros H; cbn [map]; constructor; [|apply IH; intros; apply H; right; auto]. split; [reflexivity|]. cbn [fst snd].
    assert (Il : In (id, l) lx) by (apply H; left; auto). assert (Y : forall m, (forall y, In y m -> In y l) -> Forall2 (fun a b : str * str => fst b = fst a /\ same_grammemes (split_tag (snd b)) (split_tag (snd a))) m (map (fun wt => (fst wt, simplify_tag reps (snd wt))) m)).
    { induction m as [|[w t] m IHm]; intros Hm; cbn [map]; constructor; [|apply IHm; intros; apply Hm; right; auto]. cbn [fst snd]. split; [reflexivity|]. apply simplify_tag_ok; auto.
      apply in_flat_map. exists (id, l). split; auto. apply in_map_iff. exists (w, t). split; auto. apply Hm. left; auto. }
    apply Y; auto. }
  apply X; auto.
Qed.
