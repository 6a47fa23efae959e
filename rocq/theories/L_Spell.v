(** * Lemmas for C39_spelling: which text each tag text becomes *)
From Coq Require Import String List NArith ZArith Bool Lia Permutation Sorted.
From Verif Require Import Py Uni Tagset Dawg Utils Compile Preprocess Spec Spec2 Spec3 Spec17 L_Base L_Tagset L_Tags2 L_Compile L_Pre L_Probability.
Import ListNotations.
Local Open Scope nat_scope.
Local Open Scope list_scope.

(** ** respelling *)
Definition tail_of (f : str -> str) (tail : str) : str := match tail with [] => [] | c :: r => c :: f r end.
Lemma redundant_join : forall ps tail, ps <> [] -> short ps -> (tail = [] \/ exists rest, tail = chr " " :: rest) ->
  replace_redundant (join (u ",") ps ++ tail) = join (u ",") (map common_case ps) ++ tail_of replace_redundant tail.
Proof.
  intros ps tail N S T. unfold replace_redundant.
  assert (TT : forall f, tail_of f tail = [] \/ exists rest, tail_of f tail = chr " " :: rest) by (intro f; destruct T as [->|(r & ->)]; [left; auto|right; simpl; eauto]).
  assert (NM : forall f : str -> str, map f ps <> []) by (intros f E; apply map_eq_nil in E; auto).
  rewrite ra_join; [|reflexivity|apply pat_ok; vm_compute; reflexivity|auto|auto|auto].
  change (match tail with [] => [] | c :: r => c :: replace_all (u "loc1") (u "loct") r end) with (tail_of (replace_all (u "loc1") (u "loct")) tail).
  rewrite ra_join; [|reflexivity|apply pat_ok; vm_compute; reflexivity|auto|apply swap_short; [vm_compute; lia|auto]|auto].
  rewrite map_map.
  change (match tail_of (replace_all (u "loc1") (u "loct")) tail with [] => [] | c :: r => c :: replace_all (u "gen1") (u "gent") r end) with (tail_of (replace_all (u "gen1") (u "gent")) (tail_of (replace_all (u "loc1") (u "loct")) tail)).
  rewrite ra_join; [|reflexivity|apply pat_ok; vm_compute; reflexivity|auto| |].
  - rewrite map_map. f_equal; [f_equal; apply map_ext; intros; apply common_swap|]. destruct T as [->|(r & ->)]; reflexivity.
  - rewrite <- map_map. apply swap_short; [vm_compute; lia|]. apply swap_short; [vm_compute; lia|auto].
  - destruct T as [->|(r & ->)]; [left; auto|right; simpl; eauto].
Qed.
Lemma redundant_respelled : forall t, short (split_tag t) -> respelled t (replace_redundant t).
Proof.
  intros t S. pose proof (split_tag_reads t) as [(H & P)|(a & b & ga & gb & E & H & Pa & Pb & Eg)].
  - left. split; [auto|]. exists (split_tag t). split; [auto|]. destruct P as (N & J & _). rewrite <- J at 1. rewrite <- (app_nil_r (join _ _)) at 1.
    rewrite redundant_join by auto. apply app_nil_r.
  - right. exists a, b, ga, gb. split; [auto|]. split; [auto|]. split; [auto|]. split; [auto|].
    rewrite Eg in S. assert (short ga) by (intros g Hg; apply S, in_app_iff; auto). assert (short gb) by (intros g Hg; apply S, in_app_iff; auto).
    destruct Pa as (Na & Ja & _), Pb as (Nb & Jb & _). rewrite E. rewrite <- Ja at 1. rewrite redundant_join; [|auto|auto|right; exists b; reflexivity].
    f_equal. cbn [tail_of app]. change (u " " ++ ?x) with (chr " " :: x). cbn [tail_of]. f_equal.
    rewrite <- Jb at 1. rewrite <- (app_nil_r (join _ gb)) at 1. rewrite redundant_join by auto. apply app_nil_r.
Qed.

(** ** counters *)
Definition counter (l : list str) : list (str * nat) := fold_left (fun d t => incr str_eqb t d) l [].
Lemma counter_snoc : forall l t, counter (l ++ [t]) = incr str_eqb t (counter l).
Proof. intros. unfold counter. rewrite fold_left_app. reflexivity. Qed.
Lemma counter_get : forall l x, dget str_eqb x (counter l) = match count_occ grammeme_dec l x with 0 => None | S n => Some (S n) end.
Proof.
  induction l as [|t l IH] using rev_ind; intros x; [reflexivity|]. rewrite counter_snoc, count_occ_app. unfold incr. cbn [count_occ].
  destruct (grammeme_dec t x) as [->|N].
  - rewrite dget_dset_same by apply str_eqb_eq. rewrite IH. destruct (count_occ grammeme_dec l x) as [|n]; [reflexivity|]. rewrite Nat.add_1_r. reflexivity.
  - rewrite dget_dset_other; [|apply str_eqb_eq|auto]. rewrite IH, Nat.add_0_r. reflexivity.
Qed.
Lemma counter_NoDup : forall l, NoDup (map fst (counter l)).
Proof. induction l as [|t l IH] using rev_ind; [constructor|]. rewrite counter_snoc. apply dset_NoDup; auto. apply str_eqb_eq. Qed.
Lemma counter_In : forall l x n, In (x, n) (counter l) <-> In x l /\ n = count_occ grammeme_dec l x.
Proof.
  intros l x n. split.
  - intros I. assert (D : dget str_eqb x (counter l) = Some n) by (apply In_dget; auto using str_eqb_eq, counter_NoDup). rewrite counter_get in D.
    destruct (count_occ grammeme_dec l x) as [|m] eqn:C; [discriminate|]. injection D as <-. split; [|auto]. apply (count_occ_In grammeme_dec). lia.
  - intros [I ->]. apply (dget_In str_eqb str_eqb_eq). rewrite counter_get. apply (count_occ_In grammeme_dec) in I. destruct (count_occ grammeme_dec l x); [lia|auto].
Qed.
Lemma counter_keys : forall l x, In x (map fst (counter l)) <-> In x l.
Proof.
  intros l x. split.
  - intros I. apply in_map_iff in I as ((y & n) & <- & I). apply counter_In in I. tauto.
  - intros I. apply in_map_iff. exists (x, count_occ grammeme_dec l x). split; [auto|]. apply counter_In. auto.
Qed.
Lemma counter_order : forall l a x b y, map fst (counter l) = a ++ x :: b -> In y b -> seen_before x y l.
Proof.
  induction l as [|t l IH] using rev_ind; intros a x b y E I; [destruct a; discriminate|].
  assert (W : forall s, seen_before x y l -> seen_before x y (l ++ s)).
  { intros s (p & q & -> & N). exists p, (q ++ s). split; [rewrite <- app_assoc; auto|auto]. }
  rewrite counter_snoc in E. unfold incr in E. rewrite dset_keys in E by apply str_eqb_eq. destruct (din str_eqb t (counter l)) eqn:D; [apply W; eapply IH; eauto|].
  assert (Nt : ~ In t l). { intros X. apply counter_keys in X. apply (din_In str_eqb str_eqb_eq) in X. congruence. }
  destruct (exists_last (l := x :: b) ltac:(discriminate)) as (b' & z & Eb). rewrite Eb, app_assoc in E. apply app_inj_tail in E as [E <-].
  destruct b' as [|x' b']; [injection Eb as _ ->; destruct I|]. injection Eb as <- ->. apply in_app_iff in I as [I|[<-|[]]]; [apply W; eapply IH; eauto|].
  assert (Ix : In x l) by (apply counter_keys; rewrite E; apply in_app_iff; right; left; auto).
  apply in_split in Ix as (p & q & ->). exists p, (q ++ [t]). split; [rewrite <- app_assoc; auto|]. intros X. apply Nt, in_app_iff. auto.
Qed.
(** seen_before lifts from the spellings of one meaning to all tags *)
Lemma seen_before_filter : forall (p : str -> bool) l x y, p y = true -> seen_before x y (filter p l) -> seen_before x y l.
Proof.
  intros p l x y Py (a & b & E & N). revert a E N. induction l as [|t l IH]; intros a E N; [destruct a; discriminate|]. cbn [filter] in E. destruct (p t) eqn:Pt.
  - destruct a as [|t' a]; injection E as -> E; [exists [], l; split; auto; intros []|]. destruct (IH a E) as (a' & b' & -> & N'); [intros X; apply N; right; auto|].
    exists (t' :: a'), b'. split; [auto|]. intros [->|X]; [apply N; left; auto|auto].
  - destruct (IH a E N) as (a' & b' & -> & N'). exists (t :: a'), b'. split; [auto|]. intros [->|X]; [congruence|auto].
Qed.
Lemma count_filter : forall (p : str -> bool) l x, p x = true -> count_occ grammeme_dec (filter p l) x = count_occ grammeme_dec l x.
Proof.
  intros p l x P. induction l as [|t l IH]; auto. cbn [filter]. destruct (p t) eqn:E; cbn [count_occ]; destruct (grammeme_dec t x) as [->|N]; auto. congruence.
Qed.

(** ** the table of spellings *)
Definition group (g : sset) (tags : list str) : list str := filter (fun x => seq_set g (tag2grammemes x)) tags.
Definition spell (tags : list str) : spellings := fold_left add_spelling tags [].
Lemma dget_dset_seq : forall {V} k (v : V) d h, dget seq_set h (dset seq_set k v d) = if seq_set h k then Some v else dget seq_set h d.
Proof.
  intros V k v. induction d as [|[a b] d IH]; intros h; cbn [dset dget]; [destruct (seq_set h k); auto|].
  destruct (seq_set k a) eqn:E; cbn [dget].
  - destruct (seq_set h a) eqn:E2.
    + rewrite (seq_sym k a) in E. rewrite (seq_trans _ _ _ E2 E). auto.
    + destruct (seq_set h k) eqn:E3; auto. rewrite (seq_trans _ _ _ E3 E) in E2. discriminate E2.
  - destruct (seq_set h a) eqn:E2; [|apply IH]. destruct (seq_set h k) eqn:E3; auto. rewrite (seq_sym h k) in E3. rewrite (seq_trans _ _ _ E3 E2) in E. discriminate E.
Qed.
Lemma spell_get : forall tags g, dget seq_set g (spell tags) = match group g tags with [] => None | l => Some (counter l) end.
Proof.
  induction tags as [|t tags IH] using rev_ind; intros g; [reflexivity|]. unfold spell. rewrite fold_left_app. cbn [fold_left]. fold (spell tags).
  unfold add_spelling. rewrite dget_dset_seq. unfold group in *. rewrite filter_app. cbn [filter]. destruct (seq_set g (tag2grammemes t)) eqn:E.
  - assert (F : filter (fun x => seq_set (tag2grammemes t) (tag2grammemes x)) tags = filter (fun x => seq_set g (tag2grammemes x)) tags) by (apply filter_ext; intro; symmetry; apply seq_cong; auto).
    rewrite IH, F. destruct (filter (fun x => seq_set g (tag2grammemes x)) tags) as [|y l]; [reflexivity|].
    change ((y :: l) ++ [t]) with (y :: (l ++ [t])). cbv iota. change (y :: l ++ [t]) with ((y :: l) ++ [t]). rewrite counter_snoc. reflexivity.
  - rewrite app_nil_r. apply IH.
Qed.
Lemma dset_seq_keys : forall {V} k (v : V) d, ForallOrdPairs (fun a b => seq_set a b = false) (map fst d) -> ForallOrdPairs (fun a b => seq_set a b = false) (map fst (dset seq_set k v d)).
Proof.
  intros V k v. induction d as [|[a b] d IH]; intros F; cbn [dset map fst]; [repeat constructor|]. inversion F; subst. destruct (seq_set k a) eqn:E; cbn [map fst]; [exact F|].
  constructor; [|apply IH; auto]. rewrite Forall_forall in *. intros x Hx. apply in_map_iff in Hx as ((x' & v') & <- & Hx). apply dset_gen in Hx as [Hx|[_ [->|Hx]]].
  - apply H1. apply in_map_iff. exists (x', v'). auto.
  - rewrite seq_sym. auto.
  - cbn [fst]. destruct (seq_set a x') eqn:E2; auto. rewrite (seq_sym a x') in E2. rewrite (seq_trans _ _ _ Hx E2) in E. discriminate E.
Qed.
Lemma spell_keys : forall tags, ForallOrdPairs (fun a b => seq_set a b = false) (map fst (spell tags)).
Proof.
  induction tags as [|t tags IH] using rev_ind; [constructor|]. unfold spell. rewrite fold_left_app. cbn [fold_left]. fold (spell tags). apply dset_seq_keys. auto.
Qed.

(** ** the replacements *)
Lemma fold_set_other : forall (top t : str) (l : list (str * nat)) reps, ~ In t (map fst l) -> sget t (fold_left (fun r tc => sset_ (fst tc) top r) l reps) = sget t reps.
Proof.
  intros top t. induction l as [|[a n] l IH]; intros reps N; cbn [fold_left fst]; auto. rewrite IH; [|intros X; apply N; right; auto].
  apply sget_set_other. intros ->. apply N. left; auto.
Qed.
Lemma fold_set_in : forall (top t : str) (l : list (str * nat)) reps, In t (map fst l) -> sget t (fold_left (fun r tc => sset_ (fst tc) top r) l reps) = Some top.
Proof.
  intros top t. induction l as [|[a n] l IH]; intros reps I; cbn [fold_left fst]; [destruct I|].
  destruct (in_dec grammeme_dec t (map fst l)) as [J|J]; [apply IH; auto|]. rewrite fold_set_other by auto. destruct I as [<-|I]; [|contradiction]. apply sget_set_same.
Qed.
Lemma dup_other : forall skip reps g cur t, ~ In t (map fst cur) -> sget t (dup_step skip reps (g, cur)) = sget t reps.
Proof.
  intros skip reps g cur t N. unfold dup_step. cbn [snd]. destruct (is_ambiguous (map fst cur) skip); auto.
  destruct (sort_desc (fun a b : str * nat => snd b <=? snd a) cur) as [|[top tn] rest] eqn:E; auto. apply fold_set_other.
  intros I. apply N. apply in_map_iff in I as ((x & n) & <- & I). apply in_map_iff. exists (x, n). split; [auto|]. apply (sort_desc_In (fun a b : str * nat => snd b <=? snd a)). rewrite E. right; auto.
Qed.
Lemma dup_fold : forall skip t sp reps, ForallOrdPairs (fun a b => seq_set a b = false) (map fst sp) -> (forall g cur, In (g, cur) sp -> forall x, In x (map fst cur) -> seq_set (tag2grammemes x) g = true) ->
  sget t (fold_left (dup_step skip) sp reps) =
  match dget seq_set (tag2grammemes t) sp with
  | None => sget t reps
  | Some cur => sget t (if is_ambiguous (map fst cur) skip then match sort_desc (fun a b : str * nat => snd b <=? snd a) cur with [] => [] | top :: rest => fold_left (fun r tc => sset_ (fst tc) (fst top) r) rest [] end else [])
  end \/ sget t reps <> None.
Proof.
  intros skip t. induction sp as [|[g cur] sp IH]; intros reps F K; cbn [fold_left dget]; [left; auto|]. destruct (sget t reps) as [x|] eqn:R; [right; discriminate|]. left.
  cbn [map fst] in F. inversion F; subst. destruct (seq_set (tag2grammemes t) g) eqn:E.
  - assert (Z : sget t (fold_left (dup_step skip) sp (dup_step skip reps (g, cur))) = sget t (dup_step skip reps (g, cur))).
    { generalize (dup_step skip reps (g, cur)). clear IH R.
      assert (K2 : forall g' c', In (g', c') sp -> ~ In t (map fst c')).
      { intros g' c' I J. apply (K g' c' (or_intror I)) in J. rewrite Forall_forall in H1. specialize (H1 g' (in_map fst _ _ I)). rewrite (seq_sym (tag2grammemes t) g) in E. rewrite (seq_trans _ _ _ E J) in H1. discriminate H1. }
      clear - K2. induction sp as [|[g' c'] sp IH]; intros l; cbn [fold_left]; auto. rewrite IH; [|intros; eapply K2; right; eauto]. apply dup_other. eapply K2. left; auto. }
    rewrite Z. unfold dup_step. cbn [snd]. destruct (is_ambiguous (map fst cur) skip); [|rewrite R; reflexivity].
    destruct (sort_desc (fun a b : str * nat => snd b <=? snd a) cur) as [|[top tn] rest]; [rewrite R; reflexivity|]. cbn [fst].
    destruct (in_dec grammeme_dec t (map fst rest)) as [J|J]; [rewrite !fold_set_in by auto; auto|rewrite !fold_set_other by auto; rewrite R; reflexivity].
  - assert (N : ~ In t (map fst cur)). { intros I. apply (K g cur (or_introl eq_refl)) in I. congruence. }
    destruct (IH (dup_step skip reps (g, cur)) H2) as [X|X]; [intros; eapply K; [right; eauto|auto]| |].
    + rewrite X, dup_other, R by auto. reflexivity.
    + rewrite dup_other in X by auto. congruence.
Qed.
Lemma spell_classes : forall tags g cur, In (g, cur) (spell tags) -> forall x, In x (map fst cur) -> seq_set (tag2grammemes x) g = true.
Proof.
  intros tags g cur I x J. apply in_map_iff in J as ((y & n) & <- & J). cbn [fst]. apply same_set_eqb.
  assert (O : sp_ok tags (spell tags)).
  { unfold spell. assert (X : forall l sp, (forall t, In t l -> In t tags) -> sp_ok tags sp -> sp_ok tags (fold_left add_spelling l sp)).
    { induction l as [|t l IH]; intros sp H O; simpl; auto. apply IH; [intros; apply H; right; auto|]. apply add_spelling_ok; auto. apply H. left; auto. }
    apply X; auto. intros ? ? ? ? []. }
  destruct (O _ _ _ _ I J). auto.
Qed.

(** ** ambiguity *)
Lemma space_pos_spec : forall x y, space_pos x = space_pos y <-> same_space x y.
Proof.
  assert (S : forall x n, space_pos x = Some n <-> first_space x n).
  { intros x. unfold space_pos, first_space. induction x as [|c x IH]; intros n.
    - simpl. split; [discriminate|]. intros (a & b & E & _). destruct a; discriminate.
    - cbn [find_sub]. change (u " ") with [chr " "] in *. assert (PB : prefixb [chr " "] (c :: x) = N.eqb (chr " ") c) by (cbn [prefixb]; apply andb_true_r). rewrite PB. destruct (N.eqb (chr " ") c) eqn:E.
      + apply N.eqb_eq in E. subst c. split.
        * intros H. injection H as <-. exists [], x. repeat split; auto.
        * intros (a & b & E & L & N). destruct a as [|c a]; [subst n; auto|]. injection E as <- _. exfalso. apply N. left; auto.
      + destruct (find_sub [chr " "] x) as [m|] eqn:F.
        * split.
          -- intros H. injection H as <-. destruct (proj1 (IH m) eq_refl) as (a & b & -> & L & N). exists (c :: a), b. split; [auto|]. split; [simpl; lia|].
             intros [X|X]; [subst c; rewrite N.eqb_refl in E; discriminate|auto].
          -- intros (a & b & E2 & L & N). destruct a as [|c' a]; injection E2 as Ec E2; [exfalso; rewrite Ec in E; rewrite N.eqb_refl in E; discriminate|subst c']. subst n. simpl.
             assert (Some m = Some (length a)) as X; [|injection X as ->; auto]. apply IH. exists a, b. split; [auto|]. split; [auto|]. intros X; apply N; right; auto.
        * split; [discriminate|]. intros (a & b & E2 & L & N). destruct a as [|c' a]; injection E2 as Ec E2; [exfalso; rewrite Ec in E; rewrite N.eqb_refl in E; discriminate|subst c'].
          exfalso. assert (None = Some (length a)) as X; [|discriminate X]. apply IH. exists a, b. split; [auto|]. split; [auto|]. intros X; apply N; right; auto. }
  intros x y. unfold same_space. split.
  - intros E n. rewrite <- !S, E. tauto.
  - intros H. destruct (space_pos x) as [n|] eqn:Ex.
    + symmetry. apply S, H, S. auto.
    + destruct (space_pos y) as [m|] eqn:Ey; auto. apply S, H, S in Ey. congruence.
Qed.
Lemma onodup_length : forall l, length (onodup l) <= length l /\ (length (onodup l) = length l <-> NoDup l).
Proof.
  induction l as [|x l [IH1 IH2]]; [simpl; split; [auto|split; [constructor|auto]]|]. cbn [onodup].
  assert (EX : existsb (opt_eqb Nat.eqb x) l = true <-> In x l).
  { rewrite existsb_exists. split.
    - intros (y & I & E). destruct x as [a|], y as [b|]; simpl in E; try discriminate; auto. apply Nat.eqb_eq in E. subst; auto.
    - intros I. exists x. split; [auto|]. destruct x; simpl; auto. apply Nat.eqb_refl. }
  destruct (existsb (opt_eqb Nat.eqb x) l) eqn:E; cbn [length].
  - split; [lia|]. split; [lia|]. intros H. inversion H; subst. exfalso. apply H2, EX. auto.
  - split; [lia|]. split.
    + intros H. constructor; [intros I; apply EX in I; congruence|apply IH2; lia].
    + intros H. inversion H; subst. f_equal. apply IH2. auto.
Qed.
Lemma not_NoDup_map : forall {A B} (f : A -> B) (dec : forall a b : B, {a = b} + {a <> b}) l, NoDup l -> ~ NoDup (map f l) <-> exists x y, x <> y /\ In x l /\ In y l /\ f x = f y.
Proof.
  intros A B f dec l N. split.
  - induction l as [|a l IH]; intros H; [exfalso; apply H; constructor|]. inversion N; subst. destruct (in_dec dec (f a) (map f l)) as [I|I].
    + apply in_map_iff in I as (b & E & I). exists a, b. split; [intros ->; contradiction|]. split; [left; auto|]. split; [right; auto|auto].
    + destruct IH as (x & y & D & I1 & I2 & E); auto; [intros X; apply H; constructor; auto|]. exists x, y. split; [auto|]. split; [right; auto|]. split; [right; auto|auto].
  - intros (x & y & D & I1 & I2 & E) H. apply D. clear D N. induction l as [|a l IH]; [destruct I1|]. inversion H; subst.
    destruct I1 as [->|I1], I2 as [->|I2]; auto; exfalso; apply H2; [rewrite E|rewrite <- E]; apply in_map; auto.
Qed.
Lemma onat_dec : forall a b : option nat, {a = b} + {a <> b}. Proof. decide equality. apply Nat.eq_dec. Qed.
Lemma ambiguous_iff : forall l skip, NoDup l -> is_ambiguous l skip = true <-> exists x y, x <> y /\ In x l /\ In y l /\ (skip = true -> same_space x y).
Proof.
  intros l skip N. unfold is_ambiguous. destruct (length l <? 2) eqn:L.
  - apply Nat.ltb_lt in L. split; [discriminate|]. intros (x & y & D & I & J & _). destruct l as [|a [|b l]]; [destruct I| |simpl in L; lia].
    destruct I as [->|[]], J as [->|[]]. congruence.
  - apply Nat.ltb_ge in L. destruct skip.
    + pose proof (onodup_length (map space_pos l)) as [O1 O2]. cbv zeta. destruct (length (map space_pos l) =? length (onodup (map space_pos l))) eqn:E.
      * apply Nat.eqb_eq in E. symmetry in E. apply O2 in E. split; [discriminate|]. intros (x & y & D & I & J & S). exfalso.
        apply (proj2 (not_NoDup_map space_pos onat_dec l N)); [|exact E]. exists x, y. split; [auto|]. split; [auto|]. split; [auto|]. apply space_pos_spec. auto.
      * apply Nat.eqb_neq in E. split; [|auto]. intros _.
        destruct (proj1 (not_NoDup_map space_pos onat_dec l N)) as (x & y & D & I & J & S); [intros X; apply E; symmetry; apply O2; auto|].
        exists x, y. split; [auto|]. split; [auto|]. split; [auto|]. intros _. apply space_pos_spec. auto.
    + split; [|auto]. intros _. destruct l as [|a [|b l]]; [simpl in L; lia|simpl in L; lia|]. exists a, b. inversion N; subst. split; [intros ->; apply H1; left; auto|]. split; [left; auto|]. split; [right; left; auto|]. discriminate.
Qed.

(** ** the head of the sorted counter *)
Definition cge (a b : str * nat) : bool := snd b <=? snd a.
Lemma sort_head : forall l top rest, NoDup (map fst l) -> sort_desc cge l = top :: rest -> In top l /\
  (forall x, In x l -> fst x <> fst top -> In x rest) /\ (forall x, In x rest -> fst x <> fst top) /\
  exists a b, l = a ++ top :: b /\ (forall x, In x a -> snd x < snd top) /\ (forall x, In x b -> snd x <= snd top).
Proof.
  intros l top rest ND E.
  assert (Tot : forall x y, cge x y = false -> cge y x = true) by (unfold cge; intros x y H; apply Nat.leb_gt in H; apply Nat.leb_le; lia).
  assert (Tr : forall x y z, cge x y = true -> cge y z = true -> cge x z = true) by (unfold cge; intros x y z H1 H2; apply Nat.leb_le in H1, H2; apply Nat.leb_le; lia).
  pose proof (sort_desc_sorted cge Tot Tr l) as S. rewrite E in S. inversion S; subst.
  pose proof (sort_desc_stable cge Tot Tr top l) as F. rewrite E in F. cbn [filter] in F.
  assert (K : same_key cge top top = true) by (unfold same_key, cge; rewrite Nat.leb_refl; auto). rewrite K in F.
  assert (P : Permutation l (top :: rest)) by (rewrite <- E; apply sort_desc_perm).
  assert (LE : forall x, In x l -> snd x <= snd top).
  { intros x I. apply (Permutation_in _ P) in I as [<-|I]; [auto|]. rewrite Forall_forall in H2. specialize (H2 _ I). apply Nat.leb_le in H2. auto. }
  split; [apply (Permutation_in _ (Permutation_sym P)); left; auto|]. split; [|split].
  - intros x I D. apply (Permutation_in _ P) in I as [<-|I]; [congruence|auto].
  - intros x I X. apply (Permutation_map fst) in P. apply (Permutation_NoDup P) in ND. cbn [map] in ND. inversion ND; subst. apply H3. rewrite <- X. apply in_map; auto.
  - symmetry in F. clear - F LE. induction l as [|x l IH]; [discriminate|]. cbn [filter] in F. destruct (same_key cge top x) eqn:Q.
    + injection F as -> _. exists [], l. split; [auto|]. split; [intros ? []|]. intros y I. apply LE. right; auto.
    + destruct (IH F) as (a & b & -> & A & B); [intros; apply LE; right; auto|]. exists (x :: a), b. split; [auto|]. split; [|auto].
      intros y [<-|I]; [|auto]. specialize (LE x (or_introl eq_refl)). unfold same_key, cge in Q. apply andb_false_iff in Q as [Q|Q]; apply Nat.leb_gt in Q; lia.
Qed.

(** ** meanings *)
Lemma same_meaning_sets : forall x t, short (split_tag x) -> short (split_tag t) -> same_meaning x t <-> seq_set (tag2grammemes t) (tag2grammemes x) = true.
Proof.
  intros x t Sx St. rewrite same_set_eqb, !redundant_split by auto. unfold same_meaning, same_set. split.
  - intros (ga & gb & Ra & Rb & H). apply reads_unique in Ra, Rb. subst. intros g. symmetry. apply H.
  - intros H. exists (split_tag x), (split_tag t). split; [apply split_tag_reads|]. split; [apply split_tag_reads|]. intros g. symmetry. apply H.
Qed.
Lemma redundant_sets : forall t, short (split_tag t) -> tag2grammemes (replace_redundant t) = tag2grammemes t.
Proof.
  intros t S. rewrite (redundant_split t S). assert (R0 : split_tag (replace_redundant t) = map common_case (split_tag t)) by (symmetry; apply reads_unique; apply redundant_reads; auto; apply split_tag_reads).
  rewrite redundant_split by (rewrite R0; apply common_short; auto). rewrite R0, map_map. apply map_ext. apply common_idem.
Qed.

Lemma ambiguous_clash : forall lx skip t, (forall x, In x (tags_of lx) -> short (split_tag x)) -> In t (tags_of lx) ->
  is_ambiguous (map fst (counter (group (tag2grammemes t) (tags_of lx)))) skip = true <-> clash lx skip t.
Proof.
  intros lx skip t SH It. set (tags := tags_of lx) in *. set (grp := group (tag2grammemes t) tags).
  assert (Gin : forall x, In x grp <-> In x tags /\ same_meaning x t).
  { intros x. unfold grp, group. rewrite filter_In. split; intros [A B]; (split; [auto|]); apply (same_meaning_sets x t (SH x A) (SH t It)); auto. }
  rewrite ambiguous_iff by apply counter_NoDup. unfold clash. fold tags. split; intros (x & y & D & H).
  - destruct H as (I & J & S). rewrite counter_keys, Gin in I, J. exists x, y. tauto.
  - destruct H as (I1 & J1 & I2 & J2 & S). exists x, y. rewrite !counter_keys, !Gin. tauto.
Qed.
Lemma simplify_spelling : forall lx skip, (forall t, In t (tags_of lx) -> short (split_tag t)) ->
  exists f, simplify_tags lx skip = with_tags f lx /\ spelled lx skip f.
Proof.
  intros lx skip SH. exists (simplify_tag (duplicate_replaces (get_tag_spellings lx) skip)). split; [reflexivity|].
  intros t It. assert (St := SH t It). set (r := replace_redundant t). exists r. split; [apply redundant_respelled; auto|].
  unfold simplify_tag. fold r. unfold duplicate_replaces, get_tag_spellings. change (itertags lx) with (tags_of lx). set (tags := tags_of lx) in *. fold (spell tags).
  destruct (dup_fold skip r (spell tags) [] (spell_keys tags) (spell_classes tags)) as [G|G]; [|exfalso; apply G; reflexivity]. rewrite spell_get in G. unfold r in G at 2. rewrite redundant_sets in G by auto. fold r in G.
  set (grp := group (tag2grammemes t) tags) in *.
  assert (Gin : forall x, In x grp <-> In x tags /\ same_meaning x t).
  { intros x. unfold grp, group. rewrite filter_In. split; intros [A B]; (split; [auto|]); apply (same_meaning_sets x t (SH x A) St); auto. }
  assert (Ne : grp <> []). { intros E. assert (X : In t grp) by (apply Gin; split; [auto|apply same_meaning_sets; auto; apply seq_refl]). rewrite E in X. destruct X. }
  assert (G' : sget r (fold_left (dup_step skip) (spell tags) []) = sget r (if is_ambiguous (map fst (counter grp)) skip then match sort_desc cge (counter grp) with [] => [] | top :: rest => fold_left (fun r tc => sset_ (fst tc) (fst top) r) rest [] end else [])).
  { destruct grp; [congruence|]. exact G. } clear G.
  assert (AM : is_ambiguous (map fst (counter grp)) skip = true <-> clash lx skip t) by (apply (ambiguous_clash lx skip t); auto).
  split.
  - intros Ir C. apply AM in C. rewrite C in G'. destruct (sort_desc cge (counter grp)) as [|top rest] eqn:ES.
    { exfalso. apply sort_desc_nil in ES. destruct grp as [|y l] eqn:Eg; [congruence|]. assert (X : In y (map fst (counter (y :: l)))) by (apply counter_keys; left; auto). rewrite ES in X. destruct X. }
    destruct (sort_head _ _ _ (counter_NoDup grp) ES) as (T1 & T2 & T3 & a & b & ET & TA & TB).
    assert (Rin : In r grp). { apply Gin. split; [auto|]. apply same_meaning_sets; auto. unfold r. rewrite redundant_sets by auto. apply seq_refl. }
    assert (EV : match sget r (fold_left (dup_step skip) (spell tags) []) with Some x => x | None => r end = fst top).
    { rewrite G'. destruct (grammeme_dec r (fst top)) as [E|NE].
      - rewrite fold_set_other; [exact E|]. intros I. apply in_map_iff in I as (z & Ez & I). apply (T3 _ I). congruence.
      - rewrite fold_set_in; [auto|]. apply in_map_iff. exists (r, count_occ grammeme_dec grp r). split; [auto|]. apply T2; [apply counter_In; auto|auto]. }
    rewrite EV. destruct top as [top tn]. cbn [fst snd] in *. apply counter_In in T1 as [T1 En]. destruct (proj1 (Gin _) T1) as [T1a T1b].
    assert (CU : forall y, In y grp -> count_occ grammeme_dec grp y = uses lx y). { intros y Iy. unfold uses. fold tags. apply count_filter. apply filter_In in Iy. tauto. }
    split; [auto|]. split; [auto|]. intros y Iy My Dy. assert (Gy : In y grp) by (apply Gin; auto). fold tags.
    assert (Cy : In (y, count_occ grammeme_dec grp y) (counter grp)) by (apply counter_In; auto). rewrite ET in Cy. rewrite CU in * by auto. apply in_app_iff in Cy as [Cy|[Cy|Cy]].
    + left. apply TA in Cy. cbn [snd] in Cy. rewrite En in Cy. exact Cy.
    + injection Cy as E _. congruence.
    + pose proof (TB _ Cy) as Le. cbn [snd] in Le. destruct (Nat.eq_dec (uses lx y) (uses lx top)) as [Eq|Nq]; [right; split; [auto|]|left; rewrite En in Le; lia].
      apply (seen_before_filter (fun x => seq_set (tag2grammemes t) (tag2grammemes x))); [apply filter_In in Gy; tauto|]. fold (group (tag2grammemes t) tags). fold grp.
      apply (counter_order grp (map fst a) top (map fst b) y); [rewrite ET, map_app; reflexivity|]. apply in_map_iff. exists (y, uses lx y). auto.
  - intros H. assert (X : sget r (fold_left (dup_step skip) (spell tags) []) = None); [|rewrite X; reflexivity].
    destruct H as [H|H].
    + destruct (sget r (fold_left (dup_step skip) (spell tags) [])) as [x|] eqn:G; auto. exfalso. apply (dget_In str_eqb str_eqb_eq) in G.
      assert (RO : reps_ok tags (duplicate_replaces (get_tag_spellings lx) skip)) by (apply dup_ok; [apply spellings_ok|intros ? ? []]).
      destruct (RO _ _ G) as (_ & I & _). contradiction.
    + rewrite G'. destruct (is_ambiguous (map fst (counter grp)) skip); [|reflexivity]. exfalso. apply H, AM. auto.
Qed.

(** ** consequences *)
Lemma respelled_plain : forall t r, plain_tag t -> respelled t r -> r = t.
Proof.
  assert (M : forall l, (forall g, In g l -> common_case g = g) -> map common_case l = l) by (induction l as [|g l IH]; intros H; cbn [map]; [auto|]; rewrite H, IH; [auto|intros; apply H; right; auto|left; auto]).
  intros t r P [(H & f & C & ->)|(a & b & f & s & -> & H & Cf & Cs & ->)].
  - assert (R : reads_as t f) by (left; auto). rewrite M by (intros g Ig; eapply P; eauto). destruct C as (_ & J & _). exact J.
  - assert (R : reads_as (a ++ u " " ++ b) (f ++ s)) by (right; exists a, b, f, s; auto). rewrite !M; [|intros g Ig; eapply P; eauto; apply in_app_iff; auto|intros g Ig; eapply P; eauto; apply in_app_iff; auto].
    destruct Cf as (_ & -> & _), Cs as (_ & -> & _). auto.
Qed.
Lemma meaning_sym : forall a b, same_meaning a b -> same_meaning b a.
Proof. intros a b (ga & gb & A & B & H). exists gb, ga. split; [auto|]. split; [auto|]. intros g. symmetry. apply H. Qed.
Lemma meaning_trans : forall a b c, same_meaning a b -> same_meaning b c -> same_meaning a c.
Proof. intros a b c (ga & gb & A & B & H) (gb' & gc & B' & C & H'). apply reads_unique in B, B'. subst. exists ga, gc. split; [auto|]. split; [auto|]. intros g. rewrite (H g). apply H'. Qed.
Lemma seen_before_asym : forall x y l, x <> y -> seen_before x y l -> seen_before y x l -> False.
Proof.
  intros x y l D (a & b & E & N) (a' & b' & E' & N'). rewrite E in E'. clear E. revert a' E' N'. induction a as [|c a IH]; intros a' E' N'.
  - destruct a' as [|c' a']; cbn [app] in E'; injection E' as E1 E2; [congruence|]. apply N'. left; auto.
  - destruct a' as [|c' a']; cbn [app] in E'; injection E' as E1 E2; [apply N; left; auto|]. apply (IH (fun h => N (or_intror h)) a' E2). intros h. apply N'. right; auto.
Qed.
Lemma preferred_unique : forall lx t t' p q, same_meaning t t' -> preferred lx t p -> preferred lx t' q -> p = q.
Proof.
  intros lx t t' p q M (P1 & P2 & P3) (Q1 & Q2 & Q3). destruct (grammeme_dec p q) as [E|D]; auto. exfalso.
  assert (P2' : same_meaning p t') by (eapply meaning_trans; eauto). assert (Q2' : same_meaning q t) by (eapply meaning_trans; [exact Q2|apply meaning_sym; auto]).
  destruct (P3 q Q1 Q2' (not_eq_sym D)) as [A|[A A2]], (Q3 p P1 P2' D) as [B|[B B2]]; try lia. eapply seen_before_asym; eauto.
Qed.
Lemma clash_meaning : forall lx skip t t', same_meaning t t' -> clash lx skip t -> clash lx skip t'.
Proof. intros lx skip t t' M (x & y & D & I & J & A & B & S). exists x, y. repeat (split; [solve [auto|eapply meaning_trans; eauto]|]). auto. Qed.
Lemma simplify_unified : forall lx skip, (forall t, In t (tags_of lx) -> short (split_tag t) /\ plain_tag t) ->
  exists f, simplify_tags lx skip = with_tags f lx /\ forall t, In t (tags_of lx) ->
    (~ clash lx skip t -> f t = t) /\ (clash lx skip t -> forall t', In t' (tags_of lx) -> (f t' = f t <-> same_meaning t t')).
Proof.
  intros lx skip H. destruct (simplify_spelling lx skip) as (f & E & S); [intros t I; apply H; auto|]. exists f. split; [auto|].
  assert (C0 : forall t, In t (tags_of lx) -> (~ clash lx skip t -> f t = t) /\ (clash lx skip t -> preferred lx t (f t))).
  { intros t I. destruct (S t I) as (r & R & A & B). apply respelled_plain in R; [|apply H; auto]. subst r. split; auto. }
  intros t I. split; [apply C0; auto|]. intros C t' I'. split.
  - intros Ef. pose proof (proj2 (C0 t I) C) as (P1 & P2 & _). destruct (S t' I') as (r & R & A & B). apply respelled_plain in R; [|apply H; auto]. subst r.
    assert (DEC : clash lx skip t' \/ ~ clash lx skip t').
    { rewrite <- (ambiguous_clash lx skip t' (fun x h => proj1 (H x h)) I'). destruct (is_ambiguous _ _); [left; auto|right; discriminate]. }
    destruct DEC as [C'|C'].
    + destruct (A I' C') as (Q1 & Q2 & _). rewrite Ef in Q2. eapply meaning_trans; [apply meaning_sym; exact P2|exact Q2].
    + rewrite (B (or_intror C')) in Ef. rewrite <- Ef in P2. apply meaning_sym. exact P2.
  - intros M. symmetry. eapply preferred_unique; [exact M|apply C0; auto|apply C0; auto]. eapply clash_meaning; eauto.
Qed.

(** ** doing it twice *)
Lemma tags_with : forall f lx, tags_of (with_tags f lx) = map f (tags_of lx).
Proof.
  intros f lx. unfold tags_of, with_tags. induction lx as [|l lx IH]; cbn [map flat_map]; [reflexivity|]. rewrite map_app, <- IH. f_equal.
  cbn [snd]. rewrite !map_map. reflexivity.
Qed.
Lemma with_tags_id : forall f lx, (forall t, In t (tags_of lx) -> f t = t) -> with_tags f lx = lx.
Proof.
  intros f lx H. unfold with_tags. induction lx as [|l lx IH]; cbn [map]; [reflexivity|]. rewrite IH by (intros t I; apply H; cbn; apply in_app_iff; auto). f_equal.
  destruct l as [i fs]. cbn [fst snd]. f_equal. assert (G : forall t, In t (map snd fs) -> f t = t) by (intros t I; apply H; cbn; apply in_app_iff; auto). clear H IH.
  induction fs as [|[w t] fs IH]; cbn [map fst snd] in *; [reflexivity|]. rewrite IH by (intros; apply G; right; auto). rewrite (G t) by (left; auto). reflexivity.
Qed.
Lemma simplify_twice : forall lx skip, (forall t, In t (tags_of lx) -> short (split_tag t) /\ plain_tag t) ->
  simplify_tags (simplify_tags lx skip) skip = simplify_tags lx skip.
Proof.
  intros lx skip H. destruct (simplify_spelling lx skip) as (f & E & S); [intros t I; apply H; auto|].
  assert (DEC : forall t, In t (tags_of lx) -> clash lx skip t \/ ~ clash lx skip t).
  { intros t I. rewrite <- (ambiguous_clash lx skip t (fun x h => proj1 (H x h)) I). destruct (is_ambiguous _ _); [left; auto|right; discriminate]. }
  assert (C0 : forall t, In t (tags_of lx) -> (~ clash lx skip t -> f t = t) /\ (clash lx skip t -> preferred lx t (f t))).
  { intros t I. destruct (S t I) as (r & R & A & B). apply respelled_plain in R; [|apply H; auto]. subst r. split; auto. }
  assert (ME : forall t, In t (tags_of lx) -> In (f t) (tags_of lx) /\ same_meaning (f t) t).
  { intros t I. destruct (DEC t I) as [C|C]; [destruct (proj2 (C0 t I) C) as (A & B & _); auto|]. rewrite (proj1 (C0 t I) C). split; [auto|].
    exists (split_tag t), (split_tag t). split; [apply split_tag_reads|]. split; [apply split_tag_reads|]. intros g. tauto. }
  rewrite E. assert (TW : forall x, In x (tags_of (with_tags f lx)) -> exists t, In t (tags_of lx) /\ x = f t).
  { intros x I. rewrite tags_with in I. apply in_map_iff in I as (t & <- & I). eauto. }
  assert (H' : forall x, In x (tags_of (with_tags f lx)) -> short (split_tag x) /\ plain_tag x) by (intros x I; apply TW in I as (t & I & ->); apply H, ME, I).
  destruct (simplify_spelling (with_tags f lx) skip) as (f' & E' & S'); [intros t I; apply H'; auto|]. rewrite E'. apply with_tags_id.
  intros x I. destruct (S' x I) as (r & R & _ & B). apply respelled_plain in R; [|apply H'; auto]. subst r. apply B. right.
  intros (x1 & x2 & D & I1 & I2 & M1 & M2 & SS). apply TW in I1 as (t1 & I1 & ->), I2 as (t2 & I2 & ->).
  assert (M : same_meaning t1 t2).
  { eapply meaning_trans; [apply meaning_sym, (proj2 (ME t1 I1))|]. eapply meaning_trans; [exact M1|]. eapply meaning_trans; [apply meaning_sym, M2|]. apply ME. auto. }
  destruct (DEC t1 I1) as [C|C].
  - apply D. eapply preferred_unique; [exact M| |]; apply C0; auto. eapply clash_meaning; eauto.
  - assert (C2 : ~ clash lx skip t2) by (intros C2; apply C; eapply clash_meaning; [apply meaning_sym; exact M|exact C2]).
    rewrite (proj1 (C0 t1 I1) C) in D, SS, M1. rewrite (proj1 (C0 t2 I2) C2) in D, SS, M2. apply C. exists t1, t2.
    split; [auto|]. split; [auto|]. split; [auto|]. split; [|split; [apply meaning_sym; auto|exact SS]].
    eapply meaning_trans; [exact M|apply meaning_sym; exact M].
Qed.
