(** * More on tags: texts, aliases, incompatibility (C21 C24 C25 C26) *)
From Coq Require Import String List NArith ZArith Bool Arith Lia Permutation.
From Verif Require Import Py Uni Tagset Dawg Utils Shapes Dict Units Analyzer Spec L_Base L_Run L_Tagset.
Import ListNotations.
Local Open Scope nat_scope.
Local Open Scope list_scope.

(** ** C21: reading a text *)
Lemma split_pieces : forall s, comma_pieces s (split_on (chr ",") s).
Proof.
  intro s. split; [apply split_on_nonempty|]. split.
  - change (u ",") with [chr ","]. apply join_split.
  - intros g H. apply (split_on_clean _ _ _ H).
Qed.
Lemma split_on_app_sep : forall c a b, split_on c (a ++ c :: b) = split_on c a ++ split_on c b.
Proof.
  intros c a b. induction a as [|x a IH]; simpl.
  - rewrite N.eqb_refl. auto.
  - destruct (x =? c)%N; [rewrite IH; auto|]. rewrite IH. pose proof (split_on_nonempty c a).
    destruct (split_on c a); [congruence|]. auto.
Qed.
Lemma replace_first_none : forall a b s, ~ In a s -> replace_first a b s = s.
Proof.
  induction s as [|x s IH]; intro H; auto. simpl. destruct (N.eqb_spec x a) as [->|]; [exfalso; apply H; left; auto|].
  rewrite IH; auto. intro; apply H; right; auto.
Qed.
Lemma replace_first_app : forall a b s t, ~ In a s -> replace_first a b (s ++ a :: t) = s ++ b :: t.
Proof.
  induction s as [|x s IH]; intros t H; simpl.
  - rewrite N.eqb_refl; auto.
  - destruct (N.eqb_spec x a) as [->|]; [exfalso; apply H; left; auto|]. rewrite IH; auto. intro; apply H; right; auto.
Qed.
Lemma first_split : forall (c : char) s, (~ In c s) \/ (exists a b, s = a ++ c :: b /\ ~ In c a).
Proof.
  induction s as [|x s IH]; [left; auto|]. destruct (N.eq_dec x c) as [->|N].
  - right. exists [], s. auto.
  - destruct IH as [H|(a & b & -> & H)].
    + left. intros [E|E]; auto.
    + right. exists (x :: a), b. split; auto. intros [E|E]; auto.
Qed.
Lemma split_tag_reads : forall s, reads_as s (split_tag s).
Proof.
  intro s. unfold split_tag. destruct (first_split (chr " ") s) as [H|(a & b & -> & H)].
  - left. split; auto. rewrite replace_first_none by auto. apply split_pieces.
  - right. exists a, b, (split_on (chr ",") a), (split_on (chr ",") b). split; [reflexivity|]. split; auto.
    split; [apply split_pieces|]. split; [apply split_pieces|]. rewrite replace_first_app by auto. apply split_on_app_sep.
Qed.
Lemma pieces_unique : forall s l, comma_pieces s l -> l = split_on (chr ",") s.
Proof. intros s l (N & J & K). rewrite <- J. change (u ",") with [chr ","]. symmetry. apply split_join; auto. Qed.
Lemma reads_unique : forall s l, reads_as s l -> l = split_tag s.
Proof.
  intros s l [(H & P)|(a & b & ga & gb & -> & H & Pa & Pb & ->)]; unfold split_tag.
  - rewrite replace_first_none by auto. apply pieces_unique; auto.
  - change (u " " ++ b) with (chr " " :: b). rewrite replace_first_app by auto. rewrite split_on_app_sep.
    rewrite <- (pieces_unique _ _ Pa), <- (pieces_unique _ _ Pb). auto.
Qed.
Lemma mk_tag_spec : forall C s gs, reads_as s gs ->
  ((forall g, In g gs -> In g (tc_known C)) -> mk_tag C s = Ok (MkTag s gs)) /\
  (~ (forall g, In g gs -> In g (tc_known C)) -> tc_known C <> [] -> mk_tag C s = Err ValueError) /\
  (tc_known C = [] -> mk_tag C s = Err RuntimeError).
Proof.
  intros C s gs R. apply reads_unique in R. subst gs. split; [|split].
  - intro H. apply mk_tag_known; auto.
  - intros H N. unfold mk_tag, assert_known. destruct (ssub _ _) eqn:E; [destruct H; apply ssub_incl; auto|].
    unfold assert_initialized. destruct (tc_known C); [congruence|]. auto.
  - intros N. unfold mk_tag, assert_known, assert_initialized. rewrite N. unfold split_tag.
    pose proof (split_on_nonempty (chr ",") (replace_first (chr " ") (chr ",") s)). destruct (split_on _ _); [congruence|]. auto.
Qed.
Lemma unpickle_same : forall C C' s t, mk_tag C s = Ok t ->
  ((forall g, In g (tc_known C) -> In g (tc_known C')) -> unpickle_tag C' t = Ok t).
Proof.
  intros C C' s [ts tg] H K. apply mk_tag_ok in H as (E1 & E2 & H). simpl in *. subst. unfold unpickle_tag.
  apply mk_tag_known. auto.
Qed.

(** ** C24 *)
Lemma split_ws_aux_app : forall sp a cur s, (forall c, In c a -> sp c = false) -> split_ws_aux sp cur (a ++ s) = split_ws_aux sp (rev a ++ cur) s.
Proof.
  induction a as [|x a IH]; intros cur s H; auto. simpl. rewrite (H x) by (left; auto). rewrite IH by (intros; apply H; right; auto).
  rewrite <- app_assoc. auto.
Qed.
Lemma split_ws_join : forall sp c l, sp c = true -> (forall x, In x l -> x <> [] /\ forall d, In d x -> sp d = false) ->
  split_ws sp (join [c] l) = l.
Proof.
  intros sp c l Hc. induction l as [|x l IH]; intros H; auto. unfold split_ws in *.
  destruct (H x (or_introl eq_refl)) as [Nx Sx].
  assert (Rx : rev x <> []). { intro E. apply Nx. rewrite <- (rev_involutive x), E. auto. }
  destruct l as [|y l].
  - change (join [c] [x]) with x. rewrite <- (app_nil_r x) at 1. rewrite split_ws_aux_app by auto. rewrite app_nil_r. simpl.
    destruct (rev x) eqn:E; [congruence|]. rewrite <- E, rev_involutive. auto.
  - change (join [c] (x :: y :: l)) with (x ++ c :: join [c] (y :: l)). rewrite split_ws_aux_app by auto. rewrite app_nil_r.
    cbn [split_ws_aux]. rewrite Hc. destruct (rev x) eqn:E; [congruence|]. rewrite <- E, rev_involutive. f_equal.
    apply IH. intros; apply H; right; auto.
Qed.
Lemma join_In_char : forall c l d, In d (join [c] l) -> d = c \/ exists x, In x l /\ In d x.
Proof.
  induction l as [|x l IH]; intros d H; [destruct H|]. destruct l as [|y l].
  - right. exists x. split; [left|]; auto.
  - change (join [c] (x :: y :: l)) with (x ++ c :: join [c] (y :: l)) in H. apply in_app_iff in H as [H|[H|H]]; auto.
    + right. exists x. split; [left|]; auto.
    + destruct (IH d H) as [?|(z & Hz & Hd)]; auto. right. exists z. split; [right|]; auto.
Qed.
Lemma join_nonempty : forall c l, l <> [] -> (forall x, In x l -> x <> []) -> join [c] l <> [].
Proof.
  intros c [|x [|y l]] N H; [congruence| |]; simpl.
  - apply H; left; auto.
  - specialize (H x (or_introl eq_refl)). destruct x; [congruence|]. discriminate.
Qed.
Lemma translate_groups : forall U mapping f groups, u_space U (chr " ") = true -> u_space U (chr ",") = false ->
  (forall l, In l groups -> l <> [] /\ forall g, In g l -> plain U g /\ sget g mapping = Some (f g)) ->
  translate_tag U mapping (join (u " ") (map (join (u ",")) groups)) = join (u " ") (map (join (u ",")) (map (map f) groups)).
Proof.
  intros U mapping f groups Sp Sc H. unfold translate_tag. change (u " ") with [chr " "]. change (u ",") with [chr ","].
  rewrite split_ws_join; auto.
  - f_equal. rewrite !map_map. apply map_ext_in. intros l Hl. destruct (H l Hl) as [Nl Gl]. unfold translate_comma.
    change (u ",") with [chr ","]. rewrite split_join; auto.
    + f_equal. apply map_ext_in. intros g Hg. destruct (Gl g Hg) as [_ E]. rewrite E. auto.
    + intros g Hg Hc. destruct (Gl g Hg) as [[_ P] _]. destruct (P _ Hc). congruence.
  - intros x Hx. apply in_map_iff in Hx as (l & <- & Hl). destruct (H l Hl) as [Nl Gl]. split.
    + apply join_nonempty; auto. intros g Hg. apply (Gl g Hg).
    + intros d Hd. apply join_In_char in Hd as [->|(g & Hg & Hd)]; auto. apply (Gl g Hg); auto.
Qed.
Definition own_alias (U : uni) (C : tagclass) : Prop :=
  forall g, In g (tc_known C) -> plain U g /\
    exists a, sget g (tc_lat2cyr C) = Some a /\ sget a (tc_cyr2lat C) = Some g /\ plain U a.
Lemma round_trip : forall U C s, u_space U (chr " ") = true -> u_space U (chr ",") = false -> own_alias U C ->
  tag_text C s -> cyr2lat U C (lat2cyr U C s) = s.
Proof.
  intros U C s Sp Sc A (groups & -> & H). unfold cyr2lat, lat2cyr.
  set (f := fun g => match sget g (tc_lat2cyr C) with Some a => a | None => [] end).
  set (h := fun g => match sget g (tc_cyr2lat C) with Some a => a | None => [] end).
  rewrite (translate_groups U (tc_lat2cyr C) f) by (auto; intros l Hl; destruct (H l Hl) as [N K]; split; auto;
    intros g Hg; destruct (A g (K g Hg)) as (P & a & E & _); split; auto; unfold f; rewrite E; auto).
  rewrite (translate_groups U (tc_cyr2lat C) h); auto.
  - f_equal. f_equal. rewrite map_map. rewrite <- (map_id groups) at 2. apply map_ext_in. intros l Hl. rewrite map_map.
    rewrite <- (map_id l) at 2. apply map_ext_in. intros g Hg. destruct (H l Hl) as [_ K]. destruct (A g (K g Hg)) as (P & a & E & E2 & _).
    unfold h, f. rewrite E, E2. auto.
  - intros l Hl. apply in_map_iff in Hl as (l0 & <- & Hl). destruct (H l0 Hl) as [N K]. split.
    + destruct l0; [congruence|discriminate].
    + intros g Hg. apply in_map_iff in Hg as (g0 & <- & Hg). destruct (A g0 (K g0 Hg)) as (P & a & E & E2 & Pa).
      unfold h, f. rewrite E, E2. auto.
Qed.

(** the state of the two tables *)
Definition alias_inv (P : list (str * str)) (C : tagclass) : Prop :=
  (forall g, In g (tc_known C) -> exists a, sget g (tc_lat2cyr C) = Some a) /\
  (forall g a, sget g (tc_lat2cyr C) = Some a -> In (g, a) P /\ sget a (tc_cyr2lat C) = Some g).
Definition injective_pairs (P : list (str * str)) : Prop :=
  forall g g' a, In (g, a) P -> In (g', a) P -> g = g'.
Lemma add_known_alias : forall P C lat cyr ov, injective_pairs P -> In (lat, cyr) P -> alias_inv P C -> alias_inv P (add_known C lat cyr ov).
Proof.
  intros P C lat cyr ov I HP (A & B). unfold add_known. destruct (negb ov && smem lat (tc_known C)); [split; auto|].
  assert (L : forall g, exists a, (g = lat -> sget g (sset_ lat cyr (tc_lat2cyr C)) = Some a) /\
     (g <> lat -> sget g (sset_ lat cyr (tc_lat2cyr C)) = sget g (tc_lat2cyr C))).
  { intro g. exists cyr. split; [intros ->; apply sget_set_same|intro; apply sget_set_other; auto]. }
  split; cbn [tc_known tc_lat2cyr tc_cyr2lat].
  - intros g Hg. destruct (str_eq_dec g lat) as [->|N]; [exists cyr; apply sget_set_same|]. rewrite sget_set_other by auto. apply A.
    destruct (smem lat (tc_known C)); auto. apply in_app_iff in Hg as [?|[?|[]]]; auto. congruence.
  - intros g a H. destruct (str_eq_dec g lat) as [->|N].
    + rewrite sget_set_same in H. inversion H; subst. split; auto. apply sget_set_same.
    + rewrite sget_set_other in H by auto. destruct (B g a H) as [Pg E]. split; auto.
      destruct (str_eq_dec a cyr) as [->|Na]; [exfalso; apply N; eapply I; eauto|]. rewrite sget_set_other; auto.
Qed.
Lemma add_rows_alias : forall P rows C, injective_pairs P -> incl (map (fun r => (g_name r, g_alias r)) rows) P ->
  alias_inv P C -> alias_inv P (fold_left add_row rows C).
Proof.
  intros P rows. induction rows as [|r rows IH]; intros C I H A; auto. simpl. apply IH; auto.
  - intros x Hx. apply H. right; auto.
  - apply add_known_alias; auto. apply H. left; auto.
Qed.
Lemma set_rows_tables : forall rows extra l C,
  tc_lat2cyr (fold_left (set_row rows extra) l C) = tc_lat2cyr C /\ tc_cyr2lat (fold_left (set_row rows extra) l C) = tc_cyr2lat C.
Proof. induction l as [|[i r] l IH]; intros C; [auto|]. cbn [fold_left]. destruct (IH (set_row rows extra C (i, r))) as [E1 E2]. rewrite E1, E2. auto. Qed.
Lemma init_alias : forall P rows C, injective_pairs P -> incl (map (fun r => (g_name r, g_alias r)) rows) P ->
  alias_inv P (init_grammemes C rows).
Proof.
  intros P rows C I H. unfold init_grammemes.
  set (C1 := fold_left add_row rows (reset_known C)).
  assert (A : alias_inv P C1).
  { apply add_rows_alias; auto. split; simpl; [tauto|]. discriminate. }
  destruct A as [A B]. unfold alias_inv. destruct (set_rows_tables rows (expand_extra rows (tc_extra C1)) (enum rows)
   {| tc_known := tc_known C1; tc_lat2cyr := tc_lat2cyr C1; tc_cyr2lat := tc_cyr2lat C1;
      tc_extra := expand_extra rows (tc_extra C1); tc_incompat := tc_incompat C1; tc_indices := tc_indices C1 |}) as [E1 E2].
  rewrite E1, E2, set_rows_known. cbn [tc_known tc_lat2cyr tc_cyr2lat]. auto.
Qed.
(** what binding a unit does to the tag class: a sequence of additions *)
Fixpoint adds (C : tagclass) (l : list (str * str * bool)) : tagclass :=
  match l with [] => C | (a, b, o) :: r => adds (add_known C a b o) r end.
Lemma bind_unit_adds : forall C c C' b, bind_unit C c = Ok (C', b) ->
  exists l, map fst l = unit_aliases c /\ C' = adds C l.
Proof.
  intros C c C' b H.
  assert (S : forall lat cyr, (let* r := init_single C lat cyr in Ok (fst r, {| b_cfg := c; b_tags := [snd r]; b_masc := []; b_femn := [] |})) = Ok (C', b) ->
     exists ov, C' = add_known C (u lat) (u cyr) ov).
  { intros lat cyr E. apply bind_ok in E as ([C1 x] & E & E2). apply Ok_inj in E2. inversion E2; subst. unfold init_single in E.
    apply bind_ok in E as (? & _ & E). apply Ok_inj in E. inversion E; subst. cbn [fst]. eexists. reflexivity. }
  destruct c as [|first letters pat sc| | | | | | | | | | |]; cbn [bind_unit] in H;
    try (apply Ok_inj in H; inversion H; subst; exists []; split; reflexivity);
    try (destruct (S _ _ H) as (ov & ->); eexists [(_, _, ov)]; split; reflexivity).
  - apply bind_ok in H as (tags & _ & H). destruct first.
    + apply bind_ok in H as (? & _ & H). apply bind_ok in H as (? & _ & H). apply bind_ok in H as (? & _ & H).
      apply Ok_inj in H. inversion H; subst. exists [(u "Init", u "иниц", false); (u "Name", u "имя", false)]. split; reflexivity.
    + apply Ok_inj in H. inversion H; subst. exists [(u "Init", u "иниц", false); (u "Patr", u "отч", false)]. split; reflexivity.
  - apply bind_ok in H as (? & _ & H). apply bind_ok in H as (? & _ & H).
    apply Ok_inj in H. inversion H; subst. exists [(u "NUMB", u "ЧИСЛО", true); (u "intg", u "цел", true); (u "real", u "вещ", true)]. split; reflexivity.
  - apply bind_ok in H as (t & _ & H). apply Ok_inj in H. inversion H; subst. exists []; split; reflexivity.
Qed.
Lemma bind_all_adds : forall l C C' us, bind_all C l = Ok (C', us) ->
  exists a, map fst a = flat_map (fun cb => unit_aliases (fst cb)) l /\ C' = adds C a.
Proof.
  induction l as [|[c b] l IH]; intros C C' us H; simpl in H.
  - inversion H; subst. exists []; auto.
  - apply bind_ok in H as ([C1 x] & E1 & H). apply bind_ok in H as ([C2 y] & E2 & H). apply Ok_inj in H. inversion H; subst.
    cbn [fst] in *. destruct (bind_unit_adds _ _ _ _ E1) as (a1 & M1 & ->). destruct (IH _ _ _ E2) as (a2 & M2 & ->).
    exists (a1 ++ a2). split; [rewrite map_app, M1, M2; auto|]. clear. revert C. induction a1 as [|[[? ?] ?] a1 IH]; intros C; simpl; auto.
Qed.
Lemma construct_adds : forall U ext C rows gt mk prob subst items C' M,
  construct U ext C rows gt mk prob subst items = Ok (C', M) ->
  m_tc M = C' /\ exists a, map fst a = flat_map unit_aliases (items_units items) /\ C' = adds (init_grammemes C rows) a.
Proof.
  intros U ext C rows gt mk prob subst items C' M H. unfold construct in H.
  apply bind_ok in H as (gs & _ & H). apply bind_ok in H as ([C1 us] & E & H). apply Ok_inj in H. inversion H; subst. cbn [fst m_tc].
  split; auto. unfold init_units in E. apply bind_ok in E as (fl & Ef & E). destruct (bind_all_adds _ _ _ _ E) as (a & Ma & Ea).
  exists a. split; auto. rewrite Ma. pose proof (flatten_units _ _ Ef) as F. unfold items_units. change (fun it => match it with One c => [c] | Group l => l end) with item_units. rewrite <- F.
  clear. induction (concat fl) as [|[c b] l IH]; simpl; auto. rewrite IH. auto.
Qed.
Lemma adds_alias : forall P l C, injective_pairs P -> incl (map fst l) P -> alias_inv P C -> alias_inv P (adds C l).
Proof.
  induction l as [|[[a b] o] l IH]; intros C I H A; auto. simpl. apply IH; auto.
  - intros x Hx. apply H. right; auto.
  - apply add_known_alias; auto. apply H. left; auto.
Qed.
Lemma construct_round_trip : forall U ext C rows gt mk prob subst items C' M s,
  construct U ext C rows gt mk prob subst items = Ok (C', M) ->
  u_space U (chr " ") = true -> u_space U (chr ",") = false ->
  (forall g a, In (g, a) (all_aliases rows items) -> plain U g /\ plain U a) ->
  (forall g g' a, In (g, a) (all_aliases rows items) -> In (g', a) (all_aliases rows items) -> g = g') ->
  tag_text C' s -> cyr2lat U C' (lat2cyr U C' s) = s.
Proof.
  intros U ext C rows gt mk prob subst items C' M s H Sp Sc Pl I T.
  apply construct_adds in H as (_ & a & Ea & E). subst C'.
  assert (A : alias_inv (all_aliases rows items) (adds (init_grammemes C rows) a)).
  { apply adds_alias; auto.
    - intros x Hx. rewrite Ea in Hx. apply in_app_iff. auto.
    - apply init_alias; auto. intros x Hx. apply in_app_iff. auto. }
  apply round_trip; auto. intros g Hg. destruct A as [A B]. destruct (A g Hg) as (x & Ex). destruct (B g x Ex) as [Px E2].
  destruct (Pl _ _ Px) as [P1 P2]. split; auto. exists x. auto.
Qed.

(** ** C25: what is incompatible after loading *)
Lemma parent_of_In : forall rows n p, NoDup (map g_name rows) -> (parent_of rows n = Some p <-> exists r, In r rows /\ g_name r = n /\ g_parent r = Some p).
Proof.
  intros rows n p ND. unfold parent_of, sget.
  assert (ND' : NoDup (map fst (rev (map (fun r => (g_name r, g_parent r)) rows)))).
  { rewrite map_rev, map_map. apply NoDup_rev. exact ND. }
  destruct (dget str_eqb n (rev (map (fun r => (g_name r, g_parent r)) rows))) as [v|] eqn:E.
  - apply (dget_In str_eqb str_eqb_eq) in E. apply in_rev, in_map_iff in E as (r & Er & Hr). inversion Er; subst. split.
    + intros Ev. exists r. auto.
    + intros (r' & Hr' & En & Ep). assert (In (g_name r, g_parent r') (rev (map (fun r => (g_name r, g_parent r)) rows))).
      { rewrite <- in_rev. apply in_map_iff. exists r'. rewrite En. auto. }
      assert (In (g_name r, g_parent r) (rev (map (fun r => (g_name r, g_parent r)) rows))).
      { rewrite <- in_rev. apply in_map_iff. exists r. auto. }
      apply (In_dget str_eqb str_eqb_eq) in H, H0; auto. congruence.
  - apply (dget_None str_eqb str_eqb_eq) in E. split; [discriminate|]. intros (r & Hr & <- & _). destruct E.
    rewrite map_rev, <- in_rev, map_map. apply in_map_iff. exists r. auto.
Qed.
Lemma truthy_iff : forall o p, p <> [] -> (match truthy o with Some q => str_eqb q p | None => false end = true <-> o = Some p).
Proof.
  intros [[|c s]|] p N; cbn [truthy]; split; intro H; try discriminate H.
  - inversion H. subst p. destruct (N eq_refl).
  - apply str_eqb_eq in H. rewrite H. auto.
  - inversion H; subst. exact (str_eqb_refl (c :: s)).
Qed.
Lemma children_In : forall rows p x, NoDup (map g_name rows) -> p <> [] -> (In x (children rows p) <-> descends rows p x).
Proof.
  intros rows p x ND N. unfold children, descends. rewrite in_map_iff. split.
  - intros (r & <- & H). apply filter_In in H as [Hr H]. exists r. split; auto. split; auto. unfold is_child in H.
    apply orb_true_iff in H as [H|H]; [left; apply truthy_iff in H; auto|]. right. destruct (g_parent r) as [q|] eqn:Eq; [|discriminate].
    apply truthy_iff in H; auto. apply parent_of_In in H as (r' & ? & ? & ?); auto. exists q, r'. auto.
  - intros (r & Hr & En & H). exists r. split; auto. apply filter_In. split; auto. unfold is_child. apply orb_true_iff.
    destruct H as [H|(q & r' & E & Hr' & En' & Ep)]; [left; apply truthy_iff; auto|]. right. rewrite E. apply truthy_iff; auto.
    apply parent_of_In; auto. exists r'. auto.
Qed.
Lemma set_rows_incompat : forall rows extra l C g, 
  (forall i r, In (i, r) l -> g_name r = g -> incompat_of (fold_left (set_row rows extra) l C) g = incompat_row rows extra r \/
     exists j r', In (j, r') l /\ g_name r' = g /\ incompat_of (fold_left (set_row rows extra) l C) g = incompat_row rows extra r') /\
  (~ In g (map (fun x => g_name (snd x)) l) -> incompat_of (fold_left (set_row rows extra) l C) g = incompat_of C g).
Proof.
  intros rows extra l C g. revert C. induction l as [|[j r] l IH]; intros C; cbn [fold_left map In].
  - split; [tauto|auto].
  - destruct (IH (set_row rows extra C (j, r))) as [IH1 IH2]. split.
    + intros i r' Hin En. destruct (in_dec str_eq_dec g (map (fun x => g_name (snd x)) l)) as [Hg|Hg].
      * apply in_map_iff in Hg as ([i2 r2] & E2 & H2). destruct (IH1 i2 r2 H2 E2) as [E|(j' & r3 & H3 & E3 & E)].
        -- right. exists i2, r2. auto.
        -- right. exists j', r3. auto.
      * destruct Hin as [Hin|Hin]; [|exfalso; apply Hg; apply in_map_iff; exists (i, r'); auto]. inversion Hin; subst i r'.
        left. rewrite (IH2 Hg). unfold incompat_of. simpl. rewrite <- En. rewrite sget_set_same. auto.
    + intros Hg. rewrite IH2 by tauto. unfold incompat_of. simpl. rewrite sget_set_other; auto.
Qed.
Lemma add_rows_extra : forall rows C, tc_extra (fold_left add_row rows C) = tc_extra C /\ tc_incompat (fold_left add_row rows C) = tc_incompat C.
Proof.
  induction rows as [|r rows IH]; intros C; simpl; auto. destruct (IH (add_row C r)) as [E1 E2]. rewrite E1, E2. unfold add_row, add_known.
  destruct (_ && _); auto.
Qed.
Lemma sget_expand : forall rows e g, sget g (expand_extra rows e) =
  option_map (fun E => fold_left (fun acc x => sunion acc (children rows x)) E E) (sget g e).
Proof.
  intros rows e g. unfold sget. induction e as [|[k v] e IH]; simpl; auto. destruct (str_eqb g k); auto.
Qed.
Lemma fold_children : forall rows E acc x, In x (fold_left (fun a y => sunion a (children rows y)) E acc) <->
  In x acc \/ exists e, In e E /\ In x (children rows e).
Proof.
  induction E as [|e E IH]; intros acc x; simpl.
  - split; [auto|intros [?|(? & [] & _)]; auto].
  - rewrite IH, sunion_In. split.
    + intros [[?|?]|(e' & ? & ?)]; auto; right; eauto.
    + intros [?|(e' & [<-|?] & ?)]; auto. right; eauto.
Qed.
(** [extra C g]: the extra incompatibilities declared for [g] before loading *)
Lemma init_incompat : forall C rows g p, NoDup (map g_name rows) -> ~ In (Some []) (map g_parent rows) ->
  (forall k E, sget k (tc_extra C) = Some E -> ~ In [] E) ->
  (exists r, In r rows /\ g_name r = g /\ g_parent r = p) ->
  forall x, In x (incompat_of (init_grammemes C rows) g) <->
    x <> g /\ ((exists q, p = Some q /\ descends rows q x) \/
               (exists E, sget g (tc_extra C) = Some E /\ (In x E \/ exists e, In e E /\ descends rows e x))).
Proof.
  intros C rows g p ND NE NX (r & Hr & En & Ep) x. unfold init_grammemes.
  set (C1 := fold_left add_row rows (reset_known C)).
  assert (Ex : tc_extra C1 = tc_extra C). { unfold C1. rewrite (proj1 (add_rows_extra rows _)). auto. }
  set (extra := expand_extra rows (tc_extra C1)).
  match goal with |- context [fold_left _ _ ?C2] => set (C2' := C2) end.
  assert (Ir : incompat_of (fold_left (set_row rows extra) (enum rows) C2') g = incompat_row rows extra r).
  { apply In_nth_error in Hr as (i & Hi).
    destruct (proj1 (set_rows_incompat rows extra (enum rows) C2' g) i r) as [E|(j & r' & Hj & E' & E)]; auto.
    - apply enum_In; auto.
    - rewrite E. f_equal. apply enum_In in Hj. 
      assert (i = j). { apply (proj1 (NoDup_nth_error (map g_name rows)) ND). 
        - rewrite map_length. apply nth_error_Some. congruence.
        - rewrite !nth_error_map, Hi, Hj. simpl. congruence. }
      subst. congruence. }
  rewrite Ir. unfold incompat_row. rewrite filter_In, sunion_In, negb_true_iff, str_eqb_neq, En, Ep.
  assert (A : In x match sget g extra with Some s => s | None => [] end <-> exists E, sget g (tc_extra C) = Some E /\ (In x E \/ exists e, In e E /\ descends rows e x)).
  { unfold extra. rewrite sget_expand, Ex. destruct (sget g (tc_extra C)) as [E|] eqn:Eg; simpl.
    - rewrite fold_children. split.
      + intros H. exists E. split; auto. destruct H as [?|(e & He & Hx)]; auto. right. exists e. split; auto. apply children_In; auto.
        intros ->. apply (NX _ _ Eg He).
      + intros (E' & Ee & H). inversion Ee; subst E'. destruct H as [?|(e & He & Hx)]; auto. right. exists e. split; auto. apply children_In; auto.
        intros ->. apply (NX _ _ Eg He).
    - split; [intros []|intros (? & ? & _); discriminate]. }
  assert (B : In x match p with Some q => children rows q | None => [] end <-> exists q, p = Some q /\ descends rows q x).
  { destruct p as [q|].
    - assert (q <> []). { intros ->. apply NE. apply in_map_iff. exists r. auto. }
      rewrite children_In by auto. split; [eauto|intros (q' & Eq & ?); inversion Eq; subst; auto].
    - split; [intros []|intros (? & ? & _); discriminate]. }
  rewrite A, B. tauto.
Qed.
Lemma add_known_incompat : forall l C g, incompat_of (adds C l) g = incompat_of C g.
Proof. induction l as [|[[a b] o] l IH]; intros C g; auto. simpl. rewrite IH. unfold incompat_of, add_known. destruct (_ && _); auto. Qed.
Lemma construct_incompat : forall U ext C rows gt mk prob subst items C' M,
  construct U ext C rows gt mk prob subst items = Ok (C', M) ->
  forall g, incompat_of C' g = incompat_of (init_grammemes C rows) g.
Proof. intros. apply construct_adds in H as (_ & a & _ & ->). apply add_known_incompat. Qed.

Lemma updated_raises : forall C t req, tc_known C <> [] ->
  ((forall g, In g req -> In g (tc_known C)) <-> exists r, updated_grammemes C t req = Ok r) /\
  (~ (forall g, In g req -> In g (tc_known C)) <-> updated_grammemes C t req = Err ValueError).
Proof.
  intros C t req N. destruct (ssub req (tc_known C)) eqn:E.
  - pose proof (proj1 (ssub_incl _ _) E) as K. destruct (updated_ok C t req K) as (r & Er). rewrite Er. split; split; intro H; [eauto|auto|destruct (H K)|discriminate].
  - assert (K : exists g, In g req /\ ~ In g (tc_known C)).
    { clear N. induction req as [|g req IH]; simpl in E; [discriminate|]. destruct (smem g (tc_known C)) eqn:Eg.
      - destruct (IH E) as (g' & H1 & H2). exists g'. split; [right|]; auto.
      - exists g. split; [left; auto|]. apply smem_false; auto. }
    destruct K as (g & Hg & Kg). rewrite (updated_err C t req g N Hg Kg). split; split; intro H.
    + destruct (Kg (H g Hg)).
    + destruct H; discriminate.
    + auto.
    + intro K. destruct (Kg (K g Hg)).
Qed.
Lemma updated_order : forall C t req req', tc_known C <> [] -> (forall g, In g req <-> In g req') ->
  match updated_grammemes C t req, updated_grammemes C t req' with
  | Ok r, Ok r' => forall x, In x r <-> In x r'
  | Err e, Err e' => e = e'
  | _, _ => False
  end.
Proof.
  intros C t req req' N H. destruct (updated_raises C t req N) as [A B], (updated_raises C t req' N) as [A' B'].
  assert (S : (forall g, In g req -> In g (tc_known C)) <-> (forall g, In g req' -> In g (tc_known C))).
  { split; intros K g Hg; apply K, H; auto. }
  destruct (ssub req (tc_known C)) eqn:E.
  - pose proof (proj1 (ssub_incl _ _) E) as K. destruct (proj1 A K) as (r & Er), (proj1 A' (proj1 S K)) as (r' & Er'). rewrite Er, Er'.
    intro x. rewrite (updated_spec _ _ _ _ Er x), (updated_spec _ _ _ _ Er' x), H. split; intros [P Q]; (split; [exact P|]); intros g Hg; apply Q, H; auto.
  - assert (K : ~ (forall g, In g req -> In g (tc_known C))) by (intro K; apply ssub_incl in K; congruence).
    rewrite (proj1 B K), (proj1 B'); auto. intro; apply K, S; auto.
Qed.
Lemma unit_aliases_fst : forall c, map fst (unit_aliases c) = unit_grammemes c.
Proof. destruct c as [|[]| | | | | | | | | | |]; reflexivity. Qed.
Lemma construct_known_aliases : forall U ext C rows gt mk prob subst items C' M,
  construct U ext C rows gt mk prob subst items = Ok (C', M) ->
  forall g, In g (tc_known C') <-> In g (map fst (all_aliases rows items)).
Proof.
  intros U ext C rows gt mk prob subst items C' M H g. rewrite (construct_known _ _ _ _ _ _ _ _ _ _ _ H g).
  unfold all_aliases. rewrite map_app, in_app_iff, map_map. cbn [fst]. apply or_iff_compat_l.
  change (flat_map item_units items) with (items_units items). rewrite in_map_iff. split.
  - intros (c & Hc & Hg). rewrite <- unit_aliases_fst in Hg. apply in_map_iff in Hg as (x & Ex & Hx). exists x. split; auto.
    apply in_flat_map. eauto.
  - intros (x & Ex & Hx). apply in_flat_map in Hx as (c & Hc & Hx). exists c. split; auto. rewrite <- unit_aliases_fst. subst. apply in_map; auto.
Qed.
Lemma ssub_same_known : forall gs (a b : sset), (forall x, In x a <-> In x b) -> ssub gs a = ssub gs b.
Proof.
  intros gs a b H. destruct (ssub gs b) eqn:E.
  - apply ssub_incl. intros x Hx. apply H. apply (proj1 (ssub_incl _ _) E x Hx).
  - destruct (ssub gs a) eqn:E2; auto. rewrite <- E. symmetry. apply ssub_incl. intros x Hx. apply H. apply (proj1 (ssub_incl _ _) E2 x Hx).
Qed.
Lemma assert_same_known : forall C1 C2 gs, (forall x, In x (tc_known C1) <-> In x (tc_known C2)) -> assert_known C1 gs = assert_known C2 gs.
Proof.
  intros C1 C2 gs H. unfold assert_known. rewrite (ssub_same_known gs _ _ H). destruct (ssub _ _); auto. unfold assert_initialized.
  destruct (tc_known C1) as [|x l] eqn:E1, (tc_known C2) as [|y l2] eqn:E2; auto.
  - destruct (proj2 (H y)); left; auto.
  - destruct (proj1 (H x)); left; auto.
Qed.
Lemma recreate_same : forall U U' ext ext' C D rows gt gt' mk mk' prob prob' subst subst' items C1 M1 C2 M2,
  construct U ext C rows gt mk prob subst items = Ok (C1, M1) ->
  construct U' ext' D rows gt' mk' prob' subst' items = Ok (C2, M2) ->
  forall g gs t s, contains C2 g t = contains C1 g t /\ contains_set C2 gs t = contains_set C1 gs t /\ mk_tag C2 s = mk_tag C1 s.
Proof.
  intros U U' ext ext' C D rows gt gt' mk mk' prob prob' subst subst' items C1 M1 C2 M2 H1 H2 g gs t s.
  assert (K : forall x, In x (tc_known C2) <-> In x (tc_known C1)).
  { intro x. rewrite (construct_known_aliases _ _ _ _ _ _ _ _ _ _ _ H1 x), (construct_known_aliases _ _ _ _ _ _ _ _ _ _ _ H2 x). tauto. }
  split; [apply contains_same_known; auto|]. unfold contains_set, mk_tag. rewrite !(assert_same_known _ _ _ K). auto.
Qed.
