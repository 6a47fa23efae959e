(** * The gramtab saved under Cyrillic names, and loading it *)
From Coq Require Import String List NArith ZArith Bool Lia.
From Verif Require Import Py Uni Tagset Dawg Dict Units Analyzer Compile Json Storage Convert CyrTags Spec Spec18 L_Base L_Tagset L_Tags2 L_Json L_Json2 L_Utf8 L_Storage L_Storage2 L_Reinit L_Reinit2.
Import ListNotations.
Local Open Scope nat_scope.
Local Open Scope list_scope.

(** ** str.replace *)
Lemma replace_fuel : forall old new, old <> [] -> forall n s f, length s <= n -> length s <= f -> replace_all_f f old new s = replace_all old new s.
Proof.
  intros old new NO. unfold replace_all. induction n as [|n IH]; intros s f Hn Hf.
  - destruct s; [|cbn in Hn; lia]. destruct f; reflexivity.
  - destruct s as [|x s]; [destruct f; reflexivity|]. cbn [length] in *. destruct f as [|f]; [lia|]. cbn [replace_all_f].
    assert (L : length (skipn (length old) (x :: s)) <= length s). { rewrite skipn_length. destruct old; [congruence|]. cbn [length]. lia. }
    destruct (prefixb old (x :: s)).
    + f_equal. rewrite (IH (skipn (length old) (x :: s)) f) by lia. rewrite (IH (skipn (length old) (x :: s)) (length s)) by lia. reflexivity.
    + f_equal. rewrite (IH s f) by lia. reflexivity.
Qed.
Lemma replace_cons : forall old new x s, old <> [] -> replace_all old new (x :: s) =
  if prefixb old (x :: s) then new ++ replace_all old new (skipn (length old) (x :: s)) else x :: replace_all old new s.
Proof.
  intros old new x s NO. unfold replace_all at 1. cbn [length replace_all_f]. destruct (prefixb old (x :: s)) eqn:P; [|reflexivity].
  f_equal. apply (replace_fuel old new NO (length s)); rewrite skipn_length; destruct old; try congruence; cbn [length]; lia.
Qed.
Lemma prefixb_before : forall old p c rest, ~ In c old -> prefixb old (p ++ c :: rest) = prefixb old p.
Proof.
  induction old as [|o old IH]; intros p c rest N; [destruct p; reflexivity|]. cbn [In] in N. destruct p as [|x p]; cbn [app prefixb].
  - destruct (N.eqb o c) eqn:E; [apply N.eqb_eq in E; subst; tauto|reflexivity].
  - rewrite IH by tauto. reflexivity.
Qed.
Lemma replace_sep : forall old new c, old <> [] -> ~ In c old -> forall n p rest, length p <= n ->
  replace_all old new (p ++ c :: rest) = replace_all old new p ++ c :: replace_all old new rest.
Proof.
  intros old new c NO NC. induction n as [|n IH]; intros p rest L.
  - destruct p; [|cbn in L; lia]. cbn [app]. rewrite replace_cons by exact NO. pose proof (prefixb_before old [] c rest NC) as P. cbn [app] in P. rewrite P.
    destruct old as [|o old]; [congruence|]. reflexivity.
  - destruct p as [|x p]; [apply (IH [] rest); cbn; lia|]. cbn [length] in L. cbn [app]. rewrite replace_cons by exact NO. rewrite (replace_cons old new x p NO).
    pose proof (prefixb_before old (x :: p) c rest NC) as P. cbn [app] in P. rewrite P. destruct (prefixb old (x :: p)) eqn:E.
    + apply prefixb_spec in E as (r & E).
      assert (S1 : skipn (length old) (x :: p) = r) by (rewrite E, skipn_app, skipn_all, Nat.sub_diag; reflexivity).
      assert (S2 : skipn (length old) (x :: p ++ c :: rest) = r ++ c :: rest). { change (x :: p ++ c :: rest) with ((x :: p) ++ c :: rest). rewrite E, <- app_assoc, skipn_app, skipn_all, Nat.sub_diag. reflexivity. }
      rewrite S1, S2. rewrite IH.
      * rewrite app_assoc. reflexivity.
      * apply (f_equal (@length _)) in E. rewrite app_length in E. cbn [length] in E. destruct old; [congruence|]. cbn [length] in E. lia.
    + rewrite IH by lia. reflexivity.
Qed.
Lemma replace_join : forall old new c l, old <> [] -> ~ In c old -> replace_all old new (join [c] l) = join [c] (map (replace_all old new) l).
Proof.
  intros old new c l NO NC. induction l as [|x [|y l] IH]; [reflexivity|reflexivity|].
  change (join [c] (x :: y :: l)) with (x ++ c :: join [c] (y :: l)). rewrite (replace_sep old new c NO NC (length x) x) by lia. rewrite IH. reflexivity.
Qed.
Lemma replace_absent : forall old new, old <> [] -> forall s, ~ occurs old s -> replace_all old new s = s.
Proof.
  intros old new NO. induction s as [|x s IH]; intros N; [reflexivity|]. rewrite replace_cons by exact NO. destruct (prefixb old (x :: s)) eqn:P.
  - exfalso. apply N. apply prefixb_spec in P as (r & P). exists [], r. exact P.
  - f_equal. apply IH. intros (a & b & E). apply N. exists (x :: a), b. rewrite E. reflexivity.
Qed.

Lemma replace_whole : forall old new, old <> [] -> replace_all old new old = new.
Proof.
  intros old new NO. destruct old as [|x s]; [congruence|]. rewrite (replace_cons (x :: s) new x s NO).
  assert (P : prefixb (x :: s) (x :: s) = true) by (apply prefixb_spec; exists []; rewrite app_nil_r; reflexivity). rewrite P, skipn_all. apply app_nil_r.
Qed.

(** ** translation of a text *)
Definition step_ext (t : str) (na : str * str) : str :=
  match snd na, fst na with [], _ => t | _, [] => t | alias, name => replace_all name alias t end.
Lemma step_ext_eq : forall t n a, n <> [] -> a <> [] -> step_ext t (n, a) = replace_all n a t.
Proof. intros t n a N A. unfold step_ext. cbn [fst snd]. destruct a; [congruence|]. destruct n; [congruence|]. reflexivity. Qed.
Definition fin (m : list (str * str)) (p : str) : str := match sget p m with Some a => a | None => p end.
Definition text (groups : list (list str)) : str := join (u " ") (map (join (u ",")) groups).
Lemma replace_text : forall n a groups, n <> [] -> ~ In (chr ",") n -> ~ In (chr " ") n -> replace_all n a (text groups) = text (map (map (replace_all n a)) groups).
Proof.
  intros n a groups N C S. unfold text. change (u " ") with [chr " "]. change (u ",") with [chr ","]. rewrite replace_join by assumption. f_equal. rewrite !map_map. apply map_ext.
  intros l. apply replace_join; assumption.
Qed.
Lemma ext_text : forall (m : list (str * str)) (groups : list (list str)), NoDup (map fst m) ->
  (forall (n a : str), In (n, a) m -> n <> [] /\ a <> [] /\ ~ In (chr ",") n /\ ~ In (chr " ") n) ->
  (forall (n a n' a' : str), In (n, a) m -> In (n', a') m -> ~ occurs n a') ->
  (forall (l : list str) (p : str), In l groups -> In p l -> forall (n a : str), In (n, a) m -> occurs n p -> p = n) ->
  fold_left step_ext m (text groups) = text (map (map (fin m)) groups).
Proof.
  induction m as [|[n a] m IH]; intros groups ND H1 H2 H3.
  - cbn [fold_left]. f_equal. rewrite <- (map_id groups) at 1. apply map_ext. intros l. rewrite <- (map_id l) at 1. apply map_ext. reflexivity.
  - destruct (H1 n a (or_introl eq_refl)) as (N1 & N2 & N3 & N4). cbn [fold_left]. rewrite step_ext_eq by assumption. rewrite replace_text by assumption.
    cbn [map fst] in ND. apply NoDup_cons_iff in ND as [NI ND].
    assert (R : forall l p, In l groups -> In p l -> replace_all n a p = if str_eqb p n then a else p).
    { intros l p Il Ip. destruct (str_eqb p n) eqn:E; [apply str_eqb_eq in E; subst p; apply replace_whole; exact N1|].
      apply replace_absent; [exact N1|]. intros O. apply (H3 l p Il Ip n a (or_introl eq_refl)) in O. subst p. rewrite str_eqb_refl in E. discriminate E. }
    rewrite IH.
    + f_equal. rewrite map_map. apply map_ext_in. intros l Il. rewrite map_map. apply map_ext_in. intros p Ip. rewrite (R l p Il Ip). unfold fin. unfold sget. cbn [dget].
      destruct (str_eqb p n) eqn:E.
      * destruct (dget str_eqb a m) as [b|] eqn:S; [exfalso|reflexivity]. apply dget_In in S; [|exact str_eqb_eq].
        apply (H2 a b n a (or_intror S) (or_introl eq_refl)). exists [], []. rewrite app_nil_r. reflexivity.
      * reflexivity.
    + exact ND.
    + intros n' a' I. apply H1. right. exact I.
    + intros n' a' n'' a'' I I'. apply (H2 n' a' n'' a''); right; assumption.
    + intros l p Il Ip n' a' I O. apply in_map_iff in Il as (l0 & <- & Il). apply in_map_iff in Ip as (p0 & <- & Ip). rewrite (R l0 p0 Il Ip) in *.
      destruct (str_eqb p0 n) eqn:E.
      * exfalso. exact (H2 n' a' n a (or_intror I) (or_introl eq_refl) O).
      * exact (H3 l0 p0 Il Ip n' a' (or_intror I) O).
Qed.

(** ** the table of Cyrillic names *)
Lemma lat2cyr_init : forall C rows, tc_lat2cyr (init_grammemes C rows) = alias_map [] rows.
Proof.
  intros C rows. unfold init_grammemes. rewrite (proj1 (set_rows_tables _ _ _ _)). cbn [tc_lat2cyr].
  assert (G : forall l D, tc_lat2cyr (fold_left add_row l D) = alias_map (tc_lat2cyr D) l).
  { induction l as [|r l IH]; intros D; [reflexivity|]. cbn [fold_left]. rewrite IH. reflexivity. }
  rewrite G. reflexivity.
Qed.
Lemma alias_get : forall rows al r, NoDup (map g_name rows) -> In r rows -> sget (g_name r) (alias_map al rows) = Some (g_alias r).
Proof.
  unfold alias_map. induction rows as [|q rows IH]; intros al r ND I; [destruct I|]. cbn [map] in ND. apply NoDup_cons_iff in ND as [N ND]. cbn [fold_left]. destruct I as [->|I]; [|apply IH; assumption].
  assert (G : forall l m, ~ In (g_name r) (map g_name l) -> sget (g_name r) (fold_left (fun m r => sset_ (g_name r) (g_alias r) m) l m) = sget (g_name r) m).
  { clear. induction l as [|q l IH]; intros m N; [reflexivity|]. cbn [fold_left map In] in *. rewrite IH by tauto. apply sget_set_other. intros E. apply N. left. congruence. }
  rewrite G by exact N. apply sget_set_same.
Qed.
Lemma alias_keys : forall rows al, NoDup (map fst al) -> (forall k, In k (map fst al) -> In k (map g_name rows)) ->
  NoDup (map fst (alias_map al rows)) /\ forall k, In k (map fst (alias_map al rows)) -> In k (map g_name rows).
Proof.
  intros rows al ND H. assert (G : forall l m, NoDup (map fst m) -> NoDup (map fst (alias_map m l)) /\ forall k, In k (map fst (alias_map m l)) -> In k (map fst m) \/ In k (map g_name l)).
  { unfold alias_map. induction l as [|q l IH]; intros m N; [split; [exact N|auto]|]. cbn [fold_left map In]. destruct (IH (sset_ (g_name q) (g_alias q) m)) as [A B]; [apply dset_NoDup; [exact str_eqb_eq|exact N]|].
    split; [exact A|]. intros k I. destruct (B k I) as [J|J]; [|auto]. unfold sset_ in J. rewrite dset_keys in J by exact str_eqb_eq. destruct (din str_eqb (g_name q) m); [auto|]. apply in_app_or in J as [J|[<-|[]]]; auto. }
  destruct (G rows al ND) as [A B]. split; [exact A|]. intros k I. destruct (B k I); auto.
Qed.
Lemma alias_In : forall rows al n a, NoDup (map g_name rows) -> NoDup (map fst al) -> (forall k, In k (map fst al) -> In k (map g_name rows)) ->
  In (n, a) (alias_map al rows) -> exists r, In r rows /\ g_name r = n /\ g_alias r = a.
Proof.
  intros rows al n a NR NA H I. destruct (alias_keys rows al NA H) as [ND K].
  assert (J : In n (map g_name rows)) by (apply K; apply in_map_iff; exists (n, a); auto). apply in_map_iff in J as (r & E & J). exists r. split; [exact J|]. split; [exact E|].
  pose proof (alias_get rows al r NR J) as S. rewrite E in S. apply (In_dget _ str_eqb_eq) in I; [|exact ND]. unfold sget in S. congruence.
Qed.
Lemma ext_of_table : forall U C rows al s, u_space U (chr " ") = true -> u_space U (chr ",") = false ->
  NoDup (map g_name rows) -> separable rows -> (forall r, In r rows -> plain U (g_name r)) -> NoDup (map fst al) -> (forall k, In k (map fst al) -> In k (map g_name rows)) ->
  table_text rows s -> from_internal_ext (alias_map al rows) s = lat2cyr U (init_grammemes C rows) s.
Proof.
  intros U C rows al s Sp Sc ND [S1 S2] PL NA KA (groups & -> & H). set (m := alias_map al rows).
  assert (HM : forall n a, In (n, a) m -> exists r, In r rows /\ g_name r = n /\ g_alias r = a) by (intros n a; apply alias_In; assumption).
  change (from_internal_ext m (join (u " ") (map (join (u ",")) groups))) with (fold_left step_ext m (text groups)).
  rewrite ext_text.
  - unfold lat2cyr. rewrite lat2cyr_init. rewrite (translate_groups U (alias_map [] rows) (fin m) groups Sp Sc); [reflexivity|].
    intros l Il. destruct (H l Il) as [N K]. split; [exact N|]. intros g Ig. specialize (K g Ig). apply in_map_iff in K as (r & <- & Ir). split; [apply PL; exact Ir|].
    rewrite (alias_get rows [] r ND Ir). unfold fin, m. rewrite (alias_get rows al r ND Ir). reflexivity.
  - exact (proj1 (alias_keys rows al NA KA)).
  - intros n a I. destruct (HM n a I) as (r & Ir & <- & <-). apply S1. exact Ir.
  - intros n a n' a' I I'. destruct (HM n a I) as (r & Ir & <- & <-). destruct (HM n' a' I') as (r' & Ir' & <- & <-). apply S2; assumption.
  - intros l p Il Ip n a I O. destruct (HM n a I) as (r & Ir & <- & <-). destruct (H l Il) as [_ K]. specialize (K p Ip). apply in_map_iff in K as (r' & <- & Ir'). symmetry. exact (proj1 (S2 r r' Ir Ir') O).
Qed.
(** the grammemes of a text *)
Lemma split_keeps : forall c d s, In d s -> d <> c -> exists x, In x (split_on c s) /\ In d x.
Proof.
  intros c d s. remember (split_on c s) as l. assert (J : join [c] l = s) by (subst l; apply join_split). clear Heql. intros I N. rewrite <- J in I.
  apply join_In_char in I as [E|(x & Ix & Id)]; [congruence|]. exists x. auto.
Qed.
Lemma text_piece : forall (names : list str) groups l p, (forall n, In n names -> ~ In (chr " ") n) ->
  (forall l, In l groups -> l <> [] /\ forall g, In g l -> ~ In (chr ",") g /\ ~ In (chr " ") g) -> In l groups -> In p l -> ~ In p names ->
  exists g, In g (split_tag (text groups)) /\ ~ In g names.
Proof.
  intros names groups l p HN HG Il Ip NP.
  assert (NS : forall l, In l groups -> ~ In (chr " ") (join (u ",") l)).
  { intros l0 I0 J. apply join_In_char in J as [J|(x & Ix & J)]; [discriminate J|]. exact (proj2 (proj2 (HG l0 I0) x Ix) J). }
  assert (SP : forall l, In l groups -> split_on (chr ",") (join (u ",") l) = l).
  { intros l0 I0. apply split_join; [exact (proj1 (HG l0 I0))|]. intros x Ix. exact (proj1 (proj2 (HG l0 I0) x Ix)). }
  destruct groups as [|a [|b groups]]; [destruct Il| |].
  - destruct Il as [<-|[]]. exists p. split; [|exact NP]. unfold text, split_tag. cbn [map join]. rewrite replace_first_none by (apply NS; left; reflexivity). rewrite SP by (left; reflexivity). exact Ip.
  - assert (E : split_tag (text (a :: b :: groups)) = a ++ split_on (chr ",") (text (b :: groups))).
    { unfold text, split_tag. change (join (u " ") (map (join (u ",")) (a :: b :: groups))) with (join (u ",") a ++ chr " " :: join (u " ") (map (join (u ",")) (b :: groups))).
      rewrite replace_first_app by (apply NS; left; reflexivity). rewrite split_on_app_sep. rewrite SP by (left; reflexivity). reflexivity. }
    rewrite E. destruct groups as [|c groups].
    + exists p. split; [|exact NP]. apply in_or_app. destruct Il as [<-|[<-|[]]]; [left; exact Ip|]. right. unfold text. cbn [map join]. rewrite SP by (right; left; reflexivity). exact Ip.
    + destruct (split_keeps (chr ",") (chr " ") (text (b :: c :: groups))) as (x & Ix & J).
      * unfold text. change (join (u " ") (map (join (u ",")) (b :: c :: groups))) with (join (u ",") b ++ chr " " :: join (u " ") (map (join (u ",")) (c :: groups))). apply in_or_app. right. left. reflexivity.
      * discriminate.
      * exists x. split; [apply in_or_app; right; exact Ix|]. intros K. exact (HN x K J).
Qed.
Lemma mapM_value_error : forall C texts t, tc_known C <> [] -> In t texts -> (exists g, In g (split_tag t) /\ ~ In g (tc_known C)) -> mapM (mk_tag C) texts = Err ValueError.
Proof.
  intros C texts t NE I (g & Ig & Ng).
  assert (D : forall s, (exists v, mk_tag C s = Ok v) \/ mk_tag C s = Err ValueError).
  { intros s. unfold mk_tag, assert_known. destruct (ssub _ _); [left; eexists; reflexivity|]. right. unfold assert_initialized. destruct (tc_known C); [congruence|reflexivity]. }
  assert (T : mk_tag C t = Err ValueError). { destruct (D t) as [(v & E)|E]; [|exact E]. exfalso. apply mk_tag_ok in E as (_ & E & K). apply Ng, K. rewrite E. exact Ig. }
  induction texts as [|s texts IH]; [destruct I|]. cbn [mapM]. destruct I as [->|I]; [rewrite T; reflexivity|].
  destruct (D s) as [(v & ->)| ->]; [|reflexivity]. cbn [bind]. rewrite (IH I). reflexivity.
Qed.
