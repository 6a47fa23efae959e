(** * C68: tags of the Cyrillic class *)
From Coq Require Import String List NArith ZArith Bool.
From Verif Require Import Py Uni Tagset Dawg Dict Compile Json Storage Convert CyrTags Spec Spec18 L_Base L_Tagset L_Tags2 L_CyrTags.
Import ListNotations.
Local Open Scope nat_scope.
Local Open Scope list_scope.

Lemma alias_miss : forall rows al g, ~ In g (map g_name rows) -> sget g (alias_map al rows) = sget g al.
Proof.
  unfold alias_map. induction rows as [|r rows IH]; intros al g N; [reflexivity|]. cbn [fold_left map In] in *. rewrite IH by tauto. apply sget_set_other. intros E. apply N. left. auto.
Qed.
Lemma translated : forall rows g, NoDup (map g_name rows) -> (forall r, In r rows -> g_name r = g -> from_internal_grammeme (alias_map [] rows) g = g_alias r) /\ (~ In g (map g_name rows) -> from_internal_grammeme (alias_map [] rows) g = g).
Proof.
  intros rows g ND. unfold from_internal_grammeme. split.
  - intros r I <-. rewrite alias_get; auto.
  - intros N. rewrite alias_miss by exact N. reflexivity.
Qed.
Lemma cyr_productive_iff : forall C Y rows t, y_alias Y = [] -> NoDup (map g_name rows) ->
  (cyr_is_productive (snd (cyr_init_grammemes (C, Y) rows)) t = false <->
   exists n g, In n (y_nonprod Y) /\ In g (t_gr t) /\ ((exists r, In r rows /\ g_name r = n /\ g = g_alias r) \/ (~ In n (map g_name rows) /\ g = n))).
Proof.
  intros C Y rows t YA ND. unfold cyr_is_productive, cyr_init_grammemes. cbn [snd y_nonprod]. rewrite YA.
  assert (E : match sinter (t_gr t) (map (from_internal_grammeme (alias_map [] rows)) (y_nonprod Y)) with [] => true | _ => false end = false <-> exists g, In g (sinter (t_gr t) (map (from_internal_grammeme (alias_map [] rows)) (y_nonprod Y)))).
  { destruct (sinter _ _) as [|x l]; split; try discriminate; [intros (g & [])|intros _; exists x; left; reflexivity|reflexivity]. }
  rewrite E. clear E. split.
  - intros (g & H). unfold sinter in H. apply filter_In in H as (A & B). apply smem_In in B. apply in_map_iff in B as (n & T & B). exists n, g. split; [exact B|]. split; [exact A|]. destruct (translated rows n ND) as (X & Y1).
    destruct (in_dec str_eq_dec n (map g_name rows)) as [I|I]; [|right; rewrite Y1 in T by exact I; auto]. left. apply in_map_iff in I as (r & En & I). exists r. rewrite (X r I En) in T. auto.
  - intros (n & g & A & B & D). exists g. unfold sinter. apply filter_In. split; [exact B|]. apply smem_In. apply in_map_iff. exists n. split; [|exact A]. destruct (translated rows n ND) as (X & Y1).
    destruct D as [(r & I & En & ->)|(N & ->)]; [exact (X r I En)|exact (Y1 N)].
Qed.
Lemma translate_keys_in : forall V m (l : list (str * V)) k, sget k (translate_keys m l) <> None -> exists n, In n (map fst l) /\ from_internal_grammeme m n = k.
Proof.
  intros V m l k. unfold translate_keys. assert (G : forall (l : list (str * V)) (acc : list (str * V)), sget k (fold_left (fun acc nv => sset_ (from_internal_grammeme m (fst nv)) (snd nv) acc) l acc) <> None -> sget k acc <> None \/ exists n, In n (map fst l) /\ from_internal_grammeme m n = k).
  { clear l. induction l as [|[n v] l IH]; intros acc H; [left; exact H|]. cbn [fold_left map fst snd In] in *. destruct (IH _ H) as [A|(n' & A & B)]; [|right; exists n'; auto].
    destruct (str_eq_dec k (from_internal_grammeme m n)) as [->|N]; [right; exists n; auto|]. rewrite sget_set_other in A by exact N. left. exact A. }
  intros H. destruct (G l [] H) as [A|A]; [destruct A; reflexivity|exact A].
Qed.
Lemma init_keys : forall C rows g, In g (map fst (tc_incompat (init_grammemes C rows))) -> In g (map fst (tc_incompat C)) \/ In g (map g_name rows).
Proof.
  intros C rows g. unfold init_grammemes. set (C1 := {| tc_known := _ |}). assert (E : tc_incompat C1 = tc_incompat C) by (unfold C1; cbn [tc_incompat]; rewrite (proj2 (add_rows_extra rows _)); reflexivity). rewrite <- E. clearbody C1. clear E.
  assert (G : forall e l D, In g (map fst (tc_incompat (fold_left (set_row rows e) l D))) -> In g (map fst (tc_incompat D)) \/ In g (map (fun x : nat * grow => g_name (snd x)) l)).
  { intros e. induction l as [|[i r] l IH]; intros D H; [left; exact H|]. cbn [fold_left map snd In] in *. destruct (IH _ H) as [A|A]; [|auto]. cbn [set_row tc_incompat] in A. unfold sset_ in A. rewrite dset_keys in A. destruct (din str_eqb (g_name r) (tc_incompat D)); [auto|]. apply in_app_or in A as [A|[A|[]]]; auto. }
  intros H. apply G in H as [A|A]; [auto|]. right. apply in_map_iff in A as ([i r] & <- & A). apply in_map. apply enum_In in A. exact (nth_error_In _ _ A).
Qed.
Lemma updated_nothing : forall C t req, (forall g, In g req -> In g (tc_known C) /\ incompat_of C g = []) -> updated_grammemes C t req = Ok (sunion (t_gr t) req).
Proof.
  intros C t req H. unfold updated_grammemes. generalize (sunion (t_gr t) req). induction req as [|g req IH]; intros acc; [reflexivity|]. cbn [foldM]. destruct (H g (or_introl eq_refl)) as (K & E). assert (KK : grammeme_is_known C g = Ok true) by (unfold grammeme_is_known, assert_initialized; apply smem_In in K; destruct (tc_known C) as [|x l]; [discriminate K|]; cbn [bind]; rewrite K; reflexivity).
  rewrite KK. cbn [bind]. rewrite E. cbn [bind]. replace (sdiff acc []) with acc; [apply IH; intros y J; apply H; right; exact J|]. unfold sdiff. clear. induction acc as [|a acc IH]; [reflexivity|]. cbn [filter]. change (smem a []) with false. cbn [negb]. f_equal. exact IH.
Qed.
Lemma cyr_updated_all : forall C Y rows t req, y_alias Y = [] -> NoDup (map g_name rows) -> (forall k, In k (map fst (tc_incompat (cyr_view (C, Y)))) -> In k (map g_name rows)) ->
  (forall r, In r rows -> ~ In (g_alias r) (map g_name rows)) -> (forall g, In g req -> In g (map g_name rows)) -> cyr_updated (cyr_init_grammemes (C, Y) rows) t req = Ok (sunion (t_gr t) req).
Proof.
  intros C Y rows t req YA ND KK NA H. unfold cyr_updated. apply updated_nothing. intros g J. specialize (H g J). split.
  - change (In g (tc_known (init_grammemes (cyr_view (C, Y)) rows))). apply init_known. exact H.
  - unfold incompat_of. change (tc_incompat (cyr_view (cyr_init_grammemes (C, Y) rows))) with (translate_keys (alias_map (y_alias Y) rows) (map (fun nv => (fst nv, map (from_internal_grammeme (alias_map (y_alias Y) rows)) (snd nv))) (tc_incompat (init_grammemes (cyr_view (C, Y)) rows)))).
    rewrite YA. destruct (sget g (translate_keys _ _)) as [s|] eqn:E; [|reflexivity]. exfalso. match type of E with ?a = _ => assert (X : a <> None) by (rewrite E; discriminate) end.
    apply translate_keys_in in X as (n & A & B). rewrite map_map in A. cbn [fst] in A. apply init_keys in A. assert (I : In n (map g_name rows)) by (destruct A; auto). apply in_map_iff in I as (r & En & I). rewrite (proj1 (translated rows n ND) r I En) in B. subst g. exact (NA r I H).
Qed.
