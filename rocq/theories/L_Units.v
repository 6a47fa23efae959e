(** * Binding of units, initials (C09, C20) *)
From Coq Require Import String List NArith ZArith Bool QArith Lia.
From Verif Require Import Py Uni Tagset Dawg Utils Shapes Dict Units Analyzer ConfigRu ConfigUk Compile Spec Ex.
From Verif Require Import L_Base L_Run L_Made L_Words L_Config L_Ex L_Parse L_Total L_Tagset L_Groups.
Import ListNotations.
Local Open Scope nat_scope.
Local Open Scope list_scope.

(** ** bound units have their tags *)
Lemma bind_unit_tags : forall C c C' b, bind_unit C c = Ok (C', b) -> unit_tags_ok b.
Proof.
  intros C c C' b H. pose proof (bind_unit_cfg _ _ _ _ H) as E. unfold unit_tags_ok. rewrite E.
  destruct c as [|first letters pat sc| | | | | | | | | | |]; try exact I; cbn [bind_unit] in H.
  - apply bind_ok in H as (t1 & _ & H). apply bind_ok in H as (t2 & _ & H). apply Ok_inj in H. inversion H; subst. reflexivity.
  - apply bind_ok in H as (t1 & _ & H). apply Ok_inj in H. inversion H; subst. discriminate.
  - apply bind_ok in H as (t1 & _ & H). apply Ok_inj in H. inversion H; subst. discriminate.
  - apply bind_ok in H as (t1 & _ & H). apply Ok_inj in H. inversion H; subst. discriminate.
  - apply bind_ok in H as (t1 & _ & H). apply Ok_inj in H. inversion H; subst. discriminate.
  - apply bind_ok in H as (t1 & _ & H). apply Ok_inj in H. inversion H; subst. discriminate.
Qed.
Lemma bind_all_In : forall l C C' us bt, bind_all C l = Ok (C', us) -> In bt us ->
  exists C1 C2 c, bind_unit C1 c = Ok (C2, fst bt) /\ In (c, snd bt) l.
Proof.
  induction l as [|[c b] l IH]; intros C C' us bt H Hb; simpl in H.
  - apply Ok_inj in H. inversion H; subst. destruct Hb.
  - apply bind_ok in H as ([C1 x] & E1 & H). apply bind_ok in H as ([C2 y] & E2 & H). apply Ok_inj in H. inversion H; subst. cbn [fst snd] in *.
    destruct Hb as [<-|Hb].
    + exists C, C1, c. cbn [fst snd]. split; [exact E1|left; reflexivity].
    + destruct (IH _ _ _ _ E2 Hb) as (A & B & c' & P & Q). exists A, B, c'. split; [exact P|right; exact Q].
Qed.
Lemma init_units_tags : forall C items C' us, init_units C items = Ok (C', us) -> Forall (fun bt => unit_tags_ok (fst bt)) us.
Proof.
  intros C items C' us H. apply bind_ok in H as (fl & _ & H). apply Forall_forall. intros bt Hb.
  destruct (bind_all_In _ _ _ _ _ H Hb) as (A & B & c & P & _). eapply bind_unit_tags; eauto.
Qed.
Lemma construct_wf : forall U ext C rows gt mk prob subst items C' M,
  construct U ext C rows gt mk prob subst items = Ok (C', M) ->
  items = RU_DEFAULT_UNITS \/ items = UK_DEFAULT_UNITS ->
  (forall g, In g ["ADJF"; "sing"; "datv"]%string -> In (u g) (map g_name rows)) ->
  wf_dict (m_dict M) -> names_ok U -> lower_stable U -> wf_morph M.
Proof.
  intros U ext C rows gt mk prob subst items C' M H Hi Hr W N L.
  pose proof (construct_known _ _ _ _ _ _ _ _ _ _ _ H) as K.
  destruct (construct_units _ _ _ _ _ _ _ _ _ _ _ H) as ((C1 & C2 & HU) & EU & _ & _ & _ & ET).
  assert (Sh : shipped_units M) by (destruct Hi as [-> | ->]; [left|right]; exists C1, C2; exact HU).
  destruct (shipped_facts _ Sh) as (_ & _ & F).
  unfold wf_morph. rewrite EU, ET. split; [exact W|]. split; [exact N|]. split; [exact L|]. split.
  - apply init_units_tags in HU. rewrite Forall_forall in *. intros x Hx. split; [apply HU|apply F]; exact Hx.
  - intros g Hg. apply K. left. apply in_map_iff in Hg as (s & <- & Hs). apply Hr. exact Hs.
Qed.
Lemma shipped_total : forall U ext C rows gt mk subst items C' M word,
  construct U ext C rows gt mk None subst items = Ok (C', M) ->
  items = RU_DEFAULT_UNITS \/ items = UK_DEFAULT_UNITS ->
  (forall g, In g ["ADJF"; "sing"; "datv"]%string -> In (u g) (map g_name rows)) ->
  wf_dict (m_dict M) -> names_ok U -> lower_stable U ->
  (exists ps, morph_parse M word = Ok ps) /\ (exists ts, morph_tag M word = Ok ts).
Proof.
  intros U ext C rows gt mk subst items C' M word H Hi Hr W N L.
  destruct (construct_units _ _ _ _ _ _ _ _ _ _ _ H) as (_ & _ & _ & P & _).
  exact (analyze_tot (fuel_for M word) M word (construct_wf _ _ _ _ _ _ _ _ _ _ _ H Hi Hr W N L) P (Nat.lt_succ_diag_r _)).
Qed.

(** ** the constructor succeeds *)
Definition needed : list str := map u
  ["NOUN"; "anim"; "masc"; "femn"; "Sgtm"; "Fixd"; "Abbr"; "sing";
   "nomn"; "gent"; "datv"; "accs"; "ablt"; "loct"; "ADVB"]%string.
Definition tags_of_pattern (pat : str -> str -> str) : list tag :=
  map (fun gc => MkTag (pat (fst gc) (snd gc)) (split_tag (pat (fst gc) (snd gc)))) (list_prod GENDER2 CASE6).
Lemma gender_case_tags_eq : forall C pat, (forall t, In t (tags_of_pattern pat) -> forall g, In g (t_gr t) -> In g (tc_known C)) ->
  gender_case_tags C pat = Ok (tags_of_pattern pat).
Proof.
  intros C pat H. unfold gender_case_tags, tags_of_pattern in *. rewrite <- mapM_pure. apply mapM_ext. intros gc Hg. apply mk_tag_known.
  intros g Hin. specialize (H _ (in_map _ _ _ Hg)). cbn [t_gr] in H. apply H. exact Hin.
Qed.
Lemma gender_case_tags_inv : forall C pat ts, gender_case_tags C pat = Ok ts -> ts = tags_of_pattern pat.
Proof.
  intros C pat ts H. unfold gender_case_tags in H. unfold tags_of_pattern.
  revert ts H. induction (list_prod GENDER2 CASE6) as [|gc l IH]; intros ts H; cbn [mapM] in H.
  - apply Ok_inj in H. subst. reflexivity.
  - apply bind_ok in H as (t & Et & H). apply bind_ok in H as (ts' & E & H). apply Ok_inj in H. subst ts. simpl map. rewrite <- (IH _ E).
    f_equal. apply mk_tag_ok in Et as (A & B & _). destruct t as [s g]. cbn [t_str t_gr] in *. subst. reflexivity.
Qed.
Lemma filterM_contains : forall C g l, In g (tc_known C) -> filterM (contains C g) l = Ok (filter (fun t => smem g (t_gr t)) l).
Proof.
  intros C g l H. induction l as [|t l IH]; [reflexivity|]. cbn [filterM]. rewrite IH.
  destruct (contains_spec C g t) as (A & B & _). simpl. destruct (smem g (t_gr t)) eqn:E.
  - rewrite A by (apply smem_In; exact E). reflexivity.
  - rewrite B; [reflexivity|apply smem_false; exact E|exact H].
Qed.
Lemma filterM_contains_inv : forall C g l r, filterM (contains C g) l = Ok r -> r = filter (fun t => smem g (t_gr t)) l.
Proof.
  intros C g l. induction l as [|t l IH]; intros r H; cbn [filterM] in H.
  - apply Ok_inj in H. subst. reflexivity.
  - apply bind_ok in H as (b & Eb & H). apply bind_ok in H as (r' & E & H). apply Ok_inj in H. subst r. rewrite (IH _ E). simpl.
    unfold contains in Eb. destruct (smem g (t_gr t)).
    + apply Ok_inj in Eb. subst b. reflexivity.
    + apply bind_ok in Eb as (k & _ & Eb). destruct k; [|discriminate]. apply Ok_inj in Eb. subst b. reflexivity.
Qed.
Lemma pattern_known : forall pat extra C, forallb (fun t => forallb (fun g => smem g (needed ++ extra)) (t_gr t)) (tags_of_pattern pat) = true ->
  (forall g, In g needed -> In g (tc_known C)) -> (forall g, In g extra -> In g (tc_known C)) ->
  forall t, In t (tags_of_pattern pat) -> forall g, In g (t_gr t) -> In g (tc_known C).
Proof.
  intros pat extra C H N X t Ht g Hg. rewrite forallb_forall in H. specialize (H _ Ht). rewrite forallb_forall in H.
  specialize (H _ Hg). apply smem_In, in_app_iff in H as [H|H]; auto.
Qed.
Lemma In_known_names : forall C g l, In g (map u l) -> (forall s, In s l -> In (u s) (tc_known C)) -> In g (tc_known C).
Proof. intros C g l H K. apply in_map_iff in H as (s & <- & Hs). auto. Qed.

(** which units bind in a class that knows the [needed] grammemes *)
Definition shipped_unit (c : ucfg) : Prop :=
  match c with UInit first _ pat _ => pat = if first then name_pattern else patr_pattern | _ => True end.
Lemma split1 : forall s, forallb (fun x => negb (N.eqb x 44) && negb (N.eqb x 32)) s = true -> split_tag s = [s].
Proof.
  intros s H. rewrite forallb_forall in H. unfold split_tag.
  assert (R : replace_first (chr " ") (chr ",") s = s).
  { change (chr " ") with 32%N. change (chr ",") with 44%N. induction s as [|x s IH]; [reflexivity|]. simpl.
    pose proof (H x (or_introl eq_refl)) as Hx. apply andb_true_iff in Hx as [_ Hx]. apply negb_true_iff in Hx. rewrite Hx.
    rewrite IH; [reflexivity|]. intros; apply H; right; auto. }
  rewrite R. apply split_on_nil. change (chr ",") with 44%N. intro I. apply H in I. rewrite N.eqb_refl in I. discriminate.
Qed.
Lemma init_single_ok : forall C lat cyr, split_tag (u lat) = [u lat] -> exists r, init_single C lat cyr = Ok r /\
  forall g, In g (tc_known C) -> In g (tc_known (fst r)).
Proof.
  intros C lat cyr H. unfold init_single. rewrite mk_tag_known.
  - cbn [bind]. eexists. split; [reflexivity|]. cbn [fst]. intros g Hg. apply add_known_In. auto.
  - rewrite H. intros g [<-|[]]. apply add_known_In. auto.
Qed.
Lemma bind_unit_ok : forall C c, shipped_unit c -> (forall g, In g needed -> In g (tc_known C)) ->
  exists C' b, bind_unit C c = Ok (C', b) /\ forall g, In g (tc_known C) -> In g (tc_known C').
Proof.
  intros C c S K.
  assert (G : (exists C' b, bind_unit C c = Ok (C', b)) -> exists C' b, bind_unit C c = Ok (C', b) /\ forall g, In g (tc_known C) -> In g (tc_known C')).
  { intros (C' & b & E). exists C', b. split; [exact E|]. intros g Hg. apply (bind_unit_known _ _ _ _ E g). left; exact Hg. }
  apply G. clear G.
  assert (X : forall lat cyr, split_tag (u lat) = [u lat] -> exists C' b,
    (let* r := init_single C lat cyr in Ok (fst r, {| b_cfg := c; b_tags := [snd r]; b_masc := []; b_femn := [] |})) = Ok (C', b)).
  { intros lat cyr E. destruct (init_single_ok C lat cyr E) as (r & Er & _). rewrite Er. cbn [bind]. eexists. eexists. reflexivity. }
  destruct c as [|first letters pat sc| | | | | | | | | | |]; cbn [bind_unit];
    try (eexists; eexists; reflexivity); try (apply X; vm_compute; reflexivity).
  - cbn [shipped_unit] in S. subst pat. destruct first.
    + set (C2 := add_known (add_known C (u "Init") (u "иниц") false) (u "Name") (u "имя") false).
      assert (K2 : forall g, In g (tc_known C) \/ g = u "Init" \/ g = u "Name" -> In g (tc_known C2)).
      { intros g Hg. unfold C2. rewrite !add_known_In. tauto. }
      rewrite gender_case_tags_eq.
      * cbn [bind].
        rewrite filterM_contains by (apply K2; left; apply K; apply smem_In; vm_compute; reflexivity). cbn [bind].
        rewrite filterM_contains by (apply K2; left; apply K; apply smem_In; vm_compute; reflexivity). cbn [bind].
        clearbody C2. clear. eexists. eexists.
        match goal with |- context [guard ?b _] => assert (E : b = true) by (vm_compute; reflexivity); rewrite E end. reflexivity.
      * apply (pattern_known name_pattern [u "Init"; u "Name"]); [vm_compute; reflexivity| |].
        -- intros g Hg. apply K2. auto.
        -- intros g [<-|[<-|[]]]; apply K2; auto.
    + set (C2 := add_known (add_known C (u "Init") (u "иниц") false) (u "Patr") (u "отч") false).
      assert (K2 : forall g, In g (tc_known C) \/ g = u "Init" \/ g = u "Patr" -> In g (tc_known C2)).
      { intros g Hg. unfold C2. rewrite !add_known_In. tauto. }
      rewrite gender_case_tags_eq.
      * cbn [bind]. eexists. eexists. reflexivity.
      * apply (pattern_known patr_pattern [u "Init"; u "Patr"]); [vm_compute; reflexivity| |].
        -- intros g Hg. apply K2. auto.
        -- intros g [<-|[<-|[]]]; apply K2; auto.
  - set (C3 := add_known (add_known (add_known C (u "NUMB") (u "ЧИСЛО") true) (u "intg") (u "цел") true) (u "real") (u "вещ") true).
    assert (K2 : forall g, g = u "NUMB" \/ g = u "intg" \/ g = u "real" -> In g (tc_known C3)).
    { intros g Hg. unfold C3. rewrite !add_known_In. tauto. }
    assert (E1 : split_tag (u "NUMB,intg") = [u "NUMB"; u "intg"]) by (vm_compute; reflexivity).
    assert (E2 : split_tag (u "NUMB,real") = [u "NUMB"; u "real"]) by (vm_compute; reflexivity).
    rewrite !mk_tag_known; [cbn [bind]; eexists; eexists; reflexivity| |].
    + rewrite E2. intros g [<-|[<-|[]]]; apply K2; auto.
    + rewrite E1. intros g [<-|[<-|[]]]; apply K2; auto.
  - assert (E1 : split_tag (u "ADVB") = [u "ADVB"]) by (vm_compute; reflexivity).
    rewrite mk_tag_known; [cbn [bind]; eexists; eexists; reflexivity|]. rewrite E1. intros g [<-|[]].
    apply K. apply smem_In. vm_compute. reflexivity.
Qed.
Lemma bind_all_ok : forall l C, (forall cb, In cb l -> shipped_unit (fst cb)) -> (forall g, In g needed -> In g (tc_known C)) ->
  exists C' us, bind_all C l = Ok (C', us).
Proof.
  induction l as [|[c b] l IH]; intros C S K; [eexists; eexists; reflexivity|]. cbn [bind_all].
  destruct (bind_unit_ok C c (S (c, b) (or_introl eq_refl)) K) as (C1 & x & E & K1). rewrite E. cbn [bind fst snd].
  destruct (IH C1) as (C2 & us & E2).
  - intros cb Hc. apply S. right; exact Hc.
  - intros g Hg. apply K1, K, Hg.
  - rewrite E2. cbn [bind]. eexists. eexists. reflexivity.
Qed.
Lemma shipped_flat : forall items, items = RU_DEFAULT_UNITS \/ items = UK_DEFAULT_UNITS ->
  exists fl, mapM flatten_item items = Ok fl /\ forall cb, In cb (concat fl) -> shipped_unit (fst cb).
Proof.
  intros items [-> | ->]; eexists; (split; [unfold RU_DEFAULT_UNITS, UK_DEFAULT_UNITS, ru_units, uk_units; cbn [mapM flatten_item mark_last bind]; reflexivity|]);
    cbn [concat app]; intros cb H; repeat (destruct H as [<-|H]; [exact I || reflexivity|]); destruct H.
Qed.
Lemma construct_ok : forall U ext C rows gt mk prob subst items,
  items = RU_DEFAULT_UNITS \/ items = UK_DEFAULT_UNITS ->
  (forall g, In g needed -> In g (map g_name rows)) ->
  (forall s, In s gt -> forall g, In g (split_tag s) -> In g (map g_name rows)) ->
  exists C' M, construct U ext C rows gt mk prob subst items = Ok (C', M) /\
    m_dict M = mk (map (fun s => MkTag s (split_tag s)) gt).
Proof.
  intros U ext C rows gt mk prob subst items Hi Hn Hg. unfold construct.
  assert (E : mapM (mk_tag (init_grammemes C rows)) gt = Ok (map (fun s => MkTag s (split_tag s)) gt)).
  { rewrite <- mapM_pure. apply mapM_ext. intros s Hs. apply mk_tag_known. intros g Hin. apply init_known. exact (Hg s Hs g Hin). }
  rewrite E. cbn [bind]. unfold init_units. destruct (shipped_flat items Hi) as (fl & Ef & S). rewrite Ef. cbn [bind].
  destruct (bind_all_ok (concat fl) (init_grammemes C rows) S) as (C' & us & Eb).
  { intros g H. apply init_known. auto. }
  rewrite Eb. cbn [bind fst snd]. eexists. eexists. split; [reflexivity|]. reflexivity.
Qed.

(** ** C20 *)
Lemma by_unit_app : forall i a b, by_unit i (a ++ b) = by_unit i a ++ by_unit i b.
Proof. intros. unfold by_unit. apply filter_app. Qed.
Lemma by_unit_all : forall i ps, (forall p, In p ps -> made_by p = Some (Root i)) -> by_unit i ps = ps.
Proof.
  intros i ps H. unfold by_unit. induction ps as [|p ps IH]; [reflexivity|]. simpl. rewrite (H p) by (left; auto).
  rewrite Nat.eqb_refl. f_equal. apply IH. intros; apply H; right; auto.
Qed.
Lemma by_unit_none : forall i j ps, i <> j -> (forall p, In p ps -> made_by p = Some (Root j)) -> by_unit i ps = [].
Proof.
  intros i j ps N H. unfold by_unit. induction ps as [|p ps IH]; [reflexivity|]. simpl. rewrite (H p) by (left; auto).
  rewrite (proj2 (Nat.eqb_neq _ _)) by auto. apply IH. intros; apply H; right; auto.
Qed.
Lemma unit_parse_root : forall recP recT M i b word lower seen ps seen', unit_parse recP recT M i b word lower seen = Ok (ps, seen') ->
  forall p, In p ps -> made_by p = Some (Root i).
Proof. intros. eapply made_by_unit. eapply unit_parse_made; eauto. Qed.
Lemma tried_by_unit : forall recP recT M word lower i us seen outs,
  tried recP recT M word lower i us seen outs -> forall j, by_unit (i + j) (concat outs) = nth j outs [] /\
    (forall k, k < i -> by_unit k (concat outs) = []).
Proof.
  intros recP recT M word lower i us seen outs H. induction H as [i us seen|i b t us seen ps seen' outs H T IH]; intro j.
  - split; [destruct j; reflexivity|reflexivity].
  - simpl concat. pose proof (unit_parse_root _ _ _ _ _ _ _ _ _ _ H) as R. split.
    + rewrite by_unit_app. destruct j as [|j].
      * rewrite Nat.add_0_r. rewrite (by_unit_all i ps R). destruct (IH 0) as [_ E]. rewrite (E i) by lia. simpl. apply app_nil_r.
      * rewrite (by_unit_none (i + S j) i ps) by (auto; lia). destruct (IH j) as [E _]. simpl. rewrite <- E. f_equal. lia.
    + intros k Hk. rewrite by_unit_app, (by_unit_none k i ps) by (auto; lia). destruct (IH 0) as [_ E]. rewrite (E k) by lia. reflexivity.
Qed.
Lemma tried_nth : forall recP recT M word lower i us seen outs,
  tried recP recT M word lower i us seen outs -> forall j ps, nth_error outs j = Some ps ->
  exists b t s s', nth_error us j = Some (b, t) /\ unit_parse recP recT M (i + j) b word lower s = Ok (ps, s').
Proof.
  intros recP recT M word lower i us seen outs H. induction H as [i us seen|i b t us seen ps seen' outs H T IH]; intros j qs E.
  - destruct j; discriminate.
  - destruct j as [|j].
    + simpl in E. inversion E; subst. exists b, t, seen, seen'. rewrite Nat.add_0_r. split; [reflexivity|exact H].
    + simpl in E. destruct (IH _ _ E) as (b' & t' & s & s' & A & B). exists b', t', s, s'. split; [exact A|].
      replace (i + S j) with (S i + j) by lia. exact B.
Qed.

(** what the two initials units return *)
Lemma init_unit_parse : forall recP recT M i b word lower seen ps seen' first letters pat sc,
  b_cfg b = UInit first letters pat sc -> unit_parse recP recT M i b word lower seen = Ok (ps, seen') ->
  ps = if smem word letters then map (fun t => MkParse lower t lower sc [MStr (Root i) word]) (b_tags b) else [].
Proof.
  intros recP recT M i b word lower seen ps seen' first letters pat sc E H. unfold unit_parse in H. rewrite E in H.
  apply Ok_inj in H. inversion H. reflexivity.
Qed.
Lemma init_unit_tags : forall C c C' b first letters pat sc, c = UInit first letters pat sc -> bind_unit C c = Ok (C', b) ->
  b_tags b = tags_of_pattern pat /\
  (first = true -> b_masc b = filter (fun t => smem (u "masc") (t_gr t)) (tags_of_pattern pat) /\
                   b_femn b = filter (fun t => smem (u "femn") (t_gr t)) (tags_of_pattern pat)).
Proof.
  intros C c C' b first letters pat sc -> H. cbn [bind_unit] in H. apply bind_ok in H as (ts & E & H).
  apply gender_case_tags_inv in E. subst ts. destruct first.
  - apply bind_ok in H as (m & Em & H). apply bind_ok in H as (f & Ef & H). apply bind_ok in H as (x & _ & H). apply Ok_inj in H.
    inversion H; subst. cbn [b_tags b_masc b_femn]. split; [reflexivity|]. intros _.
    rewrite (filterM_contains_inv _ _ _ _ Em), (filterM_contains_inv _ _ _ _ Ef). split; reflexivity.
  - apply Ok_inj in H. inversion H; subst. split; [reflexivity|discriminate].
Qed.
Lemma unit_of_shipped : forall M i b t, shipped_units M -> nth_error (m_units M) i = Some (b, t) ->
  exists C C', bind_unit C (b_cfg b) = Ok (C', b).
Proof.
  intros M i b t H Hn. assert (X : exists items C C', init_units C items = Ok (C', m_units M)).
  { destruct H as [(C & C' & H)|(C & C' & H)]; eauto. }
  destruct X as (items & C & C' & X). apply bind_ok in X as (fl & _ & X). apply nth_error_In in Hn.
  destruct (bind_all_In _ _ _ _ _ X Hn) as (A & B & c & P & _). exists A, B. pose proof (bind_unit_cfg _ _ _ _ P) as E.
  cbn [fst] in *. rewrite E. exact P.
Qed.
Lemma shipped_inits : forall M letters, (has_units M RU_DEFAULT_UNITS /\ letters = RU_INITIAL_LETTERS) \/
    (has_units M UK_DEFAULT_UNITS /\ letters = UK_INITIAL_LETTERS) ->
  exists b0 b1 b2 t us, m_units M = (b0, false) :: (b1, false) :: (b2, t) :: us /\
    b_cfg b1 = UInit true letters name_pattern (1#10)%Q /\ b_cfg b2 = UInit false letters patr_pattern (1#10)%Q /\
    b_tags b1 = tags_of_pattern name_pattern /\ b_tags b2 = tags_of_pattern patr_pattern /\
    b_masc b1 = filter (fun t => smem (u "masc") (t_gr t)) (tags_of_pattern name_pattern) /\
    b_femn b1 = filter (fun t => smem (u "femn") (t_gr t)) (tags_of_pattern name_pattern).
Proof.
  intros M letters H.
  assert (S : shipped_units M) by (destruct H as [[H _]|[H _]]; [left|right]; exact H).
  assert (X : exists b0 b1 b2 t us, m_units M = (b0, false) :: (b1, false) :: (b2, t) :: us /\
    b_cfg b1 = UInit true letters name_pattern (1#10)%Q /\ b_cfg b2 = UInit false letters patr_pattern (1#10)%Q).
  { destruct H as [[H ->]|[H ->]].
    - apply ru_head in H as (b0 & b1 & b2 & us & E & _ & E1 & E2). exists b0, b1, b2, true, us. split; [exact E|]. split; [exact E1|exact E2].
    - apply uk_head in H as (b0 & b1 & b2 & b3 & b4 & us & E & _ & E1 & E2 & _). exists b0, b1, b2, false, ((b3, false) :: (b4, true) :: us).
      split; [exact E|]. split; [exact E1|exact E2]. }
  destruct X as (b0 & b1 & b2 & t & us & E & E1 & E2). exists b0, b1, b2, t, us. split; [exact E|]. split; [exact E1|]. split; [exact E2|].
  destruct (unit_of_shipped M 1 b1 false S) as (C & C' & B1); [rewrite E; reflexivity|].
  destruct (unit_of_shipped M 2 b2 t S) as (D & D' & B2); [rewrite E; reflexivity|].
  destruct (init_unit_tags _ _ _ _ _ _ _ _ E1 B1) as [T1 G1]. destruct (init_unit_tags _ _ _ _ _ _ _ _ E2 B2) as [T2 _].
  destruct (G1 eq_refl) as [G2 G3]. split; [exact T1|]. split; [exact T2|]. split; [exact G2|exact G3].
Qed.
Lemma first_success_two : forall {A} b0 b1 us (outs : list (list A)),
  us <> [] -> first_success ((b0, false) :: (b1, false) :: us) outs -> 3 <= length outs.
Proof.
  intros A b0 b1 us outs N (_ & _ & [E|(j & b & E & H & _)]).
  - rewrite E. destruct us; [congruence|]. simpl. lia.
  - destruct j as [|[|j]]; simpl in H; try discriminate. lia.
Qed.
Lemma name_tags_eq : map t_gr (tags_of_pattern name_pattern) = initial_tags "Name" ["masc"; "femn"]%string.
Proof. vm_compute. reflexivity. Qed.
Lemma patr_tags_eq : map t_gr (tags_of_pattern patr_pattern) = initial_tags "Patr" ["masc"; "femn"]%string.
Proof. vm_compute. reflexivity. Qed.
Lemma masc_tags_eq : map t_gr (filter (fun t => smem (u "masc") (t_gr t)) (tags_of_pattern name_pattern)) = initial_tags "Name" ["masc"]%string.
Proof. vm_compute. reflexivity. Qed.
Lemma femn_tags_eq : map t_gr (filter (fun t => smem (u "femn") (t_gr t)) (tags_of_pattern name_pattern)) = initial_tags "Name" ["femn"]%string.
Proof. vm_compute. reflexivity. Qed.

Lemma initials_parsed : forall n M letters word ps,
  (has_units M RU_DEFAULT_UNITS /\ letters = RU_INITIAL_LETTERS) \/ (has_units M UK_DEFAULT_UNITS /\ letters = UK_INITIAL_LETTERS) ->
  m_prob M = None -> parse_f n M word = Ok ps ->
  (In word letters ->
     grammemes_of (by_unit 1 ps) = initial_tags "Name" ["masc"; "femn"]%string /\
     grammemes_of (by_unit 2 ps) = initial_tags "Patr" ["masc"; "femn"]%string /\
     forall p, In p (by_unit 1 ps ++ by_unit 2 ps) ->
       p_word p = u_lower (m_uni M) word /\ p_nf p = u_lower (m_uni M) word /\ p_score p = (1#10)%Q) /\
  (~ In word letters -> by_unit 1 ps = [] /\ by_unit 2 ps = []).
Proof.
  intros n M letters word ps HU HP H. destruct n as [|n]; [discriminate H|].
  apply parse_first_success in H as (outs & T & F & H). rewrite HP in H. subst ps.
  destruct (shipped_inits _ _ HU) as (b0 & b1 & b2 & t & us & E & E1 & E2 & T1 & T2 & _).
  pose proof F as F'. rewrite E in F'. apply first_success_two in F'; [|discriminate]. clear F.
  destruct (tried_by_unit _ _ _ _ _ _ _ _ _ T 1) as [B1 _]. destruct (tried_by_unit _ _ _ _ _ _ _ _ _ T 2) as [B2 _].
  simpl plus in B1, B2. rewrite B1, B2. clear B1 B2.
  destruct outs as [|o0 [|o1 [|o2 outs]]]; simpl in F'; try lia. simpl nth.
  destruct (tried_nth _ _ _ _ _ _ _ _ _ T 1 o1 eq_refl) as (c1 & s1 & q1 & q1' & N1 & P1).
  destruct (tried_nth _ _ _ _ _ _ _ _ _ T 2 o2 eq_refl) as (c2 & s2 & q2 & q2' & N2 & P2).
  rewrite E in N1, N2. simpl in N1, N2. injection N1 as <- <-. injection N2 as <- <-.
  pose proof (init_unit_parse _ _ _ _ _ _ _ _ _ _ _ _ _ _ E1 P1) as R1.
  pose proof (init_unit_parse _ _ _ _ _ _ _ _ _ _ _ _ _ _ E2 P2) as R2. rewrite T1 in R1. rewrite T2 in R2.
  clear - R1 R2. split; intro HL.
  - apply smem_In in HL. rewrite HL in R1, R2. subst o1 o2. unfold grammemes_of. rewrite !map_map. cbn [p_tag].
    split; [exact name_tags_eq|]. split; [exact patr_tags_eq|]. intros p Hp.
    apply in_app_iff in Hp as [Hp|Hp]; apply in_map_iff in Hp as (x & <- & _); cbn; auto.
  - apply smem_false in HL. rewrite HL in R1, R2. auto.
Qed.

(** lexeme and normal form of an initial *)
Lemma initials_lexeme : forall M letters p,
  (has_units M RU_DEFAULT_UNITS /\ letters = RU_INITIAL_LETTERS) \/ (has_units M UK_DEFAULT_UNITS /\ letters = UK_INITIAL_LETTERS) ->
  (made_by p = Some (Root 1) -> In (t_gr (p_tag p)) (initial_tags "Name" ["masc"; "femn"]%string) -> In (u "masc") (tc_known (m_tc M)) ->
     exists lex q g, get_lexeme M p = Ok lex /\ normalized M p = Ok q /\ In (u g) (t_gr (p_tag p)) /\ In g ["masc"; "femn"]%string /\
       grammemes_of lex = initial_tags "Name" [g] /\ (forall f, In f (q :: lex) -> with_tag f (p_tag p) = p) /\
       Some (p_tag q) = option_map p_tag (nth_error lex 0)) /\
  (made_by p = Some (Root 2) ->
     exists lex q, get_lexeme M p = Ok lex /\ normalized M p = Ok q /\
       grammemes_of lex = initial_tags "Patr" ["masc"; "femn"]%string /\ (forall f, In f (q :: lex) -> with_tag f (p_tag p) = p) /\
       Some (p_tag q) = option_map p_tag (nth_error lex 0)).
Proof.
  intros M letters p HU. destruct (shipped_inits _ _ HU) as (b0 & b1 & b2 & t & us & E & E1 & E2 & T1 & T2 & G1 & G2).
  assert (L : forall r, made_by p = Some r -> last_unit (p_stack p) = Ok r).
  { intros r H. unfold made_by, last_opt in H. unfold last_unit. destruct (rev (p_stack p)); [discriminate|]. simpl in H. injection H as <-. reflexivity. }
  assert (WT : forall ts f, In f (map (with_tag p) ts) -> with_tag f (p_tag p) = p).
  { intros ts f Hf. apply in_map_iff in Hf as (x & <- & _). destruct p; reflexivity. }
  split.
  - intros HM Ht K. unfold get_lexeme, normalized. rewrite (L _ HM). cbn [bind].
    cbn [lexeme_f normalized_f]. rewrite E. unfold nth_res. cbn [nth_error bind fst]. rewrite E1. unfold gender_tags.
    assert (X : exists g, In (u g) (t_gr (p_tag p)) /\ In g ["masc"; "femn"]%string /\ smem (u "masc") (t_gr (p_tag p)) = String.eqb g "masc"%string).
    { clear -Ht.
      assert (A : forallb (fun l => Bool.eqb (smem (u "masc") l) true && smem (u "masc") l || negb (smem (u "masc") l) && smem (u "femn") l)
                    (initial_tags "Name" ["masc"; "femn"]%string) = true) by (vm_compute; reflexivity).
      rewrite forallb_forall in A. specialize (A _ Ht). destruct (smem (u "masc") (t_gr (p_tag p))) eqn:S.
      - exists "masc"%string. split; [apply smem_In; exact S|]. split; [left; reflexivity|reflexivity].
      - simpl in A. exists "femn"%string. split; [apply smem_In; exact A|]. split; [right; left; reflexivity|reflexivity]. }
    destruct X as (g & Hg & Hg2 & S). unfold contains.
    assert (KK : grammeme_is_known (m_tc M) (u "masc") = Ok true).
    { unfold grammeme_is_known, assert_initialized. destruct (tc_known (m_tc M)) eqn:Ek; [destruct K|]. cbn [bind].
      rewrite (proj2 (smem_In _ _) K). reflexivity. }
    rewrite S, KK. destruct Hg2 as [<-|[<-|[]]]; cbn [String.eqb Ascii.eqb Bool.eqb bind].
    + rewrite G1. destruct (filter (fun t0 : tag => smem (u "masc") (t_gr t0)) (tags_of_pattern name_pattern)) as [|t1 ts] eqn:Ef; [vm_compute in Ef; discriminate Ef|].
      cbn [nth_error bind]. exists (map (with_tag p) (t1 :: ts)), (with_tag p t1), "masc"%string.
      split; [reflexivity|]. split; [reflexivity|]. split; [exact Hg|]. split; [left; reflexivity|]. split.
      { unfold grammemes_of. rewrite map_map. cbn [with_tag p_tag]. rewrite <- Ef. exact masc_tags_eq. }
      split; [|reflexivity]. intros f [<-|Hf]; [destruct p; reflexivity|exact (WT _ _ Hf)].
    + rewrite G2. destruct (filter (fun t0 : tag => smem (u "femn") (t_gr t0)) (tags_of_pattern name_pattern)) as [|t1 ts] eqn:Ef; [vm_compute in Ef; discriminate Ef|].
      cbn [nth_error bind]. exists (map (with_tag p) (t1 :: ts)), (with_tag p t1), "femn"%string.
      split; [reflexivity|]. split; [reflexivity|]. split; [exact Hg|]. split; [right; left; reflexivity|]. split.
      { unfold grammemes_of. rewrite map_map. cbn [with_tag p_tag]. rewrite <- Ef. exact femn_tags_eq. }
      split; [|reflexivity]. intros f [<-|Hf]; [destruct p; reflexivity|exact (WT _ _ Hf)].
  - intros HM. unfold get_lexeme, normalized. rewrite (L _ HM). cbn [bind].
    cbn [lexeme_f normalized_f]. rewrite E. unfold nth_res. cbn [nth_error bind fst]. rewrite E2, T2.
    destruct (tags_of_pattern patr_pattern) as [|t1 ts] eqn:Ef; [vm_compute in Ef; discriminate Ef|]. cbn [nth_error bind].
    exists (map (with_tag p) (t1 :: ts)), (with_tag p t1). split; [reflexivity|]. split; [reflexivity|]. split.
    { unfold grammemes_of. rewrite map_map. cbn [with_tag p_tag]. rewrite <- Ef. exact patr_tags_eq. }
    split; [|reflexivity]. intros f [<-|Hf]; [destruct p; reflexivity|exact (WT _ _ Hf)].
Qed.
