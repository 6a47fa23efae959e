(** * parse() and tag() of a thread give what they give alone *)
From Coq Require Import String List NArith ZArith Bool Lia QArith.
From Verif Require Import Py Uni Tagset Dawg Utils Shapes Dict Units Analyzer Threads Spec6 Spec11.
From Verif Require Import L_Base L_Tagset L_Made L_Source L_Threads L_Threads2.
Import ListNotations.
Local Open Scope nat_scope.
Local Open Scope list_scope.

Lemma firstn_incl : forall A n (l : list A), incl (firstn n l) l. Proof. intros A n l x H. rewrite <- (firstn_skipn n l). apply in_or_app. auto. Qed.
Lemma skipn_incl : forall A n (l : list A), incl (skipn n l) l. Proof. intros A n l x H. rewrite <- (firstn_skipn n l). apply in_or_app. auto. Qed.
Lemma slice_from_incl : forall A k (l : list A), incl (slice_from l k) l. Proof. intros A k l. unfold slice_from. apply skipn_incl. Qed.
Lemma slice_to_incl : forall A k (l : list A), incl (slice_to l k) l. Proof. intros A k l. unfold slice_to. apply firstn_incl. Qed.

(** ** where the tags of tag() come from *)
Lemma dict_tag_source : forall M lower ts t, dict_tag M lower = Ok ts -> In t ts -> tag_source M t.
Proof.
  intros M lower ts t H I. unfold dict_tag in H. apply rmap_ok in H as (l & H & ->). apply in_concat in I as (x & J & I).
  destruct (mapM_In _ _ _ _ H J) as (vals & _ & E). destruct (mapM_In _ _ _ _ E I) as ([para idx] & _ & E2). eapply tag_info_source; eauto.
Qed.
Lemma dict_parse_source : forall M self lower ps p, dict_parse M self lower = Ok ps -> In p ps -> tag_source M (p_tag p).
Proof.
  intros M self lower ps p H I. unfold dict_parse in H. apply rmap_ok in H as (l & H & ->). apply in_concat in I as (x & J & I).
  destruct (mapM_In _ _ _ _ H J) as ([w vals] & _ & E). destruct (mapM_In _ _ _ _ E I) as ([para idx] & _ & E2).
  apply bind_ok in E2 as (nf & _ & E2). apply bind_ok in E2 as (t & T & E2). apply Ok_inj in E2. subst p. cbn [p_tag]. eapply tag_info_source; eauto.
Qed.
Lemma add_tags_source : forall (P : tag -> Prop) l st, (forall t, In t (fst st) -> P t) -> (forall t, In t l -> P t) ->
  forall t, In t (fst (fold_left add_tag_if_not_seen l st)) -> P t.
Proof.
  intros P l. induction l as [|x l IH]; intros [res seen] A B; cbn [fold_left]; [exact A|]. apply IH; [|intros t I; apply B; right; exact I].
  unfold add_tag_if_not_seen. destruct (tag_mem x seen); cbn [fst] in *; [exact A|]. intros t I. apply in_app_iff in I as [I|[<-|[]]]; [auto|]. apply B. left. reflexivity.
Qed.
Section TagSource.
  Variable M : morph.
  Variables (recP : str -> res (list parse)) (recT : str -> res (list tag)).
  Hypothesis HP : forall w ps p, recP w = Ok ps -> In p ps -> tag_source M (p_tag p).
  Hypothesis HT : forall w ts t, recT w = Ok ts -> In t ts -> tag_source M t.
  Notation src := (fun st : list tag * list tag => forall t, In t (fst st) -> tag_source M t).
  Lemma tags_step_source : forall st ts, src st -> (forall t, In t ts -> tag_source M t) -> src (tags_step st ts).
  Proof. intros st ts A B. unfold tags_step. apply add_tags_source; [exact A|]. intros t I. apply filter_In in I. apply B, I. Qed.
  Lemma kst_source : forall lower st ip st', (forall x, In x (kt_res st) -> tag_source M (snd x)) -> kst_prefix M lower st ip = Ok st' -> forall x, In x (kt_res st') -> tag_source M (snd x).
  Proof.
    intros lower st ip st' S H. unfold kst_prefix in H. apply bind_ok in H as (dawg & _ & H). revert st S H. generalize (ks_splits (m_dict M)) as is. intros is.
    induction is as [|i is IH]; intros st S H; cbn [kst_lengths] in H; [apply Ok_inj in H; subst; exact S|]. apply bind_ok in H as (st1 & E & H).
    assert (S1 : forall x, In x (kt_res st1) -> tag_source M (snd x)); [|destruct (kt_found st1); [apply Ok_inj in H; subst; exact S1|exact (IH _ S1 H)]].
    unfold kst_at in E. refine (foldM_inv (fun s : kstst => forall x, In x (kt_res s) -> tag_source M (snd x)) _ _ _ _ _ _ E); [exact S|].
    intros s sv s' _ Q F. cbn beta in F. refine (foldM_inv (fun s : kstst => forall x, In x (kt_res s) -> tag_source M (snd x)) _ _ _ _ _ _ F); [exact Q|].
    intros s2 [[cnt para] idx] s3 _ Q2 F2. unfold kst_step in F2. apply bind_ok in F2 as (t & T & F2). destruct (negb (is_productive t)); [apply Ok_inj in F2; subst; exact Q2|].
    destruct (tag_mem t (kt_seen s2)); apply Ok_inj in F2; subst s3; cbn [kt_res]; [exact Q2|]. intros x I. apply in_app_iff in I as [I|[<-|[]]]; [auto|]. cbn [snd]. eapply tag_info_source; eauto.
  Qed.
  Lemma unit_tag_source : forall i b tm word lower seen r, nth_error (m_units M) i = Some (b, tm) -> unit_tag recP recT M i b word lower seen = Ok r -> src r.
  Proof.
    intros i b tm word lower seen r N H. unfold unit_tag in H. assert (BT := unit_source M i b tm).
    assert (SH : forall ts, (let* ts := shape_tags (m_uni M) b word in Ok (ts, seen)) = Ok ts -> src ts).
    { intros ts E. apply bind_ok in E as (l & E & F). apply Ok_inj in F. subst ts. unfold shape_tags in E. apply bind_ok in E as (x & E & F). destruct x; apply Ok_inj in F; subst l; intros t' I; [|destruct I].
      destruct I as [<-|[]]. apply shape_source in E. eauto. }
    destruct (b_cfg b) as [|first letters pat sc|sc|sc|sc|sc|parts mult|mult|skip mult|pfx mult mr|mult|mult ml|]; eauto.
    - apply bind_ok in H as (ts & E & H). apply Ok_inj in H. subst r. intros t I. eapply dict_tag_source; eauto.
    - apply Ok_inj in H. subst r. cbn [fst]. intros t I. destruct (smem word letters); [eauto|destruct I].
    - unfold particle_tag in H. destruct (particle_splits parts lower) as [|[w p] l]; [apply Ok_inj in H; subst r; intros t []|]. apply bind_ok in H as (ts & E & H). apply Ok_inj in H. subst r. intros t I. eauto.
    - apply bind_ok in H as (ok & _ & H). destruct (negb ok); [apply Ok_inj in H; subst r; intros t []|]. apply bind_ok in H as (t0 & E & H). apply nth_res_In in E.
      destruct (tag_mem t0 seen); apply Ok_inj in H; subst r; intros t I; [destruct I|destruct I as [<-|[]]; eauto].
    - unfold default_tag in H. apply bind_ok in H as (pr & E & H). apply Ok_inj in H. subst r. apply add_tags_source; [intros t []|]. intros t I. apply in_map_iff in I as (p & <- & I).
      unfold hyph_parse in E. destruct (negb (hyph_should_parse M skip lower)); [apply Ok_inj in E; subst; destruct I|]. destruct (split_once HY lower) as [lw [rw|]]; [|discriminate E].
      apply bind_ok in E as (ls & E1 & E). apply bind_ok in E as (rs & E2 & E). apply Ok_inj in E. subst pr. cbn [fst] in I. apply in_app_iff in I as [I|I].
      + unfold variable_both in I. apply in_flat_map in I as (l & J & I). destruct (tag_is_unknown (p_tag l)); [destruct I|]. apply in_map_iff in I as (x & <- & I). cbn [both_parse p_tag]. eauto.
      + unfold fixed_left in I. apply in_map_iff in I as (x & <- & I). apply filter_In in I as [I _]. cbn [fixed_left_parse p_tag]. eauto.
    - unfold kp_tag in H. refine (foldM_inv src _ _ _ _ _ _ H); [intros t []|]. intros s x s' _ A E. apply bind_ok in E as (ts & E & F). apply Ok_inj in F. subst s'. apply tags_step_source; eauto.
    - unfold up_tag in H. refine (foldM_inv src _ _ _ _ _ _ H); [intros t []|]. intros s x s' _ A E. apply bind_ok in E as (ts & E & F). apply Ok_inj in F. subst s'. apply tags_step_source; [exact A|]. intros t I. eapply dict_tag_source; eauto.
    - unfold ks_tag in H. destruct (length word <? ml); [apply Ok_inj in H; subst r; intros t []|]. apply bind_ok in H as (st & E & H). apply Ok_inj in H. subst r. cbn [fst]. intros t I. apply in_map_iff in I as (x & <- & I). apply sort_desc_In in I.
      refine (foldM_inv (fun s : kstst => forall x, In x (kt_res s) -> tag_source M (snd x)) _ _ _ _ _ _ E x I); [intros y []|]. intros s ip s' _ Q F. exact (kst_source _ _ _ _ Q F).
    - destruct seen as [|s0 seen]; [|apply Ok_inj in H; subst r; intros t []]. apply bind_ok in H as (t0 & E & H). apply nth_res_In in E. apply Ok_inj in H. subst r. intros t [<-|[]]. eauto.
  Qed.
  Lemma run_tag_source : forall word lower us i acc seen r, (forall k b tm, nth_error us k = Some (b, tm) -> nth_error (m_units M) (i + k) = Some (b, tm)) ->
    (forall t, In t acc -> tag_source M t) -> run_tag recP recT M word lower i us acc seen = Ok r -> forall t, In t r -> tag_source M t.
  Proof.
    intros word lower us. induction us as [|[b tm] us IH]; intros i acc seen r N A H; cbn [run_tag] in H; [apply Ok_inj in H; subst; exact A|].
    apply bind_ok in H as ([ts seen'] & E & H). assert (S : forall t, In t (acc ++ ts) -> tag_source M t).
    { intros t I. apply in_app_iff in I as [I|I]; [auto|]. refine (unit_tag_source i b tm _ _ _ _ _ E t I). specialize (N 0 b tm eq_refl). rewrite Nat.add_0_r in N. exact N. }
    destruct (tm && _); [apply Ok_inj in H; subst; exact S|]. refine (IH _ _ _ _ _ S H). intros k b0 tm0 K. specialize (N (Datatypes.S k) b0 tm0 K). rewrite <- plus_n_Sm in N. exact N.
  Qed.
End TagSource.
Lemma tag_source_f : forall n M word ts t, tag_f n M word = Ok ts -> In t ts -> tag_source M t.
Proof.
  induction n as [|n IH]; intros M word ts t H I; [discriminate H|]. unfold tag_f in H. cbn [analyze snd] in H. apply bind_ok in H as (r & E & H).
  assert (J : In t r). { destruct (m_prob M); apply Ok_inj in H; subst ts; [|exact I]. unfold apply_to_tags in I. apply sort_desc_In in I. exact I. }
  refine (run_tag_source M _ _ (fun w ps p K L => parse_source_f n M w ps p K L) (fun w ts t K L => IH M w ts t K L) _ _ _ 0 _ _ _ _ _ E t J); [auto|intros t' []].
Qed.

(** ** the invariants of L_Threads2, and a predicate on programs *)
Section Ok.
  Variables (U : uni) (tag_of : nat -> tag) (func : str -> res str).
  Variable I : mem -> Prop.
  Hypothesis I_caches : forall m, I m -> caches U tag_of func m.
  Hypothesis I_latin : forall m c b, I m -> u_latin U c = Some b -> I (fst (exec (LatinSetdefault c b) m)).
  Hypothesis I_gr : forall m o, I m -> I (fst (exec (SetGr o (t_gr (tag_of o))) m)).
  (** exceptions that may replace the result *)
  Variable bad : exn -> Prop.
  Definition ok_or {A} (x r : res A) : Prop := r = x \/ exists e, r = Err e /\ bad e.
  Notation okp x m p := (safe I grows (ok_or x) m p).
  Variable M : morph.
  Variable o : tag -> nat.
  Variable C : tagclass.
  Hypothesis MU : m_uni M = U.
  Hypothesis OB : forall t, tag_source M t -> tag_of (o t) = t.
  Notation ADV := (map u ["ADJF"; "sing"; "datv"]%string).
  (** the words analyzed; the test of the hyphen unit for adverbs is only made on words that start with по- *)
  Variable W : str -> Prop.
  Hypothesis W_sub : forall w x, W w -> incl x (u_lower U w) -> W x.
  Notation TestOk := (forall os m, okp (any_contains C ADV (map tag_of os)) m (any_contains_t tag_of ADV os)).
  Hypothesis H_any : forall w b tm mult, W w -> In (b, tm) (m_units M) -> b_cfg b = UHAdverb mult -> prefixb (u "по-") (u_lower U w) = true -> TestOk.
  Notation MC := (in_class C M).

  Lemma ok_ret : forall A (r : res A) m, okp r m (Ret r). Proof. intros. constructor. left. reflexivity. Qed.
  Lemma ok_bind : forall A B (x : res A) (f : A -> res B) p g m, okp x m p -> (forall a m', x = Ok a -> okp (f a) m' (g a)) -> okp (bind x f) m (pbind p g).
  Proof.
    intros A B x f p g m H K. apply (safe_bind I grows grows_refl grows_trans _ _ _ _ _ _ _ H).
    - intros a m' _ [E|(e & E & _)]; [|discriminate E]. subst x. cbn [bind]. apply K. reflexivity.
    - intros e [E|(e' & E & Be)]; [subst x; left; reflexivity|]. injection E as ->. right. eauto.
  Qed.
  Lemma ok_fold : forall A S (f : S -> A -> res S) g l s m, (forall s x m, In x l -> okp (f s x) m (g s x)) -> okp (foldM f s l) m (pfold g s l).
  Proof.
    intros A S f g l. induction l as [|x l IH]; intros s m H; cbn [foldM pfold]; [apply ok_ret|]. apply ok_bind; [apply H; left; reflexivity|]. intros s' m' _. apply IH. intros; apply H; right; auto.
  Qed.
  Lemma ok_map : forall A B (f : A -> B) g l m, (forall x m, In x l -> okp (Ok (f x)) m (g x)) -> okp (Ok (map f l)) m (pmap g l).
  Proof.
    intros A B f g l. induction l as [|x l IH]; intros m H; cbn [map pmap]; [apply ok_ret|].
    change (okp (let* y := Ok (f x) in let* ys := Ok (map f l) in Ok (y :: ys)) m (pbind (g x) (fun y => pbind (pmap g l) (fun ys => ret (y :: ys))))).
    apply ok_bind; [apply H; left; reflexivity|]. intros y m' _. apply ok_bind; [apply IH; intros; apply H; right; auto|]. intros ys m2 _. apply ok_ret.
  Qed.
  Lemma ok_filter : forall A (f : A -> bool) g l m, (forall x m, In x l -> okp (Ok (f x)) m (g x)) -> okp (Ok (filter f l)) m (pfilter g l).
  Proof.
    intros A f g l. induction l as [|x l IH]; intros m H; cbn [filter pfilter]; [apply ok_ret|].
    change (okp (let* b := Ok (f x) in let* r := Ok (filter f l) in Ok (if b : bool then x :: r else r)) m (pbind (g x) (fun b => pbind (pfilter g l) (fun r => ret (if b then x :: r else r))))).
    apply ok_bind; [apply H; left; reflexivity|]. intros y m' _. apply ok_bind; [apply IH; intros; apply H; right; auto|]. intros ys m2 _. apply ok_ret.
  Qed.
  Lemma ok_eq : forall A (x y : res A) m p, x = y -> okp x m p -> okp y m p. Proof. intros. subst. auto. Qed.
  (** shared state *)
  Lemma ok_grammemes : forall t m, tag_source M t -> okp (Ok (Some (t_gr t))) m (grammemes_t tag_of (o t)).
  Proof.
    intros t m S. apply (safe_weaken I grows _ (eq (Ok (Some (t_gr (tag_of (o t))))))).
    - intros r <-. left. rewrite (OB t S). reflexivity.
    - apply (s_grammemes U tag_of func I I_caches I_gr).
  Qed.
  Lemma ok_latin : forall s m, okp (is_latin U s) m (is_latin_t U s).
  Proof. intros s m. apply (safe_weaken I grows _ (eq (is_latin U s))); [intros r <-; left; reflexivity|]. apply (s_is_latin U tag_of func I I_caches I_latin). Qed.
  Lemma ok_productive : forall t m, tag_source M t -> okp (Ok (is_productive t)) m (productive_p tag_of o t).
  Proof. intros t m S. apply (ok_bind _ _ (Ok (Some (t_gr t))) (fun gs => Ok (match sinter (the_set gs) NON_PRODUCTIVE with [] => true | _ => false end))); [apply ok_grammemes; exact S|]. intros a m' _. apply ok_ret. Qed.
  Lemma ok_features : forall t m, tag_source M t -> okp (Ok (similarity_features t)) m (features_p tag_of o t).
  Proof. intros t m S. apply (ok_bind _ _ (Ok (Some (t_gr t))) (fun gs => Ok (replace_grammemes (sinter (the_set gs) FEATURE_GRAMMEMES) [(u "gen1", u "gent"); (u "loc1", u "loct")]))); [apply ok_grammemes; exact S|]. intros a m' _. apply ok_ret. Qed.
  Lemma ok_any : forall ts m, TestOk -> (forall t, In t ts -> tag_source M t) -> okp (any_contains C ADV ts) m (any_contains_t tag_of ADV (map o ts)).
  Proof.
    intros ts m H S. apply (ok_eq _ (any_contains C ADV (map tag_of (map o ts)))); [|apply H]. f_equal. rewrite map_map. rewrite <- (map_id ts) at 2. apply map_ext_in. intros t J. apply OB. auto.
  Qed.
  (** prefixes *)
  Lemma ok_prefix_step : forall self mult prefix st ps m, (forall p, In p ps -> tag_source M (p_tag p)) -> okp (Ok (prefix_step self mult prefix st ps)) m (prefix_step_p tag_of o self mult prefix st ps).
  Proof.
    intros self mult prefix st ps m S. apply (ok_bind _ _ (Ok (filter (fun p => is_productive (p_tag p)) ps)) (fun l => Ok (fold_left add_parse_if_not_seen (map (prefixed self mult prefix) l) st))).
    - apply ok_filter. intros p m' J. apply ok_productive. auto.
    - intros l m' _. apply ok_ret.
  Qed.
  Lemma ok_tags_step : forall st ts m, (forall t, In t ts -> tag_source M t) -> okp (Ok (tags_step st ts)) m (tags_step_p tag_of o st ts).
  Proof.
    intros st ts m S. apply (ok_bind _ _ (Ok (filter is_productive ts)) (fun l => Ok (fold_left add_tag_if_not_seen l st))); [apply ok_filter; intros; apply ok_productive; auto|]. intros l m' _. apply ok_ret.
  Qed.
  Section Rec.
  Variables (rP : str -> res (list parse)) (rT : str -> res (list tag)) (qP : str -> prog (list parse)) (qT : str -> prog (list tag)).
  Hypothesis RP : forall w m, W w -> okp (rP w) m (qP w).
  Hypothesis RT : forall w m, W w -> okp (rT w) m (qT w).
  Hypothesis SP : forall w ps p, rP w = Ok ps -> In p ps -> tag_source M (p_tag p).
  Hypothesis ST : forall w ts t, rT w = Ok ts -> In t ts -> tag_source M t.
  Notation Wl lower := (forall x, incl x lower -> W x).
  Lemma ok_kp_parse : forall self pfx mult mr lower seen m, Wl lower -> okp (kp_parse rP MC self pfx mult mr lower seen) m (kp_parse_p tag_of M o qP self pfx mult mr lower seen).
  Proof. intros self pfx mult mr lower seen m L. apply ok_fold. intros s [pre rest] m' J. apply (kp_splits_In M) in J as (_ & -> & _). apply ok_bind; [apply RP, L, incl_appr, incl_refl|]. intros ps m2 E. apply ok_prefix_step. eauto. Qed.
  Lemma ok_kp_tag : forall pfx mr lower seen m, Wl lower -> okp (kp_tag rT MC pfx mr lower seen) m (kp_tag_p tag_of M o qT pfx mr lower seen).
  Proof. intros pfx mr lower seen m L. apply ok_fold. intros s [pre rest] m' J. apply (kp_splits_In M) in J as (_ & -> & _). apply ok_bind; [apply RT, L, incl_appr, incl_refl|]. intros ps m2 E. apply ok_tags_step. eauto. Qed.
  Lemma ok_up_parse : forall self sub mult lower seen m, okp (up_parse MC self sub mult lower seen) m (up_parse_p tag_of M o self sub mult lower seen).
  Proof. intros. apply ok_fold. intros s [pre rest] m' _. apply (ok_bind _ _ (dict_parse M sub rest) (fun ps => Ok (prefix_step self mult pre s ps))); [apply ok_ret|]. intros ps m2 E. apply ok_prefix_step. intros p J. eapply dict_parse_source; eauto. Qed.
  Lemma ok_up_tag : forall lower seen m, okp (up_tag MC lower seen) m (up_tag_p tag_of M o lower seen).
  Proof. intros. apply ok_fold. intros s pr m' _. apply (ok_bind _ _ (dict_tag M (snd pr)) (fun ts => Ok (tags_step s ts))); [apply ok_ret|]. intros ps m2 E. apply ok_tags_step. intros p J. eapply dict_tag_source; eauto. Qed.
  (** suffixes *)
  Lemma ok_ks_step : forall self sub pid fw fs st v m, okp (ks_step MC self sub pid fw fs st v) m (ks_step_p tag_of M o self sub pid fw fs st v).
  Proof.
    intros self sub pid fw fs st [[cnt para] idx] m. unfold ks_step, ks_step_p. cbn [m_dict in_class]. apply ok_bind; [apply ok_ret|]. intros t m1 E.
    change (okp (let* ok := Ok (is_productive t) in if negb ok then Ok st else (let total := ks_total st + cnt in let k := SKey fw t (PNum para) in
      if seen_mem k (ks_seen st) then Ok {| ks_res := ks_res st; ks_seen := ks_seen st; ks_total := total |}
      else let* nf := build_normal_form (m_dict M) para idx fw in
        Ok {| ks_res := ks_res st ++ [{| k_cnt := cnt; k_word := fw; k_tag := t; k_nf := nf; k_pid := pid; k_stack := [MDict sub fw para idx; MStr self fs] |}]; ks_seen := k :: ks_seen st; ks_total := total |})) m1
      (pbind (productive_p tag_of o t) (fun ok => if negb ok then ret st else (let total := ks_total st + cnt in let k := SKey fw t (PNum para) in
      if seen_mem k (ks_seen st) then ret {| ks_res := ks_res st; ks_seen := ks_seen st; ks_total := total |}
      else pbind (Ret (build_normal_form (m_dict M) para idx fw)) (fun nf =>
        ret {| ks_res := ks_res st ++ [{| k_cnt := cnt; k_word := fw; k_tag := t; k_nf := nf; k_pid := pid; k_stack := [MDict sub fw para idx; MStr self fs] |}]; ks_seen := k :: ks_seen st; ks_total := total |}))))).
    apply ok_bind; [apply ok_productive; eapply tag_info_source; eauto|]. intros ok m2 _. destruct (negb ok); [apply ok_ret|]. cbv zeta. destruct (seen_mem _ _); [apply ok_ret|]. apply ok_bind; [apply ok_ret|]. intros nf m3 _. apply ok_ret.
  Qed.
  Lemma ok_ks_at : forall self sub pid dawg lower st i m, okp (ks_at MC self sub pid dawg lower st i) m (ks_at_p tag_of M o self sub pid dawg lower st i).
  Proof. intros. apply ok_fold. intros s [fs vals] m' _. apply ok_fold. intros s2 v m2 _. apply ok_ks_step. Qed.
  Lemma ok_ks_lengths : forall self sub pid dawg lower is st m, okp (ks_lengths MC self sub pid dawg lower st is) m (ks_lengths_p tag_of M o self sub pid dawg lower st is).
  Proof. intros self sub pid dawg lower is. induction is as [|i is IH]; intros st m; cbn [ks_lengths ks_lengths_p]; [apply ok_ret|]. apply ok_bind; [apply ok_ks_at|]. intros st' m' _. destruct (1 <? ks_total st'); [apply ok_ret|apply IH]. Qed.
  Lemma ok_ks_prefix : forall self sub mult lower acc ip m, okp (ks_prefix MC self sub mult lower acc ip) m (ks_prefix_p tag_of M o self sub mult lower acc ip).
  Proof. intros self sub mult lower acc [pid pre] m. unfold ks_prefix, ks_prefix_p. cbn [fst]. apply ok_bind; [apply ok_ret|]. intros dawg m1 _. apply ok_bind; [apply ok_ks_lengths|]. intros st m2 _. apply ok_ret. Qed.
  Lemma ok_ks_parse : forall self sub mult ml word lower seen m, okp (ks_parse MC self sub mult ml word lower seen) m (ks_parse_p tag_of M o self sub mult ml word lower seen).
  Proof. intros. unfold ks_parse, ks_parse_p. destruct (length word <? ml); [apply ok_ret|]. apply ok_bind; [apply ok_fold; intros; apply ok_ks_prefix|]. intros r m' _. apply ok_ret. Qed.
  Lemma ok_kst_step : forall st v m, okp (kst_step MC st v) m (kst_step_p tag_of M o st v).
  Proof.
    intros st [[cnt para] idx] m. unfold kst_step, kst_step_p. cbn [m_dict in_class]. apply ok_bind; [apply ok_ret|]. intros t m1 E.
    apply (ok_eq _ (let* ok := Ok (is_productive t) in Ok (if negb ok then st
       else if tag_mem t (kt_seen st) then {| kt_res := kt_res st; kt_seen := kt_seen st; kt_found := true |}
       else {| kt_res := kt_res st ++ [(cnt, t)]; kt_seen := t :: kt_seen st; kt_found := true |}))).
    { cbn [bind]. destruct (negb (is_productive t)); [reflexivity|]. destruct (tag_mem t (kt_seen st)); reflexivity. }
    apply ok_bind; [apply ok_productive; eapply tag_info_source; eauto|]. intros ok m2 _. apply ok_ret.
  Qed.
  Lemma ok_kst_prefix : forall lower st ip m, okp (kst_prefix MC lower st ip) m (kst_prefix_p tag_of M o lower st ip).
  Proof.
    intros lower st ip m. unfold kst_prefix, kst_prefix_p. apply ok_bind; [apply ok_ret|]. intros dawg m1 _. cbn [m_dict in_class]. generalize (ks_splits (m_dict M)) as is. intros is. revert st m1.
    induction is as [|i is IH]; intros st m1; cbn [kst_lengths kst_lengths_p]; [apply ok_ret|]. apply ok_bind; [apply ok_fold; intros; apply ok_fold; intros; apply ok_kst_step|]. intros st' m' _. destruct (kt_found st'); [apply ok_ret|apply IH].
  Qed.
  Lemma ok_ks_tag : forall ml word lower seen m, okp (ks_tag MC ml word lower seen) m (ks_tag_p tag_of M o ml word lower seen).
  Proof. intros. unfold ks_tag, ks_tag_p. destruct (length word <? ml); [apply ok_ret|]. apply ok_bind; [apply ok_fold; intros; apply ok_kst_prefix|]. intros r m' _. apply ok_ret. Qed.
  (** hyphens *)
  Lemma ok_particle_parse : forall self parts mult lower seen m, Wl lower -> okp (particle_parse rP self parts mult lower seen) m (particle_parse_p qP self parts mult lower seen).
  Proof. intros self parts mult lower seen m L. unfold particle_parse, particle_parse_p. destruct (particle_splits parts lower) as [|[w p] l] eqn:E; [apply ok_ret|]. assert (J : In (w, p) (particle_splits parts lower)) by (rewrite E; left; reflexivity). apply particle_splits_In in J as (_ & _ & _ & <- & _). apply ok_bind; [apply RP, L, slice_to_incl|]. intros; apply ok_ret. Qed.
  Lemma ok_particle_tag : forall parts lower seen m, Wl lower -> okp (particle_tag rT parts lower seen) m (particle_tag_p qT parts lower seen).
  Proof. intros parts lower seen m L. unfold particle_tag, particle_tag_p. destruct (particle_splits parts lower) as [|[w p] l] eqn:E; [apply ok_ret|]. assert (J : In (w, p) (particle_splits parts lower)) by (rewrite E; left; reflexivity). apply particle_splits_In in J as (_ & _ & _ & <- & _). apply ok_bind; [apply RT, L, slice_to_incl|]. intros; apply ok_ret. Qed.
  Lemma ok_adverb : forall lower m, Wl lower -> (prefixb (u "по-") lower = true -> TestOk) -> okp (adverb_should_parse rT MC lower) m (adverb_should_parse_p tag_of o qT lower).
  Proof.
    intros lower m L T. unfold adverb_should_parse, adverb_should_parse_p. destruct ((length lower <? 5) || negb (prefixb (u "по-") lower)) eqn:B; [apply ok_ret|]. apply orb_false_elim in B as [_ B]. apply negb_false_iff in B.
    apply ok_bind; [apply RT, L, slice_from_incl|]. intros ts m' E. apply ok_any; [auto|eauto].
  Qed.
  Lemma combine_map : forall A B (f : A -> B) l, combine l (map f l) = map (fun x => (x, f x)) l. Proof. intros A B f l. induction l; cbn; congruence. Qed.
  Lemma ok_both : forall self mult ls rs m, (forall p, In p ls -> tag_source M (p_tag p)) -> (forall p, In p rs -> tag_source M (p_tag p)) ->
    okp (Ok (variable_both self mult ls rs)) m (variable_both_p tag_of o self mult ls rs).
  Proof.
    intros self mult ls rs m Sl Sr. unfold variable_both_p.
    apply (ok_bind _ _ (Ok (map (fun r => similarity_features (p_tag r)) rs)) (fun _ => Ok (variable_both self mult ls rs))); [apply (ok_map _ _ (fun r => similarity_features (p_tag r))); intros; apply ok_features; auto|].
    intros feats m1 E. apply Ok_inj in E. subst feats. rewrite combine_map.
    apply (ok_eq _ (let* l := Ok (map (fun l => if tag_is_unknown (p_tag l) then [] else map (both_parse self mult l) (filter (fun r => seq_set (similarity_features (p_tag l)) (similarity_features (p_tag r))) rs)) ls) in Ok (concat l))).
    { cbn [bind]. unfold variable_both. rewrite flat_map_concat_map. reflexivity. }
    apply ok_bind; [|intros; apply ok_ret]. apply ok_map. intros l m2 J. destruct (tag_is_unknown (p_tag l)); [apply ok_ret|].
    apply (ok_eq _ (let* f := Ok (similarity_features (p_tag l)) in Ok (map (fun rf => both_parse self mult l (fst rf)) (filter (fun rf => seq_set f (snd rf)) (map (fun r => (r, similarity_features (p_tag r))) rs))))).
    { cbn [bind]. f_equal. clear. induction rs as [|r rs IH]; cbn [map filter fst snd]; [reflexivity|]. destruct (seq_set _ _); cbn [map fst]; rewrite IH; reflexivity. }
    apply ok_bind; [apply ok_features; auto|]. intros; apply ok_ret.
  Qed.
  Lemma ok_hyph : forall self skip mult lower seen m, Wl lower -> okp (hyph_parse rP MC self skip mult lower seen) m (hyph_parse_p tag_of M o qP self skip mult lower seen).
  Proof.
    intros self skip mult lower seen m L. unfold hyph_parse, hyph_parse_p. change (hyph_should_parse MC skip lower) with (hyph_should_parse M skip lower). destruct (negb (hyph_should_parse M skip lower)); [apply ok_ret|].
    destruct (split_once HY lower) as [lw [rw|]] eqn:E; [|apply ok_ret]. apply split_once_spec in E as [-> _]. apply ok_bind; [apply RP, L, incl_appl, incl_refl|]. intros ls m1 E1. apply ok_bind; [apply RP, L, incl_appr, incl_tl, incl_refl|]. intros rs m2 E2.
    apply (ok_bind _ _ (Ok (variable_both self mult ls rs)) (fun both => Ok (both ++ fixed_left self mult lw rs, seen))); [apply ok_both; eauto|]. intros; apply ok_ret.
  Qed.
  Lemma ok_latin_tag : forall b sc word m, b_cfg b = ULatin sc -> okp (shape_tag (m_uni M) b word) m (latin_tag_p U b word).
  Proof. intros b sc word m E. unfold shape_tag, latin_tag_p. rewrite E, MU. apply ok_bind; [apply ok_latin|]. intros l m' _. destruct l; apply ok_ret. Qed.
  Lemma ok_unit_parse : forall i b word lower seen m, Wl lower -> (forall mult, b_cfg b = UHAdverb mult -> prefixb (u "по-") lower = true -> TestOk) -> okp (unit_parse rP rT MC i b word lower seen) m (unit_parse_p U tag_of M o qP qT i b word lower seen).
  Proof.
    intros i b word lower seen m L T. unfold unit_parse, unit_parse_p. cbn [m_uni in_class]. cbv zeta. destruct (b_cfg b) as [|first letters pat sc|sc|sc|sc|sc|parts mult|mult|skip mult|pfx mult mr|mult|mult ml|] eqn:EC; try (unfold unit_parse; rewrite EC; apply ok_ret).
    - apply (ok_eq _ (let* t := shape_tag (m_uni M) b word in Ok (match t with Some t => [{| p_word := lower; p_tag := t; p_nf := lower; p_score := sc; p_stack := [MStr (Root i) word] |}] | None => [] end, seen))).
      { unfold shape_parse. destruct (shape_tag (m_uni M) b word) as [[t|]|e]; reflexivity. }
      apply ok_bind; [eapply ok_latin_tag; eauto|]. intros; apply ok_ret.
    - apply ok_particle_parse, L.
    - apply ok_bind; [apply ok_adverb; [exact L|exact (T mult eq_refl)]|]. intros ok m1 _. destruct ok; [|apply ok_ret]. apply ok_bind; [apply ok_ret|]. intros; apply ok_ret.
    - apply ok_hyph, L.
    - apply ok_kp_parse, L.
    - apply ok_up_parse.
    - apply ok_ks_parse.
  Qed.
  Lemma ok_unit_tag : forall i b word lower seen m, Wl lower -> (forall mult, b_cfg b = UHAdverb mult -> prefixb (u "по-") lower = true -> TestOk) -> okp (unit_tag rP rT MC i b word lower seen) m (unit_tag_p U tag_of M o qP qT i b word lower seen).
  Proof.
    intros i b word lower seen m L T. unfold unit_tag, unit_tag_p. cbn [m_uni in_class]. cbv zeta. destruct (b_cfg b) as [|first letters pat sc|sc|sc|sc|sc|parts mult|mult|skip mult|pfx mult mr|mult|mult ml|] eqn:EC; try (unfold unit_tag; rewrite EC; apply ok_ret).
    - apply (ok_eq _ (let* t := shape_tag (m_uni M) b word in Ok (match t with Some t => [t] | None => [] end, seen))).
      { unfold shape_tags. destruct (shape_tag (m_uni M) b word) as [[t|]|e]; reflexivity. }
      apply ok_bind; [eapply ok_latin_tag; eauto|]. intros; apply ok_ret.
    - apply ok_particle_tag, L.
    - apply ok_bind; [apply ok_adverb; [exact L|exact (T mult eq_refl)]|]. intros ok m1 _. destruct (negb ok); [apply ok_ret|]. apply ok_bind; [apply ok_ret|]. intros t m2 _. destruct (tag_mem t seen); apply ok_ret.
    - apply ok_bind; [apply ok_hyph, L|]. intros; apply ok_ret.
    - apply ok_kp_tag, L.
    - apply ok_up_tag.
    - apply ok_ks_tag.
  Qed.
  Lemma ok_run_parse : forall word lower us i acc seen m, Wl lower -> (forall b tm mult, In (b, tm) us -> b_cfg b = UHAdverb mult -> prefixb (u "по-") lower = true -> TestOk) -> okp (run_parse rP rT MC word lower i us acc seen) m (run_parse_p U tag_of M o qP qT word lower i us acc seen).
  Proof.
    intros word lower us. induction us as [|[b tm] us IH]; intros i acc seen m L T; cbn [run_parse run_parse_p]; [apply ok_ret|]. apply ok_bind; [apply ok_unit_parse; [exact L|intros mult E; exact (T b tm mult (or_introl eq_refl) E)]|]. intros [ps seen'] m1 _. cbn [fst snd]. cbv zeta. destruct (tm && _); [apply ok_ret|apply IH; [exact L|intros b0 tm0 mult J; exact (T b0 tm0 mult (or_intror J))]].
  Qed.
  Lemma ok_run_tag : forall word lower us i acc seen m, Wl lower -> (forall b tm mult, In (b, tm) us -> b_cfg b = UHAdverb mult -> prefixb (u "по-") lower = true -> TestOk) -> okp (run_tag rP rT MC word lower i us acc seen) m (run_tag_p U tag_of M o qP qT word lower i us acc seen).
  Proof.
    intros word lower us. induction us as [|[b tm] us IH]; intros i acc seen m L T; cbn [run_tag run_tag_p]; [apply ok_ret|]. apply ok_bind; [apply ok_unit_tag; [exact L|intros mult E; exact (T b tm mult (or_introl eq_refl) E)]|]. intros [ps seen'] m1 _. cbn [fst snd]. cbv zeta. destruct (tm && _); [apply ok_ret|apply IH; [exact L|intros b0 tm0 mult J; exact (T b0 tm0 mult (or_intror J))]].
  Qed.
  End Rec.
  Lemma ok_analyze : forall n, (forall w m, W w -> okp (parse_f n MC w) m (fst (analyze_p U tag_of M o n) w)) /\ (forall w m, W w -> okp (tag_f n MC w) m (snd (analyze_p U tag_of M o n) w)).
  Proof.
    induction n as [|n [IP IT]]; [split; intros; apply ok_ret|]. assert (SP := parse_source_f n MC). assert (ST := tag_source_f n MC).
    split; intros w m Ww; unfold parse_f, tag_f; cbn [analyze analyze_p fst snd]; cbv zeta; (apply ok_bind; [|intros; apply ok_ret]); cbn [m_uni in_class]; rewrite MU; cbn [m_units].
    - apply (ok_run_parse (parse_f n MC) (tag_f n MC)); auto; [intros x J; exact (W_sub w x Ww J)|]. intros b tm mult J E. exact (H_any w b tm mult Ww J E).
    - apply (ok_run_tag (parse_f n MC) (tag_f n MC)); auto; [intros x J; exact (W_sub w x Ww J)|]. intros b tm mult J E. exact (H_any w b tm mult Ww J E).
  Qed.
  Lemma ok_parse : forall w m, W w -> okp (morph_parse MC w) m (parse_p U tag_of M o w). Proof. intros w m. apply ok_analyze. Qed.
  Lemma ok_tag : forall w m, W w -> okp (morph_tag MC w) m (tag_p U tag_of M o w). Proof. intros w m. apply ok_analyze. Qed.
End Ok.

(** ** parse() and tag() are put together from these *)
Section Class.
  Variables (U : uni) (tag_of : nat -> tag) (M : morph) (o : tag -> nat).
  Variable T : forall A, prog A -> Prop.
  Hypothesis T_ret : forall A (r : res A), T A (Ret r).
  Hypothesis T_bind : forall A B (p : prog A) (f : A -> prog B), T A p -> (forall a, T B (f a)) -> T B (pbind p f).
  Hypothesis T_gr : forall i, T _ (grammemes_t tag_of i).
  Hypothesis T_latin : forall s, T _ (is_latin_t U s).
  Hypothesis T_any : forall gs os, T _ (any_contains_t tag_of gs os).
  Lemma T_filter : forall A (f : A -> prog bool) l, (forall x, T _ (f x)) -> T _ (pfilter f l).
  Proof. intros A f l H. induction l as [|x l IH]; [apply T_ret|]. cbn [pfilter]. apply T_bind; [auto|]. intros b. apply T_bind; [auto|]. intros; apply T_ret. Qed.
  Lemma T_fold : forall A S (f : S -> A -> prog S) l s, (forall s x, T _ (f s x)) -> T _ (pfold f s l).
  Proof. intros A S f l. induction l as [|x l IH]; intros s H; [apply T_ret|]. cbn [pfold]. apply T_bind; auto. Qed.
  Lemma T_map : forall A B (f : A -> prog B) l, (forall x, T _ (f x)) -> T _ (pmap f l).
  Proof. intros A B f l H. induction l as [|x l IH]; [apply T_ret|]. cbn [pmap]. apply T_bind; [auto|]. intros b. apply T_bind; [auto|]. intros; apply T_ret. Qed.
  Lemma T_productive : forall t, T _ (productive_p tag_of o t). Proof. intros. apply T_bind; [apply T_gr|]. intros; apply T_ret. Qed.
  Lemma T_features : forall t, T _ (features_p tag_of o t). Proof. intros. apply T_bind; [apply T_gr|]. intros; apply T_ret. Qed.
  Ltac tt_ := repeat first [apply T_ret | apply T_productive | apply T_features | apply T_gr | apply T_latin | apply T_any | apply T_bind | apply T_filter | apply T_fold | apply T_map | intros ?].
  Lemma T_prefix_step : forall self mult pre st ps, T _ (prefix_step_p tag_of o self mult pre st ps). Proof. intros. unfold prefix_step_p, ret. tt_. Qed.
  Lemma T_tags_step : forall st ts, T _ (tags_step_p tag_of o st ts). Proof. intros. unfold tags_step_p, ret. tt_. Qed.
  Lemma T_ks_step : forall self sub pid fw fs st v, T _ (ks_step_p tag_of M o self sub pid fw fs st v).
  Proof. intros self sub pid fw fs st [[cnt para] idx]. unfold ks_step_p, ret. tt_. destruct (negb a0); tt_. cbv zeta. destruct (seen_mem _ _); tt_. Qed.
  Lemma T_ks_lengths : forall self sub pid dawg lower is st, T _ (ks_lengths_p tag_of M o self sub pid dawg lower st is).
  Proof. intros self sub pid dawg lower is. induction is as [|i is IH]; intros st; [apply T_ret|]. cbn [ks_lengths_p]. apply T_bind; [unfold ks_at_p; apply T_fold; intros; apply T_fold; intros; apply T_ks_step|]. intros st'. destruct (1 <? ks_total st'); [apply T_ret|apply IH]. Qed.
  Lemma T_kst_step : forall st v, T _ (kst_step_p tag_of M o st v). Proof. intros st [[cnt para] idx]. unfold kst_step_p, ret. tt_. Qed.
  Lemma T_kst_lengths : forall dawg lower is st, T _ (kst_lengths_p tag_of M o dawg lower st is).
  Proof. intros dawg lower is. induction is as [|i is IH]; intros st; [apply T_ret|]. cbn [kst_lengths_p]. apply T_bind; [unfold kst_at_p; apply T_fold; intros; apply T_fold; intros; apply T_kst_step|]. intros st'. destruct (kt_found st'); [apply T_ret|apply IH]. Qed.
  Section Rec.
    Variables (qP : str -> prog (list parse)) (qT : str -> prog (list tag)).
    Hypothesis QP : forall w, T _ (qP w).
    Hypothesis QT : forall w, T _ (qT w).
    Lemma T_adverb : forall lower, T _ (adverb_should_parse_p tag_of o qT lower). Proof. intros. unfold adverb_should_parse_p. destruct (_ || _); [apply T_ret|]. apply T_bind; auto. Qed.
    Lemma T_hyph : forall self skip mult lower seen, T _ (hyph_parse_p tag_of M o qP self skip mult lower seen).
    Proof.
      intros. unfold hyph_parse_p. destruct (negb _); [apply T_ret|]. destruct (split_once HY lower) as [lw [rw|]]; [|apply T_ret]. apply T_bind; [auto|]. intros ls. apply T_bind; [auto|]. intros rs. apply T_bind; [|intros; apply T_ret].
      unfold variable_both_p. apply T_bind; [tt_|]. intros feats. apply T_bind; [|intros; apply T_ret]. apply T_map. intros l. destruct (tag_is_unknown _); unfold ret; tt_.
    Qed.
    Lemma T_latin_tag : forall b w, T _ (latin_tag_p U b w). Proof. intros. unfold latin_tag_p. apply T_bind; [apply T_latin|]. intros []; apply T_ret. Qed.
    Lemma T_unit_parse : forall i b word lower seen, T _ (unit_parse_p U tag_of M o qP qT i b word lower seen).
    Proof.
      intros. unfold unit_parse_p. cbv zeta. destruct (b_cfg b); try apply T_ret.
      - apply T_bind; [apply T_latin_tag|]. intros; apply T_ret.
      - unfold particle_parse_p. destruct (particle_splits _ _) as [|[w p] l]; [apply T_ret|]. apply T_bind; [auto|]. intros; apply T_ret.
      - apply T_bind; [apply T_adverb|]. intros []; [|apply T_ret]. apply T_bind; [apply T_ret|]. intros; apply T_ret.
      - apply T_hyph.
      - apply T_fold. intros. apply T_bind; [auto|]. intros; apply T_prefix_step.
      - apply T_fold. intros. apply T_bind; [apply T_ret|]. intros; apply T_prefix_step.
      - unfold ks_parse_p. destruct (length word <? _); [apply T_ret|]. apply T_bind; [|intros; apply T_ret]. apply T_fold. intros. unfold ks_prefix_p. apply T_bind; [apply T_ret|]. intros. apply T_bind; [apply T_ks_lengths|]. intros; apply T_ret.
    Qed.
    Lemma T_unit_tag : forall i b word lower seen, T _ (unit_tag_p U tag_of M o qP qT i b word lower seen).
    Proof.
      intros. unfold unit_tag_p. cbv zeta. destruct (b_cfg b); try apply T_ret.
      - apply T_bind; [apply T_latin_tag|]. intros; apply T_ret.
      - unfold particle_tag_p. destruct (particle_splits _ _) as [|[w p] l]; [apply T_ret|]. apply T_bind; [auto|]. intros; apply T_ret.
      - apply T_bind; [apply T_adverb|]. intros a. destruct (negb a); [apply T_ret|]. apply T_bind; [apply T_ret|]. intros; apply T_ret.
      - apply T_bind; [apply T_hyph|]. intros; apply T_ret.
      - apply T_fold. intros. apply T_bind; [auto|]. intros; apply T_tags_step.
      - apply T_fold. intros. apply T_bind; [apply T_ret|]. intros; apply T_tags_step.
      - unfold ks_tag_p. destruct (length word <? _); [apply T_ret|]. apply T_bind; [|intros; apply T_ret]. apply T_fold. intros. unfold kst_prefix_p. apply T_bind; [apply T_ret|]. intros. apply T_kst_lengths.
    Qed.
    Lemma T_run_parse : forall word lower us i acc seen, T _ (run_parse_p U tag_of M o qP qT word lower i us acc seen).
    Proof. intros word lower us. induction us as [|[b tm] us IH]; intros i acc seen; cbn [run_parse_p]; [apply T_ret|]. apply T_bind; [apply T_unit_parse|]. intros out. cbv zeta. destruct (tm && _); [apply T_ret|apply IH]. Qed.
    Lemma T_run_tag : forall word lower us i acc seen, T _ (run_tag_p U tag_of M o qP qT word lower i us acc seen).
    Proof. intros word lower us. induction us as [|[b tm] us IH]; intros i acc seen; cbn [run_tag_p]; [apply T_ret|]. apply T_bind; [apply T_unit_tag|]. intros out. cbv zeta. destruct (tm && _); [apply T_ret|apply IH]. Qed.
  End Rec.
  Lemma T_analyze : forall n, (forall w, T _ (fst (analyze_p U tag_of M o n) w)) /\ (forall w, T _ (snd (analyze_p U tag_of M o n) w)).
  Proof.
    induction n as [|n [IP IT]]; [split; intros; apply T_ret|]. split; intros w; cbn [analyze_p fst snd]; cbv zeta; (apply T_bind; [|intros; apply T_ret]); [apply T_run_parse; auto|apply T_run_tag; auto].
  Qed.
  Lemma T_parse : forall w, T _ (parse_p U tag_of M o w). Proof. intros. apply T_analyze. Qed.
  Lemma T_tag : forall w, T _ (tag_p U tag_of M o w). Proof. intros. apply T_analyze. Qed.
End Class.

(** ** a conditional result *)
Lemma safe_inv : forall I L A (P : res A -> Prop) m (p : prog A), safe I L P m p ->
  match p with Ret r => P r | Do o k => forall m', L m m' -> I m' -> safe I L P (fst (exec o m')) (k (snd (exec o m'))) end.
Proof. intros I L A P m p H. destruct H; auto. Qed.
Lemma safe_imp : forall I L A (P : res A -> Prop) (H : Prop) m (p : prog A), safe I L (fun _ => True) m p -> (H -> safe I L P m p) -> safe I L (fun r => H -> P r) m p.
Proof.
  intros I L A P H m p S. induction S as [m r S|m R o k S1 S2 IH]; intros K.
  - constructor. intros h. exact (safe_inv _ _ _ _ _ _ (K h)).
  - constructor; [exact S1|]. intros m' L' I'. apply IH; auto. intros h. exact (safe_inv _ _ _ _ _ _ (K h) m' L' I').
Qed.
