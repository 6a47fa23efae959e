(** * The command line *)
From Coq Require Import String List NArith ZArith Bool Lia QArith Permutation Sorted.
From Verif Require Import Py Uni Tagset Dawg Utils Shapes Tokenizers Dict Units Analyzer Json Storage Create Cli Spec Spec2 Spec10.
From Verif Require Import L_Base L_Tagset L_Text.
Import ListNotations.
Local Open Scope nat_scope.
Local Open Scope list_scope.

(** ** caches *)
Definition sound_cache (f : str -> res str) (l : list (str * str)) : Prop := forall k v, In (k, v) l -> f k = Ok v.
Lemma sget_sound : forall f l k v, sound_cache f l -> sget k l = Some v -> f k = Ok v.
Proof. intros f l k v S H. apply S. apply (dget_In _ str_eqb_eq) in H. exact H. Qed.
Lemma sset_sound : forall f l k v, sound_cache f l -> f k = Ok v -> sound_cache f (sset_ k v l).
Proof. intros f l k v S E k' v' H. apply (dset_In _ str_eqb_eq) in H as [H|H]; [injection H as -> ->; exact E|exact (S _ _ H)]. Qed.
Lemma front_sound : forall f l k v, sound_cache f l -> f k = Ok v -> sound_cache f (front k v l).
Proof. intros f l k v S E k' v' [H|H]; [injection H as <- <-; exact E|]. apply filter_In in H as [H _]. exact (S _ _ H). Qed.
Lemma firstn_sound : forall f l n, sound_cache f l -> sound_cache f (firstn n l).
Proof. intros f l n S k v H. apply S. rewrite <- (firstn_skipn n l). apply in_or_app. auto. Qed.
Lemma call_sound : forall m f l k, only_forgets m -> sound_cache f l -> snd (call m f l k) = f k /\ sound_cache f (fst (call m f l k)).
Proof.
  intros m f l k F S. destruct m as [| |n|keep]; cbn [call].
  - auto.
  - destruct (sget k l) eqn:G; [rewrite (sget_sound _ _ _ _ S G); auto|]. destruct (f k) eqn:E; cbn [fst snd]; [|auto]. split; [reflexivity|]. apply sset_sound; auto.
  - destruct (sget k l) eqn:G.
    + pose proof (sget_sound _ _ _ _ S G) as E. rewrite E. cbn [fst snd]. split; [reflexivity|]. apply front_sound; auto.
    + destruct (f k) eqn:E; cbn [fst snd]; [|auto]. split; [reflexivity|]. apply firstn_sound. apply front_sound; auto.
  - cbn in F. destruct (sget k l) eqn:G.
    + rewrite (sget_sound _ _ _ _ S G). cbn [fst snd]. split; [reflexivity|]. intros k' v' H. apply S. apply F. exact H.
    + destruct (f k) eqn:E; cbn [fst snd]; (split; [reflexivity|]); intros k' v' H; apply F in H; [|exact (S _ _ H)]. apply (sset_sound f l k a S E). exact H.
Qed.
Lemma loop_plain : forall m f toks l, only_forgets m -> sound_cache f l -> loop m f l toks = loop NoCache f [] toks.
Proof.
  intros m f toks. induction toks as [|t ts IH]; intros l F S; [reflexivity|]. cbn [loop]. destruct (call_sound m f l t F S) as [E S'].
  destruct (call m f l t) as [l' r]. cbn [fst snd] in *. subst r. cbn [call]. destruct (f t); [|reflexivity]. rewrite (IH l' F S'). reflexivity.
Qed.
Lemma nil_sound : forall f, sound_cache f []. Proof. intros f k v []. Qed.
Lemma caches_agree : forall m m' f toks, only_forgets m -> only_forgets m' -> loop m f [] toks = loop m' f [] toks.
Proof. intros m m' f toks F F'. rewrite (loop_plain m f toks [] F (nil_sound f)), (loop_plain m' f toks [] F' (nil_sound f)). reflexivity. Qed.
Lemma cache_of_forgets : forall U s m, cache_of U s = Ok m -> only_forgets m.
Proof.
  intros U s m H. unfold cache_of in H. destruct (str_eqb s _); [apply Ok_inj in H; subst; exact I|]. destruct (int_text U s) as [n|]; [|discriminate H]. cbn [bind] in H.
  destruct (n =? 0)%Z; [apply Ok_inj in H; subst; exact I|]. destruct (n <? 0)%Z; apply Ok_inj in H; subst; exact I.
Qed.
Lemma sizes_agree : forall M lines tokenize score nf tag nl th s s' m m', cache_of (m_uni M) s = Ok m -> cache_of (m_uni M) s' = Ok m' ->
  cli_parse M lines tokenize score nf tag nl s th = cli_parse M lines tokenize score nf tag nl s' th.
Proof.
  intros M lines tokenize score nf tag nl th s s' m m' H H'. unfold cli_parse. destruct (formatter _ _ _ _ _ _) as [f|]; [|reflexivity]. rewrite H, H'.
  apply caches_agree; [exact (cache_of_forgets _ _ _ H)|exact (cache_of_forgets _ _ _ H')].
Qed.
Lemma bad_size : forall M lines tokenize score nf tag nl th s, s <> u "unlim" -> int_ok (m_uni M) s = false ->
  cli_parse M lines tokenize score nf tag nl s th = ([], Err ValueError).
Proof.
  intros M lines tokenize score nf tag nl th s N H. unfold cli_parse. destruct (formatter _ _ _ _ _ _) as [f|e] eqn:E.
  - assert (cache_of (m_uni M) s = Err ValueError) as ->; [|reflexivity]. unfold cache_of. destruct (str_eqb s (u "unlim")) eqn:K; [apply str_eqb_eq in K; destruct (N K)|]. unfold int_text. rewrite H. reflexivity.
  - unfold formatter in E. destruct (negb nf && negb tag); [injection E as <-; reflexivity|]. destruct (_ && _); discriminate E.
Qed.
Lemma good_size : forall U s, s = u "unlim" \/ int_ok U s = true -> exists m, cache_of U s = Ok m.
Proof.
  intros U s H. unfold cache_of. destruct (str_eqb s _) eqn:K; [eauto|]. destruct H as [->|H]; [rewrite str_eqb_refl in K; discriminate K|]. unfold int_text. rewrite H. cbn [bind]. eauto.
Qed.

(** ** records *)
Lemma tpl_record : forall nl tok items, tpl nl tok (or_join items) = record nl tok items.
Proof. intros [] tok items; reflexivity. Qed.
Lemma reaches_iff : forall s t, reaches s t = true <-> at_least s t.
Proof. intros s [q| | |]; cbn; try (split; [discriminate|tauto]); try tauto. apply Qle_bool_iff. Qed.
Lemma format_analyses : forall M score nf nl th f tok ps, formatter M score nf true nl th = Ok f -> (score = true \/ nf = true \/ th <> Fin 0 /\ float_true th = true) ->
  morph_parse M tok = Ok ps -> f tok = Ok (record nl tok (map (shown score nf) (filter (fun p => reaches (p_score p) th) ps))).
Proof.
  intros M score nf nl th f tok ps H K P. unfold formatter in H. replace (negb nf && negb true) with false in H by (destruct nf; reflexivity).
  assert (X : negb nf && negb score && negb (float_true th) = false) by (destruct K as [-> |[-> |[_ ->]]]; [destruct nf, th| |destruct nf, score]; reflexivity). rewrite X in H. apply Ok_inj in H. subst f.
  rewrite P. cbn [bind]. rewrite tpl_record. unfold shown. destruct nf, score; cbn [app]; f_equal; f_equal; apply map_ext; intros p; rewrite <- ?app_assoc; reflexivity.
Qed.
Lemma format_tags : forall M nl th f tok ts, formatter M false false true nl th = Ok f -> float_true th = false ->
  morph_tag M tok = Ok ts -> f tok = Ok (record nl tok (map t_str ts)).
Proof. intros M nl th f tok ts H K P. unfold formatter in H. rewrite K in H. cbn [negb andb] in H. apply Ok_inj in H. subst f. rewrite P. cbn [bind]. rewrite tpl_record. reflexivity. Qed.

(** weights *)
Definition wstep (d : list (str * Q)) (p : parse) : list (str * Q) := sset_ (p_nf p) ((match sget (p_nf p) d with Some w => w | None => 0%Q end) + p_score p)%Q d.
Lemma weight_app : forall l a b, (weight l (a ++ b) == weight l a + weight l b)%Q.
Proof. intros l a b. induction a as [|p a IH]; cbn [app weight]; [rewrite Qplus_0_l; reflexivity|]. rewrite IH, Qplus_assoc. reflexivity. Qed.
Record winv (done : list parse) (d : list (str * Q)) : Prop := {
  wi_nodup : NoDup (map fst d);
  wi_some : forall l w, sget l d = Some w -> In l (map p_nf done) /\ (w == weight l done)%Q;
  wi_none : forall l, sget l d = None -> ~ In l (map p_nf done);
  wi_ord : forall a b, before a b (map fst d) -> first_before a b (map p_nf done) }.
Lemma weight_absent : forall l ps, ~ In l (map p_nf ps) -> (weight l ps == 0)%Q.
Proof.
  intros l ps. induction ps as [|p ps IH]; intros H; [reflexivity|]. cbn [weight]. destruct (str_eqb (p_nf p) l) eqn:E; [apply str_eqb_eq in E; exfalso; apply H; left; exact E|].
  rewrite IH by (intro K; apply H; right; exact K). reflexivity.
Qed.
Lemma before_snoc : forall A (a b c : A) l, before a b (l ++ [c]) -> before a b l \/ (b = c /\ In a l).
Proof.
  intros A a b c l (x & y & z & E). destruct (exists_last (l := b :: z) ltac:(discriminate)) as (z' & c' & E'). rewrite E' in E.
  replace (x ++ a :: y ++ z' ++ [c']) with ((x ++ a :: y ++ z') ++ [c']) in E by (rewrite <- !app_assoc; cbn [app]; rewrite <- app_assoc; reflexivity).
  apply app_inj_tail in E as [E1 E2]. subst c'. destruct z' as [|b' z'].
  - cbn [app] in E'. injection E' as Eb Ez. subst b z. right. split; [reflexivity|]. rewrite E1. apply in_or_app. right. left. reflexivity.
  - cbn [app] in E'. injection E' as Eb Ez. subst b z. left. exists x, y, z'. exact E1.
Qed.
Lemma wstep_inv : forall done d p, winv done d -> winv (done ++ [p]) (wstep d p).
Proof.
  intros done d p [ND S N O]. unfold wstep. set (w := (_ + p_score p)%Q). constructor.
  - apply dset_NoDup; [apply str_eqb_eq|exact ND].
  - intros l v H. rewrite map_app, in_app_iff, weight_app. cbn [map weight In]. destruct (list_eq_dec N.eq_dec l (p_nf p)) as [->|NE].
    + unfold sget, sset_ in H. rewrite dget_dset_same in H by apply str_eqb_eq. injection H as <-. split; [auto|]. rewrite str_eqb_refl. unfold w.
      destruct (sget (p_nf p) d) as [v|] eqn:G; [destruct (S _ _ G) as [_ E]; rewrite E|rewrite (weight_absent _ _ (N _ G))]; ring.
    + unfold sget, sset_ in H. rewrite dget_dset_other in H by (auto; apply str_eqb_eq). destruct (S _ _ H) as [I E]. split; [auto|]. rewrite E.
      destruct (str_eqb (p_nf p) l) eqn:K; [apply str_eqb_eq in K; congruence|]. ring.
  - intros l H. destruct (list_eq_dec N.eq_dec l (p_nf p)) as [->|NE].
    + unfold sget, sset_ in H. rewrite dget_dset_same in H by apply str_eqb_eq. discriminate H.
    + unfold sget, sset_ in H. rewrite dget_dset_other in H by (auto; apply str_eqb_eq). rewrite map_app, in_app_iff. intros [I|[I|[]]]; [exact (N _ H I)|]. apply NE. symmetry. exact I.
  - intros a b B. unfold sset_ in B. rewrite dset_keys in B by apply str_eqb_eq. rewrite map_app. destruct (din str_eqb (p_nf p) d) eqn:D.
    + destruct (O _ _ B) as (x & y & E & NI & NE). exists x, (y ++ map p_nf [p]). split; [rewrite E, <- app_assoc; reflexivity|auto].
    + apply before_snoc in B as [B|[-> I]].
      * destruct (O _ _ B) as (x & y & E & NI & NE). exists x, (y ++ map p_nf [p]). split; [rewrite E, <- app_assoc; reflexivity|auto].
      * assert (G : sget (p_nf p) d = None) by (unfold sget; unfold din in D; destruct (dget str_eqb (p_nf p) d); [discriminate D|reflexivity]).
        apply N in G. apply in_map_iff in I as ((a' & v) & <- & I). cbn [fst]. pose proof (In_dget _ str_eqb_eq _ _ _ ND I) as G2. destruct (S _ _ G2) as [J _].
        apply in_split in J as (x & y & E). exists x, (y ++ map p_nf [p]). split; [rewrite E, <- app_assoc; reflexivity|]. split; [intro K; apply G; rewrite E; apply in_or_app; auto|].
        intros ->. apply G. rewrite E. apply in_or_app. right. left. reflexivity.
Qed.
Lemma weights_inv : forall ps, winv ps (lemma_weights ps).
Proof.
  intros ps. unfold lemma_weights. change (winv ps (fold_left wstep ps [])). assert (G : forall r done d, winv done d -> winv (done ++ r) (fold_left wstep r d)).
  { induction r as [|p r IH]; intros done d H; [rewrite app_nil_r; exact H|]. cbn [fold_left]. change (p :: r) with ([p] ++ r). rewrite app_assoc. apply IH. apply wstep_inv. exact H. }
  apply (G ps []). constructor; [constructor|discriminate|intros l _ []|]. intros a b (x & y & z & E). destruct x; discriminate E.
Qed.
Lemma before_filter : forall A (f : A -> bool) a b l, before a b (filter f l) -> before a b l.
Proof.
  intros A f a b l. induction l as [|x l IH]; intros (p & q & r & E); [destruct p; discriminate E|]. cbn [filter] in E. destruct (f x).
  - destruct p as [|p0 p]; cbn [app] in E; injection E as -> E.
    + assert (In b (filter f l)) as I by (rewrite E; apply in_or_app; right; left; reflexivity). apply filter_In in I as [I _]. apply in_split in I as (s & t & ->). exists [], s, t. reflexivity.
    + destruct (IH) as (s & t & v & ->); [exists p, q, r; exact E|]. exists (p0 :: s), t, v. reflexivity.
  - destruct (IH) as (s & t & v & ->); [exists p, q, r; exact E|]. exists (x :: s), t, v. reflexivity.
Qed.
Lemma before_map : forall A B (f : A -> B) a b l, before a b l -> before (f a) (f b) (map f l).
Proof. intros A B f a b l (x & y & z & ->). exists (map f x), (map f y), (map f z). rewrite map_app. cbn [map]. rewrite map_app. reflexivity. Qed.
Lemma before_filter_in : forall A (f : A -> bool) a b l, before a b l -> f a = true -> f b = true -> before a b (filter f l).
Proof. intros A f a b l (x & y & z & ->) Ha Hb. exists (filter f x), (filter f y), (filter f z). rewrite filter_app. cbn [filter]. rewrite Ha, filter_app. cbn [filter]. rewrite Hb. reflexivity. Qed.
Lemma sorted_before : forall A (R : A -> A -> Prop) l a b, StronglySorted R l -> before a b l -> R a b.
Proof.
  intros A R l a b H (x & y & z & ->). induction x as [|c x IH]; cbn [app] in H; inversion H; subst; [|auto]. rewrite Forall_forall in H3. apply H3. apply in_or_app. right. left. reflexivity.
Qed.
Definition wge (a b : str * Q) : bool := Qle_bool (snd b) (snd a).
Lemma wge_total : forall x y, wge x y = false -> wge y x = true.
Proof. intros x y H. unfold wge in *. apply Qle_bool_iff. destruct (Qlt_le_dec (snd x) (snd y)) as [L|L]; [apply Qlt_le_weak; exact L|]. apply Qle_bool_iff in L. rewrite L in H. discriminate H. Qed.
Lemma wge_trans : forall x y z, wge x y = true -> wge y z = true -> wge x z = true.
Proof. intros x y z H K. unfold wge in *. rewrite Qle_bool_iff in *. eapply Qle_trans; eauto. Qed.
Lemma lemmas_listed : forall ps th, lemma_list ps th (sort_desc wge (filter (fun lw => reaches (snd lw) th) (lemma_weights ps))).
Proof.
  intros ps th. destruct (weights_inv ps) as [ND S N O]. set (fl := filter _ _).
  assert (BF : forall a b, before a b (sort_desc wge fl) -> (snd a == snd b)%Q -> before a b fl).
  { intros a b B E. apply (before_filter _ (same_key wge a)). rewrite <- (sort_desc_stable wge wge_total wge_trans a fl). apply before_filter_in; [exact B| |]; unfold same_key, wge.
    - rewrite andb_diag. apply Qle_bool_iff, Qle_refl.
    - apply andb_true_iff. rewrite !Qle_bool_iff, E. split; apply Qle_refl. }
  constructor.
  - apply (Permutation_NoDup (l := map fst fl)); [apply Permutation_map, sort_desc_perm|]. unfold fl. clear - ND. induction (lemma_weights ps) as [|[k w] d IH]; [constructor|]. inversion ND; subst. cbn [filter snd]. destruct (reaches w th); [|auto].
    cbn [map fst]. constructor; [|auto]. intro H. apply H1. apply in_map_iff in H as (x & E & H). apply filter_In in H as [H _]. apply in_map_iff. exists x. auto.
  - intros l w H. apply sort_desc_In in H. unfold fl in H. apply filter_In in H as [H R]. cbn [snd] in R. apply reaches_iff in R. pose proof (In_dget _ str_eqb_eq _ _ _ ND H) as G. destruct (S _ _ G) as [A B]. auto.
  - intros l I A. destruct (sget l (lemma_weights ps)) as [w|] eqn:G; [|destruct (N _ G I)]. destruct (S _ _ G) as [_ E]. apply in_map_iff. exists (l, w). split; [reflexivity|]. apply sort_desc_In. unfold fl. apply filter_In.
    split; [apply (dget_In _ str_eqb_eq) in G; exact G|]. cbn [snd]. apply reaches_iff. destruct th; cbn in *; auto. rewrite E. exact A.
  - intros a b B. pose proof (sorted_before _ _ _ a b (sort_desc_sorted wge wge_total wge_trans fl) B) as H. cbn in H. apply Qle_bool_iff. exact H.
  - intros a b B E. apply O. apply before_map. apply (before_filter _ (fun lw => reaches (snd lw) th)). exact (BF _ _ B E).
Qed.
Lemma format_lemmas : forall M score nl th f tok ps, formatter M score true false nl th = Ok f -> morph_parse M tok = Ok ps ->
  exists lw, lemma_list ps th lw /\ f tok = Ok (record nl tok (map (shown_lemma score) lw)).
Proof.
  intros M score nl th f tok ps H P. unfold formatter in H. cbn [negb andb] in H. apply Ok_inj in H. subst f. rewrite P. cbn [bind]. eexists. split; [apply lemmas_listed|]. rewrite tpl_record. f_equal. f_equal.
  unfold wge, shown_lemma. destruct score; [reflexivity|]. apply map_ext. intros lw. rewrite app_nil_r. reflexivity.
Qed.
Lemma format_none : forall M score nl th, formatter M score false false nl th = Err ValueError.
Proof. reflexivity. Qed.
Lemma format_some : forall M score nf tag nl th, nf = true \/ tag = true -> exists f, formatter M score nf tag nl th = Ok f.
Proof. intros M score nf tag nl th H. unfold formatter. replace (negb nf && negb tag) with false by (destruct H as [-> | ->]; [|destruct nf]; reflexivity). destruct (_ && _); eauto. Qed.
Lemma format_record : forall M score nf tag nl th f tok r, formatter M score nf tag nl th = Ok f -> f tok = Ok r -> exists items, r = record nl tok items.
Proof.
  intros M score nf tag nl th f tok r H E. unfold formatter in H. destruct (negb nf && negb tag); [discriminate H|]. destruct (negb nf && negb score && _); apply Ok_inj in H; subst f.
  - apply bind_ok in E as (ts & _ & E). apply Ok_inj in E. subst r. rewrite tpl_record. eauto.
  - apply bind_ok in E as (ps & _ & E). apply Ok_inj in E. subst r. rewrite tpl_record. eauto.
Qed.
Lemma loop_records : forall f toks ws, loop NoCache f [] toks = (ws, Ok tt) -> Forall2 (fun t r => f t = Ok r) toks ws.
Proof.
  intros f. induction toks as [|t ts IH]; intros ws H; [injection H as <-; constructor|]. cbn [loop call] in H. destruct (f t) eqn:E; [|discriminate H]. destruct (loop NoCache f [] ts) as [w x] eqn:L. injection H as <- ->. constructor; auto.
Qed.
Lemma loop_fails : forall f toks ws e, loop NoCache f [] toks = (ws, Err e) -> exists done t rest, toks = done ++ t :: rest /\ Forall2 (fun t r => f t = Ok r) done ws /\ f t = Err e.
Proof.
  intros f. induction toks as [|t ts IH]; intros ws e H; [discriminate H|]. cbn [loop call] in H. destruct (f t) eqn:E.
  - destruct (loop NoCache f [] ts) as [w x] eqn:L. injection H as <- ->. destruct (IH _ _ eq_refl) as (done & t' & rest & -> & F & K). exists (t :: done), t', rest. split; [reflexivity|]. split; [constructor; auto|exact K].
  - injection H as <- <-. exists [], t, ts. split; [reflexivity|]. split; [constructor|exact E].
Qed.
Lemma cli_shape : forall M lines tokenize score nf tag nl s th ws x, cli_parse M lines tokenize score nf tag nl s th = (ws, x) ->
  (x = Ok tt -> exists f, formatter M score nf tag nl th = Ok f /\ Forall2 (fun t r => f t = Ok r /\ exists items, r = record nl t items) (iter_tokens (m_uni M) tokenize lines) ws) /\
  (forall e, x = Err e -> (ws = [] /\ (nf = false /\ tag = false \/ s <> u "unlim" /\ int_ok (m_uni M) s = false) /\ e = ValueError) \/
     exists f done t rest, formatter M score nf tag nl th = Ok f /\ iter_tokens (m_uni M) tokenize lines = done ++ t :: rest /\
       Forall2 (fun t r => f t = Ok r /\ exists items, r = record nl t items) done ws /\ f t = Err e).
Proof.
  intros M lines tokenize score nf tag nl s th ws x H. unfold cli_parse in H. destruct (formatter M score nf tag nl th) as [f|e] eqn:E.
  - destruct (cache_of (m_uni M) s) as [m|e] eqn:K.
    + rewrite (loop_plain m f _ [] (cache_of_forgets _ _ _ K) (nil_sound f)) in H. assert (X : forall l ws, Forall2 (fun t r => f t = Ok r) l ws -> Forall2 (fun t r => f t = Ok r /\ exists items, r = record nl t items) l ws).
      { intros l w F. induction F; constructor; auto. split; [exact H0|]. exact (format_record _ _ _ _ _ _ _ _ _ E H0). }
      split; [intros ->; exists f; split; [reflexivity|]; apply X; apply loop_records; exact H|]. intros e ->. right. apply loop_fails in H as (done & t & rest & A & B & D). exists f, done, t, rest. auto.
    + injection H as <- <-. split; [discriminate|]. intros e' H. injection H as <-. left. split; [reflexivity|]. unfold cache_of in K. destruct (str_eqb s (u "unlim")) eqn:Q; [discriminate K|]. unfold int_text in K.
      destruct (int_ok (m_uni M) s) eqn:I; [discriminate K|]. injection K as <-. split; [|reflexivity]. right. split; [intros ->; rewrite str_eqb_refl in Q; discriminate Q|reflexivity].
  - injection H as <- <-. split; [discriminate|]. intros e' H. injection H as <-. left. split; [reflexivity|]. unfold formatter in E. destruct nf, tag; cbn [negb andb] in E; try discriminate E; [destruct (_ && _) in E; discriminate E|]. injection E as <-. auto.
Qed.

(** ** lines *)
Lemma tokens_newline : forall U l text ts1 ts2, u_space U 10%N = true -> spaces_ok U -> tokens U l ts1 -> tokens U text ts2 -> tokens U (l ++ 10%N :: text) (ts1 ++ ts2).
Proof.
  intros U l text ts1 ts2 NL SO H K. assert (NW : ~ wordish U 10%N) by (intro W; destruct SO as [_ SO]; rewrite (SO _ W) in NL; discriminate NL). induction H; cbn [app].
  - apply tok_space; auto.
  - apply tok_space; auto.
  - apply tok_other; auto.
  - rewrite <- app_assoc. apply tok_run; auto. intros c r' E. destruct r as [|c0 r]; cbn [app] in E; injection E as <- _; [exact NW|]. exact (H1 _ _ eq_refl).
Qed.
Lemma lines_tokens : forall U text ls, u_space U 10%N = true -> spaces_ok U -> lines_of text ls -> iter_tokens U true ls = simple_word_tokenize U text.
Proof.
  intros U text ls NL SO H. cbn [iter_tokens]. induction H; [reflexivity|cbn [flat_map]; rewrite app_nil_r; reflexivity|]. cbn [flat_map]. symmetry. apply tokenize_tokens; [exact SO|].
  replace (simple_word_tokenize U (l ++ [10%N])) with (simple_word_tokenize U l).
  - rewrite IHlines_of. apply tokens_newline; auto; apply tokenize_spec; auto.
  - symmetry. apply tokenize_tokens; [exact SO|]. rewrite <- (app_nil_r (simple_word_tokenize U l)). apply tokens_newline; auto; [apply tokenize_spec; auto|constructor].
Qed.
