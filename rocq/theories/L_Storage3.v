(** * Lemmas: interrupted saves, partial folders, meta data updates *)
From Coq Require Import String List NArith ZArith Bool Lia ZifyBool ZifyN ZifyNat.
From Verif Require Import Py Uni Tagset Dawg Dict Compile Json Storage Spec3 Spec4 L_Base L_Tagset L_Json L_Json2 L_Utf8 L_Storage L_Storage2.
Import ListNotations.
Local Open Scope nat_scope.
Local Open Scope list_scope.

(** ** Interruption of a save into a folder without meta.json *)
Definition quiet (ops : list fop) : Prop := forall o, In o ops -> ~ about (u "meta.json") o.
Definition tail_meta (s W : saving) : Prop :=
  (exists pre e, s = (pre, Err e) /\ quiet pre) \/ (exists pre, s = (pre ++ fst W, snd W) /\ quiet pre).
Lemma quiet_app : forall a b, quiet a -> quiet b -> quiet (a ++ b).
Proof. intros a b A B o H. apply in_app_or in H as [H|H]; auto. Qed.
Lemma tail_refl : forall W, tail_meta W W.
Proof. intros [o r]. right. exists []. split; [reflexivity|intros x []]. Qed.
Lemma tail_sthen : forall a s W, quiet (fst a) -> tail_meta s W -> tail_meta (sthen a s) W.
Proof.
  intros [oa [[]|e]] s W Q H; unfold sthen; cbn [fst snd] in *.
  - destruct H as [(pre & e & -> & Qp)|(pre & -> & Qp)]; cbn [fst snd].
    + left. exists (oa ++ pre), e. split; [reflexivity|apply quiet_app; assumption].
    + right. exists (oa ++ pre). rewrite <- app_assoc. split; [reflexivity|apply quiet_app; assumption].
  - left. exists oa, e. split; [reflexivity|exact Q].
Qed.
Lemma quiet_about : forall ops f, f <> u "meta.json" -> (forall o, In o ops -> about f o) -> quiet ops.
Proof. intros ops f N H o Ho A. apply N. eapply about_fun; [apply H; exact Ho|exact A]. Qed.
Lemma json_write_about : forall f v o, In o (fst (json_write f v)) -> about f o.
Proof. intros f v o. unfold json_write. destruct (json_bytes v); cbn [fst]; [apply write_about|]. intros [<-|[]]. reflexivity. Qed.
Lemma put_chunks_about : forall f cs o, In o (fst (put_chunks f cs)) -> about f o.
Proof.
  intros f cs. induction cs as [|[b|e] cs IH]; intros o H; cbn [put_chunks] in H; try destruct H. unfold sthen in H. cbn [fst snd] in H. apply in_app_or in H as [H|H]; [|exact (IH _ H)].
  apply in_map_iff in H as (x & <- & _). reflexivity.
Qed.
Lemma save_paradigms_about : forall big f ps o, In o (fst (save_paradigms big f ps)) -> about f o.
Proof.
  intros big f ps o H. unfold save_paradigms, sthen in H. cbn [fst snd] in H. destruct H as [<-|H]; [reflexivity|]. exact (put_chunks_about _ _ _ H).
Qed.
Lemma save_tail : forall io big al rows x info, tail_meta (save_compiled_dict io big al rows x info) (write_meta (u "meta.json") (save_meta x info)).
Proof.
  intros io big al rows x info. unfold save_compiled_dict.
  repeat (apply tail_sthen; [eapply quiet_about; [|first [apply json_write_about|apply save_paradigms_about|cbn [fst]; apply write_about]]; discriminate|]).
  apply tail_sthen; [|apply tail_refl]. cbn [fst]. intros o Ho A. apply in_flat_map in Ho as ([i p] & _ & Ho). apply write_about in Ho. revert A. cbn [fst] in Ho. intros A.
  apply (pred_name_other i (u "meta.json")); [apply not_pred; reflexivity|]. eapply about_fun; [exact Ho|exact A].
Qed.
Lemma frun_quiet : forall ops d, quiet ops -> sget (u "meta.json") (frun ops d) = sget (u "meta.json") d.
Proof. intros ops d Q. apply frun_other. exact Q. Qed.
Lemma no_meta : forall io big d C, sget (u "meta.json") d = None -> load_dict io big d C = (C, Err FileError).
Proof. intros io big d C H. unfold load_dict, load_meta, read_file. rewrite H. reflexivity. Qed.
Lemma bad_meta : forall io big d C b e, sget (u "meta.json") d = Some b -> json_read true b = Err e -> load_dict io big d C = (C, Err e).
Proof. intros io big d C b e H E. unfold load_dict, load_meta, read_file. rewrite H. cbn [bind]. rewrite E. reflexivity. Qed.
Lemma empty_json : forall fs, json_read fs [] = Err ValueError. Proof. reflexivity. Qed.
Lemma firstn_le_app : forall {A} n (a b : list A), n <= length a -> firstn n (a ++ b) = firstn n a.
Proof. intros A n a b H. rewrite firstn_app. replace (n - length a) with 0 by lia. rewrite firstn_O, app_nil_r. reflexivity. Qed.
Lemma interrupted : forall io io' big big' al rows x info d C n,
  let s := save_compiled_dict io big al rows x info in
  sget (u "meta.json") d = None -> (n < length (fst s) \/ snd s <> Ok tt) ->
  exists e, load_dict io' big' (frun (firstn n (fst s)) d) C = (C, Err e).
Proof.
  intros io io' big big' al rows x info d C n s M H. destruct (save_tail io big al rows x info) as [(pre & e & E & Q)|(pre & E & Q)]; fold s in E.
  - exists FileError. apply no_meta. rewrite E. cbn [fst]. rewrite frun_quiet; [exact M|]. intros o Ho. apply Q. exact (firstn_in _ _ _ Ho).
  - rewrite E in H |- *. cbn [fst snd] in *. destruct (Nat.le_gt_cases n (length pre)) as [L|L].
    + exists FileError. apply no_meta. rewrite firstn_le_app by exact L. rewrite frun_quiet; [exact M|]. intros o Ho. apply Q. exact (firstn_in _ _ _ Ho).
    + rewrite firstn_app, (firstn_all2 pre) by lia. rewrite frun_app. set (k := n - length pre). assert (K : 0 < k) by lia. set (d1 := frun pre d).
      unfold write_meta, json_write in H |- *. destruct (json_bytes (meta_json (save_meta x info))) as [b|e] eqn:B; cbn [fst snd] in *.
      * destruct H as [H|H]; [|congruence]. rewrite app_length in H. destruct (write_cut (u "meta.json") b d1 k K) as (j & J & G); [lia|].
        destruct (file_cut true (meta_json (save_meta x info)) b j) as (e & Ee); [|left; eexists; reflexivity|exact B|exact J|].
        { apply meta_json_jok. intros k' v Hkv. exact (proj1 (meta_vals _ _ _ _ Hkv)). }
        exists e. eapply bad_meta; [exact G|exact Ee].
      * exists ValueError. eapply bad_meta; [|apply empty_json]. destruct k as [|k']; [lia|]. cbn [firstn]. rewrite firstn_nil. cbn [frun fold_left fexec]. apply sget_set_same.
Qed.

(** ** Folders in which every saved file is missing or cut *)
Lemma cut_all : forall d f b (r : list N -> Prop), cut_file d f b -> (forall k, k < length b -> ~ r (firstn k b)) -> (exists c, sget f d = Some c /\ r c) -> sget f d = Some b.
Proof.
  intros d f b r [N|[k E]] H (c & Hc & Rc); [congruence|]. destruct (Nat.lt_ge_cases k (length b)) as [L|L].
  - rewrite E in Hc. injection Hc as <-. exfalso. exact (H k L Rc).
  - rewrite E, firstn_all2 by exact L. reflexivity.
Qed.
Lemma json_all : forall d f v b fs y, cut_file d f b -> jok v -> composite v -> json_bytes v = Ok b -> (let* c := read_file d f in json_read fs c) = Ok y -> sget f d = Some b.
Proof.
  intros d f v b fs y P J C B H. eapply (cut_all d f b (fun c => json_read fs c = Ok y)); [exact P| |].
  - intros k L R. destruct (file_cut fs v b k J C B L) as [e Ee]. congruence.
  - unfold read_file in H. destruct (sget f d) as [c|]; [|discriminate]. exists c. auto.
Qed.
Lemma bind_ok' : forall {A B} (r : res A) (f : A -> res B) y, bind r f = Ok y -> exists a, r = Ok a /\ f a = Ok y.
Proof. intros A B [a|e] f y H; [eauto|discriminate]. Qed.
Lemma mapM_Ok_in : forall {A B} (f : A -> res B) l r a, mapM f l = Ok r -> In a l -> exists b, f a = Ok b.
Proof. intros A B f l. induction l as [|x l IH]; intros r a H I; [destruct I|]. cbn [mapM] in H. apply bind_ok' in H as (b & E & H). apply bind_ok' in H as (bs & E2 & _). destruct I as [<-|I]; [eauto|exact (IH _ _ E2 I)]. Qed.
Lemma partial_folder : forall io big al rows x info fs d C l, saved_files io big al rows x info fs -> (forall f b, In (f, b) fs -> cut_file d f b) -> entries_fit (x_paradigms x) ->
  length (x_pred x) = length (o_prefixes (x_options x)) ->
  (forall k, k < length (io_words io (x_words x)) -> exists e, io_read_words io (firstn k (io_words io (x_words x))) = Err e) ->
  (forall p k, In p (x_pred x) -> k < length (io_pred io p) -> exists e, io_read_pred io (firstn k (io_pred io p)) = Err e) ->
  snd (load_dict io big d C) = Ok l -> holds fs d.
Proof.
  intros io big al rows x info fs d C l (bg & be & bi & bs & bm & B1 & B2 & B3 & PF & B5 & B6 & ->) P EF LP IW IP H.
  assert (PM : cut_file d (u "meta.json") bm) by (apply P; apply in_or_app; right; apply in_or_app; right; left; reflexivity).
  assert (PG : cut_file d (u "grammemes.json") bg) by (apply P; apply in_or_app; left; cbn [In]; tauto).
  assert (PI : cut_file d (u "gramtab-opencorpora-int.json") bi) by (apply P; apply in_or_app; left; cbn [In]; tauto).
  assert (PP : cut_file d (u "paradigms.array") (pbytes big (x_paradigms x))) by (apply P; apply in_or_app; left; cbn [In]; tauto).
  assert (PS : cut_file d (u "suffixes.json") bs) by (apply P; apply in_or_app; left; cbn [In]; tauto).
  assert (PW : cut_file d (u "words.dawg") (io_words io (x_words x))) by (apply P; apply in_or_app; left; cbn [In]; tauto).
  assert (PD : forall i p, nth_error (x_pred x) i = Some p -> cut_file d (pred_name i) (io_pred io p)).
  { intros i p Hi. apply P. apply in_or_app; right; apply in_or_app; left. unfold pred_files. apply in_map_iff. exists (i, p). split; [reflexivity|]. apply enum_In. exact Hi. }
  clear P. unfold load_dict in H.
  assert (MV : forall k v, In (k, v) (save_meta x info) -> jok v) by (intros k v Hkv; exact (proj1 (meta_vals _ _ _ _ Hkv))).
  match type of H with snd (match ?e with _ => _ end) = _ => destruct e as [[m rs]|] eqn:E0; [|discriminate] end. cbn [snd] in H.
  apply bind_ok' in E0 as (m1 & E1 & E0). apply bind_ok' in E0 as (u1 & _ & E0). apply bind_ok' in E0 as (j & Ej & E0). apply bind_ok' in E0 as (rs' & _ & E0). apply Ok_inj in E0. injection E0 as -> ->.
  assert (HM : sget (u "meta.json") d = Some bm).
  { unfold load_meta in E1. assert (X : exists y, (let* c := read_file d (u "meta.json") in json_read true c) = Ok y) by (destruct (read_file d (u "meta.json")) as [c|]; [|discriminate]; cbn [bind] in *; apply bind_ok' in E1 as (y & E1 & _); eauto).
    destruct X as (y & X). eapply json_all; [exact PM|exact (meta_json_jok _ MV)|left; eexists; reflexivity|exact B6|exact X]. }
  rewrite (load_meta_ok d (save_meta x info) bm) in E1; [|rewrite meta_keys_eq; exact meta_keys_nodup|exact MV|exact B6|exact HM]. rewrite no_reals_meta in E1 by (intros k v Hkv; exact (proj2 (meta_vals _ _ _ _ Hkv))). apply Ok_inj in E1. subst m.
  assert (HG : sget (u "grammemes.json") d = Some bg) by (eapply json_all; [exact PG|apply grammemes_ok|left; eexists; reflexivity|exact B1|exact Ej]).
  apply bind_ok' in H as (ts & Et & H). change (load_gramtab (save_meta x info) d) with (let* j := read_json d (u "gramtab-opencorpora-int.json") in as_strs j) in Et. apply bind_ok' in Et as (ji & Ei & _).
  assert (HI : sget (u "gramtab-opencorpora-int.json") d = Some bi) by (eapply json_all; [exact PI|apply jstrs_ok|left; eexists; reflexivity|exact B3|exact Ei]).
  apply bind_ok' in H as (gt & _ & H). apply bind_ok' in H as (js & Es & H).
  assert (HS : sget (u "suffixes.json") d = Some bs) by (eapply json_all; [exact PS|apply jstrs_ok|left; eexists; reflexivity|exact B5|exact Es]).
  apply bind_ok' in H as (sf & _ & H). apply bind_ok' in H as (pb & Epb & H). apply bind_ok' in H as (ps & Eps & H).
  assert (HP : sget (u "paradigms.array") d = Some (pbytes big (x_paradigms x))).
  { eapply (cut_all _ _ _ (fun c => load_paradigms big c = Ok ps)); [exact PP| |].
    - intros k L R. destruct (paradigms_cut big (x_paradigms x) k PF EF L) as [e Ee]. congruence.
    - unfold read_file in Epb. destruct (sget (u "paradigms.array") d) as [c|]; [|discriminate]. apply Ok_inj in Epb. subst c. eauto. }
  apply bind_ok' in H as (wb & Ewb & H). apply bind_ok' in H as (wd & Ewd & H).
  assert (HW : sget (u "words.dawg") d = Some (io_words io (x_words x))).
  { eapply (cut_all _ _ _ (fun c => io_read_words io c = Ok wd)); [exact PW| |].
    - intros k L R. destruct (IW k L) as [e Ee]. congruence.
    - unfold read_file in Ewb. destruct (sget (u "words.dawg") d) as [c|]; [|discriminate]. apply Ok_inj in Ewb. subst c. eauto. }
  apply bind_ok' in H as (px & Epx & H). change (load_prefixes (save_meta x info) d) with (as_strs (jstrs (o_prefixes (x_options x)))) in Epx. rewrite as_strs_ok in Epx. apply Ok_inj in Epx. subst px.
  apply bind_ok' in H as (pd & Epd & _). unfold load_preds in Epd.
  assert (HD : forall i p, nth_error (x_pred x) i = Some p -> sget (pred_name i) d = Some (io_pred io p)).
  { intros i p Hi. assert (Li : i < length (o_prefixes (x_options x))) by (rewrite <- LP; apply nth_error_Some; congruence).
    destruct (mapM_Ok_in _ _ _ i Epd) as [b Eb]; [apply in_seq; lia|]. eapply (cut_all _ _ _ (fun c => io_read_pred io c = Ok b)); [exact (PD i p Hi)| |].
    - intros k L R. destruct (IP p k (nth_error_In _ _ Hi) L) as [e Ee]. congruence.
    - destruct (sget (pred_name i) d) as [c|]; [|discriminate]. eauto. }
  intros f b I NE. apply in_app_or in I as [I|I]; [|apply in_app_or in I as [I|I]].
  - cbn [In] in I. repeat (destruct I as [I|I]; [injection I as <- <-; first [assumption|exfalso; apply NE; reflexivity]|]). destruct I.
  - unfold pred_files in I. apply in_map_iff in I as ([i p] & E & I). injection E as <- <-. apply enum_In in I. exact (HD i p I).
  - destruct I as [I|[]]. injection I as <- <-. exact HM.
Qed.

(** ** Values read with parse_float=str *)
Definition canon (v : jval) : Prop := jok v /\ stringified v = v.
Lemma canon_arr : forall l, Forall canon l -> canon (JArr l).
Proof.
  intros l F. unfold canon. cbn [jok stringified]. induction F as [|x l [H1 H2] F [IH1 IH2]]; [split; [exact I|reflexivity]|]. cbn [fold_right map]. split; [split; assumption|]. rewrite H2. injection IH2 as ->. reflexivity.
Qed.
Lemma canon_obj : forall l, NoDup (map fst l) -> Forall (fun kv => canon (snd kv)) l -> canon (JObj l).
Proof.
  intros l N F. unfold canon. cbn [jok stringified]. split.
  - split; [exact N|]. clear N. induction F as [|x l [H1 H2] F IH]; [exact I|]. cbn [fold_right]. split; assumption.
  - f_equal. clear N. induction F as [|[k x] l [H1 H2] F IH]; [reflexivity|]. cbn [map fst snd] in *. rewrite H2, IH. reflexivity.
Qed.
Lemma canon_number : forall s v r, scan_number true s = Ok (v, r) -> canon v.
Proof.
  intros s v r H. unfold scan_number in H.
  repeat match type of H with context [match ?e with _ => _ end] => destruct e end; try discriminate; apply Ok_inj in H; injection H as <- <-; split; first [exact I|reflexivity].
Qed.
Lemma lit_val : forall p v s x r, lit p v s = Ok (x, r) -> x = v.
Proof. intros p v s x r H. unfold lit in H. destruct (prefixb (u p) s); [|discriminate]. apply Ok_inj in H. injection H as <- _. reflexivity. Qed.
Lemma dset_forall : forall {V} (P : str * V -> Prop) k v d, (forall k0, P (k0, v)) -> Forall P d -> Forall P (sset_ k v d).
Proof.
  intros V P k v d Hv F. unfold sset_. induction F as [|[k' v'] d H F IH]; cbn [dset]; [constructor; [apply Hv|constructor]|]. destruct (str_eqb k k'); constructor; auto.
Qed.
Lemma canon_scan : forall f,
  (forall s v r, scan_value f true s = Ok (v, r) -> canon v) /\
  (forall acc s v r, Forall canon acc -> scan_items f true acc s = Ok (v, r) -> canon v) /\
  (forall acc s v r, NoDup (map fst acc) -> Forall (fun kv => canon (snd kv)) acc -> scan_members f true acc s = Ok (v, r) -> canon v).
Proof.
  intros f. induction f as [|f (IHv & IHi & IHm)]; [repeat split; intros; discriminate|]. split; [|split].
  - intros s v r H. destruct s as [|c s]; [discriminate|]. cbn [scan_value] in H.
    destruct (c =? 34)%N. { apply bind_ok' in H as (xt & _ & H). apply Ok_inj in H. injection H as <- _. split; [exact I|reflexivity]. }
    destruct (c =? 123)%N. { destruct (skip_ws s) as [|d r2]; [discriminate|]. destruct (d =? 125)%N; [apply Ok_inj in H; injection H as <- _; apply canon_obj; constructor|]. eapply IHm; [| |exact H]; constructor. }
    destruct (c =? 91)%N. { destruct (skip_ws s) as [|d r2]; [discriminate|]. destruct (d =? 93)%N; [apply Ok_inj in H; injection H as <- _; apply canon_arr; constructor|]. eapply IHi; [|exact H]; constructor. }
    assert (Sp : forall t, special_text t -> canon (JReal t)) by (intros t T; split; [right; exact T|]; destruct T as [->|[->| ->]]; reflexivity).
    destruct (c =? 110)%N; [apply lit_val in H; subst; split; [exact I|reflexivity]|]. destruct (c =? 116)%N; [apply lit_val in H; subst; split; [exact I|reflexivity]|]. destruct (c =? 102)%N; [apply lit_val in H; subst; split; [exact I|reflexivity]|].
    destruct (c =? 78)%N; [apply lit_val in H; subst; apply Sp; left; reflexivity|]. destruct (c =? 73)%N; [apply lit_val in H; subst; apply Sp; right; left; reflexivity|].
    destruct (prefixb (u "-Infinity") (c :: s)); [apply lit_val in H; subst; apply Sp; right; right; reflexivity|]. exact (canon_number _ _ _ H).
  - intros acc s v r F H. cbn [scan_items] in H. apply bind_ok' in H as ([x y] & Ex & H). cbn [fst snd] in H. pose proof (IHv _ _ _ Ex) as Cx.
    destruct (skip_ws y) as [|d r2]; [discriminate|]. destruct (d =? 93)%N.
    + apply Ok_inj in H. injection H as <- _. apply canon_arr. apply (Forall_rev (l := x :: acc)). constructor; assumption.
    + destruct (d =? 44)%N; [|discriminate]. eapply IHi; [|exact H]. constructor; assumption.
  - intros acc s v r N F H. cbn [scan_members] in H. destruct s as [|q s]; [discriminate|]. destruct (q =? 34)%N; [|discriminate]. apply bind_ok' in H as ([k y] & Ek & H). cbn [fst snd] in H.
    destruct (skip_ws y) as [|d r2]; [discriminate|]. destruct (d =? 58)%N; [|discriminate]. apply bind_ok' in H as ([x z] & Ex & H). cbn [fst snd] in H. pose proof (IHv _ _ _ Ex) as Cx.
    assert (N' : NoDup (map fst (sset_ k x acc))) by (apply dset_NoDup; [apply str_eqb_eq|exact N]). assert (F' : Forall (fun kv => canon (snd kv)) (sset_ k x acc)) by (apply dset_forall; [intros k0; exact Cx|exact F]).
    destruct (skip_ws z) as [|d4 r4]; [discriminate|]. destruct (d4 =? 125)%N; [apply Ok_inj in H; injection H as <- _; apply canon_obj; assumption|]. destruct (d4 =? 44)%N; [|discriminate]. exact (IHm _ _ _ _ N' F' H).
Qed.
Lemma canon_read : forall b v, json_read true b = Ok v -> canon v.
Proof.
  intros b v H. unfold json_read in H. apply bind_ok' in H as (s & _ & H). unfold json_loads in H. destruct s as [|c s]; [discriminate|]. destruct (c =? 65279)%N; [discriminate|].
  apply bind_ok' in H as ([x y] & E & H). cbn [fst snd] in H. destruct (skip_ws y); [|discriminate]. apply Ok_inj in H. subst x. exact (proj1 (canon_scan _) _ _ _ E).
Qed.
Lemma canon_in_arr : forall l v, canon (JArr l) -> In v l -> canon v.
Proof.
  intros l v [J S] I. cbn [jok stringified] in *. injection S as S. induction l as [|x l IH]; [destruct I|]. cbn [fold_right map] in *. injection S as S1 S2. destruct J as [J1 J2]. destruct I as [<-|I]; [split; assumption|]. exact (IH J2 S2 I).
Qed.
Lemma canon_in_obj : forall l kv, canon (JObj l) -> In kv l -> canon (snd kv).
Proof.
  intros l kv [[_ J] S] I. cbn [stringified] in S. injection S as S. induction l as [|[k x] l IH]; [destruct I|]. cbn [fold_right map fst snd] in *. injection S as S1 S2. destruct J as [J1 J2]. destruct I as [<-|I]; [split; assumption|]. exact (IH J2 S2 I).
Qed.
Lemma meta_pair_canon : forall v kv, canon v -> meta_pair v = Ok kv -> canon (snd kv).
Proof.
  intros v kv C H. unfold meta_pair in H.
  repeat match type of H with context [match ?e with _ => _ end] => is_var e; destruct e end; try discriminate; apply Ok_inj in H; subst kv; cbn [snd]; try (split; [exact I|reflexivity]).
  eapply canon_in_arr; [exact C|]. right. left. reflexivity.
Qed.
Lemma load_meta_good : forall d f m, load_meta d f = Ok m -> NoDup (map fst m) /\ forall k v, In (k, v) m -> canon v.
Proof.
  intros d f m H. unfold load_meta in H. apply bind_ok' in H as (b & _ & H). apply bind_ok' in H as (v & Ev & H). apply canon_read in Ev.
  assert (G : NoDup (map fst m) /\ Forall (fun kv => canon (snd kv)) m).
  { destruct v as [|?|?|?|s|l|l]; cbn [parse_meta] in H; try discriminate.
    - destruct s; [|discriminate]. apply Ok_inj in H. subst. split; constructor.
    - assert (X : forall l acc, Forall canon l -> NoDup (map fst acc) -> Forall (fun kv => canon (snd kv)) acc -> forall m, foldM (fun acc x => let* kv := meta_pair x in Ok (sset_ (fst kv) (snd kv) acc)) acc l = Ok m -> NoDup (map fst m) /\ Forall (fun kv : str * jval => canon (snd kv)) m).
      { clear. intros l. induction l as [|x l IH]; intros acc Fl N F m H; cbn [foldM] in H; [apply Ok_inj in H; subst; split; assumption|]. inversion Fl as [|? ? Cx Fl']; subst. apply bind_ok' in H as (acc' & E & H). apply bind_ok' in E as (kv & Ek & E). apply Ok_inj in E. subst acc'.
        pose proof (meta_pair_canon _ _ Cx Ek) as Ck. eapply IH; [exact Fl'| | |exact H]; [apply dset_NoDup; [apply str_eqb_eq|exact N]|apply dset_forall; [intros k0; exact Ck|exact F]]. }
      apply (X l []); [|constructor|constructor|exact H]. apply Forall_forall. intros x Hx. exact (canon_in_arr _ _ Ev Hx).
    - apply Ok_inj in H. subst m. split; [exact (proj1 (proj1 Ev))|]. apply Forall_forall. intros kv Hkv. exact (canon_in_obj _ _ Ev Hkv). }
  destruct G as [G1 G2]. split; [exact G1|]. intros k v' I. rewrite Forall_forall in G2. exact (G2 (k, v') I).
Qed.

(** ** update_meta *)
Lemma update_keys_nodup : forall extra m, NoDup (map fst m) -> NoDup (map fst (meta_update m extra)).
Proof. unfold meta_update. induction extra as [|[k v] extra IH]; intros m N; [exact N|]. cbn [fold_left fst snd]. apply IH. apply dset_NoDup; [apply str_eqb_eq|exact N]. Qed.
Lemma update_vals : forall (P : jval -> Prop) extra (m : meta), Forall (fun kv => P (snd kv)) m -> Forall (fun kv => P (snd kv)) extra -> Forall (fun kv => P (snd kv)) (meta_update m extra).
Proof. intros P. unfold meta_update. induction extra as [|[k v] extra IH]; intros m F G; [exact F|]. inversion G; subst. cbn [fold_left fst snd] in *. apply IH; [apply dset_forall; auto|assumption]. Qed.
Lemma stringify_sset : forall k v (m : meta), map (fun kv => (fst kv, stringified (snd kv))) (sset_ k v m) = sset_ k (stringified v) (map (fun kv => (fst kv, stringified (snd kv))) m).
Proof. intros k v m. unfold sset_. induction m as [|[k' v'] m IH]; [reflexivity|]. cbn [map dset fst snd]. destruct (str_eqb k k'); cbn [map fst snd]; [reflexivity|]. rewrite IH. reflexivity. Qed.
Lemma stringify_update : forall extra (m : meta), map (fun kv => (fst kv, stringified (snd kv))) (meta_update m extra) = meta_update (map (fun kv => (fst kv, stringified (snd kv))) m) (map (fun kv => (fst kv, stringified (snd kv))) extra).
Proof. unfold meta_update. induction extra as [|[k v] extra IH]; intros m; [reflexivity|]. cbn [map fold_left fst snd]. rewrite IH, stringify_sset. reflexivity. Qed.
Lemma load_meta_of : forall d f m b, NoDup (map fst m) -> (forall k v, In (k, v) m -> jok v) -> json_bytes (meta_json m) = Ok b -> sget f d = Some b ->
  load_meta d f = Ok (map (fun kv => (fst kv, stringified (snd kv))) m).
Proof.
  intros d f m b N J B S. unfold load_meta, read_file. rewrite S. cbn [bind]. rewrite (file_rt true _ _ (meta_json_jok _ J) B). cbn [bind rd]. rewrite meta_json_str. apply parse_meta_json. rewrite map_map. exact N.
Qed.
Definition extra_ok' (extra : list (str * jval)) : Prop := forall k v, In (k, v) extra -> jok v.
Lemma update_jok : forall m extra, (forall k v, In (k, v) m -> canon v) -> extra_ok' extra -> forall k v, In (k, v) (meta_update m extra) -> jok v.
Proof.
  intros m extra C E k v I. assert (F : Forall (fun kv => jok (snd kv)) (meta_update m extra)).
  { apply update_vals; apply Forall_forall; intros [k' v'] I'; [exact (proj1 (C _ _ I'))|exact (E _ _ I')]. }
  rewrite Forall_forall in F. exact (F _ I).
Qed.
Lemma update_done : forall d f extra m, load_meta d f = Ok m -> extra_ok' extra -> snd (update_meta d f extra) = Ok tt ->
  load_meta (frun (fst (update_meta d f extra)) d) f = Ok (meta_update m (map (fun kv => (fst kv, stringified (snd kv))) extra)).
Proof.
  intros d f extra m L E H. destruct (load_meta_good _ _ _ L) as [N C]. unfold update_meta in *. rewrite L in *. unfold write_meta in *. apply json_write_ok in H as (b & B & ->).
  rewrite (load_meta_of _ f (meta_update m extra) b); [|apply update_keys_nodup; exact N|exact (update_jok m extra C E)|exact B|apply write_get].
  rewrite stringify_update. do 2 f_equal. clear - C. induction m as [|[k v] m IH]; [reflexivity|]. cbn [map fst snd]. rewrite (proj2 (C k v (or_introl eq_refl))), IH; [reflexivity|]. intros k' v' I. exact (C k' v' (or_intror I)).
Qed.
Lemma update_cut : forall d f extra m n, load_meta d f = Ok m -> extra_ok' extra -> 0 < n -> (n < length (fst (update_meta d f extra)) \/ snd (update_meta d f extra) <> Ok tt) ->
  exists e, load_meta (frun (firstn n (fst (update_meta d f extra))) d) f = Err e.
Proof.
  intros d f extra m n L E K H. destruct (load_meta_good _ _ _ L) as [N C]. unfold update_meta in *. rewrite L in *. unfold write_meta, json_write in *.
  destruct (json_bytes (meta_json (meta_update m extra))) as [b|e] eqn:B; cbn [fst snd] in *.
  - destruct H as [H|H]; [|congruence]. destruct (write_cut f b d n K H) as (j & J & G). destruct (file_cut true (meta_json (meta_update m extra)) b j) as (e & Ee); [apply meta_json_jok; exact (update_jok m extra C E)|left; eexists; reflexivity|exact B|exact J|].
    exists e. unfold load_meta, read_file. rewrite G. cbn [bind]. rewrite Ee. reflexivity.
  - exists ValueError. destruct n as [|n]; [lia|]. cbn [firstn]. rewrite firstn_nil. cbn [frun fold_left fexec]. unfold load_meta, read_file. rewrite sget_set_same. reflexivity.
Qed.
Lemma update_other : forall d f extra g n, g <> f -> sget g (frun (firstn n (fst (update_meta d f extra))) d) = sget g d.
Proof.
  intros d f extra g n N. apply frun_other. intros o Ho A. apply firstn_in in Ho. unfold update_meta in Ho. destruct (load_meta d f); [|destruct Ho]. unfold write_meta in Ho. apply json_write_about in Ho. apply N. eapply about_fun; [exact A|exact Ho].
Qed.
(** the updated table *)
Lemma update_get : forall extra m k, NoDup (map fst extra) -> sget k (meta_update m extra) = match sget k extra with Some v => Some v | None => sget k m end.
Proof.
  unfold meta_update. induction extra as [|[k' v] extra IH]; intros m k N; [reflexivity|]. cbn [map fst] in N. inversion N as [|? ? N1 N2]; subst. cbn [fold_left fst snd]. rewrite IH by exact N2.
  unfold sget at 3. cbn [dget]. destruct (str_eqb k k') eqn:E.
  - apply str_eqb_eq in E. subst k'. fold (@sget jval). rewrite sget_set_same. assert (X : sget k extra = None) by (destruct (sget k extra) eqn:S; [|reflexivity]; apply dget_In in S; [|apply str_eqb_eq]; exfalso; apply N1; apply in_map_iff; exists (k, j); auto).
    rewrite X. reflexivity.
  - apply str_eqb_neq in E. rewrite sget_set_other by exact E. reflexivity.
Qed.
Definition knew (m : meta) (kv : str * jval) : bool := negb (smem (fst kv) (map fst m)).
Lemma sset_keys : forall (k : str) (v : jval) m, map fst (sset_ k v m) = if smem k (map fst m) then map fst m else map fst m ++ [k].
Proof.
  intros k v m. unfold sset_. induction m as [|[k' v'] m IH]; [reflexivity|]. cbn [dset map fst smem]. destruct (str_eqb k k') eqn:E; cbn [orb map fst]; [apply str_eqb_eq in E; subst; reflexivity|].
  rewrite IH. destruct (smem k (map fst m)); reflexivity.
Qed.
Lemma update_keys : forall extra m, NoDup (map fst extra) -> map fst (meta_update m extra) = map fst m ++ filter (fun k => negb (smem k (map fst m))) (map fst extra).
Proof.
  unfold meta_update. induction extra as [|[k v] extra IH]; intros m N; [cbn; rewrite app_nil_r; reflexivity|]. cbn [map fst] in N. inversion N as [|? ? N1 N2]; subst. cbn [fold_left fst snd map filter]. rewrite IH by exact N2. rewrite sset_keys.
  destruct (smem k (map fst m)) eqn:E; cbn [negb]; [reflexivity|]. rewrite <- app_assoc. cbn [app]. do 2 f_equal. apply filter_ext_in. intros k' Hk. f_equal.
  assert (Ne : k' <> k) by (intros ->; contradiction). destruct (smem k' (map fst m)) eqn:S.
  - apply smem_In. apply in_or_app. left. apply smem_In. exact S.
  - destruct (smem k' (map fst m ++ [k])) eqn:S2; [|reflexivity]. apply smem_In in S2. apply in_app_or in S2 as [S2|[S2|[]]]; [apply smem_In in S2; congruence|congruence].
Qed.

Lemma sget_stringified : forall (l : list (str * jval)) k, sget k (map (fun kv => (fst kv, stringified (snd kv))) l) = option_map stringified (sget k l).
Proof. intros l k. unfold sget. induction l as [|[k' v] l IH]; [reflexivity|]. cbn [map dget fst snd]. destruct (str_eqb k k'); [reflexivity|exact IH]. Qed.
Lemma update_updated : forall d f extra m, load_meta d f = Ok m -> extra_ok extra -> snd (update_meta d f extra) = Ok tt ->
  exists m', load_meta (frun (fst (update_meta d f extra)) d) f = Ok m' /\ updated m extra m'.
Proof.
  intros d f extra m L [N E] H. eexists. split; [exact (update_done d f extra m L E H)|]. assert (N' : NoDup (map fst (map (fun kv => (fst kv, stringified (snd kv))) extra))) by (rewrite map_map; exact N).
  split; [rewrite update_keys by exact N'; rewrite map_map; reflexivity|]. intros k. rewrite update_get by exact N'. rewrite sget_stringified. destruct (sget k extra); reflexivity.
Qed.
Lemma update_fails : forall d f extra, match load_meta d f with Err e => update_meta d f extra = ([], Err e) | Ok _ => True end.
Proof. intros d f extra. unfold update_meta. destruct (load_meta d f); auto. Qed.

(** ** Format check *)
Lemma split_none : forall c s, ~ In c s -> split_on c s = [s].
Proof. intros c s. induction s as [|x s IH]; intros H; [reflexivity|]. cbn [split_on]. destruct (N.eqb_spec x c) as [->|Ne]; [exfalso; apply H; left; reflexivity|]. rewrite IH by (intros I; apply H; right; exact I). reflexivity. Qed.
Lemma split_cons : forall c a b, ~ In c a -> split_on c (a ++ c :: b) = a :: split_on c b.
Proof.
  intros c a b. induction a as [|x a IH]; intros H; cbn [app split_on]; [rewrite N.eqb_refl; reflexivity|]. destruct (N.eqb_spec x c) as [->|Ne]; [exfalso; apply H; left; reflexivity|]. rewrite IH by (intros I; apply H; right; exact I). reflexivity.
Qed.
Lemma split_ne : forall c s, split_on c s <> [].
Proof. intros c s. destruct s as [|x s]; [discriminate|]. cbn [split_on]. destruct (x =? c)%N; [discriminate|]. destruct (split_on c s); discriminate. Qed.
Lemma split_one_inv : forall c s a, split_on c s = [a] -> s = a /\ ~ In c s.
Proof.
  intros c s. induction s as [|x s IH]; intros a H; cbn [split_on] in H; [injection H as <-; split; [reflexivity|intros []]|]. destruct (N.eqb_spec x c) as [->|Ne].
  - injection H as _ H. destruct (split_ne c s H).
  - destruct (split_on c s) as [|p ps] eqn:E; [destruct (split_ne c s E)|]. injection H as <- ->. destruct (IH p eq_refl) as [-> I]. split; [reflexivity|]. intros [->|J]; [congruence|exact (I J)].
Qed.
Lemma split_two_inv : forall c s a b, split_on c s = [a; b] -> s = a ++ c :: b /\ ~ In c a /\ ~ In c b.
Proof.
  intros c s. induction s as [|x s IH]; intros a b H; cbn [split_on] in H; [discriminate|]. destruct (N.eqb_spec x c) as [->|Ne].
  - injection H as <- H. apply split_one_inv in H as [-> I]. split; [reflexivity|]. split; [intros []|exact I].
  - destruct (split_on c s) as [|p ps] eqn:E; [destruct (split_ne c s E)|]. injection H as <- ->. destruct (IH p b eq_refl) as (-> & I & J). split; [reflexivity|]. split; [|exact J]. intros [->|K]; [congruence|exact (I K)].
Qed.
Lemma format_iff : forall m, assert_format m = Ok tt <-> exists minor, sget (u "format_version") m = Some (JStr (u "2." ++ minor)) /\ ~ In (chr ".") minor.
Proof.
  intros m. unfold assert_format. split.
  - destruct (sget (u "format_version") m) as [v|]; [|discriminate]. destruct v as [| | | |fv| |]; try discriminate. destruct (negb (mem_char (chr ".") fv)); [discriminate|].
    destruct (split_on (chr ".") fv) as [|a [|b [|? ?]]] eqn:S; try discriminate. change (split_on (chr ".") CURRENT_FORMAT_VERSION) with [u "2"; u "4"]. cbn [snd]. destruct (str_eqb a (u "2")) eqn:E; [|discriminate].
    intros _. apply str_eqb_eq in E. subst a. apply split_two_inv in S as (-> & _ & I). exists b. split; [reflexivity|exact I].
  - intros (minor & -> & I). assert (M : mem_char (chr ".") (u "2." ++ minor) = true) by reflexivity. rewrite M. cbn [negb]. change (u "2." ++ minor) with (u "2" ++ chr "." :: minor). rewrite split_cons by (intros [H|[]]; discriminate). rewrite (split_none _ _ I). reflexivity.
Qed.
Lemma format_refused : forall m, assert_format m = Ok tt \/ assert_format m = Err ValueError.
Proof.
  intros m. unfold assert_format. destruct (sget (u "format_version") m) as [v|]; [|right; reflexivity]. destruct v as [| | | |fv| |]; auto. destruct (negb (mem_char (chr ".") fv)); auto.
  destruct (split_on (chr ".") fv) as [|a [|b [|? ?]]]; auto. destruct (split_on (chr ".") CURRENT_FORMAT_VERSION) as [|? [|? [|? ?]]]; auto. destruct (str_eqb a s); auto.
Qed.
Lemma format_load : forall io big d C m, load_meta d (u "meta.json") = Ok m -> assert_format m <> Ok tt -> load_dict io big d C = (C, Err ValueError).
Proof. intros io big d C m L N. unfold load_dict. rewrite L. cbn [bind]. destruct (format_refused m) as [H|H]; [contradiction|]. rewrite H. reflexivity. Qed.
