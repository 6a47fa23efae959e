(** * Lemmas: the dictionary folder *)
From Coq Require Import String List NArith ZArith Bool Lia ZifyBool ZifyN ZifyNat.
From Verif Require Import Py Uni Tagset Dawg Dict Compile Json Storage Spec4 L_Base L_Json L_Json2 L_Utf8.
Import ListNotations.
Local Open Scope nat_scope.
Local Open Scope list_scope.

(** ** File operations *)
Lemma frun_app : forall a b d, frun (a ++ b) d = frun b (frun a d).
Proof. intros a b d. apply fold_left_app. Qed.
Lemma puts : forall f b d, sget f d <> None -> sget f (frun (map (Put f) b) d) = option_map (fun c => c ++ b) (sget f d).
Proof.
  intros f b. induction b as [|x b IH]; intros d H; cbn [map].
  - cbn [frun fold_left]. destruct (sget f d); [|congruence]. cbn [option_map]. rewrite app_nil_r. reflexivity.
  - change (frun (Put f x :: map (Put f) b) d) with (frun (map (Put f) b) (fexec d (Put f x))). cbn [fexec]. rewrite IH; rewrite sget_set_same; [|discriminate].
    destruct (sget f d) as [c|]; [|congruence]. cbn [option_map]. rewrite <- app_assoc. reflexivity.
Qed.
Lemma write_get : forall f b d, sget f (frun (write_ops f b) d) = Some b.
Proof.
  intros f b d. unfold write_ops. change (frun (Create f :: map (Put f) b) d) with (frun (map (Put f) b) (sset_ f [] d)). rewrite puts; rewrite sget_set_same; [reflexivity|discriminate].
Qed.
Definition about (f : str) (o : fop) : Prop := match o with Create g => g = f | Put g _ => g = f end.
Lemma frun_other : forall ops f d, (forall o, In o ops -> ~ about f o) -> sget f (frun ops d) = sget f d.
Proof.
  induction ops as [|o ops IH]; intros f d H; [reflexivity|]. change (frun (o :: ops) d) with (frun ops (fexec d o)). rewrite IH by (intros o' Ho; apply H; right; exact Ho).
  pose proof (H o (or_introl eq_refl)) as N. destruct o as [g|g b]; cbn [fexec about] in *; apply sget_set_other; congruence.
Qed.
Lemma write_about : forall f b o, In o (write_ops f b) -> about f o.
Proof. intros f b o [<-|H]; [reflexivity|]. apply in_map_iff in H as (x & <- & _). reflexivity. Qed.
Lemma about_fun : forall f g o, about f o -> about g o -> f = g.
Proof. intros f g [h|h b]; cbn [about]; congruence. Qed.
Lemma write_other : forall f g b d, g <> f -> sget g (frun (write_ops f b) d) = sget g d.
Proof. intros f g b d N. apply frun_other. intros o Ho A. apply N. symmetry. eapply about_fun; [exact (write_about _ _ _ Ho)|exact A]. Qed.
Lemma firstn_in : forall {A} n (l : list A) x, In x (firstn n l) -> In x l.
Proof. intros A n. induction n as [|n IH]; intros [|y l] x H; cbn in H; try tauto. destruct H as [->|H]; [left; reflexivity|right; exact (IH _ _ H)]. Qed.
(** interrupted write of one file *)
Lemma write_cut : forall f b d n, 0 < n -> n < length (write_ops f b) -> exists k, k < length b /\ sget f (frun (firstn n (write_ops f b)) d) = Some (firstn k b).
Proof.
  intros f b d n H0 H. unfold write_ops in *. destruct n as [|n]; [lia|]. cbn [length] in H. rewrite map_length in H. exists n. split; [lia|]. cbn [firstn]. rewrite firstn_map.
  exact (write_get f (firstn n b) d).
Qed.

(** ** paradigms.array *)
Lemma fits_iff : forall n, fits16 n = true <-> fit n.
Proof. intros n. unfold fits16, U16MAX, fit. apply N.leb_le. Qed.
Definition le16 (n : nat) : list N := [N.of_nat n mod 256; N.of_nat n / 256]%N.
Lemma pack_ok : forall n, fit n -> pack_H n = Ok (le16 n).
Proof. intros n H. unfold pack_H. rewrite (proj2 (fits_iff n) H). reflexivity. Qed.
Lemma pack_err : forall n, ~ fit n -> pack_H n = Err StructError.
Proof. intros n H. unfold pack_H. destruct (fits16 n) eqn:E; [apply fits_iff in E; contradiction|reflexivity]. Qed.
Definition pbytes (big : bool) (ps : list (list nat)) : list N := le16 (length ps) ++ flat_map (fun p => le16 (length p) ++ flat_map (native_H big) p) ps.
Definition body (big : bool) (ps : list (list nat)) : list N := flat_map (fun p => le16 (length p) ++ flat_map (native_H big) p) ps.
Lemma put_chunks_ok : forall f cs bs, Forall2 (fun c b => c = Ok b) cs bs -> put_chunks f cs = (map (Put f) (concat bs), Ok tt).
Proof.
  intros f cs bs F. induction F as [|c b cs bs -> F IH]; [reflexivity|]. cbn [put_chunks concat]. rewrite IH. unfold sthen. cbn [fst snd]. rewrite map_app. reflexivity.
Qed.
Lemma chunks_ok : forall big ps, paras_fit ps -> exists bs, Forall2 (fun c b => c = Ok b) (paradigm_chunks big ps) bs /\ concat bs = pbytes big ps.
Proof.
  intros big ps [H1 H2]. unfold paradigm_chunks, pbytes. assert (X : exists bs, Forall2 (fun c b => c = Ok b) (flat_map (fun p => [pack_H (length p); Ok (flat_map (native_H big) p)]) ps) bs /\ concat bs = body big ps).
  { clear H1. induction ps as [|p ps IH]; [exists []; split; constructor|]. destruct IH as (bs & F & E); [intros q Hq; apply H2; right; exact Hq|].
    exists (le16 (length p) :: flat_map (native_H big) p :: bs). split.
    - cbn [flat_map app]. constructor; [apply pack_ok; apply H2; left; reflexivity|]. constructor; [reflexivity|exact F].
    - cbn [concat]. unfold body in *. cbn [flat_map]. rewrite E, <- app_assoc. reflexivity. }
  destruct X as (bs & F & E). exists (le16 (length ps) :: bs). split; [constructor; [apply pack_ok; exact H1|exact F]|]. cbn [concat]. rewrite E. reflexivity.
Qed.
Lemma save_paradigms_ok : forall big f ps, paras_fit ps -> save_paradigms big f ps = (write_ops f (pbytes big ps), Ok tt).
Proof. intros big f ps H. destruct (chunks_ok big ps H) as (bs & F & E). unfold save_paradigms. rewrite (put_chunks_ok f _ _ F), E. reflexivity. Qed.
Lemma save_paradigms_err : forall big f ps, ~ paras_fit ps -> snd (save_paradigms big f ps) = Err StructError.
Proof.
  intros big f ps H. unfold save_paradigms, sthen. cbn [fst snd]. unfold paradigm_chunks. cbn [put_chunks].
  destruct (fits16 (length ps)) eqn:E.
  - apply fits_iff in E. rewrite (pack_ok _ E). unfold sthen. cbn [fst snd].
    assert (N : ~ forall p, In p ps -> fit (length p)) by (intros Q; apply H; split; assumption). clear E H.
    induction ps as [|p ps IH]; [exfalso; apply N; intros p []|]. cbn [flat_map app put_chunks]. destruct (fits16 (length p)) eqn:F.
    + apply fits_iff in F. rewrite (pack_ok _ F). unfold sthen. cbn [fst snd put_chunks]. apply IH. intros Q. apply N. intros q [<-|Hq]; [exact F|exact (Q q Hq)].
    + rewrite pack_err by (intros Q; apply fits_iff in Q; congruence). reflexivity.
  - rewrite pack_err by (intros Q; apply fits_iff in Q; congruence). reflexivity.
Qed.
Ltac Zify.zify_post_hook ::= Z.div_mod_to_equations.
Lemma read_H_le : forall n t, fit n -> read_H (le16 n ++ t) = Ok (n, t).
Proof. intros n t H. unfold le16, fit in *. cbn [app read_H]. do 2 f_equal. lia. Qed.
Definition as_read (same : bool) (n : nat) : nat := if same then n else swap16 n.
Lemma read_items_app : forall big big' p t, (forall n, In n p -> fit n) ->
  read_items big' (length p) (flat_map (native_H big) p ++ t) = Ok (map (as_read (eqb big big')) p, t).
Proof.
  intros big big' p t. induction p as [|n p IH]; intros H; [reflexivity|]. assert (Fn : fit n) by (apply H; left; reflexivity). unfold fit in Fn.
  cbn [length read_items flat_map map]. assert (X : exists x y, native_H big n = [x; y] /\ N.to_nat (if big' then 256 * x + y else x + 256 * y) = as_read (eqb big big') n).
  { unfold native_H, as_read, swap16. destruct big, big'; cbn [eqb]; eexists _, _; (split; [reflexivity|]); lia. }
  destruct X as (x & y & -> & E). cbn [app]. rewrite IH by (intros m Hm; apply H; right; exact Hm). cbn [bind fst snd]. rewrite E. reflexivity.
Qed.
Lemma read_paras_app : forall big big' ps t, (forall p, In p ps -> fit (length p)) -> entries_fit ps ->
  read_paras big' (length ps) (body big ps ++ t) = Ok (map (map (as_read (eqb big big'))) ps).
Proof.
  intros big big' ps. induction ps as [|p ps IH]; intros t H E; [reflexivity|]. cbn [length read_paras]. unfold body in *. cbn [flat_map map]. rewrite <- !app_assoc.
  rewrite read_H_le by (apply H; left; reflexivity). cbn [bind fst snd]. rewrite read_items_app by (intros n Hn; eapply E; [left; reflexivity|exact Hn]). cbn [bind fst snd].
  rewrite IH; [reflexivity|intros q Hq; apply H; right; exact Hq|intros q n Hq; apply E; right; exact Hq].
Qed.
Lemma load_saved : forall big big' ps t, paras_fit ps -> entries_fit ps -> load_paradigms big' (pbytes big ps ++ t) = Ok (map (map (as_read (eqb big big'))) ps).
Proof.
  intros big big' ps t [H1 H2] E. unfold load_paradigms, pbytes. rewrite <- app_assoc. rewrite read_H_le by exact H1. cbn [bind fst snd]. exact (read_paras_app big big' ps t H2 E).
Qed.
(** truncated file *)
Lemma read_H_ext : forall b n r t, read_H b = Ok (n, r) -> read_H (b ++ t) = Ok (n, r ++ t) /\ length b = 2 + length r.
Proof. intros [|x [|y b]] n r t H; try discriminate. cbn [read_H app] in *. apply Ok_inj in H. injection H as <- <-. split; [reflexivity|cbn [length]; lia]. Qed.
Lemma read_items_ext : forall big n b v r t, read_items big n b = Ok (v, r) -> read_items big n (b ++ t) = Ok (v, r ++ t).
Proof.
  intros big n. induction n as [|n IH]; intros b v r t H; cbn [read_items] in *; [apply Ok_inj in H; injection H as <- <-; reflexivity|].
  destruct b as [|x [|y b]]; try discriminate. cbn [app]. destruct (read_items big n b) as [[v' r']|] eqn:E; [|discriminate]. cbn [bind fst snd] in *. apply Ok_inj in H. injection H as <- <-. rewrite (IH _ _ _ t E). reflexivity.
Qed.
(** the exact number of bytes read *)
Fixpoint read_paras' (big : bool) (n : nat) (b : list N) : res (list (list nat) * list N) :=
  match n with
  | 0 => Ok ([], b)
  | S n' => let* lb := read_H b in let* pb := read_items big (fst lb) (snd lb) in let* ps := read_paras' big n' (snd pb) in Ok (fst pb :: fst ps, snd ps)
  end.
Lemma read_paras_rest : forall big n b, read_paras big n b = rmap fst (read_paras' big n b).
Proof.
  intros big n. induction n as [|n IH]; intros b; [reflexivity|]. cbn [read_paras read_paras']. destruct (read_H b) as [[l r]|]; [|reflexivity]. cbn [bind fst snd]. destruct (read_items big l r) as [[p r2]|]; [|reflexivity]. cbn [bind fst snd].
  rewrite IH. destruct (read_paras' big n r2); reflexivity.
Qed.
Lemma read_paras_ext : forall big n b v r t, read_paras' big n b = Ok (v, r) -> read_paras' big n (b ++ t) = Ok (v, r ++ t).
Proof.
  intros big n. induction n as [|n IH]; intros b v r t H; cbn [read_paras'] in *; [apply Ok_inj in H; injection H as <- <-; reflexivity|].
  destruct (read_H b) as [[l r1]|] eqn:E1; [|discriminate]. cbn [bind fst snd] in H. rewrite (proj1 (read_H_ext _ _ _ t E1)). cbn [bind fst snd].
  destruct (read_items big l r1) as [[p r2]|] eqn:E2; [|discriminate]. cbn [bind fst snd] in H. rewrite (read_items_ext _ _ _ _ _ t E2). cbn [bind fst snd].
  destruct (read_paras' big n r2) as [[v' r']|] eqn:E3; [|discriminate]. cbn [bind fst snd] in *. apply Ok_inj in H. injection H as <- <-. rewrite (IH _ _ _ t E3). reflexivity.
Qed.
Lemma read_paras_app' : forall big ps t, (forall p, In p ps -> fit (length p)) -> entries_fit ps -> read_paras' big (length ps) (body big ps ++ t) = Ok (ps, t).
Proof.
  intros big ps. induction ps as [|p ps IH]; intros t H E; [reflexivity|]. cbn [length read_paras']. unfold body in *. cbn [flat_map]. rewrite <- !app_assoc.
  rewrite read_H_le by (apply H; left; reflexivity). cbn [bind fst snd]. rewrite read_items_app by (intros n Hn; eapply E; [left; reflexivity|exact Hn]). cbn [bind fst snd]. rewrite eqb_reflx.
  assert (X : map (as_read true) p = p) by apply map_id. rewrite X.
  rewrite IH; [reflexivity|intros q Hq; apply H; right; exact Hq|intros q n Hq; apply E; right; exact Hq].
Qed.
Lemma paradigms_cut : forall big ps k, paras_fit ps -> entries_fit ps -> k < length (pbytes big ps) -> exists e, load_paradigms big (firstn k (pbytes big ps)) = Err e.
Proof.
  intros big ps k [H1 H2] E K. destruct (load_paradigms big (firstn k (pbytes big ps))) as [v|e] eqn:L; [exfalso|exists e; reflexivity]. unfold load_paradigms in L.
  assert (T : pbytes big ps = firstn k (pbytes big ps) ++ skipn k (pbytes big ps)) by (symmetry; apply firstn_skipn).
  assert (Nb : skipn k (pbytes big ps) <> []). { intros Z. apply (f_equal (@length N)) in Z. rewrite skipn_length in Z. cbn [length] in Z. lia. }
  set (a := firstn k (pbytes big ps)) in *. set (b := skipn k (pbytes big ps)) in *.
  destruct (read_H a) as [[n r]|] eqn:R; [|discriminate]. cbn [bind fst snd] in L. destruct (read_H_ext _ _ _ b R) as [R2 _]. rewrite <- T in R2. unfold pbytes in R2. rewrite read_H_le in R2 by exact H1. apply Ok_inj in R2. pose proof (f_equal fst R2) as R1. apply (f_equal snd) in R2. cbn [fst snd] in R1, R2. subst n.
  rewrite read_paras_rest in L. destruct (read_paras' big (length ps) r) as [[v' r']|] eqn:P; [|discriminate]. pose proof (read_paras_ext _ _ _ _ _ b P) as P2.
  rewrite <- R2 in P2. pose proof (read_paras_app' big ps [] H2 E) as P3. unfold body in P3. rewrite app_nil_r in P3. rewrite P2 in P3. rename P3 into P2x. clear P2. rename P2x into P2. apply Ok_inj in P2. injection P2 as _ P2. destruct (app_eq_nil _ _ P2). contradiction.
Qed.
