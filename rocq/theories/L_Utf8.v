(** * Lemmas: UTF-8 files *)
From Coq Require Import String List NArith ZArith Bool Lia ZifyBool ZifyN.
From Verif Require Import Py Json Spec4 L_Base L_Json L_Json2.
Import ListNotations.
Local Open Scope nat_scope.
Local Open Scope list_scope.
Ltac Zify.zify_post_hook ::= Z.div_mod_to_equations.

Definition bytes_for (c : char) : list N :=
  (if c <? 128 then [c]
   else if c <? 2048 then [192 + c / 64; 128 + c mod 64]
   else if c <? 65536 then [224 + c / 4096; 128 + c / 64 mod 64; 128 + c mod 64]
   else [240 + c / 262144; 128 + c / 4096 mod 64; 128 + c / 64 mod 64; 128 + c mod 64])%N.
Lemma enc1_ok : forall c, scalar c -> enc1 c = Ok (bytes_for c).
Proof.
  intros c H. unfold enc1, bytes_for. destruct (c <? 128)%N; [reflexivity|]. destruct (c <? 2048)%N; [reflexivity|]. replace (between 55296 c 57343) with false.
  - destruct (c <? 65536)%N; [reflexivity|]. replace (c <? 1114112)%N with true; [reflexivity|]. unfold scalar in H. symmetry. lia.
  - unfold between, scalar in *. symmetry. lia.
Qed.
Lemma encode_ok : forall s, text s -> utf8_encode s = Ok (concat (map bytes_for s)).
Proof.
  intros s H. unfold utf8_encode. assert (X : mapM enc1 s = Ok (map bytes_for s)).
  { induction s as [|c s IH]; [reflexivity|]. cbn [mapM map]. rewrite enc1_ok by (apply H; left; reflexivity). cbn [bind]. rewrite IH by (intros x Hx; apply H; right; exact Hx). reflexivity. }
  rewrite X. reflexivity.
Qed.
Lemma enc1_scalar : forall c b, enc1 c = Ok b -> scalar c.
Proof.
  intros c b. unfold enc1, scalar. destruct (c <? 128)%N eqn:E1; [intros _; lia|]. destruct (c <? 2048)%N eqn:E2; [intros _; lia|].
  destruct (between 55296 c 57343) eqn:B; [discriminate|]. unfold between in B. destruct (c <? 65536)%N eqn:E3; [intros _; lia|]. destruct (c <? 1114112)%N eqn:E4; [intros _; lia|discriminate].
Qed.
Lemma encode_text : forall s b, utf8_encode s = Ok b -> text s.
Proof.
  induction s as [|c s IH]; intros b H x Hx; [destruct Hx|]. unfold utf8_encode in *. cbn [mapM] in H. destruct (enc1 c) as [bc|] eqn:E; [|discriminate]. cbn [bind] in H.
  destruct (mapM enc1 s) as [bs|] eqn:M; [|discriminate]. destruct Hx as [<-|Hx]; [exact (enc1_scalar _ _ E)|]. exact (IH _ eq_refl x Hx).
Qed.
Lemma is_cont_low : forall x, (x < 64)%N -> is_cont (128 + x)%N = true.
Proof. intros x H. unfold is_cont, between. lia. Qed.
Ltac low := apply N.mod_lt; discriminate.
Lemma read_char : forall c t, scalar c -> utf8_read (bytes_for c ++ t) = let* s := utf8_read t in Ok (c :: s).
Proof.
  intros c t S. unfold bytes_for. destruct (c <? 128)%N eqn:E1; [cbn [app utf8_read]; rewrite E1; reflexivity|].
  destruct (c <? 2048)%N eqn:E2.
  - cbn [app utf8_read]. replace (192 + c / 64 <? 128)%N with false by lia. replace (between 194 (192 + c / 64) 223) with true by (unfold between; lia).
    rewrite is_cont_low by low. destruct (utf8_read t); [|reflexivity]. cbn [bind]. do 2 f_equal. lia.
  - destruct (c <? 65536)%N eqn:E3.
    + cbn [app utf8_read]. replace (224 + c / 4096 <? 128)%N with false by lia. replace (between 194 (224 + c / 4096) 223) with false by (unfold between; lia).
      replace (between 224 (224 + c / 4096) 239) with true by (unfold between; lia).
      rewrite !is_cont_low by low. destruct (utf8_read t); [|reflexivity]. cbn [bind]. do 2 f_equal. lia.
    + assert (B : (c < 1114112)%N) by (unfold scalar in S; lia). cbn [app utf8_read]. replace (240 + c / 262144 <? 128)%N with false by lia. replace (between 194 (240 + c / 262144) 223) with false by (unfold between; lia).
      replace (between 224 (240 + c / 262144) 239) with false by (unfold between; lia). replace (between 240 (240 + c / 262144) 244) with true by (unfold between; lia).
      rewrite !is_cont_low by low. destruct (utf8_read t); [|reflexivity]. cbn [bind]. do 2 f_equal. lia.
Qed.
Lemma read_text : forall s, text s -> utf8_read (concat (map bytes_for s)) = Ok s.
Proof.
  induction s as [|c s IH]; intros H; [reflexivity|]. cbn [map concat]. rewrite read_char by (apply H; left; reflexivity). rewrite IH by (intros x Hx; apply H; right; exact Hx). reflexivity.
Qed.
Lemma read_cut : forall c k, scalar c -> k < length (bytes_for c) -> utf8_read (firstn k (bytes_for c)) = Ok [].
Proof.
  intros c k S. unfold bytes_for. destruct (c <? 128)%N eqn:E1; [|destruct (c <? 2048)%N eqn:E2; [|destruct (c <? 65536)%N eqn:E3]]; cbn [length]; intros K.
  - replace k with 0 by lia. reflexivity.
  - destruct k as [|[|k]]; [reflexivity| |lia]. cbn [firstn utf8_read]. replace (192 + c / 64 <? 128)%N with false by lia. replace (between 194 (192 + c / 64) 223) with true by (unfold between; lia). reflexivity.
  - assert (L0 : (224 + c / 4096 <? 128)%N = false) by lia. assert (L1 : between 194 (224 + c / 4096) 223 = false) by (unfold between; lia). assert (L2 : between 224 (224 + c / 4096) 239 = true) by (unfold between; lia).
    destruct k as [|[|[|k]]]; [reflexivity| | |lia]; cbn [firstn utf8_read]; rewrite L0, L1, L2; [reflexivity|]. rewrite is_cont_low by low. reflexivity.
  - assert (B : (c < 1114112)%N) by (unfold scalar in S; lia).
    assert (L0 : (240 + c / 262144 <? 128)%N = false) by lia. assert (L1 : between 194 (240 + c / 262144) 223 = false) by (unfold between; lia). assert (L2 : between 224 (240 + c / 262144) 239 = false) by (unfold between; lia).
    assert (L3 : between 240 (240 + c / 262144) 244 = true) by (unfold between; lia).
    destruct k as [|[|[|[|k]]]]; [reflexivity| | | |lia]; cbn [firstn utf8_read]; rewrite L0, L1, L2, L3; [reflexivity| |]; rewrite !is_cont_low by low; reflexivity.
Qed.
(** what is read from a truncated file is a proper prefix of the text *)
Lemma read_prefix : forall s k, text s -> k < length (concat (map bytes_for s)) -> exists p t, s = p ++ t /\ t <> [] /\ utf8_read (firstn k (concat (map bytes_for s))) = Ok p.
Proof.
  induction s as [|c s IH]; intros k H K; [cbn in K; lia|]. cbn [map concat] in *. rewrite app_length in K. rewrite firstn_app.
  assert (Sc : scalar c) by (apply H; left; reflexivity). destruct (Nat.lt_ge_cases k (length (bytes_for c))) as [L|L].
  - exists [], (c :: s). split; [reflexivity|]. split; [discriminate|]. replace (k - length (bytes_for c)) with 0 by lia. rewrite firstn_O, app_nil_r. apply read_cut; assumption.
  - destruct (IH (k - length (bytes_for c))) as (p & t & -> & N & R); [intros x Hx; apply H; right; exact Hx|lia|]. exists (c :: p), t. split; [reflexivity|]. split; [exact N|].
    rewrite firstn_all2 by exact L. rewrite read_char by exact Sc. rewrite R. reflexivity.
Qed.
(** the text of an encodable value is encodable *)
Lemma ascii_text : forall s, forallb (fun c => c <? 128)%N s = true -> text s.
Proof. intros s H c Hc. rewrite forallb_forall in H. specialize (H c Hc). unfold scalar. lia. Qed.
Lemma text_app : forall a b, text a -> text b -> text (a ++ b).
Proof. intros a b A B c H. apply in_app_or in H as [H|H]; auto. Qed.
Lemma text_nl : forall n, text (nl n).
Proof. intros n c [<-|H]; [left; lia|]. apply repeat_spec in H. subst. left. lia. Qed.
Lemma text_join : forall sep l, text sep -> Forall text l -> text (join sep l).
Proof.
  intros sep l S F. induction F as [|x l Hx F IH]; [intros c []|]. destruct l as [|y l]; [exact Hx|]. rewrite join_cons2. apply text_app; [exact Hx|]. apply text_app; [exact S|exact IH].
Qed.
Lemma text_digits : forall s, (forall c, In c s -> is_digit c = true) -> text s.
Proof. intros s H c Hc. apply H in Hc. apply digit_range in Hc. left. lia. Qed.
Lemma text_jstr : forall s, text s -> text (jstr s).
Proof.
  intros s H. unfold jstr. apply text_app; [apply ascii_text; reflexivity|]. apply text_app; [|apply ascii_text; reflexivity].
  intros c Hc. apply in_flat_map in Hc as (x & Hx & Hc). unfold esc_char in Hc.
  repeat match type of Hc with context [if ?b then _ else _] => destruct b eqn:? end; cbn [In] in Hc;
    try (repeat (destruct Hc as [<-|Hc]; [left; lia|]); destruct Hc; fail).
  - assert (H32 : (x < 32)%N) by lia. assert (Hh : forall n, (n < 16)%N -> (hexd n < 128)%N) by (intros n Hn; unfold hexd; destruct (n <? 10)%N; lia).
    destruct Hc as [<-|[<-|[<-|[<-|[<-|[<-|[]]]]]]]; left; try lia; (eapply N.lt_trans; [apply Hh; lia|lia]).
  - destruct Hc as [<-|[]]. exact (H _ Hx).
Qed.
Lemma text_write : forall v, jtext v -> forall lvl, text (jwrite lvl v).
Proof.
  intros v. induction v as [|b|z|x|s|l IH|l IH] using jval_rect'; intros J lvl; cbn [jtext] in J.
  - apply ascii_text. reflexivity.
  - destruct b; apply ascii_text; reflexivity.
  - cbn [jwrite]. destruct z as [|p|p]; cbn [dec_Z]; [apply ascii_text; reflexivity|apply text_digits; apply dec_N_digits|]. intros c [<-|Hc]; [left; lia|]. revert c Hc. apply text_digits. apply dec_N_digits.
  - exact J.
  - apply text_jstr. exact J.
  - destruct l as [|y l']; [apply ascii_text; reflexivity|]. cbn [jwrite]. apply text_app; [apply ascii_text; reflexivity|]. apply text_app; [apply text_nl|]. apply text_app; [|apply text_app; [apply text_nl|apply ascii_text; reflexivity]].
    apply text_join; [apply text_app; [apply ascii_text; reflexivity|apply text_nl]|].
    clear - IH J. induction IH as [|x l Hx F IHl]; [constructor|]. cbn [fold_right] in J. destruct J as [Jx Jl]. constructor; [exact (Hx Jx (S lvl))|exact (IHl Jl)].
  - destruct l as [|y l']; [apply ascii_text; reflexivity|]. cbn [jwrite]. apply text_app; [apply ascii_text; reflexivity|]. apply text_app; [apply text_nl|]. apply text_app; [|apply text_app; [apply text_nl|apply ascii_text; reflexivity]].
    apply text_join; [apply text_app; [apply ascii_text; reflexivity|apply text_nl]|].
    clear - IH J. induction IH as [|x l Hx F IHl]; [constructor|]. cbn [fold_right] in J. destruct J as [[Jk Jx] Jl]. constructor; [|exact (IHl Jl)].
    apply text_app; [exact (text_jstr _ Jk)|]. apply text_app; [apply ascii_text; reflexivity|exact (Hx Jx (S lvl))].
Qed.
(** ** Files written by json_write *)
Lemma write_ok : forall v, jtext v -> exists b, json_bytes v = Ok b.
Proof. intros v H. unfold json_bytes. rewrite encode_ok by (apply text_write; exact H). eexists. reflexivity. Qed.
Lemma file_rt : forall fs v b, jok v -> json_bytes v = Ok b -> json_read fs b = Ok (rd fs v).
Proof.
  intros fs v b J H. unfold json_bytes in H. pose proof (encode_text _ _ H) as T. rewrite encode_ok in H by exact T. apply Ok_inj in H. subst b. unfold json_read. rewrite read_text by exact T. exact (loads_write fs v J).
Qed.
Lemma file_cut : forall fs v b k, jok v -> composite v -> json_bytes v = Ok b -> k < length b -> exists e, json_read fs (firstn k b) = Err e.
Proof.
  intros fs v b k J C H K. unfold json_bytes in H. pose proof (encode_text _ _ H) as T. rewrite encode_ok in H by exact T. apply Ok_inj in H. subst b.
  destruct (read_prefix _ k T K) as (p & t & E & N & R). unfold json_read. rewrite R. cbn [bind]. exact (prefix_refused fs v p t J C E N).
Qed.
