(** * Whole conversions: lemmas for C60 *)
From Coq Require Import String List NArith ZArith QArith Bool Lia Permutation.
From Verif Require Import Py Uni Tagset Dawg Utils Shapes Dict Units Analyzer ConfigRu ConfigUk Compile Preprocess Json Storage XmlParse Convert Spec Spec2 Spec3 Spec7 Spec8.
From Verif Require Import L_Base L_Tagset L_Tags2 L_Para L_Text L_Groups L_Lexeme L_Compile L_Compile2 L_Compile3 L_Compile4 L_EndToEnd L_Pre L_Join L_ExC L_Json L_Json2 L_Storage L_Storage2 L_Xml L_Xml2.
From Verif Require L_ExS.
Import ListNotations.
Local Open Scope nat_scope.
Local Open Scope list_scope.

Lemma all_some_f2 : forall {A B} (f : A -> option B) l r, all_some f l = Some r -> Forall2 (fun a b => f a = Some b) l r.
Proof.
  induction l as [|x l IH]; intros r H; simpl in H; [inversion H; constructor|]. destruct (f x) as [y|] eqn:E; [|discriminate H]. destruct (all_some f l) as [ys|]; [|discriminate H].
  inversion H. constructor; auto.
Qed.
Lemma number_dec : forall s n, number_of s = Some n -> s = Some (dec_N n).
Proof.
  intros [t|] n H; [|discriminate H]. unfold number_of in H. destruct (str_eqb (dec_N (N.of_uint (str_uint t))) t) eqn:E; [|discriminate H]. apply str_eqb_eq in E. inversion H. subst n. rewrite E. auto.
Qed.
Lemma source_lexemes : forall P src links rows, source_of P = Some (src, links, rows) ->
  xp_lexemes P = map (fun l => (Some (dec_N (fst l)), snd l)) src /\
  xp_links P = map (fun l : link => let '(a, b, t) := l in (Some (dec_N a), Some (dec_N b), Some t)) links /\
  xp_grammemes P = map (fun r => (Some (g_name r), g_parent r, Some (g_alias r), Some (g_descr r))) rows.
Proof.
  intros P src links rows H. unfold source_of in H.
  destruct (all_some _ (xp_lexemes P)) as [lx|] eqn:E1; [|discriminate H]. destruct (all_some _ (xp_links P)) as [ln|] eqn:E2; [|discriminate H].
  destruct (all_some _ (xp_grammemes P)) as [gr|] eqn:E3; [|discriminate H]. inversion H; subst; clear H. apply all_some_f2 in E1, E2, E3. split; [|split].
  - clear E2 E3. induction E1 as [|[i f] [n g] l r H F IH]; auto. cbn [map fst snd]. rewrite IH. cbn [fst snd] in H. destruct (number_of i) as [m|] eqn:N; [|discriminate H]. inversion H; subst. apply number_dec in N. rewrite N. auto.
  - clear E1 E3. induction E2 as [|[[a b] t] y l r H F IH]; auto. cbn [map]. rewrite IH. destruct (number_of a) as [m|] eqn:N1; [|discriminate H]. destruct (number_of b) as [m'|] eqn:N2; [|discriminate H].
    destruct t as [t|]; [|discriminate H]. inversion H; subst. apply number_dec in N1. apply number_dec in N2. rewrite N1, N2. auto.
  - clear E1 E2. induction E3 as [|[[[n p] a] d] y l r H F IH]; auto. cbn [map]. rewrite IH. destruct n as [n|], a as [a|], d as [d|]; try discriminate H. inversion H; subst. auto.
Qed.
Lemma lexeme_src : forall P src links rows id fs, source_of P = Some (src, links, rows) -> NoDup (map fst (xp_lexemes P)) -> (In (id, fs) src <-> lexeme_with (Some (dec_N id)) P = Some fs).
Proof.
  intros P src links rows id fs H N. apply source_lexemes in H as (E & _). unfold lexeme_with. rewrite E in *. clear E. induction src as [|[i f] src IH]; cbn [map fst snd dget] in *.
  - split; [intros []|intro X; discriminate X].
  - inversion N as [|? ? N1 N2]; subst. destruct (opt_eqb str_eqb (Some (dec_N id)) (Some (dec_N i))) eqn:E.
    + apply oeqb_eq in E. injection E as E. apply dec_N_inj in E. subst i. split; [|intro X; injection X as <-; left; auto]. intros [X|X]; [inversion X; auto|].
      exfalso. apply N1. apply in_map_iff. exists (Some (dec_N id), fs). split; [auto|]. apply in_map_iff. exists (id, fs). auto.
    + rewrite <- IH by auto. split; [intros [X|X]; [|auto]|intro X; right; exact X]. inversion X; subst. assert (opt_eqb str_eqb (Some (dec_N id)) (Some (dec_N id)) = true) as W by (apply oeqb_eq; auto). congruence.
Qed.
Lemma src_nodup : forall P src links rows, source_of P = Some (src, links, rows) -> NoDup (map fst (xp_lexemes P)) -> NoDup (map fst src).
Proof.
  intros P src links rows H N. apply source_lexemes in H as (E & _). rewrite E, map_map in N. cbn [fst] in N. rewrite <- (map_map fst (fun i => Some (dec_N i))) in N. apply NoDup_map_inv in N. exact N.
Qed.

(** the forms of the source are forms of the document *)
Section Doc.
  Variables (U : uni) (doc : xelem).
  Hypotheses (S1 : u_space U (chr " ") = true) (S2 : u_space U (chr ",") = false) (PG : plain_grammemes U doc).
  Lemma plain_of : forall e gs, In e (preorder doc) -> grammemes_of e gs -> forall v, In v gs -> exists g, In g (x_iter (u "g") doc) /\ x_get (u "v") g = Some v.
  Proof.
    intros e gs Ie G v Iv. unfold grammemes_of in G. assert (In (Some v) (map (x_get (u "v")) (x_iter (u "g") e))) as J by (rewrite G; apply in_map; auto).
    apply in_map_iff in J as (g & Eg & Jg). exists g. split; [|auto]. apply iter_In in Jg as (Jg & T). apply iter_In. split; [eapply preorder_trans; eauto|auto].
  Qed.
  Lemma doc_plain : forall g v, In g (x_iter (u "g") doc) -> x_get (u "v") g = Some v -> plain U v /\ length v <= 4.
  Proof. intros g v I G. destruct (PG g I) as (v' & G' & H). rewrite G in G'. injection G' as <-. exact H. Qed.
  Lemma lemma_tags : forall e fs w t, In e (preorder doc) -> lemma_forms U e fs -> In (w, t) fs ->
    split_tag t <> [] /\ forall v, In v (split_tag t) -> exists g, In g (x_iter (u "g") doc) /\ x_get (u "v") g = Some v.
  Proof.
    intros e fs w t Ie [(_ & ->)|(_ & l & base & L & B & [(f & _ & _ & ->)|(N & F)])] I; [destruct I|destruct I|].
    assert (exists f, In f (x_iter (u "f") e) /\ form_of U base f (w, t)) as (f & If & Hf).
    { clear - F I. induction F as [|f x fl xs H F IH]; [destruct I|]. destruct I as [->|I]; [exists f; split; [left; auto|auto]|]. destruct (IH I) as (f' & J & K). exists f'. split; [right; auto|auto]. }
    destruct Hf as (tx & gs & T & G & _ & E). cbn [snd] in E.
    assert (In l (preorder e)) as Il. { assert (In l (x_iter (u "l") e)) as X by (rewrite L; left; auto). apply iter_In in X. tauto. }
    assert (In f (preorder e)) as If' by (apply iter_In in If; tauto).
    assert (forall v, In v (base ++ gs) -> exists g, In g (x_iter (u "g") doc) /\ x_get (u "v") g = Some v) as V.
    { intros v Iv. apply in_app_iff in Iv as [Iv|Iv]; [eapply (plain_of l)|eapply (plain_of f)]; eauto; eapply preorder_trans; eauto. }
    assert (base ++ gs <> []) as NE. { intro X. apply app_eq_nil in X as (-> & ->). apply (N f If). exists []. auto. }
    rewrite E, form_grammemes; auto.
    intros v Iv. destruct (V v Iv) as (g & Ig & Eg). exact (proj1 (doc_plain g v Ig Eg)).
  Qed.
End Doc.

(** a word without separators inside a tag text is inside one grammeme *)
Lemma split_substr : forall c x b a, ~ In c x -> x <> [] -> exists g p q, In g (split_on c (a ++ x ++ b)) /\ g = p ++ x ++ q.
Proof.
  intros c x b a Nx Ne. induction a as [|y a IH].
  - cbn [app]. assert (forall z, ~ In c z -> exists g q, In g (split_on c (z ++ b)) /\ g = z ++ q) as X.
    { clear. intros z. induction z as [|y z IH]; intro N.
      - cbn [app]. destruct (split_on c b) as [|g r] eqn:E; [|exists g, g; split; [left; auto|auto]]. exfalso. revert E. destruct b as [|y b]; [discriminate|]. simpl. destruct (y =? c)%N; [discriminate|]. destruct (split_on c b); discriminate.
      - simpl in N. destruct IH as (g & q & I & ->); [tauto|]. cbn [app split_on].
        destruct (N.eqb_spec y c) as [->|]; [exfalso; auto|]. clear I q. cbn [split_on]. destruct (split_on c (z ++ b)) as [|p ps] eqn:E.
        + exfalso. revert E. destruct (z ++ b) as [|y' r]; [discriminate|]. simpl. destruct (y' =? c)%N; [discriminate|]. destruct (split_on c r); discriminate.
        + assert (exists q, p = z ++ q) as (q & ->).
          { clear - E N. revert p ps E. assert (~ In c z) as N' by tauto. clear N. revert N'. induction z as [|x z IH]; intros N' p ps E; [exists p; auto|]. cbn [app split_on] in E. simpl in N'.
            destruct (N.eqb_spec x c) as [->|]; [exfalso; auto|]. destruct (split_on c (z ++ b)) as [|p' ps'] eqn:E'.
            - exfalso. revert E'. destruct (z ++ b) as [|y' r]; [discriminate|]. simpl. destruct (y' =? c)%N; [discriminate|]. destruct (split_on c r); discriminate.
            - injection E as <- <-. destruct (IH ltac:(tauto) _ _ eq_refl) as (q & ->). exists q. auto. }
          exists (y :: z ++ q), q. split; [left; auto|auto]. }
    destruct (X x Nx) as (g & q & I & ->). exists (x ++ q), [], q. auto.
  - destruct IH as (g & p & q & I & ->). cbn [app split_on]. destruct (y =? c)%N; [exists (p ++ x ++ q), p, q; split; [right; auto|auto]|].
    destruct (split_on c (a ++ x ++ b)) as [|p0 ps]; [destruct I|]. destruct I as [->|I]; [exists (y :: p ++ x ++ q), (y :: p), q; split; [left; auto|auto]|].
    exists (p ++ x ++ q), p, q. split; [right; auto|auto].
Qed.
Lemma replace_first_sub : forall a b x s r, ~ In a x -> exists s' r', replace_first a b (s ++ x ++ r) = s' ++ x ++ r'.
Proof.
  intros a b x s r N. induction s as [|y s IH].
  - cbn [app]. exists []. cbn [app]. induction x as [|y x IHx]; [eexists; reflexivity|]. simpl in N. cbn [app replace_first]. destruct (N.eqb_spec y a) as [->|]; [exfalso; auto|].
    destruct IHx as (r' & ->); [tauto|]. eauto.
  - destruct IH as (s' & r' & E). cbn [app replace_first]. destruct (y =? a)%N; [exists (b :: s), r; auto|]. exists (y :: s'), r'. rewrite E. auto.
Qed.
Lemma tag_substr : forall x t, x <> [] -> ~ In (chr ",") x -> ~ In (chr " ") x -> substrb x t = true -> exists g p q, In g (split_tag t) /\ g = p ++ x ++ q.
Proof.
  intros x t Ne N1 N2 H. apply substrb_spec in H as (a & b & ->). unfold split_tag. destruct (replace_first_sub (chr " ") (chr ",") x a b N2) as (s' & r' & ->). apply split_substr; auto.
Qed.
Lemma common_or : forall g, common_case g = g \/ length g = 4.
Proof.
  intro g. unfold common_case. destruct (grammeme_dec g (u "loc1")) as [->|]; [right; reflexivity|]. destruct (grammeme_dec g (u "gen1")) as [->|]; [right; reflexivity|].
  destruct (grammeme_dec g (u "acc1")) as [->|]; [right; reflexivity|auto].
Qed.
Lemma common_init : forall g, common_case g = u "Init" -> g = u "Init".
Proof.
  intro g. unfold common_case. destruct (grammeme_dec g (u "loc1")) as [->|]; [intro X; vm_compute in X; discriminate X|]. destruct (grammeme_dec g (u "gen1")) as [->|]; [intro X; vm_compute in X; discriminate X|].
  destruct (grammeme_dec g (u "acc1")) as [->|]; [intro X; vm_compute in X; discriminate X|auto].
Qed.
Lemma no_init : forall gs t, short gs -> same_grammemes (split_tag t) gs -> ~ In (u "Init") gs -> substrb (u "Init") t = false.
Proof.
  intros gs t S E N. destruct (substrb (u "Init") t) eqn:H; [|auto]. exfalso. apply tag_substr in H as (g & p & q & I & Eg).
  - assert (In (common_case g) (map common_case gs)) as J by (apply E; apply in_map; auto).
    assert (length g <= 4) as L. { destruct (common_or g) as [X|X]; [rewrite <- X|lia]. exact (common_short gs S _ J). }
    assert (g = u "Init") as ->. { rewrite Eg, !app_length in L. change (length (u "Init")) with 4 in L. destruct p; [|simpl in L; lia]. destruct q; [|simpl in L; lia]. rewrite Eg. rewrite app_nil_r. auto. }
    apply in_map_iff in J as (g0 & E0 & J). change (common_case (u "Init")) with (u "Init") in E0. apply common_init in E0. subst g0. auto.
  - vm_compute. discriminate.
  - intro X. vm_compute in X. repeat (destruct X as [X|X]; [discriminate X|]). exact X.
  - intro X. vm_compute in X. repeat (destruct X as [X|X]; [discriminate X|]). exact X.
Qed.
