(** * The command line: scores, the main function, examples *)
From Coq Require Import String List NArith ZArith Bool Lia QArith Qabs Permutation Sorted.
From Verif Require Import Py Uni Tagset Dawg Utils Shapes Tokenizers Dict Units Analyzer ConfigRu ConfigUk Compile Json Storage Create Cli Spec Spec2 Spec9 Spec10 Ex.
From Verif Require Import L_Base L_Tagset L_Text L_Parse L_ExS L_Create L_Create2 L_ExW L_Cli.
Import ListNotations.
Local Open Scope nat_scope.
Local Open Scope list_scope.

Lemma dec_digit : forall d, (d < 10)%N -> dec_N d = [(48 + d)%N].
Proof.
  intros d H. assert (d = 0 \/ d = 1 \/ d = 2 \/ d = 3 \/ d = 4 \/ d = 5 \/ d = 6 \/ d = 7 \/ d = 8 \/ d = 9)%N as D by lia.
  repeat (destruct D as [->|D]; [reflexivity|]). subst d. reflexivity.
Qed.
Lemma thousandths_near : forall q, (0 <= q)%Q ->
  let v := Z.of_N (thousandths q) in let d := Zpos (Qden q) in
  ((2 * v - 1) * d <= 2000 * Qnum q /\ 2000 * Qnum q <= (2 * v + 1) * d)%Z /\ (((2 * v - 1) * d = 2000 * Qnum q \/ 2000 * Qnum q = (2 * v + 1) * d)%Z -> Z.even v = true).
Proof.
  intros [num den] H v d. unfold Qle in H. cbn [Qnum Qden] in *. assert (0 <= num)%Z as P by lia. unfold v, thousandths. cbn [Qnum Qden]. fold d. rewrite (Z.abs_eq num P).
  set (z := (num * 1000)%Z). assert (0 < d)%Z by (unfold d; lia). pose proof (Z.div_mod z d ltac:(lia)) as E. pose proof (Z.mod_pos_bound z d ltac:(lia)) as B. assert (0 <= z / d)%Z as K by (apply Z.div_pos; lia).
  set (k := (z / d)%Z) in *. set (r := (z mod d)%Z) in *. assert (2000 * num = 2 * (d * k + r))%Z as EE by (rewrite <- E; unfold z; ring). rewrite EE. clear EE E.
  destruct (2 * r <? d)%Z eqn:L1; [apply Z.ltb_lt in L1|apply Z.ltb_ge in L1].
  - rewrite Z2N.id by lia. split; [split; nia|]. intros [X|X]; exfalso; nia.
  - destruct (d <? 2 * r)%Z eqn:L2; [apply Z.ltb_lt in L2|apply Z.ltb_ge in L2].
    + rewrite Z2N.id by lia. split; [split; nia|]. intros [X|X]; exfalso; nia.
    + assert (2 * r = d)%Z as T by lia. destruct (Z.even k) eqn:EV; rewrite Z2N.id by lia.
      * split; [split; nia|auto].
      * split; [split; nia|]. intros _. rewrite Z.even_add, EV. reflexivity.
Qed.
Lemma score_text : forall q, (0 <= q)%Q -> exists i a b c,
  fmt3 q = dec_N i ++ u "." ++ [(48 + a)%N; (48 + b)%N; (48 + c)%N] /\ (a < 10 /\ b < 10 /\ c < 10)%N /\
  let v := Z.of_N (1000 * i + 100 * a + 10 * b + c) in
  (Qabs ((v # 1000) - q) <= 1 # 2000)%Q /\ ((Qabs ((v # 1000) - q) == 1 # 2000)%Q -> Z.even v = true).
Proof.
  intros q H. pose proof (thousandths_near q H) as T. set (n := thousandths q) in *. exists (n / 1000)%N, (n / 100 mod 10)%N, (n / 10 mod 10)%N, (n mod 10)%N.
  assert (D : forall x, (x mod 10 < 10)%N) by (intros x; apply N.mod_lt; discriminate). split; [|split; [auto|]].
  - unfold fmt3. fold n. assert ((Qnum q <? 0)%Z = false) as -> by (apply Z.ltb_ge; unfold Qle in H; cbn in H; lia). cbn [app]. rewrite !(dec_digit _ (D _)). reflexivity.
  - assert (E : (1000 * (n / 1000) + 100 * (n / 100 mod 10) + 10 * (n / 10 mod 10) + n mod 10 = n)%N).
    { replace (n / 1000)%N with (n / 100 / 10)%N by (rewrite N.div_div by discriminate; reflexivity). replace (n / 100)%N with (n / 10 / 10)%N by (rewrite N.div_div by discriminate; reflexivity).
      pose proof (N.div_mod (n / 10 / 10) 10 ltac:(discriminate)) as A1. pose proof (N.div_mod (n / 10) 10 ltac:(discriminate)) as A2. pose proof (N.div_mod n 10 ltac:(discriminate)) as A3. lia. }
    rewrite E. cbv zeta in *. destruct T as [[T1 T2] T3]. set (v := Z.of_N n) in *. destruct q as [num den]. cbn [Qnum Qden] in *. split.
    + apply Qabs_Qle_condition. unfold Qle, Qminus, Qplus, Qopp. cbn [Qnum Qden]. rewrite ?Pos2Z.inj_mul. split; nia.
    + intros X. apply T3. assert (((v # 1000) - (num # den) == 1 # 2000)%Q \/ ((v # 1000) - (num # den) == - (1 # 2000))%Q) as [Y|Y].
      { destruct (Qlt_le_dec ((v # 1000) - (num # den)) 0) as [L|L]; [right; rewrite Qabs_neg in X by (apply Qlt_le_weak; exact L); rewrite <- X; ring|left; rewrite Qabs_pos in X by exact L; exact X]. }
      * left. unfold Qeq, Qminus, Qplus, Qopp in Y. cbn [Qnum Qden] in Y. rewrite ?Pos2Z.inj_mul in Y. nia.
      * right. unfold Qeq, Qminus, Qplus, Qopp in Y. cbn [Qnum Qden] in Y. rewrite ?Pos2Z.inj_mul in Y. nia.
Qed.

(** ** main *)
Definition main_args (o : options) : args := MkArgs (o_dict o) (Some (o_lang o)) (Some (u "Parse")) None EstAuto SubAuto.
Lemma main_runs : forall W C ft o lines ws C' z th, create W C (main_args o) = (ws, C', Ok z) -> ft (o_thresh o) = Ok th ->
  (o_score o = true -> o_lemmatize o = false -> o_tag o = false -> cli_main W C ft o lines = (ws, ([], Err ValueError))) /\
  (o_score o = false -> o_lemmatize o = false -> o_tag o = false -> cli_main W C ft o lines = (ws, cli_parse (z_morph z) lines (negb (o_tokenized o)) true true true true (o_cache o) th)) /\
  (o_lemmatize o = true \/ o_tag o = true -> cli_main W C ft o lines = (ws, cli_parse (z_morph z) lines (negb (o_tokenized o)) (o_score o) (o_lemmatize o) (o_tag o) true (o_cache o) th)).
Proof.
  intros W C ft o lines ws C' z th H F. unfold cli_main. change (MkArgs (o_dict o) (Some (o_lang o)) (Some (u "Parse")) None EstAuto SubAuto) with (main_args o). rewrite H, F. split; [|split].
  - intros -> -> ->. cbn [orb]. reflexivity.
  - intros -> -> ->. reflexivity.
  - intros [-> | ->]; rewrite ?orb_true_r; cbn [orb]; reflexivity.
Qed.
Lemma main_language : forall W C ft o lines ws C' z, create W C (main_args o) = (ws, C', Ok z) -> fst (cli_main W C ft o lines) = ws /\ z_lang z = JStr (o_lang o) /\
  (forall p m dl, picks W (main_args o) p -> load_meta (w_folder W p) (u "meta.json") = Ok m -> declares m dl -> (dl <> JStr (o_lang o) <-> In (WMismatch dl (o_lang o)) ws)) /\
  language_units (JStr (o_lang o)) (z_units z).
Proof.
  intros W C ft o lines ws C' z H. assert (Z : z_lang z = JStr (o_lang o)) by (apply create_ok in H as (p & l & C1 & [_ _ _ _ _ _ _ Z _ _]); exact Z). split; [|split; [exact Z|split]].
  - unfold cli_main. change (MkArgs (o_dict o) (Some (o_lang o)) (Some (u "Parse")) None EstAuto SubAuto) with (main_args o). rewrite H. destruct (ft _); reflexivity.
  - intros p m dl P L D. destruct (created_language _ _ _ _ _ _ _ _ _ H P L D) as (_ & _ & _ & _ & K & _). rewrite K. cbn [requested main_args a_lang]. split; [auto|tauto].
  - rewrite <- Z. destruct (created_defaults _ _ _ _ _ _ H) as (_ & K & _). apply K. reflexivity.
Qed.
Lemma lstrip_split : forall f s, exists a, s = a ++ lstrip_by f s /\ forallb f a = true /\ (forall c r, lstrip_by f s = c :: r -> f c = false).
Proof.
  intros f. induction s as [|x s IH]; [exists []; split; [reflexivity|split; [reflexivity|discriminate]]|]. cbn [lstrip_by]. destruct (f x) eqn:E.
  - destruct IH as (a & A & B & D). exists (x :: a). split; [cbn; rewrite <- A; reflexivity|]. split; [cbn; rewrite E, B; reflexivity|exact D].
  - exists []. split; [reflexivity|]. split; [reflexivity|]. intros c r H. injection H as <- _. exact E.
Qed.
Lemma forallb_rev : forall A (f : A -> bool) l, forallb f (rev l) = forallb f l.
Proof. intros A f. induction l as [|x l IH]; [reflexivity|]. cbn [rev forallb]. rewrite forallb_app, IH. cbn. rewrite andb_true_r. apply andb_comm. Qed.
Lemma strip_split : forall f s, exists a b, s = a ++ strip_by f s ++ b /\ forallb f a = true /\ forallb f b = true /\
  (forall c r, strip_by f s = c :: r -> f c = false) /\ (forall c r, strip_by f s = r ++ [c] -> f c = false).
Proof.
  intros f s. destruct (lstrip_split f s) as (a & A1 & A2 & A3). unfold strip_by. set (t := lstrip_by f s) in *. destruct (lstrip_split f (rev t)) as (b & B1 & B2 & B3). set (v := lstrip_by f (rev t)) in *.
  assert (E : t = rev v ++ rev b) by (rewrite <- rev_app_distr, <- B1, rev_involutive; reflexivity). exists a, (rev b). split; [rewrite <- E; exact A1|]. split; [exact A2|]. split; [rewrite forallb_rev; exact B2|]. split.
  - intros c r H. apply (A3 c (r ++ rev b)). rewrite E, H. reflexivity.
  - intros c r H. apply (B3 c (rev r)). rewrite <- (rev_involutive v), H, rev_app_distr. reflexivity.
Qed.
Lemma tokenized_lines : forall U ls, exists l', Forall2 (fun l t => exists a b, l = a ++ t ++ b /\ forallb (u_space U) a = true /\ forallb (u_space U) b = true /\
    (forall c r, t = c :: r -> u_space U c = false) /\ (forall c r, t = r ++ [c] -> u_space U c = false)) ls l' /\
  iter_tokens U false ls = filter nonempty l'.
Proof.
  intros U ls. exists (map (strip_by (u_space U)) ls). split; [|reflexivity]. induction ls as [|l ls IH]; [constructor|]. cbn [map]. constructor; [|exact IH]. apply strip_split.
Qed.
