(** * C84: adverbs with "по-" *)
From Coq Require Import String List NArith ZArith Bool QArith Lia.
From Verif Require Import Py Uni Tagset Dawg Utils Dict Shapes Units Analyzer ConfigRu ConfigUk Compile Spec Spec2 Spec3 Spec14 Spec34 Ex.
From Verif Require Import L_Base L_Text L_Ex L_ExU L_ExSoap L_Adverb.
Import ListNotations.
Local Open Scope nat_scope.
Local Open Scope list_scope.

(** the unit answers exactly for "по-" with a dative singular adjective, and with one reading *)
Theorem C84_unit : forall M i b mult word lower seen ps seen', b_cfg b = UHAdverb mult -> knows_adjectives M ->
  unit_parse (morph_parse M) (morph_tag M) M i b word lower seen = Ok (ps, seen') ->
  (po_adverb M lower -> exists t, nth_error (b_tags b) 0 = Some t /\ ps = [MkParse lower t lower mult [MStr (Root i) word]]) /\ (~ po_adverb M lower -> ps = []).
Proof. exact c84_unit. Qed.
Print Assumptions C84_unit.
(** any reading of parse() that comes from this unit is such an adverb *)
Theorem C84_parse : forall M items word ps p i b tm mult, has_units M items -> Forall (fun bt => prefixes_nonempty (fst bt)) (m_units M) -> lower_stable (m_uni M) -> knows_adjectives M ->
  morph_parse M word = Ok ps -> In p ps -> made_by p = Some (Root i) -> nth_error (m_units M) i = Some (b, tm) -> b_cfg b = UHAdverb mult ->
  po_adverb M (u_lower (m_uni M) word) /\ adverb_reading (Root i) word (u_lower (m_uni M) word) p /\ (m_prob M = None -> p_score p = mult).
Proof. exact c84_parse. Qed.
Print Assumptions C84_parse.
(** with the default Russian units an unknown word of this shape has this one reading, the reading is its own lexeme and its own normal form *)
Theorem C84_only : forall M word ps, has_units M RU_DEFAULT_UNITS -> lower_stable (m_uni M) -> knows_adjectives M -> no_other_unit M word -> po_adverb M (u_lower (m_uni M) word) ->
  morph_parse M word = Ok ps -> exists i b tm p, nth_error (m_units M) i = Some (b, tm) /\ b_cfg b = UHAdverb (7#10) /\ ps = [p] /\ adverb_reading (Root i) word (u_lower (m_uni M) word) p /\ get_lexeme M p = Ok [p] /\ normalized M p = Ok p.
Proof. exact c84_only. Qed.
Print Assumptions C84_only.
Theorem C84_only_tag : forall M word ts, has_units M RU_DEFAULT_UNITS -> lower_stable (m_uni M) -> knows_adjectives M -> no_other_unit M word -> po_adverb M (u_lower (m_uni M) word) ->
  morph_tag M word = Ok ts -> exists t, ts = [t] /\ t_str t = u "ADVB" /\ t_gr t = [u "ADVB"].
Proof. exact c84_only_tag. Qed.
Print Assumptions C84_only_tag.

(** ** concrete analyzers *)
Definition saint : list (str * str) := [form "св" "ADJF,Qual masc,sing,nomn"; form "св" "ADJF,Qual masc,sing,datv"].
Definition western : list (str * str) := [form "западный" "ADJF,Qual masc,sing,nomn"; form "западному" "ADJF,Qual masc,sing,datv"; form "западные" "ADJF,Qual plur,nomn"].
Definition src_a : lexemes := [(1%N, western); (2%N, saint)].
Definition adv_demo : morph := built_morph (MkOpt 1 1 4 [[]]) src_a.
Lemma u_a : has_units adv_demo RU_DEFAULT_UNITS. Proof. apply built_units. vm_compute. reflexivity. Qed.
Lemma a_stable : lower_stable (m_uni adv_demo). Proof. exact uni_cyr_stable. Qed.
Lemma a_adj : knows_adjectives adv_demo.
Proof. intros g [<-|[<-|[<-|[]]]]; refine (proj1 (smem_In _ _) _); vm_compute; reflexivity. Qed.
Lemma po_any : forall M lower rest, lower = u "по-" ++ rest -> 2 <= length rest ->
  (match morph_tag M rest with Ok ts => existsb (fun t => ssub (map u ["ADJF"; "sing"; "datv"]%string) (t_gr t)) ts | Err _ => false end) = true -> po_adverb M lower.
Proof.
  intros M lower rest E L H. destruct (morph_tag M rest) as [ts|e] eqn:T; [|discriminate H]. apply existsb_exists in H as (t & I & H).
  exists rest, ts, t. split; [exact E|]. split; [exact L|]. split; [exact T|]. split; [exact I|]. exact (proj1 (ssub_iff _ _) H).
Qed.
Lemma no_other : forall M word, m_uni M = uni_cyr -> word_is_known M word false = false -> smem word RU_INITIAL_LETTERS = false -> (exists r, word = 1087%N :: r \/ word = 1055%N :: r) ->
  forallb (fun pt => negb (suffixb pt (u_lower (m_uni M) word))) RU_PARTICLES = true -> no_other_unit M word.
Proof.
  intros M word UU K I (r & E) P. split; [exact K|]. split; [intros X; apply smem_In in X; congruence|]. split.
  - rewrite UU. destruct E as [->| ->]; eexists; eexists; (split; [reflexivity|]); unfold foreign_letter; vm_compute; repeat split; try reflexivity; try discriminate; intros X; discriminate X.
  - intros (w & pt & In & Ew & _). rewrite forallb_forall in P. specialize (P pt In). apply negb_true_iff in P. assert (X : suffixb pt (u_lower (m_uni M) word) = true) by (apply suffixb_spec; exists w; exact Ew). congruence.
Qed.
Lemma a_uni : m_uni adv_demo = uni_cyr. Proof. reflexivity. Qed.
Lemma a_known : word_is_known adv_demo (u "По-западному") false = false. Proof. vm_compute. reflexivity. Qed.
Lemma a_known5 : word_is_known adv_demo (u "по-св") false = false. Proof. vm_compute. reflexivity. Qed.
Lemma a_part : forallb (fun pt => negb (suffixb pt (u_lower (m_uni adv_demo) (u "По-западному")))) RU_PARTICLES = true. Proof. vm_compute. reflexivity. Qed.
Lemma a_part5 : forallb (fun pt => negb (suffixb pt (u_lower (m_uni adv_demo) (u "по-св")))) RU_PARTICLES = true. Proof. vm_compute. reflexivity. Qed.
Lemma a_init : smem (u "По-западному") RU_INITIAL_LETTERS = false. Proof. vm_compute. reflexivity. Qed.
Lemma a_init5 : smem (u "по-св") RU_INITIAL_LETTERS = false. Proof. vm_compute. reflexivity. Qed.
Lemma first_p : forall w, (match w with c :: _ => (c =? 1087)%N || (c =? 1055)%N | [] => false end) = true -> exists r, w = 1087%N :: r \/ w = 1055%N :: r.
Proof. intros [|c w] H; [discriminate H|]. exists w. apply orb_prop in H as [H|H]; apply N.eqb_eq in H; subst c; [left|right]; reflexivity. Qed.
Lemma a_first : exists r, u "По-западному" = 1087%N :: r \/ u "По-западному" = 1055%N :: r. Proof. apply first_p. vm_compute. reflexivity. Qed.
Lemma a_first5 : exists r, u "по-св" = 1087%N :: r \/ u "по-св" = 1055%N :: r. Proof. apply first_p. vm_compute. reflexivity. Qed.
Lemma a_no : no_other_unit adv_demo (u "По-западному").
Proof. exact (no_other _ _ a_uni a_known a_init a_first a_part). Qed.
Lemma a_no5 : no_other_unit adv_demo (u "по-св").
Proof. exact (no_other _ _ a_uni a_known5 a_init5 a_first5 a_part5). Qed.
Definition advb (r : res (list parse)) (w : str) : bool := match r with Ok [p] => str_eqb (p_nf p) w && str_eqb (t_str (p_tag p)) (u "ADVB") | _ => false end.
Lemma advb_ok : forall r w, advb r w = true -> exists p, r = Ok [p] /\ p_nf p = w /\ t_str (p_tag p) = u "ADVB".
Proof. intros r w H. unfold advb in H. destruct r as [[|p [|q l]]|e]; try discriminate H. apply andb_prop in H as [A B]. apply str_eqb_eq in A, B. exists p. auto. Qed.
Example C84_case : has_units adv_demo RU_DEFAULT_UNITS /\ lower_stable (m_uni adv_demo) /\ knows_adjectives adv_demo /\ Forall (fun bt => prefixes_nonempty (fst bt)) (m_units adv_demo) /\
  (no_other_unit adv_demo (u "По-западному") /\ po_adverb adv_demo (u_lower (m_uni adv_demo) (u "По-западному")) /\
   (exists p, morph_parse adv_demo (u "По-западному") = Ok [p] /\ p_nf p = u "по-западному" /\ t_str (p_tag p) = u "ADVB")) /\
  (* a word the unit does not answer for *)
  ~ po_adverb adv_demo (u "по-западные").
Proof.
  split; [exact u_a|]. split; [exact a_stable|]. split; [exact a_adj|]. split; [apply prefixes_nonemptyb_ok; vm_compute; reflexivity|]. split.
  - split; [exact a_no|].
    split; [apply (po_any _ _ (u "западному")); [vm_compute; reflexivity|cbn; lia|vm_compute; reflexivity]|apply advb_ok; vm_compute; reflexivity].
  - intros (rest & ts & t & E & L & T & I & D). change (u "по-западные") with (u "по-" ++ u "западные") in E. apply app_inv_head in E. subst rest.
    assert (X : (match morph_tag adv_demo (u "западные") with Ok ts => negb (existsb (fun t => ssub (map u ["ADJF"; "sing"; "datv"]%string) (t_gr t)) ts) | Err _ => true end) = true) by (vm_compute; reflexivity).
    rewrite T in X. apply negb_true_iff in X. assert (Y : existsb (fun t => ssub (map u ["ADJF"; "sing"; "datv"]%string) (t_gr t)) ts = true); [|congruence].
    apply existsb_exists. exists t. split; [exact I|exact (proj2 (ssub_iff _ _) D)].
Qed.
(** The documentation says that the word must be longer than five characters.  Five are enough. *)
Theorem C84_longer_refuted : exists M word ps p i b tm mult, has_units M RU_DEFAULT_UNITS /\ lower_stable (m_uni M) /\ knows_adjectives M /\ length word = 5 /\
  morph_parse M word = Ok ps /\ In p ps /\ made_by p = Some (Root i) /\ nth_error (m_units M) i = Some (b, tm) /\ b_cfg b = UHAdverb mult /\ p_nf p = u "по-св".
Proof.
  destruct (morph_parse adv_demo (u "по-св")) as [ps|e] eqn:E.
  2:{ exfalso. assert (X : advb (morph_parse adv_demo (u "по-св")) (u "по-св") = true) by (vm_compute; reflexivity). rewrite E in X. discriminate X. }
  destruct (c84_only adv_demo (u "по-св") ps u_a a_stable a_adj) as (i & b & tm & p & N & Cf & -> & (A1 & A2 & _ & _ & A5) & _).
  - exact a_no5.
  - apply (po_any _ _ (u "св")); [vm_compute; reflexivity|cbn; lia|vm_compute; reflexivity].
  - exact E.
  - exists adv_demo, (u "по-св"), [p], p, i, b, tm, (7#10)%Q.
    split; [exact u_a|]. split; [exact a_stable|]. split; [exact a_adj|]. split; [reflexivity|]. split; [exact E|]. split; [left; reflexivity|]. split; [unfold made_by; rewrite A5; reflexivity|].
    split; [exact N|]. split; [exact Cf|]. rewrite A2. vm_compute. reflexivity.
Qed.
Print Assumptions C84_longer_refuted.
