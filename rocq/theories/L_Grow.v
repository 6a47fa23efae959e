(** * Lemmas for C90: adding lexemes to a dictionary *)
From Coq Require Import String List NArith ZArith Bool QArith Lia.
From Verif Require Import Py Uni Tagset Dawg Utils Shapes Dict Units Analyzer ConfigRu ConfigUk Compile Spec Spec2 Spec3 Spec14 Spec15 Spec34 Spec35 Spec36 Spec38 Spec39 Ex.
From Verif Require Import L_Base L_Compile L_Compile2 L_Compile3 L_Compile4 L_ExC L_Parse L_Tagset L_Units L_Adverb L_Every L_Renumber L_Permute L_Permute2 L_Permute3 L_Permute4.
Import ListNotations.
Local Open Scope nat_scope.
Local Open Scope list_scope.

Lemma forms_of_source : forall o src links lxs x D, join_lexemes src links = Ok lxs -> compile_parsed_dict o src links = Ok x -> loaded x D -> tags_read D ->
  forall w g, form_in D w g <-> exists lx t, In lx lxs /\ In (w, t) lx /\ g = split_tag t.
Proof.
  intros o src links lxs x D J H L T w g. unfold compile_parsed_dict in H. rewrite J in H. cbn [bind] in H. destruct (compile_lexemes_inv _ _ _ H) as (st & ks & C & Pd).
  rewrite (form_source _ _ _ _ _ _ C L T). split.
  - intros (lx & i & t & I & N & E). exists lx, t. split; [exact I|]. split; [exact (nth_error_In _ _ N)|exact E].
  - intros (lx & t & I & N & E). apply In_nth_error in N as (i & N). exists lx, i, t. auto.
Qed.
(** the first rule alone *)
Lemma head_rule : forall P r ps, first_rule (P :: r) ps -> applies P -> gives ps P.
Proof. intros P r ps [(_ & G)|(N & _)] A; [exact G|contradiction]. Qed.
Lemma head_rule_tags : forall P r ts, first_rule_tags (P :: r) ts -> applies P -> forall g, In g (map t_gr ts) <-> exists w, P w g.
Proof. intros P r ts [(_ & G)|(N & _)] A; [exact G|contradiction]. Qed.
Section Known.
  Variables (others : list rule) (M1 M2 : morph) (lower : str).
  Hypothesis SS : m_subst M1 = m_subst M2.
  Let head (M : morph) : rule := either (by_dictionary M lower :: others).
  Lemma head_iff : forall M w g, head M w g <-> (subst_of (m_subst M) lower w /\ form_in (m_dict M) w g) \/ exists P, In P others /\ P w g.
  Proof.
    intros M w g. unfold head, either. split.
    - intros (P & [<-|I] & X); [left; apply dictionary_content; exact X|right; eauto].
    - intros [X|(P & I & X)]; [exists (by_dictionary M lower); split; [left; reflexivity|apply dictionary_content; exact X]|exists P; split; [right; exact I|exact X]].
  Qed.
  Lemma head_incl : (forall w g, subst_of (m_subst M1) lower w -> form_in (m_dict M1) w g -> form_in (m_dict M2) w g) -> forall w g, head M1 w g -> head M2 w g.
  Proof. intros H w g X. apply head_iff in X. apply head_iff. destruct X as [(A & B)|X]; [left; split; [rewrite <- SS; exact A|exact (H w g A B)]|right; exact X]. Qed.
End Known.
Definition others_ru (M : morph) (word lower : str) : list rule := [by_initial RU_INITIAL_LETTERS "Name" word lower; by_initial RU_INITIAL_LETTERS "Patr" word lower].
Definition others_uk (M : morph) (word lower : str) : list rule :=
  [by_initial UK_INITIAL_LETTERS "Name" word lower; by_initial UK_INITIAL_LETTERS "Patr" word lower; by_roman word lower; by_latin (m_uni M) word lower].

Record grown (U : uni) (subst : replaces) (M : morph) (lxs : list lexeme) : Prop := {
  gr_uni : m_uni M = U; gr_sub : m_subst M = subst; gr_forms : forall w g, form_in (m_dict M) w g <-> exists lx t, In lx lxs /\ In (w, t) lx /\ g = split_tag t;
  gr_total : answers_all M; gr_counts : pred_counts_pos (m_dict M); gr_adj : knows_adjectives M }.
Lemma grown_made : forall o U subst items src links lxs x ext T rows T' M,
  join_lexemes src links = Ok lxs -> compile_parsed_dict o src links = Ok x -> construct U ext T rows (x_gramtab x) (dict_of x) None subst items = Ok (T', M) ->
  items = RU_DEFAULT_UNITS \/ items = UK_DEFAULT_UNITS -> (forall g, In g ["ADJF"; "sing"; "datv"]%string -> In (u g) (map g_name rows)) -> names_ok U -> lower_stable U ->
  grown U subst M lxs /\ has_units M items.
Proof.
  intros o U subst items src links lxs x ext T rows T' M J H K HI A NO LS. destruct (made_dict _ _ _ _ _ _ _ _ _ K) as (L & R & SB). destruct (construct_units _ _ _ _ _ _ _ _ _ _ _ K) as (HU & E & _ & _ & _ & Q).
  destruct (parsed_wf _ _ _ _ _ _ J H L) as (W & _ & _ & _ & PC & _). split; [|exact HU]. constructor; try assumption.
  - exact (forms_of_source _ _ _ _ _ _ J H L R).
  - intros w. exact (shipped_total _ _ _ _ _ _ _ _ _ _ w K HI A W NO LS).
  - intros g I. rewrite Q. apply (construct_known _ _ _ _ _ _ _ _ _ _ _ K). left. apply in_map_iff in I as (s & <- & I). exact (A s I).
Qed.
(** what the known word is answered *)
Lemma known_answer : forall U subst items M lxs word, grown U subst M lxs -> has_units M items -> items = RU_DEFAULT_UNITS \/ items = UK_DEFAULT_UNITS -> lower_stable U -> digits_ok U ->
  u_lower U word <> [] -> (exists lx w t, In lx lxs /\ In (w, t) lx /\ subst_of subst (u_lower U word) w) ->
  exists others, (others = others_ru M word (u_lower U word) /\ items = RU_DEFAULT_UNITS \/ others = others_uk M word (u_lower U word) /\ items = UK_DEFAULT_UNITS) /\
    exists ps ts, morph_parse M word = Ok ps /\ morph_tag M word = Ok ts /\
    (forall w g, analysed ps w g <-> (subst_of subst (u_lower U word) w /\ form_in (m_dict M) w g) \/ exists P, In P others /\ P w g) /\
    (forall g, In g (map t_gr ts) <-> exists w, analysed ps w g).
Proof.
  intros U subst items M lxs word [EU ES FS TT PC AD] HU HI LS DG NE (lx & w0 & t0 & I0 & J0 & S0). rewrite <- EU in *. subst subst.
  destruct (TT word) as ((ps & P) & ts & Q).
  assert (F0 : form_in (m_dict M) w0 (split_tag t0)) by (apply FS; eauto).
  assert (AP : forall others, applies (either (by_dictionary M (u_lower (m_uni M) word) :: others))) by (intros others; exists w0, (split_tag t0); apply head_iff; left; auto).
  destruct (every_tags M word ps ts LS DG PC NE P Q) as (TR & TU).
  assert (GO : forall others rest, first_rule (either (by_dictionary M (u_lower (m_uni M) word) :: others) :: rest) ps -> first_rule_tags (either (by_dictionary M (u_lower (m_uni M) word) :: others) :: rest) ts ->
    exists ps0 ts0, morph_parse M word = Ok ps0 /\ morph_tag M word = Ok ts0 /\
      (forall w g, analysed ps0 w g <-> (subst_of (m_subst M) (u_lower (m_uni M) word) w /\ form_in (m_dict M) w g) \/ exists P0, In P0 others /\ P0 w g) /\
      (forall g, In g (map t_gr ts0) <-> exists w, analysed ps0 w g)).
  { intros others rest F1 F2. exists ps, ts. split; [exact P|]. split; [exact Q|]. pose proof (head_rule _ _ _ F1 (AP others)) as G1. split; [intros w g; rewrite (G1 w g); apply head_iff|].
    intros g. rewrite (head_rule_tags _ _ _ F2 (AP others) g). split; intros (w & X); exists w; apply G1; exact X. }
  destruct HI as [-> | ->].
  - exists (others_ru M word (u_lower (m_uni M) word)). split; [left; auto|]. exact (GO _ _ (every_russian M word ps HU AD LS DG PC NE P) (TR HU AD)).
  - exists (others_uk M word (u_lower (m_uni M) word)). split; [right; auto|]. exact (GO _ _ (every_ukrainian M word ps HU LS DG PC NE P) (TU HU)).
Qed.
Lemma units_differ : RU_DEFAULT_UNITS <> UK_DEFAULT_UNITS.
Proof. intros E. apply (f_equal (@length uitem)) in E. vm_compute in E. discriminate E. Qed.
Lemma growing : forall U subst items o1 src1 links1 lxs1 x1 ext1 T1 rows1 T1' M1 o2 src2 links2 lxs2 x2 ext2 T2 rows2 T2' M2,
  join_lexemes src1 links1 = Ok lxs1 -> compile_parsed_dict o1 src1 links1 = Ok x1 -> construct U ext1 T1 rows1 (x_gramtab x1) (dict_of x1) None subst items = Ok (T1', M1) ->
  join_lexemes src2 links2 = Ok lxs2 -> compile_parsed_dict o2 src2 links2 = Ok x2 -> construct U ext2 T2 rows2 (x_gramtab x2) (dict_of x2) None subst items = Ok (T2', M2) ->
  incl lxs1 lxs2 -> items = RU_DEFAULT_UNITS \/ items = UK_DEFAULT_UNITS ->
  (forall g, In g ["ADJF"; "sing"; "datv"]%string -> In (u g) (map g_name rows1)) -> (forall g, In g ["ADJF"; "sing"; "datv"]%string -> In (u g) (map g_name rows2)) ->
  names_ok U -> lower_stable U -> digits_ok U -> forall word, u_lower U word <> [] -> (exists lx w t, In lx lxs1 /\ In (w, t) lx /\ subst_of subst (u_lower U word) w) ->
  exists ps1 ps2 ts1 ts2, morph_parse M1 word = Ok ps1 /\ morph_parse M2 word = Ok ps2 /\ morph_tag M1 word = Ok ts1 /\ morph_tag M2 word = Ok ts2 /\
    (forall w g, analysed ps1 w g -> analysed ps2 w g) /\ incl (map t_gr ts1) (map t_gr ts2) /\
    (forall w g, analysed ps2 w g -> analysed ps1 w g \/ exists lx t, In lx lxs2 /\ ~ In lx lxs1 /\ In (w, t) lx /\ g = split_tag t /\ subst_of subst (u_lower U word) w) /\
    ((forall lx w t, In lx lxs2 -> In (w, t) lx -> subst_of subst (u_lower U word) w -> exists lx1, In lx1 lxs1 /\ In (w, t) lx1) ->
     (forall w g, analysed ps1 w g <-> analysed ps2 w g) /\ same_tags ts1 ts2).
Proof.
  intros U subst items o1 src1 links1 lxs1 x1 ext1 T1 rows1 T1' M1 o2 src2 links2 lxs2 x2 ext2 T2 rows2 T2' M2 J1 H1 K1 J2 H2 K2 IN HI A1 A2 NO LS DG word NE KN.
  destruct (grown_made _ _ _ _ _ _ _ _ _ _ _ _ _ J1 H1 K1 HI A1 NO LS) as (G1 & U1). destruct (grown_made _ _ _ _ _ _ _ _ _ _ _ _ _ J2 H2 K2 HI A2 NO LS) as (G2 & U2).
  assert (KN2 : exists lx w t, In lx lxs2 /\ In (w, t) lx /\ subst_of subst (u_lower U word) w) by (destruct KN as (lx & w & t & I & R); exists lx, w, t; split; [exact (IN lx I)|exact R]).
  destruct (known_answer _ _ _ _ _ word G1 U1 HI LS DG NE KN) as (r1 & E1 & ps1 & ts1 & P1 & Q1 & X1 & Y1). destruct (known_answer _ _ _ _ _ word G2 U2 HI LS DG NE KN2) as (r2 & E2 & ps2 & ts2 & P2 & Q2 & X2 & Y2).
  assert (ER : r1 = r2).
  { destruct E1 as [(-> & ->)|(-> & ->)], E2 as [(-> & Z)|(-> & Z)]; [reflexivity|exfalso; exact (units_differ Z)|exfalso; exact (units_differ (eq_sym Z))|].
    unfold others_uk. rewrite (gr_uni _ _ _ _ G1), (gr_uni _ _ _ _ G2). reflexivity. }
  subst r2. exists ps1, ps2, ts1, ts2. do 4 (split; [assumption|]).
  assert (UP : forall w g, analysed ps1 w g -> analysed ps2 w g).
  { intros w g X. apply X1 in X. apply X2. destruct X as [(S1 & F)|X]; [left; split; [exact S1|]|right; exact X]. apply (gr_forms _ _ _ _ G1) in F as (lx & t & I & R). apply (gr_forms _ _ _ _ G2). exists lx, t. split; [exact (IN lx I)|exact R]. }
  split; [exact UP|]. split; [intros g I; apply Y1 in I as (w & X); apply Y2; exists w; exact (UP w g X)|].
  split.
  - intros w g X. apply X2 in X. destruct X as [(S1 & F)|X]; [|left; apply X1; right; exact X]. apply (gr_forms _ _ _ _ G2) in F as (lx & t & I & J & E).
    destruct (in_dec (list_eq_dec (fun a b : str * str => ltac:(decide equality; apply (list_eq_dec N.eq_dec)))) lx lxs1) as [I1|N1].
    + left. apply X1. left. split; [exact S1|]. apply (gr_forms _ _ _ _ G1). exists lx, t. auto.
    + right. exists lx, t. auto.
  - intros NN. assert (EQ : forall w g, analysed ps1 w g <-> analysed ps2 w g).
    { intros w g. split; [apply UP|]. intros X. apply X2 in X. apply X1. destruct X as [(S1 & F)|X]; [left; split; [exact S1|]|right; exact X]. apply (gr_forms _ _ _ _ G2) in F as (lx & t & I & J & E).
      destruct (NN lx w t I J S1) as (lx1 & I1 & J1'). apply (gr_forms _ _ _ _ G1). exists lx1, t. auto. }
    split; [exact EQ|]. intros g. rewrite (Y1 g), (Y2 g). split; intros (w & X); exists w; apply EQ; exact X.
Qed.
