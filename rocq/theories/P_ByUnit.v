(** * What single units contribute to parse() (C32 C50 C51 C52 C53 C58) *)
From Coq Require Import String List NArith ZArith Bool QArith Lia Sorted.
From Verif Require Import Py Uni Tagset Dawg Utils Shapes Dict Units Analyzer ConfigRu ConfigUk Compile Spec Spec2
  L_Base L_Run L_Made L_Config L_Ex L_ExU Ex L_ByUnit L_Suffix.
Import ListNotations.
Local Open Scope nat_scope.
Local Open Scope list_scope.

Definition by_unitb (M : morph) (k : ucfg -> bool) (p : parse) : bool :=
  match made_by p with
  | Some (Root i) => match nth_error (m_units M) i with Some (b, _) => k (b_cfg b) | None => false end
  | _ => false
  end.
Definition made_exampleb (M : morph) (k : ucfg -> bool) (word form nf : str) (r : res (list parse)) : bool :=
  match r with
  | Ok ps => existsb (fun p => by_unitb M k p && (str_eqb (p_word p) form && str_eqb (p_nf p) nf)) ps
  | Err _ => false
  end.
(** some parse of [word] comes from a unit of kind [k] and is about [form] with normal form [nf] *)
Definition made_example (M : morph) (k : ucfg -> bool) (word form nf : str) : Prop :=
  exists ps p i b tm, morph_parse M word = Ok ps /\ In p ps /\ made_by p = Some (Root i) /\
    nth_error (m_units M) i = Some (b, tm) /\ k (b_cfg b) = true /\ p_word p = form /\ p_nf p = nf.
Lemma made_exampleb_ok : forall M k word form nf, made_exampleb M k word form nf (morph_parse M word) = true ->
  made_example M k word form nf.
Proof.
  intros M k word form nf H. unfold made_example. destruct (morph_parse M word) as [ps|e]; [|discriminate]. simpl in H.
  apply existsb_exists in H as (p & Hp & H). apply andb_true_iff in H as [H1 H]. apply andb_true_iff in H as [H2 H3].
  apply str_eqb_eq in H2, H3. unfold by_unitb in H1. destruct (made_by p) as [[i|i]|] eqn:E; try discriminate.
  destruct (nth_error (m_units M) i) as [[b tm]|] eqn:N; try discriminate.
  exists ps, p, i, b, tm. auto 10.
Qed.

(** ** C32 *)
Theorem C32_unknown_prefix : forall M word ps p i b tm mult, lower_stable (m_uni M) ->
  Forall (fun bt => prefixes_nonempty (fst bt)) (m_units M) ->
  morph_parse M word = Ok ps -> In p ps -> made_by p = Some (Root i) -> nth_error (m_units M) i = Some (b, tm) ->
  b_cfg b = UUnknownPrefix mult ->
  exists prefix rest w para idx, u_lower (m_uni M) word = prefix ++ rest /\ 1 <= length prefix <= 5 /\ 3 <= length rest /\
    subst_of (m_subst M) rest w /\ (exists vals, In (w, vals) (d_words (m_dict M)) /\ In (para, idx) vals) /\
    p_word p = prefix ++ w /\ (forall g, In g (t_gr (p_tag p)) -> ~ In g NON_PRODUCTIVE) /\
    p_stack p = [MDict (Sub i) w para idx; MStr (Root i) prefix].
Proof. exact up_sound. Qed.
Print Assumptions C32_unknown_prefix.
Example C32_case_parse : made_example demo (fun c => match c with UUnknownPrefix _ => true | _ => false end)
  (u "Байткота") (u "байткота") (u "байткот").
Proof. apply made_exampleb_ok. vm_compute. reflexivity. Qed.

(** ** C50 *)
Theorem C50_known : forall M prefix, wf_dict (m_dict M) -> consistent_dict (m_dict M) ->
  exists ps, iter_known_word_parses M prefix = Ok ps /\
    (map (fun p => (p_word p, p_stack p)) ps =
     flat_map (fun wv : str * list (nat * nat) => map (fun v => (fst wv, [MDict (Root 0) (fst wv) (fst v) (snd v)])) (snd wv))
              (filter (fun wv => prefixb prefix (fst wv)) (d_words (m_dict M)))) /\
    (forall p, In p ps -> exists para idx pre sf,
       p_stack p = [MDict (Root 0) (p_word p) para idx] /\ p_score p = 1%Q /\ (exists rest, p_word p = prefix ++ rest) /\
       (exists vals, In (p_word p, vals) (d_words (m_dict M)) /\ In (para, idx) vals) /\
       para_row (m_dict M) para idx pre (p_tag p) sf /\ normal_form_of (m_dict M) para idx (p_word p) (p_nf p)).
Proof. exact iter_known. Qed.
Print Assumptions C50_known.
Theorem C50_parsed : forall M prefix ps p qs b tm us, iter_known_word_parses M prefix = Ok ps -> In p ps ->
  NoDup (map fst (d_words (m_dict M))) -> m_units M = (b, tm) :: us -> b_cfg b = UDict -> m_prob M = None ->
  u_lower (m_uni M) (p_word p) = p_word p -> morph_parse M (p_word p) = Ok qs -> In p qs.
Proof. exact iter_parsed. Qed.
Print Assumptions C50_parsed.
Definition wordsb (r : res (list parse)) : list str := match r with Ok l => map p_word l | Err _ => [] end.
Fixpoint no_dupb (l : list str) : bool := match l with [] => true | x :: r => negb (smem x r) && no_dupb r end.
Lemma no_dupb_ok : forall l, no_dupb l = true -> NoDup l.
Proof.
  induction l as [|x l IH]; intros H; [constructor|]. simpl in H. apply andb_true_iff in H as [H1 H2].
  constructor; [|apply IH; assumption]. intros N. apply smem_In in N. rewrite N in H1. discriminate.
Qed.
Example C50_case : wf_dict (m_dict demo) /\ consistent_dict (m_dict demo) /\
  wordsb (iter_known_word_parses demo (u "кра")) = map u ["краснее"; "красного"; "красному"; "красные"; "красный"]%string /\
  NoDup (map fst (d_words (m_dict demo))).
Proof.
  split; [exact demo_wf_dict|]. split; [exact demo_consistent|]. split; [vm_compute; reflexivity|].
  apply no_dupb_ok. vm_compute. reflexivity.
Qed.

(** ** C51 *)
Theorem C51_extension : forall M word, Forall (fun bt => proper_prefixes (b_cfg (fst bt))) (m_units M) ->
  morph_parse (other_ext M) word = morph_parse M word /\ morph_tag (other_ext M) word = morph_tag M word.
Proof. exact ext_same. Qed.
Print Assumptions C51_extension.
Definition proper_prefixesb (c : ucfg) : bool :=
  match c with UKnownPrefix ps _ _ | UHyph ps _ => no_dupb ps && negb (smem [] ps) | _ => true end.
Lemma proper_prefixesb_ok : forall c, proper_prefixesb c = true -> proper_prefixes c.
Proof.
  assert (X : forall ps, no_dupb ps && negb (smem [] ps) = true -> NoDup ps /\ ~ In [] ps).
  { intros ps H. apply andb_true_iff in H as [H1 H2]. split; [apply no_dupb_ok; assumption|]. intros N. apply smem_In in N. rewrite N in H2. discriminate. }
  intros [] H; simpl; try exact I; apply X; exact H.
Qed.
Lemma proper_all : forall us l, map (fun bt : bunit * bool => (b_cfg (fst bt), snd bt)) us = l ->
  forallb (fun cb => proper_prefixesb (fst cb)) l = true -> Forall (fun bt => proper_prefixes (b_cfg (fst bt))) us.
Proof.
  intros us l <- H. rewrite forallb_forall in H. apply Forall_forall. intros bt Hb. apply proper_prefixesb_ok.
  exact (H (b_cfg (fst bt), snd bt) (in_map _ us bt Hb)).
Qed.
Lemma shipped_proper : forall M, shipped_units M -> Forall (fun bt => proper_prefixes (b_cfg (fst bt))) (m_units M).
Proof.
  intros M [H|H]; apply has_units_cfg in H; refine (proper_all _ _ H _); vm_compute; reflexivity.
Qed.
(** in particular with the units shipped for Russian and Ukrainian *)
Theorem C51_shipped : forall M word, shipped_units M ->
  morph_parse (other_ext M) word = morph_parse M word /\ morph_tag (other_ext M) word = morph_tag M word.
Proof. intros M word H. exact (ext_same M word (shipped_proper M H)). Qed.
Print Assumptions C51_shipped.

(** ** C52 *)
Theorem C52_unit : forall M i b skip mult word lower seen ps seen', b_cfg b = UHyph skip mult -> ~ In [] skip ->
  unit_parse (morph_parse M) (morph_tag M) M i b word lower seen = Ok (ps, seen') ->
  forall p, In p ps <-> ~ starts_with_any skip lower /\ hyphen_reading M (Root i) mult lower p.
Proof. exact hyph_unit_exact. Qed.
Print Assumptions C52_unit.
Theorem C52_parse : forall M word ps p i b tm skip mult, lower_stable (m_uni M) ->
  Forall (fun bt => prefixes_nonempty (fst bt)) (m_units M) -> ~ In [] skip ->
  morph_parse M word = Ok ps -> In p ps -> made_by p = Some (Root i) -> nth_error (m_units M) i = Some (b, tm) ->
  b_cfg b = UHyph skip mult -> 
  ~ starts_with_any skip (u_lower (m_uni M) word) /\
  exists p0, content p = content p0 /\ (m_prob M = None -> p = p0) /\ exists l r, one_inner_hyphen (u_lower (m_uni M) word) l r /\
    ((exists ls rs a c, morph_parse M l = Ok ls /\ morph_parse M r = Ok rs /\ In a ls /\ In c rs /\ has_pos (p_tag a) /\ same_features (p_tag a) (p_tag c) /\
        p0 = {| p_word := p_word a ++ u "-" ++ p_word c; p_tag := p_tag a; p_nf := p_nf a ++ u "-" ++ p_nf c;
               p_score := p_score a * mult; p_stack := [MHyphBoth (Root i) (p_stack a) (p_stack c)] |}) \/
     (exists rs c, morph_parse M r = Ok rs /\ In c rs /\ has_pos (p_tag c) /\
        p0 = {| p_word := l ++ u "-" ++ p_word c; p_tag := p_tag c; p_nf := l ++ u "-" ++ p_nf c;
               p_score := p_score c * mult; p_stack := [MHyphFixed (Root i) l (p_stack c)] |})).
Proof. exact hyph_parse_sound. Qed.
Print Assumptions C52_parse.
Example C52_case : made_example demo (fun c => match c with UHyph _ _ => true | _ => false end)
  (u "Кота-крота") (u "кота-крота") (u "кот-крот").
Proof. apply made_exampleb_ok. vm_compute. reflexivity. Qed.

(** ** C53 *)
Theorem C53_unit : forall M i b particles mult word lower seen ps seen', b_cfg b = UParticle particles mult ->
  ~ In [] particles -> at_most_one_ending particles ->
  unit_parse (morph_parse M) (morph_tag M) M i b word lower seen = Ok (ps, seen') ->
  (~ (exists w pt, In pt particles /\ In (chr "-") lower /\ lower = w ++ pt /\ w <> []) -> ps = []) /\
  (forall w pt, In pt particles -> In (chr "-") lower -> lower = w ++ pt -> w <> [] ->
     exists qs, morph_parse M w = Ok qs /\
       (forall p, In p ps -> exists q, In q qs /\ reattached (Root i) mult pt q p) /\
       (seen = [] -> forall q, In q qs -> exists p, In p ps /\ p_word p = p_word q ++ pt /\ t_gr (p_tag p) = t_gr (p_tag q))).
Proof. exact particle_unit_exact. Qed.
Print Assumptions C53_unit.
Theorem C53_parse : forall M word ps p i b tm particles mult, lower_stable (m_uni M) ->
  Forall (fun bt => prefixes_nonempty (fst bt)) (m_units M) ->
  morph_parse M word = Ok ps -> In p ps -> made_by p = Some (Root i) -> nth_error (m_units M) i = Some (b, tm) ->
  b_cfg b = UParticle particles mult ->
  exists w pt qs q p0, u_lower (m_uni M) word = w ++ pt /\ In pt particles /\ In (chr "-") (w ++ pt) /\ w <> [] /\
    morph_parse M w = Ok qs /\ In q qs /\ reattached (Root i) mult pt q p0 /\ content p = content p0 /\ (m_prob M = None -> p = p0).
Proof. exact particle_sound. Qed.
Print Assumptions C53_parse.
(** the shipped particles cannot be split in two ways *)
Theorem C53_shipped : at_most_one_ending RU_PARTICLES /\ at_most_one_ending UK_PARTICLES.
Proof. exact shipped_particles. Qed.
Print Assumptions C53_shipped.
Example C53_case : made_example demo (fun c => match c with UParticle _ _ => true | _ => false end)
  (u "Кота-то") (u "кота-то") (u "кот-то").
Proof. apply made_exampleb_ok. vm_compute. reflexivity. Qed.

(** ** C58 *)
Theorem C58_unit : forall M self sub mult minlen word lower seen ps seen', pred_counts_pos (m_dict M) -> lower <> [] ->
  ks_parse M self sub mult minlen word lower seen = Ok (ps, seen') ->
  (length word < minlen -> ps = []) /\
  StronglySorted (fun a b => (p_score b <= p_score a)%Q) ps /\
  (forall p, In p ps -> predicted M self sub mult lower p) /\
  (minlen <= length word -> forall pid pre rest dawg start e fs cnt para idx t,
     nth_error (d_prefixes (m_dict M)) pid = Some pre -> lower = pre ++ rest ->
     nth_error (d_pred (m_dict M)) pid = Some dawg -> longest_informative M dawg lower start e ->
     In (fs, (cnt, para, idx)) (productive_records M dawg e) -> build_tag_info (m_dict M) para idx = Ok t ->
     seen_mem (SKey (start ++ fs) t (PNum para)) seen = true \/
     exists p idx' m, In p ps /\ p_word p = start ++ fs /\ t_gr (p_tag p) = t_gr t /\ p_stack p = [MDict sub (start ++ fs) para idx'; m]).
Proof. exact ks_unit. Qed.
Print Assumptions C58_unit.
Theorem C58_parse : forall M word ps p i b tm mult minlen, pred_counts_pos (m_dict M) -> u_lower (m_uni M) word <> [] ->
  morph_parse M word = Ok ps -> In p ps -> made_by p = Some (Root i) -> nth_error (m_units M) i = Some (b, tm) ->
  b_cfg b = UKnownSuffix mult minlen ->
  minlen <= length word /\ exists p0, predicted M (Root i) (Sub i) mult (u_lower (m_uni M) word) p0 /\
    content p = content p0 /\ (m_prob M = None -> p = p0).
Proof. exact ks_sound. Qed.
Print Assumptions C58_parse.
(** a predicted reading is never as likely as a known one *)
Theorem C58_score : forall M self sub mult lower p, pred_counts_pos (m_dict M) -> (0 < mult)%Q ->
  predicted M self sub mult lower p -> (0 < p_score p < mult)%Q.
Proof. exact predicted_bounds. Qed.
Print Assumptions C58_score.
Example C58_case : pred_counts_pos (m_dict demo) /\
  made_example demo (fun c => match c with UKnownSuffix _ _ => true | _ => false end) (u "Бушнота") (u "бушнота") (u "бушнот").
Proof. split; [exact demo_counts|]. apply made_exampleb_ok. vm_compute. reflexivity. Qed.
