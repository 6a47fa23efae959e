(** * Lemmas for C71: traces *)
From Coq Require Import String List NArith ZArith Bool QArith Lia.
From Verif Require Import Py Uni Tagset Dawg Dict Units Analyzer Trace.
From Verif Require Import L_Base L_Words.
Import ListNotations.
Local Open Scope nat_scope.
Local Open Scope list_scope.

Lemma snd_tbind : forall {A B} (m : tr A) (k : A -> tr B), snd (tbind m k) = (let* a := snd m in snd (k a)).
Proof. intros A B [t [a|e]] k; cbn [tbind snd bind]; [destruct (k a); reflexivity|reflexivity]. Qed.
Lemma fst_tbind : forall {A B} (m : tr A) (k : A -> tr B), fst (tbind m k) = fst m ++ match snd m with Ok a => fst (k a) | Err _ => [] end.
Proof. intros A B [t [a|e]] k; cbn [tbind fst snd]; [destruct (k a); reflexivity|rewrite app_nil_r; reflexivity]. Qed.
Lemma snd_tlift : forall {A} (r : res A), snd (tlift r) = r.
Proof. reflexivity. Qed.
Lemma fst_tlift : forall {A} (r : res A), fst (tlift r) = [].
Proof. reflexivity. Qed.
Lemma snd_tfold : forall {A S} (f : S -> A -> tr S) (g : S -> A -> res S) l s, (forall s x, snd (f s x) = g s x) -> snd (tfold f s l) = foldM g s l.
Proof.
  intros A S f g l. induction l as [|x l IH]; intros s H; [reflexivity|]. cbn [tfold foldM]. rewrite snd_tbind, H. destruct (g s x) as [s'|e]; [|reflexivity]. cbn [bind]. apply IH. exact H.
Qed.

(** ** The results are those of the untraced functions *)
Section Adequate.
  Variables (recP : str -> res (list parse)) (recT : str -> res (list tag)) (tP : str -> tr (list parse)) (tT : str -> tr (list tag)).
  Hypothesis same : forall w, snd (tP w) = recP w /\ snd (tT w) = recT w.
  Lemma kp_parse_snd : forall M self ps mult minrem lower seen, snd (kp_parse_t tP M self ps mult minrem lower seen) = kp_parse recP M self ps mult minrem lower seen.
  Proof. intros. unfold kp_parse_t, kp_parse. apply snd_tfold. intros s [prefix rest]. rewrite snd_tbind, (proj1 (same rest)). reflexivity. Qed.
  Lemma kp_tag_snd : forall M ps minrem lower seen, snd (kp_tag_t tT M ps minrem lower seen) = kp_tag recT M ps minrem lower seen.
  Proof. intros. unfold kp_tag_t, kp_tag. apply snd_tfold. intros s [prefix rest]. rewrite snd_tbind, (proj2 (same _)). reflexivity. Qed.
  Lemma adverb_snd : forall M lower, snd (adverb_should_parse_t tT M lower) = adverb_should_parse recT M lower.
  Proof. intros. unfold adverb_should_parse_t, adverb_should_parse. destruct (_ || _); [reflexivity|]. rewrite snd_tbind, (proj2 (same _)). reflexivity. Qed.
  Lemma hyph_snd : forall M self skip mult lower seen, snd (hyph_parse_t tP M self skip mult lower seen) = hyph_parse recP M self skip mult lower seen.
  Proof.
    intros. unfold hyph_parse_t, hyph_parse. destruct (negb _); [reflexivity|]. destruct (split_once HY lower) as [lw [rw|]]; [|reflexivity].
    rewrite snd_tbind, (proj1 (same lw)). destruct (recP lw) as [ls|e]; [|reflexivity]. cbn [bind]. rewrite snd_tbind, (proj1 (same rw)). reflexivity.
  Qed.
  Lemma unit_parse_snd : forall M i b word lower seen, snd (unit_parse_t tP tT M i b word lower seen) = unit_parse recP recT M i b word lower seen.
  Proof.
    intros. unfold unit_parse_t, unit_parse. destruct (b_cfg b); try reflexivity.
    - unfold particle_parse_t, particle_parse. destruct (particle_splits particles lower) as [|[w pt] r]; [reflexivity|]. rewrite snd_tbind, (proj1 (same w)). reflexivity.
    - rewrite snd_tbind, adverb_snd. reflexivity.
    - apply hyph_snd.
    - apply kp_parse_snd.
  Qed.
  Lemma unit_tag_snd : forall M i b word lower seen, snd (unit_tag_t tP tT M i b word lower seen) = unit_tag recP recT M i b word lower seen.
  Proof.
    intros. unfold unit_tag_t, unit_tag. destruct (b_cfg b); try reflexivity.
    - unfold particle_tag_t, particle_tag. destruct (particle_splits particles lower) as [|[w pt] r]; [reflexivity|]. rewrite snd_tbind, (proj2 (same w)). reflexivity.
    - rewrite snd_tbind, adverb_snd. reflexivity.
    - rewrite snd_tbind, hyph_snd. unfold default_tag. destruct (hyph_parse recP M (Root i) skip mult lower []); reflexivity.
    - apply kp_tag_snd.
  Qed.
  Lemma run_parse_snd : forall M word lower us i acc seen, snd (run_parse_t tP tT M word lower i us acc seen) = run_parse recP recT M word lower i us acc seen.
  Proof.
    intros M word lower us. induction us as [|[b tm] us IH]; intros i acc seen; [reflexivity|]. cbn [run_parse_t run_parse]. rewrite snd_tbind, unit_parse_snd.
    destruct (unit_parse recP recT M i b word lower seen) as [[ps seen']|e]; [|reflexivity]. cbn [bind]. destruct (tm && _); [reflexivity|]. apply IH.
  Qed.
  Lemma run_tag_snd : forall M word lower us i acc seen, snd (run_tag_t tP tT M word lower i us acc seen) = run_tag recP recT M word lower i us acc seen.
  Proof.
    intros M word lower us. induction us as [|[b tm] us IH]; intros i acc seen; [reflexivity|]. cbn [run_tag_t run_tag]. rewrite snd_tbind, unit_tag_snd.
    destruct (unit_tag recP recT M i b word lower seen) as [[ps seen']|e]; [|reflexivity]. cbn [bind]. destruct (tm && _); [reflexivity|]. apply IH.
  Qed.
End Adequate.
Lemma analyze_snd : forall f M w, snd (fst (analyze_t f M) w) = parse_f f M w /\ snd (snd (analyze_t f M) w) = tag_f f M w.
Proof.
  induction f as [|f IH]; intros M w; [split; reflexivity|]. unfold parse_f, tag_f. cbn [analyze_t analyze fst snd enter]. rewrite !snd_tbind. split.
  - rewrite (run_parse_snd (parse_f f M) (tag_f f M)) by (intro; apply IH). reflexivity.
  - rewrite (run_tag_snd (parse_f f M) (tag_f f M)) by (intro; apply IH). reflexivity.
Qed.

(** ** Which words a unit passes on *)
Definition unit_calls (M : morph) (c : ucfg) (lower : str) : list str :=
  match c with
  | UParticle particles _ => match particle_splits particles lower with [] => [] | (w, _) :: _ => [w] end
  | UHAdverb _ => if (length lower <? 5) || negb (prefixb (u "по-") lower) then [] else [slice_from lower 3]
  | UHyph skip _ => if negb (hyph_should_parse M skip lower) then [] else match split_once HY lower with (lw, Some rw) => [lw; rw] | _ => [] end
  | UKnownPrefix ps _ minrem => map snd (kp_splits M ps minrem lower)
  | _ => []
  end.
Section Calls.
  Variables (tP : str -> tr (list parse)) (tT : str -> tr (list tag)).
  (** everything noted while the list [cs] of words is passed on, in order, possibly stopping early *)
  Inductive passed : list str -> list str -> Prop :=
  | passed_stop : forall cs, passed cs []
  | passed_parse : forall w cs t, passed cs t -> passed (w :: cs) (fst (tP w) ++ t)
  | passed_tag : forall w cs t, passed cs t -> passed (w :: cs) (fst (tT w) ++ t).
  Lemma passed1p : forall w cs, passed (w :: cs) (fst (tP w)).
  Proof. intros. rewrite <- (app_nil_r (fst (tP w))). constructor. constructor. Qed.
  Lemma passed1t : forall w cs, passed (w :: cs) (fst (tT w)).
  Proof. intros. rewrite <- (app_nil_r (fst (tT w))). constructor. constructor. Qed.
  Lemma hyph_passed : forall M self skip mult m lower seen, passed (unit_calls M (UHyph skip m) lower) (fst (hyph_parse_t tP M self skip mult lower seen)).
  Proof.
    intros. unfold unit_calls, hyph_parse_t. destruct (negb _); [constructor|]. destruct (split_once HY lower) as [lw [rw|]]; [|constructor].
    rewrite fst_tbind. destruct (snd (tP lw)); [|rewrite app_nil_r; apply passed1p]. apply passed_parse. rewrite fst_tbind.
    destruct (snd (tP rw)); cbn [fst tlift]; rewrite app_nil_r; apply passed1p.
  Qed.
  Lemma unit_parse_passed : forall M i b word lower seen, passed (unit_calls M (b_cfg b) lower) (fst (unit_parse_t tP tT M i b word lower seen)).
  Proof.
    intros. unfold unit_parse_t. destruct (b_cfg b) eqn:C; try (cbn [fst tlift]; constructor).
    - cbn [unit_calls]. unfold particle_parse_t. destruct (particle_splits particles lower) as [|[w pt] r]; [constructor|]. rewrite fst_tbind. destruct (snd (tP w)); cbn [fst tlift]; rewrite app_nil_r; apply passed1p.
    - cbn [unit_calls]. unfold adverb_should_parse_t. rewrite fst_tbind. destruct (_ || _); [cbn [fst tlift snd app]; constructor|]. rewrite fst_tbind, snd_tbind.
      destruct (snd (tT (slice_from lower 3))) as [ts|e]; cbn [bind snd fst tlift]; [|rewrite !app_nil_r; apply passed1t].
      destruct (any_contains _ _ _); cbn [fst tlift]; rewrite !app_nil_r; apply passed1t.
    - apply hyph_passed.
    - cbn [unit_calls]. unfold kp_parse_t. generalize (@nil parse, seen) as st. induction (kp_splits M prefixes minrem lower) as [|[prefix rest] l IH]; intros st; [constructor|].
      cbn [tfold map snd]. rewrite fst_tbind, fst_tbind, snd_tbind. destruct (snd (tP rest)); cbn [bind snd fst tlift]; [|rewrite !app_nil_r; apply passed1p]. rewrite app_nil_r. apply passed_parse. apply IH.
  Qed.
  Lemma unit_tag_passed : forall M i b word lower seen, passed (unit_calls M (b_cfg b) lower) (fst (unit_tag_t tP tT M i b word lower seen)).
  Proof.
    intros. unfold unit_tag_t. destruct (b_cfg b) eqn:C; try (cbn [fst tlift]; constructor).
    - cbn [unit_calls]. unfold particle_tag_t. destruct (particle_splits particles lower) as [|[w pt] r]; [constructor|]. rewrite fst_tbind. destruct (snd (tT w)); cbn [fst tlift]; rewrite app_nil_r; apply passed1t.
    - cbn [unit_calls]. unfold adverb_should_parse_t. rewrite fst_tbind. destruct (_ || _); [cbn [fst tlift snd app]; constructor|]. rewrite fst_tbind, snd_tbind.
      destruct (snd (tT (slice_from lower 3))) as [ts|e]; cbn [bind snd fst tlift]; [|rewrite !app_nil_r; apply passed1t].
      destruct (any_contains _ _ _); cbn [fst tlift]; rewrite !app_nil_r; apply passed1t.
    - rewrite fst_tbind. destruct (snd (hyph_parse_t _ _ _ _ _ _ _)); cbn [fst tlift]; rewrite app_nil_r; apply hyph_passed.
    - cbn [unit_calls]. unfold kp_tag_t. generalize (@nil tag, seen) as st. induction (kp_splits M prefixes minrem lower) as [|[prefix rest] l IH]; intros st; [constructor|].
      cbn [tfold map snd]. rewrite fst_tbind, fst_tbind, snd_tbind. destruct (snd (tT rest)); cbn [bind snd fst tlift]; [|rewrite !app_nil_r; apply passed1t]. rewrite app_nil_r. apply passed_tag. apply IH.
  Qed.
  Lemma passed_app : forall cs t ds t', passed cs t -> passed ds t' -> exists es, incl es (cs ++ ds) /\ length es <= length (cs ++ ds) /\ passed es (t ++ t').
  Proof.
    intros cs t ds t' H H'. induction H as [cs|w cs t H (es & I & L & P)|w cs t H (es & I & L & P)].
    - exists ds. split; [apply incl_appr, incl_refl|]. split; [rewrite app_length; lia|exact H'].
    - exists (w :: es). split; [intros x [<-|X]; [left; reflexivity|right; apply I; exact X]|]. split; [cbn; lia|]. rewrite <- app_assoc. constructor. exact P.
    - exists (w :: es). split; [intros x [<-|X]; [left; reflexivity|right; apply I; exact X]|]. split; [cbn; lia|]. rewrite <- app_assoc. constructor. exact P.
  Qed.
  Definition all_calls (M : morph) (us : list (bunit * bool)) (lower : str) : list str := flat_map (fun bt => unit_calls M (b_cfg (fst bt)) lower) us.
  Lemma run_parse_passed : forall M word lower us i acc seen, exists es, incl es (all_calls M us lower) /\ length es <= length (all_calls M us lower) /\ passed es (fst (run_parse_t tP tT M word lower i us acc seen)).
  Proof.
    intros M word lower us. induction us as [|[b tm] us IH]; intros i acc seen; [exists []; split; [intros x []|]; split; [cbn; lia|constructor]|].
    cbn [run_parse_t]. rewrite fst_tbind. cbn [all_calls flat_map fst]. fold (all_calls M us lower). assert (X := unit_parse_passed M i b word lower seen).
    destruct (snd (unit_parse_t tP tT M i b word lower seen)) as [[ps seen']|e].
    - destruct (tm && _).
      + cbn [fst tlift]. apply (passed_app _ _ (all_calls M us lower) []); [exact X|constructor].
      + destruct (IH (S i) (acc ++ ps) seen') as (es & I & L & P). destruct (passed_app _ _ _ _ X P) as (fs & I' & L' & P'). exists fs. split; [|split; [|exact P']].
        * intros x Hx. apply I' in Hx. apply in_app_or in Hx as [Hx|Hx]; apply in_or_app; [left; exact Hx|right; apply I; exact Hx].
        * rewrite app_length in *. lia.
    - apply (passed_app _ _ (all_calls M us lower) []); [exact X|constructor].
  Qed.
  Lemma run_tag_passed : forall M word lower us i acc seen, exists es, incl es (all_calls M us lower) /\ length es <= length (all_calls M us lower) /\ passed es (fst (run_tag_t tP tT M word lower i us acc seen)).
  Proof.
    intros M word lower us. induction us as [|[b tm] us IH]; intros i acc seen; [exists []; split; [intros x []|]; split; [cbn; lia|constructor]|].
    cbn [run_tag_t]. rewrite fst_tbind. cbn [all_calls flat_map fst]. fold (all_calls M us lower). assert (X := unit_tag_passed M i b word lower seen).
    destruct (snd (unit_tag_t tP tT M i b word lower seen)) as [[ps seen']|e].
    - destruct (tm && _).
      + cbn [fst tlift]. apply (passed_app _ _ (all_calls M us lower) []); [exact X|constructor].
      + destruct (IH (S i) (acc ++ ps) seen') as (es & I & L & P). destruct (passed_app _ _ _ _ X P) as (fs & I' & L' & P'). exists fs. split; [|split; [|exact P']].
        * intros x Hx. apply I' in Hx. apply in_app_or in Hx as [Hx|Hx]; apply in_or_app; [left; exact Hx|right; apply I; exact Hx].
        * rewrite app_length in *. lia.
    - apply (passed_app _ _ (all_calls M us lower) []); [exact X|constructor].
  Qed.
End Calls.
Lemma analyze_passed : forall f M w, exists es es', incl es (all_calls M (m_units M) (u_lower (m_uni M) w)) /\ incl es' (all_calls M (m_units M) (u_lower (m_uni M) w)) /\
  length es <= length (all_calls M (m_units M) (u_lower (m_uni M) w)) /\ length es' <= length (all_calls M (m_units M) (u_lower (m_uni M) w)) /\
  exists t t', fst (fst (analyze_t (S f) M) w) = w :: t /\ fst (snd (analyze_t (S f) M) w) = w :: t' /\
   passed (fst (analyze_t f M)) (snd (analyze_t f M)) es t /\ passed (fst (analyze_t f M)) (snd (analyze_t f M)) es' t'.
Proof.
  intros f M w.
  destruct (run_parse_passed (fst (analyze_t f M)) (snd (analyze_t f M)) M w (u_lower (m_uni M) w) (m_units M) 0 [] []) as (es & I & L & P).
  destruct (run_tag_passed (fst (analyze_t f M)) (snd (analyze_t f M)) M w (u_lower (m_uni M) w) (m_units M) 0 [] []) as (es' & I' & L' & P').
  exists es, es'. split; [exact I|]. split; [exact I'|]. split; [exact L|]. split; [exact L'|]. do 2 eexists. split; [reflexivity|]. split; [reflexivity|]. rewrite !fst_tbind. split.
  - match goal with |- passed _ _ _ (_ ++ ?x) => replace x with (@nil str) by (destruct (snd _); reflexivity) end. rewrite app_nil_r. exact P.
  - match goal with |- passed _ _ _ (_ ++ ?x) => replace x with (@nil str) by (destruct (snd _); reflexivity) end. rewrite app_nil_r. exact P'.
Qed.
