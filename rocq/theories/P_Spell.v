(** * C39: which text each tag text of a dictionary becomes *)
From Coq Require Import String List NArith ZArith Bool Lia.
From Verif Require Import Py Uni Tagset Dawg Utils Compile Preprocess Spec Spec2 Spec3 Spec17 L_Base L_Tags2 L_Pre L_Spell.
Import ListNotations.
Local Open Scope nat_scope.
Local Open Scope list_scope.

(** A spelling that (once loc1, gen1 and acc1 are rewritten) is used in the dictionary beside another of the same
    meaning becomes the most frequent one; every other becomes its own rewriting. *)
Theorem C39_spelling : forall lx skip, (forall t, In t (tags_of lx) -> short (split_tag t)) ->
  exists f, simplify_tags lx skip = with_tags f lx /\ spelled lx skip f.
Proof. exact simplify_spelling. Qed.
Print Assumptions C39_spelling.

(** In a dictionary without loc1, gen1 and acc1: tags without competing spellings stay as they are, and those with
    competing spellings get one text per meaning. *)
Theorem C39_unified : forall lx skip, (forall t, In t (tags_of lx) -> short (split_tag t) /\ plain_tag t) ->
  exists f, simplify_tags lx skip = with_tags f lx /\ forall t, In t (tags_of lx) ->
    (~ clash lx skip t -> f t = t) /\ (clash lx skip t -> forall t', In t' (tags_of lx) -> (f t' = f t <-> same_meaning t t')).
Proof. exact simplify_unified. Qed.
Print Assumptions C39_unified.

Definition spell_lx : lexemes := [(1%N, [(u "а", u "N s,g"); (u "б", u "N g,s"); (u "в", u "N g,s"); (u "г", u "N l"); (u "д", u "N,l")])].
Example C39_spelling_case :
  (forall t, In t (tags_of spell_lx) -> short (split_tag t) /\ plain_tag t) /\
  clash spell_lx true (u "N s,g") /\ preferred spell_lx (u "N s,g") (u "N g,s") /\
  ~ clash spell_lx true (u "N l") /\ clash spell_lx false (u "N l") /\
  simplify_tags spell_lx true = [(1%N, [(u "а", u "N g,s"); (u "б", u "N g,s"); (u "в", u "N g,s"); (u "г", u "N l"); (u "д", u "N,l")])] /\
  simplify_tags spell_lx false = [(1%N, [(u "а", u "N g,s"); (u "б", u "N g,s"); (u "в", u "N g,s"); (u "г", u "N l"); (u "д", u "N l")])].
Proof.
  assert (SB : forallb (fun t => forallb (fun g => (length g <=? 4) && str_eqb (common_case g) g) (split_tag t)) (tags_of spell_lx) = true) by (vm_compute; reflexivity).
  rewrite forallb_forall in SB.
  assert (H : forall t, In t (tags_of spell_lx) -> short (split_tag t) /\ plain_tag t).
  { intros t I. specialize (SB t I). rewrite forallb_forall in SB. split.
    - intros g G. specialize (SB g G). apply andb_true_iff in SB as [A _]. apply Nat.leb_le. exact A.
    - intros gs g R G. apply reads_unique in R. subst gs. specialize (SB g G). apply andb_true_iff in SB as [_ A]. apply str_eqb_eq. exact A. }
  assert (AC : forall skip t, In t (tags_of spell_lx) -> is_ambiguous (map fst (counter (group (tag2grammemes t) (tags_of spell_lx)))) skip = true <-> clash spell_lx skip t)
    by (intros; apply ambiguous_clash; auto; apply H).
  assert (I1 : In (u "N s,g") (tags_of spell_lx)) by (left; reflexivity).
  assert (I4 : In (u "N l") (tags_of spell_lx)) by (do 3 right; left; reflexivity).
  split; [exact H|]. assert (C1 : clash spell_lx true (u "N s,g")) by (apply (AC true _ I1); vm_compute; reflexivity).
  split; [exact C1|]. split; [|split; [|split; [|split; vm_compute; reflexivity]]].
  - destruct (simplify_spelling spell_lx true (fun t h => proj1 (H t h))) as (f & E & S). destruct (S _ I1) as (r & R & A & _).
    apply respelled_plain in R; [|apply H; exact I1]. subst r. specialize (A I1 C1).
    assert (X : f (u "N s,g") = u "N g,s"); [|rewrite X in A; exact A].
    assert (Y : simplify_tags spell_lx true = [(1%N, [(u "а", u "N g,s"); (u "б", u "N g,s"); (u "в", u "N g,s"); (u "г", u "N l"); (u "д", u "N,l")])]) by (vm_compute; reflexivity).
    rewrite Y in E. unfold spell_lx, with_tags in E. cbn [map fst snd] in E. injection E as E _ _ _ _. symmetry. exact E.
  - intros C. apply (AC true _ I4) in C. vm_compute in C. discriminate.
  - apply (AC false _ I4). vm_compute. reflexivity.
Qed.

(** Unifying the spellings a second time changes nothing (in a dictionary without loc1, gen1 and acc1). *)
Theorem C39_idempotent : forall lx skip, (forall t, In t (tags_of lx) -> short (split_tag t) /\ plain_tag t) ->
  simplify_tags (simplify_tags lx skip) skip = simplify_tags lx skip.
Proof. exact simplify_twice. Qed.
Print Assumptions C39_idempotent.
Example C39_idempotent_case :
  (forall t, In t (tags_of spell_lx) -> short (split_tag t) /\ plain_tag t) /\ simplify_tags spell_lx true <> spell_lx /\
  simplify_tags (simplify_tags spell_lx true) false <> simplify_tags spell_lx true.
Proof. split; [apply C39_spelling_case|]. split; vm_compute; discriminate. Qed.

(** With loc1 it can: when loc1 is the more frequent spelling the first pass writes loc1 everywhere (also where loct
    stood), and the second pass writes loct everywhere. *)
Theorem C39_idempotent_refuted : exists lx, (forall t, In t (tags_of lx) -> short (split_tag t)) /\
  (exists f, simplify_tags lx true = with_tags f lx /\ forall t, In t (tags_of lx) -> f t = u "NOUN loc1") /\
  (exists f, simplify_tags (simplify_tags lx true) true = with_tags f lx /\ forall t, In t (tags_of lx) -> f t = u "NOUN loct").
Proof.
  exists [(1%N, [(u "а", u "NOUN loc1"); (u "б", u "NOUN loct"); (u "в", u "NOUN loc1")])]. split; [|split].
  - assert (SB : forallb (fun t => forallb (fun g => length g <=? 4) (split_tag t)) (tags_of [(1%N, [(u "а", u "NOUN loc1"); (u "б", u "NOUN loct"); (u "в", u "NOUN loc1")])]) = true) by (vm_compute; reflexivity).
    rewrite forallb_forall in SB. intros t I g G. specialize (SB t I). rewrite forallb_forall in SB. apply Nat.leb_le. apply SB. exact G.
  - exists (fun _ => u "NOUN loc1"). split; [vm_compute; reflexivity|reflexivity].
  - exists (fun _ => u "NOUN loct"). split; [vm_compute; reflexivity|reflexivity].
Qed.
Print Assumptions C39_idempotent_refuted.
