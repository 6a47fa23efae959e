(** * Facts about the bound units and the shipped configurations *)
From Coq Require Import String List NArith ZArith Bool QArith Lia.
From Verif Require Import Py Uni Tagset Dawg Utils Shapes Dict Units Analyzer ConfigRu ConfigUk Spec L_Base.
Import ListNotations.
Local Open Scope nat_scope.
Local Open Scope list_scope.

Lemma bind_unit_cfg : forall C c C' b, bind_unit C c = Ok (C', b) -> b_cfg b = c.
Proof.
  intros C c C' b H. destruct c; simpl in H;
  repeat match goal with
  | H : (if ?x then _ else _) = Ok _ |- _ => destruct x
  | H : Ok _ = Ok _ |- _ => inversion H; subst; clear H; reflexivity
  | H : bind _ _ = Ok _ |- _ => apply bind_ok in H as (? & _ & H)
  end.
Qed.
Lemma bind_all_cfg : forall l C C' us, bind_all C l = Ok (C', us) ->
  map (fun bt => (b_cfg (fst bt), snd bt)) us = l.
Proof.
  induction l as [|[c b] l IH]; intros C C' us H; simpl in H.
  - inversion H; auto.
  - apply bind_ok in H as ([C1 x] & E1 & H). apply bind_ok in H as ([C2 y] & E2 & H).
    apply Ok_inj in H. inversion H; subst. simpl in *. rewrite (bind_unit_cfg _ _ _ _ E1), (IH _ _ _ E2). auto.
Qed.
Lemma init_units_cfg : forall C C' items us, init_units C items = Ok (C', us) ->
  exists fl, mapM flatten_item items = Ok fl /\ map (fun bt => (b_cfg (fst bt), snd bt)) us = concat fl.
Proof.
  intros C C' items us H. apply bind_ok in H as (fl & E & H). exists fl. split; auto. eapply bind_all_cfg; eauto.
Qed.

Fixpoint isolatedb (start : bool) (l : list (ucfg * bool)) : bool :=
  match l with
  | [] => true
  | (c, t) :: r => match c with UUnkn => start | _ => true end && isolatedb t r
  end.
Lemma isolatedb_ok : forall us start, isolatedb start (map (fun bt => (b_cfg (fst bt), snd bt)) us) = true ->
  unkn_isolated start us.
Proof.
  induction us as [|[b t] us IH]; intros start H; simpl in *; auto. apply andb_true_iff in H as [H1 H2].
  split; [intro E; rewrite E in H1; auto|auto].
Qed.
Definition cfg_nonemptyb (c : ucfg) : bool := match c with UKnownPrefix ps _ _ => negb (smem [] ps) | _ => true end.
Lemma nonemptyb_ok : forall us, forallb (fun cb => cfg_nonemptyb (fst cb)) (map (fun bt : bunit * bool => (b_cfg (fst bt), snd bt)) us) = true ->
  Forall (fun bt => prefixes_nonempty (fst bt)) us.
Proof.
  intros us H. rewrite forallb_forall in H. apply Forall_forall. intros bt Hb. unfold prefixes_nonempty.
  specialize (H (b_cfg (fst bt), snd bt) (in_map _ us bt Hb)). simpl in H. unfold cfg_nonemptyb in H.
  destruct (b_cfg (fst bt)); auto. intro N. apply smem_In in N. rewrite N in H. discriminate H.
Qed.
Definition flat_cfg (items : list uitem) : list (ucfg * bool) :=
  match mapM flatten_item items with Ok fl => concat fl | Err _ => [] end.
Lemma has_units_cfg : forall M items, has_units M items ->
  map (fun bt => (b_cfg (fst bt), snd bt)) (m_units M) = flat_cfg items.
Proof.
  intros M items (C & C' & H). apply init_units_cfg in H as (fl & E & H). unfold flat_cfg. rewrite E. auto.
Qed.

Lemma ends_unkn_cfg : forall M l t, map (fun bt => (b_cfg (fst bt), snd bt)) (m_units M) = l ++ [(UUnkn, t)] -> ends_with_unkn M.
Proof.
  intros M l t H. apply map_eq_app in H as (us & r & E & _ & H). destruct r as [|[b t'] [|]]; try discriminate.
  simpl in H. inversion H; subst. exists us, b, t. auto.
Qed.

Lemma shipped_facts : forall M, shipped_units M ->
  ends_with_unkn M /\ unkn_isolated true (m_units M) /\ Forall (fun bt => prefixes_nonempty (fst bt)) (m_units M).
Proof.
  intros M [H|H]; apply has_units_cfg in H.
  - split; [|split].
    + apply (ends_unkn_cfg M (removelast (flat_cfg RU_DEFAULT_UNITS)) true). rewrite H. vm_compute. reflexivity.
    + apply isolatedb_ok. rewrite H. vm_compute. reflexivity.
    + apply nonemptyb_ok. rewrite H. vm_compute. reflexivity.
  - split; [|split].
    + apply (ends_unkn_cfg M (removelast (flat_cfg UK_DEFAULT_UNITS)) true). rewrite H. vm_compute. reflexivity.
    + apply isolatedb_ok. rewrite H. vm_compute. reflexivity.
    + apply nonemptyb_ok. rewrite H. vm_compute. reflexivity.
Qed.
