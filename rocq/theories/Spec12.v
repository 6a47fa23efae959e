(** * Specification for C15_rounding: choosing with approximately computed similarities *)
From Coq Require Import String List NArith ZArith Bool QArith Qabs.
From Verif Require Import Py Uni Tagset Dawg Dict Units Spec Spec2.
Import ListNotations.
Local Open Scope nat_scope.
Local Open Scope list_scope.

(** [counts want f a b]: the tag of [f] shares a grammemes with [want] and differs from it in b *)
Definition counts (want : list str) (f : parse) (a b : nat) : Prop :=
  card (fun x => In x want /\ In x (t_gr (p_tag f))) a /\
  card (fun x => (In x want /\ ~ In x (t_gr (p_tag f))) \/ (~ In x want /\ In x (t_gr (p_tag f)))) b.
(** the number [fl a b] the program computes for "a - 0.1 * b" is off by less than 1/20 for every candidate
    (IEEE-754 doubles are off by less than 10^-13 for all counts below 1000) *)
Definition nearly (fl : nat -> nat -> Q) (want : list str) (cands : list parse) : Prop :=
  forall f a b, In f cands -> counts want f a b ->
    (Qabs (fl a b - (inject_Z (Z.of_nat a) - (1 # 10) * inject_Z (Z.of_nat b))) < 1 # 20)%Q.
(** no candidate has twelve grammemes more than another *)
Definition similar_sizes (cands : list parse) : Prop :=
  forall f f' n n', In f cands -> In f' cands ->
    card (fun x => In x (t_gr (p_tag f))) n -> card (fun x => In x (t_gr (p_tag f'))) n' -> n < n' + 12.
(** the first of the candidates whose computed similarity is largest *)
Definition first_computed (fl : nat -> nat -> Q) (want : list str) (cands : list parse) (i : nat) : Prop :=
  exists f, nth_error cands i = Some f /\
    forall j f' a b a' b', nth_error cands j = Some f' -> counts want f a b -> counts want f' a' b' ->
      (fl a' b' <= fl a b)%Q /\ (j < i -> (fl a' b' < fl a b)%Q).
