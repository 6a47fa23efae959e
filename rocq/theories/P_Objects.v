(** * C75: unit objects: cloning, binding to analyzers, repr *)
From Coq Require Import String List NArith ZArith Bool QArith Permutation Sorted.
From Verif Require Import Py Units Analyzer Objects Spec25 L_Objects L_Objects2 L_Objects3.
Import ListNotations.
Local Open Scope nat_scope.
Local Open Scope list_scope.

(** clone() of a unit made by a constructor call is a new object of the same class with the same attributes; nothing else changes *)
Theorem C75_clone : forall H0 calls H refs cfgs, make H0 calls = (H, Ok refs) -> map (fun kc => configured (fst kc) (snd kc)) calls = map Some cfgs ->
  forall o, In o refs -> exists ob H', nth_error (h_objs H) o = Some ob /\ clone true H o = (H', Ok (length (h_objs H))) /\ h_objs H' = h_objs H ++ [ob] /\ h_iters H' = h_iters H.
Proof. exact clone_fresh. Qed.
Print Assumptions C75_clone.

(** Any number of analyzers, one after the other, may be given the same unit objects, each in any lists: every analyzer gets unit objects of its own that mean what the constructor
    arguments mean (the configurations with which Analyzer.init_units works), and the given objects are left as they were. *)
Theorem C75_units : forall H0 calls H refs cfgs, make H0 calls = (H, Ok refs) -> map (fun kc => configured (fst kc) (snd kc)) calls = map Some cfgs ->
  forall m jobs its fls, Forall2 (Forall2 (item_of refs cfgs)) jobs its -> mapM (mapM flatten_item) its = Ok fls ->
  exists H' rs, analyzers true H m jobs = (H', Ok rs) /\ firstn (length (h_objs H)) (h_objs H') = h_objs H /\ length rs = length fls /\
    (forall n us fl, nth_error rs n = Some us -> nth_error fls n = Some fl -> bound_as H' (m + n) us (concat fl)) /\
    NoDup (refs ++ map fst (concat rs)).
Proof. exact units_shared. Qed.
Print Assumptions C75_units.

(** arguments that are one-shot iterators break this: initials given by a generator are lost before the first analyzer sees them, prefixes after the first analyzer *)
Theorem C75_iterator_refuted : forall l : list str, exists H H1 H2 o1 o2 o3 a1 a2 a3,
  make (MkHeap [] [l; l]) [(KFirstName, [(u "letters", VIter 0)]); (KKnownPrefix, [(u "known_prefixes", VIter 1)])] = (H, Ok [0; 1]) /\
  analyzers true H 0 [[OOne 0; OOne 1]] = (H1, Ok [[(o1, true); (o2, true)]]) /\ analyzers true H1 1 [[OOne 1]] = (H2, Ok [[(o3, true)]]) /\
  nth_error (h_objs H2) o1 = Some a1 /\ bound_cfg a1 = Some (UInit true [] name_pattern (1#10)) /\
  nth_error (h_objs H2) o2 = Some a2 /\ bound_cfg a2 = Some (UKnownPrefix l (75#100) 3) /\
  nth_error (h_objs H2) o3 = Some a3 /\ bound_cfg a3 = Some (UKnownPrefix [] (75#100) 3).
Proof.
  intros l. eexists. eexists. eexists. exists 2, 3, 4. eexists. eexists. eexists.
  split; [vm_compute; reflexivity|]. split; [vm_compute; reflexivity|]. split; [vm_compute; reflexivity|]. repeat (split; [vm_compute; reflexivity|]). vm_compute. reflexivity.
Qed.
Print Assumptions C75_iterator_refuted.

(** where the module inspect has no getargspec (Python 3.11 and later), binding any unit other than DictionaryAnalyzer and UnknAnalyzer raises AttributeError *)
Theorem C75_getargspec : forall H m items, (forall l, In (OGroup l) items -> l <> []) -> Forall (fun o => o < length (h_objs H)) (concat (map refs_of items)) ->
  (exists o ob, In o (concat (map refs_of items)) /\ nth_error (h_objs H) o = Some ob /\ o_class ob <> KDict /\ o_class ob <> KUnkn) ->
  exists H', init_units_obj false H m items = (H', Err AttributeError).
Proof. exact no_argspec. Qed.
Print Assumptions C75_getargspec.

(** kwargs_repr: "name=value" for every entry, in the order of the names; neither the order of the dict nor the values of hidden entries matter *)
Theorem C75_repr : forall (V : Type) (rep : V -> str) (hidden : list str) (kw : list (str * V)), NoDup (map fst kw) ->
  exists l, Permutation kw l /\ StronglySorted (fun a b => str_ltb (fst a) (fst b) = true) l /\
    kwargs_repr rep kw hidden = join (u ", ") (map (fun kv => fst kv ++ u "=" ++ (if smem (fst kv) hidden then u "<...>" else rep (snd kv))) l).
Proof. exact kwargs_repr_form. Qed.
Print Assumptions C75_repr.
Theorem C75_hidden : forall (V : Type) (rep : V -> str) (hidden : list str) (kw kw' kw2 : list (str * V)), NoDup (map fst kw) -> Permutation kw kw' ->
  Forall2 (fun a b => fst a = fst b /\ (In (fst a) hidden \/ rep (snd a) = rep (snd b))) kw' kw2 ->
  kwargs_repr rep kw hidden = kwargs_repr rep kw2 hidden.
Proof. exact kwargs_repr_indep. Qed.
Print Assumptions C75_hidden.

(** five constructor calls, two analyzers sharing units *)
Definition ex_calls : list (uclass * list (str * pyval)) :=
  [(KDict, []); (KFirstName, [(u "letters", VText (u "AB"))]); (KKnownPrefix, [(u "min_remainder_length", VNat 5); (u "known_prefixes", VSeq [u "un"; u "non"])]);
   (KUnknownPrefix, [(u "score_multiplier", VNum (1#4))]); (KHyph, [(u "skip_prefixes", VSeq [u "non-"])])].
Definition ex_cfgs : list ucfg :=
  [UDict; UInit true [u "A"; u "B"] name_pattern (1#10); UKnownPrefix [u "un"; u "non"] (75#100) 5; UUnknownPrefix (1#4); UHyph [u "non-"] (75#100)].
Definition ex_jobs : list (list oitem) := [[OOne 0; OGroup [1; 2; 3]]; [OGroup [2; 0]; OOne 4; OOne 4]].
Definition ex_its : list (list uitem) :=
  [[One UDict; Group [UInit true [u "A"; u "B"] name_pattern (1#10); UKnownPrefix [u "un"; u "non"] (75#100) 5; UUnknownPrefix (1#4)]];
   [Group [UKnownPrefix [u "un"; u "non"] (75#100) 5; UDict]; One (UHyph [u "non-"] (75#100)); One (UHyph [u "non-"] (75#100))]].
Example C75_made : exists H, make empty_heap ex_calls = (H, Ok [0; 1; 2; 3; 4]) /\ map (fun kc => configured (fst kc) (snd kc)) ex_calls = map Some ex_cfgs.
Proof. eexists. split; vm_compute; reflexivity. Qed.
Lemma given_n : forall refs cfgs n o c, nth_error refs n = Some o -> nth_error cfgs n = Some c -> given refs cfgs o c.
Proof. intros refs cfgs n o c A B. exists n. split; assumption. Qed.
Example C75_case : Forall2 (Forall2 (item_of [0; 1; 2; 3; 4] ex_cfgs)) ex_jobs ex_its /\ (exists fls, mapM (mapM flatten_item) ex_its = Ok fls /\ map (@length _) (map (@concat _) fls) = [4; 4]).
Proof.
  split.
  - unfold ex_jobs, ex_its. repeat constructor;
      first [apply (given_n _ _ 0); reflexivity|apply (given_n _ _ 1); reflexivity|apply (given_n _ _ 2); reflexivity|apply (given_n _ _ 3); reflexivity|apply (given_n _ _ 4); reflexivity].
  - eexists. split; vm_compute; reflexivity.
Qed.
Example C75_repr_case : exists ob, new_unit empty_heap KKnownPrefix [(u "min_remainder_length", VNat 5); (u "known_prefixes", VSeq [u "un"; u "non"])] = (MkHeap [ob] [], Ok 0) /\
  unit_repr true (fun v => match v with VNat 5 => u "5" | VNum _ => u "0.75" | _ => u "?" end) ob = Ok (u "KnownPrefixAnalyzer(known_prefixes=<...>, min_remainder_length=5, score_multiplier=0.75)").
Proof. eexists. split; [vm_compute; reflexivity|]. vm_compute. reflexivity. Qed.
Example C75_getargspec_case : exists H, make empty_heap ex_calls = (H, Ok [0; 1; 2; 3; 4]) /\ (forall l, In (OGroup l) [OOne 0; OGroup [0; 3]] -> l <> []) /\
  Forall (fun o => o < length (h_objs H)) (concat (map refs_of [OOne 0; OGroup [0; 3]])) /\
  (exists o ob, In o (concat (map refs_of [OOne 0; OGroup [0; 3]])) /\ nth_error (h_objs H) o = Some ob /\ o_class ob <> KDict /\ o_class ob <> KUnkn).
Proof.
  eexists. split; [vm_compute; reflexivity|]. split; [intros l [E|[E|[]]]; [discriminate E|injection E as <-; discriminate]|]. split; [repeat constructor|].
  exists 3. eexists. split; [right; right; left; reflexivity|]. split; [reflexivity|]. split; discriminate.
Qed.
