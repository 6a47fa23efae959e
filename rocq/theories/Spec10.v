(** * Specification vocabulary for the command line (C48, C49, C61, C62) *)
From Coq Require Import String List NArith ZArith Bool QArith.
From Verif Require Import Py Uni Tagset Shapes Dict Units Analyzer Json Cli.
Import ListNotations.
Local Open Scope nat_scope.
Local Open Scope list_scope.

(** a line (or, without newlines, a piece) of the output: the token, then the items between braces *)
Definition record (newlines : bool) (tok : str) (items : list str) : str :=
  tok ++ u "{" ++ join (u "|") items ++ u "}" ++ (if newlines then [10%N] else [32%N]).
(** what is shown of one analysis *)
Definition shown (score normal_form : bool) (p : parse) : str :=
  (if normal_form then p_nf p ++ u ":" else []) ++ (if score then fmt3 (p_score p) ++ u "=" else []) ++ t_str (p_tag p).
(** what is shown of one normal form with its weight *)
Definition shown_lemma (score : bool) (lw : str * Q) : str := fst lw ++ (if score then u ":" ++ fmt3 (snd lw) else []).
(** at least the threshold *)
Definition at_least (s : Q) (t : pyfloat) : Prop := match t with Fin q => (q <= s)%Q | NInf => True | PInf | NaN => False end.
(** the sum of the scores of the analyses with this normal form *)
Fixpoint weight (l : str) (ps : list parse) : Q :=
  match ps with [] => 0%Q | p :: r => ((if str_eqb (p_nf p) l then p_score p else 0%Q) + weight l r)%Q end.
(** [a] stands before [b] *)
Definition before {A} (a b : A) (l : list A) : Prop := exists x y z, l = x ++ a :: y ++ b :: z.
(** [a] occurs, and [b] does not occur before it *)
Definition first_before {A} (a b : A) (l : list A) : Prop := exists x y, l = x ++ a :: y /\ ~ In b x /\ a <> b.
(** the list of normal forms with their weights that lemma mode shows *)
Record lemma_list (ps : list parse) (thresh : pyfloat) (lw : list (str * Q)) : Prop := {
  ll_once : NoDup (map fst lw);
  ll_sound : forall l w, In (l, w) lw -> In l (map p_nf ps) /\ (w == weight l ps)%Q /\ at_least w thresh;
  ll_complete : forall l, In l (map p_nf ps) -> at_least (weight l ps) thresh -> In l (map fst lw);
  ll_order : forall a b, before a b lw -> (snd b <= snd a)%Q;
  ll_ties : forall a b, before a b lw -> (snd a == snd b)%Q -> first_before (fst a) (fst b) (map p_nf ps) }.
(** a cache that only ever forgets *)
Definition only_forgets (m : cache_mode) : Prop := match m with Bounded keep => forall l x, In x (keep l) -> In x l | _ => True end.
(** lines as a file gives them: all but the last end with a newline *)
Inductive lines_of : str -> list str -> Prop :=
| lines_none : lines_of [] []
| lines_last : forall l, lines_of l [l]
| lines_more : forall l text ls, lines_of text ls -> lines_of (l ++ 10%N :: text) ((l ++ [10%N]) :: ls).
