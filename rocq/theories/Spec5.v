(** * Specification vocabulary for the P(t|w) estimates (C54) *)
From Coq Require Import String List NArith ZArith Bool QArith.
From Verif Require Import Py Uni Tagset Dawg Dict Units Analyzer Preprocess Probability.
Import ListNotations.
Local Open Scope nat_scope.
Local Open Scope list_scope.

(** morph.tag finds more than one tag for the word *)
Definition ambiguous (M : morph) (w : str) : bool :=
  match morph_tag M w with Ok (_ :: _ :: _) => true | _ => false end.
(** a corpus word that counts for the lower-cased word [w]: it is [w] up to case, ambiguous for the analyzer, has exactly one
    annotation, and this is not UNKN *)
Definition counts_for (M : morph) (w : str) (x : str * list str) : bool :=
  match snd x with
  | [t] => str_eqb (u_lower (m_uni M) (fst x)) w && ambiguous M (fst x) && negb (seq_set (tag2grammemes t) [u "UNKN"])
  | _ => false
  end.
(** the grammeme sets of the occurrences of [w] that count *)
Definition occurrences (M : morph) (c : corpus) (w : str) : list sset :=
  flat_map (fun x => map tag2grammemes (snd x)) (filter (counts_for M w) c).
(** how many of them are the set [g]; how many different sets there are *)
Definition times (g : sset) (occ : list sset) : nat := length (filter (seq_set g) occ).
Fixpoint kinds (occ : list sset) : nat :=
  match occ with
  | [] => 0
  | g :: r => if existsb (seq_set g) r then kinds r else S (kinds r)
  end.
(** Laplace estimate of P(g | w) when morph.tag(w) has [ntags] tags *)
Definition estimate_of (occ : list sset) (ntags : nat) (g : sset) : Q :=
  Z.of_nat (times g occ + 1) # Pos.of_nat (length occ + Nat.max ntags (kinds occ)).

(** tag texts have no colon, whatever is parsed *)
Definition colon_free (M : morph) : Prop :=
  forall w ps p, morph_parse M w = Ok ps -> In p ps -> ~ In (chr ":") (t_str (p_tag p)).
(** among these parses, equal tags have equal texts and vice versa *)
Definition one_spelling (ps : list parse) : Prop :=
  forall p q, In p ps -> In q ps -> (t_gr (p_tag p) = t_gr (p_tag q) <-> t_str (p_tag p) = t_str (p_tag q)).
(** [q] cut down to six decimal places *)
Definition truncates (q t : Q) : Prop := exists v : Z, (t == v # 1000000 /\ (v # 1000000) <= q /\ q < (v + 1) # 1000000)%Q.
(** the estimates of these parses are not all equal *)
Definition decisive (occ : list sset) (ntags : nat) (ps : list parse) : Prop :=
  exists p q, In p ps /\ In q ps /\ ~ (estimate_of occ ntags (t_gr (p_tag p)) == estimate_of occ ntags (t_gr (p_tag q)))%Q.
(** when P(t|w) is stored for the word: it occurs, often enough, and its estimates differ *)
Definition informative (M : morph) (c : corpus) (min_freq : nat) (w : str) : Prop :=
  let occ := occurrences M c w in
  occ <> [] /\ min_freq <= length occ /\
  exists ps ts, morph_parse M w = Ok ps /\ morph_tag M w = Ok ts /\ decisive occ (length ts) ps.
(** the same analyzer with a P(t|w) table *)
Definition with_table (M : morph) (T : cpd) : morph :=
  MkMorph (m_uni M) (m_ext M) (m_dict M) (m_units M) (Some T) (m_subst M) (m_tc M).
(** pairwise different sets *)
Fixpoint different_sets (gs : list sset) : Prop :=
  match gs with [] => True | g :: r => (forall h, In h r -> seq_set g h = false) /\ different_sets r end.
