(** * Independent specifications: compilation and storage of dictionaries *)
From Coq Require Import String List NArith ZArith Bool Lia Permutation.
From Verif Require Import Py Uni Tagset Dawg Utils Dict Units Analyzer Compile Spec Spec2.
Import ListNotations.
Local Open Scope nat_scope.
Local Open Scope list_scope.

(** ** Compilation (C35-C40) *)
(** a paradigm row (suffix, tag, prefix) describes the form [ft] of a lexeme with that stem *)
Definition row_of_form (stem : str) (ft : str * str) (r : str * str * str) : Prop :=
  let '(suffix, tag, prefix) := r in fst ft = prefix ++ stem ++ suffix /\ snd ft = tag.

(** [D] is the compiled dictionary [x] as loaded: the tag texts are turned into tags *)
Definition loaded (x : compiled) (D : dict) : Prop :=
  d_paradigms D = x_paradigms x /\ map t_str (d_gramtab D) = x_gramtab x /\
  d_prefixes D = o_prefixes (x_options x) /\ d_suffixes D = x_suffixes x /\
  d_words D = x_words x /\ d_pred D = x_pred x /\ d_maxsuf D = o_max_suffix (x_options x).
(** form [idx] of paradigm [para] with word [w] is stored in the dictionary *)
Definition stored (D : dict) (w : str) (para idx : nat) : Prop :=
  exists vals, sget w (d_words D) = Some vals /\ In (para, idx) vals.

(** the word entries of lexemes [lxs] when lexeme j has paradigm number [nth j ks]: every form
    with its paradigm number and its position *)
Definition entries (lx : lexeme) (k : nat) : list (str * (nat * nat)) :=
  map (fun x : nat * (str * str) => (fst (snd x), (k, fst x))) (enum lx).
Definition all_entries (lxs : list lexeme) (ks : list nat) : list (str * (nat * nat)) :=
  flat_map (fun lk : lexeme * nat => entries (fst lk) (snd lk)) (combine lxs ks).

(** ** Prediction records (C37) *)
(** the last [n] characters *)
Definition tail_of (n : nat) (w : str) : str := skipn (length w - n) w.
(** how often the compiler meets ending [e] in the word [w] of a form with the given affixes:
    once for each length n from max(1, length of the suffix) to [maxlen] such that the last n
    characters are [e]; never if the word has no stem *)
Definition ending_hits (pre sf : str) (maxlen : nat) (e w : str) : nat :=
  if length pre + length sf <? length w
  then length (filter (fun n => str_eqb (tail_of n w) e) (seq (Nat.max (length sf) 1) (S maxlen - Nat.max (length sf) 1)))
  else 0.
(** number of lexemes with paradigm [k] *)
Definition popularity (ks : list nat) (k : nat) : nat := count_occ Nat.eq_dec ks k.
Definition popular (o : coptions) (ks : list nat) (k : nat) : Prop := o_min_pop o <= popularity ks k.
(** the number of hits of [e] in all words with form [i] of paradigm [k] *)
Definition form_hits (D : dict) (o : coptions) (es : list (str * (nat * nat))) (e : str) (k i c : nat) : Prop :=
  exists pre tg sf, para_row D k i pre tg sf /\
    c = list_sum (map (fun en => ending_hits pre sf (o_max_suffix o) e (fst en)) (filter (fun en => (fst (snd en) =? k) && (snd (snd en) =? i)) es)).
(** the number of hits of [e] in all words of popular paradigms *)
Definition ending_frequency (D : dict) (o : coptions) (ks : list nat) (es : list (str * (nat * nat))) (e : str) (n : nat) : Prop :=
  exists ns, n = list_sum ns /\
    Forall2 (fun en m => exists pre tg sf, para_row D (fst (snd en)) (snd (snd en)) pre tg sf /\
               m = if o_min_pop o <=? popularity ks (fst (snd en)) then ending_hits pre sf (o_max_suffix o) e (fst en) else 0) es ns.
(** the part of speech in a tag text: everything before the first comma or space *)
Fixpoint pos_text (t : str) : str :=
  match t with [] => [] | c :: r => if N.eqb c (chr ",") || N.eqb c (chr " ") then [] else c :: pos_text r end.
(** the prefix number of form [i] of paradigm [k] *)
Definition prefix_number (D : dict) (k i pid : nat) : Prop :=
  exists p, nth_error (d_paradigms D) k = Some p /\ i < length p / 3 /\ nth_error p (length p / 3 * 2 + i) = Some pid.
(** the prediction table number [pid] has the record (count, paradigm, form) under [e] *)
Definition predicts (D : dict) (pid : nat) (e : str) (c k i : nat) : Prop :=
  exists dawg vals, nth_error (d_pred D) pid = Some dawg /\ sget e dawg = Some vals /\ In (c, k, i) vals.

(** ** Joining lexemes (C38) *)
(** links are (source, linked lexeme, type); types 7, 21, 23 and 27 are ignored *)
Definition effective (links : list link) : list (N * N) :=
  map fst (filter (fun l : link => negb (smem (snd l) (map u ["7"; "21"; "23"; "27"]%string))) links).
Fixpoint chain (links : list (N * N)) (l : list N) : Prop :=
  match l with
  | a :: ((b :: _) as r) => In (a, b) links /\ chain links r
  | _ => True
  end.
(** no chain of links leads from a lexeme back to itself *)
Definition acyclic (links : list (N * N)) : Prop := forall a l, ~ chain links (a :: l ++ [a]).
(** both ends of every link exist *)
Definition links_exist (lx : lexemes) (links : list (N * N)) : Prop :=
  forall s e, In (s, e) links -> In s (map fst lx) /\ In e (map fst lx).
(** [own] sends each lexeme to the top of its chain of links *)
Definition top_of (links : list (N * N)) (own : N -> N) : Prop :=
  (forall s e, In (s, e) links -> own e = own s) /\ (forall x, ~ In x (map snd links) -> own x = x).
Definition forms_of (lx : lexemes) (id : N) : lexeme := match nget id lx with Some l => l | None => [] end.

(** ** Preprocessing (C39 C40) *)
Definition common_case (g : str) : str :=
  if grammeme_dec g (u "loc1") then u "loct" else if grammeme_dec g (u "gen1") then u "gent"
  else if grammeme_dec g (u "acc1") then u "accs" else g.
(** the same grammemes, not distinguishing loc1/loct, gen1/gent and acc1/accs *)
Definition same_grammemes (a b : list str) : Prop := forall g, In g (map common_case a) <-> In g (map common_case b).
(** all grammemes of OpenCorpora are at most four characters long *)
Definition short (gs : list str) : Prop := forall g, In g gs -> length g <= 4.
