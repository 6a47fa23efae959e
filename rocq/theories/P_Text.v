(** * Text utilities (C30 C31 C32 C33 C34) *)
From Coq Require Import String List NArith ZArith Bool Lia.
From Verif Require Import Py Uni Utils Shapes Tokenizers Spec Spec2 L_Base L_Text.
Import ListNotations.
Local Open Scope nat_scope.
Local Open Scope list_scope.

(** ** C30 *)
(** the tokens are the ones of the specification, and the specification has no other reading *)
Theorem C30_tokens : forall U text ts, spaces_ok U -> (simple_word_tokenize U text = ts <-> tokens U text ts).
Proof. exact tokenize_iff. Qed.
Print Assumptions C30_tokens.
Theorem C30_nothing_lost : forall U text, spaces_ok U ->
  concat (simple_word_tokenize U text) = filter (fun c => negb (u_space U c)) text.
Proof. exact tokenize_concat. Qed.
Print Assumptions C30_nothing_lost.
Theorem C30_shape : forall U text t, spaces_ok U -> In t (simple_word_tokenize U text) ->
  t <> [] /\ ((forall c, In c t -> wordish U c) \/ exists c, t = [c] /\ ~ wordish U c /\ u_space U c = false).
Proof. exact tokenize_shape. Qed.
Print Assumptions C30_shape.
Theorem C30_again : forall U text, spaces_ok U ->
  simple_word_tokenize U (join (u " ") (simple_word_tokenize U text)) = simple_word_tokenize U text.
Proof. exact tokenize_again. Qed.
Print Assumptions C30_again.
Example C30_case : spaces_ok uni_cyr /\
  simple_word_tokenize uni_cyr (u "Кто-то (не_я) + кот, 5.") =
  map u ["Кто-то"; "("; "не_я"; ")"; "+"; "кот"; ","; "5"; "."]%string.
Proof. split; [exact uni_cyr_spaces|vm_compute; reflexivity]. Qed.

(** ** C31 *)
(** an example with hyphens: part by part; parts beyond the example are lower-cased *)
Theorem C31_hyphen_parts : forall U w e ws es, In (chr "-") e -> pieces (chr "-") w ws -> pieces (chr "-") e es ->
  exists rs, restore_capitalization U w e = join (u "-") rs /\ length rs = length ws /\
    forall i p, nth_error ws i = Some p -> exists r, nth_error rs i = Some r /\
      (forall x, nth_error es i = Some x -> cased_like U x p r) /\ (nth_error es i = None -> r = u_lower U p).
Proof. exact restore_hyphen. Qed.
Print Assumptions C31_hyphen_parts.
(** every text has pieces, and only one list of them *)
Theorem C31_pieces_exist : forall c s, exists l, pieces c s l /\ forall l', pieces c s l' -> l' = l.
Proof. exact pieces_unique. Qed.
Print Assumptions C31_pieces_exist.
Theorem C31_plain : forall U w e, ~ In (chr "-") e -> cased_like U e w (restore_capitalization U w e).
Proof. exact restore_plain. Qed.
Print Assumptions C31_plain.
(** letter by letter only the case changes and hyphens stay where they are *)
Theorem C31_only_case : forall U w e, regular_case U w -> Forall2 (same_letter U) w (restore_capitalization U w e).
Proof. exact restore_same. Qed.
Print Assumptions C31_only_case.
(** restoring the case of the lower-cased word gives back the word *)
Theorem C31_restores : forall U w ws, pieces (chr "-") w ws -> pieces (chr "-") (u_lower U w) (map (u_lower U) ws) ->
  (forall p, In p ws -> (u_islower U p = true /\ u_lower U (u_lower U p) = p) \/
     (u_islower U p = false /\ u_isupper U p = true /\ u_upper U (u_lower U p) = p) \/
     (u_islower U p = false /\ u_isupper U p = false /\ u_istitle U p = true /\ u_title U (u_lower U p) = p)) ->
  restore_capitalization U (u_lower U w) w = w.
Proof. exact restore_self. Qed.
Print Assumptions C31_restores.
Example C31_case : (forall w, regular_case uni_cyr w) /\
  map (fun p => restore_capitalization uni_cyr (u (fst p)) (u (snd p)))
    [("котик", "Кот"); ("ростов-на-дону", "РОСТОВ-на"); ("САНКТ-ПЕТЕРБУРГ", "Санкт-Петербургу"); ("кот", "КоТ")]%string
  = map u ["Котик"; "РОСТОВ-на-дону"; "Санкт-Петербург"; "кот"]%string /\
  restore_capitalization uni_cyr (u_lower uni_cyr (u "Ростов-на-ДОНУ")) (u "Ростов-на-ДОНУ") = u "Ростов-на-ДОНУ".
Proof. split; [exact uni_cyr_regular|split; vm_compute; reflexivity]. Qed.

(** ** C32 (splitting; what the unit does with it is in P_ByUnit) *)
Theorem C32_splits : forall mn mx w p r,
  In (p, r) (word_splits_with mn mx w) <-> w = p ++ r /\ 1 <= length p <= mx /\ mn <= length r.
Proof. exact splits_spec. Qed.
Print Assumptions C32_splits.
Theorem C32_splits_in_order : forall mn mx w, exists k, map (fun x => length (fst x)) (word_splits_with mn mx w) = seq 1 k.
Proof. exact splits_order. Qed.
Print Assumptions C32_splits_in_order.
Example C32_case : word_splits (u "байткот") = map (fun p => (u (fst p), u (snd p)))
   [("б", "айткот"); ("ба", "йткот"); ("бай", "ткот"); ("байт", "кот")]%string /\
  word_splits (u "кот") = [].
Proof. split; vm_compute; reflexivity. Qed.

(** ** C33 *)
Theorem C33_lcs : forall x data, let r := longest_common_substring (x :: data) in
  common_substring r (x :: data) /\ (forall s, common_substring s (x :: data) -> length s <= length r) /\
  exists a b, x = a ++ r ++ b /\
    forall a' s b', common_substring s (x :: data) -> length s = length r -> x = a' ++ s ++ b' -> length a <= length a'.
Proof. exact lcs_spec. Qed.
Print Assumptions C33_lcs.
Example C33_case : longest_common_substring (map u ["ёжик"; "неёжистый"; "подёж"; "ёжж"]%string) = u "ёж" /\
  longest_common_substring (map u ["абвгд"; "гдаб"]%string) = u "аб".
Proof. split; vm_compute; reflexivity. Qed.

(** ** C34 *)
Theorem C34_largest : forall A (key : A -> Z) n l, exists f, largest_elements key n l = filter f l /\
  forall x, In x l -> (f x = true <-> among_largest key n l (key x)).
Proof. exact @largest_spec. Qed.
Print Assumptions C34_largest.
Example C34_case : largest_elements (fun x => x) 2 [1; 5; 3; 5; 2; 3]%Z = [5; 3; 5; 3]%Z /\
  largest_elements (fun x => x) 0 [1; 5]%Z = [] /\ largest_elements (fun x => (x mod 3)%Z) 1 [1; 5; 3; 8]%Z = [5; 8]%Z.
Proof. split; [|split]; vm_compute; reflexivity. Qed.

