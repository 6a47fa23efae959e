(** * Model of pymorphy2/tokenizers.py *)
From Coq Require Import String List NArith ZArith Bool.
From Verif Require Import Py Uni Shapes.
Import ListNotations.
Local Open Scope nat_scope.
Local Open Scope list_scope.

(** tokenizers.py:6: a character matching ([^\w_-]|[+]) *)
Definition is_sep (U : uni) (c : char) : bool :=
  negb (u_word U c || (c =? 95)%N || (c =? 45)%N) || (c =? 43)%N.

(** re.split with one capturing group: text pieces and separators alternate *)
Fixpoint re_split (U : uni) (s : str) : list str :=
  match s with
  | [] => [[]]
  | c :: r =>
    if is_sep U c then [] :: [c] :: re_split U r
    else match re_split U r with
         | p :: ps => (c :: p) :: ps
         | [] => [[c]]                 (* unreachable *)
         end
  end.

(** tokenizers.py:8-13 simple_word_tokenize *)
Definition nonempty (s : str) : bool := match s with [] => false | _ => true end.
Definition simple_word_tokenize (U : uni) (text : str) : list str :=
  filter (fun t => nonempty t && negb (str_isspace U t)) (re_split U text).
