(** * Model of pymorphy2/opencorpora_dict/wrapper.py *)
From Coq Require Import String List NArith ZArith Bool.
From Verif Require Import Py Uni Tagset Dawg.
Import ListNotations.
Local Open Scope nat_scope.
Local Open Scope list_scope.

(** wrapper.py:22-31: attributes of a loaded dictionary.  A paradigm is the flat list
    suffix ids ++ tag ids ++ prefix ids.  [d_maxsuf] is
    meta['compile_options']['max_suffix_length'] (read by KnownSuffixAnalyzer). *)
Record dict := MkDict {
  d_paradigms : list (list nat);
  d_gramtab   : list tag;
  d_prefixes  : list str;              (* paradigm_prefixes *)
  d_suffixes  : list str;
  d_words     : rdawg (nat * nat);     (* word -> [(para_id, idx)] *)
  d_pred      : list (rdawg (nat * nat * nat));  (* per paradigm prefix: ending -> [(cnt, para_id, idx)] *)
  d_maxsuf    : nat
}.

(** wrapper.py:36-43 build_tag_info *)
Definition build_tag_info (D : dict) (para idx : nat) : res tag :=
  let* p := nth_res (d_paradigms D) para in
  let* tid := nth_res p (length p / 3 + idx) in
  nth_res (d_gramtab D) tid.

(** wrapper.py:45-66 build_paradigm_info *)
Definition build_paradigm_info (D : dict) (para : nat) : res (list (str * tag * str)) :=
  let* p := nth_res (d_paradigms D) para in
  let n := length p / 3 in
  mapM (fun idx =>
          let* pid := nth_res p (n * 2 + idx) in
          let* prefix := nth_res (d_prefixes D) pid in
          let* sid := nth_res p idx in
          let* suffix := nth_res (d_suffixes D) sid in
          let* t := build_tag_info D para idx in
          Ok (prefix, t, suffix)) (seq 0 n).

(** wrapper.py:89-104 build_stem *)
Definition build_stem (D : dict) (p : list nat) (idx : nat) (w : str) : res str :=
  let n := length p / 3 in
  let* pid := nth_res p (n * 2 + idx) in
  let* prefix := nth_res (d_prefixes D) pid in
  let* sid := nth_res p idx in
  let* suffix := nth_res (d_suffixes D) sid in
  match suffix with
  | [] => Ok (slice_from w (Z.of_nat (length prefix)))
  | _ => Ok (slice w (Z.of_nat (length prefix)) (- Z.of_nat (length suffix)))
  end.

(** wrapper.py:68-87 build_normal_form *)
Definition build_normal_form (D : dict) (para idx : nat) (w : str) : res str :=
  if idx =? 0 then Ok w
  else
    let* p := nth_res (d_paradigms D) para in
    let n := length p / 3 in
    let* stem := build_stem D p idx w in
    let* pid := nth_res p (n * 2 + 0) in
    let* sid := nth_res p 0 in
    let* prefix := nth_res (d_prefixes D) pid in
    let* suffix := nth_res (d_suffixes D) sid in
    Ok (prefix ++ stem ++ suffix).

(** wrapper.py:106-126 word_is_known; an empty compiled table is falsy *)
Definition dict_word_is_known (D : dict) (w : str) (subst : option replaces) : bool :=
  match subst with
  | Some (x :: r) => match similar_keys (d_words D) (x :: r) w with [] => false | _ => true end
  | _ => dawg_mem (d_words D) w
  end.

(** wrapper.py:128-138 iter_known_words *)
Definition iter_known_words (D : dict) (prefix : str) : res (list (str * tag * str * nat * nat)) :=
  mapM (fun wv =>
          let '(w, (para, idx)) := wv in
          let* t := build_tag_info D para idx in
          let* nf := build_normal_form D para idx w in
          Ok (w, t, nf, para, idx)) (iteritems (d_words D) prefix).
