(** * Model of probability.py:21-46: adding P(t|w) estimates to a compiled dictionary *)
From Coq Require Import String List NArith ZArith Bool QArith.
From Verif Require Import Py Uni Tagset Dawg Dict Units Analyzer Json Storage Create Probability.
Import ListNotations.
Local Open Scope nat_scope.
Local Open Scope list_scope.

(** probability.py:27 MorphAnalyzer(out_path, probability_estimator_cls=None), with the defaults of analyzer.py:190-191 *)
Definition estimating_args (path : str) : args := MkArgs (Some path) None (Some (u "Parse")) None EstNone SubAuto.
Definition TABLE : str := u "p_t_given_w.intdawg".
Definition META : str := u "meta.json".
(** probability.py:21-46 add_conditional_tag_probability with morph=None: the tag class afterwards, the file operations in the folder
    and how it ends.  [wr] is IntCompletionDAWG.save; the corpus is what the opencorpora package reads from corpus_filename;
    min_word_freq is already an integer that is not negative; logging and progress bars are left out. *)
Definition add_probability (wr : cpd -> list N) (W : world) (C : tagclass) (path : str) (c : corpus) (mf : nat) : tagclass * saving :=
  let '(_, C1, r) := create W C (estimating_args path) in
  (C1, match (let* z := r in
              let* T := probability_table (z_morph z) c mf in
              let* extra := probability_meta (z_morph z) c mf in
              Ok (T, extra)) with
       | Err e => ([], Err e)
       | Ok (T, extra) => sthen (write_ops TABLE (wr T), Ok tt) (update_meta (frun (write_ops TABLE (wr T)) (w_folder W path)) META extra)
       end).
(** the world in which the folder at [path] has become [d] *)
Definition set_folder (W : world) (path : str) (d : folder) : world :=
  MkWorld (w_env W) (w_packages W) (w_old W) (fun p => if str_eqb p path then d else w_folder W p) (w_attrs W)
          (w_io W) (w_big W) (w_uni W) (w_ext W) (w_cpd W).
