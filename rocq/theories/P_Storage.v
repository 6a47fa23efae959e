(** * Dictionary files (C41-C44) *)
From Coq Require Import String List NArith ZArith Bool.
From Verif Require Import Py Uni Tagset Dawg Dict Compile Json Storage Spec3 Spec4 Ex.
From Verif Require Import L_Base L_Storage L_Storage2 L_Storage3 L_ExS.
Import ListNotations.
Local Open Scope nat_scope.
Local Open Scope list_scope.

(** ** C41 *)
(** saving succeeds exactly if the number of paradigms and all their lengths fit into 16 bits *)
Theorem C41_saving : forall big f ps, (paras_fit ps -> snd (save_paradigms big f ps) = Ok tt) /\ (~ paras_fit ps -> snd (save_paradigms big f ps) = Err StructError).
Proof. intros big f ps. split; [intros H; rewrite (save_paradigms_ok big f ps H); reflexivity|apply save_paradigms_err]. Qed.
Print Assumptions C41_saving.
(** on a machine of the same byte order the saved paradigms are read back; data after them is ignored *)
Theorem C41_round_trip : forall big f ps d, paras_fit ps -> entries_fit ps ->
  exists b, sget f (frun (fst (save_paradigms big f ps)) d) = Some b /\ forall t, load_paradigms big (b ++ t) = Ok ps.
Proof.
  intros big f ps d H E. exists (pbytes big ps). rewrite (save_paradigms_ok big f ps H). split; [apply write_get|]. intros t. rewrite (load_saved big big ps t H E), eqb_reflx. f_equal.
  rewrite <- (map_id ps) at 2. apply map_ext. intros p. apply map_id.
Qed.
Print Assumptions C41_round_trip.
(** on a machine of the other byte order loading succeeds as well, and every number has its two bytes swapped *)
Theorem C41_other_byte_order : forall big f ps d, paras_fit ps -> entries_fit ps ->
  exists b, sget f (frun (fst (save_paradigms big f ps)) d) = Some b /\ load_paradigms (negb big) b = Ok (map (map swap16) ps).
Proof.
  intros big f ps d H E. exists (pbytes big ps). rewrite (save_paradigms_ok big f ps H). split; [apply write_get|]. pose proof (load_saved big (negb big) ps [] H E) as L. rewrite app_nil_r in L. rewrite L.
  destruct big; reflexivity.
Qed.
Print Assumptions C41_other_byte_order.
(** so paradigms.array is not portable *)
Theorem C41_portable_refuted : exists f ps b, paras_fit ps /\ entries_fit ps /\ sget f (frun (fst (save_paradigms false f ps)) []) = Some b /\
  exists ps', load_paradigms true b = Ok ps' /\ ps' <> ps.
Proof.
  assert (X : paras_fit [[1; 2; 3]]) by (split; [|intros p [<-|[]]]; vm_compute; discriminate).
  assert (Y : entries_fit [[1; 2; 3]]) by (intros p n [<-|[]] [<-|[<-|[<-|[]]]]; vm_compute; discriminate).
  destruct (C41_other_byte_order false (u "p") [[1; 2; 3]] [] X Y) as (b & B & L). exists (u "p"), [[1; 2; 3]], b. repeat (split; [assumption|]). eexists. split; [exact L|]. vm_compute. discriminate.
Qed.
Print Assumptions C41_portable_refuted.
(** a truncated file is refused *)
Theorem C41_truncated : forall big f ps d, paras_fit ps -> entries_fit ps ->
  exists b, sget f (frun (fst (save_paradigms big f ps)) d) = Some b /\ forall k, k < length b -> exists e, load_paradigms big (firstn k b) = Err e.
Proof.
  intros big f ps d H E. exists (pbytes big ps). rewrite (save_paradigms_ok big f ps H). split; [apply write_get|]. intros k K. exact (paradigms_cut big ps k H E K).
Qed.
Print Assumptions C41_truncated.
Example C41_case : paras_fit (x_paradigms demo_compiled) /\ entries_fit (x_paradigms demo_compiled) /\ 3 < length (x_paradigms demo_compiled) /\
  load_paradigms false [1; 0; 3; 0; 0; 0; 1; 2; 255; 0]%N = Ok [[0; 513; 255]].
Proof.
  destruct (compiled_fit _ _ _ _ demo_compiles) as [E _]. destruct (save_ok io_json false [] demo_rows demo_compiled demo_info (proj1 demo_saved)) as (fs & S & _). destruct S as (? & ? & ? & ? & ? & _ & _ & _ & P & _).
  split; [exact P|]. split; [exact E|]. split; [apply Nat.ltb_lt; vm_compute; reflexivity|]. vm_compute. reflexivity.
Qed.

(** ** C42 *)
(** If saving into a folder without meta.json stops after [n] operations, or ends with an exception, then loading the folder
    raises an exception, and the tag class is left as it was.  (Operations are writes of single bytes, in program order.) *)
Theorem C42_interrupted : forall io io' big big' aliases rows x info d C n,
  let s := save_compiled_dict io big aliases rows x info in
  sget (u "meta.json") d = None -> n < length (fst s) \/ snd s <> Ok tt ->
  exists e, load_dict io' big' (frun (firstn n (fst s)) d) C = (C, Err e).
Proof. exact interrupted. Qed.
Print Assumptions C42_interrupted.
(** A complete save, into any folder, can be loaded, and gives back the compiled dictionary, provided the DAWG library reads
    back what it wrote and all grammemes of the tags are declared. *)
Theorem C42_complete : forall io big aliases rows x info d C o src links,
  compile_parsed_dict o src links = Ok x -> snd (save_compiled_dict io big aliases rows x info) = Ok tt ->
  io_read_words io (io_words io (x_words x)) = Ok (x_words x) -> (forall p, In p (x_pred x) -> io_read_pred io (io_pred io p) = Ok p) ->
  (forall t g, In t (x_gramtab x) -> In g (split_tag t) -> In g (map g_name rows)) ->
  exists l D, load_dict io big (frun (fst (save_compiled_dict io big aliases rows x info)) d) C = (init_grammemes C rows, Ok l) /\
    ld_meta l = save_meta x info /\ dictionary l = Ok D /\ loaded x D.
Proof. exact complete_save. Qed.
Print Assumptions C42_complete.
(** Power loss: each file may independently be missing or cut anywhere.  If the folder loads at all then it loads as the
    complete one, provided the DAWG library refuses truncated files. *)
Theorem C42_power_loss : forall io big aliases rows x info d C o src links l,
  compile_parsed_dict o src links = Ok x -> snd (save_compiled_dict io big aliases rows x info) = Ok tt ->
  io_read_words io (io_words io (x_words x)) = Ok (x_words x) -> (forall p, In p (x_pred x) -> io_read_pred io (io_pred io p) = Ok p) ->
  (forall k, k < length (io_words io (x_words x)) -> exists e, io_read_words io (firstn k (io_words io (x_words x))) = Err e) ->
  (forall p k, In p (x_pred x) -> k < length (io_pred io p) -> exists e, io_read_pred io (firstn k (io_pred io p)) = Err e) ->
  (forall f b, sget f (frun (fst (save_compiled_dict io big aliases rows x info)) []) = Some b -> cut_file d f b) ->
  snd (load_dict io big d C) = Ok l ->
  load_dict io big d C = load_dict io big (frun (fst (save_compiled_dict io big aliases rows x info)) []) C.
Proof. exact power_loss. Qed.
Print Assumptions C42_power_loss.
(** When an existing dictionary is overwritten, an interruption can leave a folder that loads as a mixture: here a stored word
    gets a normal form that is a word of neither dictionary. *)
Theorem C42_overwrite_refuted : exists n l D k i, snd (mix_save old_src) = Ok tt /\ snd (mix_save new_src) = Ok tt /\ n < length (fst (mix_save new_src)) /\
  snd (load_dict io_json false (frun (firstn n (fst (mix_save new_src))) (frun (fst (mix_save old_src)) [])) tc_initial) = Ok l /\ dictionary l = Ok D /\
  stored D (u "ка") k i /\ build_normal_form D k i (u "ка") = Ok (u "ку") /\ ~ In (u "ку") (map fst (flat_map snd old_src) ++ map fst (flat_map snd new_src)).
Proof. exact mixture. Qed.
Print Assumptions C42_overwrite_refuted.
Example C42_case : compile_parsed_dict demo_options demo_lexemes demo_links = Ok demo_compiled /\
  snd demo_save = Ok tt /\ 3000 < length (fst demo_save) /\
  io_read_words io_json (io_words io_json (x_words demo_compiled)) = Ok (x_words demo_compiled) /\
  (forall p, In p (x_pred demo_compiled) -> io_read_pred io_json (io_pred io_json p) = Ok p) /\
  (forall t g, In t (x_gramtab demo_compiled) -> In g (split_tag t) -> In g (map g_name demo_rows)) /\
  (forall d k, k < length (io_words io_json d) -> exists e, io_read_words io_json (firstn k (io_words io_json d)) = Err e) /\
  (forall d k, k < length (io_pred io_json d) -> exists e, io_read_pred io_json (firstn k (io_pred io_json d)) = Err e).
Proof.
  split; [exact demo_compiles|]. split; [exact (proj1 demo_saved)|]. split; [exact (proj2 (proj2 demo_saved))|]. split; [exact (proj1 demo_codec)|]. split; [exact (proj2 demo_codec)|]. split; [exact demo_grammemes|]. exact io_json_framed.
Qed.

(** ** C43 *)
(** after update_meta the old keys keep their places and values, the given ones are set (new ones at the end), with the reals
    in them turned into strings; no other file changes *)
Theorem C43_update : forall d f extra m, load_meta d f = Ok m -> extra_ok extra -> snd (update_meta d f extra) = Ok tt ->
  (exists m', load_meta (frun (fst (update_meta d f extra)) d) f = Ok m' /\ updated m extra m') /\
  forall g, g <> f -> sget g (frun (fst (update_meta d f extra)) d) = sget g d.
Proof.
  intros d f extra m L E H. split; [exact (update_updated d f extra m L E H)|]. intros g N. pose proof (update_other d f extra g (length (fst (update_meta d f extra))) N) as X. rewrite firstn_all in X. exact X.
Qed.
Print Assumptions C43_update.
(** an update interrupted after the file was opened, or ending with an exception, leaves a file that cannot be read *)
Theorem C43_interrupted : forall d f extra m n, load_meta d f = Ok m -> extra_ok extra ->
  0 < n -> n < length (fst (update_meta d f extra)) \/ snd (update_meta d f extra) <> Ok tt ->
  exists e, load_meta (frun (firstn n (fst (update_meta d f extra))) d) f = Err e.
Proof. intros d f extra m n L [_ E]. exact (update_cut d f extra m n L E). Qed.
Print Assumptions C43_interrupted.
(** when the old file cannot be read, nothing is written *)
Theorem C43_unreadable : forall d f extra e, load_meta d f = Err e -> update_meta d f extra = ([], Err e).
Proof. intros d f extra e H. pose proof (update_fails d f extra) as X. rewrite H in X. exact X. Qed.
Print Assumptions C43_unreadable.
(** a real does not survive *)
Theorem C43_reals_refuted : exists d f extra m', extra_ok extra /\ snd (update_meta d f extra) = Ok tt /\
  load_meta (frun (fst (update_meta d f extra)) d) f = Ok m' /\ sget (u "x") extra = Some (JReal (u "0.5")) /\ sget (u "x") m' = Some (JStr (u "0.5")).
Proof.
  assert (D : forall x, (48 <= x <= 57)%N -> digits [x]) by (intros x Hx; split; [discriminate|intros y [<-|[]]; exact Hx]).
  assert (R : real_text (u "0.5")).
  { exists [], (u "0"), (u ".5"), []. split; [reflexivity|]. split; [left; reflexivity|]. split; [apply D; split; discriminate|]. split; [left; reflexivity|].
    split; [right; exists (u "5"); split; [apply D; split; discriminate|reflexivity]|]. split; [left; reflexivity|discriminate]. }
  exists [(u "m", u "[]")], (u "m"), [(u "x", JReal (u "0.5"))], [(u "x", JStr (u "0.5"))]. split.
  - split; [repeat constructor; intros []|]. intros k v [E|[]]. injection E as <- <-. left. exact R.
  - vm_compute. auto.
Qed.
Print Assumptions C43_reals_refuted.
Definition demo_extra : list (str * jval) := [(u "source", JStr (u "x")); (u "new", JInt (-3))].
Example C43_case : exists m, load_meta (frun (fst demo_save) []) (u "meta.json") = Ok m /\ extra_ok demo_extra /\ snd (update_meta (frun (fst demo_save) []) (u "meta.json") demo_extra) = Ok tt /\
  1 < length (fst (update_meta (frun (fst demo_save) []) (u "meta.json") demo_extra)) /\ length m = 16.
Proof.
  eexists. split; [vm_compute; reflexivity|]. split; [|split; [vm_compute; reflexivity|split; [apply Nat.ltb_lt; vm_compute; reflexivity|reflexivity]]].
  split; [repeat constructor; cbn [In map fst]; intuition discriminate|]. intros k v [E|[E|[]]]; injection E as <- <-; exact I.
Qed.

(** ** C44 *)
(** a dictionary passes the format check iff its format_version is "2." followed by a text without further dots ... *)
Theorem C44_accepted : forall m, assert_format m = Ok tt <-> exists minor, sget (u "format_version") m = Some (JStr (u "2." ++ minor)) /\ ~ In (chr ".") minor.
Proof. exact format_iff. Qed.
Print Assumptions C44_accepted.
(** ... otherwise loading raises ValueError before anything else is read and leaves the tag class alone *)
Theorem C44_refused : forall io big d C m, load_meta d (u "meta.json") = Ok m ->
  ~ (exists minor, sget (u "format_version") m = Some (JStr (u "2." ++ minor)) /\ ~ In (chr ".") minor) ->
  load_dict io big d C = (C, Err ValueError).
Proof. intros io big d C m L N. apply (format_load io big d C m L). intros H. apply N. apply format_iff. exact H. Qed.
Print Assumptions C44_refused.
Example C44_case : assert_format [(u "format_version", JStr (u "2.4"))] = Ok tt /\ assert_format [(u "format_version", JStr (u "2."))] = Ok tt /\
  assert_format [(u "format_version", JStr (u "2.4.1"))] = Err ValueError /\ assert_format [(u "format_version", JStr (u "3.0"))] = Err ValueError /\
  assert_format [(u "format_version", JInt 2)] = Err ValueError /\ assert_format [] = Err ValueError.
Proof. vm_compute. auto 10. Qed.
