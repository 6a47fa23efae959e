(** * Storage: whole statements and examples *)
From Coq Require Import String List NArith ZArith Bool Lia ZifyBool ZifyN ZifyNat.
From Verif Require Import Py Uni Tagset Dawg Dict Compile Json Storage Spec3 Spec4 Ex.
From Verif Require Import L_Base L_Tagset L_Compile2 L_Compile3 L_ExC L_Json L_Json2 L_Utf8 L_Storage L_Storage2 L_Storage3.
Import ListNotations.
Local Open Scope nat_scope.
Local Open Scope list_scope.

(** ** What compiled dictionaries satisfy *)
Lemma linearize_fit : forall s p l flat, linearize s p l = Ok flat -> forall n, In n flat -> fit n.
Proof. intros s p l flat H n I. unfold linearize in H. apply bind_ok' in H as (rows & _ & H). apply bind_ok' in H as ([] & G & H). apply Ok_inj in H. subst flat. unfold guard in G. destruct (forallb fits16 _) eqn:F; [|discriminate]. rewrite forallb_forall in F. apply fits_iff. exact (F n I). Qed.
Lemma compiled_fit : forall o src links x, compile_parsed_dict o src links = Ok x -> entries_fit (x_paradigms x) /\ length (x_pred x) = length (o_prefixes (x_options x)).
Proof.
  intros o src links x H. unfold compile_parsed_dict in H. apply bind_ok' in H as (lxs & _ & H). destruct (compile_lexemes_inv _ _ _ H) as (st & ks & C & pd & PD & E). destruct C as [_ _ _ CO CP _]. split.
  - intros p n Ip In_. clear - CP Ip In_. induction CP as [|a b l r Hab F IH]; [destruct Ip|]. destruct Ip as [<-|Ip]; [|exact (IH Ip)]. exact (linearize_fit _ _ _ _ Hab n In_).
  - rewrite E, map_length, CO. unfold prediction_data in PD. apply bind_ok' in PD as (evss & _ & PD). apply Ok_inj in PD. subst pd. rewrite map_length, seq_length. reflexivity.
Qed.
(** ** Complete save, then load *)
Lemma complete_save : forall io big al rows x info d C o src links,
  compile_parsed_dict o src links = Ok x -> snd (save_compiled_dict io big al rows x info) = Ok tt ->
  io_read_words io (io_words io (x_words x)) = Ok (x_words x) -> (forall p, In p (x_pred x) -> io_read_pred io (io_pred io p) = Ok p) ->
  (forall t g, In t (x_gramtab x) -> In g (split_tag t) -> In g (map g_name rows)) ->
  exists l D, load_dict io big (frun (fst (save_compiled_dict io big al rows x info)) d) C = (init_grammemes C rows, Ok l) /\
    ld_meta l = save_meta x info /\ dictionary l = Ok D /\ loaded x D.
Proof.
  intros io big al rows x info d C o src links HC H IW IP K. destruct (compiled_fit _ _ _ _ HC) as [EF LP]. destruct (save_ok _ _ _ _ _ _ H) as (fs & S & E).
  destruct (gramtab_known C rows (x_gramtab x)) as (g & G & T); [intros t g0 It Ig; apply init_known; exact (K t g0 It Ig)|].
  destruct (dictionary_saved x info g T) as (D & ED & LD). eexists _, D. split; [|split; [|split; [exact ED|exact LD]]]; [|reflexivity].
  rewrite E. rewrite (load_holds io big al rows x info fs _ C S (saved_holds _ _ _ _ _ _ _ d S) EF LP IW IP). rewrite G. reflexivity.
Qed.
Lemma power_loss : forall io big al rows x info d C o src links l,
  compile_parsed_dict o src links = Ok x -> snd (save_compiled_dict io big al rows x info) = Ok tt ->
  io_read_words io (io_words io (x_words x)) = Ok (x_words x) -> (forall p, In p (x_pred x) -> io_read_pred io (io_pred io p) = Ok p) ->
  (forall k, k < length (io_words io (x_words x)) -> exists e, io_read_words io (firstn k (io_words io (x_words x))) = Err e) ->
  (forall p k, In p (x_pred x) -> k < length (io_pred io p) -> exists e, io_read_pred io (firstn k (io_pred io p)) = Err e) ->
  (forall f b, sget f (frun (fst (save_compiled_dict io big al rows x info)) []) = Some b -> cut_file d f b) ->
  snd (load_dict io big d C) = Ok l ->
  load_dict io big d C = load_dict io big (frun (fst (save_compiled_dict io big al rows x info)) []) C.
Proof.
  intros io big al rows x info d C o src links l HC H IW IP CW CP P L. destruct (compiled_fit _ _ _ _ HC) as [EF LP]. destruct (save_ok _ _ _ _ _ _ H) as (fs & S & E). rewrite E in *.
  assert (P' : forall f b, In (f, b) fs -> cut_file d f b) by (intros f b I; apply P; apply writes_get; [exact (files_nodup _ _ _ _ _ _ _ S)|exact I]).
  pose proof (partial_folder io big al rows x info fs d C l S P' EF LP CW CP L) as HD.
  rewrite (load_holds io big al rows x info fs d C S HD EF LP IW IP). rewrite (load_holds io big al rows x info fs _ C S (saved_holds _ _ _ _ _ _ _ [] S) EF LP IW IP). reflexivity.
Qed.

(** ** A file format for the DAWGs: JSON (any self-delimiting format would do) *)
Definition words_json (d : rdawg (nat * nat)) : jval :=
  JArr (map (fun kv => JArr [JStr (fst kv); JArr (map (fun ab : nat * nat => JArr [jnat (fst ab); jnat (snd ab)]) (snd kv))]) d).
Definition pred_json (d : rdawg (nat * nat * nat)) : jval :=
  JArr (map (fun kv => JArr [JStr (fst kv); JArr (map (fun abc : nat * nat * nat => JArr [jnat (fst (fst abc)); jnat (snd (fst abc)); jnat (snd abc)]) (snd kv))]) d).
Definition dec2 (v : jval) : res (nat * nat) := match v with JArr [JInt a; JInt b] => Ok (Z.to_nat a, Z.to_nat b) | _ => Err ValueError end.
Definition dec3 (v : jval) : res (nat * nat * nat) := match v with JArr [JInt a; JInt b; JInt c] => Ok (Z.to_nat a, Z.to_nat b, Z.to_nat c) | _ => Err ValueError end.
Definition dec_dawg {V} (dec : jval -> res V) (v : jval) : res (rdawg V) :=
  match v with JArr l => mapM (fun kv => match kv with JArr [JStr k; JArr vs] => let* x := mapM dec vs in Ok (k, x) | _ => Err ValueError end) l | _ => Err ValueError end.
Definition bytes_or_nil (v : jval) : list N := match json_bytes v with Ok b => b | Err _ => [] end.
Definition io_json : dawgio :=
  MkIO (fun d => bytes_or_nil (words_json d)) (fun b => let* v := json_read false b in dec_dawg dec2 v)
       (fun d => bytes_or_nil (pred_json d)) (fun b => let* v := json_read false b in dec_dawg dec3 v).
Lemma rows_jok : forall {V} (f : V -> jval) (d : rdawg V), (forall v, jok (f v)) -> jok (JArr (map (fun kv => JArr [JStr (fst kv); JArr (map f (snd kv))]) d)).
Proof.
  intros V f d H. induction d as [|[k vs] d IH]; [exact I|]. cbn [map jok fold_right fst snd] in *. split; [|exact IH]. split; [exact I|]. split; [|exact I]. induction vs as [|v vs IHv]; [exact I|]. cbn [map fold_right]. split; [apply H|exact IHv].
Qed.
Lemma words_jok : forall d, jok (words_json d). Proof. intros d. apply (rows_jok (fun ab : nat * nat => JArr [jnat (fst ab); jnat (snd ab)])). intros v. cbn. auto. Qed.
Lemma pred_jok : forall d, jok (pred_json d). Proof. intros d. apply (rows_jok (fun abc : nat * nat * nat => JArr [jnat (fst (fst abc)); jnat (snd (fst abc)); jnat (snd abc)])). intros v. cbn. auto. Qed.
Lemma cut_json : forall v k {A} (dec : jval -> res A), jok v -> composite v -> k < length (bytes_or_nil v) -> exists e, (let* j := json_read false (firstn k (bytes_or_nil v)) in dec j) = Err e.
Proof.
  intros v k A dec J C K. unfold bytes_or_nil in *. destruct (json_bytes v) as [b|] eqn:B; [|cbn [length] in K; lia]. destruct (file_cut false v b k J C B K) as [e E]. exists e. rewrite E. reflexivity.
Qed.
Lemma io_json_framed : (forall d k, k < length (io_words io_json d) -> exists e, io_read_words io_json (firstn k (io_words io_json d)) = Err e) /\
  (forall d k, k < length (io_pred io_json d) -> exists e, io_read_pred io_json (firstn k (io_pred io_json d)) = Err e).
Proof.
  split; intros d k K.
  - exact (cut_json (words_json d) k (dec_dawg dec2) (words_jok d) (or_introl (ex_intro _ _ eq_refl)) K).
  - exact (cut_json (pred_json d) k (dec_dawg dec3) (pred_jok d) (or_introl (ex_intro _ _ eq_refl)) K).
Qed.

(** ** Examples *)
Definition demo_info : saveinfo := MkInfo (Some (u "ru")) (u "0.9") (u "2020") (u "demo") (u "1") (u "2") 6 1.
Definition demo_save : saving := save_compiled_dict io_json false [] demo_rows demo_compiled demo_info.
Definition rdawg_eqb {V} (e : V -> V -> bool) : rdawg V -> rdawg V -> bool := list_eqb (fun a b => str_eqb (fst a) (fst b) && list_eqb e (snd a) (snd b)).
Lemma rdawg_eqb_eq : forall {V} (e : V -> V -> bool), (forall a b, e a b = true <-> a = b) -> forall a b, rdawg_eqb e a b = true -> a = b.
Proof.
  intros V e H a b E. unfold rdawg_eqb in E. apply (list_eqb_spec (fun a b : str * list V => str_eqb (fst a) (fst b) && list_eqb e (snd a) (snd b))); [|exact E].
  intros [k v] [k' v']. cbn [fst snd]. rewrite andb_true_iff, str_eqb_eq, (list_eqb_spec e H). split; [intros [-> ->]; reflexivity|intros E'; injection E' as -> ->; split; reflexivity].
Qed.
Lemma chk : forall {V} (e : V -> V -> bool) (r : res (rdawg V)) p, (forall a b, e a b = true <-> a = b) -> match r with Ok w => rdawg_eqb e w p | Err _ => false end = true -> r = Ok p.
Proof. intros V e [w|] p H X; [|discriminate]. f_equal. exact (rdawg_eqb_eq e H _ _ X). Qed.
Lemma chks : forall {V} (e : V -> V -> bool) (r : rdawg V -> res (rdawg V)) l, (forall a b, e a b = true <-> a = b) ->
  forallb (fun p => match r p with Ok w => rdawg_eqb e w p | Err _ => false end) l = true -> forall p, In p l -> r p = Ok p.
Proof. intros V e r l H X p I. rewrite forallb_forall in X. exact (chk e _ _ H (X p I)). Qed.
Lemma demo_codec : io_read_words io_json (io_words io_json (x_words demo_compiled)) = Ok (x_words demo_compiled) /\
  (forall p, In p (x_pred demo_compiled) -> io_read_pred io_json (io_pred io_json p) = Ok p).
Proof.
  split; [apply (chk form_eqb _ _ form_eqb_eq); vm_compute; reflexivity|].
  apply (chks form3_eqb (fun p => io_read_pred io_json (io_pred io_json p)) _ form3_eqb_eq). vm_compute. reflexivity.
Qed.
Lemma chk_tags : forall texts names, forallb (fun t => forallb (fun g => smem g names) (split_tag t)) texts = true -> forall t g, In t texts -> In g (split_tag t) -> In g names.
Proof. intros texts names X t g It Ig. rewrite forallb_forall in X. specialize (X t It). cbn beta in X. rewrite forallb_forall in X. apply smem_In. exact (X g Ig). Qed.
Lemma demo_grammemes : forall t g, In t (x_gramtab demo_compiled) -> In g (split_tag t) -> In g (map g_name demo_rows).
Proof. apply chk_tags. vm_compute. reflexivity. Qed.
Lemma demo_saved : snd demo_save = Ok tt /\ length (fst demo_save) = length (fst demo_save) /\ 3000 < length (fst demo_save).
Proof. split; [vm_compute; reflexivity|]. split; [reflexivity|]. apply Nat.ltb_lt. vm_compute. reflexivity. Qed.
Lemma demo_compiles : compile_parsed_dict demo_options demo_lexemes demo_links = Ok demo_compiled.
Proof. destruct compile_case as (lxs & _ & H & _). exact H. Qed.
(** overwriting: two dictionaries with one lexeme each *)
Definition two_lexeme (a b : string) : lexemes := [(1%N, [form a "NOUN"; form b "VERB"])].
Definition old_src := two_lexeme "ко" "ка".
Definition new_src := two_lexeme "ту" "ты".
Definition mix_options : coptions := MkOpt 1 1 3 [[]].
Definition comp (src : lexemes) : compiled := get_ok (MkCompiled [] [] [] [] [] mix_options) (compile_parsed_dict mix_options src []).
Definition mix_save (src : lexemes) : saving := save_compiled_dict io_json false [] demo_rows (comp src) demo_info.
(** the number of operations after which suffixes.json of the new dictionary is complete *)
Definition about_b (f : str) (o : fop) : bool := match o with Create g => str_eqb g f | Put g _ => str_eqb g f end.
Fixpoint upto_words (ops : list fop) : nat := match ops with [] => 0 | o :: r => if about_b (u "words.dawg") o then 0 else S (upto_words r) end.
Definition mix_n : nat := upto_words (fst (mix_save new_src)).
Definition mix_folder : folder := frun (firstn mix_n (fst (mix_save new_src))) (frun (fst (mix_save old_src)) []).
Definition mix_dict : dict := match snd (load_dict io_json false mix_folder tc_initial) with Ok l => get_ok null_dict (dictionary l) | Err _ => null_dict end.
Lemma mix_chk : forall r : res loaded_dictionary, match r with
               | Ok l => match dictionary l with
                         | Ok D => match sget (u "ка") (d_words D) with Some [(0, 1)] => match build_normal_form D 0 1 (u "ка") with Ok w => str_eqb w (u "ку") | _ => false end | _ => false end
                         | _ => false end
               | _ => false end = true ->
  exists l D, r = Ok l /\ dictionary l = Ok D /\ stored D (u "ка") 0 1 /\ build_normal_form D 0 1 (u "ка") = Ok (u "ку").
Proof.
  intros [l|] A4; [|discriminate A4]. exists l. destruct (dictionary l) as [D|] eqn:ED; [|discriminate A4]. exists D. destruct (sget (u "ка") (d_words D)) as [vals|] eqn:EW; [|discriminate A4].
  assert (Ev : vals = [(0, 1)]) by (destruct vals as [|[[|?] [|[|?]]] [|? ?]]; try discriminate A4; reflexivity). subst vals.
  destruct (build_normal_form D 0 1 (u "ка")) as [w|] eqn:EN; [|discriminate A4]. apply str_eqb_eq in A4. subst w.
  split; [reflexivity|]. split; [reflexivity|]. split; [exists [(0, 1)]; split; [exact EW|left; reflexivity]|reflexivity].
Qed.
Lemma mixture : exists n l D k i, snd (mix_save old_src) = Ok tt /\ snd (mix_save new_src) = Ok tt /\ n < length (fst (mix_save new_src)) /\
  snd (load_dict io_json false (frun (firstn n (fst (mix_save new_src))) (frun (fst (mix_save old_src)) [])) tc_initial) = Ok l /\ dictionary l = Ok D /\
  stored D (u "ка") k i /\ build_normal_form D k i (u "ка") = Ok (u "ку") /\ ~ In (u "ку") (map fst (flat_map snd old_src) ++ map fst (flat_map snd new_src)).
Proof.
  assert (A1 : snd (mix_save old_src) = Ok tt) by (vm_compute; reflexivity). assert (A2 : snd (mix_save new_src) = Ok tt) by (vm_compute; reflexivity).
  assert (A3 : mix_n < length (fst (mix_save new_src))) by (apply Nat.ltb_lt; vm_compute; reflexivity).
  assert (A4 : exists l D, snd (load_dict io_json false (frun (firstn mix_n (fst (mix_save new_src))) (frun (fst (mix_save old_src)) [])) tc_initial) = Ok l /\
    dictionary l = Ok D /\ stored D (u "ка") 0 1 /\ build_normal_form D 0 1 (u "ка") = Ok (u "ку")) by (apply mix_chk; vm_compute; reflexivity).
  destruct A4 as (l & D & EL & ED & ST & EN). exists mix_n, l, D, 0, 1. split; [exact A1|]. split; [exact A2|]. split; [exact A3|]. split; [exact EL|]. split; [exact ED|]. split; [exact ST|]. split; [exact EN|].
  intros H. assert (X : smem (u "ку") (map fst (flat_map snd old_src) ++ map fst (flat_map snd new_src)) = false) by (vm_compute; reflexivity). apply smem_In in H. rewrite X in H. discriminate H.
Qed.
