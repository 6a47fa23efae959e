(** * A run of add_probability on the demonstration dictionary *)
From Coq Require Import String List NArith ZArith Bool Lia QArith.
From Verif Require Import Py Uni Tagset Dawg Utils Shapes Dict Units Analyzer ConfigRu ConfigUk Compile Json Storage Create Preprocess Probability AddProb Spec3 Spec4 Spec5 Spec9 Spec16 Ex.
From Verif Require Import L_Base L_Tagset L_Storage L_Storage2 L_Storage3 L_ExS L_Create L_Create2 L_ExW L_ExP L_AddProb L_AddProb2.
Import ListNotations.
Local Open Scope nat_scope.
Local Open Scope list_scope.

(** the P(t|w) table as JSON *)
Definition cpd_json (T : cpd) : jval := JArr (map (fun kv => JArr [JStr (fst kv); JInt (Z.of_N (snd kv))]) T).
Definition cpd_write (T : cpd) : list N := bytes_or_nil (cpd_json T).
Definition cpd_dec (v : jval) : res cpd :=
  match v with JArr l => mapM (fun kv => match kv with JArr [JStr k; JInt z] => Ok (k, Z.to_N z) | _ => Err ValueError end) l | _ => Err ValueError end.
Definition cpd_read (b : list N) : res cpd := let* v := json_read false b in cpd_dec v.
Lemma cpd_jok : forall T, jok (cpd_json T).
Proof. intros T. induction T as [|[k v] T IH]; [exact I|]. cbn [cpd_json map jok fold_right fst snd] in *. split; [|exact IH]. cbn. auto. Qed.
Lemma cpd_framed : forall T k, k < length (cpd_write T) -> exists e, cpd_read (firstn k (cpd_write T)) = Err e.
Proof. intros T k K. apply cut_json; [apply cpd_jok|left; eexists; reflexivity|exact K]. Qed.
Definition cpd_world : world :=
  MkWorld None [(u "ru", u "/dicts/ru")] None (fun p => if str_eqb p (u "/dicts/ru") then ru_folder else []) [] io_json false uni_cyr false cpd_read.
Local Notation demo_add := (add_probability cpd_write cpd_world tc_initial (u "/dicts/ru") demo_corpus 3).
Definition ru_added : folder := Eval vm_compute in frun (fst (snd demo_add)) ru_folder.
Lemma ru_added_eq : frun (fst (snd demo_add)) ru_folder = ru_added. Proof. vm_compute. reflexivity. Qed.
Lemma demo_add_ok : snd (snd demo_add) = Ok tt. Proof. vm_compute. reflexivity. Qed.
Lemma demo_add_long : 1000 < length (fst (snd demo_add)). Proof. apply Nat.ltb_lt. vm_compute. reflexivity. Qed.
Lemma demo_table_codec : w_cpd cpd_world (cpd_write demo_table) = Ok demo_table. Proof. vm_compute. reflexivity. Qed.
Definition apartb (d : folder) : bool :=
  match load_meta d META with
  | Ok m => match sget (u "gramtab_formats") m with
            | Some (JObj fmts) => match sget (u "opencorpora-int") fmts with Some (JStr f) => negb (str_eqb f META) && negb (str_eqb f TABLE) | _ => true end
            | _ => true
            end
  | Err _ => true
  end.
Lemma apartb_ok : forall d, apartb d = true -> gramtab_apart d.
Proof.
  intros d H m fmts f L S1 S2. unfold apartb in H. rewrite L, S1, S2 in H. apply andb_true_iff in H as [H1 H2]. apply negb_true_iff in H1, H2. split; apply str_eqb_neq; assumption.
Qed.
Lemma ru_apart : gramtab_apart ru_folder. Proof. apply apartb_ok. vm_compute. reflexivity. Qed.
Lemma added_apart : gramtab_apart ru_added. Proof. apply apartb_ok. vm_compute. reflexivity. Qed.
Definition tableb (d : folder) : bool := match load_meta d META with Ok m => json_true (meta_get (u "P(t|w)") m) | Err _ => false end.
Lemma tableb_iff : forall d, tableb d = true <-> declares_table d.
Proof.
  intros d. unfold tableb, declares_table. split.
  - destruct (load_meta d META) as [m|e]; [|discriminate]. intros H. exists m. auto.
  - intros (m & -> & H). exact H.
Qed.
Lemma ru_no_table : ~ declares_table ru_folder. Proof. intros H. apply tableb_iff in H. vm_compute in H. discriminate H. Qed.
Lemma added_table : declares_table ru_added. Proof. apply tableb_iff. vm_compute. reflexivity. Qed.
Definition auto_args : args := MkArgs (Some (u "/dicts/ru")) None (Some (u "Parse")) None EstAuto SubAuto.
(** the scores before and after *)
Definition scores_in (d : folder) (w : str) : res (list Q) :=
  let* z := snd (create (set_folder cpd_world (u "/dicts/ru") d) tc_initial auto_args) in let* ps := morph_parse (z_morph z) w in Ok (map p_score ps).
Lemma demo_scores : scores_in ru_added (u "Кота") = Ok [600000 # 1000000; 400000 # 1000000]%Q /\ scores_in ru_folder (u "Кота") = Ok [1; 1]%Q.
Proof. split; vm_compute; reflexivity. Qed.
(** a second run, stopped after its first operation *)
Definition again_world : world := set_folder cpd_world (u "/dicts/ru") ru_added.
Local Notation again_run := (add_probability cpd_write again_world tc_initial (u "/dicts/ru") demo_corpus 3).
Local Notation again_before := (create again_world tc_initial auto_args).
Local Notation again_after := (create (set_folder again_world (u "/dicts/ru") (frun (firstn 1 (fst (snd again_run))) (w_folder again_world (u "/dicts/ru")))) tc_initial auto_args).
Lemma again_ok : snd (snd again_run) = Ok tt. Proof. vm_compute. reflexivity. Qed.
Lemma again_long : 1 <? length (fst (snd again_run)) = true. Proof. vm_compute. reflexivity. Qed.
Lemma again_works : match snd again_before with Ok _ => true | Err _ => false end = true. Proof. vm_compute. reflexivity. Qed.
Lemma again_broken : match snd again_after with Ok _ => false | Err _ => true end = true. Proof. vm_compute. reflexivity. Qed.
Lemma errc : forall (r : list warning * tagclass * res analyzer), match snd r with Ok _ => false | Err _ => true end = true -> exists ws D' e, r = (ws, D', Err e).
Proof. intros [[w C] [z|e]] H; [discriminate H|eauto]. Qed.
Lemma broken_gen : forall W path (r : tagclass * saving) (b a : list warning * tagclass * res analyzer), add_probability cpd_write W tc_initial path demo_corpus 3 = r -> create W tc_initial auto_args = b ->
  create (set_folder W path (frun (firstn 1 (fst (snd r))) (w_folder W path))) tc_initial auto_args = a ->
  snd (snd r) = Ok tt -> 1 <? length (fst (snd r)) = true -> match snd b with Ok _ => true | Err _ => false end = true -> match snd a with Ok _ => false | Err _ => true end = true ->
  exists W path C1 s n ws C' z, add_probability cpd_write W tc_initial path demo_corpus 3 = (C1, s) /\ snd s = Ok tt /\ n < length (fst s) /\
  create W tc_initial auto_args = (ws, C', Ok z) /\
  exists ws D' e, create (set_folder W path (frun (firstn n (fst s)) (w_folder W path))) tc_initial auto_args = (ws, D', Err e).
Proof.
  intros W path [C1 s] b a R B A H1 H2 H3 H4. cbn [fst snd] in *. rewrite (okc _ H3) in B. apply errc in H4 as (w & D & e & ->).
  exists W, path, C1, s, 1. do 3 eexists. split; [exact R|]. split; [exact H1|]. split; [apply Nat.ltb_lt; exact H2|]. split; [exact B|]. eauto.
Qed.
Lemma broken : exists W path C1 s n ws C' z, add_probability cpd_write W tc_initial path demo_corpus 3 = (C1, s) /\ snd s = Ok tt /\ n < length (fst s) /\
  create W tc_initial auto_args = (ws, C', Ok z) /\
  exists ws D' e, create (set_folder W path (frun (firstn n (fst s)) (w_folder W path))) tc_initial auto_args = (ws, D', Err e).
Proof.
  exact (broken_gen again_world (u "/dicts/ru") again_run again_before again_after eq_refl eq_refl eq_refl again_ok again_long again_works again_broken).
Qed.
Lemma added_case : exists C1 s, add_probability cpd_write cpd_world tc_initial (u "/dicts/ru") demo_corpus 3 = (C1, s) /\ snd s = Ok tt /\ 1000 < length (fst s) /\ frun (fst s) ru_folder = ru_added.
Proof.
  assert (G : forall r : tagclass * saving, snd (snd r) = Ok tt -> 1000 < length (fst (snd r)) -> frun (fst (snd r)) ru_folder = ru_added -> exists C1 s, r = (C1, s) /\ snd s = Ok tt /\ 1000 < length (fst s) /\ frun (fst s) ru_folder = ru_added) by (intros [C s] H1 H2 H3; exists C, s; auto).
  exact (G demo_add demo_add_ok demo_add_long ru_added_eq).
Qed.
