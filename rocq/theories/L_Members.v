(** * Lemmas for C98: a lexeme lists no form twice *)
From Coq Require Import String List NArith ZArith Bool QArith Lia Permutation.
From Verif Require Import Py Uni Tagset Dawg Utils Shapes Dict Units Analyzer ConfigRu ConfigUk Compile Spec Spec2 Spec3 Spec14 Spec15 Spec43 Spec44 Spec45.
From Verif Require Import L_Base L_Made L_Run L_Parse L_Prob L_ByUnit L_Units L_Words L_Groups L_Twice L_Twice3 L_Twice4.
Import ListNotations.
Local Open Scope nat_scope.
Local Open Scope list_scope.

Definition clean (M : morph) (st : list method) : Prop := Forall (no_initial_unit M) (stack_units st).
Lemma clean_app : forall M a b, clean M (a ++ b) <-> clean M a /\ clean M b.
Proof. intros M a b. unfold clean, stack_units. rewrite flat_map_app. apply Forall_app. Qed.
Lemma clean_In : forall M st m, clean M st -> In m st -> no_initial_unit M (m_unit m).
Proof.
  intros M st m C I. unfold clean in C. rewrite Forall_forall in C. apply C. unfold stack_units. apply in_flat_map. exists m. split; [exact I|]. destruct m; left; reflexivity.
Qed.
Lemma clean_sub : forall M a b, (forall m, In m b -> In m a) -> clean M a -> clean M b.
Proof.
  intros M a b S C. unfold clean in *. rewrite Forall_forall in *. intros r I. apply C. unfold stack_units in *. apply in_flat_map in I as (m & J & I). apply in_flat_map. exists m. auto.
Qed.
Lemma dict_members : forall M self form lex, dict_lexeme M self form = Ok lex -> NoDup (map p_stack lex).
Proof.
  intros M self form lex H. unfold dict_lexeme in H. apply bind_ok in H as ([[w para] idx] & _ & H). apply bind_ok in H as (p & _ & H). apply bind_ok in H as (stem & _ & H). apply bind_ok in H as (infos & _ & H). apply Ok_inj in H. subst lex.
  apply (NoDup_map_inv (fun st : list method => match st with MDict _ _ _ i :: _ => i | _ => 0 end)). rewrite !map_map.
  assert (E : forall k (l : list (str * tag * str)), map (fun x : nat * (str * tag * str) => match p_stack (let '(index, (prefix, t, suffix)) := x in let w := prefix ++ stem ++ suffix in
     {| p_word := w; p_tag := t; p_nf := p_nf form; p_score := 1; p_stack := fix_stack self (p_stack form) w para index |}) with MDict _ _ _ i :: _ => i | _ => 0 end) (enum_from k l) = seq k (length l)).
  { intros k l. revert k. induction l as [|[[a b] c] l IH]; intros k; [reflexivity|]. cbn [enum_from map length seq]. rewrite IH. reflexivity. }
  unfold enum. rewrite E. apply seq_NoDup.
Qed.
Lemma NoDup_through : forall {A} (g : list method -> list method) (h : A -> list method) l, (forall x y, g x = g y -> x = y) -> NoDup (map h l) -> NoDup (map (fun x => g (h x)) l).
Proof. intros A g h l I N. rewrite <- (map_map h g). apply NoDup_map_inj; assumption. Qed.
Lemma last_clean : forall M st r, last_unit st = Ok r -> clean M st -> no_initial_unit M r.
Proof.
  intros M st r H C. unfold last_unit in H. destruct (rev st) as [|m l] eqn:E; [discriminate H|]. apply Ok_inj in H. subst r. apply (clean_In M st m C). apply in_rev. rewrite E. left. reflexivity.
Qed.
Lemma sequence_map : forall {A B} (f : A -> res B) l r, sequence (map f l) = Ok r -> Forall2 (fun x y => f x = Ok y) l r.
Proof.
  intros A B f l. unfold sequence. induction l as [|x l IH]; intros r H; cbn [map mapM] in H; [apply Ok_inj in H; subst r; constructor|].
  apply bind_ok in H as (y & E & H). apply bind_ok in H as (r' & E' & H). apply Ok_inj in H. subst r. constructor; [exact E|exact (IH _ E')].
Qed.
Lemma members_once : forall fuel M who form lex, lexeme_f fuel M who form = Ok lex -> no_initial_unit M who -> clean M (p_stack form) -> NoDup (map p_stack lex).
Proof.
  induction fuel as [|f IH]; intros M who form lex H NW CF; [discriminate H|]. cbn [lexeme_f] in H. destruct who as [i|i]; [|exact (dict_members _ _ _ _ H)].
  apply bind_ok in H as ([b tm] & NB & H). cbn [fst] in H. apply nth_res_ok in NB.
  assert (AN : forall (undec dec : str -> parse -> parse) (arg : bool), (forall a x, p_stack (undec a x) = p_stack x) -> (forall a x, p_stack (dec a x) = p_stack x) ->
    (let* mi := method_info (p_stack form) in let '(base, this) := mi in let* a := if arg then method_arg1 this else Ok [] in
      let* fs := lexeme_f f M (m_unit base) (without_last_method (undec a form)) in Ok (map (fun x => append_method (dec a x) this) fs)) = Ok lex -> NoDup (map p_stack lex)).
  { intros undec dec arg U D E. apply bind_ok in E as ([base this] & MI & E). apply bind_ok in E as (a & _ & E). apply bind_ok in E as (fs & L & E). apply Ok_inj in E. subst lex.
    unfold method_info in MI. destruct (rev (p_stack form)) as [|m1 [|m2 l]] eqn:RV; try discriminate MI. apply Ok_inj in MI. injection MI as -> ->.
    assert (IB : In base (p_stack form)) by (apply in_rev; rewrite RV; right; left; reflexivity).
    apply IH in L; [|exact (clean_In _ _ _ CF IB)|].
    - rewrite map_map. cbn [append_method replace_methods_stack p_stack]. rewrite (map_ext _ (fun x => p_stack x ++ [this])) by (intros x; rewrite D; reflexivity).
      apply (NoDup_through (fun s => s ++ [this]) p_stack); [|exact L]. intros x y Q. apply app_inj_tail in Q as [Q _]. exact Q.
    - unfold without_last_method, replace_methods_stack. cbn [p_stack]. rewrite U. apply (clean_sub M (p_stack form)); [|exact CF]. intros m I. unfold slice_to in I.
      match type of I with In _ (firstn ?n ?l) => rewrite <- (firstn_skipn n l); apply in_app_iff; left; exact I end. }
  destruct (b_cfg b) as [|first letters pat sc|sc|sc|sc|sc|particles mult|mult|skip mult|prefixes mult minrem|mult|mult minlen|] eqn:C.
  - exact (dict_members _ _ _ _ H).
  - exfalso. exact (NW i b tm first letters pat sc eq_refl NB C).
  - apply Ok_inj in H. subst lex. repeat constructor. intros [].
  - apply Ok_inj in H. subst lex. repeat constructor. intros [].
  - apply Ok_inj in H. subst lex. repeat constructor. intros [].
  - apply Ok_inj in H. subst lex. repeat constructor. intros [].
  - exact (AN (fun a x => without_fixed_suffix x (length a)) (fun a x => with_suffix x a) true (fun _ _ => eq_refl) (fun _ _ => eq_refl) H).
  - apply Ok_inj in H. subst lex. repeat constructor. intros [].
  - apply bind_ok in H as (l & HF & H). unfold hyph_forms in HF. destruct (p_stack form) as [|[r w p ix|r s|r lw rights|r lefts rights] [|m2 st]] eqn:ST; try discriminate HF.
    + destruct (negb (uref_eqb r (Root i))); [discriminate HF|]. apply bind_ok in HF as (base & LU & HF). apply bind_ok in HF as (fs & L & HF). apply Ok_inj in HF. subst l.
      assert (CR : clean M rights).
      { unfold clean, stack_units in CF. cbn [flat_map method_units] in CF. rewrite app_nil_r in CF. apply Forall_cons_iff in CF as [_ CF]. exact CF. }
      apply IH in L; [|exact (last_clean _ _ _ LU CR)|exact CR].
      apply sequence_map in H.
      assert (E : map p_stack lex = map (fun f0 => [MHyphFixed r lw (p_stack f0)]) fs).
      { clear - H. induction H as [|x y fs lex E F IH]; [reflexivity|]. cbn [map]. rewrite IH. apply Ok_inj in E. subst y. reflexivity. }
      rewrite E. apply (NoDup_through (fun s => [MHyphFixed r lw s]) p_stack); [|exact L]. intros x y Q. injection Q as Q. exact Q.
    + destruct (negb (uref_eqb r (Root i))); [discriminate HF|]. apply bind_ok in HF as (lform & LF & HF). apply bind_ok in HF as (rform & RF & HF). apply bind_ok in HF as (lu & LU & HF). apply bind_ok in HF as (ll & LL & HF).
      apply bind_ok in HF as (ru & RU & HF). apply bind_ok in HF as (rl & RL & HF). apply Ok_inj in HF. subst l.
      assert (CR : clean M rights).
      { unfold clean, stack_units in CF. cbn [flat_map method_units] in CF. rewrite app_nil_r in CF. apply Forall_cons_iff in CF as [_ CF]. apply Forall_app in CF as [_ CF]. exact CF. }
      apply IH in RL; [|exact (last_clean _ _ _ RU CR)|].
      2:{ unfold without_left_part in RF. apply bind_ok in RF as (a & _ & RF). apply bind_ok in RF as (c & _ & RF). apply Ok_inj in RF. subst rform. exact CR. }
      apply sequence_map in H.
      assert (E : exists ls, map p_stack lex = map (fun x => [MHyphBoth (Root i) (fst x) (snd x)]) (combine ls (map p_stack rl)) /\ length ls = length rl).
      { clear - H. induction H as [|x y fs lex E F IH]; [exists []; split; reflexivity|]. destruct IH as (ls & IH & LN). unfold merge1 in E. destruct (closest x ll 1000000 None) as [l|]; [|discriminate E]. apply Ok_inj in E. subst y.
        exists (p_stack l :: ls). cbn [map combine length fst snd]. rewrite IH, LN. split; reflexivity. }
      destruct E as (ls & E & LN). rewrite E. apply (NoDup_map_inv (fun s : list method => match s with [MHyphBoth _ _ x] => x | _ => [] end)). rewrite map_map. cbn [fst snd].
      assert (X : forall (a b : list (list method)), length a = length b -> map (fun x => snd x) (combine a b) = b).
      { induction a as [|x a IHa]; intros [|y b'] Q; try discriminate Q; [reflexivity|]. cbn [combine map snd]. rewrite IHa; [reflexivity|injection Q as Q; exact Q]. }
      rewrite X; [exact RL|]. rewrite map_length. exact LN.
  - exact (AN (fun a x => without_fixed_prefix x (length a)) (fun a x => with_prefix x a) true (fun _ _ => eq_refl) (fun _ _ => eq_refl) H).
  - exact (AN (fun a x => without_fixed_prefix x (length a)) (fun a x => with_prefix x a) true (fun _ _ => eq_refl) (fun _ _ => eq_refl) H).
  - exact (AN (fun _ x => x) (fun _ x => x) false (fun _ _ => eq_refl) (fun _ _ => eq_refl) H).
  - apply Ok_inj in H. subst lex. repeat constructor. intros [].
Qed.
Lemma lexeme_once : forall M form lex, without_initials M form -> get_lexeme M form = Ok lex -> NoDup (map p_stack lex).
Proof.
  intros M form lex C H. unfold get_lexeme in H. apply bind_ok in H as (who & L & H). exact (members_once _ _ _ _ _ H (last_clean _ _ _ L C) C).
Qed.
