(** * Joining lexemes (C38) *)
From Coq Require Import String List NArith ZArith Bool Lia Permutation Sorted.
From Verif Require Import Py Uni Dawg Utils Compile Spec Spec2 Spec3 L_Base L_Compile.
Import ListNotations.
Local Open Scope nat_scope.
Local Open Scope list_scope.

(** ** acyclic links can be ranked *)
Lemma chain_app : forall links a b, chain links (a ++ b) -> chain links a /\ chain links b.
Proof.
  induction a as [|x a IH]; intros b H; [split; [exact I|exact H]|]. destruct a as [|y a].
  - simpl in H. destruct b as [|y b]; [split; exact I|]. destruct H as [_ H]. split; [exact I|exact H].
  - cbn [app chain] in *. destruct H as [H1 H2]. destruct (IH b H2) as [H3 H4]. split; auto.
Qed.
Lemma chain_cons : forall links a b l, chain links (a :: b :: l) <-> In (a, b) links /\ chain links (b :: l).
Proof. intros. reflexivity. Qed.
Lemma chain_snoc : forall links l s x, chain links (l ++ [s]) -> In (s, x) links -> chain links (l ++ [s; x]).
Proof.
  intros links. induction l as [|a l IH]; intros s x H I; [split; [exact I|exact Logic.I]|].
  destruct l as [|b l]; cbn [app] in *; rewrite chain_cons in *; destruct H as [H1 H2]; (split; [exact H1|]); [apply chain_cons; split; [exact I|exact Logic.I]|].
  exact (IH s x H2 I).
Qed.
Fixpoint pairs (l : list N) : list (N * N) := match l with a :: ((b :: _) as r) => (a, b) :: pairs r | _ => [] end.
Lemma pairs_In : forall links l, chain links l -> forall p, In p (pairs l) -> In p links.
Proof.
  induction l as [|a l IH]; intros H p Hp; [destruct Hp|]. destruct l as [|b l]; [destruct Hp|]. cbn [pairs chain] in *. destruct H as [H1 H2]. destruct Hp as [<-|Hp]; auto.
Qed.
Lemma pairs_len : forall l, length (pairs l) = pred (length l).
Proof. induction l as [|a l IH]; auto. destruct l as [|b l]; auto. cbn [pairs length] in *. rewrite IH. auto. Qed.
Lemma pairs_fst : forall l a, map fst (pairs (l ++ [a])) = l.
Proof. induction l as [|x l IH]; intros a; auto. destruct l as [|y l]; auto. cbn [app pairs map fst] in *. rewrite IH. auto. Qed.
Lemma chain_nodup : forall links l a, acyclic links -> chain links (l ++ [a]) -> NoDup l.
Proof.
  intros links l a A H. apply NoDup_nth_error. intros i j Hi E.
  destruct (Nat.lt_trichotomy i j) as [Lt|[Eq|Gt]]; auto; exfalso.
  - destruct (nth_error l i) as [x|] eqn:Ni; [|apply nth_error_None in Ni; lia].
    apply nth_error_split in Ni as (l1 & l2 & -> & Li). symmetry in E. rewrite nth_error_app2 in E by lia. destruct (j - length l1) as [|n] eqn:J; [lia|].
    simpl in E. apply nth_error_split in E as (l3 & l4 & -> & _). apply (A x l3).
    replace ((l1 ++ x :: l3 ++ x :: l4) ++ [a]) with (l1 ++ (x :: l3 ++ [x]) ++ l4 ++ [a]) in H by (repeat (rewrite <- app_assoc; simpl); auto).
    apply chain_app in H as [_ H]. apply chain_app in H as [H _]. exact H.
  - destruct (nth_error l j) as [x|] eqn:Nj; [|apply nth_error_None in E; lia].
    apply nth_error_split in Nj as (l1 & l2 & -> & Lj). rewrite nth_error_app2 in E by lia. destruct (i - length l1) as [|n] eqn:J; [lia|].
    simpl in E. apply nth_error_split in E as (l3 & l4 & -> & _). apply (A x l3).
    replace ((l1 ++ x :: l3 ++ x :: l4) ++ [a]) with (l1 ++ (x :: l3 ++ [x]) ++ l4 ++ [a]) in H by (repeat (rewrite <- app_assoc; simpl); auto).
    apply chain_app in H as [_ H]. apply chain_app in H as [H _]. exact H.
Qed.
Lemma chain_bound : forall links l a, acyclic links -> chain links (l ++ [a]) -> length l <= length links.
Proof.
  intros links l a A H. pose proof (chain_nodup _ _ _ A H) as ND. rewrite <- (pairs_fst l a) in ND. apply NoDup_map_inv in ND.
  assert (Le : length (pairs (l ++ [a])) <= length links) by (apply NoDup_incl_length; auto; intros p Hp; eapply pairs_In; eauto).
  rewrite pairs_len, app_length in Le. simpl in Le. lia.
Qed.
Fixpoint rk (links : list (N * N)) (n : nat) (x : N) : nat :=
  match n with 0 => 0 | S n => list_max (map (fun se : N * N => if N.eqb (snd se) x then S (rk links n (fst se)) else 0) links) end.
Lemma list_max_In : forall l, l <> [] -> In (list_max l) l.
Proof.
  induction l as [|a l IH]; intros H; [congruence|]. change (list_max (a :: l)) with (Nat.max a (list_max l)). destruct l as [|b l]; [simpl; left; lia|].
  destruct (Nat.max_spec a (list_max (b :: l))) as [[_ ->]|[_ ->]]; [right; apply IH; discriminate|left; auto].
Qed.
Lemma list_max_ge : forall l x, In x l -> x <= list_max l.
Proof. intros l x H. pose proof (proj1 (list_max_le l (list_max l)) (le_n _)) as F. rewrite Forall_forall in F. auto. Qed.
Lemma rk_chain : forall links n x, exists l, chain links (l ++ [x]) /\ length l = rk links n x.
Proof.
  intros links. induction n as [|n IH]; intros x; [exists []; simpl; auto|]. cbn [rk]. assert (Dl : links = [] \/ links <> []) by (destruct links; [left; auto|right; discriminate]). destruct Dl as [El|El]; [exists []; rewrite El; simpl; auto|].
  assert (I : In (list_max (map (fun se : N * N => if N.eqb (snd se) x then S (rk links n (fst se)) else 0) links)) (map (fun se : N * N => if N.eqb (snd se) x then S (rk links n (fst se)) else 0) links)).
  { apply list_max_In. intros Em. apply El. destruct links; [auto|discriminate Em]. }
  apply in_map_iff in I as ([s e] & E & I). cbn [fst snd] in E. destruct (N.eqb_spec e x) as [Ee|Ne].
  2: { rewrite <- E. exists []. simpl; auto. }
  subst e.
  destruct (IH s) as (l & H & Hl). exists (l ++ [s]). rewrite <- E, app_length. split; [|simpl; lia].
  rewrite <- app_assoc. apply chain_snoc; auto.
Qed.
Lemma chain_rk : forall links n l x, chain links (l ++ [x]) -> length l <= n -> length l <= rk links n x.
Proof.
  intros links. induction n as [|n IH]; intros l x H Hn; [lia|]. destruct l as [|a l] using rev_ind; [simpl; lia|]. clear IHl.
  rewrite <- app_assoc in H. simpl in H. rewrite app_length in Hn |- *. simpl in Hn |- *.
  assert (I : In (a, x) links) by (apply chain_app in H as [_ H]; destruct H; auto).
  assert (Hc : chain links (l ++ [a])). { change (l ++ [a; x]) with (l ++ [a] ++ [x]) in H. rewrite app_assoc in H. apply chain_app in H as [H _]. auto. }
  specialize (IH l a Hc). assert (Ge : S (rk links n a) <= rk links (S n) x).
  { cbn [rk]. apply list_max_ge. apply in_map_iff. exists (a, x). cbn [fst snd]. rewrite N.eqb_refl. auto. }
  cbn [rk] in Ge. lia.
Qed.
Lemma acyclic_rank : forall links, acyclic links -> exists rank : N -> nat, forall s e, In (s, e) links -> rank s < rank e.
Proof.
  intros links A. exists (rk links (length links)). intros s e H. destruct (rk_chain links (length links) s) as (l & Hl & El).
  assert (Hc : chain links ((l ++ [s]) ++ [e])).
  { rewrite <- app_assoc. apply chain_snoc; auto. }
  pose proof (chain_bound _ _ _ A Hc) as B. pose proof (chain_rk links (length links) _ _ Hc B) as R. rewrite app_length in R. simpl in R. lia.
Qed.

(** ** following earlier moves *)
Lemma Neqb_eq : forall a b, N.eqb a b = true <-> a = b. Proof. apply N.eqb_eq. Qed.
Lemma chase_ok : forall (rank : N -> nat) moves, (forall a b, nget a moves = Some b -> rank b < rank a) -> forall fuel to,
  length (filter (fun kv : N * N => rank (fst kv) <=? rank to) moves) < fuel ->
  exists root, chase fuel moves to = Ok root /\ rank root <= rank to /\ nget root moves = None /\
    (forall P : N -> Prop, P to -> (forall a b, nget a moves = Some b -> P b) -> P root) /\
    (forall own : N -> N, (forall a b, nget a moves = Some b -> own b = own a) -> (forall a, nget a moves = None -> own a = a) -> own to = root).
Proof.
  intros rank moves R. induction fuel as [|fuel IH]; intros to H; [lia|]. cbn [chase]. destruct (nget to moves) as [n|] eqn:G.
  - assert (Lt := R _ _ G). destruct (IH n) as (root & E & Rr & Gr & Pr & Or).
    + assert (I : In (to, n) moves) by (apply (dget_In N.eqb Neqb_eq); exact G).
      assert (X : forall l, (forall kv : N * N, In kv l -> True) -> length (filter (fun kv : N * N => rank (fst kv) <=? rank n) l) <= length (filter (fun kv : N * N => rank (fst kv) <=? rank to) l)).
      { induction l as [|kv l IHl]; intros _; [auto|]. cbn [filter]. specialize (IHl (fun _ _ => Logic.I)).
        destruct (Nat.leb_spec (rank (fst kv)) (rank n)); destruct (Nat.leb_spec (rank (fst kv)) (rank to)); cbn [length]; lia. }
      assert (Y : length (filter (fun kv : N * N => rank (fst kv) <=? rank n) moves) < length (filter (fun kv : N * N => rank (fst kv) <=? rank to) moves)).
      { apply in_split in I as (l1 & l2 & ->). rewrite !filter_app, !app_length. cbn [filter fst]. rewrite (proj2 (Nat.leb_gt (rank to) (rank n))) by lia. rewrite (proj2 (Nat.leb_le (rank to) (rank to))) by lia.
        cbn [length]. pose proof (X l1 (fun _ _ => Logic.I)). pose proof (X l2 (fun _ _ => Logic.I)). lia. }
      lia.
    + exists root. split; [exact E|]. split; [lia|]. split; [exact Gr|]. split; [intros P Pt Pm; apply Pr; eauto|].
      intros own O1 O2. rewrite <- (Or own O1 O2). symmetry. apply O1. exact G.
  - exists to. split; [reflexivity|]. split; [lia|]. split; [exact G|]. split; auto.
Qed.
Lemma filter_le : forall {A} (f : A -> bool) l, length (filter f l) <= length l.
Proof. intros A f l. induction l as [|a l IH]; simpl; auto. destruct (f a); simpl; lia. Qed.
Lemma nset_keys : forall {V} k (v : V) d, In k (map fst d) -> map fst (nset k v d) = map fst d.
Proof.
  intros V k v. unfold nset. induction d as [|[k' v'] d IH]; intros H; [destruct H|]. cbn [map fst dset] in *. destruct (N.eqb_spec k k') as [->|Ne]; [reflexivity|]. cbn [map fst]. f_equal. apply IH. destruct H; [congruence|auto].
Qed.
Lemma nget_In_ex : forall {V} k (d : list (N * V)), In k (map fst d) -> exists v, nget k d = Some v.
Proof. intros V k d H. destruct (nget k d) eqn:E; [eauto|]. apply (dget_None N.eqb Neqb_eq) in E. contradiction. Qed.
Lemma nset_perm : forall k (v old : lexeme) d, nget k d = Some old -> Permutation (old ++ concat (map snd (nset k v d))) (v ++ concat (map snd d)).
Proof.
  intros k v old. unfold nget, nset. induction d as [|[k' v'] d IH]; intros H; [discriminate|]. cbn [dget dset] in *. destruct (N.eqb_spec k k') as [->|Ne].
  - injection H as ->. cbn [map snd concat]. apply Permutation_app_swap_app.
  - cbn [map snd concat]. rewrite Permutation_app_swap_app. rewrite (IH H). apply Permutation_app_swap_app.
Qed.
Section Join.
  Variables (rank : N -> nat) (lx0 : lexemes).
  Hypothesis ND : NoDup (map fst lx0).
  Let ids := map fst lx0.
  Record JInv (st : lexemes * list (N * N)) : Prop := {
    ji_keys : map fst (fst st) = ids;
    ji_perm : Permutation (concat (map snd (fst st))) (concat (map snd lx0));
    ji_rank : forall a b, nget a (snd st) = Some b -> rank b < rank a /\ In b ids
  }.
  Lemma move_ok : forall tbl moves s e, JInv (tbl, moves) -> rank s < rank e -> In s ids -> In e ids ->
    exists root old tgt, chase (S (length moves)) moves s = Ok root /\ rank root <= rank s /\ nget root moves = None /\ In root ids /\
      (forall own : N -> N, (forall a b, nget a moves = Some b -> own b = own a) -> (forall a, nget a moves = None -> own a = a) -> own s = root) /\
      nget e tbl = Some old /\ nget root tbl = Some tgt /\
      move_lexeme (tbl, moves) e s = Ok (nset e [] (nset root (tgt ++ old) tbl), nset e root moves) /\
      JInv (nset e [] (nset root (tgt ++ old) tbl), nset e root moves).
  Proof.
    intros tbl moves s e [K P R] Rk Is Ie. cbn [fst snd] in *.
    destruct (chase_ok rank moves (fun a b h => proj1 (R a b h)) (S (length moves)) s) as (root & E & Rr & Gr & Pr & Or).
    { pose proof (filter_le (fun kv : N * N => rank (fst kv) <=? rank s) moves). lia. }
    assert (Ir : In root ids) by (apply Pr; [auto|intros a b h; apply (R a b h)]).
    destruct (nget_In_ex e tbl) as (old & Eo); [rewrite K; auto|]. destruct (nget_In_ex root tbl) as (tgt & Et); [rewrite K; auto|].
    assert (Ne : root <> e) by (intros ->; lia).
    exists root, old, tgt. split; [auto|]. split; [auto|]. split; [auto|]. split; [auto|]. split; [auto|]. split; [auto|]. split; [auto|]. split.
    - unfold move_lexeme. unfold nget_res, dget_res. unfold nget in Eo, Et. rewrite Eo. cbn [bind]. rewrite E. cbn [bind]. rewrite Et. reflexivity.
    - constructor; cbn [fst snd].
      + rewrite !nset_keys; auto; [rewrite K; auto|rewrite nset_keys, K; auto; rewrite K; auto].
      + assert (E2 : nget e (nset root (tgt ++ old) tbl) = Some old) by (unfold nget, nset; rewrite (dget_dset_other N.eqb Neqb_eq); auto).
        pose proof (nset_perm e [] old _ E2) as P1. pose proof (nset_perm root (tgt ++ old) tgt _ Et) as P2. simpl in P1.
        apply (Permutation_app_inv_l (tgt ++ old)). rewrite <- app_assoc, P1, P2, P. reflexivity.
      + intros a b. unfold nget, nset. destruct (N.eqb_spec a e) as [->|Na].
        * rewrite (dget_dset_same N.eqb Neqb_eq). intros [= <-]. split; [lia|auto].
        * rewrite (dget_dset_other N.eqb Neqb_eq) by auto. apply R.
  Qed.
  Lemma eff_cons : forall s e t links, effective ((s, e, t) :: links) = if smem t EXCLUDED_LINK_TYPES then effective links else (s, e) :: effective links.
  Proof. intros. unfold effective, EXCLUDED_LINK_TYPES. cbn [filter snd]. destruct (smem t (map u ["7"; "21"; "23"; "27"]%string)); reflexivity. Qed.
  Lemma join_ok : forall links st, JInv st -> (forall s e, In (s, e) (effective links) -> rank s < rank e /\ In s ids /\ In e ids) ->
    exists st', foldM join_step st links = Ok st' /\ JInv st'.
  Proof.
    induction links as [|[[s e] t] links IH]; intros [tbl moves] I H; [simpl; eauto|]. cbn [foldM join_step]. rewrite eff_cons in H. destruct (smem t EXCLUDED_LINK_TYPES).
    - cbn [bind]. apply IH; auto.
    - destruct (H s e) as (H1 & H2 & H3); [left; auto|]. destruct (move_ok _ _ _ _ I H1 H2 H3) as (root & old & tgt & _ & _ & _ & _ & _ & _ & _ & E & I'). rewrite E. cbn [bind].
      apply IH; auto. intros; apply H; right; auto.
  Qed.

  (** ** who ends up where *)
  Definition group (own : N -> N) (id : N) : lexeme := concat (map snd (filter (fun kv : N * lexeme => N.eqb (own (fst kv)) id) lx0)).
  Record OInv (done : list (N * N)) (own : N -> N) (st : lexemes * list (N * N)) : Prop := {
    oi_moves : forall a b, nget a (snd st) = Some b -> own b = own a /\ In a (map snd done);
    oi_none : forall a, nget a (snd st) = None -> own a = a /\ ~ In a (map snd done);
    oi_links : forall s e, In (s, e) done -> own e = own s;
    oi_rank : forall a, rank (own a) <= rank a;
    oi_strict : forall a, In a (map snd done) -> rank (own a) < rank a;
    oi_ids : forall a, In a ids -> In (own a) ids;
    oi_tbl : forall id l, nget id (fst st) = Some l -> if N.eqb (own id) id then Permutation l (group own id) /\ (exists r, l = forms_of lx0 id ++ r) else l = []
  }.
  Lemma filter_or : forall {A} (f g : A -> bool) l, (forall x, f x = true -> g x = true -> False) -> Permutation (filter (fun x => f x || g x) l) (filter f l ++ filter g l).
  Proof.
    intros A f g l H. induction l as [|a l IH]; simpl; auto. destruct (f a) eqn:Ef, (g a) eqn:Eg; simpl; auto; [exfalso; eauto|]. rewrite IH. apply Permutation_middle.
  Qed.
  Lemma concat_perm : forall {A} (a b : list (list A)), Permutation a b -> Permutation (concat a) (concat b).
  Proof. intros A a b H. induction H; simpl; auto; [apply Permutation_app_head; auto|apply Permutation_app_swap_app|etransitivity; eauto]. Qed.
  Lemma own_step : forall done own tbl moves s e root old tgt, JInv (tbl, moves) -> OInv done own (tbl, moves) -> rank s < rank e -> In s ids -> In e ids ->
    ~ In e (map snd done) -> own s = root -> nget root moves = None -> nget e tbl = Some old -> nget root tbl = Some tgt ->
    OInv (done ++ [(s, e)]) (fun a => if N.eqb (own a) e then root else own a) (nset e [] (nset root (tgt ++ old) tbl), nset e root moves).
  Proof.
    intros done own tbl moves s e root old tgt [K P R] [O1 O2 O3 O4 O5 O6 O7] Rk Is Ie Ne Es Gr Eo Et. cbn [fst snd] in *.
    assert (Ge : nget e moves = None) by (destruct (nget e moves) eqn:G; auto; destruct (O1 _ _ G); contradiction).
    destruct (O2 _ Ge) as [Oe _]. destruct (O2 _ Gr) as [Or _]. assert (Rr : rank root <= rank s) by (rewrite <- Es; auto). assert (Nre : root <> e) by (intros X; rewrite X in Rr; lia).
    assert (Ir : In root ids) by (rewrite <- Es; auto).
    constructor; cbn [fst snd].
    - intros a b H. unfold nget, nset in H. destruct (N.eqb_spec a e) as [->|Na].
      + rewrite (dget_dset_same N.eqb Neqb_eq) in H. injection H as <-. rewrite Or, Oe, N.eqb_refl. destruct (N.eqb_spec root e); [contradiction|]. split; auto.
        rewrite map_app, in_app_iff. right; left; auto.
      + rewrite (dget_dset_other N.eqb Neqb_eq) in H by auto. destruct (O1 a b H) as [E1 E2]. rewrite E1. split; auto. rewrite map_app, in_app_iff. auto.
    - intros a H. unfold nget, nset in H. destruct (N.eqb_spec a e) as [->|Na]; [rewrite (dget_dset_same N.eqb Neqb_eq) in H; discriminate|].
      rewrite (dget_dset_other N.eqb Neqb_eq) in H by auto. destruct (O2 a H) as [E1 E2]. rewrite E1. destruct (N.eqb_spec a e); [contradiction|]. split; auto.
      rewrite map_app, in_app_iff. intros [X|[X|[]]]; [auto|simpl in X; congruence].
    - intros a b H. apply in_app_iff in H as [H|[H|[]]]; [rewrite (O3 a b H); auto|]. injection H as <- <-. rewrite Oe, N.eqb_refl, Es. destruct (N.eqb_spec root e); [contradiction|auto].
    - intros a. destruct (N.eqb_spec (own a) e) as [Ea|Na]; auto. specialize (O4 a). rewrite Ea in O4. lia.
    - intros a H. destruct (N.eqb_spec (own a) e) as [Ea|Na].
      + specialize (O4 a). rewrite Ea in O4. lia.
      + rewrite map_app, in_app_iff in H. destruct H as [H|[H|[]]]; [auto|]. simpl in H. subst a. congruence.
    - intros a H. destruct (N.eqb_spec (own a) e); auto.
    - intros id l H. unfold nget, nset in H. destruct (N.eqb_spec id e) as [->|Nid].
      + rewrite (dget_dset_same N.eqb Neqb_eq) in H. injection H as <-. rewrite Oe, N.eqb_refl. destruct (N.eqb_spec root e); [contradiction|auto].
      + rewrite (dget_dset_other N.eqb Neqb_eq) in H by auto. destruct (N.eqb_spec id root) as [->|Nir].
        * rewrite (dget_dset_same N.eqb Neqb_eq) in H. injection H as <-. rewrite Or. destruct (N.eqb_spec root e); [contradiction|]. rewrite N.eqb_refl.
          pose proof (O7 _ _ Et) as Tt. rewrite Or, N.eqb_refl in Tt. destruct Tt as [T1 (r & T2)]. pose proof (O7 _ _ Eo) as To. rewrite Oe, N.eqb_refl in To. destruct To as [To _].
          split; [|exists (r ++ old); rewrite T2, <- app_assoc; auto]. rewrite T1, To. unfold group. rewrite <- concat_app, <- map_app. apply concat_perm. apply Permutation_map.
          symmetry. erewrite filter_ext; [apply filter_or|].
          -- intros [a l]. cbn [fst]. intros X Y. apply N.eqb_eq in X, Y. congruence.
          -- intros [a l]. cbn [fst]. destruct (N.eqb_spec (own a) e) as [Ea|Na]; [rewrite N.eqb_refl, orb_true_r; auto|rewrite orb_false_r; auto].
        * rewrite (dget_dset_other N.eqb Neqb_eq) in H by auto. pose proof (O7 _ _ H) as T. destruct (N.eqb_spec (own id) e) as [Ei|Ni].
          -- destruct (N.eqb_spec (own id) id); [congruence|]. subst l. destruct (N.eqb_spec root id); [congruence|auto].
          -- destruct (N.eqb_spec (own id) id) as [Eid|Nid2]; [|auto]. destruct T as [T1 T2]. split; auto. rewrite T1. unfold group. match goal with |- Permutation (concat (map snd ?a)) (concat (map snd ?b)) => replace b with a; [auto|] end.
             apply filter_ext. intros [a l']. cbn [fst]. destruct (N.eqb_spec (own a) e) as [Ea|Na]; [|auto]. rewrite Ea. destruct (N.eqb_spec e id); [congruence|]. destruct (N.eqb_spec root id); [congruence|auto].
  Qed.
  Lemma own_ok : forall links done own st, JInv st -> OInv done own st -> (forall s e, In (s, e) (effective links) -> rank s < rank e /\ In s ids /\ In e ids) ->
    NoDup (map snd (done ++ effective links)) -> exists st' own', foldM join_step st links = Ok st' /\ JInv st' /\ OInv (done ++ effective links) own' st'.
  Proof.
    induction links as [|[[s e] t] links IH]; intros done own [tbl moves] I O H Nd; [unfold effective; simpl; rewrite app_nil_r; eauto|]. cbn [foldM join_step]. rewrite eff_cons in *. destruct (smem t EXCLUDED_LINK_TYPES).
    - cbn [bind]. eapply IH; eauto.
    - destruct (H s e) as (H1 & H2 & H3); [left; auto|]. destruct (move_ok _ _ _ _ I H1 H2 H3) as (root & old & tgt & Ec & Er & Gr & Ir & Ow & Eo & Et & E & I'). rewrite E. cbn [bind].
      assert (Ne : ~ In e (map snd done)). { rewrite map_app in Nd. cbn [map snd] in Nd. apply NoDup_remove_2 in Nd. intros X. apply Nd. apply in_app_iff. auto. }
      assert (Es : own s = root) by (apply Ow; [intros a b h; apply (oi_moves _ _ _ O a b h)|intros a h; apply (oi_none _ _ _ O a h)]).
      pose proof (own_step _ _ _ _ _ _ _ _ _ I O H1 H2 H3 Ne Es Gr Eo Et) as O'.
      destruct (IH _ _ _ I' O') as (st' & own' & F1 & F2 & F3); [intros; apply H; right; auto|rewrite <- app_assoc; exact Nd|]. rewrite <- app_assoc in F3. eauto.
  Qed.
End Join.

(** ** the result list *)
Lemma insert_asc_perm : forall x l, Permutation (insert_asc x l) (x :: l).
Proof. induction l as [|y l IH]; simpl; auto. destruct (fst x <=? fst y)%N; auto. rewrite IH. apply perm_swap. Qed.
Lemma sort_ids_perm : forall l, Permutation (sort_ids l) l.
Proof. induction l as [|x l IH]; simpl; auto. rewrite insert_asc_perm, IH. auto. Qed.
Lemma insert_asc_sorted : forall x l, StronglySorted (fun a b : N * lexeme => (fst a <= fst b)%N) l -> StronglySorted (fun a b : N * lexeme => (fst a <= fst b)%N) (insert_asc x l).
Proof.
  intros x l H. induction H as [|y l H IH F]; simpl; [constructor; auto; constructor|]. destruct (N.leb_spec (fst x) (fst y)) as [L|L].
  - constructor; [constructor; auto|]. constructor; auto. eapply Forall_impl; [|exact F]. intros z Hz. cbv beta in *. lia.
  - constructor; auto. apply Forall_forall. intros z Hz. apply (Permutation_in _ (insert_asc_perm x l)) in Hz as [<-|Hz]; [lia|]. rewrite Forall_forall in F. apply F; auto.
Qed.
Lemma sort_ids_sorted : forall l, StronglySorted (fun a b : N * lexeme => (fst a <= fst b)%N) (sort_ids l).
Proof. induction l as [|x l IH]; simpl; [constructor|]. apply insert_asc_sorted; auto. Qed.
Lemma nonempty_concat : forall (l : list lexeme), concat (filter (fun l => match l with [] => false | _ => true end) l) = concat l.
Proof. induction l as [|a l IH]; simpl; auto. destruct a; simpl; auto. rewrite IH. auto. Qed.
Lemma jinv_init : forall rank lx, JInv rank lx (lx, []).
Proof. intros. constructor; cbn [fst snd]; auto. intros a b H. discriminate. Qed.
Lemma join_forms : forall lx links, NoDup (map fst lx) -> links_exist lx (effective links) -> acyclic (effective links) ->
  exists out, join_lexemes lx links = Ok out /\ Permutation (concat out) (concat (map snd lx)) /\ ~ In [] out.
Proof.
  intros lx links ND Ex A. destruct (acyclic_rank _ A) as (rank & R). unfold join_lexemes.
  destruct (join_ok rank lx links (lx, []) (jinv_init rank lx)) as ([tbl moves] & E & J).
  { intros s e H. split; [auto|]. apply Ex; auto. }
  change (join_lexemes_st lx links = Ok (tbl, moves)) in E. rewrite E. cbn [bind fst]. eexists. split; [reflexivity|]. split.
  - rewrite nonempty_concat. rewrite <- (ji_perm _ _ _ J). cbn [fst]. apply concat_perm. apply Permutation_map. apply sort_ids_perm.
  - intros H. apply filter_In in H as [_ H]. discriminate.
Qed.
Lemma filter_one : forall (lx : lexemes) id l, NoDup (map fst lx) -> nget id lx = Some l -> filter (fun kv : N * lexeme => N.eqb (fst kv) id) lx = [(id, l)].
Proof.
  induction lx as [|[k v] lx IH]; intros id l ND H; [discriminate|]. inversion ND; subst. unfold nget in H. cbn [dget] in H. cbn [filter fst]. destruct (N.eqb_spec id k) as [->|Ne].
  - injection H as ->. rewrite N.eqb_refl. f_equal. clear - H2. induction lx as [|[k' v'] lx IH]; auto. cbn [filter fst]. destruct (N.eqb_spec k' k) as [->|]; [exfalso; apply H2; left; auto|]. apply IH. intros X; apply H2; right; auto.
  - destruct (N.eqb_spec k id); [congruence|]. apply IH; auto.
Qed.
Lemma oinv_init : forall rank lx, NoDup (map fst lx) -> OInv rank lx [] (fun a => a) (lx, []).
Proof.
  intros rank lx ND. constructor; cbn [fst snd].
  - intros a b H. discriminate.
  - intros a _. split; auto.
  - intros s1 e1 [].
  - auto.
  - intros a [].
  - auto.
  - intros id l H. rewrite N.eqb_refl. unfold group, forms_of. rewrite (filter_one _ _ _ ND H), H. simpl. rewrite app_nil_r. split; auto. exists []. rewrite app_nil_r. auto.
Qed.
Lemma join_owner : forall lx links, NoDup (map fst lx) -> links_exist lx (effective links) -> acyclic (effective links) -> NoDup (map snd (effective links)) ->
  exists own out roots, join_lexemes lx links = Ok out /\ top_of (effective links) own /\ StronglySorted N.lt roots /\
    (forall i, In i roots <-> In i (map fst lx) /\ own i = i /\ group lx own i <> []) /\
    Forall2 (fun i l => Permutation l (group lx own i) /\ exists r, l = forms_of lx i ++ r) roots out.
Proof.
  intros lx links ND Ex A N1. destruct (acyclic_rank _ A) as (rank & R). unfold join_lexemes.
  destruct (own_ok rank lx links [] (fun a => a) (lx : lexemes, []) (jinv_init rank lx) (oinv_init rank lx ND)) as ([tbl moves] & own & E & J & O).
  { intros s e H. split; [auto|]. apply Ex; auto. }
  { exact N1. }
  cbn [app] in O. change (join_lexemes_st lx links = Ok (tbl, moves)) in E. rewrite E. cbn [bind fst]. set (ne := fun kv : N * lexeme => match snd kv with [] => false | _ => true end).
  assert (Fm : forall l : lexemes, filter (fun l => match l with [] => false | _ => true end) (map snd l) = map snd (filter ne l)).
  { induction l as [|[k v] l IH]; simpl; auto. unfold ne at 1. cbn [snd]. destruct v; simpl; rewrite IH; auto. }
  assert (ND' : NoDup (map fst tbl)) by (pose proof (ji_keys _ _ _ J) as K; cbn [fst] in K; rewrite K; auto).
  assert (Tb : forall i l, In (i, l) tbl <-> nget i tbl = Some l) by (intros; split; [apply (In_dget N.eqb Neqb_eq); auto|apply (dget_In N.eqb Neqb_eq)]).
  exists own. eexists. exists (map fst (filter ne (sort_ids tbl))). split; [reflexivity|]. split; [|split; [|split]].
  - split; [apply (oi_links _ _ _ _ _ O)|]. intros a Ha. destruct (nget a moves) as [b|] eqn:G.
    + destruct (oi_moves _ _ _ _ _ O _ _ G) as [_ X]. contradiction.
    + apply (oi_none _ _ _ _ _ O a G).
  - assert (ND2 : NoDup (map fst (sort_ids tbl))) by (eapply Permutation_NoDup; [apply Permutation_map; symmetry; apply sort_ids_perm|auto]).
    pose proof (sort_ids_sorted tbl) as S. revert S ND2. generalize (sort_ids tbl) as l. clear. intros l S. induction S as [|[i v] l S IH F]; intros ND; [constructor|]. cbn [map fst] in ND. inversion ND; subst.
    assert (G : Forall (N.lt i) (map fst (filter ne l))).
    { apply Forall_forall. intros j Hj. apply in_map_iff in Hj as ([j' v'] & <- & Hj). apply filter_In in Hj as [Hj _]. rewrite Forall_forall in F. specialize (F _ Hj). cbn [fst] in *.
      assert (i <> j') by (intros ->; apply H1; apply in_map_iff; exists (j', v'); auto). lia. }
    cbn [filter]. destruct (ne (i, v)); cbn [map fst]; [constructor; auto|auto].
  - intros i. rewrite in_map_iff. split.
    + intros ([i' l] & <- & H). apply filter_In in H as [H Hn]. apply (Permutation_in _ (sort_ids_perm tbl)) in H. cbn [fst]. split; [pose proof (ji_keys _ _ _ J) as K; cbn [fst] in K; rewrite <- K; apply in_map_iff; exists (i', l); auto|].
      apply Tb in H. pose proof (oi_tbl _ _ _ _ _ O _ _ H) as T. destruct (N.eqb_spec (own i') i') as [Eo|No]; [|subst l; discriminate].
      split; auto. intros X. destruct T as [T _]. rewrite X in T. apply Permutation_sym, Permutation_nil in T. subst l. discriminate.
    + intros (H & Ho & Hg). pose proof (ji_keys _ _ _ J) as K. cbn [fst] in K. rewrite <- K in H. destruct (nget_In_ex _ _ H) as (l & G). exists (i, l). split; auto. apply filter_In. split.
      * apply (Permutation_in _ (Permutation_sym (sort_ids_perm tbl))). apply Tb; auto.
      * pose proof (oi_tbl _ _ _ _ _ O _ _ G) as T. rewrite Ho, N.eqb_refl in T. destruct T as [T _]. unfold ne. cbn [snd]. destruct l; auto. apply Permutation_nil in T. contradiction.
  - rewrite Fm. assert (Q : forall kv, In kv (filter ne (sort_ids tbl)) -> In kv tbl /\ ne kv = true).
    { intros kv H. apply filter_In in H as [H1 H2]. split; auto. apply (Permutation_in _ (sort_ids_perm tbl)); auto. }
    revert Q. generalize (filter ne (sort_ids tbl)) as l. induction l as [|[i v] l IH]; intros Q; cbn [map fst snd]; constructor; [|apply IH; intros; apply Q; right; auto].
    destruct (Q (i, v)) as [Q1 Q2]; [left; auto|]. apply Tb in Q1. pose proof (oi_tbl _ _ _ _ _ O _ _ Q1) as T. destruct (N.eqb_spec (own i) i); [exact T|]. subst v. discriminate.
Qed.
