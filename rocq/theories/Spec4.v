(** * Specification vocabulary for files (C41-C44) *)
From Coq Require Import String List NArith ZArith Bool.
From Verif Require Import Py Json.
Import ListNotations.
Local Open Scope nat_scope.
Local Open Scope list_scope.

Definition digits (s : str) : Prop := s <> [] /\ forall c, In c s -> (48 <= c <= 57)%N.
(** texts of finite floats (float.__repr__): a decimal literal with a fraction or an exponent *)
Definition real_text (t : str) : Prop :=
  exists neg ip frac ex, t = neg ++ ip ++ frac ++ ex /\ (neg = [] \/ neg = u "-") /\
    digits ip /\ (ip = u "0" \/ hd 0%N ip <> 48%N) /\
    (frac = [] \/ exists d, digits d /\ frac = u "." ++ d) /\
    (ex = [] \/ exists e sign d, (e = u "e" \/ e = u "E") /\ (sign = [] \/ sign = u "+" \/ sign = u "-") /\ digits d /\ ex = e ++ sign ++ d) /\
    frac ++ ex <> [].
Definition special_text (t : str) : Prop := t = u "NaN" \/ t = u "Infinity" \/ t = u "-Infinity".
(** JSON-serialisable Python values: dict keys are distinct, floats print as above *)
Fixpoint jok (v : jval) : Prop :=
  match v with
  | JReal t => real_text t \/ special_text t
  | JArr l => fold_right (fun x P => jok x /\ P) True l
  | JObj l => NoDup (map fst l) /\ fold_right (fun kv P => jok (snd kv) /\ P) True l
  | _ => True
  end.
(** the value with its finite reals turned into strings *)
Definition specialb (t : str) : bool := str_eqb t (u "NaN") || str_eqb t (u "Infinity") || str_eqb t (u "-Infinity").
Fixpoint stringified (v : jval) : jval :=
  match v with
  | JReal t => if specialb t then JReal t else JStr t
  | JArr l => JArr (map stringified l)
  | JObj l => JObj (map (fun kv => (fst kv, stringified (snd kv))) l)
  | _ => v
  end.
Fixpoint no_reals (v : jval) : Prop :=
  match v with
  | JReal _ => False
  | JArr l => fold_right (fun x P => no_reals x /\ P) True l
  | JObj l => fold_right (fun kv P => no_reals (snd kv) /\ P) True l
  | _ => True
  end.
Definition composite (v : jval) : Prop := (exists l, v = JArr l) \/ (exists l, v = JObj l).
(** texts that can be encoded: Unicode scalar values *)
Definition scalar (c : char) : Prop := (c < 55296 \/ 57343 < c < 1114112)%N.
Definition text (s : str) : Prop := forall c, In c s -> scalar c.
Fixpoint jtext (v : jval) : Prop :=
  match v with
  | JReal t => text t
  | JStr s => text s
  | JArr l => fold_right (fun x P => jtext x /\ P) True l
  | JObj l => fold_right (fun kv P => (text (fst kv) /\ jtext (snd kv)) /\ P) True l
  | _ => True
  end.

(** ** Numbers of sixteen bits (C41) *)
Definition fit (n : nat) : Prop := (N.of_nat n <= 65535)%N.
Definition paras_fit (ps : list (list nat)) : Prop := fit (length ps) /\ forall p, In p ps -> fit (length p).
Definition entries_fit (ps : list (list nat)) : Prop := forall p n, In p ps -> In n p -> fit n.
(** swapping the bytes of a 16-bit number *)
Definition swap16 (n : nat) : nat := N.to_nat (256 * (N.of_nat n mod 256) + N.of_nat n / 256).

(** ** Meta data (C43) *)
(** values that can be given to update_meta *)
Definition extra_ok (extra : list (str * jval)) : Prop := NoDup (map fst extra) /\ forall k v, In (k, v) extra -> jok v.
(** the table read back after an update: old keys keep their places, new ones follow in the given order; given values are set *)
Definition updated (m extra m' : list (str * jval)) : Prop :=
  map fst m' = map fst m ++ filter (fun k => negb (smem k (map fst m))) (map fst extra) /\
  forall k, sget k m' = match sget k extra with Some v => Some (stringified v) | None => sget k m end.

(** ** Files cut short (C42) *)
(** file [f] of the folder is missing or contains only the beginning of [b] *)
Definition cut_file (d : list (str * list N)) (f : str) (b : list N) : Prop := sget f d = None \/ exists k, sget f d = Some (firstn k b).
