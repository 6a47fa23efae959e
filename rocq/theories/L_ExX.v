(** * Concrete XML documents *)
From Coq Require Import String List NArith ZArith Bool Lia.
From Verif Require Import Py Uni Tagset Compile Json XmlParse Spec Spec7 Ex L_Base L_Xml L_Xml2.
Import ListNotations.
Local Open Scope nat_scope.
Local Open Scope list_scope.

Definition el (t : string) (a : list (string * string)) (k : list xelem) : xelem := Elem (u t) (map (fun p => (u (fst p), u (snd p))) a) None k.
Definition txt (t s : string) : xelem := Elem (u t) [] (Some (u s)) [].
Definition gs_el (l : list string) : list xelem := map (fun v => el "g" [("v", v)]%string []) l.
Local Open Scope string_scope.
Definition x_grammeme (n p a : string) : xelem :=
  el "grammeme" (match p with EmptyString => [] | _ => [("parent", p)] end) [txt "name" n; txt "alias" a; txt "description" n].
Definition x_form (t : string) (g : list string) : xelem := el "f" [("t", t)] (gs_el g).
Definition x_lemma (id t : string) (g : list string) (fs : list xelem) : xelem := el "lemma" [("id", id); ("rev", "1")] (el "l" [("t", t)] (gs_el g) :: fs).
Definition x_link (id a b t : string) : xelem := el "link" [("id", id); ("from", a); ("to", b); ("type", t)] [].
Definition demo_doc : xelem :=
  el "dictionary" [("version", "0.92"); ("revision", "402146")]
    [el "grammemes" [] (map (fun g => x_grammeme (fst (fst g)) (snd (fst g)) (snd g))
       [("POST", "", "ЧР"); ("NOUN", "POST", "СУЩ"); ("anim", "", "од"); ("masc", "", "мр"); ("sing", "", "ед"); ("nomn", "", "им"); ("gent", "", "рд"); ("CONJ", "POST", "СОЮЗ"); ("NUMR", "POST", "ЧИСЛ"); ("GNdr", "", "хр"); ("femn", "GNdr", "жр")]);
     el "lemmata" []
       [x_lemma "1" "кот" ["NOUN"; "anim"; "masc"] [x_form "Кот" ["sing"; "nomn"]; x_form "кота" ["sing"; "gent"]];
        x_lemma "2" "и" ["CONJ"] [x_form "и" []];
        x_lemma "3" "ы" [] [x_form "ы" ["CONJ"]; x_form "ыы" []];
        el "lemma" [("id", "4")] []];
     el "links" [] [x_link "1" "1" "4" "3"]].
Local Close Scope string_scope.

Definition flatb (doc : xelem) : bool :=
  forallb (fun e => negb (interesting e) || forallb (fun k => forallb (fun d => negb (interesting d)) (preorder k)) (x_kids e)) (preorder doc).
Lemma flatb_ok : forall doc, flatb doc = true -> flat doc.
Proof.
  intros doc H e Ie I k d Ik Id. unfold flatb in H. rewrite forallb_forall in H. specialize (H e Ie). rewrite I in H. cbn [negb orb] in H.
  rewrite forallb_forall in H. specialize (H k Ik). rewrite forallb_forall in H. specialize (H d Id). destruct (interesting d); [discriminate H|auto].
Qed.
(** a <link> inside a <lemma> *)
Definition nested_doc : xelem :=
  el "dictionary" [] [el "lemma" [("id", "1")]%string [el "l" [] (gs_el ["CONJ"]%string); x_form "и" []; x_link "1" "1" "1" "3"]].
