(** * A small concrete dictionary and analyzer, used only to show that the
    hypotheses of the theorems are satisfiable by non-trivial states.
    The dictionary is produced by the modelled compiler from source lexemes and
    the analyzer by the modelled constructor with the shipped Russian units. *)
From Coq Require Import String List NArith ZArith Bool QArith.
From Verif Require Import Py Uni Tagset Dawg Utils Shapes Dict Units Analyzer ConfigRu ConfigUk Compile.
Import ListNotations.
Local Open Scope nat_scope.
Local Open Scope list_scope.

Definition get_ok {A} (d : A) (r : res A) : A := match r with Ok a => a | Err _ => d end.

Definition gr (n p a : string) : grow :=
  MkGrow (u n) (match p with EmptyString => None | _ => Some (u p) end) (u a) (u n).
Definition demo_rows : list grow :=
  [gr "POST" "" "ЧР"; gr "NOUN" "POST" "СУЩ"; gr "ADJF" "POST" "ПРИЛ"; gr "COMP" "POST" "КОМП";
   gr "VERB" "POST" "ГЛ"; gr "ADVB" "POST" "Н"; gr "PREP" "POST" "ПР"; gr "NUMR" "POST" "ЧИСЛ";
   gr "ANim" "" "Од-неод"; gr "anim" "ANim" "од"; gr "inan" "ANim" "неод";
   gr "GNdr" "" "хр"; gr "masc" "GNdr" "мр"; gr "femn" "GNdr" "жр"; gr "neut" "GNdr" "ср";
   gr "NMbr" "" "Число"; gr "sing" "NMbr" "ед"; gr "plur" "NMbr" "мн"; gr "Sgtm" "" "sg"; gr "Fixd" "" "0";
   gr "Abbr" "" "аббр"; gr "CAse" "" "Падеж";
   gr "nomn" "CAse" "им"; gr "gent" "CAse" "рд"; gr "datv" "CAse" "дт"; gr "accs" "CAse" "вн";
   gr "ablt" "CAse" "тв"; gr "loct" "CAse" "пр"; gr "gen1" "gent" "рд1"; gr "gen2" "gent" "рд2";
   gr "loc1" "loct" "пр1"; gr "loc2" "loct" "пр2";
   gr "Qual" "" "кач"; gr "Cmp2" "" "сравн2"].

Definition form (w t : string) : str * str := (u w, u t).
Definition demo_lexemes : lexemes :=
  [(1%N, [form "кот" "NOUN,anim,masc sing,nomn"; form "кота" "NOUN,anim,masc sing,gent";
          form "коту" "NOUN,anim,masc sing,datv"; form "кота" "NOUN,anim,masc sing,accs";
          form "коты" "NOUN,anim,masc plur,nomn"; form "котов" "NOUN,anim,masc plur,gent";
          form "котам" "NOUN,anim,masc plur,datv"]);
   (2%N, [form "красный" "ADJF,Qual masc,sing,nomn"; form "красного" "ADJF,Qual masc,sing,gent";
          form "красному" "ADJF,Qual masc,sing,datv"; form "красные" "ADJF,Qual plur,nomn"]);
   (3%N, [form "краснее" "COMP,Qual"; form "покраснее" "COMP,Qual Cmp2"]);
   (4%N, [form "на" "PREP"]);
   (5%N, [form "ёлка" "NOUN,inan,femn sing,nomn"; form "ёлки" "NOUN,inan,femn sing,gent";
          form "ёлки" "NOUN,inan,femn plur,nomn"; form "ёлок" "NOUN,inan,femn plur,gent"]);
   (6%N, [form "крот" "NOUN,anim,masc sing,nomn"; form "крота" "NOUN,anim,masc sing,gent";
          form "кроту" "NOUN,anim,masc sing,datv"; form "крота" "NOUN,anim,masc sing,accs";
          form "кроты" "NOUN,anim,masc plur,nomn"; form "кротов" "NOUN,anim,masc plur,gent";
          form "кротам" "NOUN,anim,masc plur,datv"])].
Definition demo_links : list link := [(2%N, 3%N, u "1")].
Definition demo_options : coptions := MkOpt 1 1 3 [[]; u "по"; u "наи"].
Definition demo_compiled : compiled :=
  get_ok (MkCompiled [] [] [] [] [] demo_options) (compile_parsed_dict demo_options demo_lexemes demo_links).

Definition demo_dict (gt : list tag) : dict :=
  MkDict (x_paradigms demo_compiled) gt (o_prefixes demo_options) (x_suffixes demo_compiled)
         (x_words demo_compiled) (x_pred demo_compiled) (o_max_suffix demo_options).
Definition e_yo : replaces := [(chr "е", chr "ё")].

Definition null_dict : dict := MkDict [] [] [] [] [] [] 0.
Definition null_morph : morph := MkMorph uni_cyr false null_dict [] None [] tc_initial.
Notation demo_construct prob items :=
  (construct uni_cyr false tc_initial demo_rows (x_gramtab demo_compiled) demo_dict prob e_yo items).
Definition demo : morph := snd (get_ok (tc_initial, null_morph) (demo_construct None RU_DEFAULT_UNITS)).
Definition demo_cpd : cpd := [(prob_key (u "кота") (u "NOUN,anim,masc sing,gent"), 700000%N);
                              (prob_key (u "кота") (u "NOUN,anim,masc sing,accs"), 300000%N)].
Definition demo_p : morph := snd (get_ok (tc_initial, null_morph) (demo_construct (Some demo_cpd) RU_DEFAULT_UNITS)).
