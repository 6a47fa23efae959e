(** Literal data of pymorphy2/lang/ru (generated by tools/gen_config.py). *)
From Coq Require Import String List NArith ZArith Bool.
From Verif Require Import Py Dawg Analyzer.
Import ListNotations.
Local Open Scope list_scope.

(** lang/ru/config.py:9-9 PARADIGM_PREFIXES *)
Definition RU_PARADIGM_PREFIXES : list str :=
  map u [""; "по"; "наи"]%string.

(** lang/ru/config.py:12-12 INITIAL_LETTERS *)
Definition RU_INITIAL_LETTERS : list str := letters_of "АБВГДЕЁЖЗИЙКЛМНОПРСТУФХЦЧШЩЭЮЯ".

(** lang/ru/config.py:15-15 PARTICLES_AFTER_HYPHEN *)
Definition RU_PARTICLES : list str :=
  map u ["-то"; "-ка"; "-таки"; "-де"; "-тко"; "-тка"; "-с"; "-ста"]%string.

(** lang/ru/config.py:18-18 CHAR_SUBSTITUTES *)
Definition RU_SUBSTITUTES : replaces := [(chr "е", chr "ё")].

(** lang/ru/config.py:21-166 KNOWN_PREFIXES *)
Definition RU_KNOWN_PREFIXES : list str :=
  map u ["авиа"; "авто"; "аква"; "анти"; "анти-"; "антропо"; "архи"; "арт";
  "арт-"; "астро"; "аудио"; "аэро"; "без"; "бес"; "био"; "вело";
  "взаимо"; "вне"; "внутри"; "видео"; "вице-"; "вперед"; "впереди"; "гекто";
  "гелио"; "гео"; "гетеро"; "гига"; "гигро"; "гипер"; "гипо"; "гомо";
  "дву"; "двух"; "де"; "дез"; "дека"; "деци"; "дис"; "до";
  "евро"; "за"; "зоо"; "интер"; "инфра"; "квази"; "квази-"; "кило";
  "кино"; "контр"; "контр-"; "космо"; "космо-"; "крипто"; "лейб-"; "лже";
  "лже-"; "макро"; "макси"; "макси-"; "мало"; "меж"; "медиа"; "медиа-";
  "мега"; "мета"; "мета-"; "метео"; "метро"; "микро"; "милли"; "мини";
  "мини-"; "моно"; "мото"; "много"; "мульти"; "нано"; "нарко"; "не";
  "небез"; "недо"; "нейро"; "нео"; "низко"; "обер-"; "обще"; "одно";
  "около"; "орто"; "палео"; "пан"; "пара"; "пента"; "пере"; "пиро";
  "поли"; "полу"; "после"; "пост"; "пост-"; "порно"; "пра"; "пра-";
  "пред"; "пресс-"; "противо"; "противо-"; "прото"; "псевдо"; "псевдо-"; "радио";
  "разно"; "ре"; "ретро"; "ретро-"; "само"; "санти"; "сверх"; "сверх-";
  "спец"; "суб"; "супер"; "супер-"; "супра"; "теле"; "тетра"; "топ-";
  "транс"; "транс-"; "ультра"; "унтер-"; "штаб-"; "экзо"; "эко"; "эндо";
  "эконом-"; "экс"; "экс-"; "экстра"; "экстра-"; "электро"; "энерго"; "этно"]%string.

(** lang/ru/config.py DEFAULT_UNITS *)
Definition RU_DEFAULT_UNITS : list uitem :=
  ru_units RU_INITIAL_LETTERS RU_PARTICLES RU_KNOWN_PREFIXES.
