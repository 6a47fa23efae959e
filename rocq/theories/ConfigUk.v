(** Literal data of pymorphy2/lang/uk (generated by tools/gen_config.py). *)
From Coq Require Import String List NArith ZArith Bool.
From Verif Require Import Py Dawg Analyzer.
Import ListNotations.
Local Open Scope list_scope.

(** lang/uk/config.py:10-10 PARADIGM_PREFIXES *)
Definition UK_PARADIGM_PREFIXES : list str :=
  map u [""; "най"; "якнай"; "щонай"]%string.

(** lang/uk/config.py:13-13 INITIAL_LETTERS *)
Definition UK_INITIAL_LETTERS : list str := letters_of "АБВГҐДЕЄЖЗІЇЙКЛМНОПРСТУФХЦЧШЩЮЯ".

(** lang/uk/config.py:16-16 PARTICLES_AFTER_HYPHEN *)
Definition UK_PARTICLES : list str :=
  map u ["-но"; "-таки"; "-бо"; "-от"]%string.

(** lang/uk/config.py:19-19 CHAR_SUBSTITUTES *)
Definition UK_SUBSTITUTES : replaces := [(chr "г", chr "ґ")].

(** lang/uk/_prefixes.py:7-340 _DASH_PREFIXES, non-empty stripped lines *)
Definition UK_DASH_PREFIXES : list str :=
  map u ["2D"; "2G"; "3D"; "3G"; "4D"; "4G"; "CAD"; "call";
  "CD"; "CDMA"; "CFI"; "CNG"; "DDoS"; "DNS"; "DoS"; "DSL";
  "dvd"; "e"; "fashion"; "FM"; "ftp"; "G"; "GMP"; "GPRS";
  "GPS"; "grid"; "GSM"; "HD"; "HR"; "HSDPA"; "ID"; "IMEA";
  "IP"; "IT"; "led"; "LCD"; "LNG"; "live"; "MLM"; "MTV";
  "mp3"; "n"; "OSB"; "pdf"; "PhD"; "PIN"; "POS"; "pr";
  "QR"; "R'n'B"; "R'N'B"; "R&B"; "R&D"; "s"; "sim"; "SOS";
  "SPA"; "sms"; "TV"; "UMTS"; "USB"; "VIN"; "vip"; "VoIP";
  "WAP"; "web"; "X"; "Y"; "аль"; "альфа"; "анти"; "АРВ";
  "арт"; "аудіо"; "байк"; "байкер"; "бард"; "бас"; "бета"; "бізнес";
  "бліц"; "блог"; "блок"; "блюз"; "бомж"; "бонус"; "ботокс"; "боулінг";
  "брейк"; "бренд"; "бундес"; "вакуум"; "веб"; "велнес"; "ВІЛ"; "віп";
  "віце"; "гала"; "гамма"; "гей"; "гейм"; "генерал"; "гештальт"; "ГМ";
  "ГМО"; "гольф"; "гоп"; "горе"; "готик"; "гранд"; "ґранд"; "графіті";
  "грид"; "грумінг"; "дайв"; "дайвінг"; "данс"; "даун"; "дельта"; "денс";
  "дзен"; "джаз"; "диво"; "дизайн"; "дизель"; "долбі"; "допінг"; "ДОТС";
  "драг"; "дрес"; "дубль"; "дурман"; "е"; "екіпаж"; "економ"; "експерт";
  "екс"; "експрес"; "екстра"; "екстрим"; "екшн"; "еліт"; "ерзац"; "ескорт";
  "євро"; "жлоб"; "зіц"; "зомбі"; "ЗПГ"; "івент"; "імідж"; "інвест";
  "інді"; "інсентив"; "інтернет"; "інтим"; "інформ"; "історико"; "ІТ"; "ІЧ";
  "йога"; "камер"; "кантрі"; "караоке"; "кастинг"; "квазі"; "кемпінг"; "кваліфайн";
  "кібер"; "кітч"; "козак"; "коктейль"; "колл"; "комік"; "комікс"; "майстер";
  "конгрес"; "консалтинг"; "контент"; "контр"; "конференц"; "концепт"; "кредит"; "кремль";
  "крос"; "КСВ"; "лайт"; "лаунж"; "лейб"; "лесбі"; "лгбт"; "лже";
  "ліберал"; "лор"; "люкс"; "люмпен"; "максі"; "маркетинг"; "мас"; "мега";
  "медіа"; "менеджмент"; "метал"; "міді"; "мікс"; "мілітарі"; "міні"; "МММ";
  "модерн"; "мульт"; "мультимедіа"; "напів"; "націонал"; "нація"; "НВЧ"; "нокаут";
  "ностальжі"; "нью"; "обер"; "онлайн"; "офіс"; "ОУН"; "панк"; "ПВХ";
  "ПЕТ"; "піар"; "пін"; "плейбек"; "ПЛР"; "покер"; "поп"; "пост";
  "поттер"; "постпродакшн"; "прайм"; "прайс"; "прем'єр"; "преміум"; "прес"; "приват";
  "продакшн"; "профі"; "псевдо"; "реаліті"; "реггі"; "резус"; "рейв"; "рентген";
  "рейтинг"; "реп"; "ретро"; "референс"; "референц"; "ритм"; "РК"; "рок";
  "ротарі"; "РХБ"; "салон"; "саунд"; "своп"; "секонд"; "секс"; "сексі";
  "сервіс"; "скейт"; "скінхед"; "скретч"; "слем"; "смарт"; "смс"; "СНІД";
  "соціал"; "СОС"; "соул"; "софт"; "спа"; "спам"; "спаринг"; "СПГ";
  "спорт"; "спрей"; "стартап"; "стоп"; "стрес"; "стрип"; "стриптиз"; "супер";
  "тайм"; "талант"; "тандем"; "танц"; "тату"; "ТБ"; "телеком"; "тест";
  "топ"; "топлес"; "торент"; "тренд"; "тренінг"; "треш"; "триб'ют"; "трофі";
  "тур"; "тюнинг"; "УЗД"; "ура"; "УФ"; "фан"; "фест"; "фешн";
  "фітнес"; "флеш"; "ФМ"; "фолк"; "фольк"; "хеш"; "цар"; "чудо";
  "хайтек"; "хард"; "хіпі"; "хостел"; "чіп"; "шейпінг"; "шенген"; "шеф";
  "шопінг"; "шоу"; "штаб"; "юніор"]%string.

(** lang/uk/_prefixes.py:353-495: the appended list *)
Definition UK_EXTRA_PREFIXES : list str :=
  map u ["авіа"; "авто"; "аква"; "анти"; "анти-"; "антропо"; "архі"; "арт";
  "арт-"; "астро"; "аудіо"; "аеро"; "без"; "біо"; "вело"; "взаємо";
  "поза"; "внутрішньо"; "відео"; "віце-"; "вперед"; "гекто"; "гелио"; "гео";
  "гетеро"; "гіга"; "гігро"; "гіпер"; "гіпо"; "гомо"; "дво"; "де";
  "дез"; "деци"; "дис"; "до"; "євро"; "за"; "зоо"; "інтер";
  "інфра"; "квазі"; "квазі-"; "кіло"; "кіно"; "контр"; "контр-"; "космо";
  "космо-"; "крипто"; "лейб-"; "лже"; "лже-"; "макро"; "мало"; "між";
  "медіа"; "медіа-"; "мега"; "мета"; "мета-"; "метео"; "метро"; "мікро";
  "мілі"; "міні"; "міні-"; "моно"; "мото"; "багато"; "нано"; "нарко";
  "не"; "нейро"; "нео"; "низько"; "обер-"; "загально"; "навколо"; "орто";
  "палео"; "пан"; "пара"; "пента"; "пере"; "піро"; "полі"; "полу";
  "після"; "пост"; "пост-"; "порно"; "пра"; "пра-"; "перед"; "прес-";
  "проти"; "проти-"; "прото"; "псевдо"; "псевдо-"; "радіо"; "разно"; "ре";
  "ретро"; "ретро-"; "само"; "санти"; "над"; "над-"; "спец"; "суб";
  "супер"; "супер-"; "теле"; "тетра"; "топ-"; "транс"; "транс-"; "ультра";
  "унтер-"; "штаб-"; "екзо"; "еко"; "ендо"; "економ-"; "екс"; "екс-";
  "екстра"; "екстра-"; "електро"; "енерго"; "етно"]%string.

(** lang/uk/_prefixes.py:343-347 and the filtered append *)
Definition UK_KNOWN1 : list str := map (fun l => l ++ u "-") UK_DASH_PREFIXES.
Definition UK_KNOWN_PREFIXES : list str :=
  UK_KNOWN1 ++ filter (fun p => negb (smem p UK_KNOWN1)) UK_EXTRA_PREFIXES.

(** lang/uk/config.py DEFAULT_UNITS *)
Definition UK_DEFAULT_UNITS : list uitem :=
  uk_units UK_INITIAL_LETTERS UK_PARTICLES UK_KNOWN_PREFIXES.
