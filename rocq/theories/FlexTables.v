(** The tables and actions of the two generated scanners. *)
From Coq Require Import ZArith NArith Ascii String Bool List.
From Verif Require Import Base Lexer Flex.
Import ListNotations.
Local Open Scope Z_scope.

(** ** Expressions (lexer.c) *)
(** lexer.c 573-594 [yy_accept]. *)
Definition x_accept : list Z :=
  [0; 0; 0; 41; 39; 1; 1; 39; 39; 39; 16; 17; 18; 9; 37; 14; 10; 12; 36; 36; 36; 36; 36; 36; 36; 36; 36; 36;
    36; 36; 39; 0; 34; 0; 24; 0; 35; 0; 38; 37; 15; 11; 13; 36; 36; 36; 36; 36; 36; 36; 20; 36; 36; 36; 27; 36;
    36; 36; 36; 26; 38; 36; 25; 36; 36; 36; 36; 0; 36; 28; 36; 36; 36; 36; 36; 0; 36; 36; 36; 36; 0; 0; 36; 0;
    0; 36; 36; 32; 36; 0; 36; 36; 33; 36; 0; 0; 0; 0; 0; 0; 36; 36; 36; 23; 36; 36; 36; 0; 0; 0; 0; 19; 21; 36;
    36; 36; 36; 36; 36; 0; 0; 30; 22; 36; 36; 36; 6; 36; 36; 31; 0; 36; 36; 36; 8; 36; 0; 36; 36; 36; 36; 36; 0;
    36; 36; 36; 36; 36; 29; 36; 36; 7; 36; 36; 36; 36; 36; 36; 36; 36; 36; 36; 4; 3; 36; 36; 36; 36; 36; 5; 36;
    36; 36; 2; 0].
(** lexer.c 596-626 [yy_ec]. *)
Definition x_ec : list Z :=
  [0; 1; 1; 1; 1; 1; 1; 1; 1; 2; 3; 1; 1; 1; 1; 1; 1; 1; 1; 1; 1; 1; 1; 1; 1; 1; 1; 1; 1; 1; 1; 1; 4; 1; 5; 1;
    1; 1; 6; 7; 8; 9; 1; 1; 10; 11; 12; 1; 13; 13; 13; 13; 13; 13; 13; 13; 13; 13; 1; 1; 14; 15; 16; 1; 1; 17;
    17; 17; 17; 17; 17; 17; 17; 17; 17; 17; 17; 17; 17; 17; 17; 17; 17; 17; 17; 17; 17; 17; 17; 17; 17; 1; 18;
    1; 1; 19; 1; 20; 21; 22; 23; 24; 25; 26; 27; 28; 17; 17; 29; 30; 31; 32; 33; 34; 35; 36; 37; 38; 17; 39; 17;
    40; 17; 1; 41; 1; 1; 1; 1; 1; 1; 1; 1; 1; 1; 1; 1; 1; 1; 1; 1; 1; 1; 1; 1; 1; 1; 1; 1; 1; 1; 1; 1; 1; 1; 1;
    1; 1; 1; 1; 1; 1; 1; 1; 1; 1; 1; 1; 1; 1; 1; 1; 1; 1; 1; 1; 1; 1; 1; 1; 1; 1; 1; 1; 1; 1; 1; 1; 1; 1; 1; 1;
    1; 1; 1; 1; 1; 1; 1; 1; 1; 1; 1; 1; 1; 1; 1; 1; 1; 1; 1; 1; 1; 1; 1; 1; 1; 1; 1; 1; 1; 1; 1; 1; 1; 1; 1; 1;
    1; 1; 1; 1; 1; 1; 1; 1; 1; 1; 1; 1; 1; 1; 1; 1; 1; 1; 1; 1; 1; 1; 1; 1; 1; 1; 1; 1].
(** lexer.c 628-635 [yy_meta]. *)
Definition x_meta : list Z :=
  [0; 1; 1; 1; 1; 1; 1; 1; 1; 1; 1; 2; 1; 2; 1; 1; 1; 2; 1; 2; 2; 2; 2; 2; 2; 2; 2; 2; 2; 2; 2; 2; 2; 2; 2; 2;
    2; 2; 2; 2; 2; 1].
(** lexer.c 637-658 [yy_base]. *)
Definition x_base : list Z :=
  [0; 0; 0; 196; 197; 197; 197; 37; 189; 36; 197; 197; 197; 197; 32; 31; 197; 179; 0; 19; 161; 161; 171; 166;
    20; 157; 18; 28; 153; 159; 145; 52; 197; 182; 197; 51; 197; 181; 170; 47; 197; 197; 197; 0; 153; 158; 149;
    156; 149; 145; 0; 172; 30; 151; 0; 148; 153; 134; 134; 197; 157; 165; 0; 131; 131; 130; 146; 40; 140; 159;
    158; 131; 125; 135; 131; 125; 136; 136; 130; 114; 122; 30; 147; 122; 117; 124; 110; 0; 118; 120; 116; 104;
    0; 114; 108; 103; 110; 106; 106; 111; 104; 98; 102; 197; 101; 103; 93; 92; 124; 98; 101; 197; 197; 88; 105;
    104; 86; 84; 93; 79; 87; 197; 197; 98; 77; 90; 0; 87; 85; 197; 74; 42; 83; 75; 0; 78; 79; 83; 78; 68; 80;
    84; 73; 76; 63; 72; 64; 62; 197; 64; 68; 0; 56; 73; 57; 63; 66; 66; 64; 56; 55; 52; 0; 0; 57; 40; 37; 40;
    56; 0; 52; 53; 39; 0; 197; 81; 83; 64].
(** lexer.c 660-681 [yy_def]. *)
Definition x_def : list Z :=
  [0; 174; 1; 174; 174; 174; 174; 175; 174; 176; 174; 174; 174; 174; 174; 174; 174; 174; 177; 177; 177; 177;
    177; 177; 177; 177; 177; 177; 177; 177; 174; 175; 174; 175; 174; 176; 174; 176; 174; 174; 174; 174; 174;
    177; 177; 177; 177; 177; 177; 177; 177; 177; 177; 177; 177; 177; 177; 177; 177; 174; 174; 177; 177; 177;
    177; 177; 177; 174; 177; 177; 177; 177; 177; 177; 177; 174; 177; 177; 177; 177; 174; 174; 177; 174; 174;
    177; 177; 177; 177; 174; 177; 177; 177; 177; 174; 174; 174; 174; 174; 174; 177; 177; 177; 174; 177; 177;
    177; 174; 174; 174; 174; 174; 174; 177; 177; 177; 177; 177; 177; 174; 174; 174; 174; 177; 177; 177; 177;
    177; 177; 174; 174; 177; 177; 177; 177; 177; 174; 177; 177; 177; 177; 177; 174; 177; 177; 177; 177; 177;
    174; 177; 177; 177; 177; 177; 177; 177; 177; 177; 177; 177; 177; 177; 177; 177; 177; 177; 177; 177; 177;
    177; 177; 177; 177; 177; 0; 174; 174; 174].
(** lexer.c 683-711 [yy_nxt]. *)
Definition x_nxt : list Z :=
  [0; 4; 5; 6; 5; 7; 8; 9; 10; 11; 12; 13; 4; 14; 15; 16; 17; 18; 4; 18; 19; 18; 20; 18; 21; 22; 23; 18; 24;
    18; 18; 25; 26; 18; 18; 18; 27; 28; 18; 29; 18; 30; 32; 36; 38; 39; 40; 41; 44; 53; 45; 50; 55; 54; 37; 33;
    51; 32; 36; 38; 39; 68; 95; 137; 80; 56; 43; 69; 96; 37; 33; 81; 173; 172; 171; 170; 169; 168; 167; 166;
    165; 138; 31; 31; 35; 35; 164; 163; 162; 161; 160; 159; 158; 157; 156; 155; 154; 153; 152; 151; 150; 149;
    148; 147; 146; 145; 144; 143; 142; 141; 140; 139; 136; 135; 134; 133; 132; 131; 130; 129; 128; 127; 126;
    125; 124; 123; 122; 121; 120; 119; 118; 117; 116; 115; 114; 113; 112; 111; 110; 109; 108; 107; 106; 105;
    104; 103; 102; 101; 100; 99; 98; 97; 94; 93; 92; 91; 90; 89; 88; 87; 86; 85; 84; 83; 82; 79; 78; 77; 76; 75;
    60; 74; 73; 72; 71; 70; 67; 66; 65; 64; 63; 62; 61; 60; 174; 174; 59; 58; 57; 52; 49; 48; 47; 46; 42; 34;
    174; 3; 174; 174; 174; 174; 174; 174; 174; 174; 174; 174; 174; 174; 174; 174; 174; 174; 174; 174; 174; 174;
    174; 174; 174; 174; 174; 174; 174; 174; 174; 174; 174; 174; 174; 174; 174; 174; 174; 174; 174; 174; 174].
(** lexer.c 713-741 [yy_chk]. *)
Definition x_chk : list Z :=
  [0; 1; 1; 1; 1; 1; 1; 1; 1; 1; 1; 1; 1; 1; 1; 1; 1; 1; 1; 1; 1; 1; 1; 1; 1; 1; 1; 1; 1; 1; 1; 1; 1; 1; 1; 1;
    1; 1; 1; 1; 1; 1; 7; 9; 14; 14; 15; 15; 19; 26; 19; 24; 27; 26; 9; 7; 24; 31; 35; 39; 39; 52; 81; 131; 67;
    27; 177; 52; 81; 35; 31; 67; 172; 171; 170; 168; 167; 166; 165; 164; 161; 131; 175; 175; 176; 176; 160; 159;
    158; 157; 156; 155; 154; 153; 152; 150; 149; 147; 146; 145; 144; 143; 142; 141; 140; 139; 138; 137; 136;
    135; 133; 132; 130; 128; 127; 125; 124; 123; 120; 119; 118; 117; 116; 115; 114; 113; 110; 109; 108; 107;
    106; 105; 104; 102; 101; 100; 99; 98; 97; 96; 95; 94; 93; 91; 90; 89; 88; 86; 85; 84; 83; 82; 80; 79; 78;
    77; 76; 75; 74; 73; 72; 71; 70; 69; 68; 66; 65; 64; 63; 61; 60; 58; 57; 56; 55; 53; 51; 49; 48; 47; 46; 45;
    44; 38; 37; 33; 30; 29; 28; 25; 23; 22; 21; 20; 17; 8; 3; 174; 174; 174; 174; 174; 174; 174; 174; 174; 174;
    174; 174; 174; 174; 174; 174; 174; 174; 174; 174; 174; 174; 174; 174; 174; 174; 174; 174; 174; 174; 174;
    174; 174; 174; 174; 174; 174; 174; 174; 174; 174; 174].
(** lexer.c 565, 1081, 1087. *)
Definition x_tables : tables := mkTables x_accept x_ec x_meta x_base x_def x_nxt x_chk 197 175 41.
(** lexer.c 1113-1313: the actions 1 to 40; the last one is the default rule, which prints the character. *)
Definition x_actions : list (act token) :=
  [ ASkip;
    ATok (fun _ => KFreqCap); ATok (fun _ => KSegWithin); ATok (fun _ => KSegBefore); ATok (fun _ => KGeo);
    ATok (fun _ => KContains); ATok (fun _ => KStartsWith); ATok (fun _ => KEndsWith);
    ATok (fun _ => KMinus); ATok (fun _ => KEq); ATok (fun _ => KNe); ATok (fun _ => KGt); ATok (fun _ => KGe);
    ATok (fun _ => KLt); ATok (fun _ => KLe); ATok (fun _ => KLParen); ATok (fun _ => KRParen); ATok (fun _ => KComma);
    ATok (fun _ => KNotIn); ATok (fun _ => KIn); ATok (fun _ => KOneOf); ATok (fun _ => KNoneOf); ATok (fun _ => KAllOf);
    ATok (fun _ => KAnd); ATok (fun _ => KAnd); ATok (fun _ => KOr); ATok (fun _ => KOr); ATok (fun _ => KNot);
    ATok (fun _ => KIsNotNull); ATok (fun _ => KIsNull); ATok (fun _ => KIsEmpty); ATok (fun _ => KTrue); ATok (fun _ => KFalse);
    ATok (fun s => KStr (unquote s)); ATok (fun s => KStr (unquote s)); ATok KIdent;
    ATok (fun s => KInt (strtoll s)); ATok (fun s => KFlt (atof s)); AStop; ASkip ].
(** The tokens yylex of lexer.c returns for a text. *)
Definition x_lex (s : string) : result (list token) := yylex_all x_tables x_actions (S (String.length s)) s.

(** ** Events (event_lexer.c) *)
(** event_lexer.c 573-579 [yy_accept]. *)
Definition e_accept : list Z :=
  [0; 0; 0; 18; 16; 1; 1; 16; 16; 7; 2; 14; 8; 3; 4; 16; 16; 16; 5; 6; 0; 12; 0; 0; 13; 0; 15; 14; 0; 0; 0; 15;
    0; 0; 0; 0; 11; 9; 10; 0].
(** event_lexer.c 581-611 [yy_ec]. *)
Definition e_ec : list Z :=
  [0; 1; 1; 1; 1; 1; 1; 1; 1; 2; 3; 1; 1; 1; 1; 1; 1; 1; 1; 1; 1; 1; 1; 1; 1; 1; 1; 1; 1; 1; 1; 1; 2; 1; 4; 1;
    1; 1; 1; 5; 1; 1; 1; 1; 6; 7; 8; 1; 9; 9; 9; 9; 9; 9; 9; 9; 9; 9; 10; 1; 1; 1; 1; 1; 1; 1; 1; 1; 1; 1; 1; 1;
    1; 1; 1; 1; 1; 1; 1; 1; 1; 1; 1; 1; 1; 1; 1; 1; 1; 1; 1; 11; 12; 13; 1; 1; 1; 14; 1; 1; 1; 15; 16; 1; 1; 1;
    1; 1; 17; 1; 18; 1; 1; 1; 19; 20; 21; 22; 1; 1; 1; 1; 1; 23; 1; 24; 1; 1; 1; 1; 1; 1; 1; 1; 1; 1; 1; 1; 1;
    1; 1; 1; 1; 1; 1; 1; 1; 1; 1; 1; 1; 1; 1; 1; 1; 1; 1; 1; 1; 1; 1; 1; 1; 1; 1; 1; 1; 1; 1; 1; 1; 1; 1; 1; 1;
    1; 1; 1; 1; 1; 1; 1; 1; 1; 1; 1; 1; 1; 1; 1; 1; 1; 1; 1; 1; 1; 1; 1; 1; 1; 1; 1; 1; 1; 1; 1; 1; 1; 1; 1; 1;
    1; 1; 1; 1; 1; 1; 1; 1; 1; 1; 1; 1; 1; 1; 1; 1; 1; 1; 1; 1; 1; 1; 1; 1; 1; 1; 1; 1; 1; 1; 1; 1; 1; 1; 1; 1;
    1; 1; 1; 1; 1; 1; 1; 1; 1].
(** event_lexer.c 613-618 [yy_meta]. *)
Definition e_meta : list Z :=
  [0; 1; 1; 1; 1; 1; 1; 1; 1; 1; 1; 1; 1; 1; 1; 1; 1; 1; 1; 1; 1; 1; 1; 1; 1].
(** event_lexer.c 620-627 [yy_base]. *)
Definition e_base : list Z :=
  [0; 0; 0; 53; 54; 54; 54; 21; 22; 54; 54; 20; 54; 54; 54; 38; 29; 31; 54; 54; 26; 54; 46; 27; 54; 45; 38; 27;
    29; 28; 22; 34; 22; 24; 25; 22; 54; 54; 54; 54; 30; 25].
(** event_lexer.c 629-636 [yy_def]. *)
Definition e_def : list Z :=
  [0; 39; 1; 39; 39; 39; 39; 40; 41; 39; 39; 39; 39; 39; 39; 39; 39; 39; 39; 39; 40; 39; 40; 41; 39; 41; 39;
    39; 39; 39; 39; 39; 39; 39; 39; 39; 39; 39; 39; 0; 39; 39].
(** event_lexer.c 638-648 [yy_nxt]. *)
Definition e_nxt : list Z :=
  [0; 4; 5; 6; 7; 8; 9; 10; 4; 11; 12; 13; 4; 14; 4; 4; 15; 4; 16; 4; 4; 17; 4; 18; 19; 21; 23; 24; 26; 27; 21;
    20; 24; 22; 25; 26; 27; 38; 22; 25; 37; 36; 35; 31; 34; 33; 32; 31; 39; 39; 30; 29; 28; 39; 3; 39; 39; 39;
    39; 39; 39; 39; 39; 39; 39; 39; 39; 39; 39; 39; 39; 39; 39; 39; 39; 39; 39; 39; 39].
(** event_lexer.c 650-660 [yy_chk]. *)
Definition e_chk : list Z :=
  [0; 1; 1; 1; 1; 1; 1; 1; 1; 1; 1; 1; 1; 1; 1; 1; 1; 1; 1; 1; 1; 1; 1; 1; 1; 7; 41; 8; 11; 11; 20; 40; 23; 7;
    8; 27; 27; 35; 20; 23; 34; 33; 32; 31; 30; 29; 28; 26; 25; 22; 17; 16; 15; 3; 39; 39; 39; 39; 39; 39; 39;
    39; 39; 39; 39; 39; 39; 39; 39; 39; 39; 39; 39; 39; 39; 39; 39; 39; 39].
(** event_lexer.c 565, 999, 1005. *)
Definition e_tables : tables := mkTables e_accept e_ec e_meta e_base e_def e_nxt e_chk 54 40 18.
(** event_lexer.c 1031-1116: the actions 1 to 17. *)
Definition e_actions : list (act etoken) :=
  [ ASkip;
    ATok (fun _ => JMinus); ATok (fun _ => JLSq); ATok (fun _ => JRSq); ATok (fun _ => JLCu); ATok (fun _ => JRCu);
    ATok (fun _ => JComma); ATok (fun _ => JColon); ATok (fun _ => JTrue); ATok (fun _ => JFalse); ATok (fun _ => JNull);
    ATok (fun s => JStr (unquote s)); ATok (fun s => JStr (unquote s));
    ATok (fun s => JInt (strtoll s)); ATok (fun s => JFlt (atof s)); AStop; ASkip ].
(** The tokens yylex of event_lexer.c returns for a text. *)
Definition e_lex (s : string) : result (list etoken) := yylex_all e_tables e_actions (S (String.length s)) s.
