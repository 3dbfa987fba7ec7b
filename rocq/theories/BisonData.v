(** Data about the two parsers for the proofs of [BisonProofs]: nothing here is trusted, all of it is checked there.  Per
    state its symbol (yystos) and the states before it, per rule its right side, per symbol a weight, and for the other
    direction the grammar by levels, the first tokens of each symbol and the symbols each state expects. *)
From Coq Require Import ZArith List.
Import ListNotations.
Local Open Scope Z_scope.

Definition xp_stos : list Z :=
  [0; 3; 10; 20; 21; 22; 23; 24; 25; 26; 27; 31; 32; 33; 34; 35; 36; 38; 39; 40; 41; 42; 47; 48; 49; 50; 51;
    52; 53; 54; 56; 58; 59; 60; 61; 62; 63; 64; 35; 36; 47; 47; 10; 10; 10; 10; 10; 10; 10; 0; 4; 5; 6; 7; 8; 9;
    15; 16; 17; 28; 29; 30; 18; 19; 6; 7; 8; 9; 4; 5; 13; 14; 11; 33; 3; 39; 40; 39; 40; 40; 41; 39; 39; 39; 40;
    41; 42; 51; 51; 40; 41; 49; 49; 49; 49; 10; 43; 45; 57; 57; 57; 47; 47; 39; 39; 39; 39; 39; 39; 39; 43; 45;
    53; 55; 55; 12; 12; 12; 12; 12; 12; 12; 12; 12; 12; 40; 42; 44; 46; 42; 40; 40; 40; 40; 40; 3; 41; 42; 42;
    42; 11; 12; 11; 12; 12; 12; 11; 12; 11; 12; 12; 11; 11; 11; 40; 42; 40; 40; 40; 40; 41; 12; 11; 11; 11; 11;
    40; 11].
Definition xp_preds : list (list Z) :=
  [[]; [0; 2; 3; 45; 50; 51; 52; 53; 54; 55; 62; 63]; [0; 2; 3; 62; 63]; [0; 2; 3; 62; 63]; [0; 2; 3; 62; 63];
    [0; 2; 3; 62; 63]; [0; 2; 3; 62; 63]; [0; 2; 3; 62; 63]; [0; 2; 3; 62; 63]; [0; 2; 3; 62; 63];
    [0; 2; 3; 62; 63]; [0; 2; 3; 62; 63]; [0; 2; 3; 62; 63];
    [0; 2; 3; 50; 51; 62; 63; 95; 115; 122; 123; 124; 143];
    [0; 2; 3; 43; 44; 46; 47; 48; 62; 63; 64; 65; 66; 67; 68; 69; 70; 71];
    [0; 2; 3; 43; 44; 45; 50; 51; 52; 53; 54; 55; 62; 63; 95; 116; 117; 118; 119; 120; 141; 144; 145; 147; 149; 161];
    [0; 2; 3; 45; 50; 51; 52; 53; 54; 55; 62; 63; 121; 150]; [0]; [0; 2; 3; 62; 63]; [0; 2; 3; 62; 63];
    [0; 2; 3; 62; 63]; [0; 2; 3; 62; 63]; [0]; [0; 2; 3; 62; 63]; [0; 2; 3; 62; 63]; [0; 2; 3; 62; 63];
    [0; 2; 3; 62; 63]; [0; 2; 3; 62; 63]; [0; 2; 3; 62; 63]; [0; 2; 3; 62; 63]; [0; 2; 3; 62; 63];
    [0; 2; 3; 62; 63]; [0; 2; 3; 62; 63]; [0; 2; 3; 62; 63]; [0; 2; 3; 62; 63]; [0; 2; 3; 62; 63];
    [0; 2; 3; 62; 63]; [0; 2; 3; 62; 63]; [1; 74]; [1; 135]; [2]; [3]; [4]; [5]; [6]; [7]; [8]; [9]; [10]; [];
    [18]; [18]; [18]; [18]; [18]; [18]; [18]; [18]; [18]; [18]; [18]; [18]; [22; 40; 102]; [22; 40]; [24]; [24];
    [24]; [24]; [26]; [26]; [29]; [29]; [40]; [42];
    [43; 44; 95; 116; 117; 118; 119; 120; 141; 144; 145; 147; 149; 161]; [43]; [43]; [44]; [44]; [45]; [45];
    [46]; [47]; [48]; [50; 51]; [50; 51]; [50; 51]; [50]; [51]; [52; 53; 54; 55]; [52; 53; 54; 55]; [52]; [53];
    [54]; [55]; [56; 57; 58; 70; 71]; [56; 57; 58]; [56; 57; 58]; [56]; [57]; [58]; [62]; [63]; [64]; [65];
    [66]; [67]; [68]; [69]; [70; 71]; [70; 71]; [70; 71]; [70; 71]; [70]; [71]; [73]; [75]; [76]; [77]; [78];
    [79]; [80]; [81]; [82]; [83]; [95]; [95]; [95]; [95]; [115]; [116]; [117]; [118]; [119]; [120]; [121; 150];
    [121]; [122]; [123]; [124]; [127]; [127]; [128]; [128]; [129]; [130]; [131]; [132]; [133]; [134]; [136];
    [137]; [138]; [139]; [141]; [143]; [144]; [145]; [147]; [149]; [150]; [156]; [157]; [158]; [159]; [160];
    [161]; [166]].
Definition xp_rhs : list (list Z) :=
  [[]; []; [47]; [34]; [35]; [3; 35]; [36]; [3; 36]; [33]; [10; 44; 11]; [40]; [44; 12; 40]; [10; 46; 11];
    [42]; [46; 12; 42]; [10; 47; 11]; [50]; [52]; [56]; [58]; [59]; [60]; [48]; [39; 29]; [39; 28]; [39; 30];
    [40]; [41]; [39; 6; 49]; [39; 7; 49]; [39; 8; 49]; [39; 9; 49]; [49; 8; 39]; [49; 9; 39]; [49; 6; 39];
    [49; 7; 39]; [40]; [41]; [42]; [39; 4; 51]; [39; 5; 51]; [51; 4; 39]; [51; 5; 39]; [39]; [40]; [42]; [53];
    [43]; [45]; [53]; [54; 13; 55]; [54; 14; 55]; [43]; [45]; [39; 15; 57]; [39; 16; 57]; [39; 17; 57];
    [47; 18; 47]; [47; 19; 47]; [20; 47]; [39]; [31]; [32]; [61]; [62]; [63]; [64];
    [21; 10; 33; 12; 42; 12; 40; 12; 40; 11]; [22; 10; 40; 12; 40; 11]; [22; 10; 39; 12; 40; 12; 40; 11];
    [23; 10; 40; 12; 40; 11]; [23; 10; 39; 12; 40; 12; 40; 11]; [24; 10; 40; 12; 40; 12; 40; 11];
    [24; 10; 41; 12; 41; 12; 41; 11]; [25; 10; 39; 12; 42; 11]; [26; 10; 39; 12; 42; 11];
    [27; 10; 39; 12; 42; 11]].
Definition xp_weights : list Z :=
  [1; 1; 1; 1; 1; 1; 1; 1; 1; 1; 1; 1; 1; 2; 2; 1; 1; 1; 1; 1; 2; 1; 1; 1; 1; 1; 1; 1; 1; 1; 1; 4; 4; 3; 5; 3;
    3; 1; 1; 4; 2; 2; 2; 2; 1; 2; 1; 2; 3; 1; 3; 1; 3; 2; 1; 1; 3; 1; 3; 3; 3; 4; 4; 4; 4].
Definition xp_prods : list (Z * list Z * Z) :=
  [(38, [65], 2); (39, [34], 3); (40, [35], 4); (40, [3; 35], 5); (41, [36], 6); (41, [3; 36], 7);
    (42, [33], 8); (43, [10; 44; 11], 9); (44, [40], 10); (44, [44; 12; 40], 11); (45, [10; 46; 11], 12);
    (46, [42], 13); (46, [46; 12; 42], 14); (67, [10; 65; 11], 15); (67, [50], 16); (67, [52], 17);
    (67, [56], 18); (67, [58], 19); (65, [68], 20); (66, [69], 20); (67, [70], 20); (67, [60], 21);
    (67, [48], 22); (48, [39; 29], 23); (48, [39; 28], 24); (48, [39; 30], 25); (49, [40], 26); (49, [41], 27);
    (50, [39; 6; 49], 28); (50, [39; 7; 49], 29); (50, [39; 8; 49], 30); (50, [39; 9; 49], 31);
    (50, [49; 8; 39], 32); (50, [49; 9; 39], 33); (50, [49; 6; 39], 34); (50, [49; 7; 39], 35); (51, [40], 36);
    (51, [41], 37); (51, [42], 38); (52, [39; 4; 51], 39); (52, [39; 5; 51], 40); (52, [51; 4; 39], 41);
    (52, [51; 5; 39], 42); (53, [39], 43); (54, [40], 44); (54, [42], 45); (54, [53], 46); (55, [43], 47);
    (55, [45], 48); (55, [53], 49); (56, [54; 13; 55], 50); (56, [54; 14; 55], 51); (57, [43], 52);
    (57, [45], 53); (58, [39; 15; 57], 54); (58, [39; 16; 57], 55); (58, [39; 17; 57], 56);
    (69, [66; 18; 67], 57); (68, [65; 19; 66], 58); (70, [20; 67], 59); (70, [39], 60); (70, [31], 61);
    (70, [32], 62); (60, [61], 63); (60, [62], 64); (60, [63], 65); (60, [64], 66);
    (61, [21; 10; 33; 12; 42; 12; 40; 12; 40; 11], 67); (62, [22; 10; 40; 12; 40; 11], 68);
    (62, [22; 10; 39; 12; 40; 12; 40; 11], 69); (62, [23; 10; 40; 12; 40; 11], 70);
    (62, [23; 10; 39; 12; 40; 12; 40; 11], 71); (63, [24; 10; 40; 12; 40; 12; 40; 11], 72);
    (63, [24; 10; 41; 12; 41; 12; 41; 11], 73); (64, [25; 10; 39; 12; 42; 11], 74);
    (64, [26; 10; 39; 12; 42; 11], 75); (64, [27; 10; 39; 12; 42; 11], 76); (65, [66], -1); (66, [67], -1)].
Definition xp_first : list (list Z) :=
  [[0]; [1]; [2]; [3]; [4]; [5]; [6]; [7]; [8]; [9]; [10]; [11]; [12]; [13]; [14]; [15]; [16]; [17]; [18];
    [19]; [20]; [21]; [22]; [23]; [24]; [25]; [26]; [27]; [28]; [29]; [30]; [31]; [32]; [33]; [34]; [35]; [36];
    []; [3; 10; 20; 21; 22; 23; 24; 25; 26; 27; 31; 32; 33; 34; 35; 36]; [34]; [3; 35]; [3; 36]; [33]; [10];
    [3; 35]; [10]; [33]; []; [34]; [3; 35; 36]; [3; 34; 35; 36]; [3; 33; 35; 36]; [3; 33; 34; 35; 36]; [34];
    [3; 33; 34; 35]; [10; 34]; [3; 33; 34; 35]; [10]; [34]; []; [21; 22; 23; 24; 25; 26; 27]; [21]; [22; 23];
    [24]; [25; 26; 27]; [3; 10; 20; 21; 22; 23; 24; 25; 26; 27; 31; 32; 33; 34; 35; 36];
    [3; 10; 20; 21; 22; 23; 24; 25; 26; 27; 31; 32; 33; 34; 35; 36];
    [3; 10; 20; 21; 22; 23; 24; 25; 26; 27; 31; 32; 33; 34; 35; 36];
    [3; 10; 20; 21; 22; 23; 24; 25; 26; 27; 31; 32; 33; 34; 35; 36];
    [3; 10; 20; 21; 22; 23; 24; 25; 26; 27; 31; 32; 33; 34; 35; 36]; [20; 31; 32; 34]].
Definition xp_expects : list (list (Z * list Z)) :=
  [[(38, [0]); (39, [0; 4; 5; 6; 7; 8; 9; 13; 14; 15; 16; 17; 18; 19; 28; 29; 30]); (40, [4; 5; 6; 7; 8; 9; 13; 14]); (41, [4; 5; 6; 7; 8; 9]); (42, [4; 5; 13; 14]); (48, [0; 18; 19]); (49, [6; 7; 8; 9]); (50, [0; 18; 19]); (51, [4; 5]); (52, [0; 18; 19]); (53, [13; 14]); (54, [13; 14]); (56, [0; 18; 19]); (58, [0; 18; 19]); (60, [0; 18; 19]); (61, [0; 18; 19]); (62, [0; 18; 19]); (63, [0; 18; 19]); (64, [0; 18; 19]); (65, [0; 19]); (66, [0; 18; 19]); (67, [0; 18; 19]); (68, [0; 19]); (69, [0; 18; 19]); (70, [0; 18; 19])];
    [];
    [(39, [4; 5; 6; 7; 8; 9; 11; 13; 14; 15; 16; 17; 18; 19; 28; 29; 30]); (40, [4; 5; 6; 7; 8; 9; 13; 14]); (41, [4; 5; 6; 7; 8; 9]); (42, [4; 5; 13; 14]); (48, [11; 18; 19]); (49, [6; 7; 8; 9]); (50, [11; 18; 19]); (51, [4; 5]); (52, [11; 18; 19]); (53, [13; 14]); (54, [13; 14]); (56, [11; 18; 19]); (58, [11; 18; 19]); (60, [11; 18; 19]); (61, [11; 18; 19]); (62, [11; 18; 19]); (63, [11; 18; 19]); (64, [11; 18; 19]); (65, [11; 19]); (66, [11; 18; 19]); (67, [11; 18; 19]); (68, [11; 19]); (69, [11; 18; 19]); (70, [11; 18; 19])];
    [(39, [0; 4; 5; 6; 7; 8; 9; 11; 13; 14; 15; 16; 17; 18; 19; 28; 29; 30]); (40, [4; 5; 6; 7; 8; 9; 13; 14]); (41, [4; 5; 6; 7; 8; 9]); (42, [4; 5; 13; 14]); (48, [0; 11; 18; 19]); (49, [6; 7; 8; 9]); (50, [0; 11; 18; 19]); (51, [4; 5]); (52, [0; 11; 18; 19]); (53, [13; 14]); (54, [13; 14]); (56, [0; 11; 18; 19]); (58, [0; 11; 18; 19]); (60, [0; 11; 18; 19]); (61, [0; 11; 18; 19]); (62, [0; 11; 18; 19]); (63, [0; 11; 18; 19]); (64, [0; 11; 18; 19]); (67, [0; 11; 18; 19]); (70, [0; 11; 18; 19])];
    []; []; []; []; []; []; []; []; []; []; []; []; []; []; []; []; []; []; []; []; []; []; []; []; []; []; [];
    []; []; []; []; []; []; []; []; []; []; []; []; [(39, [12]); (40, [12])]; [(39, [12]); (40, [12])];
    [(40, [12]); (41, [12])]; [(39, [12])]; [(39, [12])]; [(39, [12])]; [];
    [(40, [0; 11; 18; 19]); (41, [0; 11; 18; 19]); (42, [0; 11; 18; 19]); (51, [0; 11; 18; 19])];
    [(40, [0; 11; 18; 19]); (41, [0; 11; 18; 19]); (42, [0; 11; 18; 19]); (51, [0; 11; 18; 19])];
    [(40, [0; 11; 18; 19]); (41, [0; 11; 18; 19]); (49, [0; 11; 18; 19])];
    [(40, [0; 11; 18; 19]); (41, [0; 11; 18; 19]); (49, [0; 11; 18; 19])];
    [(40, [0; 11; 18; 19]); (41, [0; 11; 18; 19]); (49, [0; 11; 18; 19])];
    [(40, [0; 11; 18; 19]); (41, [0; 11; 18; 19]); (49, [0; 11; 18; 19])];
    [(43, [0; 11; 18; 19]); (45, [0; 11; 18; 19]); (57, [0; 11; 18; 19])];
    [(43, [0; 11; 18; 19]); (45, [0; 11; 18; 19]); (57, [0; 11; 18; 19])];
    [(43, [0; 11; 18; 19]); (45, [0; 11; 18; 19]); (57, [0; 11; 18; 19])]; []; []; [];
    [(39, [0; 4; 5; 6; 7; 8; 9; 11; 13; 14; 15; 16; 17; 18; 19; 28; 29; 30]); (40, [4; 5; 6; 7; 8; 9; 13; 14]); (41, [4; 5; 6; 7; 8; 9]); (42, [4; 5; 13; 14]); (48, [0; 11; 18; 19]); (49, [6; 7; 8; 9]); (50, [0; 11; 18; 19]); (51, [4; 5]); (52, [0; 11; 18; 19]); (53, [13; 14]); (54, [13; 14]); (56, [0; 11; 18; 19]); (58, [0; 11; 18; 19]); (60, [0; 11; 18; 19]); (61, [0; 11; 18; 19]); (62, [0; 11; 18; 19]); (63, [0; 11; 18; 19]); (64, [0; 11; 18; 19]); (67, [0; 11; 18; 19]); (70, [0; 11; 18; 19])];
    [(39, [0; 4; 5; 6; 7; 8; 9; 11; 13; 14; 15; 16; 17; 18; 19; 28; 29; 30]); (40, [4; 5; 6; 7; 8; 9; 13; 14]); (41, [4; 5; 6; 7; 8; 9]); (42, [4; 5; 13; 14]); (48, [0; 11; 18; 19]); (49, [6; 7; 8; 9]); (50, [0; 11; 18; 19]); (51, [4; 5]); (52, [0; 11; 18; 19]); (53, [13; 14]); (54, [13; 14]); (56, [0; 11; 18; 19]); (58, [0; 11; 18; 19]); (60, [0; 11; 18; 19]); (61, [0; 11; 18; 19]); (62, [0; 11; 18; 19]); (63, [0; 11; 18; 19]); (64, [0; 11; 18; 19]); (66, [0; 11; 18; 19]); (67, [0; 11; 18; 19]); (69, [0; 11; 18; 19]); (70, [0; 11; 18; 19])];
    [(39, [0; 11; 18; 19])]; [(39, [0; 11; 18; 19])]; [(39, [0; 11; 18; 19])]; [(39, [0; 11; 18; 19])];
    [(39, [0; 11; 18; 19])]; [(39, [0; 11; 18; 19])];
    [(39, [0; 11; 18; 19]); (43, [0; 11; 18; 19]); (45, [0; 11; 18; 19]); (53, [0; 11; 18; 19]); (55, [0; 11; 18; 19])];
    [(39, [0; 11; 18; 19]); (43, [0; 11; 18; 19]); (45, [0; 11; 18; 19]); (53, [0; 11; 18; 19]); (55, [0; 11; 18; 19])];
    []; []; []; []; []; []; []; []; []; []; []; []; []; []; []; []; []; []; []; []; []; []; [];
    [(40, [11; 12]); (42, [11; 12]); (44, [11; 12]); (46, [11; 12])]; []; []; []; []; []; []; []; []; []; [];
    []; []; []; []; []; []; []; []; []; [(42, [12])]; [(40, [12])]; [(40, [11])]; [(40, [12])]; [(40, [11])];
    [(40, [12])]; [(41, [12])]; [(42, [11])]; [(42, [11])]; [(42, [11])]; []; []; []; []; []; []; []; []; [];
    []; []; []; []; []; []; []; [(40, [11; 12])]; []; [(42, [11; 12])]; [(40, [12])]; [(40, [11])]; [];
    [(40, [11])]; []; [(40, [11])]; [(41, [11])]; []; []; []; []; []; []; []; []; []; []; [(40, [11])]; []; [];
    []; []; []; []].

Definition ep_stos : list Z :=
  [0; 3; 17; 4; 15; 18; 19; 0; 8; 4; 7; 5; 9; 10; 11; 12; 13; 14; 15; 20; 21; 22; 23; 24; 25; 26; 28; 30; 33;
    19; 5; 6; 9; 22; 24; 27; 29; 31; 32; 34; 35; 13; 14; 5; 15; 22; 6; 7; 6; 7; 6; 7; 6; 7; 15; 7; 7; 22; 24; 5;
    32; 5; 35; 7; 22; 22; 22; 7; 6; 7; 24; 24; 7; 6; 22; 7; 7; 22; 22; 7; 6; 22; 6].
Definition ep_preds : list (list Z) :=
  [[]; [0]; [0]; [1]; [1; 10]; [1]; [1]; []; [4]; [5]; [5]; [8]; [8]; [8]; [8]; [8];
    [8; 11; 30; 47; 55; 56; 59; 63; 72; 75; 76; 79]; [8]; [8; 11; 49; 67; 69]; [8]; [8]; [8]; [8]; [8]; [8];
    [8]; [8]; [8]; [8]; [10]; [11]; [11]; [11; 30; 47; 55; 56; 59; 63; 72; 75; 76; 79]; [11]; [11]; [11]; [11];
    [11]; [11]; [11]; [11]; [12; 32]; [12]; [30; 61]; [30; 61]; [30; 59]; [35]; [35]; [36]; [36]; [37]; [37];
    [39]; [39]; [43]; [44]; [45]; [47]; [49]; [51]; [51]; [53]; [53]; [54]; [55]; [56]; [63]; [64]; [65]; [66];
    [67]; [69]; [70]; [71]; [72]; [73]; [74]; [75]; [76]; [77]; [78]; [79]; [81]].
Definition ep_rhs : list (list Z) :=
  [[]; []; [3; 4]; [3; 18; 4]; [19]; [18; 7; 19]; [15; 8; 20]; [15; 8; 10]; [21]; [22]; [23]; [24]; [25]; [26];
    [28]; [30]; [33]; [11]; [12]; [13]; [9; 13]; [14]; [9; 14]; [15]; [5; 6]; [5; 27; 6]; [22]; [27; 7; 22];
    [5; 29; 6]; [24]; [29; 7; 24]; [5; 31; 6]; [32]; [31; 7; 32]; [5; 22; 7; 22; 6]; [5; 34; 6]; [35];
    [34; 7; 35]; [5; 15; 7; 22; 7; 24; 7; 22; 7; 22; 6]; [5; 5; 15; 7; 22; 7; 24; 6; 7; 22; 7; 22; 6]].
Definition ep_weights : list Z :=
  [1; 1; 1; 1; 1; 2; 1; 1; 1; 1; 1; 3; 3; 3; 3; 3; 1; 1; 1; 2; 1; 2; 2; 2; 2; 2; 2; 1; 2; 1; 2; 1; 2; 2; 1; 2].
Definition ep_prods : list (Z * list Z * Z) :=
  [(17, [3; 4], 2); (17, [3; 18; 4], 3); (18, [19], 4); (18, [18; 7; 19], 5); (19, [15; 8; 20], 6);
    (19, [15; 8; 10], 7); (20, [21], 8); (20, [22], 9); (20, [23], 10); (20, [24], 11); (20, [25], 12);
    (20, [26], 13); (20, [28], 14); (20, [30], 15); (20, [33], 16); (21, [11], 17); (21, [12], 18);
    (22, [13], 19); (22, [9; 13], 20); (23, [14], 21); (23, [9; 14], 22); (24, [15], 23); (25, [5; 6], 24);
    (26, [5; 27; 6], 25); (27, [22], 26); (27, [27; 7; 22], 27); (28, [5; 29; 6], 28); (29, [24], 29);
    (29, [29; 7; 24], 30); (30, [5; 31; 6], 31); (31, [32], 32); (31, [31; 7; 32], 33);
    (32, [5; 22; 7; 22; 6], 34); (33, [5; 34; 6], 35); (34, [35], 36); (34, [34; 7; 35], 37);
    (35, [5; 15; 7; 22; 7; 24; 7; 22; 7; 22; 6], 38); (35, [5; 5; 15; 7; 22; 7; 24; 6; 7; 22; 7; 22; 6], 39)].
Definition ep_first : list (list Z) :=
  [[0]; [1]; [2]; [3]; [4]; [5]; [6]; [7]; [8]; [9]; [10]; [11]; [12]; [13]; [14]; [15]; []; [3]; [15]; [15];
    [5; 9; 11; 12; 13; 14; 15]; [11; 12]; [9; 13]; [9; 14]; [15]; [5]; [5]; [9; 13]; [5]; [15]; [5]; [5]; [5];
    [5]; [5]; [5]].
Definition ep_expects : list (list (Z * list Z)) :=
  [[(17, [0])]; [(18, [4; 7]); (19, [4; 7])]; []; []; []; []; []; [];
    [(20, [4; 7]); (21, [4; 7]); (22, [4; 7]); (23, [4; 7]); (24, [4; 7]); (25, [4; 7]); (26, [4; 7]); (28, [4; 7]); (30, [4; 7]); (33, [4; 7])];
    []; [(19, [4; 7])];
    [(22, [6; 7]); (24, [6; 7]); (27, [6; 7]); (29, [6; 7]); (31, [6; 7]); (32, [6; 7]); (34, [6; 7]); (35, [6; 7])];
    []; []; []; []; []; []; []; []; []; []; []; []; []; []; []; []; []; []; [(22, [7])]; []; []; []; []; []; [];
    []; []; []; []; []; []; []; []; []; []; [(22, [6; 7])]; []; [(24, [6; 7])]; []; [(32, [6; 7])]; [];
    [(35, [6; 7])]; []; [(22, [7])]; [(22, [6])]; []; []; [(22, [7])]; []; []; []; [(22, [7])]; []; []; [];
    [(24, [7])]; []; [(24, [6])]; []; []; [(22, [7])]; []; []; [(22, [7])]; [(22, [6])]; []; []; [(22, [6])];
    []; []; []].

