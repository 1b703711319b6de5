(** The window tables set by the init functions. *)
From Coq Require Import ZArith List.
Import ListNotations.
Open Scope Z_scope.

(** T::wnaf_window_table and T::fixed_base_exp_window_table of a group.
    [wt_doc] transcribes the comments "window w is unbeaten in [lo, hi]" beside the
    entries of the second table, in hundredths; None for "-inf" and "inf". *)
Record windows := {
  wt_wnaf : list Z;
  wt_fixed : list Z;
  wt_doc : list (Z * (option Z * option Z))
}.
(** alt_bn128_init.cpp:55-59, 61-105 *)
Definition alt_bn128_G1_windows : windows := {|
  wt_wnaf := [11; 24; 60; 127];
  wt_fixed := [1; 5; 11; 32; 55; 162; 360; 815; 2373; 6978; 7122; 0; 57818; 0; 169679; 439759; 936073; 0; 4666555; 7580404; 0; 34552892];
  wt_doc := [(1, (None, Some 499)); (2, (Some 499, Some 1099)); (3, (Some 1099, Some 3229)); (4, (Some 3229, Some 5523));
    (5, (Some 5523, Some 16203)); (6, (Some 16203, Some 36015)); (7, (Some 36015, Some 81544)); (8, (Some 81544, Some 237307));
    (9, (Some 237307, Some 697775)); (10, (Some 697775, Some 712223)); (11, (Some 712223, Some 5781846)); (13, (Some 5781846, Some 16967914));
    (15, (Some 16967914, Some 43975891)); (16, (Some 43975891, Some 93607341)); (17, (Some 93607341, Some 466655474)); (19, (Some 466655474, Some 758040442));
    (20, (Some 758040442, Some 3455289220)); (22, (Some 3455289220, None))] |}.
(** alt_bn128_init.cpp:128-132, 134-178 *)
Definition alt_bn128_G2_windows : windows := {|
  wt_wnaf := [5; 15; 39; 109];
  wt_fixed := [1; 5; 10; 25; 59; 154; 334; 743; 2034; 4988; 8888; 26271; 39768; 106276; 141703; 462423; 926872; 0; 4873049; 5706708; 0; 31673815];
  wt_doc := [(1, (None, Some 510)); (2, (Some 510, Some 1043)); (3, (Some 1043, Some 2528)); (4, (Some 2528, Some 5900));
    (5, (Some 5900, Some 15403)); (6, (Some 15403, Some 33425)); (7, (Some 33425, Some 74258)); (8, (Some 74258, Some 203440));
    (9, (Some 203440, Some 498756)); (10, (Some 498756, Some 888827)); (11, (Some 888827, Some 2627113)); (12, (Some 2627113, Some 3976820));
    (13, (Some 3976820, Some 10627575)); (14, (Some 10627575, Some 14170340)); (15, (Some 14170340, Some 46242297)); (16, (Some 46242297, Some 92687184));
    (17, (Some 92687184, Some 487304917)); (19, (Some 487304917, Some 570670788)); (20, (Some 570670788, Some 3167381495)); (22, (Some 3167381495, None))] |}.
(** bls12_381_init.cpp:50-54, 57-101 *)
Definition bls12_381_G1_windows : windows := {|
  wt_wnaf := [11; 24; 60; 127];
  wt_fixed := [1; 5; 11; 32; 55; 162; 360; 815; 2373; 6978; 7122; 0; 57818; 0; 169679; 439759; 936073; 0; 4666555; 7580404; 0; 34552892];
  wt_doc := [(1, (None, Some 499)); (2, (Some 499, Some 1099)); (3, (Some 1099, Some 3229)); (4, (Some 3229, Some 5523));
    (5, (Some 5523, Some 16203)); (6, (Some 16203, Some 36015)); (7, (Some 36015, Some 81544)); (8, (Some 81544, Some 237307));
    (9, (Some 237307, Some 697775)); (10, (Some 697775, Some 712223)); (11, (Some 712223, Some 5781846)); (13, (Some 5781846, Some 16967914));
    (15, (Some 16967914, Some 43975891)); (16, (Some 43975891, Some 93607341)); (17, (Some 93607341, Some 466655474)); (19, (Some 466655474, Some 758040442));
    (20, (Some 758040442, Some 3455289220)); (22, (Some 3455289220, None))] |}.
(** bls12_381_init.cpp:120-124, 127-171 *)
Definition bls12_381_G2_windows : windows := {|
  wt_wnaf := [5; 15; 39; 109];
  wt_fixed := [1; 5; 10; 25; 59; 154; 334; 743; 2034; 4988; 8888; 26271; 39768; 106276; 141703; 462423; 926872; 0; 4873049; 5706708; 0; 31673815];
  wt_doc := [(1, (None, Some 510)); (2, (Some 510, Some 1043)); (3, (Some 1043, Some 2528)); (4, (Some 2528, Some 5900));
    (5, (Some 5900, Some 15403)); (6, (Some 15403, Some 33425)); (7, (Some 33425, Some 74258)); (8, (Some 74258, Some 203440));
    (9, (Some 203440, Some 498756)); (10, (Some 498756, Some 888827)); (11, (Some 888827, Some 2627113)); (12, (Some 2627113, Some 3976820));
    (13, (Some 3976820, Some 10627575)); (14, (Some 10627575, Some 14170340)); (15, (Some 14170340, Some 46242297)); (16, (Some 46242297, Some 92687184));
    (17, (Some 92687184, Some 487304917)); (19, (Some 487304917, Some 570670788)); (20, (Some 570670788, Some 3167381495)); (22, (Some 3167381495, None))] |}.
(** bn128_init.cpp:56-60, 62-106 *)
Definition bn128_G1_windows : windows := {|
  wt_wnaf := [10; 24; 40; 132];
  wt_fixed := [1; 4; 10; 25; 62; 158; 362; 807; 2090; 4460; 9280; 43303; 0; 0; 210999; 506869; 930023; 0; 0; 8350812; 21708139; 29482996];
  wt_doc := [(1, (None, Some 424)); (2, (Some 424, Some 1043)); (3, (Some 1043, Some 2488)); (4, (Some 2488, Some 6210));
    (5, (Some 6210, Some 15780)); (6, (Some 15780, Some 36205)); (7, (Some 36205, Some 80667)); (8, (Some 80667, Some 209034));
    (9, (Some 209034, Some 445958)); (10, (Some 445958, Some 928012)); (11, (Some 928012, Some 4330264)); (12, (Some 4330264, Some 21099873));
    (15, (Some 21099873, Some 50686947)); (16, (Some 50686947, Some 93002336)); (17, (Some 93002336, Some 835081220)); (20, (Some 835081220, Some 2170813887));
    (21, (Some 2170813887, Some 2948299552)); (22, (Some 2948299552, None))] |}.
(** bn128_init.cpp:124-128, 130-174 *)
Definition bn128_G2_windows : windows := {|
  wt_wnaf := [7; 18; 35; 116];
  wt_fixed := [1; 4; 11; 26; 61; 154; 353; 772; 2026; 4399; 10493; 37055; 49929; 114503; 161445; 470648; 1059822; 0; 5450848; 5566796; 0; 33055218];
  wt_doc := [(1, (None, Some 413)); (2, (Some 413, Some 1072)); (3, (Some 1072, Some 2560)); (4, (Some 2560, Some 6099));
    (5, (Some 6099, Some 15366)); (6, (Some 15366, Some 35313)); (7, (Some 35313, Some 77187)); (8, (Some 77187, Some 202585));
    (9, (Some 202585, Some 439865)); (10, (Some 439865, Some 1049342)); (11, (Some 1049342, Some 3705473)); (12, (Some 3705473, Some 4992878));
    (13, (Some 4992878, Some 11450282)); (14, (Some 11450282, Some 16144526)); (15, (Some 16144526, Some 47064801)); (16, (Some 47064801, Some 105982187));
    (17, (Some 105982187, Some 545084825)); (19, (Some 545084825, Some 556679557)); (20, (Some 556679557, Some 3305521752)); (22, (Some 3305521752, None))] |}.
(** edwards_init.cpp:60-64, 66-110 *)
Definition edwards_G1_windows : windows := {|
  wt_wnaf := [9; 14; 24; 117];
  wt_fixed := [1; 4; 10; 25; 60; 149; 370; 849; 1765; 4430; 13389; 15368; 74912; 0; 438107; 0; 1045626; 1577434; 0; 0; 17350594; 0];
  wt_doc := [(1, (None, Some 410)); (2, (Some 410, Some 969)); (3, (Some 969, Some 2521)); (4, (Some 2521, Some 6000));
    (5, (Some 6000, Some 14933)); (6, (Some 14933, Some 36961)); (7, (Some 36961, Some 84907)); (8, (Some 84907, Some 176494));
    (9, (Some 176494, Some 442959)); (10, (Some 442959, Some 1338878)); (11, (Some 1338878, Some 1536800)); (12, (Some 1536800, Some 7491207));
    (13, (Some 7491207, Some 43810720)); (15, (Some 43810720, Some 104562618)); (17, (Some 104562618, Some 157743448)); (18, (Some 157743448, Some 1735059423));
    (21, (Some 1735059423, None))] |}.
(** edwards_init.cpp:124-128, 130-174 *)
Definition edwards_G2_windows : windows := {|
  wt_wnaf := [6; 12; 42; 97];
  wt_fixed := [1; 5; 11; 26; 61; 146; 357; 823; 1589; 4136; 14298; 16745; 51769; 99811; 193307; 0; 907185; 1389683; 0; 6752696; 193642895; 226760202];
  wt_doc := [(1, (None, Some 474)); (2, (Some 474, Some 1067)); (3, (Some 1067, Some 2553)); (4, (Some 2553, Some 6067));
    (5, (Some 6067, Some 14577)); (6, (Some 14577, Some 35676)); (7, (Some 35676, Some 82308)); (8, (Some 82308, Some 158945));
    (9, (Some 158945, Some 413570)); (10, (Some 413570, Some 1429774)); (11, (Some 1429774, Some 1674485)); (12, (Some 1674485, Some 5176898));
    (13, (Some 5176898, Some 9981101)); (14, (Some 9981101, Some 19330672)); (15, (Some 19330672, Some 90718468)); (17, (Some 90718468, Some 138968259));
    (18, (Some 138968259, Some 675269574)); (20, (Some 675269574, Some 19364289451)); (21, (Some 19364289451, Some 22676020229)); (22, (Some 22676020229, None))] |}.
(** mnt4_init.cpp:71-75, 77-121 *)
Definition mnt4_G1_windows : windows := {|
  wt_wnaf := [11; 24; 60; 127];
  wt_fixed := [1; 5; 10; 25; 60; 144; 345; 855; 1805; 3912; 11265; 27898; 57597; 145299; 157205; 601601; 1107377; 1789647; 4392627; 8221211; 0; 42363731];
  wt_doc := [(1, (None, Some 509)); (2, (Some 509, Some 964)); (3, (Some 964, Some 2479)); (4, (Some 2479, Some 6029));
    (5, (Some 6029, Some 14437)); (6, (Some 14437, Some 34490)); (7, (Some 34490, Some 85500)); (8, (Some 85500, Some 180462));
    (9, (Some 180462, Some 391230)); (10, (Some 391230, Some 1126450)); (11, (Some 1126450, Some 2789751)); (12, (Some 2789751, Some 5759679));
    (13, (Some 5759679, Some 14529871)); (14, (Some 14529871, Some 15720459)); (15, (Some 15720459, Some 60160062)); (16, (Some 60160062, Some 110737725));
    (17, (Some 110737725, Some 178964695)); (18, (Some 178964695, Some 439262692)); (19, (Some 439262692, Some 822121060)); (20, (Some 822121060, Some 4236373119));
    (22, (Some 4236373119, None))] |}.
(** mnt4_init.cpp:138-142, 144-188 *)
Definition mnt4_G2_windows : windows := {|
  wt_wnaf := [5; 15; 39; 109];
  wt_fixed := [1; 4; 10; 25; 60; 143; 345; 821; 1794; 3920; 11301; 18960; 44199; 0; 150800; 548695; 1051769; 2023926; 3787109; 7107480; 0; 38760027];
  wt_doc := [(1, (None, Some 417)); (2, (Some 417, Some 1012)); (3, (Some 1012, Some 2465)); (4, (Some 2465, Some 6003));
    (5, (Some 6003, Some 14316)); (6, (Some 14316, Some 34473)); (7, (Some 34473, Some 82124)); (8, (Some 82124, Some 179392));
    (9, (Some 179392, Some 391959)); (10, (Some 391959, Some 1130146)); (11, (Some 1130146, Some 1896009)); (12, (Some 1896009, Some 4419862));
    (13, (Some 4419862, Some 15079957)); (15, (Some 15079957, Some 54869481)); (16, (Some 54869481, Some 105176908)); (17, (Some 105176908, Some 202392559));
    (18, (Some 202392559, Some 378710868)); (19, (Some 378710868, Some 710748030)); (20, (Some 710748030, Some 3876002714)); (22, (Some 3876002714, None))] |}.
(** mnt6_init.cpp:75-79, 81-125 *)
Definition mnt6_G1_windows : windows := {|
  wt_wnaf := [11; 24; 60; 127];
  wt_fixed := [1; 4; 10; 25; 60; 146; 350; 845; 1840; 3904; 11309; 24016; 72289; 138413; 156390; 562560; 1036742; 2053819; 4370224; 8215704; 0; 42682375];
  wt_doc := [(1, (None, Some 396)); (2, (Some 396, Some 967)); (3, (Some 967, Some 2513)); (4, (Some 2513, Some 6031));
    (5, (Some 6031, Some 14607)); (6, (Some 14607, Some 35009)); (7, (Some 35009, Some 84454)); (8, (Some 84454, Some 183964));
    (9, (Some 183964, Some 390426)); (10, (Some 390426, Some 1130942)); (11, (Some 1130942, Some 2401557)); (12, (Some 2401557, Some 7228857));
    (13, (Some 7228857, Some 13841322)); (14, (Some 13841322, Some 15639030)); (15, (Some 15639030, Some 56256050)); (16, (Some 56256050, Some 103674202));
    (17, (Some 103674202, Some 205381886)); (18, (Some 205381886, Some 437022395)); (19, (Some 437022395, Some 821570381)); (20, (Some 821570381, Some 4268237543));
    (22, (Some 4268237543, None))] |}.
(** mnt6_init.cpp:143-147, 149-193 *)
Definition mnt6_G2_windows : windows := {|
  wt_wnaf := [5; 15; 39; 109];
  wt_fixed := [1; 4; 10; 25; 60; 144; 346; 819; 1782; 4002; 10870; 18023; 43161; 0; 149743; 551844; 1041828; 1977372; 3703620; 7057237; 0; 38554492];
  wt_doc := [(1, (None, Some 425)); (2, (Some 425, Some 1022)); (3, (Some 1022, Some 2485)); (4, (Some 2485, Some 6006));
    (5, (Some 6006, Some 14361)); (6, (Some 14361, Some 34566)); (7, (Some 34566, Some 81856)); (8, (Some 81856, Some 178206));
    (9, (Some 178206, Some 400245)); (10, (Some 400245, Some 1087018)); (11, (Some 1087018, Some 1802251)); (12, (Some 1802251, Some 4316074));
    (13, (Some 4316074, Some 14974332)); (15, (Some 14974332, Some 55184413)); (16, (Some 55184413, Some 104182791)); (17, (Some 104182791, Some 197737153));
    (18, (Some 197737153, Some 370361951)); (19, (Some 370361951, Some 705723687)); (20, (Some 705723687, Some 3855449167)); (22, (Some 3855449167, None))] |}.
Definition shipped_windows : list windows :=
  [alt_bn128_G1_windows; alt_bn128_G2_windows; bls12_381_G1_windows;
   bls12_381_G2_windows; bn128_G1_windows; bn128_G2_windows;
   edwards_G1_windows; edwards_G2_windows; mnt4_G1_windows;
   mnt4_G2_windows; mnt6_G1_windows; mnt6_G2_windows].
