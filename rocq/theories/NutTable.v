(** GENERATED by tools/nut_table.py from /repo/palAoppa.c: the Shirai & Fukushima (2001) series of pal__Nutc.
    Rows: (na[j] (lines 291-486), psi[j] (lines 487-682), eps[j] (lines 683-878)). *)
From Coq Require Import ZArith List.
From Verif Require Import Num.
Import ListNotations.
Local Open Scope Z_scope.
Definition nutTable : list (list Z * list Dec * list Dec) := [
  ([0; 0; 0; 0; (-1); 0; 0; 0; 0], [MkDec (33415) (-1); MkDec (17206241800000001) (-9); MkDec (31000000000000001) (-16); MkDec (174095) (-1)], [MkDec (92053658000000007) (-10); MkDec (-15062) (-1); MkDec (88570000000000005) (-14); MkDec (-20000000000000001) (-17)]);
  ([0; 0; 2; (-2); 2; 0; 0; 0; 0], [MkDec (-17168) (-1); MkDec (-13171853) (-1); MkDec (13999999999999999) (-16); MkDec (-15680000000000001) (-14)], [MkDec (57309590000000002) (-11); MkDec (-57020000000000005) (-14); MkDec (-305) (0); MkDec (-29999999999999999) (-17)]);
  ([0; 0; 2; 0; 2; 0; 0; 0; 0], [MkDec (28569999999999999) (-14); MkDec (-227667) (0); MkDec (29999999999999999) (-17); MkDec (-235) (-1)], [MkDec (978455) (-1); MkDec (14780000000000001) (-14); MkDec (-48799999999999997) (-15); MkDec (-20000000000000001) (-17)]);
  ([0; 0; 0; 0; (-2); 0; 0; 0; 0], [MkDec (-68599999999999994) (-15); MkDec (-207448) (0); MkDec (0) (0); MkDec (-21399999999999999) (-15)], [MkDec (-89753600000000006) (-12); MkDec (28) (0); MkDec (46899999999999999) (-15); MkDec (0) (0)]);
  ([0; 1; 0; 0; 0; 0; 0; 0; 0], [MkDec (95029999999999995) (-14); MkDec (14760789999999999) (-11); MkDec (-22999999999999998) (-16); MkDec (-355) (0)], [MkDec (74066999999999998) (-13); MkDec (-32710000000000002) (-14); MkDec (-18199999999999999) (-15); MkDec (80000000000000004) (-17)]);
  ([0; 1; 2; (-2); 2; 0; 0; 0; 0], [MkDec (-66700000000000003) (-15); MkDec (-51689099999999999) (-12); MkDec (20000000000000001) (-17); MkDec (12259999999999999) (-14)], [MkDec (22442299999999999) (-12); MkDec (-22300000000000001) (-15); MkDec (-67599999999999994) (-15); MkDec (0) (0)]);
  ([1; 0; 0; 0; 0; 0; 0; 0; 0], [MkDec (-10859999999999999) (-14); MkDec (71117600000000006) (-12); MkDec (0) (0); MkDec (7) (0)], [MkDec (-68360000000000002) (-14); MkDec (46799999999999997) (-15); MkDec (0) (0); MkDec (0) (0)]);
  ([0; 0; 2; 0; 1; 0; 0; 0; 0], [MkDec (35600000000000001) (-15); MkDec (-38740199999999997) (-12); MkDec (10000000000000001) (-17); MkDec (-36200000000000003) (-15)], [MkDec (20070700000000001) (-12); MkDec (36) (0); MkDec (16000000000000001) (-16); MkDec (0) (0)]);
  ([1; 0; 2; 0; 2; 0; 0; 0; 0], [MkDec (85400000000000006) (-15); MkDec (-30127599999999999) (-12); MkDec (0) (0); MkDec (-31000000000000001) (-16)], [MkDec (12893799999999999) (-12); MkDec (395) (-1); MkDec (-62000000000000002) (-16); MkDec (0) (0)]);
  ([0; (-1); 2; (-2); 2; 0; 0; 0; 0], [MkDec (9) (0); MkDec (21583) (0); MkDec (10000000000000001) (-17); MkDec (-50299999999999997) (-15)], [MkDec (-95932000000000007) (-13); MkDec (144) (-1); MkDec (30199999999999999) (-15); MkDec (-10000000000000001) (-17)]);
  ([0; 0; 2; (-2); 1; 0; 0; 0; 0], [MkDec (22100000000000001) (-15); MkDec (12822799999999999) (-12); MkDec (0) (0); MkDec (13300000000000001) (-15)], [MkDec (-68995) (-1); MkDec (47999999999999998) (-16); MkDec (-59999999999999998) (-17); MkDec (0) (0)]);
  ([(-1); 0; 2; 0; 2; 0; 0; 0; 0], [MkDec (33999999999999999) (-16); MkDec (12350799999999999) (-12); MkDec (0) (0); MkDec (13) (-1)], [MkDec (-53325) (-1); MkDec (-10000000000000001) (-17); MkDec (27000000000000002) (-16); MkDec (0) (0)]);
  ([(-1); 0; 0; 2; 0; 0; 0; 0; 0], [MkDec (-21100000000000001) (-15); MkDec (156994) (-1); MkDec (0) (0); MkDec (16000000000000001) (-16)], [MkDec (-1252) (-1); MkDec (105) (-1); MkDec (0) (0); MkDec (0) (0)]);
  ([1; 0; 0; 0; 1; 0; 0; 0; 0], [MkDec (42000000000000002) (-16); MkDec (63138000000000002) (-13); MkDec (0) (0); MkDec (62000000000000002) (-16)], [MkDec (-33234000000000001) (-13); MkDec (-90000000000000002) (-17); MkDec (-29999999999999999) (-17); MkDec (0) (0)]);
  ([1; 0; 0; 0; (-1); 0; 0; 0; 0], [MkDec (-22800000000000001) (-15); MkDec (57968999999999996) (-13); MkDec (0) (0); MkDec (60999999999999996) (-16)], [MkDec (31423000000000002) (-13); MkDec (89000000000000004) (-16); MkDec (29999999999999999) (-17); MkDec (0) (0)]);
  ([(-1); 0; 2; 2; 2; 0; 0; 0; 0], [MkDec (15699999999999999) (-15); MkDec (-59611000000000004) (-13); MkDec (0) (0); MkDec (-59999999999999998) (-17)], [MkDec (25525) (-1); MkDec (72999999999999998) (-16); MkDec (-12) (-1); MkDec (0) (0)]);
  ([1; 0; 2; 0; 1; 0; 0; 0; 0], [MkDec (131) (-1); MkDec (-51591000000000004) (-13); MkDec (0) (0); MkDec (-45999999999999996) (-16)], [MkDec (26344000000000001) (-13); MkDec (88000000000000007) (-16); MkDec (20000000000000001) (-17); MkDec (0) (0)]);
  ([(-2); 0; 2; 0; 1; 0; 0; 0; 0], [MkDec (18) (-1); MkDec (45926999999999998) (-13); MkDec (0) (0); MkDec (45) (-1)], [MkDec (-24244000000000001) (-13); MkDec (16000000000000001) (-16); MkDec (-40000000000000002) (-17); MkDec (0) (0)]);
  ([0; 0; 0; 2; 0; 0; 0; 0; 0], [MkDec (-175) (-1); MkDec (6336) (0); MkDec (0) (0); MkDec (69999999999999996) (-17)], [MkDec (-1233) (-1); MkDec (38999999999999999) (-16); MkDec (0) (0); MkDec (0) (0)]);
  ([0; 0; 2; 2; 2; 0; 0; 0; 0], [MkDec (16300000000000001) (-15); MkDec (-38510999999999999) (-13); MkDec (0) (0); MkDec (-40000000000000002) (-17)], [MkDec (16424000000000001) (-13); MkDec (72999999999999998) (-16); MkDec (-80000000000000004) (-17); MkDec (0) (0)]);
  ([2; 0; 0; (-2); 0; 0; 0; 0; 0], [MkDec (-27999999999999998) (-16); MkDec (47716999999999998) (-13); MkDec (0) (0); MkDec (5) (-1)], [MkDec (47899999999999999) (-15); MkDec (32000000000000002) (-16); MkDec (0) (0); MkDec (0) (0)]);
  ([2; 0; 2; 0; 2; 0; 0; 0; 0], [MkDec (13800000000000001) (-15); MkDec (-30993000000000002) (-13); MkDec (0) (0); MkDec (-29999999999999999) (-17)], [MkDec (13212) (-1); MkDec (62000000000000002) (-16); MkDec (-59999999999999998) (-17); MkDec (0) (0)]);
  ([1; 0; 2; (-2); 2; 0; 0; 0; 0], [MkDec (20000000000000001) (-17); MkDec (28603000000000002) (-13); MkDec (0) (0); MkDec (29999999999999999) (-17)], [MkDec (-12340999999999999) (-13); MkDec (-29999999999999999) (-17); MkDec (59999999999999998) (-17); MkDec (0) (0)]);
  ([(-1); 0; 2; 0; 1; 0; 0; 0; 0], [MkDec (13999999999999999) (-16); MkDec (20453) (-1); MkDec (0) (0); MkDec (2) (0)], [MkDec (-10765) (-1); MkDec (-29999999999999999) (-17); MkDec (0) (0); MkDec (0) (0)]);
  ([2; 0; 0; 0; 0; 0; 0; 0; 0], [MkDec (-85999999999999996) (-16); MkDec (29225999999999999) (-13); MkDec (0) (0); MkDec (29999999999999999) (-17)], [MkDec (-61600000000000001) (-15); MkDec (18) (-1); MkDec (0) (0); MkDec (0) (0)]);
  ([0; 0; 2; 0; 0; 0; 0; 0; 0], [MkDec (-77000000000000002) (-16); MkDec (25879000000000001) (-13); MkDec (0) (0); MkDec (20000000000000001) (-17)], [MkDec (-55399999999999999) (-15); MkDec (16000000000000001) (-16); MkDec (0) (0); MkDec (0) (0)]);
  ([0; 1; 0; 0; 1; 0; 0; 0; 0], [MkDec (88000000000000007) (-16); MkDec (-14080999999999999) (-13); MkDec (0) (0); MkDec (37000000000000002) (-16)], [MkDec (85689999999999998) (-14); MkDec (-49000000000000004) (-16); MkDec (-21000000000000001) (-16); MkDec (0) (0)]);
  ([(-1); 0; 0; 2; 1; 0; 0; 0; 0], [MkDec (13999999999999999) (-16); MkDec (15175) (-1); MkDec (0) (0); MkDec (15) (-1)], [MkDec (-80070000000000005) (-14); MkDec (-10000000000000001) (-17); MkDec (0) (0); MkDec (0) (0)]);
  ([0; 2; 2; (-2); 2; 0; 0; 0; 0], [MkDec (-18999999999999999) (-16); MkDec (-15797) (-1); MkDec (0) (0); MkDec (77000000000000002) (-16)], [MkDec (68510000000000002) (-14); MkDec (-59999999999999998) (-17); MkDec (-37999999999999998) (-16); MkDec (0) (0)]);
  ([0; 0; 2; (-2); 0; 0; 0; 0; 0], [MkDec (13) (-1); MkDec (-21785999999999999) (-13); MkDec (0) (0); MkDec (-20000000000000001) (-17)], [MkDec (-16899999999999999) (-15); MkDec (-15) (-1); MkDec (0) (0); MkDec (0) (0)]);
  ([(-1); 0; 0; 2; (-1); 0; 0; 0; 0], [MkDec (-47999999999999998) (-16); MkDec (12868) (-1); MkDec (0) (0); MkDec (13) (-1)], [MkDec (69570000000000005) (-14); MkDec (18) (-1); MkDec (0) (0); MkDec (0) (0)]);
  ([0; 1; 0; 0; (-1); 0; 0; 0; 0], [MkDec (62999999999999998) (-16); MkDec (12672) (-1); MkDec (0) (0); MkDec (-4) (0)], [MkDec (64220000000000005) (-14); MkDec (-26000000000000001) (-16); MkDec (-16000000000000001) (-16); MkDec (0) (0)]);
  ([0; 2; 0; 0; 0; 0; 0; 0; 0], [MkDec (-1) (0); MkDec (16693) (-1); MkDec (0) (0); MkDec (-83000000000000007) (-16)], [MkDec (13300000000000001) (-15); MkDec (11000000000000001) (-16); MkDec (-10000000000000001) (-17); MkDec (0) (0)]);
  ([(-1); 0; 2; 2; 1; 0; 0; 0; 0], [MkDec (23999999999999999) (-16); MkDec (-1020) (0); MkDec (0) (0); MkDec (-90000000000000002) (-17)], [MkDec (52189999999999998) (-14); MkDec (16000000000000001) (-16); MkDec (0) (0); MkDec (0) (0)]);
  ([1; 0; 2; 2; 2; 0; 0; 0; 0], [MkDec (45) (-1); MkDec (-76689999999999998) (-14); MkDec (0) (0); MkDec (0) (0)], [MkDec (32580000000000001) (-14); MkDec (2) (0); MkDec (-10000000000000001) (-17); MkDec (0) (0)]);
  ([0; 1; 2; 0; 2; 0; 0; 0; 0], [MkDec (-11000000000000001) (-16); MkDec (7565) (-1); MkDec (0) (0); MkDec (-17) (-1)], [MkDec (-32510000000000002) (-14); MkDec (-5) (-1); MkDec (90000000000000002) (-17); MkDec (0) (0)]);
  ([(-2); 0; 2; 0; 0; 0; 0; 0; 0], [MkDec (-13999999999999999) (-16); MkDec (-10973) (-1); MkDec (0) (0); MkDec (-5) (-1)], [MkDec (101) (-1); MkDec (29999999999999999) (-17); MkDec (0) (0); MkDec (0) (0)]);
  ([0; 0; 2; 2; 1; 0; 0; 0; 0], [MkDec (26000000000000001) (-16); MkDec (-663) (0); MkDec (0) (0); MkDec (-59999999999999998) (-17)], [MkDec (3345) (-1); MkDec (16000000000000001) (-16); MkDec (0) (0); MkDec (0) (0)]);
  ([0; (-1); 2; 0; 2; 0; 0; 0; 0], [MkDec (80000000000000004) (-17); MkDec (-71410000000000002) (-14); MkDec (0) (0); MkDec (16000000000000001) (-16)], [MkDec (30710000000000002) (-14); MkDec (40000000000000002) (-17); MkDec (-90000000000000002) (-17); MkDec (0) (0)]);
  ([0; 0; 0; 2; 1; 0; 0; 0; 0], [MkDec (40000000000000002) (-17); MkDec (-62989999999999998) (-14); MkDec (0) (0); MkDec (-59999999999999998) (-17)], [MkDec (32719999999999999) (-14); MkDec (5) (-1); MkDec (0) (0); MkDec (0) (0)]);
  ([1; 0; 2; (-2); 1; 0; 0; 0; 0], [MkDec (29999999999999999) (-17); MkDec (58039999999999998) (-14); MkDec (0) (0); MkDec (59999999999999998) (-17)], [MkDec (-30460000000000002) (-14); MkDec (-10000000000000001) (-17); MkDec (0) (0); MkDec (0) (0)]);
  ([2; 0; 0; (-2); (-1); 0; 0; 0; 0], [MkDec (-16000000000000001) (-16); MkDec (57729999999999995) (-14); MkDec (0) (0); MkDec (5) (-1)], [MkDec (304) (0); MkDec (59999999999999998) (-17); MkDec (0) (0); MkDec (0) (0)]);
  ([2; 0; 2; (-2); 2; 0; 0; 0; 0], [MkDec (-90000000000000002) (-17); MkDec (64439999999999998) (-14); MkDec (0) (0); MkDec (0) (0)], [MkDec (-27680000000000001) (-14); MkDec (-5) (-1); MkDec (10000000000000001) (-17); MkDec (0) (0)]);
  ([2; 0; 2; 0; 1; 0; 0; 0; 0], [MkDec (22000000000000002) (-16); MkDec (-534) (0); MkDec (0) (0); MkDec (-5) (-1)], [MkDec (26889999999999998) (-14); MkDec (13) (-1); MkDec (0) (0); MkDec (0) (0)]);
  ([0; 0; 0; 2; (-1); 0; 0; 0; 0], [MkDec (-25) (-1); MkDec (49330000000000001) (-14); MkDec (0) (0); MkDec (5) (-1)], [MkDec (27180000000000001) (-14); MkDec (11000000000000001) (-16); MkDec (0) (0); MkDec (0) (0)]);
  ([0; (-1); 2; (-2); 1; 0; 0; 0; 0], [MkDec (-10000000000000001) (-17); MkDec (-47730000000000001) (-14); MkDec (0) (0); MkDec (-23999999999999999) (-16)], [MkDec (2715) (-1); MkDec (-40000000000000002) (-17); MkDec (-80000000000000004) (-17); MkDec (0) (0)]);
  ([(-1); (-1); 0; 2; 0; 0; 0; 0; 0], [MkDec (-90000000000000002) (-17); MkDec (735) (0); MkDec (0) (0); MkDec (-17) (-1)], [MkDec (-52000000000000002) (-16); MkDec (5) (-1); MkDec (0) (0); MkDec (0) (0)]);
  ([2; 0; 0; (-2); 1; 0; 0; 0; 0], [MkDec (69999999999999996) (-17); MkDec (40619999999999999) (-14); MkDec (0) (0); MkDec (40000000000000002) (-17)], [MkDec (-2205) (-1); MkDec (10000000000000001) (-17); MkDec (0) (0); MkDec (0) (0)]);
  ([1; 0; 0; 2; 0; 0; 0; 0; 0], [MkDec (-27999999999999998) (-16); MkDec (65689999999999998) (-14); MkDec (0) (0); MkDec (0) (0)], [MkDec (-20100000000000001) (-15); MkDec (29999999999999999) (-17); MkDec (0) (0); MkDec (0) (0)]);
  ([0; 1; 2; (-2); 1; 0; 0; 0; 0], [MkDec (59999999999999998) (-17); MkDec (358) (0); MkDec (0) (0); MkDec (2) (0)], [MkDec (-191) (0); MkDec (10000000000000001) (-17); MkDec (5) (-1); MkDec (0) (0)]);
  ([1; (-1); 0; 0; 0; 0; 0; 0; 0], [MkDec (-69999999999999996) (-17); MkDec (4725) (-1); MkDec (0) (0); MkDec (-11000000000000001) (-16)], [MkDec (-40999999999999996) (-16); MkDec (29999999999999999) (-17); MkDec (0) (0); MkDec (0) (0)]);
  ([(-2); 0; 2; 0; 2; 0; 0; 0; 0], [MkDec (-10000000000000001) (-17); MkDec (-3005) (-1); MkDec (0) (0); MkDec (0) (0)], [MkDec (13059999999999999) (-14); MkDec (-10000000000000001) (-17); MkDec (0) (0); MkDec (0) (0)]);
  ([0; (-1); 0; 2; 0; 0; 0; 0; 0], [MkDec (-12) (-1); MkDec (43510000000000002) (-14); MkDec (0) (0); MkDec (-1) (0)], [MkDec (3) (0); MkDec (29999999999999999) (-17); MkDec (0) (0); MkDec (0) (0)]);
  ([3; 0; 2; 0; 2; 0; 0; 0; 0], [MkDec (18) (-1); MkDec (-28939999999999998) (-14); MkDec (0) (0); MkDec (0) (0)], [MkDec (12290000000000001) (-14); MkDec (80000000000000004) (-17); MkDec (0) (0); MkDec (0) (0)]);
  ([0; 0; 0; 1; 0; 0; 0; 0; 0], [MkDec (59999999999999998) (-17); MkDec (-42260000000000002) (-14); MkDec (0) (0); MkDec (0) (0)], [MkDec (37000000000000002) (-16); MkDec (-29999999999999999) (-17); MkDec (0) (0); MkDec (0) (0)]);
  ([1; (-1); 2; 0; 2; 0; 0; 0; 0], [MkDec (80000000000000004) (-17); MkDec (-28760000000000002) (-14); MkDec (0) (0); MkDec (59999999999999998) (-17)], [MkDec (12309999999999999) (-14); MkDec (40000000000000002) (-17); MkDec (-29999999999999999) (-17); MkDec (0) (0)]);
  ([1; 0; 0; (-1); 0; 0; 0; 0; 0], [MkDec (-38600000000000001) (-15); MkDec (-39230000000000001) (-14); MkDec (0) (0); MkDec (0) (0)], [MkDec (-52700000000000003) (-15); MkDec (15300000000000001) (-15); MkDec (0) (0); MkDec (0) (0)]);
  ([(-1); (-1); 2; 2; 2; 0; 0; 0; 0], [MkDec (69999999999999996) (-17); MkDec (-28180000000000001) (-14); MkDec (0) (0); MkDec (59999999999999998) (-17)], [MkDec (1207) (-1); MkDec (29999999999999999) (-17); MkDec (-29999999999999999) (-17); MkDec (0) (0)]);
  ([(-1); 0; 2; 0; 0; 0; 0; 0; 0], [MkDec (59999999999999998) (-17); MkDec (-40569999999999999) (-14); MkDec (0) (0); MkDec (0) (0)], [MkDec (4) (0); MkDec (-29999999999999999) (-17); MkDec (0) (0); MkDec (0) (0)]);
  ([2; 0; 0; 0; (-1); 0; 0; 0; 0], [MkDec (-12) (-1); MkDec (229) (0); MkDec (0) (0); MkDec (20000000000000001) (-17)], [MkDec (1265) (-1); MkDec (5) (-1); MkDec (0) (0); MkDec (0) (0)]);
  ([0; (-1); 2; 2; 2; 0; 0; 0; 0], [MkDec (11000000000000001) (-16); MkDec (-26430000000000001) (-14); MkDec (0) (0); MkDec (5) (-1)], [MkDec (1127) (-1); MkDec (5) (-1); MkDec (-29999999999999999) (-17); MkDec (0) (0)]);
  ([1; 1; 2; 0; 2; 0; 0; 0; 0], [MkDec (-69999999999999996) (-17); MkDec (24790000000000001) (-14); MkDec (0) (0); MkDec (-5) (-1)], [MkDec (-10609999999999999) (-14); MkDec (-29999999999999999) (-17); MkDec (29999999999999999) (-17); MkDec (0) (0)]);
  ([2; 0; 0; 0; 1; 0; 0; 0; 0], [MkDec (-20000000000000001) (-17); MkDec (218) (0); MkDec (0) (0); MkDec (20000000000000001) (-17)], [MkDec (-11290000000000001) (-14); MkDec (-20000000000000001) (-17); MkDec (0) (0); MkDec (0) (0)]);
  ([1; 1; 0; 0; 0; 0; 0; 0; 0], [MkDec (59999999999999998) (-17); MkDec (-339) (0); MkDec (0) (0); MkDec (80000000000000004) (-17)], [MkDec (36000000000000001) (-16); MkDec (-20000000000000001) (-17); MkDec (0) (0); MkDec (0) (0)]);
  ([1; 0; (-2); 2; (-1); 0; 0; 0; 0], [MkDec (-69999999999999996) (-17); MkDec (19869999999999999) (-14); MkDec (0) (0); MkDec (20000000000000001) (-17)], [MkDec (10740000000000001) (-14); MkDec (29999999999999999) (-17); MkDec (0) (0); MkDec (0) (0)]);
  ([1; 0; 2; 0; 0; 0; 0; 0; 0], [MkDec (-15) (-1); MkDec (334) (0); MkDec (0) (0); MkDec (0) (0)], [MkDec (-109) (-1); MkDec (20000000000000001) (-17); MkDec (0) (0); MkDec (0) (0)]);
  ([(-1); 1; 0; 1; 0; 0; 0; 0; 0], [MkDec (10000000000000001) (-17); MkDec (334) (0); MkDec (0) (0); MkDec (0) (0)], [MkDec (-90000000000000002) (-17); MkDec (0) (0); MkDec (0) (0); MkDec (0) (0)]);
  ([1; 0; 0; 0; 2; 0; 0; 0; 0], [MkDec (-10000000000000001) (-17); MkDec (-19809999999999999) (-14); MkDec (0) (0); MkDec (0) (0)], [MkDec (85400000000000006) (-15); MkDec (0) (0); MkDec (0) (0); MkDec (0) (0)]);
  ([(-1); 0; 1; 0; 1; 0; 0; 0; 0], [MkDec (-10659999999999999) (-14); MkDec (0) (0); MkDec (0) (0); MkDec (0) (0)], [MkDec (0) (0); MkDec (-88799999999999997) (-15); MkDec (0) (0); MkDec (0) (0)]);
  ([0; 0; 2; 1; 2; 0; 0; 0; 0], [MkDec (-5) (-1); MkDec (16580000000000001) (-14); MkDec (0) (0); MkDec (0) (0)], [MkDec (-71) (0); MkDec (-20000000000000001) (-17); MkDec (0) (0); MkDec (0) (0)]);
  ([(-1); 1; 0; 1; 1; 0; 0; 0; 0], [MkDec (0) (0); MkDec (13480000000000001) (-14); MkDec (0) (0); MkDec (0) (0)], [MkDec (-70299999999999997) (-15); MkDec (0) (0); MkDec (0) (0); MkDec (0) (0)]);
  ([(-1); 0; 2; 4; 2; 0; 0; 0; 0], [MkDec (90000000000000002) (-17); MkDec (-15159999999999999) (-14); MkDec (0) (0); MkDec (0) (0)], [MkDec (645) (-1); MkDec (40000000000000002) (-17); MkDec (0) (0); MkDec (0) (0)]);
  ([0; (-2); 2; (-2); 1; 0; 0; 0; 0], [MkDec (0) (0); MkDec (-12969999999999999) (-14); MkDec (0) (0); MkDec (0) (0)], [MkDec (69799999999999997) (-15); MkDec (0) (0); MkDec (0) (0); MkDec (0) (0)]);
  ([1; 0; 2; 2; 1; 0; 0; 0; 0], [MkDec (80000000000000004) (-17); MkDec (-13280000000000001) (-14); MkDec (0) (0); MkDec (-10000000000000001) (-17)], [MkDec (66099999999999994) (-15); MkDec (40000000000000002) (-17); MkDec (0) (0); MkDec (0) (0)]);
  ([1; 0; 0; 0; (-2); 0; 0; 0; 0], [MkDec (5) (-1); MkDec (-14069999999999999) (-14); MkDec (0) (0); MkDec (0) (0)], [MkDec (-61) (0); MkDec (-20000000000000001) (-17); MkDec (0) (0); MkDec (0) (0)]);
  ([(-2); 0; 2; 2; 2; 0; 0; 0; 0], [MkDec (-10000000000000001) (-17); MkDec (13840000000000001) (-14); MkDec (0) (0); MkDec (0) (0)], [MkDec (-595) (-1); MkDec (-10000000000000001) (-17); MkDec (0) (0); MkDec (0) (0)]);
  ([1; 1; 2; (-2); 2; 0; 0; 0; 0], [MkDec (0) (0); MkDec (129) (0); MkDec (0) (0); MkDec (-29999999999999999) (-17)], [MkDec (-55600000000000001) (-15); MkDec (0) (0); MkDec (20000000000000001) (-17); MkDec (0) (0)]);
  ([(-2); 0; 2; 4; 2; 0; 0; 0; 0], [MkDec (5) (-1); MkDec (-1212) (-1); MkDec (0) (0); MkDec (0) (0)], [MkDec (51700000000000003) (-15); MkDec (20000000000000001) (-17); MkDec (0) (0); MkDec (0) (0)]);
  ([(-1); 0; 4; 0; 2; 0; 0; 0; 0], [MkDec (-29999999999999999) (-17); MkDec (1145) (-1); MkDec (0) (0); MkDec (0) (0)], [MkDec (-49) (0); MkDec (-10000000000000001) (-17); MkDec (0) (0); MkDec (0) (0)]);
  ([2; 0; 2; (-2); 1; 0; 0; 0; 0], [MkDec (-10000000000000001) (-17); MkDec (1018) (-1); MkDec (0) (0); MkDec (0) (0)], [MkDec (-52700000000000003) (-15); MkDec (-10000000000000001) (-17); MkDec (0) (0); MkDec (0) (0)]);
  ([1; 0; 0; (-1); (-1); 0; 0; 0; 0], [MkDec (-36000000000000001) (-16); MkDec (-10190000000000001) (-14); MkDec (0) (0); MkDec (0) (0)], [MkDec (-49600000000000001) (-15); MkDec (13999999999999999) (-16); MkDec (0) (0); MkDec (0) (0)]);
  ([2; 0; 2; 2; 2; 0; 0; 0; 0], [MkDec (80000000000000004) (-17); MkDec (-10940000000000001) (-14); MkDec (0) (0); MkDec (0) (0)], [MkDec (46299999999999997) (-15); MkDec (40000000000000002) (-17); MkDec (0) (0); MkDec (0) (0)]);
  ([1; 0; 0; 2; 1; 0; 0; 0; 0], [MkDec (20000000000000001) (-17); MkDec (-97) (0); MkDec (0) (0); MkDec (0) (0)], [MkDec (49600000000000001) (-15); MkDec (10000000000000001) (-17); MkDec (0) (0); MkDec (0) (0)]);
  ([3; 0; 0; 0; 0; 0; 0; 0; 0], [MkDec (-69999999999999996) (-17); MkDec (15730000000000001) (-14); MkDec (0) (0); MkDec (0) (0)], [MkDec (-50999999999999996) (-16); MkDec (10000000000000001) (-17); MkDec (0) (0); MkDec (0) (0)]);
  ([0; 0; 2; (-2); (-1); 0; 0; 0; 0], [MkDec (20000000000000001) (-17); MkDec (-83299999999999997) (-15); MkDec (0) (0); MkDec (0) (0)], [MkDec (-44) (0); MkDec (-10000000000000001) (-17); MkDec (0) (0); MkDec (0) (0)]);
  ([3; 0; 2; (-2); 2; 0; 0; 0; 0], [MkDec (-29999999999999999) (-17); MkDec (93299999999999997) (-15); MkDec (0) (0); MkDec (0) (0)], [MkDec (-39899999999999999) (-15); MkDec (-10000000000000001) (-17); MkDec (0) (0); MkDec (0) (0)]);
  ([0; 0; 4; (-2); 2; 0; 0; 0; 0], [MkDec (-10000000000000001) (-17); MkDec (92099999999999994) (-15); MkDec (0) (0); MkDec (0) (0)], [MkDec (-395) (-1); MkDec (-10000000000000001) (-17); MkDec (0) (0); MkDec (0) (0)]);
  ([(-1); 0; 0; 4; 0; 0; 0; 0; 0], [MkDec (-5) (-1); MkDec (13359999999999999) (-14); MkDec (0) (0); MkDec (0) (0)], [MkDec (-38999999999999999) (-16); MkDec (10000000000000001) (-17); MkDec (0) (0); MkDec (0) (0)]);
  ([0; 1; 2; 0; 1; 0; 0; 0; 0], [MkDec (-10000000000000001) (-17); MkDec (815) (-1); MkDec (0) (0); MkDec (0) (0)], [MkDec (-42100000000000001) (-15); MkDec (-10000000000000001) (-17); MkDec (0) (0); MkDec (0) (0)]);
  ([0; 0; 2; (-2); 3; 0; 0; 0; 0], [MkDec (0) (0); MkDec (12390000000000001) (-14); MkDec (0) (0); MkDec (0) (0)], [MkDec (-17199999999999999) (-15); MkDec (10000000000000001) (-17); MkDec (0) (0); MkDec (0) (0)]);
  ([(-2); 0; 0; 4; 0; 0; 0; 0; 0], [MkDec (-29999999999999999) (-17); MkDec (12809999999999999) (-14); MkDec (0) (0); MkDec (0) (0)], [MkDec (-22999999999999998) (-16); MkDec (10000000000000001) (-17); MkDec (0) (0); MkDec (0) (0)]);
  ([(-1); (-1); 0; 2; 1; 0; 0; 0; 0], [MkDec (10000000000000001) (-17); MkDec (74099999999999994) (-15); MkDec (0) (0); MkDec (-29999999999999999) (-17)], [MkDec (-39200000000000003) (-15); MkDec (0) (0); MkDec (0) (0); MkDec (0) (0)]);
  ([(-2); 0; 2; 0; (-1); 0; 0; 0; 0], [MkDec (-20000000000000001) (-17); MkDec (-70299999999999997) (-15); MkDec (0) (0); MkDec (0) (0)], [MkDec (-38399999999999999) (-15); MkDec (10000000000000001) (-17); MkDec (0) (0); MkDec (0) (0)]);
  ([0; 0; 2; 0; (-1); 0; 0; 0; 0], [MkDec (-40000000000000002) (-17); MkDec (66599999999999994) (-15); MkDec (0) (0); MkDec (0) (0)], [MkDec (36799999999999997) (-15); MkDec (20000000000000001) (-17); MkDec (0) (0); MkDec (0) (0)]);
  ([0; (-1); 2; 0; 1; 0; 0; 0; 0], [MkDec (10000000000000001) (-17); MkDec (-66700000000000003) (-15); MkDec (0) (0); MkDec (0) (0)], [MkDec (34600000000000001) (-15); MkDec (10000000000000001) (-17); MkDec (0) (0); MkDec (0) (0)]);
  ([0; 1; 0; 0; 2; 0; 0; 0; 0], [MkDec (-69999999999999996) (-17); MkDec (69299999999999997) (-15); MkDec (0) (0); MkDec (-29999999999999999) (-17)], [MkDec (-32700000000000003) (-15); MkDec (29999999999999999) (-17); MkDec (0) (0); MkDec (0) (0)]);
  ([0; 0; 2; (-1); 2; 0; 0; 0; 0], [MkDec (0) (0); MkDec (-70400000000000006) (-15); MkDec (0) (0); MkDec (0) (0)], [MkDec (30399999999999999) (-15); MkDec (0) (0); MkDec (0) (0); MkDec (0) (0)]);
  ([2; 1; 0; (-2); 0; 0; 0; 0; 0], [MkDec (-10000000000000001) (-17); MkDec (1015) (-1); MkDec (0) (0); MkDec (0) (0)], [MkDec (40000000000000002) (-17); MkDec (10000000000000001) (-17); MkDec (0) (0); MkDec (0) (0)]);
  ([0; 0; 2; 4; 2; 0; 0; 0; 0], [MkDec (5) (-1); MkDec (-69099999999999994) (-15); MkDec (0) (0); MkDec (0) (0)], [MkDec (29300000000000001) (-15); MkDec (20000000000000001) (-17); MkDec (0) (0); MkDec (0) (0)]);
  ([(-1); (-1); 0; 2; (-1); 0; 0; 0; 0], [MkDec (-20000000000000001) (-17); MkDec (585) (-1); MkDec (0) (0); MkDec (20000000000000001) (-17)], [MkDec (31600000000000001) (-15); MkDec (10000000000000001) (-17); MkDec (0) (0); MkDec (0) (0)]);
  ([(-1); 1; 0; 2; 0; 0; 0; 0; 0], [MkDec (10000000000000001) (-17); MkDec (-94900000000000006) (-15); MkDec (0) (0); MkDec (20000000000000001) (-17)], [MkDec (80000000000000004) (-17); MkDec (-10000000000000001) (-17); MkDec (0) (0); MkDec (0) (0)]);
  ([1; (-1); 0; 0; 1; 0; 0; 0; 0], [MkDec (0) (0); MkDec (52899999999999999) (-15); MkDec (0) (0); MkDec (-20000000000000001) (-17)], [MkDec (-27899999999999999) (-15); MkDec (0) (0); MkDec (0) (0); MkDec (0) (0)]);
  ([0; (-1); 2; (-2); 0; 0; 0; 0; 0], [MkDec (10000000000000001) (-17); MkDec (86700000000000003) (-15); MkDec (0) (0); MkDec (-20000000000000001) (-17)], [MkDec (28999999999999999) (-16); MkDec (0) (0); MkDec (0) (0); MkDec (0) (0)]);
  ([0; 1; 0; 0; (-2); 0; 0; 0; 0], [MkDec (-10000000000000001) (-17); MkDec (-59200000000000003) (-15); MkDec (0) (0); MkDec (20000000000000001) (-17)], [MkDec (-25300000000000001) (-15); MkDec (0) (0); MkDec (0) (0); MkDec (0) (0)]);
  ([1; (-1); 2; 2; 2; 0; 0; 0; 0], [MkDec (29999999999999999) (-17); MkDec (-58799999999999997) (-15); MkDec (0) (0); MkDec (10000000000000001) (-17)], [MkDec (25) (0); MkDec (10000000000000001) (-17); MkDec (0) (0); MkDec (0) (0)]);
  ([1; 0; 0; 2; (-1); 0; 0; 0; 0], [MkDec (-29999999999999999) (-17); MkDec (49) (0); MkDec (0) (0); MkDec (0) (0)], [MkDec (275) (-1); MkDec (10000000000000001) (-17); MkDec (0) (0); MkDec (0) (0)]);
  ([(-1); 1; 2; 2; 2; 0; 0; 0; 0], [MkDec (-20000000000000001) (-17); MkDec (56899999999999999) (-15); MkDec (0) (0); MkDec (-10000000000000001) (-17)], [MkDec (-24399999999999999) (-15); MkDec (-10000000000000001) (-17); MkDec (0) (0); MkDec (0) (0)]);
  ([3; 0; 2; 0; 1; 0; 0; 0; 0], [MkDec (29999999999999999) (-17); MkDec (-50200000000000003) (-15); MkDec (0) (0); MkDec (0) (0)], [MkDec (24899999999999999) (-15); MkDec (20000000000000001) (-17); MkDec (0) (0); MkDec (0) (0)]);
  ([0; 1; 2; 2; 2; 0; 0; 0; 0], [MkDec (-20000000000000001) (-17); MkDec (53399999999999999) (-15); MkDec (0) (0); MkDec (-10000000000000001) (-17)], [MkDec (-22800000000000001) (-15); MkDec (-10000000000000001) (-17); MkDec (0) (0); MkDec (0) (0)]);
  ([1; 0; 2; (-2); 0; 0; 0; 0; 0], [MkDec (10000000000000001) (-17); MkDec (-765) (-1); MkDec (0) (0); MkDec (0) (0)], [MkDec (90000000000000002) (-17); MkDec (-10000000000000001) (-17); MkDec (0) (0); MkDec (0) (0)]);
  ([(-1); 0; (-2); 4; (-1); 0; 0; 0; 0], [MkDec (-20000000000000001) (-17); MkDec (45299999999999997) (-15); MkDec (0) (0); MkDec (0) (0)], [MkDec (24399999999999999) (-15); MkDec (10000000000000001) (-17); MkDec (0) (0); MkDec (0) (0)]);
  ([(-1); (-1); 2; 2; 1; 0; 0; 0; 0], [MkDec (10000000000000001) (-17); MkDec (-46799999999999997) (-15); MkDec (0) (0); MkDec (0) (0)], [MkDec (23899999999999999) (-15); MkDec (10000000000000001) (-17); MkDec (0) (0); MkDec (0) (0)]);
  ([0; (-1); 2; 2; 1; 0; 0; 0; 0], [MkDec (20000000000000001) (-17); MkDec (-44600000000000001) (-15); MkDec (0) (0); MkDec (0) (0)], [MkDec (225) (-1); MkDec (10000000000000001) (-17); MkDec (0) (0); MkDec (0) (0)]);
  ([2; (-1); 2; 0; 2; 0; 0; 0; 0], [MkDec (20000000000000001) (-17); MkDec (-48700000000000003) (-15); MkDec (0) (0); MkDec (0) (0)], [MkDec (20800000000000001) (-15); MkDec (10000000000000001) (-17); MkDec (0) (0); MkDec (0) (0)]);
  ([0; 0; 0; 2; 2; 0; 0; 0; 0], [MkDec (10000000000000001) (-17); MkDec (-46799999999999997) (-15); MkDec (0) (0); MkDec (0) (0)], [MkDec (20100000000000001) (-15); MkDec (0) (0); MkDec (0) (0); MkDec (0) (0)]);
  ([1; (-1); 2; 0; 1; 0; 0; 0; 0], [MkDec (10000000000000001) (-17); MkDec (-42) (0); MkDec (0) (0); MkDec (0) (0)], [MkDec (215) (-1); MkDec (10000000000000001) (-17); MkDec (0) (0); MkDec (0) (0)]);
  ([(-1); 1; 2; 0; 2; 0; 0; 0; 0], [MkDec (0) (0); MkDec (46399999999999999) (-15); MkDec (0) (0); MkDec (-10000000000000001) (-17)], [MkDec (-20) (0); MkDec (0) (0); MkDec (0) (0); MkDec (0) (0)]);
  ([0; 1; 0; 2; 0; 0; 0; 0; 0], [MkDec (20000000000000001) (-17); MkDec (-67299999999999997) (-15); MkDec (0) (0); MkDec (10000000000000001) (-17)], [MkDec (13999999999999999) (-16); MkDec (0) (0); MkDec (0) (0); MkDec (0) (0)]);
  ([0; 1; 2; (-2); 0; 0; 0; 0; 0], [MkDec (0) (0); MkDec (-65799999999999997) (-15); MkDec (0) (0); MkDec (20000000000000001) (-17)], [MkDec (-20000000000000001) (-17); MkDec (-10000000000000001) (-17); MkDec (0) (0); MkDec (0) (0)]);
  ([0; 3; 2; (-2); 2; 0; 0; 0; 0], [MkDec (-10000000000000001) (-17); MkDec (-43899999999999999) (-15); MkDec (0) (0); MkDec (29999999999999999) (-17)], [MkDec (19) (0); MkDec (0) (0); MkDec (-10000000000000001) (-17); MkDec (0) (0)]);
  ([0; 0; 0; 1; 1; 0; 0; 0; 0], [MkDec (0) (0); MkDec (-38899999999999999) (-15); MkDec (0) (0); MkDec (0) (0)], [MkDec (205) (-1); MkDec (0) (0); MkDec (0) (0); MkDec (0) (0)]);
  ([(-1); 0; 2; 2; 0; 0; 0; 0; 0], [MkDec (-29999999999999999) (-17); MkDec (63899999999999999) (-15); MkDec (0) (0); MkDec (0) (0)], [MkDec (-2) (0); MkDec (0) (0); MkDec (0) (0); MkDec (0) (0)]);
  ([2; 1; 2; 0; 2; 0; 0; 0; 0], [MkDec (-20000000000000001) (-17); MkDec (41200000000000003) (-15); MkDec (0) (0); MkDec (0) (0)], [MkDec (-17600000000000001) (-15); MkDec (-10000000000000001) (-17); MkDec (0) (0); MkDec (0) (0)]);
  ([1; 1; 0; 0; 1; 0; 0; 0; 0], [MkDec (0) (0); MkDec (-36100000000000001) (-15); MkDec (0) (0); MkDec (20000000000000001) (-17)], [MkDec (19) (0); MkDec (0) (0); MkDec (0) (0); MkDec (0) (0)]);
  ([2; 0; 0; 2; 0; 0; 0; 0; 0], [MkDec (-29999999999999999) (-17); MkDec (585) (-1); MkDec (0) (0); MkDec (0) (0)], [MkDec (-23999999999999999) (-16); MkDec (0) (0); MkDec (0) (0); MkDec (0) (0)]);
  ([1; 1; 2; 0; 1; 0; 0; 0; 0], [MkDec (-10000000000000001) (-17); MkDec (36100000000000001) (-15); MkDec (0) (0); MkDec (0) (0)], [MkDec (-18399999999999999) (-15); MkDec (-10000000000000001) (-17); MkDec (0) (0); MkDec (0) (0)]);
  ([(-1); 0; 0; 2; 2; 0; 0; 0; 0], [MkDec (0) (0); MkDec (-39700000000000003) (-15); MkDec (0) (0); MkDec (0) (0)], [MkDec (17100000000000001) (-15); MkDec (0) (0); MkDec (0) (0); MkDec (0) (0)]);
  ([1; 0; (-2); 2; 0; 0; 0; 0; 0], [MkDec (10000000000000001) (-17); MkDec (-57700000000000003) (-15); MkDec (0) (0); MkDec (0) (0)], [MkDec (40000000000000002) (-17); MkDec (0) (0); MkDec (0) (0); MkDec (0) (0)]);
  ([0; (-1); 0; 2; (-1); 0; 0; 0; 0], [MkDec (-20000000000000001) (-17); MkDec (33399999999999999) (-15); MkDec (0) (0); MkDec (0) (0)], [MkDec (18399999999999999) (-15); MkDec (10000000000000001) (-17); MkDec (0) (0); MkDec (0) (0)]);
  ([(-1); 0; 1; 0; 2; 0; 0; 0; 0], [MkDec (36399999999999999) (-15); MkDec (0) (0); MkDec (0) (0); MkDec (0) (0)], [MkDec (0) (0); MkDec (17399999999999999) (-15); MkDec (0) (0); MkDec (0) (0)]);
  ([0; 1; 0; 1; 0; 0; 0; 0; 0], [MkDec (-10000000000000001) (-17); MkDec (55700000000000003) (-15); MkDec (0) (0); MkDec (-10000000000000001) (-17)], [MkDec (-59999999999999998) (-17); MkDec (0) (0); MkDec (0) (0); MkDec (0) (0)]);
  ([1; 0; (-2); 2; (-2); 0; 0; 0; 0], [MkDec (10000000000000001) (-17); MkDec (-35399999999999999) (-15); MkDec (0) (0); MkDec (0) (0)], [MkDec (-154) (-1); MkDec (0) (0); MkDec (0) (0); MkDec (0) (0)]);
  ([0; 0; 0; 1; (-1); 0; 0; 0; 0], [MkDec (10000000000000001) (-17); MkDec (-31) (0); MkDec (0) (0); MkDec (0) (0)], [MkDec (-16800000000000001) (-15); MkDec (-10000000000000001) (-17); MkDec (0) (0); MkDec (0) (0)]);
  ([1; (-1); 0; 0; (-1); 0; 0; 0; 0], [MkDec (-10000000000000001) (-17); MkDec (30100000000000001) (-15); MkDec (0) (0); MkDec (0) (0)], [MkDec (16300000000000001) (-15); MkDec (0) (0); MkDec (0) (0); MkDec (0) (0)]);
  ([0; 0; 0; 4; 0; 0; 0; 0; 0], [MkDec (-29999999999999999) (-17); MkDec (49200000000000003) (-15); MkDec (0) (0); MkDec (0) (0)], [MkDec (-2) (0); MkDec (0) (0); MkDec (0) (0); MkDec (0) (0)]);
  ([1; (-1); 0; 2; 0; 0; 0; 0; 0], [MkDec (-20000000000000001) (-17); MkDec (49100000000000001) (-15); MkDec (0) (0); MkDec (0) (0)], [MkDec (-15) (-1); MkDec (0) (0); MkDec (0) (0); MkDec (0) (0)]);
  ([1; 0; 2; 1; 2; 0; 0; 0; 0], [MkDec (-10000000000000001) (-17); MkDec (33600000000000001) (-15); MkDec (0) (0); MkDec (0) (0)], [MkDec (-14300000000000001) (-15); MkDec (-10000000000000001) (-17); MkDec (0) (0); MkDec (0) (0)]);
  ([1; 0; 2; (-1); 2; 0; 0; 0; 0], [MkDec (10000000000000001) (-17); MkDec (-335) (-1); MkDec (0) (0); MkDec (0) (0)], [MkDec (144) (-1); MkDec (0) (0); MkDec (0) (0); MkDec (0) (0)]);
  ([(-1); 0; 0; 2; (-2); 0; 0; 0; 0], [MkDec (10000000000000001) (-17); MkDec (-31) (0); MkDec (0) (0); MkDec (0) (0)], [MkDec (-134) (-1); MkDec (0) (0); MkDec (0) (0); MkDec (0) (0)]);
  ([0; 0; 2; 1; 1; 0; 0; 0; 0], [MkDec (-10000000000000001) (-17); MkDec (28) (0); MkDec (0) (0); MkDec (0) (0)], [MkDec (-14300000000000001) (-15); MkDec (-10000000000000001) (-17); MkDec (0) (0); MkDec (0) (0)]);
  ([(-1); 0; 2; 0; (-1); 0; 0; 0; 0], [MkDec (10000000000000001) (-17); MkDec (-25199999999999999) (-15); MkDec (0) (0); MkDec (0) (0)], [MkDec (-13699999999999999) (-15); MkDec (0) (0); MkDec (0) (0); MkDec (0) (0)]);
  ([(-1); 0; 2; 4; 1; 0; 0; 0; 0], [MkDec (10000000000000001) (-17); MkDec (-26199999999999999) (-15); MkDec (0) (0); MkDec (0) (0)], [MkDec (131) (-1); MkDec (10000000000000001) (-17); MkDec (0) (0); MkDec (0) (0)]);
  ([0; 0; 2; 2; 0; 0; 0; 0; 0], [MkDec (-20000000000000001) (-17); MkDec (415) (-1); MkDec (0) (0); MkDec (0) (0)], [MkDec (-17) (-1); MkDec (0) (0); MkDec (0) (0); MkDec (0) (0)]);
  ([1; 1; 2; (-2); 1; 0; 0; 0; 0], [MkDec (0) (0); MkDec (245) (-1); MkDec (0) (0); MkDec (10000000000000001) (-17)], [MkDec (-12800000000000001) (-15); MkDec (0) (0); MkDec (0) (0); MkDec (0) (0)]);
  ([0; 0; 1; 0; 1; 0; 0; 0; 0], [MkDec (-16199999999999999) (-15); MkDec (0) (0); MkDec (0) (0); MkDec (0) (0)], [MkDec (0) (0); MkDec (-144) (-1); MkDec (0) (0); MkDec (0) (0)]);
  ([(-1); 0; 2; (-1); 1; 0; 0; 0; 0], [MkDec (0) (0); MkDec (-22300000000000001) (-15); MkDec (0) (0); MkDec (0) (0)], [MkDec (124) (-1); MkDec (0) (0); MkDec (0) (0); MkDec (0) (0)]);
  ([(-2); 0; 2; 2; 1; 0; 0; 0; 0], [MkDec (0) (0); MkDec (23100000000000001) (-15); MkDec (0) (0); MkDec (0) (0)], [MkDec (-12) (0); MkDec (0) (0); MkDec (0) (0); MkDec (0) (0)]);
  ([2; (-1); 0; 0; 0; 0; 0; 0; 0], [MkDec (-10000000000000001) (-17); MkDec (375) (-1); MkDec (0) (0); MkDec (0) (0)], [MkDec (-80000000000000004) (-17); MkDec (0) (0); MkDec (0) (0); MkDec (0) (0)]);
  ([4; 0; 2; 0; 2; 0; 0; 0; 0], [MkDec (20000000000000001) (-17); MkDec (-25699999999999999) (-15); MkDec (0) (0); MkDec (0) (0)], [MkDec (109) (-1); MkDec (10000000000000001) (-17); MkDec (0) (0); MkDec (0) (0)]);
  ([2; 1; 2; (-2); 2; 0; 0; 0; 0], [MkDec (0) (0); MkDec (25199999999999999) (-15); MkDec (0) (0); MkDec (0) (0)], [MkDec (-10800000000000001) (-15); MkDec (0) (0); MkDec (0) (0); MkDec (0) (0)]);
  ([0; 1; 2; 1; 2; 0; 0; 0; 0], [MkDec (10000000000000001) (-17); MkDec (-245) (-1); MkDec (0) (0); MkDec (0) (0)], [MkDec (105) (-1); MkDec (0) (0); MkDec (0) (0); MkDec (0) (0)]);
  ([1; 0; 4; (-2); 2; 0; 0; 0; 0], [MkDec (-10000000000000001) (-17); MkDec (24300000000000001) (-15); MkDec (0) (0); MkDec (0) (0)], [MkDec (-104) (-1); MkDec (0) (0); MkDec (0) (0); MkDec (0) (0)]);
  ([1; 1; 0; 0; (-1); 0; 0; 0; 0], [MkDec (10000000000000001) (-17); MkDec (-20699999999999999) (-15); MkDec (0) (0); MkDec (0) (0)], [MkDec (-11199999999999999) (-15); MkDec (0) (0); MkDec (0) (0); MkDec (0) (0)]);
  ([(-2); 0; 2; 4; 1; 0; 0; 0; 0], [MkDec (10000000000000001) (-17); MkDec (-20800000000000001) (-15); MkDec (0) (0); MkDec (0) (0)], [MkDec (105) (-1); MkDec (10000000000000001) (-17); MkDec (0) (0); MkDec (0) (0)]);
  ([2; 0; 2; 0; 0; 0; 0; 0; 0], [MkDec (-20000000000000001) (-17); MkDec (33399999999999999) (-15); MkDec (0) (0); MkDec (0) (0)], [MkDec (-13999999999999999) (-16); MkDec (0) (0); MkDec (0) (0); MkDec (0) (0)]);
  ([(-1); 0; 1; 0; 0; 0; 0; 0; 0], [MkDec (32899999999999999) (-15); MkDec (0) (0); MkDec (0) (0); MkDec (0) (0)], [MkDec (0) (0); MkDec (10000000000000001) (-17); MkDec (0) (0); MkDec (0) (0)]);
  ([1; 0; 0; 1; 0; 0; 0; 0; 0], [MkDec (10000000000000001) (-17); MkDec (-32600000000000001) (-15); MkDec (0) (0); MkDec (0) (0)], [MkDec (69999999999999996) (-17); MkDec (0) (0); MkDec (0) (0); MkDec (0) (0)]);
  ([0; 1; 0; 2; 1; 0; 0; 0; 0], [MkDec (0) (0); MkDec (19899999999999999) (-15); MkDec (0) (0); MkDec (0) (0)], [MkDec (-10300000000000001) (-15); MkDec (0) (0); MkDec (0) (0); MkDec (0) (0)]);
  ([(-1); 0; 4; 0; 1; 0; 0; 0; 0], [MkDec (-10000000000000001) (-17); MkDec (19600000000000001) (-15); MkDec (0) (0); MkDec (0) (0)], [MkDec (-10) (0); MkDec (0) (0); MkDec (0) (0); MkDec (0) (0)]);
  ([(-1); 0; 0; 4; 1; 0; 0; 0; 0], [MkDec (0) (0); MkDec (-18699999999999999) (-15); MkDec (0) (0); MkDec (0) (0)], [MkDec (95999999999999996) (-16); MkDec (0) (0); MkDec (0) (0); MkDec (0) (0)]);
  ([2; 0; 2; 2; 1; 0; 0; 0; 0], [MkDec (10000000000000001) (-17); MkDec (-19) (0); MkDec (0) (0); MkDec (0) (0)], [MkDec (94000000000000004) (-16); MkDec (10000000000000001) (-17); MkDec (0) (0); MkDec (0) (0)]);
  ([2; 1; 0; 0; 0; 0; 0; 0; 0], [MkDec (10000000000000001) (-17); MkDec (-28600000000000001) (-15); MkDec (0) (0); MkDec (0) (0)], [MkDec (59999999999999998) (-17); MkDec (0) (0); MkDec (0) (0); MkDec (0) (0)]);
  ([0; 0; 5; (-5); 5; (-3); 0; 0; 0], [MkDec (4) (0); MkDec (17880000000000001) (-14); MkDec (-11800000000000001) (-15); MkDec (29999999999999999) (-17)], [MkDec (-87700000000000003) (-15); MkDec (44000000000000004) (-16); MkDec (-40000000000000002) (-17); MkDec (-62999999999999998) (-16)]);
  ([0; 0; 0; 0; 0; 0; 0; 2; 0], [MkDec (39799999999999997) (-15); MkDec (-1073) (-1); MkDec (-55999999999999996) (-16); MkDec (-1) (0)], [MkDec (46299999999999997) (-15); MkDec (22399999999999999) (-15); MkDec (5) (-1); MkDec (-23999999999999999) (-16)]);
  ([0; 0; 1; (-1); 1; 0; 0; (-1); 0], [MkDec (99000000000000004) (-16); MkDec (164) (0); MkDec (-40999999999999996) (-16); MkDec (10000000000000001) (-17)], [MkDec (156) (-1); MkDec (-33999999999999999) (-16); MkDec (10000000000000001) (-17); MkDec (40000000000000002) (-17)]);
  ([0; 0; (-1); 1; (-1); 1; 0; 0; 0], [MkDec (-47999999999999998) (-16); MkDec (-13530000000000001) (-14); MkDec (-33999999999999999) (-16); MkDec (-10000000000000001) (-17)], [MkDec (52000000000000002) (-16); MkDec (57999999999999998) (-16); MkDec (20000000000000001) (-17); MkDec (-10000000000000001) (-17)]);
  ([0; 0; (-1); 1; 0; 0; 2; 0; 0], [MkDec (505) (-1); MkDec (75) (0); MkDec (13999999999999999) (-16); MkDec (-12) (-1)], [MkDec (-30100000000000001) (-15); MkDec (26899999999999999) (-15); MkDec (69999999999999996) (-17); MkDec (0) (0)]);
  ([0; 0; 3; (-3); 3; 0; 0; (-1); 0], [MkDec (-11000000000000001) (-16); MkDec (-535) (-1); MkDec (13) (-1); MkDec (0) (0)], [MkDec (23199999999999999) (-15); MkDec (-5) (-1); MkDec (0) (0); MkDec (59999999999999998) (-17)]);
  ([0; 0; (-8); 8; (-7); 5; 0; 0; 0], [MkDec (-45) (0); MkDec (-23999999999999999) (-16); MkDec (-40000000000000002) (-17); MkDec (65999999999999996) (-16)], [MkDec (1) (0); MkDec (23199999999999999) (-15); MkDec (33999999999999999) (-16); MkDec (0) (0)]);
  ([0; 0; (-1); 1; (-1); 0; 2; 0; 0], [MkDec (-115) (-1); MkDec (-61) (0); MkDec (-90000000000000002) (-17); MkDec (40000000000000002) (-17)], [MkDec (-12199999999999999) (-15); MkDec (-42999999999999998) (-16); MkDec (0) (0); MkDec (0) (0)]);
  ([0; 0; (-2); 2; (-2); 2; 0; 0; 0], [MkDec (44000000000000004) (-16); MkDec (-68400000000000006) (-15); MkDec (-33999999999999999) (-16); MkDec (0) (0)], [MkDec (-21000000000000001) (-16); MkDec (-37000000000000002) (-16); MkDec (-20000000000000001) (-17); MkDec (10000000000000001) (-17)]);
  ([0; 0; (-6); 6; (-6); 4; 0; 0; 0], [MkDec (77000000000000002) (-16); MkDec (-47100000000000001) (-15); MkDec (-47000000000000002) (-16); MkDec (-1) (0)], [MkDec (-18600000000000001) (-15); MkDec (-37999999999999998) (-16); MkDec (-40000000000000002) (-17); MkDec (18) (-1)]);
  ([0; 0; (-2); 2; (-2); 0; 8; (-3); 0], [MkDec (-42899999999999999) (-15); MkDec (-126) (-1); MkDec (-12) (-1); MkDec (42000000000000002) (-16)], [MkDec (55) (-1); MkDec (-18699999999999999) (-15); MkDec (-18) (-1); MkDec (-5) (-1)]);
  ([0; 0; 6; (-6); 6; 0; (-8); 3; 0], [MkDec (-42799999999999997) (-15); MkDec (12699999999999999) (-15); MkDec (-12) (-1); MkDec (-42000000000000002) (-16)], [MkDec (-55) (-1); MkDec (-18699999999999999) (-15); MkDec (18) (-1); MkDec (-5) (-1)]);
  ([0; 0; 4; (-4); 4; (-2); 0; 0; 0], [MkDec (-75999999999999996) (-16); MkDec (-44100000000000001) (-15); MkDec (21000000000000001) (-16); MkDec (-5) (-1)], [MkDec (18399999999999999) (-15); MkDec (-36000000000000001) (-16); MkDec (29999999999999999) (-17); MkDec (90000000000000002) (-17)]);
  ([0; 0; (-3); 3; (-3); 2; 0; 0; 0], [MkDec (-64099999999999994) (-15); MkDec (17) (-1); MkDec (20000000000000001) (-17); MkDec (45) (-1)], [MkDec (-59999999999999998) (-17); MkDec (13) (-1); MkDec (0) (0); MkDec (0) (0)]);
  ([0; 0; 4; (-4); 3; 0; (-8); 3; 0], [MkDec (36399999999999999) (-15); MkDec (-104) (-1); MkDec (1) (0); MkDec (35) (-1)], [MkDec (-55999999999999996) (-16); MkDec (-195) (-1); MkDec (18999999999999999) (-16); MkDec (0) (0)]);
  ([0; 0; (-4); 4; (-5); 0; 8; (-3); 0], [MkDec (35600000000000001) (-15); MkDec (10199999999999999) (-15); MkDec (1) (0); MkDec (-35) (-1)], [MkDec (55) (-1); MkDec (-19100000000000001) (-15); MkDec (-18999999999999999) (-16); MkDec (0) (0)]);
  ([0; 0; 0; 0; 0; 2; 0; 0; 0], [MkDec (-17) (-1); MkDec (395) (-1); MkDec (2) (0); MkDec (0) (0)], [MkDec (-17300000000000001) (-15); MkDec (-80000000000000004) (-17); MkDec (0) (0); MkDec (90000000000000002) (-17)]);
  ([0; 0; (-4); 4; (-4); 3; 0; 0; 0], [MkDec (50899999999999999) (-15); MkDec (-81999999999999993) (-16); MkDec (-80000000000000004) (-17); MkDec (-5) (0)], [MkDec (-32000000000000002) (-16); MkDec (-83000000000000007) (-16); MkDec (-80000000000000004) (-17); MkDec (29999999999999999) (-17)]);
  ([0; 1; (-1); 1; (-1); 0; 0; 1; 0], [MkDec (0) (0); MkDec (52299999999999997) (-15); MkDec (12) (-1); MkDec (0) (0)], [MkDec (-10000000000000001) (-17); MkDec (0) (0); MkDec (0) (0); MkDec (0) (0)]);
  ([0; 0; 0; 0; 0; 0; 0; 1; 0], [MkDec (-42899999999999999) (-15); MkDec (-17800000000000001) (-15); MkDec (40000000000000002) (-17); MkDec (0) (0)], [MkDec (-54000000000000004) (-16); MkDec (77999999999999998) (-16); MkDec (-29999999999999999) (-17); MkDec (0) (0)]);
  ([0; 0; 1; (-1); 1; 1; 0; 0; 0], [MkDec (26000000000000001) (-16); MkDec (34299999999999997) (-15); MkDec (80000000000000004) (-17); MkDec (0) (0)], [MkDec (-14800000000000001) (-15); MkDec (13999999999999999) (-16); MkDec (0) (0); MkDec (29999999999999999) (-17)]);
  ([0; 0; 2; (-2); 2; 0; (-2); 0; 0], [MkDec (-80000000000000004) (-17); MkDec (-48600000000000001) (-15); MkDec (23999999999999999) (-16); MkDec (-10000000000000001) (-17)], [MkDec (-37999999999999998) (-16); MkDec (40000000000000002) (-17); MkDec (0) (0); MkDec (-20000000000000001) (-17)]);
  ([0; (-1); (-7); 7; (-7); 5; 0; 0; 0], [MkDec (-49000000000000004) (-16); MkDec (305) (-1); MkDec (37000000000000002) (-16); MkDec (69999999999999996) (-17)], [MkDec (126) (-1); MkDec (32000000000000002) (-16); MkDec (5) (-1); MkDec (-15) (-1)]);
  ([(-2); 0; 2; 0; 2; 0; 0; (-2); 0], [MkDec (0) (0); MkDec (-43600000000000001) (-15); MkDec (21000000000000001) (-16); MkDec (0) (0)], [MkDec (10000000000000001) (-17); MkDec (0) (0); MkDec (0) (0); MkDec (0) (0)]);
  ([(-2); 0; 2; 0; 1; 0; 0; (-3); 0], [MkDec (0) (0); MkDec (-25399999999999999) (-15); MkDec (12) (-1); MkDec (0) (0)], [MkDec (-136) (-1); MkDec (23999999999999999) (-16); MkDec (-10000000000000001) (-17); MkDec (0) (0)]);
  ([0; 0; 2; (-2); 2; 0; 0; (-2); 0], [MkDec (2) (0); MkDec (40899999999999999) (-15); MkDec (-2) (0); MkDec (0) (0)], [MkDec (90000000000000002) (-17); MkDec (12) (-1); MkDec (0) (0); MkDec (0) (0)]);
  ([0; 0; 1; (-1); 1; 0; 0; 1; 0], [MkDec (-21000000000000001) (-16); MkDec (26100000000000001) (-15); MkDec (59999999999999998) (-17); MkDec (0) (0)], [MkDec (-119) (-1); MkDec (-5) (-1); MkDec (0) (0); MkDec (29999999999999999) (-17)]);
  ([0; 0; 0; 0; 0; 0; 0; 0; 2], [MkDec (22600000000000001) (-15); MkDec (-32000000000000002) (-16); MkDec (-5) (-1); MkDec (-5) (-1)], [MkDec (40000000000000002) (-17); MkDec (12) (0); MkDec (29999999999999999) (-17); MkDec (-20000000000000001) (-17)]);
  ([0; 0; 0; 0; 0; 0; 0; 0; 1], [MkDec (-75999999999999996) (-16); MkDec (24899999999999999) (-15); MkDec (-40000000000000002) (-17); MkDec (-20000000000000001) (-17)], [MkDec (83000000000000007) (-16); MkDec (60999999999999996) (-16); MkDec (-10000000000000001) (-17); MkDec (10000000000000001) (-17)]);
  ([2; 0; (-2); 0; (-2); 0; 0; 3; 0], [MkDec (-62000000000000002) (-16); MkDec (34899999999999999) (-15); MkDec (17) (-1); MkDec (29999999999999999) (-17)], [MkDec (0) (0); MkDec (0) (0); MkDec (0) (0); MkDec (0) (0)]);
  ([0; 0; 1; (-1); 1; 0; 0; (-2); 0], [MkDec (2) (0); MkDec (17399999999999999) (-15); MkDec (-40000000000000002) (-17); MkDec (10000000000000001) (-17)], [MkDec (40000000000000002) (-17); MkDec (-10800000000000001) (-15); MkDec (29999999999999999) (-17); MkDec (0) (0)]);
  ([0; 0; (-7); 7; (-7); 5; 0; 0; 0], [MkDec (-38999999999999999) (-16); MkDec (205) (-1); MkDec (23999999999999999) (-16); MkDec (59999999999999998) (-17)], [MkDec (95999999999999996) (-16); MkDec (22000000000000002) (-16); MkDec (29999999999999999) (-17); MkDec (-12) (-1)])].
