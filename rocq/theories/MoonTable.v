(** GENERATED by tools/moon_table.py from /repo/palDmoon.c: the series of Meeus (1979) used by palDmoon.
    Each row: (coefficient Tx[N], (ITx[N][0..3] = multiples of M, M', D, F), ITx[N][4] = power of E). *)
From Coq Require Import ZArith List.
From Verif Require Import Num.
Import ListNotations.
Local Open Scope Z_scope.
Definition moonRow : Set := (Dec * (Z * Z * Z * Z) * Z)%type.
(** TL (lines 199-207), ITL (lines 209-261) *)
Definition moonTL : list moonRow := [
  (MkDec (628875) (-5), (0, 1, 0, 0), 0);
  (MkDec (1274018) (-6), (0, (-1), 2, 0), 0);
  (MkDec (658309) (-6), (0, 0, 2, 0), 0);
  (MkDec (213616) (-6), (0, 2, 0, 0), 0);
  (MkDec (-185596) (-6), (1, 0, 0, 0), 1);
  (MkDec (-114336) (-6), (0, 0, 0, 2), 0);
  (MkDec (58793) (-6), (0, (-2), 2, 0), 0);
  (MkDec (57212) (-6), ((-1), (-1), 2, 0), 1);
  (MkDec (5332) (-5), (0, 1, 2, 0), 0);
  (MkDec (45874) (-6), ((-1), 0, 2, 0), 1);
  (MkDec (41024) (-6), ((-1), 1, 0, 0), 1);
  (MkDec (-34718) (-6), (0, 0, 1, 0), 0);
  (MkDec (-30465) (-6), (1, 1, 0, 0), 1);
  (MkDec (15326) (-6), (0, 0, 2, (-2)), 0);
  (MkDec (-12528) (-6), (0, 1, 0, 2), 0);
  (MkDec (-1098) (-5), (0, (-1), 0, 2), 0);
  (MkDec (10674) (-6), (0, (-1), 4, 0), 0);
  (MkDec (10034) (-6), (0, 3, 0, 0), 0);
  (MkDec (8548) (-6), (0, (-2), 4, 0), 0);
  (MkDec (-791) (-5), (1, (-1), 2, 0), 1);
  (MkDec (-6783) (-6), (1, 0, 2, 0), 1);
  (MkDec (5162) (-6), (0, 1, (-1), 0), 0);
  (MkDec (5) (-3), (1, 0, 1, 0), 1);
  (MkDec (4049) (-6), ((-1), 1, 2, 0), 1);
  (MkDec (3996) (-6), (0, 2, 2, 0), 0);
  (MkDec (3862) (-6), (0, 0, 4, 0), 0);
  (MkDec (3665) (-6), (0, (-3), 2, 0), 0);
  (MkDec (2695) (-6), ((-1), 2, 0, 0), 1);
  (MkDec (2602) (-6), (0, 1, (-2), (-2)), 0);
  (MkDec (2396) (-6), ((-1), (-2), 2, 0), 1);
  (MkDec (-2349) (-6), (0, 1, 1, 0), 0);
  (MkDec (2249) (-6), ((-2), 0, 2, 0), 2);
  (MkDec (-2125) (-6), (1, 2, 0, 0), 1);
  (MkDec (-2079) (-6), (2, 0, 0, 0), 2);
  (MkDec (2059) (-6), ((-2), (-1), 2, 0), 2);
  (MkDec (-1773) (-6), (0, 1, 2, (-2)), 0);
  (MkDec (-1595) (-6), (0, 0, 2, 2), 0);
  (MkDec (122) (-5), ((-1), (-1), 4, 0), 1);
  (MkDec (-111) (-5), (0, 2, 0, 2), 0);
  (MkDec (892) (-6), (0, 1, (-3), 0), 0);
  (MkDec (-811) (-6), (1, 1, 2, 0), 1);
  (MkDec (761) (-6), ((-1), (-2), 4, 0), 1);
  (MkDec (717) (-6), ((-2), 1, 0, 0), 2);
  (MkDec (704) (-6), ((-2), 1, (-2), 0), 2);
  (MkDec (693) (-6), (1, (-2), 2, 0), 1);
  (MkDec (598) (-6), ((-1), 0, 2, (-2)), 1);
  (MkDec (55) (-5), (0, 1, 4, 0), 0);
  (MkDec (538) (-6), (0, 4, 0, 0), 0);
  (MkDec (521) (-6), ((-1), 0, 4, 0), 1);
  (MkDec (486) (-6), (0, 2, (-1), 0), 0)].
(** TB (lines 266-274), ITB (lines 276-323) *)
Definition moonTB : list moonRow := [
  (MkDec (5128189) (-6), (0, 0, 0, 1), 0);
  (MkDec (280606) (-6), (0, 1, 0, 1), 0);
  (MkDec (277693) (-6), (0, 1, 0, (-1)), 0);
  (MkDec (173238) (-6), (0, 0, 2, (-1)), 0);
  (MkDec (55413) (-6), (0, (-1), 2, 1), 0);
  (MkDec (46272) (-6), (0, (-1), 2, (-1)), 0);
  (MkDec (32573) (-6), (0, 0, 2, 1), 0);
  (MkDec (17198) (-6), (0, 2, 0, 1), 0);
  (MkDec (9267) (-6), (0, 1, 2, (-1)), 0);
  (MkDec (8823) (-6), (0, 2, 0, (-1)), 0);
  (MkDec (8247) (-6), ((-1), 0, 2, (-1)), 1);
  (MkDec (4323) (-6), (0, (-2), 2, (-1)), 0);
  (MkDec (42) (-4), (0, 1, 2, 1), 0);
  (MkDec (3372) (-6), ((-1), 0, (-2), 1), 1);
  (MkDec (2472) (-6), ((-1), (-1), 2, 1), 1);
  (MkDec (2222) (-6), ((-1), 0, 2, 1), 1);
  (MkDec (2072) (-6), ((-1), (-1), 2, (-1)), 1);
  (MkDec (1877) (-6), ((-1), 1, 0, 1), 1);
  (MkDec (1828) (-6), (0, (-1), 4, (-1)), 0);
  (MkDec (-1803) (-6), (1, 0, 0, 1), 1);
  (MkDec (-175) (-5), (0, 0, 0, 3), 0);
  (MkDec (157) (-5), ((-1), 1, 0, (-1)), 1);
  (MkDec (-1487) (-6), (0, 0, 1, 1), 0);
  (MkDec (-1481) (-6), (1, 1, 0, 1), 1);
  (MkDec (1417) (-6), ((-1), (-1), 0, 1), 1);
  (MkDec (135) (-5), ((-1), 0, 0, 1), 1);
  (MkDec (133) (-5), (0, 0, (-1), 1), 0);
  (MkDec (1106) (-6), (0, 3, 0, 1), 0);
  (MkDec (102) (-5), (0, 0, 4, (-1)), 0);
  (MkDec (833) (-6), (0, (-1), 4, 1), 0);
  (MkDec (781) (-6), (0, 1, 0, (-3)), 0);
  (MkDec (67) (-5), (0, (-2), 4, 1), 0);
  (MkDec (606) (-6), (0, 0, 2, (-3)), 0);
  (MkDec (597) (-6), (0, 2, 2, (-1)), 0);
  (MkDec (492) (-6), ((-1), 1, 2, (-1)), 1);
  (MkDec (45) (-5), (0, 2, (-2), (-1)), 0);
  (MkDec (439) (-6), (0, 3, 0, (-1)), 0);
  (MkDec (423) (-6), (0, 2, 2, 1), 0);
  (MkDec (422) (-6), (0, (-3), 2, (-1)), 0);
  (MkDec (-367) (-6), (1, (-1), 2, 1), 1);
  (MkDec (-353) (-6), (1, 0, 2, 1), 1);
  (MkDec (331) (-6), (0, 0, 4, 1), 0);
  (MkDec (317) (-6), ((-1), 1, 2, 1), 1);
  (MkDec (306) (-6), ((-2), 0, 2, (-1)), 2);
  (MkDec (-283) (-6), (0, 1, 0, 3), 0)].
(** TP (lines 328-334), ITP (lines 336-369) *)
Definition moonTP : list moonRow := [
  (MkDec (950724) (-6), (0, 0, 0, 0), 0);
  (MkDec (51818) (-6), (0, 1, 0, 0), 0);
  (MkDec (9531) (-6), (0, (-1), 2, 0), 0);
  (MkDec (7843) (-6), (0, 0, 2, 0), 0);
  (MkDec (2824) (-6), (0, 2, 0, 0), 0);
  (MkDec (857) (-6), (0, 1, 2, 0), 0);
  (MkDec (533) (-6), ((-1), 0, 2, 0), 1);
  (MkDec (401) (-6), ((-1), (-1), 2, 0), 1);
  (MkDec (32) (-5), ((-1), 1, 0, 0), 1);
  (MkDec (-271) (-6), (0, 0, 1, 0), 0);
  (MkDec (-264) (-6), (1, 1, 0, 0), 1);
  (MkDec (-198) (-6), (0, (-1), 0, 2), 0);
  (MkDec (173) (-6), (0, 3, 0, 0), 0);
  (MkDec (167) (-6), (0, (-1), 4, 0), 0);
  (MkDec (-111) (-6), (1, 0, 0, 0), 1);
  (MkDec (103) (-6), (0, (-2), 4, 0), 0);
  (MkDec (-84) (-6), (0, 2, (-2), 0), 0);
  (MkDec (-83) (-6), (1, 0, 2, 0), 1);
  (MkDec (79) (-6), (0, 2, 2, 0), 0);
  (MkDec (72) (-6), (0, 0, 4, 0), 0);
  (MkDec (64) (-6), ((-1), 1, 2, 0), 1);
  (MkDec (-63) (-6), (1, (-1), 2, 0), 1);
  (MkDec (41) (-6), (1, 0, 1, 0), 1);
  (MkDec (35) (-6), ((-1), 2, 0, 0), 1);
  (MkDec (-33) (-6), (0, 3, (-2), 0), 0);
  (MkDec (-3) (-5), (0, 1, 1, 0), 0);
  (MkDec (-29) (-6), (0, 0, (-2), 2), 0);
  (MkDec (-29) (-6), (1, 2, 0, 0), 1);
  (MkDec (26) (-6), ((-2), 0, 2, 0), 2);
  (MkDec (-23) (-6), (0, 1, (-2), 2), 0);
  (MkDec (19) (-6), ((-1), (-1), 4, 0), 1)].
