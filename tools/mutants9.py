# edits of the checked-integer model of the calendar and sexagesimal routines (M_Int)
MUTANTS = [
 ('M_Int.v','fits','(z <? 2 ^ (w - 1))','(z <=? 2 ^ (w - 1))','integers one beyond the type accepted'),
 ('M_Int.v','eraCal2jd_c','let* i1 := ck 32 (im - 1) in','let* i1 := ck 32 im in','month table indexed from one'),
 ('M_Int.v','eraCal2jd_c','(12 <? im)','(13 <? im)','month 13 accepted'),
 ('M_Int.v','eraCal2jd_c','let* a2 := ck wl (1461 * a1) in','let* a2 := Some (1461 * a1) in','overflow of the day number unnoticed'),
 ('M_Int.v','eraCal2jd_c','let* a2 := ck wl (1461 * a1) in','let* a2 := ck 32 (1461 * a1) in','day number computed in int'),
 ('M_Int.v','eraCal2jd_c','(last <? id)','(last <=? id)','last day of the month rejected'),
 ('M_Int.v','palCaldj_c','then 2000','then 1900','two-digit years below 50'),
 ('M_Int.v','palCaldj_c','(iy <=? 99)','(iy <=? 100)','year 100 shifted'),
 ('M_Int.v','jd2cal_c','let* g2 := ck wl (4000 * g1) in','let* g2 := ck 32 (4000 * g1) in','calendar computed in int'),
 ('M_Int.v','jd2cal_c','ck wl (e1 + 3)','ck wl (e1 + 2)','century rounding'),
 ('M_Int.v','jd2cal_c','ck wl (12 * l)','ck wl (11 * l)','month wrap'),
 ('M_Int.v','nrs_fine','ck 32 (r * 10)','Some (r * 10)','10^ndp overflows unnoticed'),
 ('M_Int.v','nrs_fine','ck 32 (r * 10)','ck 31 (r * 10)','10^9 rejected'),
 ('M_Int.v','nrs_coarse','Nat.eqb n 4','Nat.eqb n 5','coarse resolution table'),
 ('M_Int.v','cast','ofZ (2 ^ (w - 1))','ofZ (2 ^ w)','conversion beyond the int range accepted'),
 ('M_Int.v','cast','(ofZ (- 2 ^ (w - 1) - 1)%Z <? x) && ','','conversion of NaN or very negative numbers accepted'),
 ('M_Int.v','eraJd2cal_c','(dj >? #1e9)','false','too large dates accepted'),
 ('M_Int.v','eraJd2cal_c','let* n := cast wl (floor d) in','let* n := cast 32 (floor d) in','day number converted to int'),
 ('M_Int.v','eraJd2cal_c','ck wl (n + 1)','ck wl n','day number off by one'),
 ('M_Int.v','palDjcal_c','cast 32 (DNINT frac)','cast 64 (DNINT frac)','fraction of day kept in a long'),
 ('M_Int.v','palDjcal_c','DNINT frac','DINT frac','fraction truncated'),
 ('M_Int.v','eraD2tf_c','let* h := cast 32 ah in','let* h := cast 64 ah in','hours beyond int unnoticed'),
 ('M_Int.v','eraD2tf_c','let* f := cast 32 af in','let* f := cast 16 af in','fraction field in a short'),
 ('M_Int.v','eraD2tf_c','Some (pos, (h, m, s, f))','Some (pos, (h, s, m, f))','fields exchanged'),
 ('M_Int.v','eraD2tf_c','let* nrs := nrs_fine (Z.to_nat (Z.max 0 ndp)) in','let* nrs := Some (10 ^ Z.max 0 ndp) in','10^ndp overflow unnoticed'),
 ('M_Int.v','palDr2tf_c','angle / D2PI','angle / DPI','angle to hours: factor two'),
 ('M_Int.v','palDr2af_c','#15 / D2PI','#15 * D2PI','angle to degrees'),
 ('M_Int.v','palDtf2d_c','let* _m := ck 32 (Z.abs imin) in','','|INT_MIN| minutes unnoticed'),
 ('M_Int.v','palDaf2r_c','palDaf2r ideg iamin','palDaf2r iamin ideg','fields exchanged'),
]
