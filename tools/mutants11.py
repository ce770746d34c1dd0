# edits of the leap-second table and its search (M_Dat)
MUTANTS = [
 ('M_Dat.v','dat_dates','(1981, 7)','(1981, 6)','a leap second a month early'),
 ('M_Dat.v','dat_dates','(2017, 1)','(2017, 7)','the last leap second half a year late'),
 ('M_Dat.v','dat_dates','(1968, 2)','(1968, 1)','1968 January in the wrong row'),
 ('M_Dat.v','dat_dates','(1963, 11)','(1963, 12)','1963 November in the wrong row'),
 ('M_Dat.v','dat_dates','(1960, 1)','(1960, 2)','1960 January not covered'),
 ('M_Dat.v','dat_row','<=? m','<? m','strict comparison of months: new value a month late'),
 ('M_Dat.v','dat_row','12 * y + mo','10 * y + mo','month number with the wrong radix'),
 ('M_Dat.v','dat_row','then Some i else','then Some n else','the row after the one found'),
 ('M_Dat.v','dat_delat','#1.9458580','#1.9458850','digits of an offset transposed'),
 ('M_Dat.v','dat_delat','#33.0','#32.0','a leap second left out'),
 ('M_Dat.v','dat_drift','(#37665.0, #0.0011232); (#37665.0','(#37665.0, #0.0011232); (#37300.0','wrong reference date in one row'),
 ('M_Dat.v','dat_drift','(#39126.0, #0.0025920)','(#39126.0, #0.0012960)','wrong rate in one row'),
 ('M_Dat.v','eraDat','(iy <? 1960)','(iy <? 1961)','year 1960 refused'),
 ('M_Dat.v','eraDat','(iy <? 1960)','(iy <? 1972)','no values before leap seconds'),
 ('M_Dat.v','eraDat','length dat_drift','15','drift applied to the first leap-second row'),
 ('M_Dat.v','eraDat','length dat_drift','13','drift left out of the last drifting row'),
 ('M_Dat.v','eraDat','ofZ djm + fd - t0','ofZ djm - t0','fraction of the day left out of the drift'),
 ('M_Dat.v','eraDat','da + (ofZ','da - (ofZ','drift with the wrong sign'),
 ('M_Dat.v','eraDat','(12 * iy + im)','(12 * iy + id)','day and month swapped'),
 ('M_Dat.v','eraDat','if (fd <? #0) ||','if (fd >? #0) ||','fraction test reversed'),
 ('M_Dat.v','eraDat','(fd >? #1)','(fd >? #0.5)','afternoons refused'),
 ('M_Dat.v','palDtt_e','palDtt eraDat junk utc','palDat eraDat junk utc','palDtt without 32.184 s'),
]
