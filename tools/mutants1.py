MUTANTS = [
 ('M_Sphere.v','palDrange','result - D2PI','result - pi','C01: result differs from x by whole turns'),
 ('M_Sphere.v','palDrange','result <? - pi','result <? #0','C01: inputs inside (-pi,pi) are unchanged'),
 ('M_Sphere.v','palDe2h','a + D2PI','a + pi','palDe2h azimuth'),
 ('M_Sphere.v','palDe2h','- ch * cd * sp','ch * cd * sp','palDe2h/palDh2e round trip'),
 ('M_Sphere.v','palDe2h','if r ==? #0 then #0','if r ==? #0 then #1','zenith convention'),
 ('M_Sphere.v','palDh2e','- sa * ce','sa * ce','palDh2e sign of hour angle'),
 ('M_Sphere.v','palAltaz','sp + z * qd','sp - z * qd','azimuth rate is the derivative'),
 ('M_Sphere.v','palAltaz','(#2 - rsq)','(#1 - rsq)','azimuth acceleration'),
 ('M_Sphere.v','palAltaz','pi - ha','ha','parallactic angle at the zenith'),
 ('M_Sphere.v','palPa','cp * sin dec * cos ha','cp * sin dec * sin ha','palPa is the parallactic angle'),
 ('M_Sphere.v','palDs2tp','denom >=? #0 then (1%Z','denom >? #0 then (1%Z','status 1 at exactly 90 degrees'),
 ('M_Sphere.v','palDs2tp','(3%Z, denom)','(2%Z, denom)','status 3 far beyond the horizon'),
 ('M_Sphere.v','palDtp2s','cdecz - eta * sdecz','cdecz + eta * sdecz','palDtp2s inverts palDs2tp'),
 ('M_Sphere.v','palDtp2s','(eraAnp d,','(d,','ra in [0,2pi)'),
 ('M_Sphere.v','palDtps2c','then 1%Z else 2%Z','then 2%Z else 1%Z','number of solutions'),
 ('M_Sphere.v','palDtps2c','r2 >=? #0','r2 >? #0','n=0 exactly when no tangent point exists'),
 ('M_Sphere.v','axis_of','Ascii.eqb c "2"','Ascii.eqb c "4"','digit 2 means y axis'),
 ('M_Sphere.v','deuler_loop','| None => rmat','| None => deuler_loop order\' rot\' rmat','an unrecognised character ends the rotations'),
 ('M_Sphere.v','palAirmas','#0.9981833 -','#0.9981833 +','airmass polynomial'),
 ('M_Sphere.v','palAirmas','if zd >? MAXZD then MAXZD','if zd >? MAXZD then #0','constant beyond 87 degrees'),
 ('M_Sphere.v','palDvn','(snd (eraPn v), fst (eraPn v))','(v, fst (eraPn v))','palDvn normalises'),
 ('M_Linear.v','palInvf','(a * e - b * d)','(b * d - a * e)','palInvf inverts'),
 ('M_Linear.v','palInvf','(bk0, (-1)%Z)','(fwds, (-1)%Z)','on a singular model the output is untouched'),
 ('M_Linear.v','palDcmpf','- rb2e2)','rb2e2)','negative determinant: x scale negative'),
 ('M_Linear.v','dmat_pivot','if t >? amx','if t <? amx','palDmat pivoting'),
 ('M_Linear.v','dmat_step','- (dm_d s)','dm_d s','determinant changes sign at a row exchange'),
 ('M_Linear.v','dmat_step','if fabs d <? SFA','if d <? SFA','negative determinants are fine'),
 ('M_Linear.v','dmat_elim','a i k * yk','a i k * y i','right hand side elimination'),
 ('M_Linear.v','palDmat','#0 (dm_jf s)','(dm_d s) (dm_jf s)','determinant is zero when singular'),
 ('M_Linear.v','palPcd','x * x + y * y','x * x - y * y','radial distortion'),
 ('M_Linear.v','palUnpcd','r - d in','d - r in','palUnpcd inverts palPcd (monotone case)'),
 ('M_Linear.v','palUnpcd','if w1 <? w2','if w2 <? w1','palUnpcd takes the nearest root'),
 ('M_Linear.v','palPxy','DMAX #1 (ofZ np)','ofZ np','rms of an empty set'),
 ('M_Linear.v','palPxy','sdy2 + dy * dy','sdy2 + dx * dy','y rms'),
 ('M_Linear.v','fitxy6','(V sye syexm syeym)','(V sye syeym syexm)','least squares of the y equations'),
 ('M_Linear.v','fitxy6','(3 <=? np)%Z','(2 <=? np)%Z','six coefficients need three points'),
 ('M_Linear.v','fitxy4','sold <=? s1','s1 <=? sold','the better of the two handednesses is returned'),
 ('M_Linear.v','fitxy4_pass','(- sx2y2)','sx2y2','normal equations'),
 ('M_Time.v','palCaldj','(iy <=? 49)','(iy <=? 50)','century rule'),
 ('M_Time.v','palDjcal','toZ (DNINT frac)','toZ frac','fraction is rounded'),
 ('M_Time.v','palEpco','if Ascii.eqb k k0 then e','if Ascii.eqb k k0 then e + #1','no conversion between equal systems'),
 ('M_Time.v','palEpco','let k0 := toupper k0 in','','lower case accepted'),
 ('M_Time.v','palDt','#0.19','#0.20','palDt continuity/polynomials'),
 ('M_Time.v','palDt','epoch >=? #979.0258204760233','epoch >=? #978','palDt breakpoints'),
 ('M_Time.v','palDtt','#32.184 +','#32.184 -','TT-UTC'),
 ('Erfa.v','is_leap_c','Z.rem iy 400 =? 0','Z.rem iy 200 =? 0','Gregorian leap years'),
 ('Erfa.v','jd2cal_z','k + 2 - 12 * l','k + 1 - 12 * l','calendar round trip') ,
 ('Erfa.v','eraAnp','if w <? #0','if w <? - #1','palDranrm range'),
 ('Erfa.v','eraSepp','#0','#1','separation of null vectors'),
 ('M_Str.v','palIntin','|| hasminus','|| false','explicit minus zero has status -1'),
 ('M_Str.v','skip_sep','then 1','then 0','a comma is stepped over'),
 ('M_Str.v','palIntin','then ireslt else retval','then retval else retval','a null field leaves the result'),
 ('M_Str.v','d2e','Ascii.eqb c "d"','Ascii.eqb c "q"','lower case d exponent'),
 ('M_Str.v','palDfltin','if sr_neg r then (-1)%Z','if sr_neg r then 0%Z','minus zero'),
 ('M_Str.v','palDfltin','sr_erange r then (2%Z','sr_erange r then (0%Z','overflow status'),
 ('M_Str.v','palDafin','(arcmin >=? #60)','(arcmin >? #60)','arcminutes below 60'),
 ('M_Str.v','palDafin','(jd <? 0)%Z then a * (- #1)','(jd <? 0)%Z then a','sign of the first field'),
 ('M_Str.v','strellcpy','(size - 1)','size','buffer overflow by one'),
 ('M_Str.v','search','Some t else','search c r else','first match is returned'),
 ('M_Str.v','palObs','nth_error telData k','nth_error telData (S k)','n-th station'),
 ('M_Str.v','palObs','(strellcpy ["?"%char] namelen)','(o_name o)','name is ? when not found'),
]
