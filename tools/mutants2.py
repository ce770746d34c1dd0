MUTANTS = [
 # survivors of the first round
 ('M_Sphere.v','palAltaz','pi - ha','ha','parallactic angle at the zenith'),
 # frames
 ('M_Frames.v','palEqgal','eraRxp rmat_eqgal','eraTrxp rmat_eqgal','palEqgal/palGaleq inverse and IAU galactic pole'),
 ('M_Frames.v','rmat_galeq','- #0.444829589425','- #0.448429589425','the two printed galactic matrices agree / are rotations'),
 ('M_Frames.v','palGalsup','(eraAnp dsl, eraAnpm dsb)','(dsl, eraAnpm dsb)','longitude in [0,2pi)'),
 ('M_Frames.v','rmat_supgal','#0.000000000000','#0.000001000000','supergalactic matrices agree'),
 ('M_Frames.v','palEtrms','- ek * cp * cos e0','- ek * cp * sin e0','E-terms vector'),
 ('M_Frames.v','palEtrms','#20.49552','#20.49652','aberration constant'),
 ('M_Frames.v','palAddet','vy v + vy a','vy v - vy a','palAddet adds the E-terms'),
 ('M_Frames.v','palSubet','#1.0 + eraPdp v a','#1.0 - eraPdp v a','palSubet inverts palAddet to second order'),
 ('M_Frames.v','palGe50','palAddet r d #1950.0','palAddet r d #2000.0','palGe50 adds the B1950 E-terms'),
 ('M_Frames.v','palEcmat','"X" eps0','"Z" eps0','ecliptic matrix rotates about x'),
 ('M_Frames.v','palPrebn','palDeuler "ZYZ" (- zeta) theta (- z)','palDeuler "ZYZ" (- z) theta (- zeta)','Newcomb precession order of angles'),
 ('M_Frames.v','palPrebn','#0.30242 -','#0.30242 +','Kinoshita polynomial'),
 ('M_Frames.v','palPrec','rmatp := eraPmat06 DJ00 ep0_days in eraTr rmatp','rmatp := eraPmat06 DJ00 ep0_days in rmatp','palPrec to J2000 is the inverse'),
 ('M_Frames.v','palPrec','eraRxr rmatp rmatq','eraRxr rmatq rmatp','documents the wrong order (fixing the defect must be noticed)'),
 ('M_Frames.v','palNut','(- (eps0 + deps))','(- eps0)','nutation matrix uses true obliquity'),
 ('M_Frames.v','palPrenut','eraRxr r2 r1','eraRxr r1 r2','palPrenut order of precession and nutation'),
 ('M_Frames.v','palEcleq','eraTrxp (palEcmat date) v1','eraRxp (palEcmat date) v1','palEcleq inverts palEqecl'),
 ('M_Frames.v','palPreces','strncase_eq "FK5" sys then go (palPrec ep0 ep1)','strncase_eq "FK5" sys then go (palPrec ep1 ep0)','palPreces direction'),
 ('M_Frames.v','palPreces','(- #99.0, - #99.0)','(ra, dc)','unknown system gives -99'),
 ('M_Frames.v','palPolmo','xm * cxp - zw * sxp','xm * cxp + zw * sxp','polar motion rotation'),
 ('M_Frames.v','palPolmo','atan2 (- ynt) (- xnt)','atan2 ynt xnt','azimuth correction'),
 ('M_Frames.v','palFk45z','(bepoch - #1950.0) / PMF','(bepoch - #2000.0) / PMF','FK4 E-terms epoch'),
 ('M_Frames.v','palFk45z','- #2000.0) / PMF','- #1950.0) / PMF','FK5 epoch of fictitious motion'),
 ('M_Frames.v','fk_em_p','(#0.0111820610)','(#0.0118120610)','FK4 to FK5 matrix'),
 ('M_Frames.v','fk_emi_vp','- #0.238560','#0.238560','FK5 to FK4 matrix'),
 ('M_Frames.v','fk524_eterms','- wd * x','+ wd * x','E-terms of the velocity'),
 ('M_Frames.v','fk524_sph','r + D2PI else r','r else r','ra in [0,2pi)'),
 ('M_Frames.v','fk524_sph','px / rxyz','px * rxyz','parallax'),
 ('M_Frames.v','palFk54z','d + dd1950 * y','d - dd1950 * y','fictitious motion in palFk54z'),
 # refraction
 ('M_Refr.v','pal1Atms','- r * b * w','r * b * w','index decreases with height'),
 ('M_Refr.v','pal1Atmt','(c4 - c6 / tt0)','(c4 + c6 / tt0)','r dn/dr is the derivative'),
 ('M_Refr.v','rf_pass','(i mod 2 =? 0)','(i mod 2 =? 1)','odd/even Simpson weights'),
 ('M_Refr.v','rf_loop','#4.0 * fo','#2.0 * fo','Simpson weights'),
 ('M_Refr.v','rf_loop','(fe\' + fo\') refp','fe\' refp','reuse of ordinates'),
 ('M_Refr.v','rf_loop','(is + is) 2','(is + is) 1','strip doubling'),
 ('M_Refr.v','palRefro_fuel','then - ref else ref','then ref else ref','palRefro is odd'),
 ('M_Refr.v','palRefro_fuel','DMAX wl #0.1','DMAX wl #1.0','argument clamping'),
 ('M_Refr.v','palRefco','#64.0 * r1 - r2','#64.0 * r2 - r1','palRefco fits the two zenith distances'),
 ('M_Refr.v','palRefv','#3.0 * wb','#2.0 * wb','Newton step of palRefv'),
 ('M_Refr.v','palRefv','(z1 - z)','z1','low elevation'),
 ('M_Refr.v','rz_ref','zl - zu1 + refa * t','zl - zu1 - refa * t','second Newton step'),
 ('M_Refr.v','palRefz','zu - ref\'','zu + ref\'','refraction raises'),
 ('M_Refr.v','palRefz','#90.0 - DMIN #93.0','#90.0 - DMIN #90.0','limit of the low formula'),
 ('M_Refr.v','palAtmdsp','b1 * f in','b1 in','dispersion of B'),
 # places
 ('M_Place.v','palMappa','#2.0 * #9.87063e-9','#9.87063e-9','light deflection constant'),
 ('M_Place.v','palMappa','sqrt (#1.0 - vm * vm)','sqrt (#1.0 + vm * vm)','Lorentz factor'),
 ('M_Place.v','mq_deflect','vx ehn - pde * vx p','vx ehn + pde * vx p','deflection direction'),
 ('M_Place.v','mq_aberr','p1dv / (ab1 + #1.0)','p1dv / ab1','relativistic aberration'),
 ('M_Place.v','mq_star','- pxr * vy eb','+ pxr * vy eb','parallax sign'),
 ('M_Place.v','palAmpqk','repeat_n 2 ','repeat_n 1 ','iterations of the inverse aberration'),
 ('M_Place.v','palAmpqk','repeat_n 5 ','repeat_n 1 ','iterations of the inverse deflection'),
 ('M_Place.v','aq_deflect','pdep1 - gr2e * pde','pdep1 + gr2e * pde','inverse deflection'),
 ('M_Place.v','palAoppat','pal__Gmst date + ao_lon p','pal__Gmst date - ao_lon p','local sidereal time'),
 ('M_Place.v','palAoppa','xt - xp * zt','xt + xp * zt','polar motion in palAoppa'),
 ('M_Place.v','palAoppa','D2PI * uau * SOLSID / C','D2PI * uau / C','diurnal aberration'),
 ('M_Place.v','palAoppa','dut * SOLSID * DS2R','dut * DS2R','UT1-UTC'),
 ('M_Place.v','ap_loop','zdobs - dzd\'','zdobs + dzd\'','inversion of refraction'),
 ('M_Place.v','ap_aberr','f * (vy v + diurab)','f * (vy v - diurab)','diurnal aberration eastwards'),
 ('M_Place.v','palAopqk','- hmobs, dcobs, raobs','hmobs, dcobs, raobs','sign of the hour angle'),
 ('M_Place.v','palAopqk','palDranrm (st + hmobs)','palDranrm (st - hmobs)','observed ra'),
 ('M_Place.v','palOapqk','ap_aberr (- ao_diurab p)','ap_aberr (ao_diurab p)','palOapqk inverts palAopqk'),
 ('M_Place.v','palOapqk','ao_refa p + ao_refb p * tz * tz','ao_refa p + ao_refb p * tz','two-term refraction'),
 ('M_Place.v','pal__Gmst','#24110.54841','#24110.54481','GMST constant'),
 ('M_Place.v','pal__Eqeqx','dpsi * cos eps0','dpsi * sin eps0','equation of the equinoxes'),
 ('M_Place.v','pal__Nutc','- #153.1 * sin elp','#153.1 * sin elp','planetary aberration term'),
 ('M_Place.v','nut_term','* cos th +','* cos th -','nutation series'),
 ('NutTable.v','nutTable','MkDec (33415) (-1); MkDec (17206241800000001) (-9)','MkDec (17206241800000001) (-9); MkDec (33415) (-1)','leading nutation term'),
 # kinematics, Moon
 ('M_Kin.v','palPvobs','(V (- v * s) (v * c) #0.0)','(V (v * s) (v * c) #0.0)','diurnal velocity'),
 ('M_Kin.v','palRverot','sin (st - ra)','sin (ra - st)','sign of the Earth rotation component'),
 ('M_Kin.v','palRvlsrk','#17.31726','#13.71726','kinematic LSR apex'),
 ('M_Moon.v','moon_arg','#3.0 * c3','#2.0 * c3','rate is the derivative'),
 ('M_Moon.v','moon_step','FTHETA * DEN','FTHETA * EN','rate is the derivative'),
 ('M_Moon.v','moon_lat','v * DBF','v * BF','rate is the derivative'),
 ('M_Moon.v','moon_dist','#4.2635212653763e-5','#4.2653212653763e-5','distance from parallax'),
 ('M_Moon.v','moon_equ','X - EC * Y','X + EC * Y','equinox correction'),
 ('MoonTable.v','moonTL','(0, (-1), 2, 0)','(0, 1, 2, 0)','evection argument'),
 # orbits
 ('M_Orbit.v','palPv2ue','#2.0 * cm / r','cm / r','total energy'),
 ('M_Orbit.v','palPv2ue','let cm := #1.0 + pmass','let cm := pmass','combined mass'),
 ('M_Orbit.v','ue_series','/ #42.0 + #1.0','/ #40.0 + #1.0','series of the universal functions'),
 ('M_Orbit.v','ue_double','#2.0 * (uf0 s * uf3 s + psj * uf2 s)','#2.0 * (uf0 s * uf3 s + uf1 s * uf2 s)','angle doubling'),
 ('M_Orbit.v','ue_iter','ff * (plast - psi) / (flast - ff)','ff * (psi - plast) / (flast - ff)','secant step'),
 ('M_Orbit.v','ue_iter','Some (UFail (-2))','Some (UFail (-1))','status on failure to converge'),
 ('M_Orbit.v','NITMAX','25','50','iteration limit'),
 ('M_Orbit.v','ue_project','- cm * uf1 s / (r0 * r)','cm * uf1 s / (r0 * r)','velocity projection'),
 ('M_Orbit.v','ue_project','dt - cm * uf3 s','dt + cm * uf3 s','position projection'),
 ('M_Orbit.v','palUe2pv','(date - u_t u) * GCON','(date - u_t0 u) * GCON','starting value'),
 ('M_Orbit.v','el_check','(e >=? #1.0)','(e >? #1.0)','parabola only in form 3'),
 ('M_Orbit.v','el_check','aorq <=? #0.0','aorq <? #0.0','aorq = 0 rejected'),
 ('M_Orbit.v','el_std','epoch - (aorl - perih) / dm','epoch + (aorl - perih) / dm','perihelion passage'),
 ('M_Orbit.v','el_peri','alpha + #2.0 * cm / q','alpha + cm / q','speed at perihelion'),
 ('M_Orbit.v','el_rot','y * CE - z * SE','y * CE + z * SE','ecliptic to equatorial'),
 ('M_Orbit.v','pv_conic','#2.0 / r - v2 / gmu','#1.0 / r - v2 / gmu','vis viva'),
 ('M_Orbit.v','pv_conic','atan2 hx (- hy)','atan2 hx hy','node'),
 ('M_Orbit.v','pv_mean','ae - ecc * sin ae','ae + ecc * sin ae','Kepler equation'),
 ('M_Orbit.v','pv_out','if k_ecc k >? #1.0 then 3%Z','if k_ecc k >=? #1.0 then 3%Z','form for a parabola'),
 ('M_Orbit.v','pv_out','k_h2 k / (gmu * (k_ecc k + #1.0))','k_h2 k / gmu','perihelion distance'),
 ('M_Orbit.v','pt_range','8; 9]','8; 9; 10]','Moon included'),
 ('M_Orbit.v','pt_init','101%Z else 0%Z','100%Z else 0%Z','large timespan warning'),
 ('M_Orbit.v','pt_step','fabs ts >? fabs tleft then tleft','fabs ts >? fabs tleft then ts','last step ends at the date'),
 ('M_Orbit.v','pt_body','then (ne, fd, np)','then (ne, fd, 0%Z)','coincidence warning'),
]
