MUTANTS = [
 ('M_Misc.v','palGmst','MJD0 ut1 MJD0 ut1','MJD0 ut1 MJD0 MJD0','sidereal time'),
 ('M_Misc.v','palGmsta','eraGmst06 date ut date ut','eraGmst06 date ut date date','sidereal time with split date'),
 ('M_Misc.v','palEqeqx','eraEe06a gst06a MJD0 date','- eraEe06a gst06a MJD0 date','equation of the equinoxes'),
 ('M_Misc.v','eraFk5hz','- ((date1 - DJ00) + date2) / DJY','((date1 - DJ00) + date2) / DJY','Hipparcos round trip'),
 ('M_Misc.v','eraHfk5z','eraPxp sh ph','eraPxp ph sh','Hipparcos proper motion'),
 ('M_Misc.v','eraFk5hip','#0.60e-3','#0.70e-3','Hipparcos spin'),
 ('M_Misc.v','palRefcoq','tdk - #273.15','tdk + #273.15','kelvin to celsius'),
 ('M_Misc.v','eraRefco','#1.0 - beta','#1.0 + beta','palRefcoq A'),
 ('M_Misc.v','eraRefco','beta - gamma / #2.0','beta - gamma','palRefcoq B'),
 ('M_Misc.v','my__strlcpy','Z.of_nat size - 1','Z.of_nat size','version string terminated inside the buffer'),
 ('M_Misc.v','palVers','None => Some (None, vernum)','None => None','null pointer accepted'),
 ('M_Kin.v','palPvobs','- v * s','v * s','observer velocity'),
 ('M_Kin.v','palRverot','st - ra','ra - st','rotation velocity sign'),
 ('M_Kin.v','palRvlg','#133.44888','#13.344888','Local Group velocity'),
 ('M_Kin.v','palRvgalc','- #108.70408','#108.70408','galactic rotation'),
 ('M_Kin.v','palRvlsrd','#14.58542','#15.58542','dynamical LSR'),
 ('M_Moon.v','moon_args','DD2R * #20.2 * cos THETA','DD2R * #20.0 * cos THETA','Moon velocity'),
 ('M_Moon.v','moon_args','#0.001964 * DOMCOM','#0.001946 * DOMCOM','Moon velocity'),
 ('M_Moon.v','moon_args','#481267.8831','#481276.8831','Moon longitude'),
 ('M_Moon.v','moon_args','- #0.024691 * SINOM','#0.024691 * SINOM','Moon latitude'),
 ('M_Moon.v','moon_lat','CW2 * DWOM * sin WOM','CW2 * DOM * sin WOM','Moon velocity in latitude'),
 ('M_Moon.v','moon_ecl','- Y * DEL - W * CEL','- Y * DEL + W * CEL','Moon velocity'),
 ('M_Moon.v','moon_dist','- R * snd p','R * snd p','Moon range rate'),
 ('MoonTable.v','moonTB','5128189','5218189','Moon latitude'),
 ('MoonTable.v','moonTP','950724','905724','Moon parallax'),
 ('M_Place.v','nut_term','sin','cos','nutation'),
 ('M_Orbit.v','pt_ts','#0.01','#0.1','step size'),
 ('M_Orbit.v','pt_step','- #50.0 >=? #1e-6','- #500.0 >=? #1e-6','planet elements refreshed every 50 days'),
 ('M_Orbit.v','pt_step','- #5.0 >=? #1e-6','- #50.0 >=? #1e-6','planet positions refreshed every 5 days'),
 ('M_Orbit.v','pt_step','eraPpp perv ft','eraPmp perv ft','velocity update'),
 ('M_Orbit.v','pt_step','vx ft / #2.0','vx ft','position update'),
 ('M_Orbit.v','pt_step','(vdiv perv\' SPD)','perv\'','units of the velocity departure'),
 ('M_Orbit.v','pt_step','fabs rtn >=? #100.0','fabs rtn >=? #1000.0','rectification interval'),
 ('M_Orbit.v','pt_step','fb * tleft <=? #0.0','false','rectification at the end'),
 ('M_Orbit.v','pt_step','vx fd * GCON2','vx w','acceleration after rectification'),
 ('M_Orbit.v','pt_fi','vx p0 / r03 - vx p / r3','vx p / r3 - vx p0 / r03','indirect term sign'),
 ('M_Orbit.v','pt_pos','/ #2.0','','mid-step position'),
 ('M_Orbit.v','pt_rho','#1.0 +','#1.0 -','planet extrapolation'),
 ('M_Orbit.v','pt_bodies','np =? 9','np =? 8','Earth position'),
 ('M_Orbit.v','pt_body','<? #1.0','<? #0.1','near-Earth switch'),
 ('M_Orbit.v','AMAS','#1047.355','#1407.355','mass of Jupiter'),
 ('M_Orbit.v','pv_conic','#2.0 / r - v2 / gmu','#2.0 / r + v2 / gmu','semi-major axis'),
 ('M_Orbit.v','pv_conic','atan2 hx (- hy)','atan2 hx hy','node'),
 ('M_Orbit.v','pv_tp','that * that / #3.0','that * that / #2.0','Barker equation'),
 ('M_Orbit.v','pv_tp','ecc * sinh f - f','ecc * sinh f + f','hyperbolic Kepler equation'),
 ('M_Orbit.v','pv_mean','ae - ecc * sin ae','ae + ecc * sin ae','Kepler equation'),
 ('M_Orbit.v','pv_out','k_bigom k + k_om k','k_om k','longitude of perihelion'),
 ('M_Orbit.v','pv_out','gmu * (k_ecc k + #1.0)','gmu * (k_ecc k - #1.0)','perihelion distance'),
 ('M_Orbit.v','palUe2el','u_cm u - #1.0','u_cm u','mass'),
 ('M_Orbit.v','palPlanet','(vdiv (pvv p) SPD)','(pvv p)','velocity units of palPlanet'),
 ('M_Orbit.v','palPlanet','then (-2)%Z','then 2%Z','status of palPlanet'),
 ('M_Orbit.v','to_ecl','- vy v * SE + vz v * CE','vy v * SE + vz v * CE','equatorial to ecliptic'),
 ('M_Orbit.v','el_std','(aorl - perih) / dm','(aorl + perih) / dm','mean longitude'),
 ('M_Orbit.v','el_std','perih - anode','perih','argument of perihelion'),
 ('M_Orbit.v','el_peri','alpha + #2.0 * cm / q','alpha + cm / q','perihelion speed'),
 ('M_Orbit.v','palEl2ue','(cm - #1.0)','cm','mass'),
 ('M_Orbit.v','palPlantu','- palDt (palEpj date) / SPD','+ palDt (palEpj date) / SPD','sidereal time from UT'),
 ('M_Orbit.v','palPlantu','pvsub vsp vsg','pvsub vsg vsp','direction of the planet'),
 ('M_Orbit.v','palPlantu','vx (pvp v) - tl * vx (pvv v)','vx (pvp v) + tl * vx (pvv v)','light time'),
 ('M_Orbit.v','palRdplan','eraPmp (pvp vse) (sc (pvp vgm))','eraPpp (pvp vse) (sc (pvp vgm))','geocentre from barycentre'),
 ('M_Orbit.v','palRdplan','EQRAU np / (r','EQRAU 3 / (r','angular diameter'),
 ('M_Orbit.v','palRdplan','(8 <? np)','(9 <? np)','Sun for numbers out of range'),
 ('M_Orbit.v','palPertel','(j <? 0)%Z','(j =? 0)%Z','status of palPertel'),
 ('M_Pm.v','palPm','eraEpj2jd ep1','eraEpj2jd ep0','proper motion interval'),
 ('M_Frames.v','fk524_cart','cd * ud','cd * ur','FK5 to FK4 proper motion'),
 ('M_Frames.v','palFk54z','dd1950 * y','dr1950 * y','fictitious proper motion'),
 ('M_Sphere.v','palDtps2c','x2 + #1 + y2','x2 + #1 - y2','tangent points'),
 ('M_Time.v','palDat','dat iy im id fd','dat iy im id #0.0','fraction of day passed on'),
]
