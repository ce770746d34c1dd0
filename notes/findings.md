# Reading notes (findings while reading /repo; /tmp/s has stripped sources via /tmp/strip.py)
- palCldj/palDjcl status: ERFA returns negative (-1,-2,-3); palOne2One.c doc says 1,2,3 -> doc mismatch.
- palRanorm: float: reduced<0 tiny => (float)(2pi)=6.2831855f > 2pi => range [0,2pi) violated (refuted).
- palPrec.c:104 third branch: rmatp*rmatq = P0^T*P1, doc says V(EP1)=RMATP*V(EP0) => should be P1*P0^T. BUG (refuted with noncommuting rotations).
- palObs: header promises abbreviations/up-to-first-space matching; code strcasecmp whole => refuted.
- palFitxy itype=4,np=2, coincident measured points: first pass singular leaves sold=0.0 -> 313 `sold>=0 && (.. || np==2)` true => j=0, all-zero coeffs instead of -3. BUG (refuted).
- palMapqk.c:159 uses eraPdp(p,abv) (p unnormalised, undeflected) vs palMapqkz.c:138 eraPdp(p1,abv): Mapqk with zero pm/px/rv != Mapqkz unless gr2e=0. BUG.
- palPolmo.c:168-171: cph==0 => division by 0 in sel/cel (xt reset to 1.0) => NaN daz at exact pole.
- palDcmpf doc step 4 typo (y2 = -sin*y'''+cos*y''' should be x'''); decomposition correct for nonsingular (b f - c e <> 0).
- palUnpcd: Cardano inverse of palPcd; for disco<0 three roots case picks closest.
- palIntin: retval is `int` not long => strtol result truncated; LONG_MAX doc; ERANGE; hasminus scan.
- palIntin/palDfltin: hasminus semantic; palDfltin isalpha skipping; 255-char buffer truncation.
- palDmat: Gauss-Jordan w/ partial pivot; jf=-1 when amx<1e-20 or |d|<1e-20 (determinant small => "singular" although not).
- palDafin: jd=2 => -1 etc.; jm<0 => -2.
- palAltaz: AZD etc are derivatives wrt HA. rsq<TINY clamp.
- palDt: piecewise continuity at breakpoints (approx).
- palEtrms/Addet/Subet: v x r = k (v x a) , |k|=O(|a|^2).
- PAL__PMF macro has trailing ';' (harmless in all uses).
- palAmpqk iterates aberration x2, deflection x5; fixed point = exact inverse.
- palVers: without strlcpy, verlen=0 writes dest[-1] (C75_zero_length_refuted).
- palRefro: division by zero for the lapse rate with g*28.9644/8314.32/alpha = 18.36, about 0.00186 K/m (C71_lapse_exception).
- palDtps2c: at the pole the second solution need not be a tangent point (C13_pole_second_solution_refuted).
- palDjcal: a fraction rounding to 10^ndp is not carried (C36_no_carry_refuted).
- palIntin: int squeezes long; palDfltin: 255-char buffer splits numbers, hex "0x1D" is altered by the D->E translation.
- palFk54z: r1950 not reduced to [0,2pi) after the fictitious proper motion is applied.
- palRefv: documented 1 microarcsec within 30 degrees of the zenith is about 1.6 microarcsec (C66_1uas_refuted).
- palUe2pv: the halving loop need not terminate for infinite BETA; at most 26 iterations.
- palPlantu: on palUe2pv failure an uninitialised vsp is used (unreachable from palPlante).
- palPertue: planet loop excludes the Moon though documented (C63_moon_refuted); COINC=0.0001 vs 0.001 documented.
- palPertel: reads uninitialised jf when palUe2el fails (then returns -5 anyway).
- palPv2el: within 1e-8 of a parabola the requested form 1 or 2 is kept (documented: 3) (C62_parabola_refuted).
- palEl2ue: JFORM=1 with dm^2 a^3 < GCON^2 returns -5, undocumented (C61_el2ue_slow).
- palRdplan: np outside 0..8 is the Sun, 3 the Moon. palGeoc uses AU=149597870 km, palPvobs 149597870.7 km.
- palRefco vs palRefcoq: wl = 100 exactly is radio for palRefro, optical for eraRefco.
- palPm: with a parallax below 1e-7 arcsec (zero included) any proper motion above 3.3 mas/yr is silently dropped and the place returned unchanged (C80_no_parallax); the notes of palPm.c only say the parallax "should not be zero", and the status that would tell is discarded.
- palPm: in ERFA releases before the change of starpv.c (2020-21) a radial velocity of exactly zero is not corrected to the inertial value, so the result is discontinuous at rv = 0 (hypothesis of C80_palPm).
- palEtrms: the cubic term of the mean obliquity has the wrong sign: -0.00181 t^3 instead of Newcomb's +0.00181 t^3 (effect below 1e-12 rad on the E-terms for 1800-2200; C24_newcomb holds to 6e-12).

## Exceptional values (C95, C96)
- `palUe2pv` (and so `palPlantu`, `palPlante`, `palPlanel`, `palPertue`...) does not return when `alpha*psi*psi` is infinite: the
  angle-halving loop divides an infinity by four for ever. An infinite date does it on any non-parabolic orbit; so does the
  finite date 1e200 on the Earth's orbit (`C96_finite_date`).
- With a NaN date `palUe2pv` returns status 0 ("OK") and NaN positions; `palPv2ue` accepts NaN positions with status 0; `palDjcl`
  (ERFA `jd2cal`) accepts NaN with status 0 and then converts NaN to `int`, undefined in C.
- `palRefro` hides NaN: because `DMAX(a,b)` is `a > b ? a : b`, a NaN zenith distance gives the refraction at 93 degrees, a NaN
  pressure none at all, a NaN temperature that at 100 K (`C95_palRefro_nan`).
- `palPxy` called with the predicted array equal to the expected array (which the interface does not forbid) reports zero residuals
  whatever the data, because each prediction is stored before the residual is formed (`C101_palPxy_hazard`); predicted = measured is safe.
- `palDvn` (ERFA `eraSxp`) with the result one or two doubles above the argument returns a wrong vector (`C101_palDvn_hazard`);
  in place it is right. The matrix and cross products are right for every overlap.

## Machine integers (C104)
- palDd2tf, palDr2tf, palDr2af: ndp >= 10 (or <= -10) overflows the `int` power of ten in eraD2tf before anything else
  (`C104_decimals`); intervals of 8.95e7 days or more overflow the hours (`C104_palDd2tf_hours`).
- palDjcal: ndp >= 10 overflows the `int` fraction from 06:00 (a quarter of the day) on (`C104_palDjcal_ten`); the documentation gives no limit on ndp.
- palCldj/palDjcl with a 32-bit long (Windows) overflow from March 1465073 / AD 1465003 on, although ERFA accepts dates to JD 1e9
  (`C104_palCldj_long32`, `C104_palDjcl_long32`).
- palDtf2d, palDtf2r, palDaf2r call abs() on the fields before testing their range: undefined for INT_MIN (`C104_fields`).
- palDjcl and palDjcal convert NaN to `long` (undefined), because NaN passes the range test (`C104_palDjcl`).

## Text in memory (C105)
- palIntin and palDfltin pass plain `char` to isdigit/isalpha/isblank: undefined behaviour for characters 128..254 where char is signed,
  e.g. the UTF-8 degree sign in "12°34" (`C105_palIntin_refuted`, `C105_palDfltin_refuted`, `C105_eg`).
- palObs with `identlen` or `namelen` 0 and no strlcpy writes one byte before the buffer (`C105_palObs_refuted`).
- palDfltin built without copysign finds "-5" in "abc-5"; the normal build reports no number (`C105_scan_refuted`).

## Leap seconds (C106)
- palDat ignores the status of eraJd2cal: where the date is rejected it calls eraDat with uninitialised iy, im, id and fd (undefined
  behaviour; the result may be any value of the table, `C106_junk_refuted`).
