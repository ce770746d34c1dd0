STATUS = {}
NOTE = {
 'C04': 'documented range is refuted (C04_documented_range_refuted, tiny negative angles give (float)2pi); the range [0,(float)2pi] and all nonnegative angles are proved',
 'C13': 'true off the pole; at the pole with xi=0 the second reported solution is not a tangent point (C13_pole_second_solution_refuted)',
 'C27': 'proved for every success except the four-coefficient two-point fit that returns the null model; that case is a genuine defect (C27_two_points_refuted: points 1e-6 apart give status 0 and all-zero coefficients)',
 'C28': 'proved, except that two coincident points with itype 4 give 0 instead of -3 (C28_two_coincident_refuted)',
 'C31': 'the converse (an invertible matrix is never rejected) is refuted: C31_nonsingular_refuted',
 'C34': 'eraJd2cal as in ERFA<=1.7, at the reals',
 'C35': 'codes are -1,-2,-3: the documented positive codes are refuted (C35_documented_codes_refuted); everything else about the status is proved',
 'C36': 'proved except the carry: a fraction rounding up to 10^ndp stays on the same day (C36_no_carry_refuted)',
 'C37': 'decompositions for every ndp; C int overflow of 10^ndp (ndp>9) is outside the model (integers are unbounded)',
}
NOTE.update({
 'C40': 'numbers outside int are returned modulo 2^32 (C40_wide_refuted, C40_value_mod)',
 'C41': 'documented values refuted: C41_overflow_refuted',
 'C42': 'strtod is a parameter constrained by the C99 contract `conforms` (P_Flt.v), for which a conforming instance is exhibited; values exact (no rounding); at most 255 remaining characters, C42_buffer_refuted shows why',
 'C43': 'for every conforming strtod',
 'C45': 'documented abbreviations refuted: C45_abbreviation_refuted',
})

NOTE.update({
 'C20': 'eraNut06a and eraP06e are parameters (arbitrary functions); eraPnm06a is any rotation-valued function',
 'C21': 'refuted for general epoch pairs: C21_general gives the exact (wrongly ordered) product, C21_defect the size of the error; proved when one epoch is J2000 and for equal epochs',
 'C23': 'away from the rotated pole (at the pole the code divides by zero)',
})

NOTE.update({
 'C46': 'at the reals; the reference zenith distances are the printed ATN1, ATN4',
 'C47': 'termination for every arithmetic; the rest at the reals',
 'C66': 'documented 1 microarcsec refuted by C66_1uas_refuted',
 'C67': 'integrand samples are those located by at most four Newton steps (`sampled`), not the exact levels; convergence of the quadrature to the integral is not claimed',
})

NOTE.update({
 'C51': 'eraEpv00, eraP06e, eraPnm06a are parameters',
 'C52': 'exact agreement refuted: C52_exact_refuted',
 'C53': 'parameters satisfy `earthlike`, which C51_earthlike derives for palMappa',
 'C54': 'ordinary refraction constants (`usual`) are a hypothesis for the with-air round trip; convergence of the low-elevation iteration is not claimed',
})

NOTE.update({
 'C59': 'real arithmetic; for every fuel',
 'C60': 'the iteration bound and the untouched outputs hold for every arithmetic; termination of the halving loop is for the reals (with an infinite BETA the C loop does not terminate: C96; that it converges near the epoch: C97)',
 'C61': 'palEl2ue also returns -5 for slow major-planet elements (C61_el2ue_slow), which is not documented',
 'C62': 'documented form 3 for a parabola refuted: C62_parabola_refuted',
 'C63': 'documented perturbation by the Moon refuted: C63_moon_refuted',
})

NOTE.update({
 'C68': 'at the reals; consistent elements, non-rectilinear; explicit error bounds, at most 20 angle halvings',
 'C69': 'at the reals; exact; parabolas returned in form 1 or 2 (the defect of C62_parabola_refuted) and eccentricities within 1e-8 of 1 but not equal to 1 are excluded',
 'C70': 'at the reals; bounds as in C68; palEl2ue ecliptic-to-equatorial constants are a rotation to 1e-16',
})

NOTE.update({
 'C71': 'at the reals; about the layers rf_layt and pal1Atms that the quadrature of C67 samples; C71_lapse_exception proves the excluded lapse rate exists inside the accepted range',
})

NOTE.update({
 'C72': 'at the reals; the ERFA routines behind the wrappers are transcribed in M_Misc.v',
 'C73': 'at the reals; eraGst06a is a parameter; eraEra00, eraGmst06 transcribed',
 'C74': 'at the reals; eraRefco transcribed; wl = 100 exactly is excluded (the two routines disagree on whether it is radio)',
 'C75': 'the branch without HAVE_STRLCPY; verlen = 0 refuted by C75_zero_length_refuted',
})

NOTE.update({
 'C78': 'at the reals; planetary ephemeris plan94 and epv00 are parameters; accuracy of the integration (as against its equations) is not claimed; the Moon is not among the bodies (C63_moon_refuted)',
})

NOTE.update({
 'C79': 'at the reals; ephemerides (plan94, epv00, dmoon) and precession-nutation matrices are parameters here (C58, C77, C51, C76 describe them); one iteration of the light time, not its limit; refraction, polar motion and UT1-UTC are not applied by the C',
})

NOTE.update({
 'C80': 'at the reals; eraStarpm, eraStarpv, eraPvstar transcribed in M_Pm.v (both releases of starpv.c); observed speeds of 0.1 to 0.5 c are not covered; the iteration is exact to 1e-40 on the reals, in doubles it stops at rounding',
})

NOTE.update({
 'C84': 'doubles; libm is an arbitrary function of the stated accuracy; NaN, infinities and overflow excluded by the ranges',
 'C106': 'at the reals; eraDat modelled from the published ERFA source, table to 2017', 'C94': 'binary64 with exceptional values; libm is any set of functions meeting `libm_ok`, shown satisfiable', 'C95': 'binary64; libm following Annex F (`libm_nan`), shown satisfiable', 'C96': 'binary64; any libm', 'C97': 'at the reals; eccentricity at most 0.2; further from the epoch convergence is not claimed (C60 gives the bound on iterations, C68 the accuracy whenever status 0 is returned)', 'C98': 'as C94', 'C99': 'as C94, and `libm_zero`, shown satisfiable', 'C105': 'strtol, strcasecmp and strtod are the C library (strtod a parameter); char signedness, isblank and copying function are parameters', 'C104': 'binary64; pow is any function; sizes: int 32 bits, long 64 (32 where stated); ERFA integer types as released (cal2jd.c, jd2cal.c, d2tf.c are not in /repo)', 'C103': 'palDmat for a matrix and vector clear of one another; pointer arithmetic unbounded', 'C102': 'the second part for a libm with `libm_sym`, shown satisfiable; the compiler must not contract or reassociate', 'C101': 'for any arithmetic; doubles are addressed individually, so overlaps by part of a double are not covered', 'C100': 'as C94; lengths 1e-100 to 6.3; palDm2av for matrices close to a rotation by less than half a turn',
 'C85': 'doubles; as C84', 'C89': 'doubles; as C84', 'C93': 'doubles; the constant DAS2R is modelled as the double quotient pi/648000, the bound covers one ulp of difference from the macro', 'C91': 'doubles; as C84', 'C92': 'doubles; as C84', 'C90': 'doubles; results below 1e-300 and above 1e300 excluded by the ranges', 'C86': 'doubles; as C84', 'C88': 'doubles; as C84', 'C87': 'doubles',
})
