#!/usr/bin/env python3
"""Generates ../properties.jsonl from the table below (id order = list order)."""
import json, os
P = []
def p(title, statement, quantifier, why, anchors):
    P.append(dict(id="C%02d" % (len(P)+1), title=title, statement=statement,
                  quantifier=quantifier, why_tests_cant=why, anchors=anchors))

# ---- angles, vectors, rotations
p("palDrange reduces to +/-pi and preserves the angle",
  "For every angle x, palDrange(x) lies in [-pi, pi] and differs from x by a whole number of turns; inputs already strictly inside (-pi,pi) are returned unchanged.",
  "all real angles", "uncountably many inputs; the boundary at odd multiples of pi is hit by no sampled test",
  ["palDrange.c:palDrange"])
p("palDrange is idempotent",
  "Normalising an already normalised angle changes nothing: palDrange(palDrange(x)) = palDrange(x).",
  "all real angles", "uncountably many inputs, and the boundary (odd multiples of pi) is a measure-zero set",
  ["palDrange.c:palDrange"])
p("palDranrm reduces to [0,2pi) and preserves the angle",
  "For every angle x, palDranrm(x) is in [0,2pi), congruent to x modulo 2pi, and palDranrm is idempotent.",
  "all real angles", "uncountably many inputs", ["palOne2One.c:palDranrm"])
p("palRanorm range, and the documented range's failure",
  "For every finite float angle palRanorm returns a float in [0,(float)2pi], below 2pi for every nonnegative angle. The documented half-open range [0,2pi) fails for tiny negative angles, which give (float)2pi > 2pi.",
  "all finite single precision angles", "the violation needs a tiny negative angle whose sum with 2pi rounds up",
  ["palRanorm.c:palRanorm"])
p("Spherical <-> Cartesian conversions are inverse",
  "palDcs2c always yields a unit vector; palDcc2s of any positive multiple of palDcs2c(a,b) returns b, and a modulo 2pi, for |b|<pi/2; palDcs2c(palDcc2s(v)) = v/|v| for every nonzero v; and palDcc2s output ranges are (-pi,pi] and [-pi/2,pi/2].",
  "all angles and all nonzero vectors", "continuum of inputs and the quadrant/pole cases", ["palOne2One.c:palDcs2c", "palOne2One.c:palDcc2s"])
p("Separation and bearing functions are the geometric ones",
  "palDsepv(a,b) (nonzero a,b) is in [0,pi] with cosine a.b/|a||b|, symmetric; palDsep of two directions is palDsepv of their direction cosines; palDvn returns the unit vector and modulus; palDvdv / palDvxv are the scalar and vector products.",
  "all nonzero vectors / all spherical coordinates", "continuum of inputs", ["palOne2One.c:palDsep", "palOne2One.c:palDsepv", "palOne2One.c:palDvn","palOne2One.c:palDvdv","palOne2One.c:palDvxv"])
p("Equatorial <-> horizon conversions are mutually inverse",
  "palDh2e(palDe2h(ha,dec,phi),phi) denotes the same direction as (ha,dec), and vice versa, for every latitude; palDe2h returns azimuth in [0,2pi) and elevation in [-pi/2,pi/2]; palDh2e returns ha in (-pi,pi] and dec in [-pi/2,pi/2].",
  "all angles", "continuum of inputs incl. poles and zenith", ["palDe2h.c:palDe2h", "palDh2e.c:palDh2e"])
p("palAltaz agrees with palDe2h and palPa",
  "Away from the zenith palAltaz's azimuth, elevation and parallactic angle are those given by palDe2h and (up to the tan/atan2 branch) palPa.",
  "all ha, dec, phi not at the zenith", "continuum of inputs", ["palAltaz.c:palAltaz", "palDe2h.c:palDe2h", "palPa.c:palPa"])
p("palAltaz velocities and accelerations are the true derivatives",
  "Away from the zenith, the azimuth, elevation and parallactic angle velocities (accelerations) returned by palAltaz are exactly the first (second) derivatives, with respect to hour angle, of the az, el, pa it returns.",
  "all ha, dec, phi with the object off the zenith (and off the azimuth branch cut)", "a derivative is a limit statement", ["palAltaz.c:palAltaz"])
p("palPa is the position angle of the zenith",
  "palPa(ha,dec,phi) is the bearing of the zenith as seen from the object: tan pa = sqsz/cqsz with the documented quadrant, in (-pi,pi], zero at the zenith, odd in ha.",
  "all ha, dec, phi", "continuum of inputs", ["palPa.c:palPa"])
p("Gnomonic projection: palDs2tp and palDtp2s are inverse",
  "Whenever palDs2tp reports 0, palDtp2s maps (xi,eta) back to the same direction with ra in [0,2pi); conversely palDs2tp(palDtp2s(xi,eta)) = (xi,eta) with status 0 for every (xi,eta) whose image is within 90 degrees - which is always, up to the 1e-6 guard.",
  "all tangent points and all star positions / plane coordinates", "continuum of inputs", ["palDs2tp.c:palDs2tp","palDtp2s.c:palDtp2s"])
p("palDs2tp status codes partition the sphere",
  "palDs2tp returns 0, 1, 2 or 3 exactly according to the cosine of the angular distance from the tangent point: >1e-6: 0; [0,1e-6]: 1; (-1e-6,0): 2; <=-1e-6: 3.",
  "all star positions and tangent points", "boundary cases", ["palDs2tp.c:palDs2tp"])
p("palDtps2c returns genuine tangent points",
  "For a star off the poles, palDtps2c returns n in {0,1,2}; every returned solution (raz,decz) projects the star exactly to the given (xi,eta), with raz in [0,2pi); every tangent point is among the two solutions; n=0 exactly when no tangent point exists. For a star at a pole the first solution is still genuine, but the second one reported with n=2 need not be (a deviation from the documentation).",
  "all xi, eta, ra, dec", "continuum of inputs", ["palDtps2c.c:palDtps2c"])
p("palDeuler always yields a proper rotation",
  "For every axis string and all angles, palDeuler returns an orthonormal matrix with determinant +1: the product of the elementary rotations named by the longest prefix of at most three characters drawn from XYZ/xyz/123; processing stops at the first other character.",
  "all strings and all angles", "infinitely many strings and angles", ["palDeuler.c:palDeuler"])
p("Rotation matrix helpers: palDmxv, palDimxv, palDmxm",
  "palDimxv undoes palDmxv for every rotation matrix; palDmxm composes them; both preserve lengths and angles.",
  "all rotation matrices and vectors", "continuum", ["palOne2One.c:palDmxv","palOne2One.c:palDimxv","palOne2One.c:palDmxm"])
p("Axial vector <-> rotation matrix",
  "palDav2m always returns a proper rotation about the given axial vector by its length; palDm2av(palDav2m(v)) = v for 0<|v|<pi.",
  "all axial vectors", "continuum", ["palOne2One.c:palDav2m","palOne2One.c:palDm2av"])
# ---- frames
p("Galactic / equatorial conversions are inverse to the printed precision",
  "palGaleq undoes palEqgal and palEqgal undoes palGaleq for every direction: the returned direction is within 3e-10 rad (chord) of the original, the error of the printed matrix; longitude is in [0,2pi) and latitude in [-pi/2,pi/2]; and palEqgal gives the coordinates in the IAU 1958 galactic frame (pole and node as documented, carried from FK4 B1950 to FK5 J2000) to within 3e-10.",
  "all directions", "continuum", ["palEqgal.c:palEqgal","palGaleq.c:palGaleq"])
p("Galactic / supergalactic conversions are inverse to the printed precision",
  "palSupgal undoes palGalsup and conversely for every direction, to within 2e-11 rad (chord); ranges as documented; palGalsup gives coordinates relative to the documented pole (l=47.37, b=+6.32 deg) and origin (l=137.37 deg) to within 1e-11.",
  "all directions", "continuum", ["palGalsup.c:palGalsup","palSupgal.c:palSupgal"])
p("palEcleq and palEqecl are inverse",
  "For every date, palEqecl(palEcleq(dl,db,date),date) is the same direction as (dl,db), whatever the (rotation-valued) precession and obliquity models are; ranges as documented.",
  "all directions and dates, all rotation-valued precession models", "continuum", ["palEcleq.c:palEcleq","palEqecl.c:palEqecl","palEcmat.c:palEcmat"])
p("Frame matrices are rotations",
  "palEcmat, palPrebn, palPrec, palNut (for any nutation angles) and palPrenut (for any rotation-valued precession-nutation matrix and any precession angles) return proper rotation matrices for every date; palNut is the documented product of three elementary rotations; palPrebn between equal epochs is the identity. For 1850-2050 palPrebn is, to 0.03 arcseconds, the rotation by Newcomb's precession angles as reduced by Andoyer; for 1800-2200 palEcmat is a rotation about the x axis by an obliquity within 0.1 arcseconds of the IAU 1980 one.",
  "all dates", "continuum", ["palEcmat.c:palEcmat","palPrebn.c:palPrebn","palNut.c:palNut","palPrec.c:palPrec","palPrenut.c:palPrenut"])
p("palPrec maps vectors from epoch 0 to epoch 1",
  "The matrix returned by palPrec(ep0,ep1) takes mean place vectors of ep0 into those of ep1: V(ep1) = RMATP . V(ep0), with V(ep)=P(ep).V(2000). This holds when either epoch is J2000 or both are equal; for any other pair the code multiplies the two factors in the wrong order, and for 1900 to 2100 the result is wrong by more than 2e-7 rad. From J2000 to any epoch in 1800-2200 the matrix is the classical product of three rotations by the published precession angles, times the frame bias, to 1e-11.",
  "all pairs of epochs", "only visible when neither epoch is 2000 and rotations do not commute", ["palPrec.c:palPrec"])
p("palPreces dispatches on the system name",
  "palPreces accepts exactly strings whose first three characters are FK4 or FK5 in any case, using the corresponding model for the whole conversion; any other system yields -99,-99; ra is returned in [0,2pi) otherwise.",
  "all strings, epochs and directions", "infinitely many strings", ["palPreces.c:palPreces"])
p("palPolmo applies the polar motion rotation",
  "Away from the rotated pole palPolmo returns, in the documented ranges, the longitude and latitude of the site vector rotated by the polar-motion matrix, and as DAZ minus the azimuth of the terrestrial pole at the true site; zero polar motion changes nothing.",
  "all longitudes, latitudes, pole offsets", "continuum", ["palPolmo.c:palPolmo"])
p("E-terms: palAddet and palSubet",
  "palAddet and palSubet return (ra in [0,2pi)) the direction of the unit star vector with the E-terms vector added/removed as documented; each undoes the other to third order in the E-terms, so to better than 6e-18 rad for epochs 1800-2200; the E-terms vector has length e.k and is, for 1800-2200 and to 6e-12, the constant of aberration times Newcomb's eccentricity along the ecliptic direction 90 degrees short of Newcomb's solar perigee, in equatorial axes; palGe50 is the galactic rotation followed by the 1950 E-terms to within 3e-11.",
  "all directions and epochs", "continuum", ["palAddet.c:palAddet","palSubet.c:palSubet","palEtrms.c:palEtrms"])
# ---- plate / linear models
p("palInvf inverts linear models",
  "For a 6-coefficient linear model, palInvf succeeds exactly when the determinant is nonzero; then palXy2xy with the result undoes palXy2xy with the original (both orders) and palInvf is an involution; on failure (-1) the output is untouched.",
  "all coefficient sets and points", "continuum", ["palInvf.c:palInvf","palXy2xy.c:palXy2xy"])
p("palDcmpf recovers the geometric decomposition",
  "For every nonsingular 6-coefficient model the offsets, scales, nonperpendicularity and orientation returned by palDcmpf recompose, by the documented five steps, to exactly the original model.",
  "all nonsingular coefficient sets", "continuum", ["palDcmpf.c:palDcmpf"])
p("palFitxy returns the least squares solution",
  "When palFitxy succeeds, its coefficients minimise the documented sum of squared residuals over all models of the requested type. Sole exception, a defect: a four-coefficient fit to two measured points very close together or coincident may return the all-zero model with status 0.",
  "all point sets of any size, both model types", "unbounded sizes, continuum", ["palFitxy.c:palFitxy"])
p("palFitxy status codes and preservation",
  "palFitxy returns -1 for itype other than 4 or 6, -2 for too few points, -3 for collinear (six coefficients) or coincident (four coefficients, three or more) points, 0 otherwise; unless it succeeds the coefficients are untouched. Two coincident points with itype 4 give 0 instead of -3 (a defect).",
  "all inputs", "all sizes", ["palFitxy.c:palFitxy"])
p("palPxy returns predictions and RMS residuals",
  "palPxy maps each measured point through the model and returns the RMS residuals in x, y and the combined RMS; for np<=0 it returns zeros and touches nothing.",
  "all arrays of any length", "unbounded sizes", ["palPxy.c:palPxy"])
p("palDmat inverts, solves and gives the determinant",
  "When palDmat reports 0, the returned matrix is the inverse of the input, the returned vector solves A x = y and d is the determinant, for every order n.",
  "all orders and all matrices", "unbounded sizes", ["palDmat.c:palDmat"])
p("palDmat detects every singular matrix",
  "palDmat reports -1 (with d = 0) for every singular matrix and indeed for every matrix whose determinant is below 1e-20 in size; the flag is otherwise 0 or -1. (It also rejects some invertible matrices: the threshold is absolute.)",
  "all orders and all matrices", "unbounded sizes", ["palDmat.c:palDmat"])
p("palUnpcd inverts palPcd",
  "For every distortion coefficient and undistorted point at which the cubic is one-to-one, palUnpcd(palPcd(x,y)) = (x,y), and every result of palUnpcd is a genuine preimage.",
  "all coefficients and points", "continuum; branch of Cardano's formula", ["palPcd.c:palPcd","palUnpcd.c:palUnpcd"])
# ---- time
p("palCaldj year windowing",
  "palCaldj treats years 0-49 as 2000-2049 and 50-99 as 1950-1999 and agrees with palCldj on every other year.",
  "all years, months and days", "unbounded integers", ["palCaldj.c:palCaldj"])
p("Calendar date <-> MJD is a bijection",
  "palCldj numbers days consecutively in the Gregorian calendar (each day's MJD is its predecessor's plus one), and palDjcl inverts it on every date palCldj accepts.",
  "all dates from -4799", "unbounded range", ["palOne2One.c:palCldj","palOne2One.c:palDjcl"])
p("palCldj and palCaldj status codes",
  "palCldj and palCaldj accept exactly the valid calendar dates from -4799 on; for others the code identifies the first bad field, as -1 bad year, -2 bad month, -3 bad day. The documented positive codes 1, 2, 3 are never returned (a deviation from the documentation).",
  "all integer dates", "documentation vs behaviour for all invalid dates", ["palOne2One.c:palCldj","palCaldj.c:palCaldj"])
p("palDjcal agrees with palDjcl",
  "palDjcal's year, month and day are those of palDjcl and its fraction is that of palDjcl rounded to ndp decimals, in [0,10^ndp]. A fraction rounding up to a whole day is not carried into the date (a deviation from the documentation).",
  "all MJDs and ndp", "continuum, rounding carries", ["palDjcal.c:palDjcal"])
p("Sexagesimal conversions",
  "palDtf2d/palDtf2r/palDaf2r return h/24+..., with status 1,2,3 exactly for out-of-range hours/degrees, minutes, seconds; palDd2tf and palDr2tf decompose with carry so that the fields recompose to the rounded value and lie in range.",
  "all inputs", "rounding carries across fields", ["palOne2One.c:palDtf2d","palOne2One.c:palDaf2r","palOne2One.c:palDd2tf"])
p("Epoch conversions are inverse",
  "palEpj2d/palEpj and palEpb2d/palEpb are mutually inverse; palEpco(k0,k,e) is the identity when k0 and k agree, converts B->J and J->B otherwise, case-insensitively, and palEpco(J,B) undoes palEpco(B,J).",
  "all epochs and characters", "continuum", ["palEpco.c:palEpco","palOne2One.c:palEpj","palOne2One.c:palEpb"])
p("palDtt and palDat are consistent; palDt piecewise model",
  "palDtt(utc) - palDat(utc) = 32.184 for every UTC; palDt is total with the documented pieces and its jumps at the piece boundaries are bounded.",
  "all dates", "continuum", ["palDtt.c:palDtt","palDat.c:palDat","palDt.c:palDt"])
# ---- strings
p("palIntin decodes integers",
  "palIntin returns the decimal integer at the current position (for integers that fit an int; others that fit a long are returned modulo 2^32, a defect) with the documented status (0/-1 number with sign, 1 null with the result untouched) and advances the pointer past the field and its separator; the pointer never moves outside the string and never moves backwards.",
  "all strings and start positions", "infinitely many strings", ["palIntin.c:palIntin"])
p("palIntin on numbers that do not fit",
  "For an integer outside the range of long palIntin reports status 2; the documented LONG_MAX / LONG_MIN is not delivered, the result is -1 / 0 (a deviation from the documentation).",
  "all strings", "needs huge literals", ["palIntin.c:palIntin"])
p("palDfltin decodes floating point numbers",
  "palDfltin decodes the number at the current position, treats D exponents as E, distinguishes -0 by status -1, null fields by status 1 (result untouched), out-of-range numbers by status 2; the pointer advances past the field and its separator, within the string. Holds when at most 255 characters remain; a number across the 255th character is cut in two with an OK status (a defect).",
  "all strings and start positions", "infinitely many strings", ["palDfltin.c:palDfltin"])
p("palDafin status and range",
  "palDafin returns status 0 only when the fields are in range, with |a| equal to (deg + min/60 + sec/3600) degrees and the sign of the first field; documented codes otherwise.",
  "all strings", "infinitely many strings", ["palDafin.c:palDafin"])
p("palObs station lookup",
  "palObs(n,...) for 1<=n<=number of stations returns the n-th entry; lookup by each entry's own identifier returns that entry, in any letter case; otherwise status -1, name '?' and the position untouched.",
  "all n and all identifiers", "infinitely many strings", ["palObs.c:palObs"])
p("palObs needs complete identifiers",
  "palObs(0,c) succeeds exactly when c is a complete station identifier up to letter case. The documented abbreviations (leading characters, trailing space) are rejected with status -1 (a deviation from the documentation).",
  "all identifiers", "documentation vs behaviour", ["palObs.c:palObs"])
# ---- refraction
p("palRefco fits palRefro exactly at the two reference zenith distances",
  "palRefco's A and B make A tan z + B tan^3 z, with tan z = 1 and tan z = 4, equal to palRefro's refraction at zenith distances whose tangents are 1 and 4 (to 1e-15 and 1e-14).",
  "all atmospheric parameters", "continuum", ["palRefco.c:palRefco"])
p("palRefro is total, odd and clamped",
  "palRefro terminates for all inputs and any arithmetic (at most 12 passes, 16384 strips), is odd in the zenith distance, gives 0 at the zenith and for zero pressure, is constant in zobs beyond 1.623156204 rad (93 degrees), and depends on out-of-range arguments only through their documented clamped values.",
  "all inputs, any arithmetic for termination", "adaptive iteration, continuum", ["palRefro.c:palRefro"])
p("palRefz inverts the refraction model and has no glitch",
  "For 0 <= A <= 3e-4, -4e-7 <= B <= 0, palRefz's result zr satisfies zr + A tan zr + B tan^3 zr = zu within 3e-15 rad up to 80 degrees and 3e-13 rad up to 83 degrees; above 83 degrees the correction is the one at 83 degrees times the published empirical ratio; beyond 93 degrees it is constant; and the result is continuous everywhere.",
  "all zenith distances and refraction constants in the usual range", "continuum, boundary", ["palRefz.c:palRefz"])
p("palAirmas",
  "palAirmas is even in zd, 1 at the zenith, and constant beyond 1.52 rad, and strictly increasing with zd in between.",
  "all zenith distances", "continuum", ["palAirmas.c:palAirmas"])
p("palAtmdsp",
  "palAtmdsp leaves A and B alone at radio wavelengths and when the wavelength does not change; otherwise A scales with the refractivity of the air at the observer (so chains of wavelength changes compose and a round trip restores A exactly, B to second order), and a longer wavelength gives a smaller A.",
  "all inputs", "continuum", ["palAtmdsp.c:palAtmdsp"])
# ---- mean to apparent etc
p("palMappa's parameters, palMap and palAmp",
  "For any ephemeris palMappa returns the proper motion time, the barycentric position, the unit heliocentric direction, 2GM/(c^2 r), the velocity in units of c and its Lorentz reciprocal, all referred to the mean equinox eq, and the precession-nutation matrix. palMap and palAmp are palMapqk and palAmpqk with those parameters. For a star with no proper motion, parallax or radial velocity, at least 0.81 degrees from the Sun, and any ephemeris at least 0.95 au from the Sun moving at most 0.019 au/day, palAmp(palMap(star)) returns the star to 1.3e-11 rad.",
  "all catalogue positions, equinoxes, dates and ephemerides in the stated range", "continuum; the inverse is a truncated iteration", ["palMappa.c:palMappa","palMap.c:palMap","palAmp.c:palAmp","palEvp.c:palEvp"])
p("palMapqk and palMapqkz agree",
  "palMapqk is palMapqkz applied to the direction of: catalogue vector + elapsed years times the space motion (coordinate proper motions, radial velocity scaled by parallax) - parallax times the observer's barycentric position; the agreement is within 6.3e-9 rho + 1e-13 rad, rho being the departure of that vector from unit length; with zero motions 1e-13 rad everywhere in the sky (including behind the Sun), and exactly when there is no light deflection. Exact agreement in general fails.",
  "all Earth-like parameter sets, directions, proper motions, parallaxes and velocities", "continuum", ["palMapqk.c:palMapqk","palMapqkz.c:palMapqkz"])
p("Apparent to mean undoes mean to apparent",
  "For every Earth-like parameter set (speed up to 1.1e-4 c, 2GM/(c^2 r) up to 2.1e-8) and every star at least 0.81 degrees from the Sun's centre, palAmpqk(palMapqkz(star)) is within 1.2e-11 rad of the star, and an error e in the apparent place gives at most 1.1 e more; the result is exact without deflection and aberration; both routines return ra in [0,2pi) and dec in [-pi/2,pi/2].",
  "all parameter sets and directions in the stated range", "continuum; two and five fixed iterations", ["palAmpqk.c:palAmpqk","palMapqkz.c:palMapqkz"])
p("Observed place and back",
  "palAopqk's azimuth/zenith distance, hour angle/declination and right ascension denote one point of the sky, in the stated ranges, and give identical results as palOapqk inputs of type A, H and R (letters case-insensitive, anything else meaning A). palOapqk undoes palAopqk to 1.03 d^2 + 4e-15 rad (d the diurnal aberration constant) for every star with sine of elevation at least 0.26 and ordinary refraction constants, and to 1.03 d^2 over the whole sky without air; palAop and palOap on an airless site compose to the identity within 5e-12 rad. At low elevations palAopqk's zenith distance is an iterate of z <- zt - palRefro(z), stopped when the step is at most 1e-10 or after ten. palAoppa rotates the site by the polar motion; palAoppat changes only the sidereal time, to IAU 1982 GMST plus the longitude.",
  "all apparent places, sites, dates and atmospheres in the stated ranges", "continuum; iterative", ["palAop.c:palAop","palAopqk.c:palAopqk","palOap.c:palOap","palOapqk.c:palOapqk","palAoppa.c:palAoppa","palAoppat.c:palAoppat"])
p("FK4/FK5 conversions",
  "palFk524 returns the direction and the proper motions, parallax and radial velocity of the documented position/velocity 6-vector with E-terms included; palFk54z is palFk524 with zero motions, shifted by the fictitious motion; palFk45z removes the E-terms and applies the documented matrix and fictitious motion; at B1950 palFk45z undoes palFk54z to within 1e-9 for every direction. The matrices embody a rotation of the FK4 frame against FK5 of 0.497 arcseconds per tropical century: a star at rest in FK5 has in FK4 the proper motion of that rotation plus the drift of the E-terms, to 1e-5 arcseconds per century. The E-terms they use are Newcomb's E-terms carried on the fixed B1950 equator, to 3e-11 for 1900-2000.",
  "all catalogue entries", "continuum", ["palFk45z.c:palFk45z","palFk524.c:palFk524","palFk54z.c:palFk54z"])
# ---- kinematics
p("palPvobs velocity is the derivative of the position",
  "palPvobs's velocity is the derivative of its position with respect to time at the sidereal rate, is perpendicular to the position projected on the equator, and has zero z component.",
  "all latitudes, heights and sidereal times", "derivative", ["palPvobs.c:palPvobs","palGeoc.c:palGeoc"])
p("Radial velocity components",
  "palRverot, palRvgalc, palRvlg, palRvlsrd, palRvlsrk are the projections on the direction of the star of the documented velocities (documented speed and apex; also expressed in galactic coordinates through palEqgal): receding is positive, bounded by the speed, odd under antipodes; palRverot agrees with palPvobs to the documented 0.0005 km/s.",
  "all directions", "continuum", ["palRverot.c:palRverot","palRvgalc.c:palRvgalc","palRvlg.c:palRvlg","palRvlsrd.c:palRvlsrd","palRvlsrk.c:palRvlsrk"])
p("palDmoon velocity is the analytic derivative of the Moon model",
  "The ecliptic longitude, latitude and distance rates used by palDmoon are exactly the time derivatives of the series; the returned velocity is the derivative of the returned position up to the (neglected) rotation of the ecliptic frame, less than 2e-8 of the distance per day; the distance stays between 0.00236 and 0.00282 au within 10 centuries of 1900.",
  "all dates", "derivative of a 126-term series", ["palDmoon.c:palDmoon"])
# ---- orbits
p("palPv2ue and palUe2pv are inverse at the epoch",
  "If palPv2ue accepts a state vector, palUe2pv at the same date succeeds and returns exactly that state vector.",
  "all state vectors, dates and masses", "continuum, iterative solver", ["palPv2ue.c:palPv2ue","palUe2pv.c:palUe2pv"])
p("palUe2pv terminates and reports honestly",
  "palUe2pv performs at most 26 iterations; status 0 means the Newton/secant correction fell below tolerance; on failure pv and u are untouched; on success only the date and psi entries of u change.",
  "all inputs", "iterative solver", ["palUe2pv.c:palUe2pv"])
p("Orbit status codes",
  "palEl2ue, palPlanel, palPlante, palPertel, palPv2el, palUe2el and palPlanet return exactly the documented status codes for the documented invalid arguments, checked in order, leaving outputs untouched.",
  "all inputs", "all combinations of invalid arguments", ["palEl2ue.c:palEl2ue","palPlanel.c:palPlanel","palPlante.c:palPlante","palPertel.c:palPertel","palPv2el.c:palPv2el","palPlanet.c:palPlanet"])
p("palPv2el returns the form of elements that suits the orbit",
  "palPv2el returns the eccentricity of the orbit; an elliptical orbit is returned in the requested form and a hyperbolic one in form 3 whatever was requested (within 1e-8 of a parabola the eccentricity is 1 and, contrary to the documentation, the requested form is kept).",
  "all state vectors", "parabola is a measure-zero case", ["palPv2el.c:palPv2el"])
p("palPertue terminates, reports honestly and reaches the final epoch",
  "palPertue needs at most 100 steps per day of span; failure (-1) leaves the elements untouched; success gives elements osculating exactly at the requested date; the status is -1, 0, 1-9, 101 or 102 (the documented tenth body, the Moon, plays no part).",
  "all inputs and all planetary ephemerides", "adaptive stepping; needs a lunar encounter", ["palPertue.c:palPertue"])
# ---- additions
p("palGeoc places the observer on the reference ellipsoid",
  "palGeoc(p,h) returns (in AU) the distance from the axis and from the equator of the point at height h above the WGS84 ellipsoid along the normal inclined p to the equator.",
  "all latitudes and heights", "continuum", ["palGeoc.c:palGeoc"])
p("palmac.h angle constants are the named multiples of pi",
  "Each printed angle conversion constant equals the named multiple (or reciprocal multiple) of pi to far better than double precision.",
  "all constants (real-number statement)", "a test compares doubles with doubles computed from the same literals", ["palmac.h"])
p("palRefv refracts in the vertical plane",
  "palRefv keeps the azimuth, keeps the length of the vector to 1e-10, and turns a vector at zenith distance zu <= 83 degrees to a zenith distance zr with zr + A tan zr + B tan^3 zr = zu within 2e-6 rad everywhere, 1 mas up to 70 degrees and 2 microarcsec within 30 degrees (the documented 1 microarcsec is refuted); below 3 degrees elevation the correction is held; zero coefficients and the zenith are fixed.",
  "all directions and usual coefficients", "continuum", ["palRefv.c:palRefv"])
p("palRefro is the documented pair of Simpson integrals",
  "palRefro returns the sum of two composite Simpson integrals of (r dn/dr)/(n + r dn/dr) against zenith distance, through the troposphere and the stratosphere, each on 8*2^j strips (j <= 11) with levels located by Newton iteration from Snell's invariant, refined until two successive estimates agree within half the tolerance (or 16384 strips).",
  "all inputs", "adaptive quadrature with reuse of samples", ["palRefro.c:palRefro","pal1Atmt.c:pal1Atmt","pal1Atms.c:pal1Atms"])
p("palUe2pv follows the two-body motion",
  "If the universal elements are consistent (their redundant entries agree with the position and velocity they contain, as palPv2ue makes them and palUe2pv keeps them) and the motion is not rectilinear, then a status-0 return of palUe2pv gives the position and velocity of THE solution of Newton's two-body equation through that position and velocity, for ellipses, parabolas and hyperbolas alike, at a time that differs from the requested one by at most an explicit bound, with explicit bounds on the position and velocity errors (truncation of the series, loss through angle doubling, tolerance of the iteration). For an ellipse the bounds depend only on the semi-major axis, the speed at epoch and the number of halvings.",
  "every consistent element set, every date, every number of halvings up to 20, every solution of the two-body equation",
  "tests compare a handful of orbits; the claim is about a differential equation and all conics",
  ["palUe2pv.c:palUe2pv", "palPv2ue.c:palPv2ue"])
p("The elements returned by palPv2el are osculating",
  "When palPv2el returns status 0 for a non-rectilinear state (eccentricity not within 1e-8 of 1, or exactly 1 in form 3), the elements returned - whichever of the three forms - describe an orbit with inclination in [0,pi], node and perihelion in [0,2pi), positive perihelion distance, and the two-body motion that starts at the perihelion they define has exactly the given position and velocity at the given date (time since perihelion computed from the epoch of perihelion, the mean anomaly or the mean longitude and daily motion respectively); the perihelion is the point of closest approach.",
  "every state vector, mass, requested form and every solution of the two-body equation", "the claim is about a differential equation and all conics; tests round-trip single orbits",
  ["palPv2el.c:palPv2el", "palUe2el.c:palUe2el"])
p("palPlanel and palEl2ue follow the orbit that the elements describe",
  "When palPlanel succeeds, its result is - up to explicit bounds on the time and on the position and velocity, depending on the elements and the number of halvings - the equatorial position and velocity at the given date on the two-body motion through the perihelion that the elements define, in each of the three forms; the elements palEl2ue delivers are exactly that state. Elements made by palPv2el from a state vector lead palPlanel back to the motion through that state vector.",
  "every element set in every form, every date", "continuum of orbits and dates; three element forms",
  ["palPlanel.c:palPlanel", "palEl2ue.c:palEl2ue", "palPv2el.c:palPv2el"])
p("The model atmosphere of palRefro is in hydrostatic equilibrium and its gradient is exact",
  "Inside palRefro, below the tropopause there is a pressure profile equal to the given pressure at the observer and in hydrostatic equilibrium with moist air (linear temperature, vapour pressure as the 18.36th power of temperature) such that the refractive index used at each level is that of air at that pressure, vapour pressure and temperature (optical or radio formula); above it the air is dry and isothermal and the index continuous; in both layers the r dn/dr that is integrated is exactly r times the derivative of the index. The single exception is a lapse rate near 0.00186 K/m, accepted by palRefro, where it divides by zero.",
  "all observer conditions, wavelengths and levels (temperature between the clamps 100 K and 320 K)", "a differential equation over a continuum of levels", ["palRefro.c:palRefro","pal1Atmt.c:pal1Atmt","pal1Atms.c:pal1Atms"])
p("FK5 and Hipparcos conversions are inverse and the proper motions are derivatives",
  "palHfk5z and palFk5hz relate positions by the published rotation of 19.9, 9.1, 22.9 mas drifting at 0.30, 0.60, 0.70 mas per year of epoch; each undoes the other at the same epoch; the FK5 proper motions palHfk5z returns are the derivatives with respect to epoch of the FK5 position it returns.",
  "all positions and epochs", "continuum; derivative", ["palOne2One.c:palFk5hz","palOne2One.c:palHfk5z"])
p("Sidereal time",
  "palGmst is in [0,2pi) and equals, modulo a turn, the IAU 2000 Earth rotation angle plus the accumulated precession in right ascension; palGmsta gives the same however the date is divided; the sidereal time used by palAoppat is that of palGmst to 0.3 arcsec for a century about J2000; mean sidereal time plus palEqeqx is apparent sidereal time.",
  "all dates", "continuum of dates", ["palOne2One.c:palGmst","palOne2One.c:palGmsta","palOne2One.c:palEqeqx","palAoppat.c:palAoppat"])
p("palRefcoq is consistent with palRefro's atmosphere",
  "palRefcoq clamps its arguments to its limits, returns zeros for no air, and otherwise n0(1-beta) and -n0(beta-n0/2) of the refractivity n0 that palRefro's model atmosphere has at the observer (to 3e-9 mb/K), beta = 4.4474e-6 T (reduced in the radio by 0.0074 per mb of vapour).",
  "all weather and wavelengths", "continuum; two independent formulations of the same physics", ["palOne2One.c:palRefcoq","palRefro.c:palRefro"])
p("palVers stays within the buffer",
  "palVers writes exactly verlen bytes of the buffer, leaving the longest prefix of the version string that fits and a terminating NUL, and accepts a null pointer. With verlen = 0 the fallback code (no strlcpy) writes one byte before the buffer (a defect).",
  "all version strings, buffers and lengths", "memory safety for every length", ["palVers.c:palVers"])
p("The nutation used by palAoppa is the IAU 2000 nutation",
  "For every date within a century of J2000 the nutation in longitude and obliquity that palAoppa uses is that of the IAU 2000 series (thirteen largest terms, with the published precession corrections) to 0.104 and 0.039 arcsec, its mean obliquity is right to 0.015 arcsec, its equation of the equinoxes to 0.096 arcsec, and (no polar motion, |dut| <= 1 s) the sidereal time it stores is the local apparent sidereal time at UT1 = UTC + dut to 0.0961 arcsec.",
  "all dates from 1900 to 2100, all sites", "continuum of dates; a 194-row series", ["palAoppa.c:pal__Nutc","palAoppa.c:pal__Eqeqx","palAoppa.c:palAoppa"])
p("palDmoon gives the published lunar theory",
  "For every date within a century of J2000 the position palDmoon returns is, in the mean equatorial frame of date, at an ecliptic longitude within 0.158 degree, a latitude within 0.097 degree and a horizontal parallax within 0.00435 degree of the sums of the largest published inequalities of the Moon (thirteen in longitude, seven in latitude, five in parallax), the distance being the Earth's equatorial radius over the sine of the parallax.",
  "all dates from 1900 to 2100", "continuum of dates; three series of 126 rows in all", ["palDmoon.c:palDmoon"])
p("palPertue integrates the perturbed equations of motion by Encke's method",
  "A successful palPertue is a sequence of steps of 0.01 to 10 days (the last as needed) ending at the final date. In each, the departure from the osculating two-body orbit advances with the perturbing acceleration evaluated at mid step: solar attraction at the perturbed minus at the unperturbed position, plus for each planet k^2/m [(b-p)/|b-p|^3 - b/|b|^3]; the planets' positions are extrapolated by at most 5 days from orbits osculating palPlanet's prediction at most 55 days away; the Earth replaces the Earth-Moon barycentre nearer than 1 au; a body nearer than 0.0001 au is left out and its number becomes the status. The orbit is rectified at least every 100 days and at the end. The masses are right to 0.6 per cent.",
  "all elements, dates and planetary ephemerides", "an unbounded number of integration steps for every ephemeris", ["palPertue.c:palPertue","palPertel.c:palPertel"])
p("Topocentric places are those of the body when the light left it",
  "palPlantu, palPlante and palRdplan give the direction, from the observer on the reference ellipsoid at the local mean sidereal time, of the body's relative position less the light time over its geometric distance times its relative velocity, in the true equator and equinox of date; this differs from the position at the time the light left by at most half the acceleration times the light time squared. palPlantu's body is that of palUe2pv; palRdplan's Moon is palDmoon's, and its planets and Sun are relative to the Earth, which is the Earth-Moon barycentre less the Moon's share of the mass; the diameter is the angle that the body's equatorial radius subtends at the geometric distance; a planet number outside 1..8 means the Sun.",
  "all dates, observers, elements, planet numbers and ephemerides", "all bodies and dates; the retarded position is a statement about a whole trajectory", ["palPlantu.c:palPlantu","palPlante.c:palPlante","palRdplan.c:palRdplan","palPvobs.c:palPvobs"])
p("Proper motion is uniform motion in space seen at the speed of light",
  "For a star with a parallax of at least 1e-7 arcsec and an observed speed up to a tenth of that of light, palPm's place at any epoch is the direction of a point moving uniformly in a straight line from the catalogue position, at the time it emitted the light which arrives at that epoch; the velocity is the only one below that of light for which the motion seen and the Doppler shift are those of the catalogue. So the place at the starting epoch is unchanged, and the rate of change of the place there is the proper motion given. With a smaller parallax a proper motion above 3.3 mas/yr is ignored.",
  "all places, proper motions, parallaxes, radial velocities and epochs", "a continuum of stars and epochs; the statements are about derivatives and about an implicit equation", ["palPm.c:palPm"])
p("Angle reduction is exact in double precision",
  "In IEEE double arithmetic, for every finite double, palDrange returns a value strictly inside (-pi,pi) that differs from the argument by exactly a whole number of times the double nearest to 2 pi (no rounding error; hence by a multiple of 2 pi to 8e-17 of the argument), leaves arguments inside (-pi,pi) unchanged and is idempotent; palDranrm returns a value in [0,2pi), exact for nonnegative arguments and with one rounding of at most 2^-51 for negative ones.",
  "all finite doubles", "2^64 arguments; the claim is about rounding", ["palDrange.c:palDrange","palOne2One.c:palDranrm"])
p("Sexagesimal fields in double precision",
  "In IEEE double arithmetic, for 0-9 decimals and intervals up to 8e15 units of the last decimal, palDd2tf returns legal fields (never 60 seconds) that represent the interval to half a unit plus 3.4e-16 of the interval. Composing with palDtf2d (or palDtf2r with palDr2tf) and decomposing returns the same hours, minutes, seconds and up to nine decimals for every legal time; palDaf2r with palDr2af the same for angles up to 360 degrees and eight decimals.",
  "all doubles in range and all combinations of fields", "10^14 combinations of fields; rounding", ["palOne2One.c:palDd2tf","palOne2One.c:palDtf2d","palOne2One.c:palDtf2r","palOne2One.c:palDr2tf","palOne2One.c:palDaf2r","palOne2One.c:palDr2af"])
p("Calendar conversion in double precision",
  "In IEEE double arithmetic, for every double MJD in the accepted range palDjcl returns a valid date and a fraction in [0,1) whose sum is the argument to one part in 2^53, exactly if the MJD is at least 1 or a whole number; so palDjcl of palCldj's day number returns the same date and a zero fraction for every valid date.",
  "all double MJDs in range, all valid dates", "every double; rounding of the intermediate results", ["palOne2One.c:palDjcl","palOne2One.c:palCldj"])
p("Separations in double precision",
  "In IEEE double arithmetic, for every pair of vectors of length 1e-65 to 1e65, palDsepv is within 8e-16 radians plus the error of atan2 of the angle between them, however small or close to 180 degrees; it is exactly symmetric, and exactly zero for a vector and itself. For every four finite doubles palDsep is within 1.8e-15 plus the error of atan2 of the separation, if sin and cos are good to 2^-53.",
  "all vectors and all finite doubles, any libm of the stated accuracy", "all pairs of vectors; rounding errors", ["palOne2One.c:palDsep","palOne2One.c:palDsepv"])
p("Spherical and Cartesian coordinates in double precision",
  "In IEEE double arithmetic palDcs2c is within 5e-16 of the exact direction cosines for all finite doubles; palDcc2s gives the longitude to the error of atan2 and the latitude to 3.3e-16 more for every vector of doubles of length 1e-65 to 1e65; the two together return the latitude to 9e-16 and the longitude to 5e-16 divided by the cosine of the latitude.",
  "all finite doubles, any libm of the stated accuracy", "all doubles; rounding errors", ["palOne2One.c:palDcs2c","palOne2One.c:palDcc2s"])
p("Horizon coordinates in double precision",
  "In IEEE double arithmetic palDe2h and palDh2e are, for all finite doubles, within 1.8e-15 (plus the error of atan2) of the exact elevation or declination and, times the cosine of that, 1.5e-15 of the exact azimuth or hour angle modulo 2 pi, the azimuth being in [0,2pi); palDh2e after palDe2h returns the declination to 7.2e-15 except within 1e-8 of the zenith.",
  "all finite doubles, any libm of the stated accuracy", "all doubles; rounding errors", ["palDe2h.c:palDe2h","palDh2e.c:palDh2e"])
p("Epochs in double precision",
  "In IEEE double arithmetic, for dates from 1600 to 2400, palEpj and palEpb are within 4.4e-13 year of the exact epoch, palEpj2d within 5e-11 day of the exact date, and a date comes back from its Julian or Besselian epoch to 2.3e-10 day (20 microseconds); for whole-year Julian epochs up to 10^10 both directions are exact.",
  "all doubles in the range, all whole years", "all doubles; rounding errors", ["palOne2One.c:palEpj","palOne2One.c:palEpj2d","palOne2One.c:palEpb","palOne2One.c:palEpb2d"])
p("Galactic and supergalactic conversions in double precision",
  "In IEEE double arithmetic, for all finite doubles, palEqgal, palGaleq, palGalsup and palSupgal return a longitude in [0,2pi) and differ from the same conversions in exact arithmetic by at most 2e-15 in latitude and 1.66e-15 divided by the cosine of the latitude in longitude, plus the error of atan2 (and 7e-16 for the reduction to the range).",
  "all finite doubles, any libm of the stated accuracy", "all doubles; rounding errors", ["palEqgal.c:palEqgal","palGaleq.c:palGaleq","palGalsup.c:palGalsup","palSupgal.c:palSupgal"])
p("Rotation matrices in double precision",
  "In IEEE double arithmetic, for every axis string and all finite doubles, every entry of palDeuler's matrix is within 1.7e-15 of the exact product of the elementary rotations named by the string, and the matrix is orthogonal to 3.5e-15, if sin and cos are good to 2^-53.",
  "all strings, all finite doubles, any libm of the stated accuracy", "all doubles and strings; rounding errors", ["palDeuler.c:palDeuler"])
p("Vector and matrix operations in double precision",
  "In IEEE double arithmetic, for vectors of length 1e-125 to 1e125, palDvdv and palDvxv are within 3.4e-16 and 4e-16 of the product of the lengths of the exact products; palDvxv is exactly antisymmetric and exactly zero for a vector and itself; palDvn gives the modulus to 2.9e-16 of it and the unit vector to 5.2e-16 (zeros for the zero vector); palDmxv, palDimxv and palDmxm are within 5.9e-16, 5.9e-16 and 3.4e-16 times the lengths of the rows and columns; palDimxv undoes palDmxv to 7.4e-15 for every matrix made by palDeuler.",
  "all vectors and matrices in range", "all doubles; rounding errors", ["palOne2One.c:palDvdv","palOne2One.c:palDvxv","palOne2One.c:palDvn","palOne2One.c:palDmxv","palOne2One.c:palDimxv","palOne2One.c:palDmxm"])
p("Tangent-plane projection in double precision",
  "In IEEE double arithmetic, for every point of the plane and every tangent point palDtp2s gives the declination of the point projected to 9e-16 plus the error of atan2, and the right ascension in [0,2pi) to 5.6e-16 divided by the cosine of the declination plus 2.9e-15; palDs2tp, for stars up to 89.4 degrees from the tangent point, gives each coordinate to (1.13e-15 + 1.12e-16 |ra-raz|)(1+|coordinate|) divided by the cosine of the distance; its status is right except within 2e-15 of the boundaries.",
  "all finite doubles in range, any libm of the stated accuracy", "all doubles; rounding errors", ["palDtp2s.c:palDtp2s","palDs2tp.c:palDs2tp"])
p("Bearings and parallactic angles in double precision",
  "In IEEE double arithmetic palDbear and palPa are, modulo a turn, within (1.42e-15 + 1.58e-16 |difference of longitude|) divided by the sine of the separation, plus the error of atan2, of the exact bearing, for separations from 1e-8 to 180 degrees less 1e-8.",
  "all finite doubles in range, any libm of the stated accuracy", "all doubles; rounding errors", ["palOne2One.c:palDbear","palPa.c:palPa"])
p("Sidereal time in double precision",
  "In IEEE double arithmetic palGmst, for every double date from MJD 0 to 106332 (1858 to 2150), is in [0,2pi) and within 7.2e-13 radian (10 nanoseconds of time) modulo a turn of the exact Earth rotation angle plus precession; palGmsta the same for a whole number of days and a fraction in two arguments.",
  "all doubles in range", "all doubles; rounding errors", ["palOne2One.c:palGmst","palOne2One.c:palGmsta"])
p("No overflow and no NaN: binary64 itself",
  "On IEEE 754 binary64 data, with signed zeros, infinities, NaN and overflow, and any libm that is finite on finite arguments and accurate to the stated bounds, palDrange, palDranrm, palDcs2c, palDsep, palDsepv, palDcc2s, palDh2e, palDe2h and palDbear return finite results for all finite arguments (vectors of length 1e-65 to 1e65), within the stated bounds of the exact ones; a negative zero costs at most a whole turn in a longitude.",
  "all finite binary64 data, any libm meeting the stated contract", "all binary64 data, exceptional values included", ["palDrange.c:palDrange","palOne2One.c:palDranrm","palOne2One.c:palDsep","palOne2One.c:palDsepv","palOne2One.c:palDcs2c","palOne2One.c:palDcc2s","palDh2e.c:palDh2e","palDe2h.c:palDe2h","palOne2One.c:palDbear"])
p("NaN and infinite arguments",
  "On binary64 data: palDrange and palDranrm give NaN for every NaN or infinity, and so do palDsep, palDbear, palDe2h and palDh2e for a NaN or infinity in any argument, palDs2tp with status 3, if libm follows C99 Annex F; palAirmas gives NaN for NaN and the value at 87 degrees for infinity. palRefro on the contrary returns, for a NaN in any argument but the latitude (or an infinite zenith distance), the same refraction as for a bound of the range of that argument (93 degrees, -1000 m, 100 K, 0 mb, 0, 0.1 micron, 0.001 K/m, 1e-12). The validity checks of palPv2ue and palDjcl let NaN through with status 0, and palUe2pv with a NaN date returns status 0 and six NaNs.",
  "all binary64 arguments, any libm (following Annex F where said)", "all combinations of exceptional arguments", ["palDrange.c:palDrange","palOne2One.c:palDsep","palDe2h.c:palDe2h","palDs2tp.c:palDs2tp","palRefro.c:palRefro","palPv2ue.c:palPv2ue","palUe2pv.c:palUe2pv","palAirmas.c:palAirmas"])
p("palUe2pv returns or never does",
  "On any binary64 data whatever, exceptional values included, palUe2pv either returns, after at most 513 halvings of the angle in each of at most 26 rounds, or runs for ever; it runs for ever for an infinite date on every elliptic or hyperbolic orbit (and palPlantu with it), and for some finite dates, such as 1e200 on the Earth's orbit.",
  "all binary64 dates and elements", "non-termination cannot be observed by a test; all data", ["palUe2pv.c:palUe2pv","palPlantu.c:palPlantu"])
p("Near the epoch palUe2pv never fails",
  "For elements of an elliptic orbit of eccentricity at most 0.2 made by palPv2ue, palUe2pv for any date within a tenth of a revolution of the epoch, and for any sequence of dates within 0.4 rad of mean anomaly of it in any order, each call continuing from the element set the one before left, converges: every call returns status 0, without halving, with a position of the two-body motion through the given state at the date asked for, to 4e-13 a of a canonical unit of time.",
  "all elliptic orbits of eccentricity at most 0.2, all dates and all sequences of dates in range", "all orbits, dates and histories of calls; the iteration carries state in the element set", ["palUe2pv.c:palUe2pv","palPv2ue.c:palPv2ue"])
p("Vectors, rotations, epochs, galactic coordinates and the tangent plane: binary64 itself",
  "On IEEE 754 binary64 data, signed zeros, infinities, NaN and overflow included, and any libm that is finite on finite arguments and accurate to the stated bounds: palDvdv, palDvxv, palDvn (lengths 1e-125 to 1e125), palDmxv, palDimxv, palDmxm (rows up to 1000), palDeuler (every axis string, all finite angles), palEpj, palEpj2d, palEpb, palEpb2d (1600 to 2400), palEqgal, palGaleq, palGalsup, palSupgal (all finite arguments), palDs2tp (right ascensions within 7 rad) and palDtp2s (coordinates up to 1e60) return finite results within the stated bounds of the exact ones; palDvxv is exactly antisymmetric, whole Julian years are exact both ways, and palDs2tp's status is right except within 2e-15 of the boundaries.",
  "all finite binary64 data in range, any libm meeting the stated contract", "all binary64 data, exceptional values included", ["palOne2One.c:palDvdv","palOne2One.c:palDvxv","palOne2One.c:palDvn","palOne2One.c:palDmxv","palOne2One.c:palDimxv","palOne2One.c:palDmxm","palDeuler.c:palDeuler","palOne2One.c:palEpj","palOne2One.c:palEpb","palEqgal.c:palEqgal","palGaleq.c:palGaleq","palGalsup.c:palGalsup","palSupgal.c:palSupgal","palDs2tp.c:palDs2tp","palDtp2s.c:palDtp2s"])
p("Degenerate arguments: binary64 itself",
  "On IEEE 754 binary64 data, with any libm meeting the stated contract (sin 0 = 0 and cos 0 = 1 included): for a vector of zeros of whatever sign palDvn gives zeros, palDav2m exactly the unit matrix, palDcc2s zeros and palDpav zero; palDm2av gives the null vector for every finite symmetric matrix; palDsep and palDbear of a point and itself are exactly zero for all finite coordinates. No division by zero and no NaN comes out.",
  "all signs of zero, all finite symmetric matrices, all finite coordinates, any libm meeting the contract", "all binary64 data; a NaN appears only for the exact coincidence", ["palOne2One.c:palDvn","palOne2One.c:palDav2m","palOne2One.c:palDm2av","palOne2One.c:palDcc2s","palOne2One.c:palDpav","palOne2One.c:palDsep","palOne2One.c:palDbear"])
p("Rotation vectors and rotation matrices: binary64 itself",
  "On IEEE 754 binary64 data, with any libm meeting the stated contract: for every finite rotation vector of length 1e-100 to 6.3 rad palDav2m gives a finite matrix within 7.1e-15, entry by entry, of the rotation of axes about that vector (Rodrigues' formula); for every finite matrix within d of the rotation by t about a unit vector u, 0 < t < pi, palDm2av gives a finite vector within 3.1e-15 + 2.4 d + 3.5 d t/sin t, plus the error of atan2, of t u; and the round trip returns the vector to 2.1e-14 + 2.5e-14 t/sin t, plus that error, for sin t at least 1e-7.",
  "all finite vectors and matrices in range, any libm meeting the stated contract", "all binary64 data; rounding errors; the loss of the axis near half a turn", ["palOne2One.c:palDav2m","palOne2One.c:palDm2av"])
p("Argument arrays that coincide or overlap",
  "For every memory content and all addresses: palDmxm, palDmxv, palDimxv, palDvxv, palDav2m, palDm2av and palRefv give the right result and change nothing but the result array however their arguments overlap (so all may be used in place); palDvn may be used in place, or with the result below the argument; palDcc2s and palDcmpf may store over what they read; palInvf may invert in place, palPv2ue may build the elements over the state vector, and on failure they change nothing; palUe2pv changes only the state vector and the last two elements, and nothing on failure; palPxy may overwrite the measured positions with the predictions, but not the expected ones: the residuals it reports are then zero whatever the data. A vector rotated in place and back leaves memory as it was.",
  "all memory contents, all addresses and overlaps, any arithmetic (reals, rounded reals, binary64)", "unit tests use disjoint arrays; the overlaps and contents are unbounded", ["palOne2One.c:palDmxm","palOne2One.c:palDmxv","palOne2One.c:palDimxv","palOne2One.c:palDvxv","palOne2One.c:palDvn","palOne2One.c:palDcc2s","palOne2One.c:palDav2m","palOne2One.c:palDm2av","palDeuler.c:palDeuler","palInvf.c:palInvf","palXy2xy.c:palXy2xy","palDcmpf.c:palDcmpf","palPxy.c:palPxy","palPcd.c:palPcd","palRefv.c:palRefv","palPv2ue.c:palPv2ue","palUe2pv.c:palUe2pv"])
p("Symmetries to the last bit: binary64 itself",
  "For all binary64 data whatever, zeros of either sign, infinities and NaN included, and any libm: palDvdv, palDsepv and palDsep do not depend on the order of their arguments, palDvxv changes sign with it; palDsepv is the same for reversed or mirrored pairs; palDvn, palDmxv, palDimxv, palDrange and palPcd are odd, palAirmas even; palDmxm of transposes is the transpose of palDmxm; palDav2m of the reversed vector is the transpose, palDm2av of the transpose the reversed vector; palRefv has no preferred azimuth; sexagesimal fields do not depend on the sign. If moreover sin and atan2 are odd and cos even to the last bit: palDcs2c, palDcc2s, palDsep, palPa, palDe2h, palDh2e, palAltaz, palDbear, palDs2tp and palGeoc have exactly the mirror symmetries of the sphere. All equalities are of bits, but for the sign of some zeros.",
  "all binary64 data; any libm, or any libm with odd sin and atan2 and even cos", "equality of bits for all 2^64 values of each argument", ["palOne2One.c:palDsep","palOne2One.c:palDsepv","palOne2One.c:palDvdv","palOne2One.c:palDvxv","palOne2One.c:palDvn","palOne2One.c:palDmxv","palOne2One.c:palDmxm","palOne2One.c:palDav2m","palOne2One.c:palDm2av","palDrange.c:palDrange","palAirmas.c:palAirmas","palPcd.c:palPcd","palRefv.c:palRefv","palOne2One.c:palDd2tf","palPa.c:palPa","palDe2h.c:palDe2h","palDh2e.c:palDh2e","palAltaz.c:palAltaz","palOne2One.c:palDbear","palDs2tp.c:palDs2tp","palGeoc.c:palGeoc"])
p("Array bounds and workspace of palDmat, palFitxy and palPxy",
  "For every n, every memory content and every placing of an n by n matrix and an n-vector that do not overlap, palDmat (with its row pointers) transforms exactly those elements as the equations require (the system held in memory is solved in memory), reads nothing else, changes nothing else, and when it returns status 0 the permutation it returns consists of indices below n; the former contents of the workspace do not matter. palFitxy and palPxy use only the first np pairs of their arrays, palPxy stores only the first np predictions, and palFitxy's result does not depend on uninitialised memory.",
  "all n, np, memory contents, addresses and any arithmetic", "unbounded sizes and memory contents; a stray read shows only with unlucky contents", ["palDmat.c:palDmat","palFitxy.c:palFitxy","palPxy.c:palPxy"])
p("Machine integers and conversions to integer: calendar and sexagesimal routines",
  "With 32-bit int and 64-bit long: palCldj and palCaldj compute without integer overflow or index error for every year, month and day an int can hold, and the day number is exact in a double; palDjcl does for every binary64 argument, infinities included, that is not NaN (a NaN is converted to an integer, undefined in C), and gives on binary64 itself a valid date and a fraction that together are the argument; palDjcal does as long as 10^ndp is at most 2^31-2, and overflows with ten decimals later than six in the morning; palDd2tf, palDr2tf and palDr2af with 0 to 9 decimals (and palDd2tf with -9 to -1) do for all intervals that fit, giving legal fields that represent the argument to half a unit, but overflow for ten or more decimals or 8.95e7 days; palDtf2d, palDtf2r and palDaf2r do unless a field is the least int. With a 32-bit long palCldj is defined up to February 1465073 only. A run that meets no overflow gives the result of the mathematical-integer model.",
  "all int arguments, all binary64 arguments, any pow; the refinement for any arithmetic and any size of long", "the argument space of 2^96 dates and 2^64 doubles; overflow is silent", ["palOne2One.c:palCldj","palCaldj.c:palCaldj","palOne2One.c:palDjcl","palDjcal.c:palDjcal","palOne2One.c:palDd2tf","palOne2One.c:palDr2tf","palOne2One.c:palDr2af","palOne2One.c:palDtf2d","palOne2One.c:palDtf2r","palOne2One.c:palDaf2r"])
p("Text in memory: bounds, positions, characters and buffers of the string routines",
  "palIntin, palDfltin and palDafin, for every terminated string shorter than 2^31-1 whose characters <ctype.h> accepts (any, if plain char is unsigned; ASCII and 255 if it is signed) and every start position from 1 to its length plus one: no byte outside the string (or of palDfltin's 256-byte buffer) is read or written, no uninitialised byte is used, no int overflows, the loops end, the outcome is that of C40, C42 and C43, and the new position is again between the old one and the length plus one, so calls can be repeated for ever; any other start position reads outside the string. Where plain char is signed, a character 128..254 before the first digit (palIntin), or where a number should start (palDfltin), is passed to isdigit or isalpha as a negative number, which is undefined. palObs with output buffers of at least one byte leaves terminated strings in them and touches nothing beyond; with a size of zero and strncpy it writes before the buffer. The variant of palDfltin for C libraries without copysign decodes every number in the same way, but not other text (abc-5).",
  "all strings, lengths, positions, buffer sizes and contents, character signedness, any strtod whose end pointer lies in its argument", "a stray read or a negative ctype argument shows only with unlucky memory contents or another C library; string lengths and contents are unbounded", ["palIntin.c:palIntin","palDfltin.c:palDfltin","palDafin.c:palDafin","palObs.c:palObs"])
p("Leap seconds: palDat and palDtt give the published TAI-UTC table",
  "For every UTC accepted as a date from 1960 January 1 on, palDat returns TAI-UTC as the published table (US Naval Observatory, tai-utc.dat, to 2017 January 1) gives it for the row in force at that instant - offset, reference date and rate before 1972, whole seconds since - and palDtt 32.184 s more; some row is in force for every such date; before 1960 the result is zero. Since 1972 the result is an integer from 10 to 37 that does not depend on the time of day, and across each later date of the table it grows by exactly one second. Where the date is out of range of the calendar conversion the result is a value looked up from uninitialised variables.",
  "all UTC dates and times of day, all contents of the uninitialised variables", "a boundary between rows can be wrong for a single day, or for a single month number; tests look at one or two dates", ["palDat.c:palDat","palDtt.c:palDtt"])
with open(os.path.join(os.path.dirname(os.path.abspath(__file__)), "..", "properties.jsonl"), "w") as f:
    for q in P: f.write(json.dumps(q) + "\n")
print(len(P))
