# Formal model of Starlink/PAL in Rocq (Coq 8.16.1)

## 1. Approach

PAL is a C library of about 130 mostly pure numerical functions over `double`. Every function it implements is modelled in
Gallina, statement by statement, polymorphically over a class `Arith T` of arithmetic operations (`rocq/theories/Num.v`):
`+ - * /`, comparisons, literals, and the `<math.h>` functions that PAL calls. One text, several readings:

* **any arithmetic** - theorems quantified over every `Arith T` are control-flow facts (status codes, iteration bounds, which
  outputs are written, composition of routines). They hold for IEEE doubles with any libm.
* **exact reals** (`NumR.v`, `T := R`) - geometric and analytic properties (inverse transformations, derivatives, least
  squares, rotations, two-body motion, refraction). Rounding is NOT modelled at this reading. The literals of the C are the
  exact decimals printed there; `C65` proves that the named angle constants agree with the multiples of pi to the last digit.
* **binary32 / binary64** (Flocq) where the property is about rounding itself: `palRanorm` (C04), and the instance `DA` of
  the same definitions in IEEE double arithmetic (`NumD.v`; C81 onwards), with libm as a parameter whose accuracy, where it
  matters, is an explicit hypothesis. There is no overflow, NaN or signed zero in that instance: the theorems bound their
  arguments accordingly. The instance `FA` (`NumF.v`; C94 onwards) is the whole of binary64, exceptional values included.
* integers, characters, strings, buffers and pointers (calendar, parsers, station table, version string) are exact: a string
  is a list of characters, a pointer an index, and an access outside a buffer is an explicit failure.

Out-parameters are returned values; where the C leaves an output untouched on error the model takes the previous contents as
an argument and returns them. Loops without an a-priori bound (angle halving in palUe2pv, the stepping loops of palRefro's
quadrature and of palPertue) take a fuel argument; running out is a separate outcome, and theorems (C47_terminates,
C60_terminates, C63_terminates) prove that enough fuel always exists. Totalised operations (`x/0`, square root of a negative)
are kept out by hypotheses in the statement or by proving the divisor nonzero.

ERFA is an external library (not in /repo). Its small routines (vectors, matrices, spherical conversion, angle normalisation,
calendar, sexagesimal conversion, sidereal time, Hipparcos rotation, refraction constants, E-terms) are transcribed in
`Erfa.v`, `Erfa2.v`, `M_Misc.v`, `M_Pm.v`; its big series are universally quantified parameters of the models, with only the
hypotheses written in the theorem (for instance "returns a rotation"): nut06a, p06e, pnm06a, epv00, plan94, gst06a,
gmst and the precession-nutation matrix.

## 2. Files (rocq/theories)

| files | contents |
|---|---|
| `Num`, `NumR`, `Geom`, `Loops` | arithmetic class, real instance, vectors / rotations / angles, loop combinators |
| `Erfa`, `Erfa2` | transcribed external routines |
| `M_Sphere`, `M_Linear`, `M_Time`, `M_Str`, `ObsTable`, `M_Frames`, `M_Refr`, `NutTable`, `M_Place`, `M_Kin`, `MoonTable`, `M_Moon`, `M_Orbit`, `M_Misc`, `M_Pm` | models of the PAL functions; every definition cites file and lines |
| `P_*`, `DetExists`, `Univ`, `Uniq` | proofs (universal functions and uniqueness of two-body motion in `Univ`, `Uniq`) |
| `Props_*` | the headline theorems, their specifications and non-vacuity examples |

`properties.jsonl` has the English statements, `MANIFEST.json` the theorem names, `ASSUMPTIONS.md` what `Print Assumptions`
lists for each theorem, `notes/findings.md` the defects and discrepancies found, `seeded/LOG.jsonl` the mutation tests
(`tools/mutate.py`, `tools/mutants*.py`). `properties.jsonl`, `MANIFEST.json`, `ASSUMPTIONS.md` are generated by `tools/`.

A theorem whose name ends in `_refuted` proves that the documented behaviour fails (a defect, or documentation that
overstates); the property then states what does hold.

## 3. Properties: what is modelled and how it is proved

| id | C functions | proof |
|----|-------------|-------|
| C01-C03 | palDrange, palDranrm | characterisation of fmod; congruence modulo a turn; odd multiples of pi handled exactly |
| C04 | palRanorm | Flocq binary32/binary64 computation; bound for all inputs by the error of one rounding; documented range refuted by a witness |
| C05, C06 | palDcs2c, palDcc2s, palDsep, palDsepv, palDbear, palDpav, palDvn, palDvdv, palDvxv | polar form of atan2; |a x b|^2 + (a.b)^2 |
| C07-C10 | palDe2h, palDh2e, palAltaz, palPa, palZd | rotation about the east axis; Coquelicot derivatives (azimuth, elevation, parallactic angle; first and second) |
| C11-C13 | palDs2tp, palDtp2s, palDtps2c (and palDv2tp, palDtp2v, palDtpv2c forms via the sphere) | tangent-plane basis; quadratic for the tangent points, all solutions |
| C14-C16 | palDeuler, palDmxv, palDimxv, palDmxm, palDav2m, palDm2av | induction over the axis string; closure of rotations; axis-angle |
| C17, C18 | palEqgal, palGaleq, palGalsup, palSupgal | the literal matrices are orthogonal to 1e-8 or better (interval); definition of the poles |
| C19-C22 | palEcleq, palEqecl, palEcmat, palPrebn, palNut, palPrec, palPrenut, palPreces | products of elementary rotations; palPrec's third branch refuted |
| C23 | palPolmo | explicit rotation, zero motion, azimuth change |
| C24, C55 | palAddet, palSubet, palEtrms, palGe50, palFk45z, palFk524, palFk54z | matrix bounds by interval, first-order expansion with explicit remainders |
| C25-C32 | palInvf, palXy2xy, palDcmpf, palFitxy, palPxy, palDmat, palPcd, palUnpcd | field algebra; least squares as a minimum over all models; Gauss-Jordan with pivoting by loop invariants and a determinant built on the axioms (n-dimensional, any n); Cardano |
| C33-C39 | palCaldj, palCldj, palDjcl, palDjcal, palD*2*f, palD*f2*, palEpco, palEpj, palEpb, palEpj2d, palEpb2d, palDtt, palDat, palDt | integer arithmetic for all years; day-count successor relation; rounding to units |
| C40-C43 | palIntin, palDfltin, palDafin | structural induction over strings; strtod is any function satisfying the C standard's contract `conforms`; documented behaviour on overflow and long numbers refuted |
| C44, C45 | palObs | station table as data; case-insensitive comparison; abbreviations refuted |
| C46-C50, C66, C67, C71, C74 | palRefco, palRefro, pal1Atmt, pal1Atms, palRefz, palRefv, palAirmas, palAtmdsp, palRefcoq | quadrature loop as composite Simpson rule of the documented integrand; hydrostatic ODE; derivatives of the index; inverse by contraction / Newton bounds |
| C51-C54 | palMappa, palMap, palAmp, palMapqk, palMapqkz, palAmpqk, palEvp, palEpv, palAop, palAoppa, palAoppat, palAopqk, palOap, palOapqk | composition equalities for any arithmetic; fixed-point iteration with explicit contraction constants; diurnal aberration inverse |
| C56-C58, C64, C77 | palPvobs, palGeoc, palRv*, palDmoon | Coquelicot derivatives; ellipsoid equation; term-by-term comparison with the published lunar inequalities |
| C80 | palPm with starpm, starpv, pvstar | contraction of the velocity iteration on the reals (the break is reached only at an exact fixed point); light-time quadratic, existence and uniqueness of its root; derivative of the place through the explicit emission time |
| C59-C63, C68-C70, C78, C79 | palPv2ue, palUe2pv, palEl2ue, palUe2el, palPv2el, palPlanel, palPlante, palPlantu, palPlanet, palPertue, palPertel, palRdplan | universal functions U0..U3 with Taylor and doubling error bounds; existence and uniqueness of two-body motion; refinement of the integrator to Encke's method by an invariant over steps |
| C81-C83 | palDrange, palDranrm, palDd2tf, palDtf2d, palDtf2r, palDr2tf, palDaf2r, palDr2af, palDjcl in IEEE binary64 | the same polymorphic definitions at the instance `DA` (NumD.v): every operation is the exact one followed by Flocq's round-to-nearest-even in FLT(53,-1074); exactness by Sterbenz and grids, integer quotients, linear error propagation |
| C84-C93 | palDsepv, palDsep, palDcs2c, palDcc2s, palDe2h, palDh2e, palEpj, palEpj2d, palEpb, palEpb2d, palEqgal, palGaleq, palGalsup, palSupgal, palDeuler, palDvdv, palDvxv, palDvn, palDmxv, palDimxv, palDmxm, palDtp2s, palDs2tp, palDbear, palPa, palGmst, palGmsta in IEEE binary64 | instance `DA`; libm's sin, cos, atan2 are arbitrary functions with a stated accuracy on doubles (a correctly rounded libm is shown to meet it); rounding errors propagated through dot, cross, modulus, and then to angles by a perturbation lemma for polar coordinates (NumDE.v, Props_Dsep/Dsph/Dhor/Depo/Dgal/Deul/Dvec/Dtan/Dbear/Dgmst) |
| C94 | palDrange, palDranrm, palDcs2c, palDsep, palDsepv, palDcc2s, palDh2e, palDe2h, palDbear on binary64 with NaN, infinities, signed zeros and overflow | instance `FA` (NumF.v) on Flocq's BinarySingleNaN; a simulation `rep` carries the theorems about `DA` over, once no operation is shown to overflow; libm is any set of functions meeting `libm_ok` (Props_Ieee.v), shown satisfiable |
| C95, C96 | exceptional values: palDrange, palDranrm, palDsep, palDbear, palDe2h, palDh2e, palDs2tp, palAirmas, palRefro, palPv2ue, palDjcl, palUe2pv, palPlantu | instance `FA`; case analysis on the data, induction on the halving and refinement loops (Props_Nan.v) |
| C97 | convergence of palUe2pv's refinement loop (status 0) near the epoch, single calls and histories | the truncated series satisfy S3' = S2, S1' = S0 exactly and S2' = S1 + x^15/15!, so Newton and false-position steps are analysed on the polynomials themselves (P_Conv.v: contraction 0.25 e^2 resp. 0.26 e e'), root by IVT; the first ten rounds bring any start within 1.2 rad below the tolerance; induction over the dates with the stored anomaly as invariant; accuracy from C68 (Props_Conv.v) |
| C98 | palDvdv, palDvxv, palDvn, palDmxv, palDimxv, palDmxm, palDeuler, epochs, galactic conversions, palDs2tp, palDtp2s on binary64 with exceptional values | the simulation `rep` of C94 with magnitude bounds through every operation (induction over the rotations of palDeuler); accuracy from C87-C91 (Props_Ieee2.v) |
| C99 | null vectors, symmetric matrices and coincident points on binary64 (palDvn, palDav2m, palDm2av, palDcc2s, palDpav, palDsep, palDbear) | the guards against division by zero and atan2(0,0), which the real reading cannot see, followed in the instance `FA` (Props_Degen.v) |
| C100 | palDav2m and palDm2av in double arithmetic and on binary64 | forward error of every operation against Rodrigues' formula; the angle by `polar_pert`, the axis by a norm-wise bound on the antisymmetric part; then the simulation `rep` of C94 (Props_Drot.v) |
| C101 | array arguments that coincide or overlap, and what is left untouched | a second, imperative model with memory (M_Mem.v: loads and stores in source order, addresses as integers); each function's final memory is computed and compared with the value-level model for all addresses satisfying the stated non-overlap condition (often none); palPxy by induction on its loop (Props_Mem.v) |
| C102 | symmetries of the code on binary64, bit for bit | commutativity of Flocq's multiplication and addition and their behaviour under a change of sign, proved from the definitions for all data (NumFSym.v); then rewriting in the model, the sign of zeros tracked by the relation `eq0` (Props_Sym.v) |
| C103 | array bounds and workspace of palDmat, palFitxy, palPxy | the memory model of palDmat (flat memory, moving row pointers) is related loop by loop to the model with indices by a relation that speaks of the n*n + n elements only, so that a stray read or write would break it (Props_Dmem.v) |
| C104 | machine integers and casts of the calendar and sexagesimal routines | a third model (M_Int.v) in which every integer operation and conversion is checked against the width of its C type and yields nothing when it does not fit; proved to refine the mathematical-integer model, and to succeed on the stated domains, on binary64 itself (Props_Int.v) |
| C105 | bounds, positions, characters and buffers of the string routines | a model on memory (M_Text.v): every character is read through an address, buffers have sizes, `int` positions are checked, <ctype.h> is undefined on negative arguments; shown equal to the list model of C40/C42/C43/C44 by induction on the string, and undefined exactly where stated (Props_Text.v); the two compile-time variants of palDfltin compared (Props_Scan.v). Parameters: signedness of char, which isblank, which copying function, strtod |
| C106 | leap seconds: palDat and palDtt with the real table | eraDat with its three tables and the search by month number (M_Dat.v, from the published ERFA source, 2017 or later; not in /repo) under the palDat/palDtt of M_Time; the specification is the table of tai-utc.dat keyed by MJD with "the row in force"; proof through the monotone numbering of months and the calendar lemmas of C01 |
| C65 | palmac.h | interval arithmetic on the printed digits |
| C72, C73, C76 | palFk5hz, palHfk5z, palGmst, palGmsta, palEqeqx, palNutc / pal__Nutc, palAoppa | rotations with derivative; polynomial identity; term-by-term comparison with the Shirai-Fukushima series, first with reduced and then (Props_Nut2.v) with unreduced arguments |
| C75 | palVers | buffer model |

Nothing was left out as inexpressible, except:

* **rounding error** of the floating-point code in general (only C04, C81 onwards, and the any-arithmetic theorems, speak about doubles);
* **accuracy against the real sky** (ephemerides, nutation) beyond comparison with published series;
* **threads, signals, locale**: PAL functions other than palObs (a static table, read only) and palVers keep no state; the
  model is a set of functions, so there is no schedule or crash point to quantify over.

## 4. Trusted base

* The Coq 8.16.1 kernel (with `vm_compute` and the primitive integers and floats that the `interval` tactic uses for
  reflection), and `coqchk` as run by the gate.
* Axioms: only those of the standard library, listed per theorem in `ASSUMPTIONS.md`:
  `ClassicalDedekindReals.sig_forall_dec`, `ClassicalDedekindReals.sig_not_dec`,
  `FunctionalExtensionality.functional_extensionality_dep` (the real numbers), `Classical_Prop.classic` (through Coquelicot
  and Flocq), `ClassicalEpsilon.constructive_indefinite_description` (C27_two_points_refuted, C30, C31: the determinant), and
  the specifications of primitive integers and floats (`Uint63`, `PrimInt63`, `FloatAxioms`, `PrimFloat`) where `interval`
  proves a numerical bound. No axiom of our own, no admitted goal, no functor or module type.
* The transcription from C to Gallina, which the citation in each definition lets a reader check.
* The transcription of ERFA (`Erfa.v`, `Erfa2.v`, part of `M_Misc.v` and `M_Pm.v`) from the published source (1.x; eraJd2cal as in
  versions up to 1.7, before the change of rounding), and the parameters listed in section 1, about which nothing is assumed
  beyond the hypotheses written in the theorems.
* The C library: strtod through the contract `conforms` (`M_Str.v`), strtol, isspace/isalpha/tolower in the C locale,
  fmod, floor and the elementary functions as the real functions (at the real reading).

### Modelled

All functions of /repo/*.c except palTest.c; the wrappers of palOne2One.c are modelled as the ERFA routine they call (the
big series as parameters). Simplifications are stated in the comment of each definition; the general ones:

* `double` is an abstract type (any arithmetic) or R; `int` and `long` are unbounded except where width is the point (palIntin,
  the calendar's range checks, palDmat's index arithmetic is on nat);
* `copysign` and Fortran SIGN coincide (they differ only for a negative zero and NaN);
* static tables (stations, nutation, Moon) were extracted from the C text by script into `ObsTable.v`, `NutTable.v`,
  `MoonTable.v`.

### Not modelled

palTest.c, the build system, the documentation generator, and the internals of eraNut06a, eraP06e, eraPnm06a, eraEpv00,
eraPlan94, eraGst06a.

## 5. Validation of the transcription

`tools/validate/run.sh` extracts the model to OCaml, instantiates the abstract arithmetic `Arith T` with IEEE doubles and libm,
and runs it on the test vectors of /repo/palTest.c (666 comparisons over every function tested there except palRanorm, palEqeqx and palVers).
All agree to the tolerances of palTest.c, except where the code calls an ERFA routine that is a parameter of the model: eraEpv00 and
eraNut06a are then replaced by stand-ins (Simon et al. 1994 planets plus the Moon, and pal__Nutc), and the tolerance is that of the stand-in.
This is a test, not a proof, and is not part of the build; it is evidence that the definitions about which the theorems are
stated are the programs of /repo, including the transcribed ERFA routines.
