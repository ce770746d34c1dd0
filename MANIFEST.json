{
 "claims": [
  {
   "property": "C01",
   "status": "proved",
   "theorems": [
    "C01_palDrange"
   ],
   "note": ""
  },
  {
   "property": "C02",
   "status": "proved",
   "theorems": [
    "C02_palDrange_idempotent"
   ],
   "note": ""
  },
  {
   "property": "C03",
   "status": "proved",
   "theorems": [
    "C03_palDranrm"
   ],
   "note": ""
  },
  {
   "property": "C04",
   "status": "proved",
   "theorems": [
    "C04_palRanorm",
    "C04_documented_range_refuted",
    "C04_not_idempotent"
   ],
   "note": "documented range is refuted (C04_documented_range_refuted, tiny negative angles give (float)2pi); the range [0,(float)2pi] and all nonnegative angles are proved"
  },
  {
   "property": "C05",
   "status": "proved",
   "theorems": [
    "C05_sph_cart"
   ],
   "note": ""
  },
  {
   "property": "C06",
   "status": "proved",
   "theorems": [
    "C06_separation",
    "C06_bearing",
    "C06_vectors"
   ],
   "note": ""
  },
  {
   "property": "C07",
   "status": "proved",
   "theorems": [
    "C07_horizon_inverse",
    "C07_horizon_meaning"
   ],
   "note": ""
  },
  {
   "property": "C08",
   "status": "proved",
   "theorems": [
    "C08_palAltaz_agrees",
    "C08_zenith"
   ],
   "note": ""
  },
  {
   "property": "C09",
   "status": "proved",
   "theorems": [
    "C09_palAltaz_rates"
   ],
   "note": ""
  },
  {
   "property": "C10",
   "status": "proved",
   "theorems": [
    "C10_palPa"
   ],
   "note": ""
  },
  {
   "property": "C11",
   "status": "proved",
   "theorems": [
    "C11_forward_is_projection",
    "C11_backward_is_inverse_projection",
    "C11_roundtrip_sphere",
    "C11_roundtrip_plane"
   ],
   "note": ""
  },
  {
   "property": "C12",
   "status": "proved",
   "theorems": [
    "C12_palDs2tp_status"
   ],
   "note": ""
  },
  {
   "property": "C13",
   "status": "proved",
   "theorems": [
    "C13_solutions_project",
    "C13_no_solution",
    "C13_all_solutions",
    "C13_count",
    "C13_pole_second_solution_refuted"
   ],
   "note": "true off the pole; at the pole with xi=0 the second reported solution is not a tangent point (C13_pole_second_solution_refuted)"
  },
  {
   "property": "C14",
   "status": "proved",
   "theorems": [
    "C14_palDeuler",
    "C14_axis_characters",
    "C14_three_characters"
   ],
   "note": ""
  },
  {
   "property": "C15",
   "status": "proved",
   "theorems": [
    "C15_matrices"
   ],
   "note": ""
  },
  {
   "property": "C16",
   "status": "proved",
   "theorems": [
    "C16_axial"
   ],
   "note": ""
  },
  {
   "property": "C17",
   "status": "proved",
   "theorems": [
    "C17_eqgal_galeq",
    "C17_galeq_eqgal",
    "C17_definition"
   ],
   "note": ""
  },
  {
   "property": "C18",
   "status": "proved",
   "theorems": [
    "C18_galsup_supgal",
    "C18_supgal_galsup",
    "C18_definition"
   ],
   "note": ""
  },
  {
   "property": "C19",
   "status": "proved",
   "theorems": [
    "C19_eqecl_ecleq",
    "C19_ecleq_eqecl",
    "C19_definition"
   ],
   "note": ""
  },
  {
   "property": "C20",
   "status": "proved",
   "theorems": [
    "C20_palEcmat",
    "C20_palPrebn",
    "C20_palPrec",
    "C20_palNut",
    "C20_palPrenut",
    "C20_palPrenut_def",
    "C20_palNut_def",
    "C20_palPrebn_same",
    "C20_newcomb",
    "C20_obliquity"
   ],
   "note": "eraNut06a and eraP06e are parameters (arbitrary functions); eraPnm06a is any rotation-valued function"
  },
  {
   "property": "C21",
   "status": "proved",
   "theorems": [
    "C21_from_2000",
    "C21_to_2000",
    "C21_same",
    "C21_general",
    "C21_defect",
    "C21_capitaine"
   ],
   "note": "refuted for general epoch pairs: C21_general gives the exact (wrongly ordered) product, C21_defect the size of the error; proved when one epoch is J2000 and for equal epochs"
  },
  {
   "property": "C22",
   "status": "proved",
   "theorems": [
    "C22_fk4",
    "C22_fk5",
    "C22_other"
   ],
   "note": ""
  },
  {
   "property": "C23",
   "status": "proved",
   "theorems": [
    "C23_palPolmo",
    "C23_zero"
   ],
   "note": "away from the rotated pole (at the pole the code divides by zero)"
  },
  {
   "property": "C24",
   "status": "proved",
   "theorems": [
    "C24_palAddet",
    "C24_palEtrms",
    "C24_subet_addet",
    "C24_addet_subet",
    "C24_palGe50",
    "C24_newcomb"
   ],
   "note": ""
  },
  {
   "property": "C25",
   "status": "proved",
   "theorems": [
    "C25_palInvf"
   ],
   "note": ""
  },
  {
   "property": "C26",
   "status": "proved",
   "theorems": [
    "C26_palDcmpf",
    "C26_scales"
   ],
   "note": ""
  },
  {
   "property": "C27",
   "status": "proved",
   "theorems": [
    "C27_palFitxy",
    "C27_two_points_refuted"
   ],
   "note": "proved for every success except the four-coefficient two-point fit that returns the null model; that case is a genuine defect (C27_two_points_refuted: points 1e-6 apart give status 0 and all-zero coefficients)"
  },
  {
   "property": "C28",
   "status": "proved",
   "theorems": [
    "C28_status",
    "C28_degenerate",
    "C28_two_coincident_refuted"
   ],
   "note": "proved, except that two coincident points with itype 4 give 0 instead of -3 (C28_two_coincident_refuted)"
  },
  {
   "property": "C29",
   "status": "proved",
   "theorems": [
    "C29_palPxy"
   ],
   "note": ""
  },
  {
   "property": "C30",
   "status": "proved",
   "theorems": [
    "C30_palDmat"
   ],
   "note": ""
  },
  {
   "property": "C31",
   "status": "proved",
   "theorems": [
    "C31_palDmat_singular",
    "C31_nonsingular_refuted"
   ],
   "note": "the converse (an invertible matrix is never rejected) is refuted: C31_nonsingular_refuted"
  },
  {
   "property": "C32",
   "status": "proved",
   "theorems": [
    "C32_palUnpcd_preimage",
    "C32_palUnpcd_inverts"
   ],
   "note": ""
  },
  {
   "property": "C33",
   "status": "proved",
   "theorems": [
    "C33_palCaldj"
   ],
   "note": ""
  },
  {
   "property": "C34",
   "status": "proved",
   "theorems": [
    "C34_day_count",
    "C34_palDjcl_inverts_palCldj",
    "C34_palCldj_inverts_palDjcl",
    "C34_palDjcl_rejects"
   ],
   "note": "eraJd2cal as in ERFA<=1.7, at the reals"
  },
  {
   "property": "C35",
   "status": "proved",
   "theorems": [
    "C35_palCldj_status",
    "C35_documented_codes_refuted"
   ],
   "note": "codes are -1,-2,-3: the documented positive codes are refuted (C35_documented_codes_refuted); everything else about the status is proved"
  },
  {
   "property": "C36",
   "status": "proved",
   "theorems": [
    "C36_palDjcal",
    "C36_rejects",
    "C36_no_carry_refuted"
   ],
   "note": "proved except the carry: a fraction rounding up to 10^ndp stays on the same day (C36_no_carry_refuted)"
  },
  {
   "property": "C37",
   "status": "proved",
   "theorems": [
    "C37_palDtf2d",
    "C37_palDtf2r",
    "C37_palDaf2r",
    "C37_palDd2tf",
    "C37_palDr2tf",
    "C37_palDr2af",
    "C37_coarse",
    "C37_roundtrip"
   ],
   "note": "decompositions for every ndp; C int overflow of 10^ndp (ndp>9) is outside the model (integers are unbounded)"
  },
  {
   "property": "C38",
   "status": "proved",
   "theorems": [
    "C38_inverse",
    "C38_reference",
    "C38_palEpco",
    "C38_same_kind"
   ],
   "note": ""
  },
  {
   "property": "C39",
   "status": "proved",
   "theorems": [
    "C39_palDtt",
    "C39_palDat",
    "C39_palDt",
    "C39_palDt_joins"
   ],
   "note": ""
  },
  {
   "property": "C40",
   "status": "proved",
   "theorems": [
    "C40_number",
    "C40_null",
    "C40_pointer",
    "C40_wide_refuted",
    "C40_value_mod"
   ],
   "note": "numbers outside int are returned modulo 2^32 (C40_wide_refuted, C40_value_mod)"
  },
  {
   "property": "C41",
   "status": "proved",
   "theorems": [
    "C41_overflow_refuted"
   ],
   "note": "documented values refuted: C41_overflow_refuted"
  },
  {
   "property": "C42",
   "status": "proved",
   "theorems": [
    "C42_number",
    "C42_range",
    "C42_null",
    "C42_pointer",
    "C42_buffer_refuted"
   ],
   "note": "strtod is a parameter constrained by the C99 contract `conforms` (P_Flt.v), for which a conforming instance is exhibited; values exact (no rounding); at most 255 remaining characters, C42_buffer_refuted shows why"
  },
  {
   "property": "C43",
   "status": "proved",
   "theorems": [
    "C43_status"
   ],
   "note": "for every conforming strtod"
  },
  {
   "property": "C44",
   "status": "proved",
   "theorems": [
    "C44_by_number",
    "C44_by_name",
    "C44_unknown",
    "C44_truncates",
    "C44_places"
   ],
   "note": ""
  },
  {
   "property": "C45",
   "status": "proved",
   "theorems": [
    "C45_abbreviation_refuted",
    "C45_only_complete"
   ],
   "note": "documented abbreviations refuted: C45_abbreviation_refuted"
  },
  {
   "property": "C46",
   "status": "proved",
   "theorems": [
    "C46_palRefco"
   ],
   "note": "at the reals; the reference zenith distances are the printed ATN1, ATN4"
  },
  {
   "property": "C47",
   "status": "proved",
   "theorems": [
    "C47_terminates",
    "C47_clamped",
    "C47_zenith",
    "C47_odd",
    "C47_beyond_93",
    "C47_no_air",
    "C47_93_degrees"
   ],
   "note": "termination for every arithmetic; the rest at the reals"
  },
  {
   "property": "C48",
   "status": "proved",
   "theorems": [
    "C48_inverse_80",
    "C48_inverse_83",
    "C48_high",
    "C48_beyond_93",
    "C48_continuous"
   ],
   "note": ""
  },
  {
   "property": "C49",
   "status": "proved",
   "theorems": [
    "C49_palAirmas"
   ],
   "note": ""
  },
  {
   "property": "C50",
   "status": "proved",
   "theorems": [
    "C50_radio",
    "C50_same_wavelength",
    "C50_A_scales",
    "C50_B_scales",
    "C50_A_chain",
    "C50_round_trip",
    "C50_normal_dispersion",
    "C50_blue_more"
   ],
   "note": ""
  },
  {
   "property": "C51",
   "status": "proved",
   "theorems": [
    "C51_parameters",
    "C51_earthlike",
    "C51_one_shot",
    "C51_round_trip"
   ],
   "note": "eraEpv00, eraP06e, eraPnm06a are parameters"
  },
  {
   "property": "C52",
   "status": "proved",
   "theorems": [
    "C52_general",
    "C52_zero_motion",
    "C52_no_deflection",
    "C52_exact_refuted"
   ],
   "note": "exact agreement refuted: C52_exact_refuted"
  },
  {
   "property": "C53",
   "status": "proved",
   "theorems": [
    "C53_inverse_stable",
    "C53_round_trip",
    "C53_ranges",
    "C53_no_aberration"
   ],
   "note": "parameters satisfy `earthlike`, which C51_earthlike derives for palMappa"
  },
  {
   "property": "C54",
   "status": "proved",
   "theorems": [
    "C54_observed_consistent",
    "C54_types_agree",
    "C54_outputs_interchangeable",
    "C54_type_letters",
    "C54_round_trip_15deg",
    "C54_round_trip_no_air",
    "C54_low_elevation",
    "C54_palAoppat",
    "C54_palAoppa",
    "C54_no_polar_motion",
    "C54_end_to_end_no_air"
   ],
   "note": "ordinary refraction constants (`usual`) are a hypothesis for the with-air round trip; convergence of the low-elevation iteration is not claimed"
  },
  {
   "property": "C55",
   "status": "proved",
   "theorems": [
    "C55_matrices",
    "C55_fixed_star",
    "C55_palFk524_position",
    "C55_palFk524_motion",
    "C55_palFk54z",
    "C55_roundtrip",
    "C55_palFk45z",
    "C55_eterms"
   ],
   "note": ""
  },
  {
   "property": "C56",
   "status": "proved",
   "theorems": [
    "C56_velocity",
    "C56_position",
    "C56_direction",
    "C56_palGeoc"
   ],
   "note": ""
  },
  {
   "property": "C57",
   "status": "proved",
   "theorems": [
    "C57_apex",
    "C57_galactic",
    "C57_lsrk",
    "C57_projection",
    "C57_palRverot",
    "C57_palRverot_palPvobs"
   ],
   "note": ""
  },
  {
   "property": "C58",
   "status": "proved",
   "theorems": [
    "C58_velocity",
    "C58_derivative",
    "C58_distance",
    "C58_latitude"
   ],
   "note": ""
  },
  {
   "property": "C59",
   "status": "proved",
   "theorems": [
    "C59_roundtrip"
   ],
   "note": "real arithmetic; for every fuel"
  },
  {
   "property": "C60",
   "status": "proved",
   "theorems": [
    "C60_at_most_26",
    "C60_terminates",
    "C60_untouched",
    "C60_converged"
   ],
   "note": "the iteration bound and the untouched outputs hold for every arithmetic; termination of the halving loop is for the reals (with an infinite BETA the C loop does not terminate: C96; that it converges near the epoch: C97)"
  },
  {
   "property": "C61",
   "status": "proved",
   "theorems": [
    "C61_el2ue",
    "C61_el2ue_terminates",
    "C61_el2ue_slow",
    "C61_planel",
    "C61_plante",
    "C61_pertel",
    "C61_pv2el",
    "C61_ue2el",
    "C61_planet"
   ],
   "note": "palEl2ue also returns -5 for slow major-planet elements (C61_el2ue_slow), which is not documented"
  },
  {
   "property": "C62",
   "status": "proved",
   "theorems": [
    "C62_form",
    "C62_parabola_refuted"
   ],
   "note": "documented form 3 for a parabola refuted: C62_parabola_refuted"
  },
  {
   "property": "C63",
   "status": "proved",
   "theorems": [
    "C63_terminates",
    "C63_status",
    "C63_moon_refuted",
    "C63_null",
    "C63_span",
    "C63_epoch"
   ],
   "note": "documented perturbation by the Moon refuted: C63_moon_refuted"
  },
  {
   "property": "C64",
   "status": "proved",
   "theorems": [
    "C64_palGeoc"
   ],
   "note": ""
  },
  {
   "property": "C65",
   "status": "proved",
   "theorems": [
    "C65_palmac_constants"
   ],
   "note": ""
  },
  {
   "property": "C66",
   "status": "proved",
   "theorems": [
    "C66_palRefv",
    "C66_1uas_refuted",
    "C66_low",
    "C66_zenith",
    "C66_no_refraction"
   ],
   "note": "documented 1 microarcsec refuted by C66_1uas_refuted"
  },
  {
   "property": "C67",
   "status": "proved",
   "theorems": [
    "C67_palRefro_simpson"
   ],
   "note": "integrand samples are those located by at most four Newton steps (`sampled`), not the exact levels; convergence of the quadrature to the integral is not claimed"
  },
  {
   "property": "C68",
   "status": "proved",
   "theorems": [
    "C68_functions",
    "C68_motion",
    "C68_ellipse",
    "C68_pv2ue",
    "C68_kept"
   ],
   "note": "at the reals; consistent elements, non-rectilinear; explicit error bounds, at most 20 angle halvings"
  },
  {
   "property": "C69",
   "status": "proved",
   "theorems": [
    "C69_osculating",
    "C69_elements"
   ],
   "note": "at the reals; exact; parabolas returned in form 1 or 2 (the defect of C62_parabola_refuted) and eccentricities within 1e-8 of 1 but not equal to 1 are excluded"
  },
  {
   "property": "C70",
   "status": "proved",
   "theorems": [
    "C70_planel",
    "C70_at_perihelion",
    "C70_el2ue",
    "C70_ellipse",
    "C70_roundtrip"
   ],
   "note": "at the reals; bounds as in C68; palEl2ue ecliptic-to-equatorial constants are a rotation to 1e-16"
  },
  {
   "property": "C71",
   "status": "proved",
   "theorems": [
    "C71_troposphere",
    "C71_temperature",
    "C71_surface",
    "C71_stratosphere",
    "C71_lapse_exception"
   ],
   "note": "at the reals; about the layers rf_layt and pal1Atms that the quadrature of C67 samples; C71_lapse_exception proves the excluded lapse rate exists inside the accepted range"
  },
  {
   "property": "C72",
   "status": "proved",
   "theorems": [
    "C72_meaning",
    "C72_meaning_to_hipparcos",
    "C72_roundtrip",
    "C72_proper_motion"
   ],
   "note": "at the reals; the ERFA routines behind the wrappers are transcribed in M_Misc.v"
  },
  {
   "property": "C73",
   "status": "proved",
   "theorems": [
    "C73_palGmst",
    "C73_palGmsta",
    "C73_advance",
    "C73_palAoppat",
    "C73_palEqeqx"
   ],
   "note": "at the reals; eraGst06a is a parameter; eraEra00, eraGmst06 transcribed"
  },
  {
   "property": "C74",
   "status": "proved",
   "theorems": [
    "C74_clamped",
    "C74_no_air",
    "C74_surface_refractivity"
   ],
   "note": "at the reals; eraRefco transcribed; wl = 100 exactly is excluded (the two routines disagree on whether it is radio)"
  },
  {
   "property": "C75",
   "status": "proved",
   "theorems": [
    "C75_palVers",
    "C75_null_pointer",
    "C75_zero_length_refuted"
   ],
   "note": "the branch without HAVE_STRLCPY; verlen = 0 refuted by C75_zero_length_refuted"
  },
  {
   "property": "C76",
   "status": "proved",
   "theorems": [
    "C76_nutation",
    "C76_equation_of_equinoxes",
    "C76_palAoppa",
    "C76_series"
   ],
   "note": ""
  },
  {
   "property": "C77",
   "status": "proved",
   "theorems": [
    "C77_palDmoon"
   ],
   "note": ""
  },
  {
   "property": "C78",
   "status": "proved",
   "theorems": [
    "C78_palPertue",
    "C78_warning",
    "C78_masses"
   ],
   "note": "at the reals; planetary ephemeris plan94 and epv00 are parameters; accuracy of the integration (as against its equations) is not claimed; the Moon is not among the bodies (C63_moon_refuted)"
  },
  {
   "property": "C79",
   "status": "proved",
   "theorems": [
    "C79_palPlantu",
    "C79_palPlante",
    "C79_palRdplan",
    "C79_light_time",
    "C79_constants"
   ],
   "note": "at the reals; ephemerides (plan94, epv00, dmoon) and precession-nutation matrices are parameters here (C58, C77, C51, C76 describe them); one iteration of the light time, not its limit; refraction, polar motion and UT1-UTC are not applied by the C"
  },
  {
   "property": "C80",
   "status": "proved",
   "theorems": [
    "C80_palPm",
    "C80_unique_velocity",
    "C80_same_epoch",
    "C80_proper_motion",
    "C80_no_parallax"
   ],
   "note": "at the reals; eraStarpm, eraStarpv, eraPvstar transcribed in M_Pm.v (both releases of starpv.c); observed speeds of 0.1 to 0.5 c are not covered; the iteration is exact to 1e-40 on the reals, in doubles it stops at rounding"
  },
  {
   "property": "C81",
   "status": "proved",
   "theorems": [
    "C81_palDrange",
    "C81_palDrange_idempotent",
    "C81_palDranrm"
   ],
   "note": ""
  },
  {
   "property": "C82",
   "status": "proved",
   "theorems": [
    "C82_palDd2tf",
    "C82_time_roundtrip",
    "C82_hours_roundtrip",
    "C82_degrees_roundtrip"
   ],
   "note": ""
  },
  {
   "property": "C83",
   "status": "proved",
   "theorems": [
    "C83_palDjcl",
    "C83_roundtrip"
   ],
   "note": ""
  },
  {
   "property": "C84",
   "status": "proved",
   "theorems": [
    "C84_palDsepv",
    "C84_exact",
    "C84_palDsep"
   ],
   "note": "doubles; libm is an arbitrary function of the stated accuracy; NaN, infinities and overflow excluded by the ranges"
  },
  {
   "property": "C85",
   "status": "proved",
   "theorems": [
    "C85_palDcs2c",
    "C85_palDcc2s",
    "C85_roundtrip"
   ],
   "note": "doubles; as C84"
  },
  {
   "property": "C86",
   "status": "proved",
   "theorems": [
    "C86_palDh2e",
    "C86_palDe2h",
    "C86_roundtrip"
   ],
   "note": "doubles; as C84"
  },
  {
   "property": "C87",
   "status": "proved",
   "theorems": [
    "C87_julian",
    "C87_julian_date",
    "C87_julian_years",
    "C87_besselian"
   ],
   "note": "doubles"
  },
  {
   "property": "C88",
   "status": "proved",
   "theorems": [
    "C88_rounding"
   ],
   "note": "doubles; as C84"
  },
  {
   "property": "C89",
   "status": "proved",
   "theorems": [
    "C89_palDeuler",
    "C89_orthogonal"
   ],
   "note": "doubles; as C84"
  },
  {
   "property": "C90",
   "status": "proved",
   "theorems": [
    "C90_palDvdv",
    "C90_palDvxv",
    "C90_palDvxv_exact",
    "C90_palDvn",
    "C90_palDvn_zero",
    "C90_palDmxv",
    "C90_palDimxv",
    "C90_palDmxm",
    "C90_roundtrip"
   ],
   "note": "doubles; results below 1e-300 and above 1e300 excluded by the ranges"
  },
  {
   "property": "C91",
   "status": "proved",
   "theorems": [
    "C91_palDtp2s",
    "C91_palDs2tp",
    "C91_palDs2tp_status"
   ],
   "note": "doubles; as C84"
  },
  {
   "property": "C92",
   "status": "proved",
   "theorems": [
    "C92_palDbear",
    "C92_palPa"
   ],
   "note": "doubles; as C84"
  },
  {
   "property": "C93",
   "status": "proved",
   "theorems": [
    "C93_palGmst",
    "C93_palGmsta",
    "C93_exact"
   ],
   "note": "doubles; the constant DAS2R is modelled as the double quotient pi/648000, the bound covers one ulp of difference from the macro"
  },
  {
   "property": "C94",
   "status": "proved",
   "theorems": [
    "C94_palDrange",
    "C94_palDranrm",
    "C94_palDcs2c",
    "C94_palDsep",
    "C94_palDsepv",
    "C94_palDcc2s",
    "C94_palDh2e",
    "C94_palDe2h",
    "C94_palDbear"
   ],
   "note": "binary64 with exceptional values; libm is any set of functions meeting `libm_ok`, shown satisfiable"
  },
  {
   "property": "C95",
   "status": "proved",
   "theorems": [
    "C95_palDrange",
    "C95_palRefro_nan",
    "C95_palUe2pv_nan",
    "C95_palPv2ue_nan",
    "C95_palDjcl_nan",
    "C95_palDsep",
    "C95_palDbear",
    "C95_palDe2h",
    "C95_palDs2tp",
    "C95_palAirmas"
   ],
   "note": "binary64; libm following Annex F (`libm_nan`), shown satisfiable"
  },
  {
   "property": "C96",
   "status": "proved",
   "theorems": [
    "C96_returns_or_never",
    "C96_infinite_date",
    "C96_palPlantu_infinite_date",
    "C96_finite_date"
   ],
   "note": "binary64; any libm"
  },
  {
   "property": "C97",
   "status": "proved",
   "theorems": [
    "C97_first",
    "C97_history",
    "C97_state"
   ],
   "note": "at the reals; eccentricity at most 0.2; further from the epoch convergence is not claimed (C60 gives the bound on iterations, C68 the accuracy whenever status 0 is returned)"
  },
  {
   "property": "C98",
   "status": "proved",
   "theorems": [
    "C98_palDvdv",
    "C98_palDvxv",
    "C98_palDvn",
    "C98_palDmxv",
    "C98_palDimxv",
    "C98_palDmxm",
    "C98_palDeuler",
    "C98_palEpj",
    "C98_palEpb",
    "C98_palEpj_years",
    "C98_palDs2tp_status",
    "C98_palDs2tp",
    "C98_palDtp2s",
    "C98_galactic"
   ],
   "note": "as C94"
  },
  {
   "property": "C99",
   "status": "proved",
   "theorems": [
    "C99_palDvn",
    "C99_palDav2m",
    "C99_palDm2av",
    "C99_palDcc2s",
    "C99_palDsep_self",
    "C99_palDbear_self",
    "C99_palDpav"
   ],
   "note": "as C94, and `libm_zero`, shown satisfiable"
  },
  {
   "property": "C100",
   "status": "proved",
   "theorems": [
    "C100_palDav2m",
    "C100_palDm2av",
    "C100_roundtrip",
    "C100_palDav2m_f64",
    "C100_palDm2av_f64",
    "C100_roundtrip_f64"
   ],
   "note": "as C94; lengths 1e-100 to 6.3; palDm2av for matrices close to a rotation by less than half a turn"
  },
  {
   "property": "C101",
   "status": "proved",
   "theorems": [
    "C101_palDmxm",
    "C101_palDmxv",
    "C101_palDimxv",
    "C101_palDvxv",
    "C101_palDvn",
    "C101_palDcc2s",
    "C101_palDav2m",
    "C101_palDm2av",
    "C101_palDeuler",
    "C101_palInvf",
    "C101_palXy2xy",
    "C101_palDcmpf",
    "C101_palPcd",
    "C101_palRefv",
    "C101_palPv2ue",
    "C101_palUe2pv",
    "C101_palPxy",
    "C101_palPxy_hazard",
    "C101_rotate_in_place",
    "C101_palDvn_hazard"
   ],
   "note": "for any arithmetic; doubles are addressed individually, so overlaps by part of a double are not covered"
  },
  {
   "property": "C102",
   "status": "proved",
   "theorems": [
    "C102_palDvdv",
    "C102_palDvxv",
    "C102_palDsepv",
    "C102_palDsep",
    "C102_palDsepv_neg",
    "C102_palDvn",
    "C102_palDmxv",
    "C102_palDmxm",
    "C102_palDimxv",
    "C102_palDav2m",
    "C102_palDm2av",
    "C102_palDrange",
    "C102_palAirmas",
    "C102_palPcd",
    "C102_palRefv",
    "C102_palDd2tf",
    "C102_palDcs2c",
    "C102_palDsep_mirror",
    "C102_palDcc2s",
    "C102_palPa",
    "C102_palDe2h",
    "C102_palDh2e",
    "C102_palAltaz",
    "C102_palDbear",
    "C102_palDs2tp",
    "C102_palGeoc"
   ],
   "note": "the second part for a libm with `libm_sym`, shown satisfiable; the compiler must not contract or reassociate"
  },
  {
   "property": "C103",
   "status": "proved",
   "theorems": [
    "C103_palDmat",
    "C103_palDmat_footprint",
    "C103_palDmat_workspace",
    "C103_palFitxy",
    "C103_palPxy",
    "C103_solves"
   ],
   "note": "palDmat for a matrix and vector clear of one another; pointer arithmetic unbounded"
  },
  {
   "property": "C104",
   "status": "proved",
   "theorems": [
    "C104_refines",
    "C104_decimals",
    "C104_fields",
    "C104_palCldj",
    "C104_palCldj_long32",
    "C104_palCldj_example",
    "C104_palDjcl",
    "C104_palDjcl_value",
    "C104_palDjcl_long32",
    "C104_palDjcal",
    "C104_palDjcal_ten",
    "C104_palDd2tf",
    "C104_palDr2tf",
    "C104_palDr2af",
    "C104_palDd2tf_hours",
    "C104_palDd2tf_coarse"
   ],
   "note": "binary64; pow is any function; sizes: int 32 bits, long 64 (32 where stated); ERFA integer types as released (cal2jd.c, jd2cal.c, d2tf.c are not in /repo)"
  },
  {
   "property": "C105",
   "status": "proved",
   "theorems": [
    "C105_scan_number",
    "C105_scan_refuted",
    "C105_palIntin",
    "C105_palIntin_outside",
    "C105_palIntin_refuted",
    "C105_palDfltin",
    "C105_palDfltin_outside",
    "C105_palDfltin_refuted",
    "C105_palDafin",
    "C105_palObs",
    "C105_palObs_refuted"
   ],
   "note": "strtol, strcasecmp and strtod are the C library (strtod a parameter); char signedness, isblank and copying function are parameters"
  },
  {
   "property": "C106",
   "status": "proved",
   "theorems": [
    "C106_palDat",
    "C106_before_1960",
    "C106_covered",
    "C106_integral",
    "C106_leap_seconds",
    "C106_junk_refuted"
   ],
   "note": "at the reals; eraDat modelled from the published ERFA source, table to 2017"
  }
 ]
}