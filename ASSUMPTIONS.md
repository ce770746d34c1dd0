# What `Print Assumptions` lists for each theorem of MANIFEST.json

Generated by tools/assumptions.py. All are axioms or primitives of Coq's standard library.

## 59 theorem(s)

Axioms: none (closed under the global context)

Theorems: C14_axis_characters, C28_status, C33_palCaldj, C34_day_count, C35_palCldj_status, C35_documented_codes_refuted, C38_same_kind, C40_number, C40_null, C40_pointer, C40_wide_refuted, C40_value_mod, C41_overflow_refuted, C47_terminates, C60_at_most_26, C60_untouched, C61_planet, C63_status, C63_moon_refuted, C75_palVers, C75_null_pointer, C75_zero_length_refuted, C101_palDmxm, C101_palDmxv, C101_palDimxv, C101_palDvxv, C101_palDvn, C101_palDcc2s, C101_palDav2m, C101_palDm2av, C101_palDeuler, C101_palInvf, C101_palXy2xy, C101_palDcmpf, C101_palPcd, C101_palRefv, C101_palPv2ue, C101_palUe2pv, C101_palPxy, C103_palDmat, C103_palDmat_footprint, C103_palDmat_workspace, C103_palFitxy, C103_palPxy, C104_refines, C104_decimals, C104_fields, C104_palCldj, C104_palCldj_long32, C104_palCldj_example, C105_palIntin, C105_palIntin_outside, C105_palIntin_refuted, C105_palDfltin, C105_palDfltin_outside, C105_palDfltin_refuted, C105_palDafin, C105_palObs, C105_palObs_refuted

## 1 theorem(s)

Axioms: `ClassicalDedekindReals.sig_forall_dec`, `FunctionalExtensionality.functional_extensionality_dep`

Theorems: C106_covered

## 2 theorem(s)

Axioms: `ClassicalDedekindReals.sig_forall_dec`, `ClassicalDedekindReals.sig_not_dec`, `FunctionalExtensionality.functional_extensionality_dep`

Theorems: C71_lapse_exception, C80_unique_velocity

## 283 theorem(s)

Axioms: `ClassicalDedekindReals.sig_forall_dec`, `ClassicalDedekindReals.sig_not_dec`, `Classical_Prop.classic`, `FunctionalExtensionality.functional_extensionality_dep`

Theorems: C01_palDrange, C02_palDrange_idempotent, C03_palDranrm, C04_not_idempotent, C05_sph_cart, C06_separation, C06_bearing, C06_vectors, C07_horizon_inverse, C07_horizon_meaning, C08_palAltaz_agrees, C08_zenith, C09_palAltaz_rates, C10_palPa, C11_forward_is_projection, C11_backward_is_inverse_projection, C11_roundtrip_sphere, C11_roundtrip_plane, C12_palDs2tp_status, C13_solutions_project, C13_no_solution, C13_all_solutions, C13_count, C13_pole_second_solution_refuted, C14_palDeuler, C14_three_characters, C15_matrices, C16_axial, C19_eqecl_ecleq, C19_ecleq_eqecl, C19_definition, C20_palEcmat, C20_palPrebn, C20_palPrec, C20_palNut, C20_palPrenut, C20_palPrenut_def, C20_palNut_def, C20_palPrebn_same, C21_from_2000, C21_to_2000, C21_same, C21_general, C22_fk4, C22_fk5, C22_other, C23_palPolmo, C23_zero, C25_palInvf, C26_palDcmpf, C26_scales, C27_palFitxy, C28_degenerate, C28_two_coincident_refuted, C29_palPxy, C32_palUnpcd_preimage, C32_palUnpcd_inverts, C34_palDjcl_inverts_palCldj, C34_palCldj_inverts_palDjcl, C34_palDjcl_rejects, C36_palDjcal, C36_rejects, C36_no_carry_refuted, C37_palDtf2d, C37_palDtf2r, C37_palDaf2r, C37_palDd2tf, C37_palDr2tf, C37_palDr2af, C37_coarse, C37_roundtrip, C38_inverse, C38_palEpco, C39_palDtt, C39_palDat, C39_palDt, C42_number, C42_range, C42_null, C42_pointer, C42_buffer_refuted, C43_status, C44_by_number, C44_by_name, C44_unknown, C44_truncates, C44_places, C45_abbreviation_refuted, C45_only_complete, C47_clamped, C47_zenith, C47_odd, C47_no_air, C50_radio, C50_same_wavelength, C50_A_scales, C50_B_scales, C50_A_chain, C50_round_trip, C50_normal_dispersion, C50_blue_more, C51_parameters, C51_earthlike, C51_one_shot, C51_round_trip, C52_general, C52_zero_motion, C52_no_deflection, C52_exact_refuted, C53_inverse_stable, C53_round_trip, C53_ranges, C53_no_aberration, C54_observed_consistent, C54_types_agree, C54_outputs_interchangeable, C54_type_letters, C54_low_elevation, C54_palAoppat, C55_palFk524_position, C55_palFk524_motion, C55_palFk54z, C55_palFk45z, C56_velocity, C56_position, C56_direction, C56_palGeoc, C57_palRverot, C59_roundtrip, C60_terminates, C60_converged, C61_el2ue, C61_el2ue_terminates, C61_el2ue_slow, C61_planel, C61_plante, C61_pertel, C61_pv2el, C61_ue2el, C62_form, C63_terminates, C63_null, C63_span, C63_epoch, C64_palGeoc, C66_low, C66_zenith, C66_no_refraction, C67_palRefro_simpson, C68_functions, C68_motion, C68_ellipse, C68_pv2ue, C68_kept, C69_osculating, C69_elements, C70_planel, C70_at_perihelion, C70_el2ue, C70_ellipse, C70_roundtrip, C71_troposphere, C71_temperature, C71_surface, C71_stratosphere, C72_meaning, C72_meaning_to_hipparcos, C72_roundtrip, C72_proper_motion, C73_palGmst, C73_palGmsta, C73_palEqeqx, C74_clamped, C74_no_air, C76_series, C78_palPertue, C78_warning, C79_palPlantu, C79_palPlante, C79_palRdplan, C79_light_time, C82_palDd2tf, C82_time_roundtrip, C83_palDjcl, C83_roundtrip, C84_exact, C85_palDcs2c, C87_julian, C87_julian_date, C87_julian_years, C87_besselian, C89_palDeuler, C89_orthogonal, C90_palDvdv, C90_palDvxv, C90_palDvxv_exact, C90_palDvn, C90_palDvn_zero, C90_palDmxv, C90_palDimxv, C90_palDmxm, C90_roundtrip, C91_palDs2tp, C91_palDs2tp_status, C94_palDcs2c, C95_palDrange, C95_palRefro_nan, C95_palUe2pv_nan, C95_palPv2ue_nan, C95_palDjcl_nan, C95_palDsep, C95_palDbear, C95_palDe2h, C95_palDs2tp, C95_palAirmas, C96_returns_or_never, C96_infinite_date, C96_palPlantu_infinite_date, C96_finite_date, C98_palDvdv, C98_palDvxv, C98_palDvn, C98_palDmxv, C98_palDimxv, C98_palDmxm, C98_palDeuler, C98_palEpj, C98_palEpb, C98_palEpj_years, C98_palDs2tp_status, C98_palDs2tp, C99_palDvn, C99_palDav2m, C99_palDm2av, C99_palDcc2s, C99_palDsep_self, C99_palDbear_self, C99_palDpav, C100_palDav2m, C100_palDav2m_f64, C101_palPxy_hazard, C101_rotate_in_place, C101_palDvn_hazard, C102_palDvdv, C102_palDvxv, C102_palDsepv, C102_palDsep, C102_palDsepv_neg, C102_palDvn, C102_palDmxv, C102_palDmxm, C102_palDimxv, C102_palDav2m, C102_palDm2av, C102_palAirmas, C102_palPcd, C102_palRefv, C102_palDd2tf, C102_palDcs2c, C102_palDsep_mirror, C102_palDcc2s, C102_palPa, C102_palDe2h, C102_palDh2e, C102_palAltaz, C102_palDbear, C102_palDs2tp, C102_palGeoc, C104_palDjcl, C104_palDjcl_value, C104_palDjcl_long32, C104_palDjcal, C104_palDjcal_ten, C104_palDd2tf, C104_palDd2tf_hours, C104_palDd2tf_coarse, C105_scan_number, C105_scan_refuted, C106_palDat, C106_before_1960, C106_integral, C106_leap_seconds, C106_junk_refuted

## 5 theorem(s)

Axioms: `ClassicalDedekindReals.sig_forall_dec`, `ClassicalDedekindReals.sig_not_dec`, `ClassicalEpsilon.constructive_indefinite_description`, `Classical_Prop.classic`, `FunctionalExtensionality.functional_extensionality_dep`

Theorems: C27_two_points_refuted, C30_palDmat, C31_palDmat_singular, C31_nonsingular_refuted, C103_solves

## 22 theorem(s)

Axioms: `ClassicalDedekindReals.sig_forall_dec`, `ClassicalDedekindReals.sig_not_dec`, `Classical_Prop.classic`, `FunctionalExtensionality.functional_extensionality_dep`

Primitive integers/floats (used by the `interval` tactic's reflection): `PrimInt63.add`, `PrimInt63.addc`, `PrimInt63.addcarryc`, `PrimInt63.addmuldiv`, `PrimInt63.compare`, `PrimInt63.div`, `PrimInt63.diveucl`, `PrimInt63.diveucl_21`, `PrimInt63.eqb`, `PrimInt63.head0`, `PrimInt63.int`, `PrimInt63.land`, `PrimInt63.leb`, `PrimInt63.lor`, `PrimInt63.lsl`, `PrimInt63.lsr`, `PrimInt63.ltb`, `PrimInt63.lxor`, `PrimInt63.mod`, `PrimInt63.mul`, `PrimInt63.mulc`, `PrimInt63.sub`, `PrimInt63.subc`, `PrimInt63.subcarryc`, `PrimInt63.tail0`, `Uint63.add_spec`, `Uint63.addc_def_spec`, `Uint63.addcarryc_def_spec`, `Uint63.addmuldiv_def_spec`, `Uint63.compare_def_spec`, `Uint63.div_spec`, `Uint63.diveucl_21_spec`, `Uint63.diveucl_def_spec`, `Uint63.eqb_correct`, `Uint63.eqb_refl`, `Uint63.head0_spec`, `Uint63.land_spec`, `Uint63.leb_spec`, `Uint63.lor_spec`, `Uint63.lsl_spec`, `Uint63.lsr_spec`, `Uint63.ltb_spec`, `Uint63.lxor_spec`, `Uint63.mod_spec`, `Uint63.mul_spec`, `Uint63.mulc_spec`, `Uint63.of_to_Z`, `Uint63.sub_spec`, `Uint63.subc_def_spec`, `Uint63.subcarryc_def_spec`, `Uint63.tail0_spec`

Theorems: C04_palRanorm, C04_documented_range_refuted, C17_eqgal_galeq, C17_galeq_eqgal, C17_definition, C18_galsup_supgal, C18_supgal_galsup, C18_definition, C20_newcomb, C21_defect, C21_capitaine, C24_newcomb, C39_palDt_joins, C47_93_degrees, C55_matrices, C55_eterms, C57_apex, C57_lsrk, C57_projection, C57_palRverot_palPvobs, C65_palmac_constants, C73_palAoppat

## 50 theorem(s)

Axioms: `ClassicalDedekindReals.sig_forall_dec`, `ClassicalDedekindReals.sig_not_dec`, `Classical_Prop.classic`, `FunctionalExtensionality.functional_extensionality_dep`

Primitive integers/floats (used by the `interval` tactic's reflection): `FloatAxioms.Prim2SF_SF2Prim`, `FloatAxioms.Prim2SF_valid`, `FloatAxioms.SF2Prim_Prim2SF`, `FloatAxioms.abs_spec`, `FloatAxioms.add_spec`, `FloatAxioms.classify_spec`, `FloatAxioms.compare_spec`, `FloatAxioms.div_spec`, `FloatAxioms.eqb_spec`, `FloatAxioms.frshiftexp_spec`, `FloatAxioms.ldshiftexp_spec`, `FloatAxioms.ltb_spec`, `FloatAxioms.mul_spec`, `FloatAxioms.next_down_spec`, `FloatAxioms.next_up_spec`, `FloatAxioms.normfr_mantissa_spec`, `FloatAxioms.of_uint63_spec`, `FloatAxioms.opp_spec`, `FloatAxioms.sqrt_spec`, `FloatAxioms.sub_spec`, `PrimFloat.abs`, `PrimFloat.add`, `PrimFloat.classify`, `PrimFloat.compare`, `PrimFloat.div`, `PrimFloat.eqb`, `PrimFloat.float`, `PrimFloat.frshiftexp`, `PrimFloat.ldshiftexp`, `PrimFloat.ltb`, `PrimFloat.mul`, `PrimFloat.next_down`, `PrimFloat.next_up`, `PrimFloat.normfr_mantissa`, `PrimFloat.of_uint63`, `PrimFloat.opp`, `PrimFloat.sqrt`, `PrimFloat.sub`, `PrimInt63.add`, `PrimInt63.eqb`, `PrimInt63.int`, `PrimInt63.land`, `PrimInt63.leb`, `PrimInt63.lor`, `PrimInt63.lsl`, `PrimInt63.lsr`, `PrimInt63.ltb`, `PrimInt63.sub`, `Uint63.add_spec`, `Uint63.eqb_correct`, `Uint63.eqb_refl`, `Uint63.land_spec`, `Uint63.leb_spec`, `Uint63.lor_spec`, `Uint63.lsl_spec`, `Uint63.lsr_spec`, `Uint63.ltb_spec`, `Uint63.of_to_Z`, `Uint63.sub_spec`

Theorems: C20_obliquity, C24_palAddet, C24_palEtrms, C24_subet_addet, C24_addet_subet, C38_reference, C47_beyond_93, C48_inverse_80, C48_inverse_83, C48_high, C48_beyond_93, C48_continuous, C49_palAirmas, C54_round_trip_15deg, C54_round_trip_no_air, C54_palAoppa, C54_no_polar_motion, C54_end_to_end_no_air, C58_velocity, C58_latitude, C62_parabola_refuted, C73_advance, C74_surface_refractivity, C76_nutation, C76_equation_of_equinoxes, C77_palDmoon, C78_masses, C80_palPm, C80_same_epoch, C80_proper_motion, C80_no_parallax, C84_palDsepv, C84_palDsep, C85_palDcc2s, C85_roundtrip, C86_palDh2e, C92_palDbear, C92_palPa, C94_palDsep, C94_palDsepv, C94_palDcc2s, C94_palDh2e, C94_palDbear, C97_first, C97_history, C97_state, C100_palDm2av, C100_roundtrip, C100_palDm2av_f64, C100_roundtrip_f64

## 31 theorem(s)

Axioms: `ClassicalDedekindReals.sig_forall_dec`, `ClassicalDedekindReals.sig_not_dec`, `Classical_Prop.classic`, `FunctionalExtensionality.functional_extensionality_dep`

Primitive integers/floats (used by the `interval` tactic's reflection): `FloatAxioms.Prim2SF_SF2Prim`, `FloatAxioms.Prim2SF_valid`, `FloatAxioms.SF2Prim_Prim2SF`, `FloatAxioms.abs_spec`, `FloatAxioms.add_spec`, `FloatAxioms.classify_spec`, `FloatAxioms.compare_spec`, `FloatAxioms.div_spec`, `FloatAxioms.eqb_spec`, `FloatAxioms.frshiftexp_spec`, `FloatAxioms.ldshiftexp_spec`, `FloatAxioms.ltb_spec`, `FloatAxioms.mul_spec`, `FloatAxioms.next_down_spec`, `FloatAxioms.next_up_spec`, `FloatAxioms.normfr_mantissa_spec`, `FloatAxioms.of_uint63_spec`, `FloatAxioms.opp_spec`, `FloatAxioms.sqrt_spec`, `FloatAxioms.sub_spec`, `PrimFloat.abs`, `PrimFloat.add`, `PrimFloat.classify`, `PrimFloat.compare`, `PrimFloat.div`, `PrimFloat.eqb`, `PrimFloat.float`, `PrimFloat.frshiftexp`, `PrimFloat.ldshiftexp`, `PrimFloat.ltb`, `PrimFloat.mul`, `PrimFloat.next_down`, `PrimFloat.next_up`, `PrimFloat.normfr_mantissa`, `PrimFloat.of_uint63`, `PrimFloat.opp`, `PrimFloat.sqrt`, `PrimFloat.sub`, `PrimInt63.add`, `PrimInt63.addc`, `PrimInt63.addcarryc`, `PrimInt63.addmuldiv`, `PrimInt63.compare`, `PrimInt63.div`, `PrimInt63.diveucl`, `PrimInt63.diveucl_21`, `PrimInt63.eqb`, `PrimInt63.head0`, `PrimInt63.int`, `PrimInt63.land`, `PrimInt63.leb`, `PrimInt63.lor`, `PrimInt63.lsl`, `PrimInt63.lsr`, `PrimInt63.ltb`, `PrimInt63.lxor`, `PrimInt63.mod`, `PrimInt63.mul`, `PrimInt63.mulc`, `PrimInt63.sub`, `PrimInt63.subc`, `PrimInt63.subcarryc`, `PrimInt63.tail0`, `Uint63.add_spec`, `Uint63.addc_def_spec`, `Uint63.addcarryc_def_spec`, `Uint63.addmuldiv_def_spec`, `Uint63.compare_def_spec`, `Uint63.div_spec`, `Uint63.diveucl_21_spec`, `Uint63.diveucl_def_spec`, `Uint63.eqb_correct`, `Uint63.eqb_refl`, `Uint63.head0_spec`, `Uint63.land_spec`, `Uint63.leb_spec`, `Uint63.lor_spec`, `Uint63.lsl_spec`, `Uint63.lsr_spec`, `Uint63.ltb_spec`, `Uint63.lxor_spec`, `Uint63.mod_spec`, `Uint63.mul_spec`, `Uint63.mulc_spec`, `Uint63.of_to_Z`, `Uint63.sub_spec`, `Uint63.subc_def_spec`, `Uint63.subcarryc_def_spec`, `Uint63.tail0_spec`

Theorems: C24_palGe50, C46_palRefco, C55_fixed_star, C55_roundtrip, C57_galactic, C58_derivative, C58_distance, C66_palRefv, C66_1uas_refuted, C76_palAoppa, C79_constants, C81_palDrange, C81_palDrange_idempotent, C81_palDranrm, C82_hours_roundtrip, C82_degrees_roundtrip, C86_palDe2h, C86_roundtrip, C88_rounding, C91_palDtp2s, C93_palGmst, C93_palGmsta, C93_exact, C94_palDrange, C94_palDranrm, C94_palDe2h, C98_palDtp2s, C98_galactic, C102_palDrange, C104_palDr2tf, C104_palDr2af

