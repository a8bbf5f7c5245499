{
 "claims": [
  {
   "property": "C01",
   "status": "proved",
   "theorems": [
    "C01_non_physical_arguments_rejected",
    "C01_physical_arguments_pass"
   ],
   "note": "every arithmetic, all 13 solvers other than izzo2015"
  },
  {
   "property": "C02",
   "status": "partial",
   "theorems": [
    "C02_badly_shaped_arrival_rejected",
    "C02_null_arrival_refused_partial",
    "C02_null_arrival_refuted",
    "C02_null_arrival_accepted_refuted"
   ],
   "note": "shape of r2 only; the null vector is not checked by the code A null arrival position is not looked at by the validation: four solvers refuse it as a straight angle, three raise RuntimeError and gooding1990 returns (refutation witnesses)."
  },
  {
   "property": "C03",
   "status": "partial",
   "theorems": [
    "C03_signature_refuted",
    "C03_validation_refuted"
   ],
   "note": "False of the code for izzo2015: it has no full_output parameter (every number system) and its validation is commented out, so a negative mu ends in RuntimeError. The other thirteen solvers share the validation of C01."
  },
  {
   "property": "C04",
   "status": "partial",
   "theorems": [
    "C04_multi_revolution_refused_partial",
    "C04_multi_revolution_ignored_refuted"
   ],
   "note": "avanzini2008, jiang2016, pan2016, thorne2004 refuse; gauss1809, battin1984, vallado2013 ignore M"
  },
  {
   "property": "C05",
   "status": "proved",
   "theorems": [
    "C05_registries",
    "C05_multi_rev_registry"
   ],
   "note": ""
  },
  {
   "property": "C06",
   "status": "partial",
   "theorems": [
    "C06_zero_angle_refused",
    "C06_straight_angle_refused",
    "C06_straight_angle_runtime_error",
    "C06_straight_angle_silent_refuted"
   ],
   "note": "Zero angle: nine solvers raise ValueError. Straight angle: four raise ValueError, three RuntimeError, and six can only return NaN velocities (refutation, with a concrete call that does return). Exact real arithmetic."
  },
  {
   "property": "C07",
   "status": "proved",
   "theorems": [
    "C07_transfer_angle",
    "C07_transfer_angle_collinear"
   ],
   "note": "exact arithmetic"
  },
  {
   "property": "C08",
   "status": "partial",
   "theorems": [
    "C08_complementary_partial",
    "C08_complementary_refuted"
   ],
   "note": "holds in planes not containing the z axis, false in planes containing it"
  },
  {
   "property": "C09",
   "status": "proved",
   "theorems": [
    "C09_orbit_normal"
   ],
   "note": "exact arithmetic"
  },
  {
   "property": "C10",
   "status": "partial",
   "theorems": [
    "C10_inc_raan_partial",
    "C10_inc_raan_refuted"
   ],
   "note": "false for retrograde equatorial transfers"
  },
  {
   "property": "C11",
   "status": "partial",
   "theorems": [
    "C11_one_orbit",
    "C11_der",
    "C11_pan",
    "C11_avanzini",
    "C11_der_parabola_refuted"
   ],
   "note": "13 of 14 solvers; der2011 outside the parabolic shortcut, where it is false; avanzini2008 outside the equatorial plane, see C32; gauss1809 see C37"
  },
  {
   "property": "C12",
   "status": "partial",
   "theorems": [
    "C12_direction",
    "C12_der",
    "C12_pan",
    "C12_gauss",
    "C12_avanzini",
    "C12_battin"
   ],
   "note": "All 14 solvers; avanzini2008 only outside the equatorial plane (false there, see C32)."
  },
  {
   "property": "C13",
   "status": "proved",
   "theorems": [
    "C13_vallado_solves_lambert"
   ],
   "note": "exact arithmetic; rtol <= 1, non-collinear positions"
  },
  {
   "property": "C14",
   "status": "proved",
   "theorems": [
    "C14_arora_solves_lambert"
   ],
   "note": "exact arithmetic; includes multi-revolution calls and bounds the truncation of the near-parabolic series"
  },
  {
   "property": "C15",
   "status": "proved",
   "theorems": [
    "C15_delatorre_solves_lambert"
   ],
   "note": "For every returned pair: a two-body motion from (r1,v1) to (r2,v2) with exactly M complete revolutions whose duration is within atol+rtol*tof of tof. For M=0 the end points must be at least 2e-6 of the sum of the radii apart (closer, the bracket search starts above zero)."
  },
  {
   "property": "C16",
   "status": "proved",
   "theorems": [
    "C16_izzo_solves_lambert",
    "C16_izzo_elliptic",
    "C27_izzo_derivatives"
   ],
   "note": "real-number instance; the accepted iterate x > -1 (izzo stops on step size and can accept x <= -1, which is outside the theorem)"
  },
  {
   "property": "C17",
   "status": "proved",
   "theorems": [
    "C17_gooding_every_iterate"
   ],
   "note": "exact arithmetic"
  },
  {
   "property": "C18",
   "status": "partial",
   "theorems": [
    "C18_count",
    "C18_pan_count",
    "C18_thorne_count",
    "C18_no_budget",
    "C18_gauss_converged",
    "C18_battin_converged",
    "C18_izzo_converged",
    "C18_negrete_refuted",
    "C18_gooding_refuted"
   ],
   "note": "Reported counts are within the budget for twelve solvers, every number system (thorne2004 for a brentq that counts honestly); convergence meaning for gauss, battin, izzo; refuted by negrete2024 (reports four with maxiter=1) and gooding1990 (negative count)."
  },
  {
   "property": "C19",
   "status": "partial",
   "theorems": [
    "C18_no_budget",
    "C19_gooding_always_returns_refuted"
   ],
   "note": "gooding1990 never raises on an exhausted budget with M=0 (refuted for it); six solvers never answer without budget."
  },
  {
   "property": "C20",
   "status": "partial",
   "theorems": [
    "C20_larger_budget",
    "C20_thorne",
    "C20_der_partial",
    "C20_pan_partial",
    "C20_gooding_refuted",
    "C20_negrete_refuted",
    "C20_der_refuted"
   ],
   "note": "Proved for ten solvers in every number system (thorne2004 for a monotone brentq); false of gooding1990, negrete2024 and der2011 (its fall-back reports the budget as its count). der2011 and pan2016: proved for runs that found their own answer without using the whole budget."
  },
  {
   "property": "C21",
   "status": "proved",
   "theorems": [
    "C21_full_output",
    "C21_exceptions",
    "C21_plain_exceptions",
    "C21_clock",
    "C21_unused",
    "C21_zero_division_refuted"
   ],
   "note": "Every number system, every solver that has the flag; the only difference is a ZeroDivisionError for zero iteration counts, which gooding1990 does exhibit."
  },
  {
   "property": "C22",
   "status": "proved",
   "theorems": [
    "C22_elliptic",
    "C22_elliptic_inverse",
    "C22_parabolic",
    "C22_parabolic_inverse",
    "C22_hyperbolic",
    "C22_hyperbolic_inverse"
   ],
   "note": "exact arithmetic"
  },
  {
   "property": "C23",
   "status": "proved",
   "theorems": [
    "C23_mean_anomaly_defined",
    "C23_increasing",
    "C23_odd",
    "C23_negative_eccentricity"
   ],
   "note": "exact arithmetic; the exception statement in every arithmetic"
  },
  {
   "property": "C24",
   "status": "proved",
   "theorems": [
    "C24_state_of_elements",
    "C24_elements_of_state"
   ],
   "note": "exact arithmetic"
  },
  {
   "property": "C25",
   "status": "partial",
   "theorems": [
    "C25_rotations_partial",
    "C25_second_axis_refuted",
    "C25_axis_checked"
   ],
   "note": "see the refuted theorem for the second axis"
  },
  {
   "property": "C26",
   "status": "proved",
   "theorems": [
    "C26_values",
    "C26_smooth"
   ],
   "note": "exact arithmetic; the series loops are modelled by their limits"
  },
  {
   "property": "C27",
   "status": "partial",
   "theorems": [
    "C27_izzo_derivatives",
    "C27_izzo_halley_refuted",
    "C27_gooding_derivatives",
    "C27_der_derivatives",
    "C27_der_derivatives_refuted",
    "C27_mcelreath_derivatives",
    "C27_mcelreath_derivatives_imaginary",
    "C27_mcelreath_domain",
    "C27_arora_derivatives"
   ],
   "note": "izzo2015 proved for every lambda, x > -1, x <> 1 and M; gooding1990 proved for every q, x > -1 (including the parabola) and M, for the direct and the series branch; der2011 proved for 0 < sigma and refuted for sigma < 0 (its signed y enters the formulas); the Halley search of izzo2015 for the minimum keeps a stale time, so its derivative is refuted. mcelreath2025 proved up to the third derivative on the real axis (every geometry and M) and on the imaginary axis. arora2013 proved for W and T up to second derivatives strictly inside the ranges of k on which each formula for W is used, together with its Halley step."
  },
  {
   "property": "C28",
   "status": "partial",
   "theorems": [
    "C28_delatorre_bracket",
    "C28_jiang_bracket",
    "C28_pan_bracket",
    "C28_delatorre_root",
    "C28_jiang_hyperbolic_refuted",
    "C28_der_elliptic",
    "C28_der_hyperbolic",
    "C28_thorne_elliptic",
    "C28_thorne_hyperbolic"
   ],
   "note": "The safeguarded searches of delatorre2018, jiang2016 and pan2016 keep a sign change inside the bracket after any number of passes, for any residual; what they return lies in the initial bracket. jiang2016 does not check that its initial hyperbolic bracket changes sign: C28_jiang_hyperbolic_refuted gives two times of flight with the same answer. der2011 and thorne2004 call an external root finder: the interval they hand it holds the solution with a change of sign exactly if the solution keeps the stated distance from the ends of its range (2^-52 in x for der2011's ellipses, 2^-26 for its hyperbolas, a relative 2^-52 in the semi-major axis for thorne2004), unless the doubling of the far end runs out of fuel; outside of that the sign does not change."
  },
  {
   "property": "C29",
   "status": "partial",
   "theorems": [
    "C29_jiang_window",
    "C29_jiang_refuted"
   ],
   "note": "False of the code: for every geometry the bracketing loop of jiang2016 never ends when tof lies strictly between the two transfer times whose semi-major axis is (1+2^-26) times the minimum (C29_jiang_refuted gives a feasible elliptic tof). C29_jiang_window proves the rest: for non-negative tolerances it terminates for every other time of flight, elliptic, parabolic or hyperbolic. Exact real arithmetic."
  },
  {
   "property": "C30",
   "status": "partial",
   "theorems": [
    "C30_units",
    "C30_finite",
    "C30_delatorre",
    "C30_vallado",
    "C30_jiang_refuted",
    "C30_delatorre_refuted",
    "C30_pan_refuted",
    "C30_thorne_refuted",
    "C30_mcelreath_refuted",
    "C30_vallado_refuted"
   ],
   "note": "Proved over the reals for gauss1809, battin1984, gooding1990, der2011, avanzini2008, arora2013, izzo2015 and negrete2024 (all inputs, all positive L and T); for vallado2013 on transfers of more than half a turn; for delatorre2018 when atol is converted as a time (M = 0 or atol = 0). Refuted by double-precision runs with power-of-two units for jiang2016, pan2016, thorne2004, mcelreath2025 and delatorre2018 (absolute tolerances) and vallado2013 below half a turn (vallado.py:116)."
  },
  {
   "property": "C31",
   "status": "partial",
   "theorems": [
    "C31_rotation",
    "C31_finite",
    "C31_avanzini",
    "C31_avanzini_refuted"
   ],
   "note": "Proved for all solvers, including exceptions, iteration counts and NaN components; avanzini2008 for non-collinear positions outside the equatorial plane, and refuted in the equatorial plane (quarter turn rotated by pi)."
  },
  {
   "property": "C32",
   "status": "partial",
   "theorems": [
    "C32_equatorial",
    "C32_wrong_sense",
    "C32_refuted"
   ],
   "note": "false: what is returned in the equatorial plane is characterised exactly"
  },
  {
   "property": "C33",
   "status": "proved",
   "theorems": [
    "C33_conics_pass_through_both",
    "C33_change_of_variable"
   ],
   "note": "exact arithmetic"
  },
  {
   "property": "C34",
   "status": "proved",
   "theorems": [
    "C34_series_reversion",
    "C34_inverse_unique",
    "C34_thorne_coefficients"
   ],
   "note": "For every order; the A coefficients are also proved to be those of the time of flight as a power series in s/2a (ellipses and hyperbolas with |s/2a| < 1)."
  },
  {
   "property": "C35",
   "status": "partial",
   "theorems": [
    "C35_izzo_refuses",
    "C35_izzo_window",
    "C35_izzo_refuses_feasible_refuted",
    "C35_mcelreath_refuses",
    "C35_gooding_refuses",
    "C35_delatorre_refuses",
    "C35_arora_answers",
    "C35_arora_refuted"
   ],
   "note": "Over the reals: an answer of izzo2015, gooding1990, delatorre2018 or mcelreath2025 with M >= 1 implies that M revolutions are feasible in the requested time (plus the tolerance stated in each theorem). izzo2015 also refuses some feasible requests (refuted with a window). arora2013 returns the transfer with no revolution when the time is below the parabolic one: the general disjunction is C35_arora_answers and a binary64 run is C35_arora_refuted. gauss1809, battin1984, vallado2013 and the other single-revolution solvers ignore M; der2011 is treated under C48."
  },
  {
   "property": "C36",
   "status": "proved",
   "theorems": [
    "C36_zero_rev_unique",
    "C36_zero_rev_exists",
    "C36_solvers_agree"
   ],
   "note": "Uniqueness rests on a proof that every two-body motion with non-zero momentum is the universal-variable motion (KeplerUnique.v) and on strict monotonicity of the time of flight; existence of the zero-revolution transfer for every positive time is proved as well. The solver statement covers Vallado, Izzo, Thorne, Delatorre, Jiang, McElreath, Negrete, Gooding and Arora."
  },
  {
   "property": "C37",
   "status": "partial",
   "theorems": [
    "C37_gauss_same_orbit_iff_equal_radii",
    "C37_gauss_same_orbit_refuted",
    "C37_gauss_parabola_refuted"
   ],
   "note": "false unless the radii are equal"
  },
  {
   "property": "C38",
   "status": "partial",
   "theorems": [
    "C38_ranks_are_1_to_n",
    "C38_ranks_follow_medians",
    "C38_speedups",
    "C38_merged_reports_refuted"
   ],
   "note": "proved as stated (each solver once per case); refuted when two reports are merged"
  },
  {
   "property": "C39",
   "status": "partial",
   "theorems": [
    "C39_only_the_section_changes",
    "C39_appends",
    "C39_last_update_wins",
    "C39_idempotent",
    "C39_orphan_start_refuted",
    "C39_wrong_order_refuted",
    "C39_backslash_refuted"
   ],
   "note": "proved for a README with no start marker or exactly one section and tables without backslash; refuted otherwise"
  },
  {
   "property": "C40",
   "status": "partial",
   "theorems": [
    "C40_jiang",
    "C40_thorne",
    "C40_der",
    "C40_mcelreath",
    "C40_avanzini",
    "C40_barker_is_the_time",
    "C40_pan_refuted"
   ],
   "note": "exact arithmetic; pan2016 is wrong by the factor sqrt 2"
  },
  {
   "property": "C41",
   "status": "partial",
   "theorems": [
    "C41_no_level",
    "C41_refuted"
   ],
   "note": "false: what is computed is characterised exactly"
  },
  {
   "property": "C42",
   "status": "partial",
   "theorems": [
    "C42_elliptic_answers_are_transfers",
    "C42_der",
    "C42_pan",
    "C42_avanzini",
    "C42_gauss",
    "C42_gauss_refuted"
   ],
   "note": "All 14 solvers: gauss1809 exactly when both positions are at the same distance (refuted otherwise), avanzini2008 outside the equatorial plane (C32), der2011 away from the parabola, pan2016 for a root finder that returns an evaluated point."
  },
  {
   "property": "C43",
   "status": "proved",
   "theorems": [
    "C43_jiang_solves_lambert"
   ],
   "note": "Exact real arithmetic; the conclusion keeps the second stopping test of the code (small step, residual not increased) as a separate case because that test does not bound the residual."
  },
  {
   "property": "C44",
   "status": "partial",
   "theorems": [
    "C44_thorne_solves_lambert",
    "C44_thorne_polar_refuted",
    "brentq_left_brackets"
   ],
   "note": "Proved for planes that do not contain the z axis, under the contract brentq_brackets for scipy.brentq. Refuted for planes through the z axis with is_prograde=True."
  },
  {
   "property": "C45",
   "status": "proved",
   "theorems": [
    "C45_thorne_window",
    "C45_thorne_refuted",
    "brentq_end_contracts"
   ],
   "note": "Exact description of the refused times of flight, including termination of the expansion loops; C45_thorne_refuted shows that the minimum-energy ellipse is refused for every geometry."
  },
  {
   "property": "C46",
   "status": "proved",
   "theorems": [
    "C46_gooding_time",
    "C46_gooding_rests_at_solutions"
   ],
   "note": "exact arithmetic; the theorem is about every iterate x > -1, it does not say that the iteration gets there; rest points are characterised for M = 0"
  },
  {
   "property": "C47",
   "status": "proved",
   "theorems": [
    "C47_der_solves_lambert"
   ],
   "note": "exact arithmetic; brentq only assumed to return a point within the tolerance of a sign change (MANIFEST of contracts in DESIGN.md); near-parabolic times excluded for M = 0 because the shortcut returns the parabola itself"
  },
  {
   "property": "C48",
   "status": "partial",
   "theorems": [
    "C48_der_minimum_equation",
    "C48_der_minimum_time",
    "C48_der_refuses_infeasible",
    "C48_der_long_way_refuted",
    "C48_der_newton_refuted"
   ],
   "note": "proved on the short way (0 < sigma) for a root finder that returns the exact root; refuted on the long way: the time at the minimum uses the signed y and is too small, so infeasible times are accepted for every geometry; the Newton fallback has a derivative of the wrong sign"
  },
  {
   "property": "C49",
   "status": "proved",
   "theorems": [
    "C49_multi_rev_count"
   ],
   "note": "exact arithmetic, a theorem about the specification itself"
  },
  {
   "property": "C50",
   "status": "partial",
   "theorems": [
    "C50_negrete_time",
    "C50_negrete_answers",
    "C50_negrete_roots",
    "C50_negrete_quadratic",
    "C50_negrete_unchecked_refuted"
   ],
   "note": "Over the reals, for |z| >= 1e-8 (closer to zero the code sums a truncated series) and on planes with a normal component along z. That the root found is a root within the tolerance is false: the code never evaluates the time of flight at it, and a binary64 run with four samples is off by more than 1e-4 (C50_negrete_unchecked_refuted)."
  },
  {
   "property": "C51",
   "status": "partial",
   "theorems": [
    "C51_mcelreath_time",
    "C51_mcelreath_parabola",
    "C51_mcelreath_roots",
    "C51_mcelreath_answers",
    "C51_mcelreath_multi_rev"
   ],
   "note": "Over the reals, on planes with a normal component along z. The iteration stops on the size of its step, so nothing is claimed about the distance of the returned x from a root."
  },
  {
   "property": "C52",
   "status": "partial",
   "theorems": [
    "C52_gooding_low_path",
    "C52_delatorre_low_path",
    "C52_negrete_low_path",
    "C51_mcelreath_multi_rev"
   ],
   "note": "Proved over the reals for gooding1990 and delatorre2018: comparing the answers of the two runs, |r1 x v1| is ordered as stated. For negrete2024 the roots of the two runs are proved to be ordered, and the angular momenta to be ordered as stated whenever both roots lie in the range of the requested number of revolutions (the code does not check that they do, see C50). For mcelreath2025 the first guess is proved to lie on the requested side of the minimum. izzo2015, arora2013 and der2011 only take an initial guess on the requested side and may converge elsewhere; nothing is proved for them."
  },
  {
   "property": "C53",
   "status": "partial",
   "theorems": [
    "C53_fuel_irrelevant",
    "C53_bounded_solvers",
    "C53_vallado_long_way",
    "C53_gooding",
    "C53_der",
    "C53_delatorre",
    "C53_thorne",
    "C29_jiang_window",
    "C53_delatorre_refuted",
    "C53_vallado_refuted",
    "C53_pan_refuted",
    "C29_jiang_refuted"
   ],
   "note": "The model runs open-ended loops with fuel; C53_fuel_irrelevant shows that an outcome other than exhaustion does not depend on the amount. Proved for every Num: seven solvers have no open-ended loop, and vallado2013 has none on the long way. Proved over the reals: gooding1990 for all arguments, der2011 and thorne2004 for every non-collinear geometry, delatorre2018 when the endpoints are not very close. Refuted over the reals: delatorre2018 with very close endpoints (the bracket starts at 0 and is doubled for ever); vallado2013 on a quick quarter turn, where the readjustment loop of line 111 has a fixed point (line 116 multiplies the radii instead of adding them), and pan2016, which hands equal radii to vallado2013; jiang2016 (C29)."
  },
  {
   "property": "C54",
   "status": "partial",
   "theorems": [
    "C54_exceptions",
    "C54_gooding_refuted",
    "C54_izzo_refuted",
    "C37_gauss_parabola_refuted",
    "C21_zero_division_refuted",
    "C03_signature_refuted"
   ],
   "note": "C54_exceptions lists, for every solver and every Num, which exceptions other than ValueError and RuntimeError can leave it and under which arguments. The property as stated is false: gooding1990 (unset numiter), izzo2015 (AssertionError between equal points, TypeError for full_output), gauss1809 (unset deltaAnomaly), full_output with a zero count. Not shown reachable: the unset k of arora2013 (needs NaN)."
  },
  {
   "property": "C55",
   "status": "partial",
   "theorems": [
    "C55_pan_time_partial",
    "C55_pan_run_partial",
    "C55_pan_band_refuted"
   ],
   "note": "Proved over the reals for ellipses and hyperbolas. False in the band of eccentricities from 1 to 1.00001001, where the code uses its parabolic formula: C55_pan_band_refuted exhibits a hyperbola on which the computed time exceeds the transfer time by over 40 percent (the same factor as C40)."
  },
  {
   "property": "C56",
   "status": "proved",
   "theorems": [
    "C56_avanzini_time",
    "C56_avanzini_run"
   ],
   "note": "Proved over the reals for ellipses, the parabola and hyperbolas. The equatorial plane is excluded because the velocities are then those of rotated positions (C32). The secant accepts its last iterate without evaluating the residual there, so nothing is claimed about how close the time is to the requested one."
  },
  {
   "property": "C57",
   "status": "partial",
   "theorems": [
    "C57_mirror",
    "C57_finite",
    "C57_izzo_polar_refuted"
   ],
   "note": "Proved for all solvers, including exceptions, iteration counts and NaN components; izzo2015 and thorne2004 with the sense reversed only outside planes containing the z axis (refuted there for izzo2015), avanzini2008 for non-collinear positions outside the equatorial plane."
  },
  {
   "property": "C58",
   "status": "proved",
   "theorems": [
    "C58_laguerre_exact",
    "C58_laguerre_quadratic",
    "C58_laguerre_root",
    "C58_laguerre_sentinel"
   ],
   "note": "Real arithmetic; the zeros lie within the +-1e300 accepted by the step."
  },
  {
   "property": "C59",
   "status": "partial",
   "theorems": [
    "C59_reversal",
    "C59_finite",
    "C59_gauss_refuted",
    "C59_avanzini",
    "C59_arora",
    "C59_arora_refuted",
    "C59_pan"
   ],
   "note": "Proved for battin1984, jiang2016, gooding1990, der2011, thorne2004, vallado2013, izzo2015, negrete2024, mcelreath2025 and delatorre2018, including exceptions, iteration counts and NaN components; gauss1809 is reversible exactly for equal distances (refuted otherwise). avanzini2008 is reversible outside the equatorial plane. arora2013 is reversible between equal distances (all outcomes); otherwise its unit of time, and with it the tolerance, is made of the first distance, and a binary64 run takes three passes in one direction and two in the other (C59_arora_refuted). pan2016 is reversible when the distances differ by no more than its tolerance (it then calls vallado2013); otherwise it samples directions counted from the first position, so it is not reversible in general (from (1,0,0) to (1,3,0) in five units of time the binary64 model takes two passes in one direction and one in the other; this evaluation is too slow for the independent checker and is not part of the development)."
  },
  {
   "property": "C60",
   "status": "partial",
   "theorems": [
    "C60_izzo_householder",
    "C60_gooding_halley",
    "C60_arora_halley",
    "C60_mcelreath_real",
    "C60_mcelreath_imaginary",
    "C60_avanzini_secant",
    "C60_pan_estimate",
    "C60_jiang_slope",
    "C60_delatorre_slope",
    "C60_der_fallback_refuted",
    "C27_izzo_halley_refuted"
   ],
   "note": "Proved for the main iterations of izzo2015, gooding1990, arora2013, mcelreath2025, avanzini2008, pan2016, jiang2016 and delatorre2018 (der2011's Laguerre step is the subject of C58). False for two auxiliary iterations: der2011's fallback for the shortest time divides by a slope of the wrong sign and so always walks away from the root, and izzo2015's _halley keeps the time of its first guess. On the imaginary axis mcelreath2025's last resort leaves the axis, as C60_mcelreath_imaginary states."
  },
  {
   "property": "C61",
   "status": "partial",
   "theorems": [
    "C61_izzo_single",
    "C61_izzo_multi",
    "C61_izzo_conic",
    "C61_gooding_single",
    "C61_der_single",
    "C61_mcelreath_single",
    "C61_mcelreath_multi",
    "C61_arora_interpolation",
    "C61_arora_hyperbolic",
    "C61_arora_elliptic",
    "C61_arora_rational",
    "C61_arora_long_refuted",
    "C61_gooding_second"
   ],
   "note": "Proved for izzo2015, gooding1990, der2011 and mcelreath2025 without revolutions (mcelreath2025 on all three branches, as starts of the call itself), for mcelreath2025 with revolutions given a minimum between the bounds, for izzo2015's range and gooding1990's second start with revolutions (which shows that its test for x <= -1 never succeeds); arora2013's interpolating starts given the order of the times at their knots. False for arora2013 and long times: the start of its region E4 tends to -1.41421357 < -sqrt 2, outside the domain, so that for every geometry all times beyond some bound are refused with ValueError although a transfer exists (C61_arora_long_refuted). Missing: gooding1990's first start with revolutions, arora2013 with revolutions beyond C64 and the remaining solvers."
  },
  {
   "property": "C62",
   "status": "partial",
   "theorems": [
    "C62_quadrature",
    "C62_one_pole",
    "C62_two_poles",
    "C62_refinement",
    "C62_elliptic_contour",
    "C62_multi_contour",
    "C62_hyperbolic_contour",
    "C62_series",
    "C62_series_accurate",
    "C62_hyperbolic_refuted",
    "C62_elliptic_refuted"
   ],
   "note": "The rule, its exactness on poles, the position of every circle, the choice of the regime and the series are proved. That the first circle always exists and encloses the root is false: for short-way geometries of small angle (up to 53 degrees for equal distances) every hyperbolic transfer is refused with ValueError (C62_hyperbolic_refuted), and for every geometry some elliptic transfer has its root left of the circle (C62_elliptic_refuted). Missing: the error of the rule for the analytic part of the pole function."
  },
  {
   "property": "C63",
   "status": "proved",
   "theorems": [
    "C63_samples",
    "C63_first_bracket",
    "C63_bracket_root"
   ],
   "note": "For the model over the reals with NaN. Continuity of the residual on the bracket is a hypothesis of C63_bracket_root; without it the sign change may be a jump."
  },
  {
   "property": "C64",
   "status": "proved",
   "theorems": [
    "C64_der_differences",
    "C64_mcelreath_tof_at_x",
    "C64_arora_multirev"
   ],
   "note": "For the model over the reals with NaN. scipy's brentq and minimize_scalar are parameters; C64_arora_multirev assumes only that brentq answers inside its interval (brentq_inside)."
  },
  {
   "property": "C65",
   "status": "partial",
   "theorems": [
    "C65_elements_recovered",
    "C65_state_recovered",
    "C65_parabola_refuted",
    "C65_retrograde_refuted"
   ],
   "note": "Proved over the reals, starting from elements and starting from an arbitrary state, for every ellipse and hyperbola with eccentricity and inclination either zero or not below the tolerance, except retrograde equatorial orbits and the apoapsis of inclined ellipses (where E_to_nu takes the tangent of a right angle, which has no value over the reals). False on parabolas, where true anomaly and argument of periapsis have no value (C65_parabola_refuted), and for retrograde equatorial orbits, whose recovered elements always describe a position on the x axis (C65_retrograde_refuted)."
  },
  {
   "property": "C66",
   "status": "proved",
   "theorems": [
    "C66_kepler_time",
    "C66_past_apocentre"
   ],
   "note": "Proved over the reals for every ellipse, parabola and hyperbola and every pair of true anomalies in (-pi, pi) on the orbit; the conclusion is the specification of Lambert's problem (the two-body motion through the two states)."
  },
  {
   "property": "C67",
   "status": "proved",
   "theorems": [
    "C67_transfers",
    "C67_answers"
   ],
   "note": "Over the reals. delatorre2018 under the condition of C15 (positions not closer than 2e-6 of the sum of the distances), 0 <= atol, 0 <= rtol <= 1. The order is strict for times that differ by more than the tolerances stated in C13, C14 and C15."
  },
  {
   "property": "C68",
   "status": "proved",
   "theorems": [
    "C68_minimum_energy",
    "C68_attained",
    "C68_answers"
   ],
   "note": "Over the reals. The solvers are covered under the conditions of C11 (predicate faultless_orbit); gauss1809 is not covered because its answers need not lie on one orbit."
  },
  {
   "property": "C69",
   "status": "proved",
   "theorems": [
    "C69_transfers",
    "C69_answers",
    "C69_jiang",
    "C69_thorne"
   ],
   "note": "Over the reals. delatorre2018 under the condition of C15 (positions not closer than 2e-6 of the sum of the distances), 0 <= atol, 0 <= rtol <= 1; the tolerances (time_error) are those of C13, C14 and C15. jiang2016 and thorne2004 for every non-collinear geometry, thorne2004 with a root finder that returns a bracketed root (brentq_brackets)."
  }
 ]
}
