{"id": "C01", "title": "Non-physical arguments are rejected before any computation", "statement": "Every solver except izzo2015 raises ValueError when mu <= 0, when r1 is not a 3-vector or is null, when r1 equals r2, when tof <= 0 or when M < 0, whatever the other arguments, tolerances, iteration limits and flags are.", "quantifier": "all values of all arguments, in every number system (so also for IEEE doubles with NaN)", "why_tests_cant": "the argument space is infinite and the guard must win against every later branch of thirteen different solvers", "anchors": ["src/lamberthub/utils/assertions.py:assert_parameters_are_valid", "src/lamberthub/*:<solver entry points>"]}
{"id": "C02", "title": "A null or badly shaped arrival position is rejected", "statement": "Every solver raises ValueError when r2 is the null vector or is not a 3-vector, exactly as it does for r1.", "quantifier": "all argument tuples whose r2 is invalid", "why_tests_cant": "tests only exercise the first vector", "anchors": ["src/lamberthub/utils/assertions.py:assert_position_vectors_are_valid"]}
{"id": "C03", "title": "All solvers share one call signature and one validation contract", "statement": "Every solver in ALL_SOLVERS can be called with the same arguments (mu,r1,r2,tof,M,is_prograde,is_low_path,maxiter,atol,rtol,full_output) and reports invalid input the same way (ValueError).", "quantifier": "all solvers in the registry and all argument tuples", "why_tests_cant": "a missing guard or keyword only shows on the calls nobody wrote a test for", "anchors": ["src/lamberthub/universal_solvers/izzo.py:izzo2015", "src/lamberthub/__init__.py"]}
{"id": "C04", "title": "Zero-revolution solvers never answer a multi-revolution question", "statement": "A solver that does not implement multi-revolution transfers raises ValueError for every M > 0; it never silently returns a zero-revolution transfer.", "quantifier": "all M > 0 and all other arguments, for every solver outside MULTI_REV_SOLVERS", "why_tests_cant": "the property is about every M and every geometry", "anchors": ["src/lamberthub/p_solvers/gauss.py", "src/lamberthub/p_solvers/battin.py", "src/lamberthub/universal_solvers/vallado.py", "src/lamberthub/p_solvers/jiang.py", "src/lamberthub/p_solvers/pan.py", "src/lamberthub/series_solvers/thorne.py", "src/lamberthub/ecc_solvers/avanzini.py"]}
{"id": "C05", "title": "Solver registries are consistent", "statement": "ROBUST_SOLVERS and NON_ROBUST_SOLVERS are disjoint and every registry is a duplicate-free sub-list of ALL_SOLVERS; MULTI_REV_SOLVERS contains no solver that rejects or ignores M > 0.", "quantifier": "all registered solvers, all M > 0", "why_tests_cant": "registry membership has to agree with the behaviour of the solver on every input", "anchors": ["src/lamberthub/__init__.py"]}
{"id": "C06", "title": "Degenerate transfer angles are reported, not divided by", "statement": "If r1 and r2 are parallel (transfer angle 0) or opposite (angle 180 degrees) a solver whose formulas are singular there raises an error instead of returning velocities.", "quantifier": "all pairs of collinear position vectors and all remaining arguments", "why_tests_cant": "collinear inputs form a continuum and each solver has its own singular formulas", "anchors": ["src/lamberthub/utils/assertions.py:assert_transfer_angle_not_zero", "src/lamberthub/utils/assertions.py:assert_transfer_angle_not_pi", "src/lamberthub/utils/angles.py:get_transfer_angle"]}
{"id": "C07", "title": "Transfer angle is the geometric angle in the requested direction", "statement": "For non-collinear r1, r2 the transfer angle lies strictly between 0 and 2*pi, differs from pi, its cosine is r1.r2/(|r1||r2|), and it is below pi exactly when the short way is the requested (prograde/retrograde) direction; for collinear vectors it is exactly 0 or pi.", "quantifier": "all pairs of non-null position vectors and both directions", "why_tests_cant": "an infinite family of geometries with several branch points", "anchors": ["src/lamberthub/utils/angles.py:get_transfer_angle"]}
{"id": "C08", "title": "Prograde and retrograde transfers are complementary", "statement": "For every non-collinear pair of positions, the prograde and the retrograde transfer angles add up to 2*pi.", "quantifier": "all non-collinear pairs of position vectors", "why_tests_cant": "requires every plane orientation, including planes containing the z axis", "anchors": ["src/lamberthub/utils/angles.py:get_transfer_angle"]}
{"id": "C09", "title": "Orbit normal", "statement": "The orbit normal is a unit vector orthogonal to both positions, with non-negative z component for prograde and non-positive z component for retrograde motion.", "quantifier": "all non-collinear pairs and both directions", "why_tests_cant": "continuum of geometries", "anchors": ["src/lamberthub/utils/angles.py:get_orbit_normal_vector"]}
{"id": "C10", "title": "Inclination and ascending node describe the orbit normal", "statement": "The inclination and right ascension returned for a transfer plane reproduce its normal vector: n = (sin raan sin inc, -cos raan sin inc, cos inc).", "quantifier": "all non-collinear pairs and both directions", "why_tests_cant": "continuum of geometries, special cases for coplanar orbits", "anchors": ["src/lamberthub/utils/angles.py:get_orbit_inc_and_raan_from_position_vectors"]}
{"id": "C11", "title": "Both returned velocities belong to one Keplerian orbit through r1 and r2", "statement": "Whatever the root finder did, if a solver returns finite (v1, v2) then (r1,v1) and (r2,v2) have the same angular momentum vector, the same energy and the same eccentricity vector.", "quantifier": "all inputs for which a solver returns, all tolerances and iteration limits", "why_tests_cant": "must hold for every geometry and for every intermediate value of the iteration variable", "anchors": ["src/lamberthub/universal_solvers/*", "src/lamberthub/p_solvers/*", "src/lamberthub/regularization/delatorre.py", "src/lamberthub/series_solvers/thorne.py", "src/lamberthub/ecc_solvers/avanzini.py"]}
{"id": "C12", "title": "Requested direction is honoured by the returned motion", "statement": "The angular momentum r1 x v1 of the returned motion is orthogonal to r1 and r2 and has positive z component when prograde was requested and negative z component when retrograde was requested (planes not containing the z axis).", "quantifier": "all inputs for which a solver returns", "why_tests_cant": "continuum of geometries and both flags", "anchors": ["src/lamberthub/utils/angles.py:get_transfer_angle", "src/lamberthub/universal_solvers/*"]}
{"id": "C13", "title": "vallado2013 really solves Lambert's problem", "statement": "If vallado2013 returns (v1,v2), there is a solution of the two-body equation of motion that starts at (r1,v1) and is at (r2,v2) after a time T with |T - tof| < rtol*tof.", "quantifier": "all inputs for which the solver returns", "why_tests_cant": "needs the exact flow of a differential equation for every input", "anchors": ["src/lamberthub/universal_solvers/vallado.py:vallado2013", "src/lamberthub/utils/stumpff.py"]}
{"id": "C14", "title": "arora2013 really solves Lambert's problem (no revolution)", "statement": "If arora2013 returns (v1,v2) with M=0, there is a two-body motion from (r1,v1) to (r2,v2) whose duration matches tof within the solver's tolerance.", "quantifier": "all inputs for which the solver returns", "why_tests_cant": "needs the exact flow for every input", "anchors": ["src/lamberthub/universal_solvers/arora.py"]}
{"id": "C15", "title": "delatorre2018 really solves Lambert's problem", "statement": "If delatorre2018 returns (v1,v2), there is a two-body motion from (r1,v1) to (r2,v2) whose duration equals the value of the solver's time equation at the accepted iterate, and within atol + rtol*tof of tof when the residual test stopped the iteration.", "quantifier": "all inputs for which the solver returns", "why_tests_cant": "needs the exact flow for every input", "anchors": ["src/lamberthub/regularization/delatorre.py"]}
{"id": "C16", "title": "izzo2015 velocities solve Lambert's problem for the time its final iterate encodes", "statement": "If izzo2015 returns velocities they are those of a two-body motion from r1 to r2 whose duration is the solver's time-of-flight function at the accepted iterate; its derivative formulas used by the Householder iteration are the true derivatives.", "quantifier": "all lambda, all iterates, all M", "why_tests_cant": "continuum of iterates", "anchors": ["src/lamberthub/universal_solvers/izzo.py"]}
{"id": "C17", "title": "gooding1990 velocities solve Lambert's problem for the time its final iterate encodes", "statement": "For every value of the iteration variable, the velocities rebuilt by gooding1990 lie on one Kepler orbit through both positions.", "quantifier": "all geometries, all iterates", "why_tests_cant": "continuum of iterates", "anchors": ["src/lamberthub/universal_solvers/gooding.py"]}
{"id": "C18", "title": "Iterative solvers only return converged iterates, within maxiter", "statement": "gauss1809, battin1984, vallado2013, arora2013, izzo2015: if the solver returns, the last two iterates (or the time residual) satisfy the documented tolerance test and the reported iteration count is between 1 and maxiter; otherwise an exception is raised, in particular for maxiter <= 0.", "quantifier": "all inputs, tolerances and maxiter, in every number system", "why_tests_cant": "unbounded number of iterations and tolerances", "anchors": ["src/lamberthub/p_solvers/gauss.py", "src/lamberthub/p_solvers/battin.py", "src/lamberthub/universal_solvers/vallado.py", "src/lamberthub/universal_solvers/arora.py", "src/lamberthub/universal_solvers/izzo.py"]}
{"id": "C19", "title": "gooding1990 reports non-convergence", "statement": "If the iteration of gooding1990 stops because maxiter is exhausted, it raises instead of returning, and it does not raise when the iteration converged.", "quantifier": "all inputs and maxiter", "why_tests_cant": "needs every iteration count", "anchors": ["src/lamberthub/universal_solvers/gooding.py:xlamb"]}
{"id": "C20", "title": "A larger iteration budget never changes a successful answer", "statement": "If a solver returns a result with a given maxiter, it returns exactly the same result with every larger maxiter.", "quantifier": "all inputs and all pairs maxiter <= maxiter'", "why_tests_cant": "pairs of unbounded parameters", "anchors": ["src/lamberthub/p_solvers/gauss.py", "src/lamberthub/p_solvers/battin.py", "src/lamberthub/universal_solvers/vallado.py", "src/lamberthub/universal_solvers/arora.py"]}
{"id": "C21", "title": "Timing and output flags do not influence the physics", "statement": "The velocities and the exception behaviour of a solver do not depend on full_output or on the wall clock; unused arguments (rtol in gauss1809 and battin1984, atol in vallado2013, is_low_path in the solvers without multi-revolution transfers) do not matter.", "quantifier": "all inputs and all clock behaviours", "why_tests_cant": "clock readings are a schedule, not an input", "anchors": ["src/lamberthub/p_solvers/*", "src/lamberthub/universal_solvers/*"]}
{"id": "C22", "title": "True anomaly conversions are mutually inverse", "statement": "nu->E->nu, nu->H->nu and nu->B->nu are the identity for elliptic, hyperbolic and parabolic orbits, and the converted anomaly has the sign of nu.", "quantifier": "all eccentricities and all anomalies of the orbit", "why_tests_cant": "continuum with branch points", "anchors": ["src/lamberthub/utils/angles.py:nu_to_E,E_to_nu,nu_to_H,H_to_nu,nu_to_B,B_to_nu"]}
{"id": "C23", "title": "Kepler's equation is monotone and odd; negative eccentricity is rejected", "statement": "The mean anomaly as a function of the true anomaly is odd and strictly increasing for elliptic, parabolic and hyperbolic orbits; a negative eccentricity raises ValueError and no other one does.", "quantifier": "all eccentricities >= 0 and all admissible anomalies", "why_tests_cant": "continuum", "anchors": ["src/lamberthub/utils/kepler.py:kepler_from_nu"]}
{"id": "C24", "title": "Element conversion produces states with the requested elements", "statement": "For every set of classical elements with p > 0 the state computed from them has angular momentum sqrt(mu p), the right radius p/(1+e cos nu), the right energy and its position and velocity satisfy the conic equation, and converting back recovers p, ecc and inc.", "quantifier": "all element sets and gravitational parameters", "why_tests_cant": "continuum with special cases", "anchors": ["src/lamberthub/utils/elements.py:rv_pqw,coe2rv,rv2coe"]}
{"id": "C25", "title": "Elementary rotations are rotations", "statement": "For every angle, the rotation matrix about each axis is orthogonal with determinant one; any other axis index raises ValueError.", "quantifier": "all angles and axes", "why_tests_cant": "continuum", "anchors": ["src/lamberthub/utils/elements.py:rotation_matrix"]}
{"id": "C26", "title": "Stumpff functions", "statement": "c2 and c3 satisfy 2*c2 = psi*c2^2 + (1-psi*c3)^2, are continuous across the switch between the closed forms and the series, and are positive below 4*pi^2.", "quantifier": "all real psi", "why_tests_cant": "continuum; series branch", "anchors": ["src/lamberthub/utils/stumpff.py:c2,c3"]}
{"id": "C27", "title": "Analytic derivatives used by the iterations are the derivatives of the functions iterated on", "statement": "The first, second and third derivatives used by izzo2015, arora2013, der2011 and mcelreath2025 equal the derivatives of their time-of-flight functions.", "quantifier": "all iterates in the domain and all geometries", "why_tests_cant": "an identity between functions", "anchors": ["src/lamberthub/universal_solvers/izzo.py:_tof_equation_p,_tof_equation_p2,_tof_equation_p3", "src/lamberthub/universal_solvers/arora.py:_get_Wprime,_get_W2prime,_get_TOF,arora2013"]}
{"id": "C28", "title": "Bracketing searches never lose the root", "statement": "During the safeguarded iterations of jiang2016, delatorre2018 and pan2016 the bracket keeps a sign change of the residual (hence, for a continuous residual, a root) and the returned point lies inside the initial bracket. The intervals that der2011 and thorne2004 hand to the external root finder hold the solution with a change of sign of the residual of the right branch.", "quantifier": "all residual functions, all brackets, all iteration counts", "why_tests_cant": "universally quantified over functions", "anchors": ["src/lamberthub/p_solvers/jiang.py:_solve_semimajor_axis", "src/lamberthub/regularization/delatorre.py:_solve_bracketed", "src/lamberthub/p_solvers/pan.py:_bezier_root", "src/lamberthub/universal_solvers/der.py:_solve_elliptic_bracketed", "src/lamberthub/series_solvers/thorne.py:get_semimajor_axis"]}
{"id": "C29", "title": "jiang2016 finds a bracket for every feasible elliptic time of flight", "statement": "For every time of flight above the parabolic one the bracketing phase of jiang2016 terminates.", "quantifier": "all geometries and all elliptic times of flight", "why_tests_cant": "termination of an unbounded loop", "anchors": ["src/lamberthub/p_solvers/jiang.py:_find_and_solve_elliptic"]}
{"id": "C30", "title": "Unit independence", "statement": "Rescaling lengths by L and times by T (mu by L^3/T^2) rescales the returned velocities by L/T and changes nothing else.", "quantifier": "all inputs and all positive scale factors", "why_tests_cant": "relational property over pairs of runs", "anchors": ["src/lamberthub/universal_solvers/izzo.py", "src/lamberthub/p_solvers/battin.py", "src/lamberthub/universal_solvers/vallado.py"]}
{"id": "C31", "title": "Rotation about the z axis", "statement": "Rotating r1 and r2 about the z axis rotates the returned velocities by the same rotation and changes nothing else.", "quantifier": "all inputs and all rotation angles", "why_tests_cant": "relational property over pairs of runs", "anchors": ["src/lamberthub/universal_solvers/*", "src/lamberthub/p_solvers/*", "src/lamberthub/ecc_solvers/avanzini.py"]}
{"id": "C32", "title": "The equatorial plane is not special for avanzini2008", "statement": "avanzini2008 returns a state (r1, v1) on the transfer orbit also when both positions lie in the equatorial plane, for every direction of r1 and both senses of motion.", "quantifier": "all coplanar geometries", "why_tests_cant": "tests only use r1 along +x", "anchors": ["src/lamberthub/ecc_solvers/utils.py:coe_at_eccT", "src/lamberthub/utils/angles.py:get_orbit_inc_and_raan_from_position_vectors"]}
{"id": "C33", "title": "Every conic of the eccentricity family passes through both positions", "statement": "For every transverse eccentricity the conic used by avanzini2008 has both r1 and r2 on it; the change of variable maps the real line into the admissible eccentricities.", "quantifier": "all geometries and all iterates", "why_tests_cant": "continuum", "anchors": ["src/lamberthub/ecc_solvers/utils.py:ecc_at_eccT,p_at_eccT,w_at_eccT", "src/lamberthub/ecc_solvers/avanzini.py:_get_eccT_at_x"]}
{"id": "C34", "title": "Series reversion of thorne2004", "statement": "The Q matrix holds the coefficients of the powers of the compositional inverse of the input series and the B array those of t divided by that inverse, for every truncation order.", "quantifier": "all coefficient sequences with nonzero first term and all orders", "why_tests_cant": "unbounded order", "anchors": ["src/lamberthub/series_solvers/thorne.py:get_Q_matrix,get_B_array"]}
{"id": "C35", "title": "Infeasible multi-revolution requests are refused", "statement": "If M revolutions cannot be flown in the given time, a multi-revolution solver raises ValueError rather than returning a transfer with fewer revolutions.", "quantifier": "all inputs with M > 0", "why_tests_cant": "all geometries and times below the minimum time", "anchors": ["src/lamberthub/universal_solvers/arora.py", "src/lamberthub/universal_solvers/izzo.py", "src/lamberthub/regularization/delatorre.py", "src/lamberthub/universal_solvers/gooding.py"]}
{"id": "C36", "title": "Different solvers agree", "statement": "Two solvers that both meet the zero-revolution time-of-flight equation exactly return the same velocities: the zero-revolution transfer is unique.", "quantifier": "all inputs and all pairs of solvers", "why_tests_cant": "uniqueness of a root over a continuum", "anchors": ["src/lamberthub/universal_solvers/*"]}
{"id": "C37", "title": "gauss1809 velocities are consistent", "statement": "The velocities returned by gauss1809 at both ends belong to the same orbit, and the solver returns for exactly parabolic transfers.", "quantifier": "all inputs for which the solver returns", "why_tests_cant": "all radii pairs", "anchors": ["src/lamberthub/p_solvers/gauss.py:gauss1809"]}
{"id": "C38", "title": "Benchmark ranks and speed-ups are faithful", "statement": "Within each benchmark case where every solver is measured once, the ranks in the generated report are exactly 1..n, a smaller rank means a smaller or equal median time, and every speed-up (relative to the slowest solver of the case) is at least 1 and equals 1 for the slowest.", "quantifier": "all benchmark result files", "why_tests_cant": "unbounded lists", "anchors": ["scripts/generate_benchmark_report.py"]}
{"id": "C39", "title": "Updating the README is idempotent and touches only the generated section", "statement": "Replacing the generated section keeps everything outside the markers and doing it twice equals doing it once.", "quantifier": "all README contents and all generated texts", "why_tests_cant": "unbounded strings", "anchors": ["scripts/generate_benchmark_report.py"]}
{"id": "C40", "title": "Parabolic time of flight is Barker's equation in every solver", "statement": "The parabolic time-of-flight formulas of different solvers agree with Barker's equation.", "quantifier": "all geometries with a parabolic transfer", "why_tests_cant": "continuum", "anchors": ["src/lamberthub/p_solvers/pan.py:_parabolic_tof", "src/lamberthub/ecc_solvers/utils.py:kepler_tof_at_eccT"]}
{"id": "C41", "title": "battin1984's continued fraction is evaluated to convergence", "statement": "_xi_at_x returns the value of Battin's continued fraction xi(x), not of a truncation that stops after one term.", "quantifier": "all x", "why_tests_cant": "the loop exits at once for every x because delta starts at 0; tests accept the answer because the outer iteration still converges", "anchors": ["src/lamberthub/p_solvers/battin.py:_xi_at_x"]}
{"id": "C42", "title": "Every elliptic answer is a transfer between the two positions", "statement": "If a solver returns (v1,v2) with negative energy then the Kepler motion from (r1,v1) reaches (r2,v2), whatever the stopping test accepted; only the duration depends on the root that was found.", "quantifier": "all inputs, all tolerances, every number of revolutions", "why_tests_cant": "tests only propagate converged answers of a few cases", "anchors": ["src/lamberthub"]}
{"id": "C43", "title": "jiang2016 solves Lambert's problem", "statement": "Whenever jiang2016 returns velocities, they belong to a two-body motion from r1 to r2 without complete revolutions whose duration is within the tolerance of tof, or else the search stopped on a small step of the semi-major axis that did not increase the residual.", "quantifier": "all non-collinear positions, times of flight, tolerances with rtol >= 0 and iteration budgets", "why_tests_cant": "tests compare a handful of answers with tables; the claim covers ellipses on both branches, parabolas and hyperbolas for both directions of motion", "anchors": ["src/lamberthub/p_solvers/jiang.py:jiang2016", "src/lamberthub/p_solvers/jiang.py:_solve_semimajor_axis"]}
{"id": "C44", "title": "thorne2004 returns velocities that solve Lambert's problem", "statement": "Whenever thorne2004 returns velocities for positions that do not lie on a line through the attractor and whose plane does not contain the z axis, they are the end velocities of a two-body motion without complete revolutions from r1 to r2. Its duration differs from tof by no more than the tolerance (parabola), or tof lies between its duration and that of another such motion whose semi-major axis differs by no more than the tolerance given to brentq. In planes through the z axis with is_prograde=True this fails: the motion arrives before tof.", "quantifier": "all mu > 0, all non-collinear r1 and r2, all tof, tolerances, iteration limits and flags, every root finder that returns a point next to a sign change", "why_tests_cant": "The tests compare a few textbook transfers; none lies in a plane through the z axis, and none checks the ellipse, parabola and hyperbola formulas over all shapes.", "anchors": ["src/lamberthub/series_solvers/thorne.py:14-117", "src/lamberthub/series_solvers/thorne.py:176-339"]}
{"id": "C45", "title": "thorne2004 hands brentq an interval with a sign change for exactly the times of flight outside a window around the minimum-energy ellipse", "statement": "thorne2004 searches semi-major axes from s/2 (1 + 2^-52) upwards for ellipses and below -2^-52 s for hyperbolas. For every geometry there are times t_fast < t_par < t_lo < t_min < t_hi such that a time of flight below t_fast or strictly between t_lo and t_hi is refused with ValueError although a transfer exists (t_min is the minimum-energy ellipse), and for every other time of flight both expansion loops end, brentq receives a sign change and velocities are returned.", "quantifier": "all mu > 0, all non-collinear r1 and r2, both directions, all times of flight not within the tolerance of the parabolic one, all root finders that refuse equal signs or succeed on opposite signs", "why_tests_cant": "The refused window is a few units in the last place wide in relative terms of the semi-major axis and differs for every geometry; termination of the doubling loops needs the monotonicity of the time of flight in the semi-major axis.", "anchors": ["src/lamberthub/series_solvers/thorne.py:176-278"]}
{"id": "C46", "title": "gooding1990 iterates on Lambert's equation itself", "statement": "For every x > -1 (x < 1 with revolutions) the velocities gooding1990 rebuilds from x solve Lambert's problem, and the number _tlamb assigns to x - by the direct formula, by the logarithm series or by the power series near the parabola - is exactly the flight time of that solution in the normalised units the requested time is converted to. Without revolutions a pass of the Halley iteration leaves x unchanged if and only if that flight time is the requested one.", "quantifier": "all gravitational parameters, non-collinear positions, directions, numbers of revolutions, iterates x > -1, tolerances, pass numbers and requested times", "why_tests_cant": "The four formulas meet at |1-x^2| = 0.4, x = 0, q x = 0 and x = 1; tests compare a few final answers with tabulated ones at 1e-3 or so and cannot see that the branches agree everywhere, that the series has the right coefficients at every order, or that no x other than the solution is a rest point.", "anchors": ["src/lamberthub/universal_solvers/gooding.py:147-355", "src/lamberthub/universal_solvers/gooding.py:551-569", "src/lamberthub/universal_solvers/gooding.py:636-678"]}
{"id": "C47", "title": "der2011's answers solve Lambert's problem with the requested number of revolutions", "statement": "Whenever der2011 returns velocities they solve Lambert's problem between r1 and r2 with exactly M complete revolutions for some time T, and T is the requested time up to the tolerance on the normalised time, or, when the bracketed search was used, T and the flight time of a transfer whose path parameter differs by no more than the tolerance enclose the requested time. Both stages (Laguerre iteration and brentq) are covered, on the elliptic and hyperbolic side.", "quantifier": "all mu, non-collinear r1 and r2, times of flight (not within the tolerance of the parabolic one when M = 0), M, directions, paths, budgets, tolerances, and all root finders that return a point next to a sign change", "why_tests_cant": "Tests compare a handful of answers with tabulated velocities; they cannot see that no stage (Laguerre candidate, sentinel 2.0, fallback) ever lets a wrong path parameter through for some geometry.", "anchors": ["src/lamberthub/universal_solvers/der.py:18-118", "src/lamberthub/universal_solvers/der.py:139-239", "src/lamberthub/universal_solvers/der.py:344-420", "src/lamberthub/universal_solvers/der.py:479-491"]}
{"id": "C48", "title": "der2011 refuses exactly the infeasible times of flight with revolutions", "statement": "The equation der2011 solves for the shortest time with M revolutions has the derivative of its time of flight as its only root; the search interval contains it; the time computed there is the shortest time of flight with M revolutions, so that 'No feasible solution, try lower M!' is raised exactly when no M-revolution transfer in the requested direction takes that time; the Newton fallback uses the derivative of the equation.", "quantifier": "all mu, all non-collinear positions with a direction of motion, all M >= 1 (up to 10^14 for the search interval), all times of flight, both directions", "why_tests_cant": "The threshold depends on geometry and M and is not tabulated; a test can only probe times far from it. On the long way the computed threshold is wrong and infeasible times pass the check for every geometry.", "anchors": ["src/lamberthub/universal_solvers/der.py:70-92", "src/lamberthub/universal_solvers/der.py:423-476"]}
{"id": "C49", "title": "With complete revolutions there are no, one or two transfers", "statement": "For every geometry, direction and M >= 1 there is a shortest time of flight T_min > 0 such that Lambert's problem with exactly M complete revolutions has no solution below T_min, exactly one at T_min and exactly two above it. (This is what gives the low_path flag of the multi-revolution solvers a meaning.)", "quantifier": "all mu > 0, all r1, r2 with non-zero normal component, both directions, all M >= 1, all times of flight", "why_tests_cant": "An exact count of the solutions of a transcendental equation for every geometry and every M cannot be observed by running solvers.", "anchors": ["src/lamberthub/universal_solvers/izzo.py:187-283", "src/lamberthub/universal_solvers/der.py:423-476", "src/lamberthub/universal_solvers/gooding.py:356-470"]}
{"id": "C50", "title": "negrete2024's pole function has its poles exactly at the transfers", "statement": "Every abscissa z in the range of M revolutions at which y is positive stands for a transfer: the velocities negrete2024 computes there solve Lambert's problem with M complete revolutions, in the requested sense, for the time _tof_at_z assigns to z; conversely every transfer of the requested kind is a zero of the denominator of the pole function. The quadratic built from the four contour moments has the two poles as its roots. Whatever root is found, the answer is right exactly when _tof_at_z of the root is the requested time.", "quantifier": "all mu > 0, all r1, r2 with non-zero normal component, both directions, all M >= 0, all |z| >= 1e-8, all complex residues and poles", "why_tests_cant": "The equivalence is between a transcendental complex function and Keplerian motion for every geometry and revolution count; tests see the answers of a few contours only.", "anchors": ["src/lamberthub/universal_solvers/negrete.py:96-102", "src/lamberthub/universal_solvers/negrete.py:144-152", "src/lamberthub/universal_solvers/negrete.py:248-262", "src/lamberthub/universal_solvers/negrete.py:290-317"]}
{"id": "C51", "title": "mcelreath2025's roots are exactly the transfers", "statement": "At every x that is the change of eccentric anomaly of a transfer with M complete revolutions (real between 2 pi M and 2 pi (M + 1), or positive imaginary with M = 0) the velocities mcelreath2025 computes solve Lambert's problem for the time its equation assigns to x, in the requested direction; x = 0 with the parabolic time likewise. Conversely every transfer of the requested kind is such a root. Whatever x the iteration ends at, the answer is right exactly when the equation's value there is the requested time.", "quantifier": "all mu > 0, all r1, r2 with non-zero normal component, both directions, all M >= 0, all x", "why_tests_cant": "The equivalence between a complex equation and Keplerian motion holds for every geometry, revolution count and anomaly.", "anchors": ["src/lamberthub/universal_solvers/mcelreath.py:_tof_equation", "src/lamberthub/universal_solvers/mcelreath.py:_get_parabolic_tof", "src/lamberthub/universal_solvers/mcelreath.py:mcelreath2025"]}
{"id": "C52", "title": "is_low_path selects the same transfer whichever solver is used", "statement": "When M >= 1 complete revolutions are requested, two transfers take the requested time (they merge at the minimum time). Of these, is_low_path=True delivers the one with the larger angular momentum when the transfer is flown the short way and the one with the smaller angular momentum when it is flown the long way; is_low_path=False delivers the other. Every multi-revolution solver makes this same choice.", "quantifier": "all mu > 0, all r1, r2 with non-zero normal component, both directions, all M >= 1, all times, all pairs of runs that differ in is_low_path only", "why_tests_cant": "Exchanging the two branches still returns a correct transfer, so a check of the returned transfer alone cannot see it; the choice has to agree for every geometry, time and revolution count.", "anchors": ["src/lamberthub/universal_solvers/gooding.py:vlamb", "src/lamberthub/regularization/delatorre.py:_find_z", "src/lamberthub/universal_solvers/mcelreath.py", "src/lamberthub/universal_solvers/izzo.py:_initial_guess", "src/lamberthub/universal_solvers/arora.py"]}
{"id": "C53", "title": "Every call ends", "statement": "Each solver, called with valid arguments, stops after finitely many steps: it returns velocities or raises. In particular the loops without an iteration bound (the search for a bracket in jiang2016, thorne2004, der2011 and delatorre2018, the angle reduction in gooding1990, and the readjustment loop in vallado2013, which pan2016 also reaches) end for every input.", "quantifier": "all mu > 0, all tof > 0, all non-collinear r1, r2, both directions, all M, all maxiter, atol and rtol", "why_tests_cant": "A loop that does not end for some inputs cannot be seen on the inputs that end, and a test that hangs is only a time-out.", "anchors": ["src/lamberthub/universal_solvers/vallado.py:vallado2013", "src/lamberthub/universal_solvers/gooding.py:tlamb", "src/lamberthub/universal_solvers/der.py", "src/lamberthub/regularization/delatorre.py:_find_z", "src/lamberthub/series_solvers/thorne.py", "src/lamberthub/p_solvers/jiang.py"]}
{"id": "C54", "title": "Only documented exceptions leave a solver", "statement": "Whatever the arguments, a solver that does not return raises ValueError or RuntimeError. Internal errors (AssertionError, TypeError, UnboundLocalError, ZeroDivisionError) do not leave a solver.", "quantifier": "all solvers, all argument values of every field, all behaviours of scipy that raise ValueError or RuntimeError only", "why_tests_cant": "The exceptional paths are reached on thin sets of arguments (an exact parabola, maxiter <= 0, a root finder that needs no iteration), which random tests do not hit.", "anchors": ["src/lamberthub/universal_solvers/gooding.py:xlamb", "src/lamberthub/p_solvers/gauss.py:gauss1809", "src/lamberthub/universal_solvers/izzo.py:izzo2015", "src/lamberthub/utils/assertions.py"]}
{"id": "C55", "title": "pan2016's time of flight is the time of the transfer it returns", "statement": "For every argument of periapsis at which pan2016 can evaluate its time of flight, that time is exactly the time its reconstructed velocities take from r1 to r2 under two-body motion, without a full revolution; so a completed run is either the vallado2013 fallback or the exact Lambert solution for the requested time plus the final residual.", "quantifier": "all non-collinear positions, gravitational parameters, senses of motion, arguments of periapsis and runs", "why_tests_cant": "tests sample a handful of transfers and none falls in the band of eccentricities treated as parabolic", "anchors": ["src/lamberthub/p_solvers/pan.py:_elements_at_omega", "src/lamberthub/p_solvers/pan.py:_tof_from_elements", "src/lamberthub/p_solvers/pan.py:_reconstruct_velocities"]}
{"id": "C56", "title": "avanzini2008's Kepler time is the time of the transfer it returns", "statement": "Outside the equatorial plane, the velocities avanzini2008 reconstructs from a transverse eccentricity carry r1 to r2 under two-body motion in exactly the positive time its Kepler equation gives for that eccentricity, without a full revolution. So a completed run returns an exact transfer, and it takes the requested time exactly when the residual vanishes at the accepted iterate. The only exception is an orbit with an end at its apocentre, where tan(nu/2) has no value.", "quantifier": "all non-collinear positions outside the equatorial plane, gravitational parameters, senses of motion, transverse eccentricities and runs", "why_tests_cant": "tests compare a few published transfers; ellipses, the exact parabola and hyperbolas, and ends before and after the apocentre, each take a different branch", "anchors": ["src/lamberthub/ecc_solvers/utils.py:kepler_tof_at_eccT", "src/lamberthub/ecc_solvers/utils.py:coe_at_eccT", "src/lamberthub/ecc_solvers/avanzini.py:avanzini2008", "src/lamberthub/utils/kepler.py:kepler_from_nu"]}
{"id": "C57", "title": "The mirror image of a problem has the mirror image as its answer", "statement": "Reflecting both positions in the equatorial plane, in a plane through the z axis, or turning them by half a turn about an axis of the equatorial plane, and toggling is_prograde when the reflection reverses the sense of rotation about the z axis, reflects both velocities of every solver's answer and leaves its iteration count and its exceptions unchanged. In planes that contain the z axis, where such a reflection changes nothing but is_prograde, izzo2015 breaks this: it answers the same problem with opposite senses of motion.", "quantifier": "all solvers, inputs, tolerances, iteration budgets and clocks (izzo2015 and thorne2004 outside planes containing the z axis when the sense is reversed, avanzini2008 outside the equatorial plane)", "why_tests_cant": "a symmetry relates pairs of runs for every geometry, including those that raise or return NaN; tests have a handful of single transfers, nearly all prograde", "anchors": ["src/lamberthub/utils/angles.py:get_transfer_angle", "src/lamberthub/utils/angles.py:get_orbit_normal_vector", "src/lamberthub/universal_solvers/izzo.py:izzo2015", "src/lamberthub/series_solvers/thorne.py:reconstruct", "src/lamberthub/ecc_solvers/avanzini.py:avanzini2008"]}
{"id": "C58", "title": "The step of der2011 is Laguerre's method", "statement": "Given the values of a function and its first two derivatives at x, the degree-n pass of der2011's _laguerre_step is Laguerre's step: on a polynomial of degree n with a simple zero on one side of x and its other n - 1 zeros coinciding at or beyond it, it returns that zero exactly. The degrees are tried upwards from 2, so such a quadratic is solved at once; at a simple zero the step stays put; and if 11 f'^2 < 12 f f'' every degree from 2 to 12 is unusable and the step is the number 2.", "quantifier": "all degrees, leading coefficients, zeros and points x; all real values of f and its derivatives", "why_tests_cant": "a wrong factor in the discriminant still converges, only slower, so the answers and even the iteration limits of a finite test set need not change", "anchors": ["src/lamberthub/universal_solvers/der.py:_laguerre_step"]}
{"id": "C59", "title": "A problem posed backwards is answered with the motion traversed backwards", "statement": "Exchanging the two positions and toggling is_prograde asks for the same path in the opposite sense. The answer then starts with the opposite of the old final velocity and ends with the opposite of the old initial velocity, with the same iteration count, and raises the same exceptions. For gauss1809 this holds exactly when both positions are at the same distance from the attractor; for arora2013 and pan2016 it holds for positions at the same distance.", "quantifier": "all inputs with non-zero positions, tolerances, iteration budgets and clocks, for the ten solvers whose search is symmetric in the two positions (izzo2015 and thorne2004 outside planes containing the z axis)", "why_tests_cant": "relates pairs of runs over all geometries; no test of the repository ever solves a problem backwards", "anchors": ["src/lamberthub/utils/angles.py:get_transfer_angle", "src/lamberthub/utils/angles.py:get_orbit_normal_vector", "src/lamberthub/universal_solvers/izzo.py:izzo2015", "src/lamberthub/universal_solvers/gooding.py:vlamb", "src/lamberthub/p_solvers/gauss.py:gauss1809", "src/lamberthub/p_solvers/jiang.py:_reconstruct_velocities"]}
{"id": "C60", "title": "Every iteration takes exactly a step of the root-finding method it is meant to take", "statement": "For the equation T(x) = tof of each solver, one pass of the loop replaces x by the value prescribed by the named method: Householder's third-order step in izzo2015, Halley's step in gooding1990 (for the time and for its minimum) and arora2013, in mcelreath2025 the first of the third-order, Halley and Newton steps that stays within the bounds and otherwise a bisection towards the bound Newton's step points at, the zero of the chord in avanzini2008 and pan2016, and a slope that is the derivative at a nearby point in jiang2016 and delatorre2018. The step is stated with the derivatives of 1/F, not with the code's formulas.", "quantifier": "all geometries, times, iterates in the domain, tolerances and revolutions", "why_tests_cant": "a wrong coefficient in a step formula usually still converges, only slower or from fewer starting points; only an identity between the step and the derivatives of the equation pins the formula", "anchors": ["src/lamberthub/universal_solvers/izzo.py:_householder", "src/lamberthub/universal_solvers/gooding.py:_xlamb_iter", "src/lamberthub/universal_solvers/arora.py:arora2013", "src/lamberthub/universal_solvers/mcelreath.py:_solve_desired_x", "src/lamberthub/ecc_solvers/avanzini.py:_secant", "src/lamberthub/p_solvers/pan.py:_linear_bezier_estimate", "src/lamberthub/p_solvers/jiang.py:_numerical_derivative", "src/lamberthub/regularization/delatorre.py:_tof_derivative", "src/lamberthub/universal_solvers/der.py:_compute_minimum_time"]}
{"id": "C61", "title": "Every search starts inside its domain and on the same side as the solution", "statement": "The starting value of an iteration lies in the domain of the equation it iterates on, and in the same regime as the solution: for less than one revolution izzo2015 starts beyond -1 and on the same side of the ellipse of least energy (x = 0) and of the parabola (x = 1) as the wanted parameter, equal to them only if it is; gooding1990 starts beyond -1 with the sign of the wanted parameter; der2011 chooses the elliptic search exactly for ellipses and starts it on the side of the wanted parameter; mcelreath2025 starts on the branch of the solution and on its side of the minimum; with revolutions izzo2015 starts strictly between -1 and 1, and gooding1990's second start lies between -1 and 0 for times above that at x = 0 and between 0 and the minimum for shorter ones. arora2013's interpolations are exact at their knots, monotone and stay between them.", "quantifier": "all geometries, times of flight and directions", "why_tests_cant": "a start on the wrong side often still converges, and one outside the domain appears only for extreme times; sampling cannot cover the whole range of times", "anchors": ["src/lamberthub/universal_solvers/izzo.py:_initial_guess", "src/lamberthub/universal_solvers/gooding.py:xlamb", "src/lamberthub/universal_solvers/der.py:_find_path_parameter", "src/lamberthub/universal_solvers/arora.py:_get_x", "src/lamberthub/universal_solvers/arora.py:_get_gammas", "src/lamberthub/universal_solvers/arora.py:arora2013", "src/lamberthub/universal_solvers/mcelreath.py:_multi_revolution_initial_guesses"]}
{"id": "C62", "title": "negrete2024's circles, quadrature and series", "statement": "negrete2024 computes its moments by the trapezoidal rule on equally spaced points of a circle, and on a function with one (two) simple poles the quotient (the quadratic) of the moments is exact for any number of points from 2 (4) on. Its first circle lies between the singularities of the requested number of revolutions at a distance of 1/2, a refinement circle stays between the same ends, and the hyperbolic circle is sought exactly when the transfer is a hyperbola and has the root between its ends. Near zero its Stumpff functions are 20 terms of their series, within 2e-160. Claim: the first circle always exists and encloses the root.", "quantifier": "all geometries, times of flight, centres, radii, numbers of points and tolerances", "why_tests_cant": "a contour that misses the root or crosses a singularity still returns a number; the geometries for which the search for the hyperbolic contour can never succeed are a continuum that random tests with slow transfers do not touch", "anchors": ["src/lamberthub/universal_solvers/negrete.py:_find_z", "src/lamberthub/universal_solvers/negrete.py:_contour_integrals", "src/lamberthub/universal_solvers/negrete.py:_refinement_center", "src/lamberthub/universal_solvers/negrete.py:_refinement_radius", "src/lamberthub/universal_solvers/negrete.py:_hyperbolic_contour", "src/lamberthub/universal_solvers/negrete.py:_stumpff_series"]}
{"id": "C63", "title": "pan2016's search for a bracket of the argument of periapsis", "statement": "pan2016 samples 721 equally spaced angles strictly inside (-pi, pi) and returns the first of the 720 intervals whose residual is finite at both ends and zero at the left one or of opposite signs; it gives up exactly when none qualifies. The bracket has positive width below pi/300, and if the residual is defined and continuous on it, it contains an angle whose conic takes exactly the requested time.", "quantifier": "all residual functions, geometries and times of flight", "why_tests_cant": "a skipped, repeated or shifted interval only matters for residuals whose change of sign falls in it; a test sees one bracket of 720", "anchors": ["src/lamberthub/p_solvers/pan.py:_get_omega_brackets", "src/lamberthub/p_solvers/pan.py:_safe_tof_residual"]}
{"id": "C64", "title": "Auxiliary evaluations of the searches", "statement": "der2011's numerical derivatives on hyperbolas are the first and second derivative of its time of flight at points within the step of x; mcelreath2025's _tof_at_x is the time equation it iterates, on both axes; arora2013's guess with revolutions exists only for times above the least one found (up to atol), is the place of the minimum within atol of it and otherwise lies on the side of the minimum that belongs to the requested path.", "quantifier": "all parameters, geometries, times of flight, tolerances and external root finders that answer inside their interval", "why_tests_cant": "a wrong sign in a difference quotient or a swapped interval still lets most searches converge, only elsewhere or slower; tests see the final velocities", "anchors": ["src/lamberthub/universal_solvers/der.py:_hyperbolic_numerical_derivatives", "src/lamberthub/universal_solvers/mcelreath.py:_tof_at_x", "src/lamberthub/universal_solvers/arora.py:_get_multirev_k_guess"]}
{"id": "C65", "title": "Elements are recovered from the state", "statement": "Converting orbital elements to a state and back gives elements that describe the same position and velocity, with the same angles up to complete turns, normalised to [0, 2 pi) and [-pi, pi); undefined angles are zero and replaced by the longitude of periapsis, the argument of latitude or the true longitude. Converting a state to elements and back gives the state.", "quantifier": "all elements (ellipse, parabola, hyperbola; any inclination), all states with an orbital plane, all tolerances", "why_tests_cant": "a continuum of orbits with special cases on lower-dimensional sets (parabola, retrograde equatorial, circular) that sampling never hits", "anchors": ["src/lamberthub/utils/elements.py:rv2coe", "src/lamberthub/utils/elements.py:coe2rv", "src/lamberthub/utils/angles.py:E_to_nu", "src/lamberthub/utils/angles.py:H_to_nu"]}
{"id": "C66", "title": "Differences of mean anomalies are times of two-body motion", "statement": "For two true anomalies on one orbit, a body that leaves the state coe2rv gives for the first reaches the state coe2rv gives for the second after the difference of the mean anomalies kepler_from_nu returns, in units of sqrt(a^3/mu) on an ellipse, sqrt((-a)^3/mu) on a hyperbola and sqrt(p^3/mu)/2 on a parabola, without completing a turn; on an ellipse a body whose anomaly has to decrease arrives after that difference plus one turn.", "quantifier": "all gravitational parameters, parameters and eccentricities, all orientations, all pairs of true anomalies on the orbit", "why_tests_cant": "A test compares the mean anomaly with tabulated values at single points; that it measures the time of the motion is a statement about the solutions of the two-body equation for every orbit.", "anchors": ["src/lamberthub/utils/kepler.py:kepler_from_nu", "src/lamberthub/utils/elements.py:coe2rv"]}
{"id": "C67", "title": "Longer flights between the same positions: angular momentum decreases the short way and increases the long way", "statement": "Of two transfers of less than one revolution between the same positions in the same sense, the one that takes longer has strictly less angular momentum when they are flown the short way and strictly more when they are flown the long way. The answers of vallado2013, delatorre2018 and arora2013 to two requests, possibly from different solvers, are ordered in this way whenever the requested times differ by more than the tolerances of the two runs.", "quantifier": "all mu > 0, all pairs of positions with non-zero normal component along z, both directions, all pairs of flight times, all tolerances, budgets and clocks, all nine pairs of the three solvers", "why_tests_cant": "relates pairs of runs, across solvers, over a continuum of geometries and times; a solver that jumps to another branch for some times would still pass single-case tests", "anchors": ["src/lamberthub/universal_solvers/vallado.py:vallado2013", "src/lamberthub/regularization/delatorre.py:delatorre2018", "src/lamberthub/universal_solvers/arora.py:arora2013"]}
{"id": "C68", "title": "No answer has less energy than the minimum-energy ellipse", "statement": "Any Kepler orbit through two positions has specific energy at least -mu/s, where s is half the perimeter of the triangle formed by the positions and the attractor, and for every pair of positions and either direction some transfer of less than one revolution attains this bound. Hence no answer of thirteen of the fourteen solvers (all but gauss1809), wherever C11 places it on one orbit, has less energy: no solver can report an ellipse too small to reach both positions.", "quantifier": "all mu > 0, all non-collinear positions, all flight times, revolutions, flags, tolerances and budgets, every number of iterations; der2011 away from its near-parabolic branch, avanzini2008 outside the equatorial plane, pan2016 with a root finder that evaluates the function it returns a root of", "why_tests_cant": "the bound is on all answers, converged or not, and is reached only by one flight time per geometry", "anchors": ["src/lamberthub/universal_solvers/izzo.py:izzo2015", "src/lamberthub/universal_solvers/vallado.py:vallado2013", "src/lamberthub/ecc_solvers/avanzini.py:avanzini2008", "src/lamberthub/p_solvers/gauss.py:gauss1809"]}
{"id": "C69", "title": "The time of flight decides the kind of conic", "statement": "A transfer of less than one revolution is hyperbolic, parabolic or elliptic exactly as its time of flight is less than, equal to or more than Euler's time of the parabola between the two positions in the requested direction. The answers of vallado2013, delatorre2018 and arora2013 are of the kind the requested time decides whenever that time differs from the parabolic time by more than the tolerance of the run. jiang2016 returns a parabola exactly for the times its tolerances identify with the parabolic one, an ellipse for longer and a hyperbola for shorter ones; so does thorne2004 outside the tolerances.", "quantifier": "all mu > 0, all pairs of positions with non-zero normal component along z, both directions, all flight times, tolerances, budgets and clocks", "why_tests_cant": "the boundary is a surface in a continuum of geometries and times; tests sample a few points on either side", "anchors": ["src/lamberthub/universal_solvers/vallado.py:vallado2013", "src/lamberthub/regularization/delatorre.py:delatorre2018", "src/lamberthub/universal_solvers/arora.py:arora2013", "src/lamberthub/p_solvers/jiang.py:jiang2016", "src/lamberthub/series_solvers/thorne.py:thorne2004"]}
