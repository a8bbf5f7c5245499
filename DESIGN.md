# Formal model of lamberthub — design

## 1. Approach

The Python sources in `/repo/src/lamberthub` are transcribed function by
function into Gallina (`rocq/theories/M*.v`).  The model is written **once**,
over an abstract arithmetic `Num` (a record of operations without laws, file
`Num.v`), and is then used in two ways.

* *Generic theorems* are proved for every `N : Num`.  They do not use any law of
  arithmetic, hence they also hold for IEEE doubles with rounding, NaN,
  infinities and numba's `fastmath`.  This covers validation, exceptions,
  iteration counts, convergence tests, independence of flags and clocks.
* *Real-number theorems* are proved for the instance `XR` (file `XReal.v`): the
  real numbers of Coq's standard library extended with one undefined value
  `NaN`.  Division by zero, square roots and logarithms of negative numbers,
  `arccos` outside [-1,1] ... yield `NaN`, `NaN` propagates, and comparisons with
  `NaN` are false.  A theorem "if the solver returns finite velocities then ..."
  thus carries no hidden totality convention: `1/0` never is a number.
* `FloatNum.v` instantiates the same model with binary64 (`SpecFloat`, no
  axioms; elementary functions programmed in Coq).  `FloatExec.v` and
  `FloatRuns*.v` *run* it on the examples of the repository's own tests: tests of
  the fidelity of the model.  `Properties*F64.v` refute claims by such runs.

Python exceptions are values of `res`.  Unbounded `while` loops take fuel and
return the explicit outcome `OutOfFuel`.  Loops that stop when a float sum no
longer changes are modelled with `until_stable` : first stable term for floats,
the limit for `XR`.

`Spec*.v` contains the mathematics the properties are stated in (two-body
motion, conics, angles) and does not mention the model.  `Properties*.v` contain
the statements with their proofs or a call of the lemma that proves them, examples,
and `Print Assumptions`.

## 2. Trusted base

* Coq 8.16.1's kernel (and `vm_compute` for the runs of the float instance).
* The axioms of the standard library listed by the `Print Assumptions` beneath
  each theorem: `ClassicalDedekindReals.sig_forall_dec`,
  `ClassicalDedekindReals.sig_not_dec`,
  `FunctionalExtensionality.functional_extensionality_dep`, and
  `Classical_Prop.classic`.  Generic theorems and the theorems about the float
  instance are closed under the global context.  No axioms are added; Coquelicot
  is used as a library and adds none.
* The faithfulness of the transcription (every definition cites its lines).

### What is modelled

| file | source |
|---|---|
| `MApi`, `MAssertions`, `MInit` | arguments, validation, result tuples, `utils/assertions.py`, `__init__.py` (registries) |
| `MLinalg`, `MAngles`, `MStumpff`, `MKepler`, `MElements` | `linalg.py`, `utils/*.py` |
| `MGauss`, `MBattin`, `MJiang`, `MPan` | `p_solvers/*.py` |
| `MAvanzini` | `ecc_solvers/avanzini.py`, `ecc_solvers/utils.py` |
| `MGooding`, `MIzzo`, `MArora`, `MVallado`, `MDer`, `MNegrete`, `MMcelreath`, `MComplex` | `universal_solvers/*.py` (complex numbers as pairs) |
| `MThorne`, `MDelatorre` | `series_solvers/thorne.py`, `regularization/delatorre.py` |
| `MScipy` | the interface of `numpy.isclose`, `scipy.optimize.brentq`, `minimize_scalar`: parameters of the environment `env` |
| `MReport` | `scripts/generate_benchmark_report.py`: tables, ratios, the README replacement (number formatting, titles and the machine summary are not modelled) |

### What is not modelled

Float rounding in the `XR` theorems; infinities and signed zeros in `XR`
(infinities are merged with `NaN`); overflow; numba compilation and its
fall-back; numpy arrays that are not one dimensional; mutable aliasing;
non-boolean flags; the wall clock (an arbitrary function); the tests; the
command line of the benchmark script.

### Contracts for scipy

`brentq` is an arbitrary function of the environment.  Theorems that need to know
something about it assume one of

* `brentq_evaluates` (`OrbitXR`): if it returns, the function was evaluated there
  and gave a number;
* `brentq_brackets` (`ThorneRun`): if it returns, the result lies in the interval
  within the tolerance of a point where the function has not the same sign;
* `brentq_refuses`: it raises `ValueError` when the signs at both ends agree;
* `brentq_succeeds`: it returns when they differ;
* `brentq_monotone`, `brentq_refusals_fixed`: a larger budget keeps its answers and its
  `ValueError`s; `brentq_counts`: it reports at most the iterations it was given.

Environments that satisfy them are exhibited beside the theorems
(`brentq_left`, `brentq_end`, `brentq_at`, `scipy_one`, `no_scipy`).

## 3. Properties

| id | how |
|---|---|
| C01 | generic theorem: every entry point begins with the validation model |
| C02 | refuted generically: `r1` is checked twice, `r2` never |
| C03 | refuted: `izzo2015` has no `full_output` and does not validate |
| C04 | generic: four solvers reject every `M>0`; `gauss1809`, `battin1984`, `vallado2013` ignore `M` (refuted) |
| C05 | list computations plus C04 |
| C06 | `XR`: collinear vectors give exactly 0 or pi; guarded solvers raise; unguarded ones refuted |
| C07, C08, C09, C10 | `XR` theorems on the angle functions; polar planes and retrograde equatorial planes refuted |
| C11, C12 | one algebraic lemma on velocities a(r2-r1) +- b r_i/|r_i| and one instance per solver; `PropertiesBattinDir` bounds battin1984's second continued fraction to fix the sign of its semi-latus rectum |
| C13-C17 | universal-variable Kepler motion constructed with Coquelicot, residual tests give the duration |
| C18-C21 | generic loop lemmas (induction on the iteration count); `PropertiesBudgetMore` for the solvers that call `brentq` |
| C22, C23, C24, C25, C26 | `XR` theorems |
| C27 | Coquelicot derivatives; mcelreath2025 in `McelreathDeriv`, both axes; arora2013 in `PropertiesAroraDeriv` |
| C28 | invariants by induction for arbitrary residual functions; for der2011 and thorne2004 monotone time functions give the signs at the ends of the interval handed to the root finder |
| C29 | monotonicity of the time of flight in the semi-major axis; refuted near the minimum energy orbit |
| C30, C31 | relational theorems on `XR` |
| C32 | refuted by an equatorial transfer |
| C33 | `XR` algebra |
| C34 | induction over the matrix filling loops |
| C35 | minimum-time search of each solver bounded by `MinTime`; refuted for `arora2013` (binary64 run) |
| C36 | strict monotonicity |
| C37 | refuted (`f_dot` uses 1/r1 twice; parabola leaves a variable unset) |
| C38, C39 | list and string inductions |
| C40 | `XR` comparison, refuted for `pan2016` |
| C41, C42 | `XR`: stopping test of the continued fraction; chord-and-radius velocities are an orbit; `PropertiesTransferMore`: any two states of one orbit have that form, hence avanzini2008 and gauss1809 |
| C43, C44, C45 | the solver's equation is Lambert's equation (`JiangXR`, `ThorneXR`), monotonicity gives the bracket |
| C46, C47 | the path parameter `x` is the energy, the solver's time is `rate * T` of the fg pair it rebuilds (`GoodingXR`, `DerXR`) |
| C48 | `MinTime`: the minimum equation is `-T'` up to a positive factor; refuted on the long way |
| C49 | `MinTime` and `XParam`: T falls and then rises in `x`, and every solution has a path parameter |
| C50 | `ComplexXR`: on the real axis the complex code computes S2, S3, y and the time of the universal-variable equation; `psi` and the half-angle variable of `LambertZ` correspond one to one; the quadratic over Coquelicot's complex field |
| C51 | `McelreathXR`: on the two axes the complex code computes the universal-variable time; `names` relates x to the half-angle variable of `LambertZ` |
| C52 | `PropertiesPaths`: the brackets of delatorre2018 and the invariant of gooding1990's iteration keep the root on one side of the minimum; `fg_moment` turns the side into an order of angular momenta; `PropertiesNegretePaths`: negrete2024 sorts its two roots, and the angular momentum is monotone in the root over the range of M revolutions |
| C53 | `PropertiesTermination` (every `Num`): more fuel never changes an outcome, loops bounded by `maxiter`; `PropertiesTerminationXR`: each bracket search passes a computed bound; refuted for `delatorre2018`, and for `vallado2013` and `pan2016` (`PropertiesTerminationVallado`: the inner loop has a fixed point) |
| C54 | `PropertiesExceptions`: a predicate on raised exceptions propagated through every function of every solver; `PropertiesExceptionsXR`: errors that do leave |
| C55 | `KeplerTime` (Kepler's equation on an ellipse or hyperbola gives a `lambert_solution`), `PanTime` (pan's anomalies, wrapped mean anomaly, conic elements), `PropertiesPan` |
| C56 | `KeplerTime` (also Barker's equation on a parabola), `PropertiesAvanziniTime` (the code's three anomalies, its Kepler time and the transfer) |
| C57 | `MirrorXR` (sign changes of y and z, and what the vector functions do under them), `PropertiesMirror` (the solvers that use the transfer angle and the normal), `PropertiesMirrorSense` (izzo2015 and thorne2004, which look at the sign of the normal's z component), `PropertiesMirrorAll` (avanzini2008 and the theorems) |
| C58 | `PropertiesLaguerre` (der2011's `_laguerre_step` on polynomials with two distinct zeros) |
| C59 | `ReverseXR` (the vector functions with the positions exchanged), `PropertiesReverse` (the searches depend on symmetric quantities; velocities), `PropertiesReverseAll` (theorems; gauss1809), `PropertiesReverseMore` (avanzini2008: the anomalies of the reversed motion are the opposite ones; arora2013), `PropertiesReversePan` (pan2016) |
| C60 | `SpecSteps` (Householder's methods defined with the derivatives of `1/F`; their closed forms), `PropertiesSteps` (theorems), `PropertiesDerFallback` (der2011's fallback goes away from the root) |
| C61 | `MonoX` (without revolutions the time decreases with the path parameter; its values at 0 and 1), `PropertiesStart` (theorems), `PropertiesAroraLong` (arora2013's rational starts; refusal of long times), `PropertiesStartMce` (mcelreath2025) |
| C62 | `PropertiesContour` (negrete2024: trapezoidal rule and its exactness on poles, position of the circles, regime, Stumpff series; refusal of hyperbolic transfers) |
| C63 | `PropertiesPanBracket` (pan2016: the sampled angles, the first qualifying interval, a solution inside it) |
| C64 | `PropertiesAux` (der2011's difference quotients, mcelreath2025's second time function, arora2013's guess with revolutions; also the second starter of gooding1990, C61) |
| C65 | the quantities `rv2coe` forms on a conic are computed in closed form; half-angle identities give the true anomaly from the position-velocity products |
| C66 | the eccentric (hyperbolic) anomalies that `kepler_from_nu` computes satisfy the defining relations, and the explicit Kepler motion through them solves the two-body equation |
| C67 | `PropertiesLonger`: the time and the Lagrange parameter are both monotone in the universal variable (`Gz_increasing`, `C0_decreasing`); solvers through C13, C14, C15 |
| C68 | `PropertiesEnergy`: distance of the empty focus from a position is `2a - r` (`focal_distance`), then the triangle inequality; attained by the orbit of izzo2015's `x = 0`; solvers through C11 |
| C69 | `PropertiesConic`: Euler's time is the time of the universal variable zero (`tz_euler`); time and energy are monotone in that variable; solvers through C13, C14, C15. `PropertiesConicJiang`: jiang2016 and thorne2004 by the branch they take |
