{"id": "C01", "title": "Guarded arithmetic helpers keep their promise", "statement": "make_positive returns a strictly positive number and leaves already safe values alone; make_bounded returns a value strictly inside the requested interval whenever the interval is wider than the guard; ratio(a,b) never divides by zero, has the sign of a/b, and equals a/b up to the stated perturbation; in double precision ratio(a,b) is bit-for-bit a/b for every normal b away from the underflow threshold.", "quantifier": "every real input, and every IEEE binary64 input (including zeros, subnormals, infinities, NaN as an explicit case)", "why_tests_cant": "The input space is all doubles; the interesting cases are single points (zero, vmin, vmax, underflow) that sampling misses.", "anchors": ["src/phoebus_utils/robust.hpp: make_positive, make_bounded, sgn, ratio"]}
{"id": "C02", "title": "Bracketed root finders return an enclosed root", "statement": "Whenever bisect, regula_falsi or itp report success for a continuous residual, the value returned lies in [a,b] and within the requested tolerance of an actual zero, and the residual was only evaluated inside [a,b]; the inputs excluded are those with a zero exactly at the (refined) left end together with a positive value (bisect), a non-negative value (itp) or a second zero (regula_falsi) at b. In binary64 bisect returns a point between two doubles of the bracket at which the residual has opposite signs and that are not farther apart than the tolerance. When nothing is bracketed all three report failure and return midpoint or guess, or abort without a status pointer. Limits, each proved as a counterexample: bisect loses a zero exactly at the left end; secant can report success far from any zero; in binary64 the sign test can pass for two values of the same sign because their product underflows.", "quantifier": "every continuous residual function, every bracket, tolerance, initial guess and iteration budget", "why_tests_cant": "Ranges over all continuous functions; a unit test tries a handful of closed forms.", "anchors": ["src/phoebus_utils/root_find.hpp: RootFind::bisect, regula_falsi, itp, refine_bracket, check_bracket"]}
{"id": "C03", "title": "Root finders terminate within their iteration budget and report exhaustion", "statement": "Every call performs at most max_iter - iteration_count residual evaluations inside the loop; bisect halves the bracket each step, so it succeeds after at most log2((b-a)/tol)+1 steps when the budget allows; success is reported exactly when the counter did not reach max_iter.", "quantifier": "every residual function, bracket, tolerance, previous history of calls on the same solver object", "why_tests_cant": "Termination is a statement about all residuals including adversarial ones; the counter is shared between calls so histories matter.", "anchors": ["src/phoebus_utils/root_find.hpp: RootFind, iteration_count, max_iter"]}
{"id": "C04", "title": "When root finders read indeterminate or NaN data", "statement": "bisect, regula_falsi and itp never read an uninitialised variable, whatever the residual, bracket and guess (bisect and regula_falsi in any arithmetic, IEEE included); secant reads one exactly when its guess lies outside the bracket. Limits, each proved as a counterexample: secant does so for a bracketed continuous residual; a residual that is always NaN is reported by bisect as a converged root.", "quantifier": "every residual function, bracket and guess, in IEEE arithmetic", "why_tests_cant": "Uninitialised reads usually look like ordinary numbers in a test; NaN paths need a specific failing input.", "anchors": ["src/phoebus_utils/root_find.hpp: secant, check_bracket, bisect"]}
{"id": "C05", "title": "Slope-limited reconstruction creates no new extrema", "statement": "Piecewise constant and piecewise linear reconstruction return face states that lie between the neighbouring cell averages, keep monotone data monotone, give the cell average at extrema, and reproduce constant and (smooth) linear profiles exactly; reversing the stencil swaps the left and right states. In binary64, with every rounding counted, the linear face states of finite averages up to 2^1020 are finite and still lie exactly between the neighbouring averages (so a floor that holds in three cells holds on the faces), and a NaN in the stencil is never masked. Limits, each proved as a counterexample: averages near the largest double give NaN faces.", "quantifier": "every stencil of real cell averages", "why_tests_cant": "Must hold for all triples of values, including ties and sign changes.", "anchors": ["src/reconstruction.hpp: PiecewiseConstant, PiecewiseLinear, mc"]}
{"id": "C06", "title": "WENO5-Z reconstruction is a blend of consistent stencils", "statement": "Each face state is alpha times a convex combination (positive weights, sum one) of the three parabolas through the neighbouring averages plus 1 - alpha times the limited linear value, with 0 < alpha <= 1.126; constant and linear data are reproduced exactly; mirror-image stencils give mirror-image states. In binary64, for every stencil of finite averages up to 2^80, no division by zero, overflow or NaN occurs and both face states are finite. Limits, each proved as a counterexample: alpha exceeds one for some stencils, so the blend is not convex; monotone data can be overshot; averages beyond 2^512 can give NaN faces.", "quantifier": "every five-point stencil of real cell averages", "why_tests_cant": "Division by data-dependent smoothness indicators makes the safe domain invisible to sampling.", "anchors": ["src/reconstruction.hpp: WENO5Z"]}
{"id": "C07", "title": "MP5 reconstruction is monotonicity preserving", "statement": "The MP5 face value is the unlimited fifth-order value when that value is inside the monotonicity-preserving interval (up to an absolute threshold of 1e-12 on the product of the distances), and otherwise that value clamped to an interval containing the cell average; on monotone data it leaves the range of the adjacent averages by at most 1e-6; linear data are reproduced; the scheme is odd and mirror symmetric. In binary64 every stencil of finite averages up to 2^1000 gives finite face states. Limits, each proved as a counterexample: because the threshold is absolute the limiter is not independent of the units of the data and can return a negative value for non-negative monotone data.", "quantifier": "every five-point stencil of real cell averages", "why_tests_cant": "The guard is an absolute tolerance, so whether limiting happens depends on the scale of the data, which tests with O(1) data never reveal.", "anchors": ["src/reconstruction.hpp: mp5_subcalc, MP5, Median"]}
{"id": "C08", "title": "Flux limiter functions stay in the TVD region", "statement": "koren, mc_lim, minmod and superbee vanish for opposite-sign slopes, stay within their TVD bounds and return one on equal slopes (as does barth_jespersen); mc, the slope used by reconstruction, is the smallest of the centred and the scaled one-sided slopes with their common sign, zero otherwise; the multidimensional limiter phifunc lies in [0,1] and keeps increments in the allowed range. Limits, each proved as a counterexample: barth_jespersen and overbee do not vanish for opposite-sign slopes, overbee returns two on equal slopes.", "quantifier": "every pair of real one-sided differences", "why_tests_cant": "All pairs of reals, including zero denominators.", "anchors": ["src/reconstruction.hpp: koren, mc_lim, minmod, barth_jespersen, superbee, overbee, phifunc"]}
{"id": "C09", "title": "Small matrix inverses and determinants are correct", "statement": "Determinant and the four-by-four determinant are the true determinants of every matrix; matrixInverse4x4 and SolveAxb2x2 return the two-sided inverse and the solution for every nonsingular input; matrixInverse3x3 returns inverse and determinant of every nonsingular symmetric matrix (the only kind it is called with). Limits, each proved as a counterexample: for a non-symmetric matrix matrixInverse3x3 divides by something other than the determinant.", "quantifier": "every real 3x3, 4x4 and 2x2 matrix", "why_tests_cant": "A polynomial identity in up to 16 unknowns.", "anchors": ["src/phoebus_utils/linear_algebra.hpp: Determinant, matrixInverse3x3, adjoint, determinant, matrixInverse4x4, SolveAxb2x2"]}
{"id": "C10", "title": "Every coordinate system supplies a consistent 3+1 metric", "statement": "For Minkowski, boosted Minkowski, spherical Minkowski, FLRW, Snake, Inchworm, Kerr-Schild and the monopole metric, at every point of the chart that is not a coordinate singularity, the four-metric equals the ADM composition of lapse, shift and spatial metric, the four- and three-inverse returned are true inverses, DetGamma squared is the determinant of the spatial metric and DetG equals lapse times DetGamma. Limits, each proved as a counterexample: lapse, three-metric and inverse of BoyerLindquist do not belong to its four-metric (a = 0, r = 4).", "quantifier": "every coordinate point in the chart and every value of the run-time parameters (spin, boost velocity, expansion rate, amplitude)", "why_tests_cant": "Analytic identities over a continuum of points and parameters; tests check a few points with a tolerance.", "anchors": ["src/geometry/minkowski.hpp", "src/geometry/boosted_minkowski.hpp", "src/geometry/spherical_minkowski.hpp", "src/geometry/boyer_lindquist.hpp", "src/geometry/spherical_kerr_schild.hpp", "src/geometry/flrw.hpp", "src/geometry/snake.hpp", "src/geometry/inchworm.hpp"]}
{"id": "C11", "title": "Analytic metric derivatives are the derivatives of the metric", "statement": "For Minkowski, boosted Minkowski, spherical Minkowski (X1 >= 0), FLRW, Snake, Inchworm, Kerr-Schild (X1 > 0, every spin) and the monopole metric (given exact profile derivatives), MetricDerivative is the partial derivative of SpacetimeMetric with respect to each coordinate and GradLnAlpha is the gradient of the logarithm of the lapse. Limits, each proved as a counterexample: the sign is wrong for SphericalMinkowski at every X1 < 0; for BoyerLindquist MetricDerivative differs from the derivative of SpacetimeMetric at every point and spin (its entries are derivatives of the inverse metric, apart from the polar derivatives of the tt and t-phi components, which are also too small by the factor r^2 - 2r + a^2).", "quantifier": "every coordinate point in the chart, every index triple and every run-time parameter", "why_tests_cant": "A claim about limits at each point of a continuum, where a wrong term can vanish on the sampled points (equator, axis, zero spin).", "anchors": ["src/geometry/spherical_kerr_schild.hpp: MetricDerivative, GradLnAlpha", "src/geometry/boyer_lindquist.hpp", "src/geometry/flrw.hpp", "src/geometry/snake.hpp", "src/geometry/inchworm.hpp", "src/geometry/spherical_minkowski.hpp"]}
{"id": "C12", "title": "Connection coefficients are the Christoffel symbols of the metric", "statement": "ConnectionCoefficient returns, with the documented index order, the Christoffel symbols of the first kind assembled from the metric derivative, symmetric in the last two slots and satisfying metric compatibility.", "quantifier": "every geometry and point", "why_tests_cant": "Symmetry and compatibility over all 64 components and all points.", "anchors": ["src/geometry/geometry_utils.hpp: SetConnectionCoeffFromMetricDerivs", "src/geometry/analytic_system.hpp"]}
{"id": "C13", "title": "Coordinate modification preserves geometry", "statement": "Wrapping a geometry in a coordinate transformation whose Jacobians are inverse to each other pulls the metric back covariantly: the 3+1 quantities stay consistent, inverses remain inverses, determinants scale with the Jacobian, lapse and Cartesian coordinates are unchanged. The McKinney-Gammie-Ryan and spherical-to-Cartesian maps meet this condition on the grid and their Jacobians are the derivatives of the maps; FMKS and the Cartesian monopole metric are therefore consistent. The spatial metric derivatives and lapse gradient are second-order accurate with an explicit constant; the time derivative of a static system is zero. Limits, each proved as a counterexample: for a time-dependent base system the time derivatives are evaluated at the wrong point; SphericalToCartesian::GetCoordsAndDerivatives does not apply the Jacobian.", "quantifier": "every base geometry, every transformation whose Jacobians are mutually inverse, every point", "why_tests_cant": "Quantifies over all base systems and transformations.", "anchors": ["src/geometry/modified_system.hpp: Modified", "src/geometry/mckinney_gammie_ryan.hpp", "src/geometry/sph2cart.hpp"]}
{"id": "C14", "title": "Cached geometry is a transparent cache", "statement": "Every metric quantity (lapse, shift, metrics, inverses, determinants) read from a cached geometry at a cell centre or face equals what the analytic system returns there, the derivatives at cell centres are those of the analytic system, or finite differences lying between its extreme values over the cell, interpolated reads agree at cell centres and lie between the neighbours elsewhere; distinct components never collide in storage and the result does not depend on the order of the parallel stores. Derivatives at faces (uninitialised index) are outside the claim. Limits, each proved as a counterexample: Coords returns components shifted by one; off-grid SpacetimeMetricInverse reads the lapse of block 0.", "quantifier": "every base system, every cell, location and component, axisymmetric or not, time dependent or not", "why_tests_cant": "An off-by-one in packing hides whenever two components happen to agree (Cartesian tests).", "anchors": ["src/geometry/cached_system.hpp: Cached", "src/geometry/geometry_utils.hpp: SetGeometryDefault, Flatten2, SymSize"]}
{"id": "C15", "title": "Orthonormal tetrads are orthonormal and invertible", "statement": "For every Lorentzian metric and timelike observer, the frame built with the default trial vector (the only one phoebus passes), with a spatial trial vector when the spatial metric is diagonal, or with any trial vector whose candidates are independent, satisfies e_a . e_b = diag(-1,1,1,1); transforming a vector or covector to the tetrad and back returns it unchanged, inner products become special-relativistic, and the observer is at rest. Limits, each proved as a counterexample: a general trial vector, even a spacelike one orthogonal to the observer, can make the construction degenerate.", "quantifier": "every Lorentzian metric and admissible observer/trial vectors", "why_tests_cant": "Holds for all metrics; numerical tests only see a tolerance at sample metrics.", "anchors": ["src/geometry/tetrads.hpp: Tetrads"]}
{"id": "C16", "title": "Four-velocity normalisation", "statement": "The four-velocity and Lorentz factor computed from the primitive velocity satisfy g(u,u) = -1 and W >= 1, and the three-velocity recovered from the four-velocity equals the one supplied.", "quantifier": "every positive-definite spatial metric, lapse > 0, shift and primitive velocity", "why_tests_cant": "A polynomial identity over ten metric components and three velocities.", "anchors": ["src/phoebus_utils/relativity_utils.hpp: phoebus::GetLorentzFactor, GetFourVelocity"]}
{"id": "C17", "title": "Conserved variables are the stress-energy of ideal GRMHD", "statement": "prim2con produces, in both formulations, densitised rest mass, energy, momentum and magnetic densities that equal the corresponding components of the ideal-MHD stress-energy tensor and dual field tensor; the flux routine returns the matching spatial components, and in the Valencia formulation the face state equals the conserved state of p2c; a reconstructed state outside the density, energy and pressure limits is treated as the nearest state that obeys them. In the covariant formulation the energy density of the face state differs from it by exactly sqrt(gamma) (alpha - 1) b^0 b_0. Limits, each proved as a counterexample: that difference is not zero in general; a reconstructed velocity above the Lorentz-factor ceiling is not treated as the state at the ceiling, but as a slower one (its Lorentz factor W becomes W / sqrt(W^2 - ceiling^2 + 1), below 3/2 once W is sqrt 2 times the ceiling).", "quantifier": "every metric, every primitive state with rho > 0, every magnetic field", "why_tests_cant": "An identity between two independently coded tensor expressions, over all states.", "anchors": ["src/fluid/prim2con.hpp: p2c", "src/fluid/riemann.hpp: FluxState::prim_to_flux", "src/fluid/tmunu.hpp"]}
{"id": "C18", "title": "Primitive-conserved-primitive round trip", "statement": "For every physical primitive state whose energy density is at least EPS, the conserved state computed by p2c makes the con2prim residual vanish at mu = 1/(hW), and the inversion formulas return exactly the original primitives there; conversely every root at which no limiter acts is a preimage of the conserved state. For every conserved state, physical or not, the inversion ends normally with mu in [0,1] and a root exists; for an ideal gas with 1 <= Gamma <= 2 it is the only one, floors and ceilings included, so a search that ends before its iteration limit finds 1/(hW) to within the tolerance and the primitives converge to the original ones as the tolerance goes to zero; for any causal equation of state there is at most one root at which no limiter acts. Limits, each proved as a counterexample: below energy density EPS the residual does not vanish at the true solution; a search stopped by the iteration limit is reported as success.", "quantifier": "every metric, every primitive state within floors and ceilings, every magnetic field and every thermodynamically consistent equation of state", "why_tests_cant": "The round trip goes through a root solve; tests use one equation of state and a few states.", "anchors": ["src/fluid/con2prim_robust.hpp: Residual, ConToPrim::Solve", "src/fluid/prim2con.hpp: p2c"]}
{"id": "C19", "title": "Approximate Riemann solvers are consistent and upwind", "statement": "LLF and HLL fluxes reduce to the physical flux for equal states, are antisymmetric under mirror reflection, equal the upwind flux when all wave speeds have one sign, and the intermediate HLL state is a convex combination preserving conservation.", "quantifier": "every pair of states, fluxes and signal speeds", "why_tests_cant": "All pairs of states and speed orderings, including degenerate speeds.", "anchors": ["src/fluid/riemann.hpp: llf, hll, FluxState"]}
{"id": "C20", "title": "Signal speeds bound the fluid motion and respect causality", "statement": "The fast-magnetosonic speed satisfies 0 <= c^2 < 1; the characteristic speeds at faces always bracket the velocity with which mass is carried and, for states whose Lorentz factor is within its ceiling (density, energy and pressure moved into their limits), every front up to the fast speed; they are the fast fronts themselves and not faster than light when no numerical guard acts. The cell speeds used for the CFL condition bound the fluid and every such front and are at most the coordinate speed of light. Limits, each proved as a counterexample: where the guard on the radicand acts (g^dd below EPS) a face speed can exceed that of light.", "quantifier": "every physical state and positive-definite metric", "why_tests_cant": "Inequalities with square roots over a continuum of states.", "anchors": ["src/fluid/riemann.hpp: FluxState::prim_to_flux", "src/fluid/fluid.cpp: EstimateTimestepBlock"]}
{"id": "C21", "title": "What the Lorentz-factor and energy ceilings guarantee", "statement": "States inside the limits are unchanged by every limiter. The Lorentz factor used for fluxes never exceeds gamma_max. con2prim_robust stores a specific energy at most e_max always, and a velocity below gamma_max whenever its velocity ceiling did not act. The fixup clamp gives a velocity within the ceiling for every gamma_max >= sqrt 2. Limits, each proved as a counterexample: a face velocity above the ceiling gets a Lorentz factor strictly below it, not the ceiling; where the con2prim ceiling acts the stored velocity exceeds the one it was limited to, and can exceed gamma_max; below sqrt 2 the fixup clamp can end above the ceiling; the energy ceiling of ApplyFloors does not lower the energy.", "quantifier": "every primitive state, metric and ceiling pair with gamma_max >= 1", "why_tests_cant": "Requires a state above the ceiling with specific gamma_max; the error can be hidden for large gamma_max.", "anchors": ["src/fixup/fixup.cpp: ApplyFloorsImpl", "src/fixup/fixup_c2p.cpp", "src/fixup/fixup_src.cpp", "src/fixup/fixup.hpp: Ceilings"]}
{"id": "C22", "title": "What the density and energy floors guarantee", "statement": "GetFloors returns the documented profile for each floor type, never below the minima of the equation of state. con2prim_robust never stores a density or specific energy below the scaled floors. ApplyFloors leaves cells above the floors unchanged, adds mass and energy exactly sufficient to lift a cell to them, enters them into the conserved variables as mass and energy at rest in the Eulerian frame, and ends with a density at least the floor unless its inversion fails. With magnetic floors on, a cell left alone satisfies b^2 <= bsqorho_max rho, b^2 <= bsqou_max u and u <= e_max rho, and what is added elsewhere suffices for all three; temperature, pressure and bulk modulus are recomputed wherever a limit acted. Limits, each proved as a counterexample: the field strength compared with the limits is B^2/W^2 + (B.u)^2 instead of b^2, so mass is added to moving cells within the limits; ExpX1RhoU reads an argument callers leave uninitialised; with a magnetic field B^2/2 of energy is added on top; dense cells are left below the specific energy floor; after a failed inversion the cell holds only the increment.", "quantifier": "every primitive state, coordinate and floor configuration", "why_tests_cant": "Includes the rarely executed failure path.", "anchors": ["src/fixup/fixup.hpp: Floors::GetFloors", "src/fixup/fixup.cpp: ApplyFloorsImpl"]}
{"id": "C23", "title": "Failed-cell repair uses only good neighbours", "statement": "Cells whose inversion (fluid, radiation or source update) failed are replaced by the average over the neighbours that succeeded, so the result lies between the neighbours' extremes and depends neither on data of failed cells nor on the order and interleaving in which failed cells are visited; with no valid neighbour (or interpolation off) the floor values are used. The velocity obeys the Lorentz-factor clamp, the radiation repair limits the flux factor, temperature and pressure are those of the equation of state at the repaired density and energy, and the conserved fluid variables are those of the repaired primitives; so are the radiation moments whenever the velocity clamp does not act. Limits, each proved as a counterexample: failed data that is NaN or infinite does enter in binary64 (the mask is a multiplication) and makes the result depend on the order; where the velocity clamp acts the radiation moments left behind belong to another velocity; the repair after a failed source update computes the flux factor but can leave it at 2.", "quantifier": "every failure mask, every field of values, every visiting order, 1D/2D/3D", "why_tests_cant": "Depends on execution schedule and on all failure patterns.", "anchors": ["src/fixup/fixup_c2p.cpp: ConservedToPrimitiveFixupImpl", "src/fixup/fixup_src.cpp", "src/fixup/fixup_radc2p.cpp"]}
{"id": "C24", "title": "Flux fixes at boundaries enforce the boundary condition", "statement": "At outflow boundaries the mass flux never enters the domain and outgoing mass is unaffected; at reflecting walls the fluxes of mass and energy vanish and on the polar axis those of mass, energy, momentum and magnetic field; every other flux is untouched, except the x2 magnetic field in the ghost rows next to the axis; the result does not depend on the loop order; a block sealed or open only to outflow never gains mass. Limits, each proved as a counterexample: on the axis the second radiation-flux component is not stopped; at outflow faces composition can enter where the mass flux is zero.", "quantifier": "every flux field, block position and boundary selection", "why_tests_cant": "All sign patterns of fluxes at all faces.", "anchors": ["src/fixup/fixup.cpp: FixFluxes"]}
{"id": "C25", "title": "Net-field controller", "statement": "With steps no longer than the cadence and no start later than one cadence after the start time, whatever the partitions, stages, interleaving of the task lists, measurements and other physics: the controls change only in the first stage at scheduled times, one cadence per update, and every reduction posted is awaited. The field added is a multiple of the curl of a potential confined to the inside of a hyperboloid through the horizon, so it is divergence free; if every partition removes the probe before any updates the controls, the only lasting change is the control step. A rising rate rises by between 3/4 and 4/3 of its magnitude. Limits, each proved as a counterexample: reductions stay pending after a late restart or a long step; std::clamp is called with lo > hi whenever the rate must fall; the rate never settles; with several partitions the probe can stay in the field.", "quantifier": "every sequence of stages and cycles, all parameter values", "why_tests_cant": "A history property of a multi-stage driver.", "anchors": ["src/fixup/fixup_netfield.cpp: NetFieldStartReduce, NetFieldCheckReduce, NetFieldUpdate"]}
{"id": "C26", "title": "Interpolation reproduces data and stays within it", "statement": "Linear interpolation on a uniform grid returns the tabulated value at nodes, is exact for affine data, and lies between the two bracketing values inside the table; the neighbour index is always valid.", "quantifier": "every table, grid and query point", "why_tests_cant": "Includes all boundary and out-of-range queries.", "anchors": ["src/phoebus_utils/phoebus_interpolation.hpp"]}
{"id": "C27", "title": "Tracer particles follow the fluid", "statement": "For a tracer in the first block of its pack in three dimensions, in every geometry: the velocity used is u^i/u^0 = alpha v^i - beta^i of the interpolated state; the advection update is a second-order Runge-Kutta step, with an error constant uniform over velocity fields; stored quantities lie between the neighbouring zones; stored velocity, magnetic field and geometry are right. Limits, each proved as a counterexample: tracers in other blocks are moved with block 0's velocity; the destination block is computed from the old position; Ye (also inside the entropy) is always 0; the Bernoulli number has the wrong sign of u_t and an energy density for a specific energy.", "quantifier": "every velocity field, geometry and tracer position", "why_tests_cant": "All positions and fields.", "anchors": ["src/tracers/tracers.cpp: AdvectTracers, FillTracers", "src/tracers/tracers.hpp: tracers_rhs"]}
{"id": "C28", "title": "M1 closure is a valid Eddington closure", "statement": "For every flux factor in [0,1] the Eddington factor lies in [25/81, 1] with limits 1/3 and 1, and is at least xi^2 for xi <= 0.64; for every metric and fluid velocity below the cap the closure tensor is transverse and traceless, vanishes in the thick limit and is the beam tensor in the free-streaming limit; the conserved momentum and pressure are the Eulerian projections of the radiation tensor; the closure iteration stays in [0,1]. Limits, each proved as a counterexample: the factor is below 1/3 for flux factors below 1/2 and below xi^2 above 0.65; the conserved energy uses W^2 v.v.Pi where the projection has v.v.Pi; the flux angle is never solved for; the number flux uses the covariant flux.", "quantifier": "every flux factor in [0,1], every metric and fluid velocity", "why_tests_cant": "A continuum of flux factors and frames.", "anchors": ["src/radiation/closure.hpp", "src/radiation/closure_m1.hpp"]}
{"id": "C29", "title": "Radiation conserved-primitive transforms are inverse", "statement": "Converting comoving radiation moments to conserved moments and back, and the other way round, returns the same moments whenever the two-by-two system is regular: always for the Eddington closure, for M1 when W^2 <= 2.3; physical states report success and superluminal fluxes are repaired. Limits, each proved as a counterexample: the system is singular for an M1 state at v = 4/5; negative J passes the robust branch unchanged; velocities above the cap; the number_conserve variant is right only if the pressure has no component along the motion.", "quantifier": "every metric, fluid velocity, moments and closure shear tensor", "why_tests_cant": "A linear-algebra identity with a data-dependent matrix.", "anchors": ["src/radiation/closure.hpp: Prim2Con, Con2Prim"]}
{"id": "C30", "title": "Radiation-matter exchange of energy, momentum and lepton number", "statement": "Whenever the source solver succeeds, no bound of the fluid inversion is used and no species is reset, radiation plus matter keeps its energy and momentum, species by species, for any number of species (and only the radiation changes when the fluid is not to be updated); a successful temperature solve balances the energies, a successful fourd solve gives the radiation exactly what it takes from the fluid and meets its tolerance. Optically thin cooling removes exactly the emitted momentum and lepton number in every metric; the energy it removes is (alpha - beta.v) times the energy emitted, so it is right exactly when nothing is emitted or alpha - beta.v = 1. The light bulb deposits W (alpha - beta.v)/alpha times the energy and W/alpha times the momentum of its heating rate, right exactly when those factors are one. The fourd source is the four-force plus an exactly given error that vanishes when scattering equals absorption and the spatial metric is diagonal. Limits, each proved as a counterexample: an unsuccessful solve still takes dE from the fluid; a reset to floors and the energy ceiling create or destroy energy; retries after exhausted iterations always fail; the step-size rescue never happens; fourd uses absorption for scattering and lowers the wrong velocity component; cooling with lapse 2 takes twice the energy; the light bulb in flat space is off by the Lorentz factor.", "quantifier": "every opacity, time step, state and source update strategy", "why_tests_cant": "Must hold for the converged and failed implicit solves alike.", "anchors": ["src/radiation/moments_source.cpp", "src/radiation/radiation.cpp: ApplyRadiationFourForce"]}
{"id": "C31", "title": "Linear radiation transport source update is a stable implicit step", "statement": "For closure tensors without component along the motion (Eddington closure, or matter at rest) the implicit update of the comoving moments is the exact and only backward-Euler solution of the coupling to the matter four-force, keeps J >= 0 and tends to local equilibrium with explicit rates as the optical depth grows. Limits, each proved as a counterexample: the updated conserved energy can be negative (Eddington, v = 4/5); with the M1 tensor of a beam J becomes negative and absorption increases the momentum.", "quantifier": "every opacity >= 0, time step >= 0 and initial moments", "why_tests_cant": "Unbounded stiffness ratios.", "anchors": ["src/radiation/moments_source.cpp", "src/radiation/closure_m1.hpp: LinearSourceUpdate"]}
{"id": "C32", "title": "Monopole gravity solver obeys its constraint equations", "statement": "The metric used elsewhere is the areal one of the monopole solver; the integrated equations hold exactly when the Hamiltonian and momentum constraints hold; each lapse row is the central difference of the maximal slicing condition with the regular centre and Robin outer rows; the sweeps solve the system uniquely, and under the energy condition 3K^2 + 8 pi (rho + S) >= 0 on a grid resolving a the lapse lies in (0,1] and grows outwards; shift and da/dt follow from the gauge; interpolation is exact on quadratics; the matter variables are the projections of the stress-energy tensor; volume averaging onto the radial grid conserves volume and matter in any order. Limits, each proved as a counterexample: dK/dt is off by -4 alpha K^2; a'/r is set to 1 for r <= 0.01, so flat space has dK/dt = 2 there; the radial step is first order; matter is shifted by half a cell; Cartesian zones of negative projected width are lost; with several partitions only the last one counts; the solver runs once more than requested.", "quantifier": "every matter profile and radial grid", "why_tests_cant": "All profiles.", "anchors": ["src/monopole_gr/monopole_gr.cpp", "src/monopole_gr/interp_3d_to_1d.hpp"]}
{"id": "C33", "title": "Physical boundary conditions fill ghost zones correctly", "statement": "After ApplyBoundaryConditions every ghost zone of a physical face, edge or corner holds the value (with the sign the condition prescribes and, for densities, rescaled by the volume element) of the interior zone the combination of outflow, reflecting and polar conditions assigns to it, whatever the pack layout, loop order and stale ghost data; the interior is untouched. After ConvertBoundaryConditions with primitive boundary variables the conserved fluid and radiation variables of every such zone are those of its primitive variables, every other zone is unchanged; with conserved boundary variables only the zones of the outer x1 inflow check are converted. In those zones no gas falls in and the radiation flux has no inward component, provided the speed left without its radial part is below that of light. Swarm boundaries are outside the claim. Limits, each proved as a counterexample: with fast tangential motion the inflow check stores a superluminal state (NaN); across the polar axis the x2 component of the radiation flux keeps its sign; with conserved boundary variables the radiation check has no effect on the conserved moments.", "quantifier": "every ghost depth, block size and field", "why_tests_cant": "All ghost indices and block sizes.", "anchors": ["src/phoebus_boundaries/phoebus_boundaries.cpp"]}
{"id": "C34", "title": "Unit conversions are invertible", "statement": "Conversion factors between code and cgs units multiply to one (within one rounding in double precision); derived units (density, energy, number density, entropy, heating rate, frequency) are the products of powers of mass, length, time and temperature units that their dimension prescribes; the scales asked for are the scales obtained; the speed of light is one with physical units. An input is accepted exactly if it is scale free or fixes one geometry scale and one fluid scale.", "quantifier": "every input block, with positive scales for the conversion claims", "why_tests_cant": "The scales range over all positive reals and several mutually exclusive ways to give them; tests use one black-hole mass.", "anchors": ["src/phoebus_utils/unit_conversions.cpp: UnitConversions", "src/phoebus_utils/unit_conversions.hpp: UnitConversions, CodeConstants", "src/microphysics/eos_phoebus/eos_phoebus.cpp: Initialize", "src/radiation/cooling_function.cpp"]}
{"id": "C35", "title": "Global reductions count every zone exactly once", "statement": "Volume-weighted history sums count every interior zone exactly once, whatever the decomposition into threads, partitions and ranks (exact arithmetic); maxima are attained and bound every zone; gain-region integrals are right for conserved variables or when all blocks share the volume element; surface fluxes at the horizon count each column of zones exactly once and are exact for fluxes linear across it; mass flux, magnetisation, momentum and magnetic flux densities are the components of the tensors they stand for; the accretion rate is the net inflow into the chosen ball. The electromagnetic energy flux differs from sqrt(-g) T^1_0 by an exact error term, which vanishes without shift for B orthogonal to v. Limits, each proved as a counterexample: in binary64 the sum depends on the tree; with different volume elements the gain integrals use block 0's; the energy flux of plasma streaming along its field is reported as nonzero.", "quantifier": "every mesh, decomposition, field, metric and horizon position", "why_tests_cant": "There are unboundedly many reduction trees and block layouts; a unit test runs one of them.", "anchors": ["src/analysis/history.cpp", "src/analysis/history_utils.hpp", "src/phoebus_utils/reduction.hpp"]}
{"id": "C36", "title": "Boyer-Lindquist and Kerr-Schild describe the same black hole", "statement": "The Boyer-Lindquist four-metric equals the Kerr-Schild four-metric pulled back along the Jacobian that bl_to_ks applies to four-vectors, so the conversion used to initialise tori preserves the norm of every four-velocity.", "quantifier": "every spin, radius off the horizons, angle and four-vector", "why_tests_cant": "An identity between rational trigonometric expressions over a continuum of spins and radii; pgen tests use one spin.", "anchors": ["src/geometry/boyer_lindquist.hpp: SpacetimeMetric", "src/geometry/spherical_kerr_schild.hpp: SpacetimeMetric", "src/geometry/mckinney_gammie_ryan.hpp: bl_to_ks"]}
{"id": "C37", "title": "Test-problem geometries are flat space", "statement": "Minkowski, boosted Minkowski and spherical Minkowski are the flat metric pulled back along their Coords map; Snake and Inchworm are flat space in wiggled coordinates, so special-relativistic exact solutions remain valid there.", "quantifier": "every coordinate point and every amplitude, wave number, velocity and lapse parameter", "why_tests_cant": "Flatness is a statement about a chart on a neighbourhood of every point, not about sampled components.", "anchors": ["src/geometry/minkowski.hpp", "src/geometry/boosted_minkowski.hpp", "src/geometry/spherical_minkowski.hpp", "src/geometry/snake.hpp", "src/geometry/inchworm.hpp"]}
{"id": "C38", "title": "Constrained transport preserves the divergence of B", "statement": "After the constrained-transport pass over the fluxes and an explicit flux-difference update, the corner-centred divergence of the magnetic field (the quantity the code reports as div B) at every node is what it was before, in two and three dimensions on uniform zones, whatever the Riemann fluxes, loop order or stale scratch content, including nodes shared by several mesh blocks and nodes next to physical boundaries, provided the electric field on a polar axis vanishes (which mirror-symmetric data guarantee); constant ideal-MHD fluxes and all other variables pass unchanged. Limits, each proved as a counterexample: on a polar axis with non-vanishing electric field FixFluxes, which runs after FluxCT, changes the divergence.", "quantifier": "every flux field, mesh block decomposition, boundary selection, time step and order of the parallel loops", "why_tests_cant": "An algebraic identity over all flux fields and all positions of the node relative to block and domain boundaries; tests look at one problem.", "anchors": ["src/fluid/fluid.cpp: FluxCT, CalculateDivB", "src/phoebus_driver.cpp: PhoebusDriver::RungeKuttaStage (order FluxCT then FixFluxes)"]}
{"id": "C39", "title": "The time step obeys the CFL condition", "statement": "The time step estimate of a block is no larger than cfl divided by the sum over directions of signal speed over zone width, for every zone of the interior (with the stored face speeds, or unit speeds before they exist), is attained and positive, and does not depend on the order of the reduction, for all finite speeds. Limits, each proved as a counterexample: in binary64 a zone whose speed is NaN does not limit the step at all.", "quantifier": "every speed field and block, every reduction order, including non-finite speeds", "why_tests_cant": "A minimum over all zones in any order; a zone with a NaN speed is the interesting point.", "anchors": ["src/fluid/fluid.cpp: EstimateTimestepBlock"]}
{"id": "C40", "title": "Geometric source terms are those of covariant energy-momentum conservation", "statement": "The momentum and energy sources added to a zone are exactly the terms that turn the covariant conservation law nabla_mu T^{mu nu} = 0 into the densitised balance law the code evolves: for any smooth stress-energy field the flat divergence of sqrt(-g) T^mu_l (or, in the Valencia form, of sqrt(-g) alpha T^{mu 0}) equals the source plus sqrt(-g) times the covariant divergence; the stress-energy tensor used is that of ideal GRMHD; a coordinate the metric does not depend on gets no source.", "quantifier": "every coordinate system with correct metric derivatives, every point, every smooth symmetric tensor field and every primitive state", "why_tests_cant": "A tensor identity over all metrics and tensor fields; tests compare a few numbers in one geometry.", "anchors": ["src/fluid/fluid.cpp: CalculateFluidSourceTerms", "src/fluid/tmunu.hpp: StressEnergyTensorCon", "src/geometry/geometry_utils.hpp: SetConnectionCoeffFromMetricDerivs"]}
{"id": "C41", "title": "Light-bulb heating, cooling and deleptonisation", "statement": "The deleptonisation prescription never raises the electron fraction, lowers it by at most 5 per cent a step, never below the fit or where it started, and only in the stated density window; the optical depth is positive, continuous and increasing in density; the sign of the net heating depends only on luminosity, radius and temperature; with one partition per rank heating is switched on in the step in which some zone anywhere first exceeds an optical depth of 100 and stays on, on every rank, whatever the order of the tasks, until a restart. Limits, each proved as a counterexample: the switch is forgotten by a restart; with several partitions per rank a legal task order computes the force from last step's optical depths without heating.", "quantifier": "every density, electron fraction, composition, time step and density history; every number of ranks and every legal order of the tasks of every step; restarts", "why_tests_cant": "All histories and task interleavings across ranks; tests run one schedule.", "anchors": ["src/radiation/cooling_function.cpp: LightBulbCalcTau, CheckDoGain, CoolingFunctionCalculateFourForce", "src/radiation/light_bulb_constants.hpp", "src/phoebus_driver.cpp: RadiationPostStep", "src/radiation/radiation.cpp: ApplyRadiationFourForce"]}
{"id": "C42", "title": "Transport of the radiation moments", "statement": "For covariantly conserved radiation in any spacetime the stored energy and momentum densities change by exactly the geometric sources the code computes minus the divergence of the fluxes alpha F^i - beta^i E and alpha P^i_l - beta^i F_l; the numerical flux reduces to these for equal states (up to the energy term of C28), lets at most the light-speed flux through in transparent matter and obeys Fick's law in opaque matter for continuous states, with error O(1/tau); the gradient of J is exact for affine data; reconstructed states respect the floors and ceilings; converting a zone to conserved moments and back recovers it; with one species a failed conversion is flagged. Eddington and M1 closures. Limits, each proved as a counterexample: with piecewise-constant reconstruction the diffusive flux is 5/2 times too large; the clipped face velocity has the ceiling as its Lorentz factor only if W^2 = 2; with several species the failure flag of a zone is overwritten by the last one.", "quantifier": "every spacetime, radiation field, fluid velocity, opacity, zone width, direction and dimension; every order in which species are processed", "why_tests_cant": "Continuum limits, all metrics and all opacities; a test measures a diffusion coefficient at one resolution and one reconstruction.", "anchors": ["src/radiation/moments.cpp: MomentCon2PrimImpl, MomentPrim2ConImpl, ReconstructEdgeStates, CalculateFluxesImpl, CalculateGeometricSourceImpl", "src/radiation/closure.hpp: getFluxesFromPrim, getConPFromPrim"]}
{"id": "C43", "title": "Photon packets follow geodesics", "statement": "Pushing a Monte Carlo packet advances its time by exactly the step; in flat space packets move on straight lines at the speed of light with unchanged momentum; momentum components along coordinates on which the metric does not depend are conserved exactly over any number of steps (energy in stationary, angular momentum in axisymmetric, momentum in homogeneous spacetimes); the momentum source is the force of the geodesic equation up to the error of a central difference of step 1e-6; one push differs from the exact ray by third order in position and second order in momentum, with a constant depending only on bounds of the ray and the rates. Limits, each proved as a counterexample: the momentum source of the corrector stage is evaluated at the old position, so the push is not second order and turns a null momentum spacelike in an expanding universe.", "quantifier": "every spacetime, packet, step length and number of steps", "why_tests_cant": "Conservation must hold for every history; accuracy is a statement about all step lengths; a test integrates one orbit.", "anchors": ["src/radiation/geodesics.hpp: GetXSource, GetKSource, PushParticle"]}
{"id": "C44", "title": "Monte Carlo emission, absorption and resolution control", "statement": "The number of packets created in a zone has exactly its expected value as mean; every packet carries the same comoving energy, so the mean energy emitted is sqrt(-g) d3x dt times the trapezoidal rule for the emissivity integral, independently of the weights and the tuning, within (ln band)^3 M / (12 bins^2) of the integral; frequencies are accepted with the linear interpolant of nu J_nu, the sampler returns the first accepted try inside the band; directions are isotropic in the fluid frame (zero mean, second moments delta/3); a new packet is null, has comoving energy h nu and sits at the zone centre; every slot goes to exactly one packet. For every emission, absorption decision, order of the concurrent deposits and number of steps, matter plus packets conserve momentum along symmetric coordinates and tau - k_0 in stationary geometries, and lepton number where the fluid has u^0 = 1; a packet crossing optical depth tau is absorbed with probability 1 - exp(-tau), the physical optical depth for matter at rest in flat space; the emission factor stays positive and changes by at most 4/3 per call. Limits, each proved as a counterexample: the lepton source has an extra u^0; tau is charged with -k_0 instead of the Eulerian energy; the opacity of moving matter is taken in the wrong frame; the packet number responds with the square of the correction and oscillates for ever around its target; the scattering factor is unbounded (its bound is discarded) and becomes infinite.", "quantifier": "every zone, metric, emissivity, opacity, random stream, order of deposits, number of steps and history of tuning calls", "why_tests_cant": "Means and probabilities are integrals over all random numbers; conservation must hold for every interleaving and history; a test draws a few packets.", "anchors": ["src/radiation/monte_carlo.cpp: GetWeight, SetWeight, MonteCarloSourceParticles, MonteCarloTransport, MonteCarloUpdateTuning", "src/radiation/radiation.hpp: LeptonSign", "src/radiation/radiation.cpp: frequency grid, ApplyRadiationFourForce"]}
{"id": "C45", "title": "Time stepping", "statement": "For every Runge-Kutta table, right-hand side and state, in every order of the stage's tasks that the task graph allows and that adds the sources before the update, one step is the Shu-Osher scheme for fluxes plus sources; rk1, rk2 and rk3 are Euler's, Heun's and Shu and Osher's third-order method; rk2 has local error at most (M3/12 + L M2/4) dt^3; any convex set of states preserved by Euler steps is preserved by the whole step; with sealed boundaries the total mass is the same after every number of steps; variables without sources do not depend on the order. The run never passes tlim, lands on it exactly when the steps are bounded below, never exceeds the stable estimate; the stages stop at the first failure; rk1 and rk2 give each stage the metric at the time of its state. Limits, each proved as a counterexample: the task graph allows an order in which the gravitational sources never enter; dt_init caps every step of the run; a failed stage is reported as success; rk3's last stage takes the metric at the wrong time; vl2 is accepted and integrates 3/2 of the rate.", "quantifier": "every table, right-hand side, metric history, legal task order, estimate history and number of steps", "why_tests_cant": "The order of tasks is chosen at run time by the scheduler and a test sees one; accuracy, stability and conservation range over all systems and run lengths.", "anchors": ["src/phoebus_driver.cpp: PhoebusDriver::Step, RungeKuttaStage", "src/fixup/fixup.cpp: FixFluxes"]}
{"id": "C46", "title": "The flux kernel solves, at every face, the Riemann problem between its two zones", "statement": "In every zone of a block the rate of change of the fluid variables and the time step depend on the primitive variables only: for every order of the loops and every leftover content of the work arrays (face values, fluxes, speeds, electric fields), the flux through each face used by the update is the one of the selected Riemann solver between the upper-face value reconstructed in the zone below and the lower-face value reconstructed in the zone above, and fluxes of other packages are untouched. Two blocks holding the same data around a shared face compute the same flux. A uniform state in a uniform geometry stays exactly uniform, the magnetic field included. Reflecting data and geometry along an axis reflects the fluxes. With first-order reconstruction in a uniform geometry and a Courant number of at most one, the density stays non-negative and the composition stays between its neighbouring values, for both solvers. The radiation kernel reads each reconstructed moment from the slot where it was written.", "quantifier": "all blocks, dimensions 1 to 3, reconstruction methods, solvers, formulations, primitive data, metrics, loop orders and stale array contents; for the layout, all numbers of species", "why_tests_cant": "A test runs one schedule on freshly zeroed arrays with smooth data; it cannot show that no stale entry is ever read, that neighbouring blocks agree bit for bit in every configuration, or that no data whatsoever drive the density negative.", "anchors": ["src/fluid/fluid.cpp: CalculateFluxes, FluxCT", "src/fluid/riemann.hpp: FluxState, llf, hll", "src/radiation/moments.cpp: ReconstructionIndexer, ReconstructEdgeStates"]}
{"id": "C47", "title": "The relativistic star used as initial data is a star in equilibrium", "statement": "For every central pressure, entropy and adiabatic index, density and specific energy at each pressure are those of the ideal gas on one adiabat (P = K rho^Gamma, P = (Gamma-1) rho eps, first law), and wherever mass, pressure and Phi follow the rates the integrator uses, metric and matter solve the static Einstein equations (both constraints, no change of the 3-metric or the extrinsic curvature), inside the star and in the vacuum outside. The integrated mass starts at zero and never decreases, and equals the sum of the shells; the pressure never rises and Phi never falls as long as r > 2m; below the pressure threshold mass and pressure are frozen and the sources vanish. The sources handed to the metric solver are those of the fluid at rest. Cells are never below the floors, satisfy the equation of state unless the pressure floor acts, are at rest unless a perturbation is requested, and reproduce the star at the radial grid points. Violated: the two-stage step evaluates both stages at the left radius and is first order only; between Pmin and 1.1 Pmin mass is counted whose sources are set to zero; the velocity perturbation points along x, not along r, on Cartesian grids.", "quantifier": "all central pressures, entropies, adiabatic indices, pressure thresholds, grids and cells", "why_tests_cant": "The checks compare one star with one table at one resolution; they do not show that the equations are Einstein's, that every profile is monotone for every equation-of-state parameter, nor do they measure the order of convergence.", "anchors": [["src/tov/tov.hpp", "PolytropeThermoFromP, GetMRHS, GetPhiRHS, GetPRHS, TovRHS"], ["src/tov/tov.cpp", "IntegrateTov"], ["src/pgen/tov.cpp", "ProblemGenerator"]]}
{"id": "C48", "title": "The Bondi accretion setup is the transonic steady flow", "statement": "The constants (accretion rate, Bernoulli constant, critical temperature) are those of the transonic solution: at the sonic radius the residual and both partial derivatives vanish and the infall speed equals the speed of sound. For Gamma = 1.4, every sonic radius between 11/4 and 40000 and every radius from 2 to 25 r_s except r_s itself, the temperature search does not abort, ends, and returns the root of the right branch (supersonic inside, subsonic outside), which is the only one there, to 1e-12 or with residual at most 1e-14. The time component found by normalisation gives norm -1 and non-negative energy, is the only such value, and is positive wherever d/dt is timelike; for every spin the velocity survives the passage Boyer-Lindquist -> FMKS -> primitives -> four-velocity unchanged. Without spin every cell outside the horizon then carries r^2 rho u^r = -C1, no angular velocity, (h u_t)^2 equal to the Bernoulli constant up to the residual, and P = rho^Gamma. Violated: beyond 60 sonic radii the setup aborts; at the sonic radius itself the exact left end of the bracket is lost and the result is at least 5.5 times too hot; with spin, which is accepted, the flow is not steady.", "quantifier": "all sonic radii, radii, temperatures, adiabatic indices, grids, cells and spins", "why_tests_cant": "The regression test compares one run (r_s = 8, a = 0, one grid) with stored output; it neither shows that the stored data are the transonic solution nor which radii, sonic radii and spins work.", "anchors": [["src/pgen/bondi.cpp", "get_bondi_temp, ProblemGenerator"], ["src/geometry/mckinney_gammie_ryan.hpp", "bl_to_ks, bl_to_fmks"], ["src/geometry/boyer_lindquist.hpp", "SpacetimeMetric"], ["src/pgen/torus.cpp", "ucon_norm"]]}
{"id": "C49", "title": "The Fishbone-Moncrief torus setup is an equilibrium", "statement": "The angular momentum constant lfish_calc(rmax, a) is u^t u_phi of the free circular orbit at rmax. Wherever the torus is (lnh > 0, outside r = 2), for every spin: the velocity set up is the only circular four-velocity with u^t u_phi equal to that constant; the pressure gradient balances the force, dP = rho h (1/2) d g_{mu nu} u^mu u^nu, in every direction; density, energy and enthalpy belong to the polytrope P = K rho^Gamma. At rmax in the equatorial plane the fluid moves on a geodesic, pressure is stationary and the density is 1; at rin in the equatorial plane lnh is 0, and nothing is added at r <= rin or lnh <= 0. In every cell density and specific energy end at or above the floors with P = (Gamma-1) u, density and velocity are averages over the samples, cells outside the torus hold the floor gas at rest; with one sample per cell above the floor the four-velocity computed from the stored velocity is the transformed circular one, with norm -1. The stored field has zero corner divergence, before and after normalisation, and vanishes where the density does not exceed 0.2; after normalisation the chosen beta (least beta over dense zones, or greatest pressure over greatest magnetic pressure) is the target up to any relative error that makes the guard of robust::ratio negligible; without magnetized there is no field. The grid puts exactly n_inside_horizon zone centres inside the horizon. Tracers are placed at the first draw in the torus; on one block their number is the one asked for. Violated: with several blocks per rank the last block alone receives all tracers and the others more; the tracer mass uses the number of tracers per cell counted before they are placed (division by zero in cells that held none).", "quantifier": "all spins, radii, angles, adiabatic indices, polytropic constants, grids, cells, sample counts, random numbers, densities, fields, targets, block counts and tracer positions", "why_tests_cant": "The regression test compares one run with stored output; whether the stored data are an equilibrium for any spin, radius and index is not checked by it, and tracer counts and masses on several blocks are not tested.", "anchors": [["src/pgen/torus.cpp", "lfish_calc, log_enthalpy, GetStateFromEnthalpy, ucon_norm, ProblemGenerator, ProblemModifier, ComputeBetas, PostInitializationModifier"], ["src/geometry/mckinney_gammie_ryan.hpp", "bl_to_fmks"], ["src/geometry/boyer_lindquist.hpp", "SpacetimeMetric"]]}
{"id": "C50", "title": "The MOCMC samples of a zone give the moments of a radiation field", "statement": "For every box of the sphere the six quadrature weights are the integrals of n_i n_j over it and their trace is its solid angle. For any number of samples in general position, whatever the sample fields held before, every sample finds a place: the solid angles add up to 4 pi, the weights to (4 pi/3) delta_ij, the ranges of n_1 are proper and every direction off the cuts belongs to some sample (the number of samples that own it is one more than the number that own it in reverse, so exactly one when no rectangle is reversed in azimuth). The stored tensor is the second moment of the intensity over its integral less delta/3, symmetric and traceless; with proper rectangles and positive intensities it is the tensor of a radiation field; equal intensities give zero, no samples give zero. A fluid-frame bin takes the stored bin whose Doppler-shifted frequency lies within half a bin, or zero. Frequency-averaged opacities lie within the bounds of the opacity (two or more bins), kappaH is the sum of both averages, and mean intensities lie within the bounds of the samples'. Energy and momentum lost by all species are gained by the fluid, the lepton number is unchanged, each species takes a backward Euler step, and the initial call with dt = 0 changes no moment. Updated sample intensities stay within the bounds of the old, thermal and mean ones. Initial samples fill disjoint index ranges covering all particles, lie in their zones, are null with unit frequency and uniform in solid angle. Samples leaving in x are mirrored into the domain. Violated: a second sample in the third quadrant gives the first a negative solid angle and can make a pressure negative although all intensities are positive; a third can give directions two owners; the quadrature sees (n_1, -n_2, -n_3); a sample blue-shifted beyond |n_1| = 1 keeps a stale rectangle; absorption never changes the samples; one frequency bin makes matter transparent; periodic samples are reflected and wiped out; samples advance by 3/2 dt per step of rk2; the Eddington tensor may be computed before the samples move.", "quantifier": "all numbers and directions of samples, stale fields, boxes, intensities, frequencies, Doppler factors, opacities, metrics, velocities, species counts, zones, random numbers, boundaries, time steps and legal task orders", "why_tests_cant": "Unit tests do not cover MOCMC; the tiling of the sphere and the moments must hold for every set of sample directions, which no finite set of cases settles.", "anchors": [["src/radiation/mocmc.cpp", "MOCMCInitSamples, MOCMCSampleBoundaries, MOCMCReconstruction, MOCMCTransport, MOCMCFluidSource, MOCMCEddington"], ["src/radiation/kd_grid.hpp", "integrate_ninj_domega_quad"], ["src/phoebus_utils/phoebus_interpolation.hpp", "PiecewiseConstant"], ["src/radiation/radiation.cpp", "Initialize"], ["src/phoebus_driver.cpp", "sync_region_mocmc"]]}
{"id": "C51", "title": "The classic conserved-to-primitive inversion", "statement": "In every geometry, with and without magnetic field and for every equation of state that does not depend on the electron fraction, a fluid state is a zero of the two residuals of its own (Valencia) conserved state, and Finalize given its density and temperature restores velocity, field, energy, pressure and electron fraction; conversely every zero of the residuals with W >= 1 is finalized to primitives whose conserved state is the given one. In any arithmetic the solver makes at least one and at most max(1, max_iter) passes and reports failure only after all of them. Over the reals the iterates keep 0 < rho <= D and T >= 0; each pass solves the 2x2 linear system of the finite-difference Jacobian, moves each unknown by at most its Newton correction in its direction, and reduces the residual norm, or moves by 1/32 of the step; success means the last correction is within the relative tolerance in both unknowns and the system was regular; a guess that is a zero is kept. The stored signal speed bounds every front up to the true fast magnetosonic speed and the fluid velocity and does not exceed the speed of light of the direction. Violated: gas of density below about 7e-9 code units always fails, even from the exact solution (absolute threshold on the determinant); the solver ignores the electron fraction that Finalize uses, so an energy wrong by a finite factor is reported as success; without USE_VALENCIA the true state is no zero; the density guess takes W v for v, so for v > c/sqrt 2 it is NaN and every inversion fails; the stored signal speed is not that of the fluid for moving magnetised gas.", "quantifier": "all consistent metrics, primitive and conserved states, equations of state, tolerances, iteration limits, guesses and (for the pass counts and NaN statements) all IEEE doubles", "why_tests_cant": "Convergence and inversion claims range over a continuum of states, metrics and equations of state; tests sample a few states with a gamma law.", "anchors": [["src/fluid/con2prim.hpp", "Residual, CellGeom, ConToPrim::Setup, ConToPrim::operator(), ConToPrim::Solve, ConToPrim::Finalize"], ["src/fluid/fluid.cpp", "ConservedToPrimitiveClassic"], ["src/fluid/prim2con.hpp", "p2c"]]}
{"id": "C52", "title": "Linear-wave test problems start from eigenmodes of the equations being solved", "statement": "The linear_modes problem writes a uniform magnetised gas at rest plus amplitude times a tabulated perturbation times cos(k.x). For an ideal gas with Gamma = 4/3 every tabulated mode (1-D and 2-D sound, slow, Alfven, fast) satisfies, to first order in the amplitude and at every event, all nine conservation laws (mass, energy, momentum, no-monopole, induction) of ideal relativistic MHD up to the rounding of the table, with the tabulated frequency; the perturbations are normalised; the data are that wave at t=0, and the wave equals the data again at the final time the problem sets. The entropy mode solves the full nonlinear equations for every amplitude and is stationary. In the boosted-Minkowski and snake charts the velocity and field written are those whose four-velocity and comoving field are the wave's, carried over by the chart. Violated: the pressure uses whatever Gamma the equation of state has, and for 5/3 the sound data are no mode; in inchworm coordinates the data have the wrong Lorentz factor; with a nonzero shift the wave at the final time differs from the initial data zone by zone.", "quantifier": "every tabulated mode, every one of the nine laws, every event, every amplitude, every zone, every boost and every snake with positive lapse", "why_tests_cant": "A convergence test at a few resolutions and amplitudes compares the run with its own initial data; it cannot tell a wrong eigenvector or a wrong transformation from truncation error, and the coordinates of the zones and chart parameters are continuous.", "anchors": [["src/pgen/linear_modes.cpp", "ProblemGenerator"], ["src/geometry/boosted_minkowski.hpp", "BoostedMinkowski"], ["src/geometry/snake.hpp", "Snake"], ["src/geometry/inchworm.hpp", "Inchworm"]]}
{"id": "C53", "title": "Analytic test problems start from the solution they are compared with", "statement": "For an ideal gas energy_from_rho_P returns the energy of the requested pressure whenever the energy range reaches it and aborts otherwise. The relativistic blast wave with Gamma = 4/3 is the instant t = t_shock of a homologous flow (v = r/t inside, cold gas at rest outside the front) that satisfies conservation of mass, energy and momentum at every interior event; inside the blast the data are that solution up to the front-speed factor and outside the gas is at rest. The Sedov problem puts exactly the explosion energy into the inner ball in three dimensions. The radiation pulse, at rest or boosted, is a solution of the comoving diffusion equation with the coefficient 1/(3 kappa) at every point where the floor is inactive, the boosted data are that pulse at the start time, and the opacity chosen makes the box have the requested optical depth for every unit system. Velocities below that of light are represented exactly by the advection and Kelvin-Helmholtz problems, and in the latter every zone moves with the bulk velocity of its side up to the perturbation amplitude for all random numbers. The rotor turns rigidly below the speed of light, is at rest outside, and in Cartesian and snake coordinates its four-velocity and its uniform divergence-free field are the ones of flat space. Violated: the tolerance of energy_from_rho_P is a pressure compared with an energy, so at high pressure the answer is the middle of the energy range; the 1-D and 2-D Sedov problems divide by the volume of a ball; the shock tube and the collapsing star multiply the velocity by sqrt(1+v^2) instead of 1/sqrt(1-v^2); the shock tube stores an electron fraction sin(2 pi x), negative in half the zones and not the one used for the energy; the cosmological problem zeroes only three velocity entries per row because the zone index is shadowed; in snake coordinates every mesh block divides the rotor's final time by the lapse again, so the run has the requested length only on a single block or with unit lapse.", "quantifier": "every zone, every event inside the blast, every density, pressure, opacity, width, boost, unit system, random number, angular velocity, snake chart, number of mesh blocks", "why_tests_cant": "A test problem is itself the test: comparing a run with its own initial data or with a stored gold file cannot detect that the initial data are not the analytic solution, and the parameters are continuous.", "anchors": [["src/pgen/pgen.hpp", "energy_from_rho_P"], ["src/pgen/blandford_mckee.cpp", "ProblemGenerator"], ["src/pgen/sedov.cpp", "ProblemGenerator"], ["src/pgen/radiation_advection.cpp", "ProblemGenerator, ProblemModifier"], ["src/pgen/friedmann.cpp", "ProblemGenerator"], ["src/pgen/shock_tube.cpp", "ProblemGenerator"], ["src/pgen/kh.cpp", "ProblemGenerator"], ["src/pgen/advection.cpp", "ProblemGenerator"], ["src/pgen/rotor.cpp", "ProblemGenerator"], ["src/pgen/progenitor.cpp", "ProblemGenerator"]]}
{"id": "C54", "title": "Adiabats of a tabulated equation of state: the states used lie on the requested adiabat", "statement": "For every equation of state whose entropy is continuous, falls on compression and rises on heating: the density range returned for an entropy starts and ends one per cent inside the point where the adiabat enters and leaves the table (or at the table's own edge when it does not), and every density of the range has a temperature on the adiabat; the n density samples are evenly spaced in the logarithm starting at the lower bound; the temperature computed for each sample is that of the adiabat to relative rounding, and the computation completes for every sample of the range; the interpolation table reproduces its entries at its grid points, stays between neighbours and is continuous; the smallest enthalpy is a lower bound for what is read back at the samples and is attained; the density and energy found for an enthalpy are, to the tolerance of the search, those at which the enthalpy read from the table takes that value, and the run stops exactly when it is out of range. Violated: the samples are laid out with spacing (hi-lo)/n and do not reach the upper bound, but are read back with spacing (hi-lo)/(n-1), so at sample i the table returns the mixture i/n T(i-1) + (1 - i/n) T(i), and with exact temperatures every state read back, except the first, has less than the requested entropy.", "quantifier": "every entropy function of that kind, every density and temperature range, every entropy, every number of samples, every sample and every density in the range", "why_tests_cant": "The unit test evaluates one table, one entropy and one electron fraction, and reads the temperature array directly rather than through the interpolation used by the problem generator.", "anchors": [["src/phoebus_utils/adiabats.hpp", "GetRhoBounds, SampleRho, ComputeAdiabats, MinEnthalpy"], ["src/pgen/torus.cpp", "EnthalpyResidual, GetStateFromEnthalpy, ProblemGenerator"], ["src/phoebus_utils/root_find.hpp", "RootFind::regula_falsi"]]}
{"id": "C55", "title": "Stellar progenitor tables are read as written and interpolated faithfully", "statement": "A progenitor file whose data rows have eleven numbers is read exactly: entry i of column c is number c of data row i, wherever comments and blank lines stand; no other file passes without an access outside an array. When the tabulated radii are equally spaced, every zone and every point of the metric's radial grid at a tabulated radius gets exactly the tabulated row; between the first and last radius positive columns stay positive; density, pressure and electron fraction of a zone depend only on its distance from the centre, and its velocity points along the radius with the tabulated value (times the Lorentz-type factor of the primitive variable, C53), in Cartesian and in spherical coordinates. Violated: the radii of the file are ignored except for the first and last, so for any strictly decreasing column the tabulated values are reproduced only if the radii are equally spaced (a logarithmic table is not); beyond the last radius the last segment is extrapolated and a positive density becomes negative; the routine that sums the total mass reads behind the end of the table for every table.", "quantifier": "every file (list of lines), every number of rows, every column, every radius, every zone position off the polar axis and every spatial metric", "why_tests_cant": "The regression test runs one table with equally spaced radii; whether another spacing, a ragged row or a mesh larger than the table is handled can only be settled for all files and positions.", "anchors": [["src/progenitor/ascii_reader.cpp", "AsciiReader::readtable, calculatemass"], ["src/progenitor/progenitordata.cpp", "Progenitor::Initialize"], ["src/pgen/progenitor.cpp", "homologous::ProblemGenerator"], ["src/geometry/sph2cart.hpp", "SphericalToCartesian"]]}
{"id": "C56", "title": "Black-hole parameters derived from the spin: horizon, innermost stable orbits, start of the polar derefinement", "statement": "For every spin up to the extreme the stored horizon radius is the outer horizon of the black hole and its logarithm the stored coordinate. When every ghost zone lies outside r = 1, the radius from which the grid is derefined towards the poles lies at or inside every zone including ghost zones, and there the polar angle stays in [0, pi] and the coordinates are a proper chart. Violated: the stored radii of the innermost stable circular orbits are not those of the black hole: for every spin below the extreme exactly one marginally stable orbit exists outside the horizon for each sense of rotation, and both stored radii are strictly smaller (3 + sqrt 3 instead of 6 without spin), because the formula for Z2 lacks the square of Z1. Violated: when a ghost zone lies inside r = 1 the derefinement starts outside the innermost ghost face, which the code's own comment says must not happen.", "quantifier": "every spin, every radius outside the horizon, every radial mesh (bounds, number of zones, number of ghost zones), every zone and every admissible choice of the coordinate parameters", "why_tests_cant": "The stored orbit radii are never compared with anything; a unit test would check single spins against numbers produced by the same formula.", "anchors": [["src/geometry/fmks.cpp", "Initialize<FMKSMeshBlock>"], ["src/geometry/mckinney_gammie_ryan.hpp", "McKinneyGammieRyan"]]}
{"id": "C57", "title": "Opacities and mean opacities mean the same in code units as in cgs units", "statement": "For every system of units and every configured opacity: the absorption and scattering coefficients the radiation code sees are the configured cgs coefficients converted to code units (optical depths do not depend on the units); gray opacities are kappa times density; frequency-dependent opacities are refused in scale-free runs and only then; the mean scattering coefficient is the Rosseland mean of the scattering coefficient, in code units; in scale-free runs the mean absorption coefficient of a gray opacity is kappa times density. Violated: with physical units the mean absorption coefficient, the one used by the moment transport, is built from the opacity already converted to code units and then converted again: it is evaluated at a density and temperature converted twice and multiplied twice by the unit of length, so for a gray opacity it is wrong by the factor (unit of mass)/(unit of length)^2 and agrees with the coefficient that Monte Carlo transport uses only if that factor is one.", "quantifier": "every accepted <units> block, every opacity type with its parameters (any table), every density, temperature, electron fraction, frequency, every weighting of the mean and every frequency grid", "why_tests_cant": "The tests with opacities are scale-free, where every unit is one and the double conversion cannot be seen; a test with units would check one system of units.", "anchors": [["src/microphysics/opac_phoebus/opac_phoebus.cpp", "Opacity::Initialize"], ["src/microphysics/opac_phoebus/opac_phoebus.hpp", "Opacities"], ["src/phoebus_utils/unit_conversions.cpp", "UnitConversions"]]}
{"id": "C58", "title": "Floors, ceilings and methods in force are the ones the input deck asks for", "statement": "For every input deck that the fixup and fluid packages accept, the bounds and methods the run uses are those written in the deck or the stated defaults: floors are on exactly when enable_floors, enable_c2p_fixup, MHD floors (with MHD) or radiation floors (with radiation) are asked for; the density and energy floor at every point is the profile the named floor_type describes with the deck's coefficients; ceilings, failure strategies, reconstruction (five-point stencils only with four ghost zones), Riemann solver and inversion method are the named ones; unknown names are rejected. No entry the user wrote is altered, the deck written out with defaults filled in sets up the same run again, and setting up fluid and fixup in the other order changes nothing. Violated: floor types X1RhoSie and RRhoSie take their energy floor from u0_floor/u_exp_floor, entries of another floor type, so a deck that sets sie0_floor (the shipped tov-static.pin) gets no energy floor anywhere; the exemption of the light bulb from the radiation time step is never in force; a deck without physics/rad is always rejected although the fixup package has a default for it.", "quantifier": "every input deck (any finite or infinite set of entries of any type), every point of space, every EOS minimum, either package order", "why_tests_cant": "a test fixes one deck; the claim is about every combination of switches, types, missing entries and defaults, and about the state the deck is left in", "anchors": [["src/fixup/fixup.cpp", "Initialize"], ["src/fixup/fixup.hpp", "Floors, Ceilings, MHDCeilings, RadiationFloors, RadiationCeilings"], ["src/fluid/fluid.cpp", "Initialize"], ["src/radiation/radiation.cpp", "Initialize"], ["src/phoebus_driver.cpp", "ProcessPackages"], ["inputs/tov-static.pin", "fixup block"]]}
{"id": "C59", "title": "Radiation's time step is the CFL fraction of its fastest crossing time", "statement": "The step radiation asks for on a block is cfl times the smallest crossing time over all zones, species and active directions, with the speed that the radiation fluxes use (light and fluid speeds weighted by the optical depth): no zone is crossed in less, some zone attains it, and the order in which zones are visited does not matter. In transparent zones light crosses at most cfl zones (up to 2%); where the shift vanishes the speed of the numerical flux respects the step; and one step of transparent radiation in one dimension with s dt <= dx leaves every energy non-negative. The claim that the step keeps energies non-negative fails in three ways: directions are combined by a minimum although their fluxes add, so in 2-D and 3-D a bright zone becomes negative for every cfl > 1/ndim (default 0.8); in 1-D zones of optical depth >= 2 the diffusive flux is not limited; and with a shift the stored W v is used instead of v, so the flux speed can exceed the step's limit without bound.", "quantifier": "every block of zones (any lapse, shift, metric, velocity, opacity), number of species, dimension, cfl and visiting order", "why_tests_cant": "tests look at a handful of opacities and at one dimension; the claim is about every zone of every state, and the failures need 2-D data, thick zones or a shift", "anchors": [["src/radiation/radiation.cpp", "EstimateTimestepBlock"], ["src/radiation/moments.cpp", "CalculateFluxes, ReconstructEdgeStates"]]}
{"id": "C60", "title": "Derived fields of an output file are what they are called", "statement": "Before every output the code writes entropy, specific energy, sound speed, velocity divergence over sound speed, and an entropy slice around z = 0. Entropy and specific energy are the EOS's at the zone's density, temperature and Ye; the sound speed satisfies cs^2 rho h = bulk modulus and does not exceed light for causal equations of state; in one and two dimensions the divergence is the sum of one-sided differences of alpha sqrt(gamma) v^d per volume element, first-order accurate for smooth flows in every metric, and telescopes along a row; the slice is the entropy times a Gaussian of the deck's width. Violations: in three dimensions the metric below the zone is never filled, so the divergence of a uniform flow depends on uninitialised memory and exceeds every bound; the shift is ignored, so matter at rest on the grid is reported to diverge; pi is 3.14, so the slice is up to 0.03% too large; a zero width is accepted.", "quantifier": "every equation of state, metric, lapse, velocity field, zone, dimension, memory content and input deck", "why_tests_cant": "a test compares one flow in one metric; the claim is about all smooth flows and about what uninitialised memory may hold", "anchors": [["src/phoebus_driver.cpp", "UserWorkBeforeOutput"], ["src/analysis/analysis.cpp", "Initialize"], ["src/phoebus_utils/relativity_utils.hpp", "GetLorentzFactor"]]}
{"id": "C61", "title": "Tracer seeding and removal", "statement": "When tracers are seeded for a torus, each block receives the nearest integer to the requested number times its share of the disk volume, the shares are taken of the volume of the whole disk when every rank owns one block (so the total is within half a tracer per block of the request), every tracer then has its own name, and an accepted tracer lies in its block and in the disk; removal at the horizon never removes, moves or creates a tracer outside it. Violations: the mesh volume is overwritten block by block, so with several blocks per rank only the last one's volume counts (the request can be exceeded without bound, names repeat, and a last block without disk divides by zero), ranks with different block counts disagree on the number of collectives, the particles are counted per zone before they are placed so their masses do not add up to the zone's mass and can be infinite, the last tracer of a block is never removed at the horizon, and the one-dimensional advection problem seeds twice the request.", "quantifier": "every distribution of blocks over ranks, disk volume, requested number, stream of random draws, zone assignment, particle pool and number of purges", "why_tests_cant": "a test seeds one mesh on one rank; the claims range over all distributions of blocks over ranks, all random streams and all pools", "anchors": [["src/pgen/torus.cpp", "PostInitializationModifier"], ["src/pgen/advection.cpp", "PostInitializationModifier"], ["src/fixup/fixup_particles.cpp", "PurgeParticles"]]}
{"id": "C62", "title": "Inversion statistics count every solve", "statement": "When statistics are compiled in, each completed conserved-to-primitive inversion adds the number of iterations of its own solve, between 0 and the iteration limit, and the file written at the end is the histogram of those numbers: one line for every value from 0 to the largest, in order, each with the number of solves that took that many iterations; the order of the solves does not matter, the counts add up to the number of solves, and there are at most max_iter + 1 lines. Violations: counts are 32-bit and the next solve after 2147483647 with the same number of iterations is undefined; the shared map is updated without synchronisation from inside a parallel kernel, so an interleaving of two threads loses a solve; every rank empties and rewrites the same file, which ends up with the last writer's solves only.", "quantifier": "every sequence and order of inversions, residual, arithmetic, iteration limit, thread schedule and number of ranks", "why_tests_cant": "a test counts a handful of solves on one thread of one rank; the claim ranges over all sequences, schedules and ranks", "anchors": [["src/fluid/con2prim_statistics.hpp", "Stats::add, Stats::report"], ["src/fluid/con2prim_statistics.cpp", "Stats::hist, Stats::max_val"], ["src/fluid/con2prim_robust.hpp", "solve"], ["src/main.cpp", "main"]]}
{"id": "C63", "title": "The geometry is the one the deck asks for, and a spacetime at every point", "statement": "For every input deck and every analytic geometry (flat, spherical flat, boosted, expanding, snake, inchworm, Kerr-Schild) the run uses exactly the coordinate system with the parameters the deck gives and the documented defaults elsewhere, and re-reading the deck (restart) gives the same one. A deck is refused exactly when a boost component is not below the speed of light or the initial scale factor is not positive. For an accepted deck, lapse, shift, metrics, inverses and volume elements fit together at every point of the chart and every time of the run if and only if the universe does not contract, the snake's lapse is positive and the inchworm's amplitude times wave number is below one; the start-up checks none of these, so contracting universes (degenerate when the scale factor vanishes), snakes with zero lapse and inchworms that fold back are accepted. Zones of the boosted frame move slower than light exactly when the total speed is below one, but the check looks at one component at a time, so superluminal frames are accepted; so is a black-hole spin above one, which has no horizon.", "quantifier": "all decks, geometries, parameters, coordinate points and times", "why_tests_cant": "The statement ranges over all real parameter values and all points of the chart; a test visits a few decks and a few zones, and the degenerate points lie between zones.", "anchors": [["src/geometry/boosted_minkowski.cpp", "Initialize, GetCoordinateSystem"], ["src/geometry/flrw.cpp", "Initialize, GetCoordinateSystem"], ["src/geometry/snake.cpp", "Initialize, GetCoordinateSystem"], ["src/geometry/inchworm.cpp", "Initialize, GetCoordinateSystem"], ["src/geometry/spherical_kerr_schild.cpp", "Initialize, GetCoordinateSystem"], ["src/geometry/geometry.cpp", "Initialize"]]}
{"id": "C64", "title": "The answer does not depend on how the mesh is cut into blocks", "statement": "For every cut of the mesh into blocks whose ghost zones are wide enough and every sequence of stages: if no zone that fails the inversion after the update touches another block, and no zone that fails again after the exchange is another block's ghost zone, then every block holds the whole-mesh state in every zone it sees. Any two cuts therefore give the same answer when no inversion fails. The fluid update of a zone, constrained transport included, depends only on zones within three of it, so three ghost zones are enough. The condition is needed: the first repair of failed zones runs before the ghost zones are exchanged, so at a block edge it averages neighbours that are one stage old and the result depends on the cut.", "quantifier": "all cuts, all numbers of blocks and stages, all states, all updates of finite reach, all failure patterns", "why_tests_cant": "A test compares a few decompositions of one problem in which inversion failures at block edges are rare; the property ranges over every cut and every failure pattern.", "anchors": [["src/phoebus_driver.cpp", "PhoebusDriver::RungeKuttaStage"], ["src/fixup/fixup_c2p.cpp", "ConservedToPrimitiveFixup"], ["src/fixup/fixup.cpp", "ApplyFloors"], ["src/fluid/fluid.cpp", "CalculateFluxes, FluxCT"]]}
{"id": "C65", "title": "The built-in self-checks report every error", "statement": "check_cached_geom prints an error of at most t exactly when every analytic and cached component it compares agrees to t, absolutely or relative to their mean, whatever way the comparisons are dealt out to threads; p2c2p prints an error of at most t for a primitive exactly when every zone recovered from the conserved variables is within t times the profile it was started from, and the profiles it divides by are at least 0.1 everywhere. This holds for finite components with a non-negative sum and for the first row of zones. VIOLATIONS: a negative component (the time-time metric) is divided by its negative sum, so its error, however large, is printed as zero; a component or recovered zone that is not a number is skipped, so an inversion that fails everywhere reports zero; zones outside the row j = k = 0 are never looked at.", "quantifier": "all component values, all lists of comparisons, all ways the reduction is scheduled, all tolerances, all numbers of zones", "why_tests_cant": "The checks are themselves the tests: whether a reported zero means agreement is a statement about all values and schedules, and the blind spots are exactly where no test fires.", "anchors": [["src/pgen/check_cached_geom.cpp", "RelErr, ProblemGenerator"], ["src/pgen/p2c2p.cpp", "ReportError, rho_of_x and the other profiles"], ["src/phoebus_utils/robust.hpp", "ratio"]]}
{"id": "C66", "title": "Matter and radiation relax to a common temperature without overshoot", "statement": "In a zone at rest, whatever the equation of state (hotter means more energy), opacities, spectra, number of species and step lengths, implicit exchange keeps the matter temperature and every radiation species between the coldest and hottest starting temperatures and conserves their total energy; with one species the hotter side only cools and the colder only warms, neither passes the other, their distance shrinks by at least 1 + (proper time x absorption) each step, and the matter converges from one side to the unique equilibrium. The oned solver does exactly such a step (no momentum exchanged, no failure) when its temperature solve is exact, a next state always exists, and the radiation_equilibration problem starts from such a state. Radiation in equilibrium with matter moving at any velocity through any metric is left exactly alone by the oned solver: the temperature is found unchanged, nothing is exchanged, and the step succeeds. VIOLATION: radiation_equilibration and radiation_advection register their parameters once per block, so a rank with more than one block stops.", "quantifier": "all equations of state, opacities, spectra, species counts, step lengths, histories of any length, metrics, closure tensors, numbers of blocks", "why_tests_cant": "A maximum principle over every history and every opacity law; tests look at one opacity, one step length and one end state.", "anchors": [["src/radiation/moments_source.cpp", "MomentFluidSource (oned), InteractionTResidual"], ["src/radiation/closure.hpp", "LinearSourceUpdate, Con2Prim"], ["src/pgen/radiation_equilibration.cpp", "ProblemGenerator"], ["src/pgen/radiation_advection.cpp", "ProblemGenerator (parameters)"]]}
{"id": "C67", "title": "The boundary condition named in the deck is applied", "statement": "Every deck that names a condition for all six faces starts (unless derefined FMKS poles meet a wall or axis in x2 in the <phoebus> block); the ghost zones of each face get the condition named in <parthenon/mesh>; the fluxes get the one named in <phoebus>, or outflow if that block is silent. If both blocks agree, no mass or energy crosses a wall or the axis and no mass enters an outflow face. VIOLATIONS: a deck that names a wall or axis for the mesh only - as all shipped decks with walls do - gets mirrored ghost zones but outflow fluxes, so outward mass flux and every energy flux pass the wall; the derefined-poles check does not see the mesh block; the boundary of the Monte Carlo samples is read from the same entry, so samples cannot flow out where the fluxes are limited, and by default they get the periodic treatment.", "quantifier": "all decks, both kinds of metric, all faces, blocks, numbers of species, loop orders and fluxes", "why_tests_cant": "Ghost zones and fluxes are set by two different entries with different defaults; a test runs one deck and looks at one of the two.", "anchors": [["src/phoebus_boundaries/phoebus_boundaries.cpp", "ProcessBoundaryConditions"], ["src/fluid/fluid.cpp", "Initialize (ix1_bc ...)"], ["src/fixup/fixup.cpp", "FixFluxes"], ["src/radiation/radiation.cpp", "Initialize (sample boundaries)"], ["src/main.cpp", "main"]]}
{"id": "C68", "title": "A run starts only in a consistent configuration", "statement": "A fresh run starts exactly if the deck names one of the twenty problems, the executable's metric is one that problem is set up for, the monopole solver is on exactly with a monopole metric and only with a TOV star or a progenitor, a TOV star only with the monopole solver, and the star the problem needs is enabled. The problem that fills the mesh is the one named; only torus and radiation_advection change the deck before, only advection and torus the data after. VIOLATION: on a restart only gravity is checked, so a deck may name any problem and a run may restart under a metric its problem does not support.", "quantifier": "all decks, metrics, problem names, fresh runs and restarts, cached or uncached geometry", "why_tests_cant": "The combinations of problem, metric, switches and restart are far more than any test matrix, and the interesting ones must not start.", "anchors": [["src/main.cpp", "main"], ["src/phoebus_driver.cpp", "ProcessPackages"], ["src/pgen/pgen.cpp", "ProblemGenerator, ProblemModifier, PostInitializationModifier"], ["src/pgen/pgen.hpp", "FOREACH_PROBLEM"], ["cmake/Geometry.cmake", "PHOEBUS_ANALYTIC_GEOMETRIES"]]}
{"id": "C69", "title": "A run with cooling conserves, and what it writes and restarts from", "statement": "With an operator-split source (cooling function, light bulb), for every system, Runge-Kutta table and sequence of steps: a total that transport keeps changes over the run by exactly the sum over the steps of step x source, evaluated at the primitives that step leaves. Without a source a restart after any step changes nothing. With the one-stage method the run is Euler's method for transport plus source. VIOLATIONS: every step leaves primitives (outputs, history, tracers, the next step's first fluxes) that belong to the state before that step's source; a restart converts again, so the restarted run continues with different fluxes; with rk2 the run is only first order.", "quantifier": "all rates, conversions, sources, Runge-Kutta tables, step sequences, mesh sizes, restart points", "why_tests_cant": "The relation between the two copies of the state holds between steps and accumulates over a run; a test sees one output or one run, and a restart test with cooling needs both to be bitwise compared.", "anchors": [["src/phoebus_driver.cpp", "PhoebusDriver::Step, RungeKuttaStage, RadiationPostStep"], ["src/radiation/radiation.cpp", "ApplyRadiationFourForce"], ["src/fluid/fluid.cpp", "Initialize (OneCopy primitives)"]]}
{"id": "C70", "title": "Neutrino test problems start as documented, and thin cooling follows its exact solution", "statement": "Lepton transport: in every units and equation of state the gas has 1e10 g/cm^3 and 2.5 MeV, at rest, with Ye 0.1 and 0.35 in the two boxes and 0.225 outside; on every centred mesh the mean is 0.225. Thin cooling: exactly one of neutrinos and antineutrinos; density, energy and Ye as given; over any steps density and momentum stay, every changed baryon costs the same energy, and if the steps resolve the decay, Ye stays in [0, 1/2], never overtakes the exact exponential, and is off by at most k^2 sum dt^2. VIOLATIONS: the step is not tied to the cooling time, so the energy can go negative; the homogeneous sphere is a half space in Cartesian coordinates, and its gas is always slower than the given vx.", "quantifier": "all points, meshes, units, equations of state, step sequences, emissivity constants, both neutrino kinds", "why_tests_cant": "Regression tests compare two configurations with stored output; the exact solution, the totals and the accuracy must hold for every mesh, unit system and step sequence.", "anchors": [["src/pgen/leptoneq.cpp", "leptoneq::ProblemGenerator"], ["src/pgen/thin_cooling.cpp", "thin_cooling::ProblemGenerator"], ["src/pgen/homogeneous_sphere.cpp", "homogeneous_sphere::ProblemGenerator"], ["src/radiation/cooling_function.cpp", "CoolingFunctionCalculateFourForce"], ["src/radiation/radiation.cpp", "ApplyRadiationFourForce"], ["src/radiation/radiation.hpp", "LeptonSign"]]}
{"id": "C71", "title": "Every zone carries the opacities of its own matter", "statement": "After the moment method's opacity update, for every loop order, number of species and opacity model, each zone of the block including ghosts holds, for each species, the absorption coefficient, absorption plus scattering, and thermal energy density of its own density, temperature and electron fraction (1/2 if that is not evolved); nothing else changes, and repeating the update changes nothing. With gray opacities the scattering coefficient is right in every unit system, and in scale-free runs absorption, total and albedo are too. VIOLATION: with physical units absorption, total and albedo are right only if the mass unit equals the length unit squared.", "quantifier": "all opacity models, states, mesh sizes, loop orders, species counts, gray coefficients, unit systems, frequency grids", "why_tests_cant": "A wrong zone, species or unit still gives a plausible opacity; it must hold for every zone, order and unit system.", "anchors": [["src/radiation/moments.cpp", "MomentCalculateOpacities"], ["src/microphysics/opac_phoebus/opac_phoebus.hpp", "Opacities"], ["src/microphysics/opac_phoebus/opac_phoebus.cpp", "Opacity::Initialize"]]}
