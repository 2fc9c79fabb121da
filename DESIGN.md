# Formal model of lanl/phoebus in Rocq (Coq 8.16.1)

## Layout

- `rocq/theories/Model/*.v`   definitions only; every definition cites the file
  and lines in /repo it models and says where it simplifies.
- `rocq/theories/Spec/*.v`    small independent vocabulary for the statements
  (tensor algebra, brackets, convexity, ...); no reference to proofs.
- `rocq/theories/Proofs/*.v`  lemmas.
- `rocq/theories/Properties/P_*.v`  the property theorems `Cnn_...`, each followed
  by `Print Assumptions`, with `Example`s showing that hypotheses are met.
- `MANIFEST.json` maps properties to theorems; `seeded/LOG.jsonl` records the
  mutation experiments.

## Method

- *Numbers.* Phoebus computes with IEEE doubles.  Scalar kernels are written once
  over the class `Num` (Model/Num.v) and instantiated at the reals `R` (algebraic
  claims) and at Flocq's binary64 with round-to-nearest-even (claims about NaN,
  infinities, underflow, rounding).  Geometry, GRMHD, radiation and gravity
  formulas are modelled over `R` only: for those the theorems say that the formula
  is right, not how rounding perturbs it.  `robust::ratio` is modelled exactly in
  Model/Robust.v; C01_ratio_exact_b64 proves it is bit-for-bit `a/b` when
  |b| >= 2^-965, and this is the licence for writing `a/b` in the `R` models that
  use it (each such place says so).
- *Loops* become structural recursion on the remaining iteration budget or folds
  over index lists.  *Pointers/arrays* become functions from indices; writes return
  the new function.  *Parallel loops* are modelled as independent per-cell maps, or,
  where cells read their neighbours while others write, as folds over an arbitrary
  visiting order.
- *Undefined behaviour* (uninitialised reads, std::clamp with lo > hi, 0/0 where it
  matters) is a distinct outcome or is excluded by an explicit hypothesis that is
  discussed next to the theorem.
- Where the code violates the property, the faithful model is kept and a theorem
  with suffix `_refuted` exhibits the violation; the strongest true statement is
  proved beside it.  A theorem with suffix `_partial` proves part of a property.
- *What a status means.*  properties.jsonl states each property as it holds of this
  commit, with the exact conditions under which it holds, followed by its limits: the
  natural stronger claims that are false of the code, each with a counterexample
  theorem.  "proved" in MANIFEST.json means every clause, the limits included, is a
  theorem; "partial" means something in the statement is not proved or the code it
  needs is not modelled, and the note says what.

## Trusted base

- Coq 8.16.1's kernel (and vm_compute, used for closed binary64 computations).
- The fidelity of the model: code was read, not run.
- Axioms reported by `Print Assumptions`: only those of Coq's standard library reals
  and classical logic:
  `ClassicalDedekindReals.sig_not_dec`, `ClassicalDedekindReals.sig_forall_dec`,
  `FunctionalExtensionality.functional_extensionality_dep`, and (through Flocq /
  Coquelicot / Ranalysis lemmas) `Classical_Prop.classic`.  No axioms are added.
- Libraries: Flocq 4.1.0 (IEEE-754), Coquelicot (derivatives), standard library.

## Not modelled

Parthenon/Kokkos (mesh, task scheduling, MPI, communication, AMR), singularity-eos
and singularity-opac internals (equations of state and opacities are arbitrary
functions in the statements), I/O, input parsing, memory layout, GPU execution,
rounding in the multi-step physics kernels, performance.

## Properties: plan

- **C01** Guarded arithmetic helpers keep their promise. Model/Robust.v, both number systems. Case analysis; Flocq rounding lemmas for binary64.
- **C02** Bracketed root finders return an enclosed root. Model/RootFind.v, RootFindITP.v. Loop invariants + intermediate value theorem; binary64 bisect by monotonicity of rounding; counterexamples by computation.
- **C03** Root finders terminate within their iteration budget and report exhaustion. Same model, with the list of evaluation points and the counter; induction on the budget.
- **C04** When root finders read indeterminate or NaN data. Same model; outcome Undefined; binary64 NaN run.
- **C05** Slope-limited reconstruction creates no new extrema. Model/Reconstruction.v (generic Num): mc, PiecewiseConstant, PiecewiseLinear. Real case analysis. Model/ReconIEEE.v: the same functions over any Num, instantiated at binary64; rounding analysis with Flocq in Proofs/ReconB64.v.
- **C06** WENO5-Z reconstruction is a blend of consistent stencils. WENO5Z over R; weights positive, sum to one; exactness; mirror symmetry.
- **C07** MP5 reconstruction is monotonicity preserving. mp5_subcalc, Median over R; interval property; scale dependence refuted by a witness.
- **C08** Flux limiter functions stay in the TVD region. koren, mc_lim, minmod, superbee, barth_jespersen, overbee, phifunc over R.
- **C09** Small matrix inverses and determinants are correct. Model/LinearAlgebra.v; ring/field identities.
- **C10** Every coordinate system supplies a consistent 3+1 metric. Model/Geometry*.v per system; Spec/Tensor.v has ADM composition, inverse, determinant.
- **C11** Analytic metric derivatives are the derivatives of the metric. Coquelicot is_derive of each metric component against the coded derivative.
- **C12** Connection coefficients are the Christoffel symbols of the metric. SetConnectionCoeffFromMetricDerivs, per-system connection code.
- **C13** Coordinate modification preserves geometry. Modified<System,Transformation> over arbitrary base system and Jacobians.
- **C14** Cached geometry is a transparent cache. Model/Cached.v: memory as a function from (block, slot, k, j, i); SetGeometryDefault as parallel loops of stores in an arbitrary order; every accessor read back. Invariant: disjoint slots, so any schedule gives the same memory.
- **C15** Orthonormal tetrads are orthonormal and invertible. Gram-Schmidt with a metric inner product; round trip by linear algebra.
- **C16** Four-velocity normalisation. relativity_utils over R.
- **C17** Conserved variables are the stress-energy of ideal GRMHD. p2c and prim_to_flux against a stress-energy spec in Spec/GRMHD.v.
- **C18** Primitive-conserved-primitive round trip. Model/Con2PrimRobust.v: the Residual class method by method, the assembly of the inputs from the conserved state, the final assignments of solve and the call of regula_falsi (Model/RootFind.v). Round trip by identifying every intermediate of the inversion with its value for a physical state (x, rbar, qbar, v, W, rho, e) in an arbitrary positive-definite three-metric, with Cauchy-Schwarz for the velocity bound; the converse by solving the same identities for the conserved state; totality from the sign of the residual at 0 and 1 and its continuity; uniqueness because the derivative of the residual is positive at each of its zeros (Proofs/C2PUnique.v), which with the bracket bound of the root finder gives recovery of 1/(hW) within the tolerance.
- **C19** Approximate Riemann solvers are consistent and upwind. Model/Riemann.v: llf/hll over arbitrary states, fluxes and speeds (Num), then at R; states from prim_to_flux in Proofs/FaceProofs.v.
- **C20** Signal speeds bound the fluid motion and respect causality. Model/Relativity.v/Riemann.v signal-speed formulas over R; quadratic-form bounds by Cauchy-Schwarz.
- **C21** What the Lorentz-factor and energy ceilings guarantee. Model/Riemann.v, Con2PrimRobust.v, ApplyFloors.v, Fixup.v: each place that limits the Lorentz factor; exact value after limiting, refutation of the wrong rescaling factor.
- **C22** What the density and energy floors guarantee. Model/Floors.v, Con2PrimRobust.v, ApplyFloors.v: branch by branch, with an arbitrary equation of state.
- **C23** Failed-cell repair uses only good neighbours. Model/Fixup.v: one thread per zone, memory accesses interleaved by an arbitrary schedule; invariant: a running thread only depends on zones nobody changes, since the masks of failed zones are zero. Counterexample executed in binary64. Model/FixupRad.v: the radiation tails of the three kernels.
- **C24** Flux fixes at boundaries enforce the boundary condition. Model/FluxFix.v: par_for as a fold over an arbitrary enumeration of the faces (Model/ParFor.v); ownership of locations makes the order immaterial; mass budget by telescoping sums.
- **C25** Net-field controller. Model/NetField.v: the controls, the task bodies, one driver region as a probe phase and an arbitrary interleaving of the per-partition tails, and histories of cycles. Spec/NetSpec.v: schedules. P_NetField.v: invariant over interleavings (update idempotent while t < next + cadence), induction over histories; discrete curl identity for div B.
- **C26** Interpolation reproduces data and stays within it. Model/Interpolation.v over R (index/weights, 1-3 D multilinear, piecewise constant). Clamped floor index; affine/multilinear exactness by ring, betweenness by convexity.
- **C27** Tracer particles follow the fluid. Model/Tracers.v: right-hand side, RK2 step and diagnostics over Model/Interpolation.v and an arbitrary System. Spec/TracerSpec.v: paths, smoothness at a point, Bernoulli parameter. P_Tracers.v: velocity as u^i/u^0, third-order local error by mean-value bounds, range of stored fields, refutations.
- **C28** M1 closure is a valid Eddington closure. Model/RadClosure.v (closure.hpp, closure_m1.hpp, local_three_geometry.hpp): closure functions over R, the iteration in xi for an arbitrary residual. Spec/RadSpec.v states the radiation stress tensor, transversality and Eulerian projections four-dimensionally. P_RadClosure.v; solver convergence is not claimed (only what a success status implies).
- **C29** Radiation conserved-primitive transforms are inverse. Prim2Con/Con2Prim of Model/RadClosure.v as exact linear maps; P_RadTransform.v proves both compositions are the identity off the singular set, characterises where the M1 tensor can reach it, and refutes the claim there. NaN tests are modelled by xi_defined.
- **C30** Radiation-matter exchange of energy, momentum and lepton number. Model/RadSource.v: the oned and fourd solvers, the per-species application with inversion, recovery and reset, the explicit four-force, cooling and light bulb. Spec/RadExchange.v states totals over matter and species; P_RadExchange.v proves conservation by induction on species and states each violation as a refutation; P_RadExchangeExact.v gives the exact error of the cooling, light-bulb and fourd terms in every metric.
- **C31** Linear radiation transport source update is a stable implicit step. LinearSourceUpdate as written; Spec/RadSource.v states the four-force and its Eulerian rates; P_RadImplicit.v proves the update is the unique backward-Euler solution when v.v.Pi=0, positivity and the stiff limit, refutes the M1 case.
- **C32** Monopole gravity solver obeys its constraint equations. Model/MonopoleGR.v: GetARHS/GetKRHS, the radial integrator, the tridiagonal lapse solve, device rates, interpolation, the 3D-to-1D projection and its per-partition schedule, the time step and the call counter; the Spiner grid is modelled by its documented x_i = min + i dx and truncating index. Spec/Hypersurface.v states the 3+1 constraints, Ricci tensor, Laplacian and evolution equations for an arbitrary three-metric by partial derivatives (Coquelicot). P_Monopole.v, P_MonopoleRates.v, P_MonopoleData.v; maximum principle and Thomas sweep by induction over rows.
- **C33** Physical boundary conditions fill ghost zones correctly. par_for_bndry as a fold over an arbitrary enumeration of (component, ghost zone); the faces are applied in the order of ApplyBoundaryConditions; each zone traced back to its source by composing one reference map per direction. Inflow checks over R and binary64. ConvertBoundaryConditions (Model/BoundaryConvert.v) as a sequence of par_for sweeps over the flagged ghost regions in any order, with c2p and the radiation conversion as parameters.
- **C34** Unit conversions are invertible. Model/Units.v over any Num: the constructor as a function of the optional parameters, all getters, CodeConstants and the factors assembled elsewhere. Spec/UnitsSpec.v: dimensional analysis with powers of four base units. P_Units.v: case analysis of the constructor, field; relative error of one division and product in binary64 (Flocq).
- **C35** Global reductions count every zone exactly once. Model/History.v: par_reduce as a fold along an arbitrary tree of runs and joins (threads, partitions, ranks), for any Num; the history integrands over R. Spec/HistorySpec.v: plans that visit every zone once, mesh totals. P_History.v: sums by permutation, maxima, gain region, surface integrals at the horizon (unique crossing zone per column), flux densities against the stress-energy tensor of Spec/GRMHD.v, accretion rate by telescoping; refutations in binary64 (rounding), for block-0 geometry and the EM energy flux.
- **C36** Boyer-Lindquist and Kerr-Schild describe the same black hole. Model/BoyerLindquist.v against SphericalKerrSchild; field identity with s^2 = 1 - c^2.
- **C37** Test-problem geometries are flat space. explicit Jacobian of the Cartesian chart, derivatives by Coquelicot.
- **C38** Constrained transport preserves the divergence of B. Model/FluxFix.v FluxCT as two par_for passes over arbitrary orders; discrete div curl = 0 at each node; several blocks sharing one flux field; then FixFluxes.
- **C39** The time step obeys the CFL condition. EstimateTimestep as a fold of min over an arbitrary order; binary64 instance for NaN.
- **C40** Geometric source terms are those of covariant energy-momentum conservation. Model/FluidSource.v; Jacobi's formula for the derivative of det g, Christoffel symbols by Coquelicot partial derivatives, then tensor algebra by ring.
- **C41** Light-bulb heating, cooling and deleptonisation. Model/LightBulb.v: the zone update over R with exact decimal constants, the tasks of RadiationPostStep as events on an explicit state of several ranks, legal orders as duplicate-free lists that respect the declared dependencies. P_LightBulb.v: Bernstein coefficients for the fit, Lipschitz bounds for the optical depth, invariant over prefixes of a legal order, induction over steps.
- **C42** Transport of the radiation moments. Model/RadTransport.v: the face body and the zone bodies of moments.cpp over R on top of RadClosure.v and Geometry.v. Spec/RadTransportSpec.v: Eulerian fluxes and light speeds. P_RadTransport.v: 3+1 reassembly, balance laws from C40, flux consistency from C28. P_RadFlux.v: bounds on tanh by exp and the mean value theorem, Cauchy-Schwarz for the light-speed bound, explicit error of the diffusion limit, case analysis for the stencils.
- **C43** Photon packets follow geodesics. Model/Geodesics.v: the three routines over R. Spec/GeodesicSpec.v: geodesic equation in coordinate time. P_Geodesics.v: derivative of the inverse metric from g g^-1 = 1, central-difference error, Taylor and trapezoid bounds for Heun's method, closed-form ray of an expanding universe as witness and counterexample.
- **C44** Monte Carlo emission, absorption and resolution control. Model/MonteCarlo.v: emission table, packet counts, rejection sampling over a stream, five-force deposits, transport, tuning. Spec/MonteCarloSpec.v: expectations as Riemann integrals, composite trapezoidal rule, invariant optical depth. P_MonteCarlo.v: Chasles for step functions, trapezoidal error from C43's panel bound, tetrad facts of C15, conservation by permutation and induction.
- **C45** Time stepping. Model/Driver.v: the tasks of sync_region_3 with their dependencies as an interpreter over containers, stages, tables, step choice, geometry time. Spec/StepSpec.v: Shu-Osher form, legal orders, abscissae. P_Driver.v: all legal orders reduced to three interleavings, induction over stages and steps, Taylor bounds of C43, mass budget of C24.
- **C46** The flux kernel solves, at every face, the Riemann problem between its two zones. Model the reconstruction loop and the flux loop of CalculateFluxes as parallel bodies over arrays with stale content; prove each used location is written once with the value of the pure Riemann problem, then derive no-stale, block agreement, uniform flow, mirror symmetry from C05-C08, C19, C20; split both solvers' mass flux into bounded shares of the two zones for positivity and the composition bound.
- **C47** The relativistic star used as initial data is a star in equilibrium. Model the right-hand sides, the two-stage step, the second loop and the cell kernel; derive the polytropic relations with Rpower; compute Ricci, Hessian and their rates for a = (1-2m/r)^(-1/2), alpha = e^Phi from the closed forms of C32 and show they vanish exactly when the TOV rates hold; induction over grid points for monotonicity, freezing and the accumulated first-order error.
- **C48** The Bondi accretion setup is the transonic steady flow. Model/Bondi.v over the reals; the bracket argument reduces to a polynomial in (r_s/r)^(1/5) and a weighted arithmetic-geometric mean inequality; uniqueness of the root by monotonicity of the scaled slope; bisection by induction on the number of passes; the velocity by pulling the metric back along the two maps (C36, C13, C16).
- **C49** The Fishbone-Moncrief torus setup is an equilibrium. Model/Torus.v over the reals; the Kerr metric in Boyer-Lindquist form is written as -N dt^2 + Y (dphi - w dt)^2, circular flows with constant u^t u_phi are solved in closed form there and the potential is differentiated once for abstract N, Y, w; the free orbit is computed in s = sqrt r; the cell theorem transports the velocity by C48; the field by C38's divergence; normalisation by order arguments on folds.
- **C50** The MOCMC samples of a zone give the moments of a radiation field. Model/MOCMC.v over the reals; the quadrature by iterated Riemann integrals (Coquelicot) with the primitives of c^2, c s, s^2; the grid by induction over the samples with the invariant that any quantity additive under cuts (solid angle, weights, the signed indicator of a point) sums to its value on the whole sphere; positivity as the integral of (n.v)^2; the rest by algebra and the theorems of C31 and C43.
- **C51** The classic conserved-to-primitive inversion. Model/Con2PrimClassic.v: residual, Jacobian, line search, limits, pass, loop over Num T (reals and binary64), Setup and Finalize over the reals. Zeros <-> preimages by the algebra of the 3+1 split (Proofs/ClassicInverse.v, p2c of C17); pass invariants by induction on the fuel of the loop (Proofs/ClassicProofs.v); NaN propagation in binary64; violations by explicit gases.
- **C52** Linear-wave test problems start from eigenmodes of the equations being solved. Linearise the currents of WaveSpec at a gas at rest (C1 calculus in Proofs/WaveProofs.v), evaluate the nine laws for each tabulated mode with rigorous bounds on pi; transport vectors with the Jacobian of each chart.
- **C53** Analytic test problems start from the solution they are compared with. Write the flow equations in expanding coordinates (Spec/ExpandSpec.v), differentiate the closed forms with Coquelicot, and relate each written primitive to the four-velocity/field/energy of the analytic solution; counterexamples by evaluation.
- **C54** Adiabats of a tabulated equation of state: the states used lie on the requested adiabat. Model Spiner's regular grid (Model/DataBox.v, continuity by a sum of clamped ramps), reuse the soundness of regula_falsi (C02), bound the logarithm's error, and compute the read-back mixture exactly.
- **C55** Stellar progenitor tables are read as written and interpolated faithfully. Model the reader as a fold over lines with out-of-bounds as None, prove its content by induction over rows and the file, reuse the grid-interpolation lemmas of C54 and the spherical-to-Cartesian Jacobian of C36.
- **C56** Black-hole parameters derived from the spin: horizon, innermost stable orbits, start of the polar derefinement. Spec/OrbitSpec.v defines circular equatorial geodesics from the metric; the energy's derivative gives the Bardeen-Press-Teukolsky quartic, which factors with the two cube roots; uniqueness by discriminants.
- **C57** Opacities and mean opacities mean the same in code units as in cgs units. Model the selection and wrapping of opacity objects in Opacity::Initialize over the unit system of C34; independent specification by dimensions (Spec/OpacitySpec.v).
- **C58** Floors, ceilings and methods in force are the ones the input deck asks for. Deck readers as a free monad of Get/GetOrAdd/Fail with a stateful interpreter; a stateless reading proved equivalent for programs whose defaults agree; inversion of fixup_Initialize and fluid_Initialize into what the deck says; restart and order by induction on programs.
- **C59** Radiation's time step is the CFL fraction of its fastest crossing time. The nested min-reduction as folds over zones, species and directions; fold_min_spec by induction gives bound and attainment; the flux of C42 in LLF form for positivity; a bright zone in a uniform medium evaluated exactly for the violations.
- **C60** Derived fields of an output file are what they are called. The kernel as a function of zones with the unfilled matrix as a parameter; differences rewritten as volume fluxes; the mean value theorem for the first-order bound; Machin's formula for the bounds on pi; induction for the telescoping sum.
- **C61** Tracer seeding and removal. The counting loop as a fold over ranks and their remaining blocks, with a missing participant in a collective as failure; rounding and names over Z; the rejection loop with fuel over a stream of draws; the pool as a list of slots; induction over blocks, draws, slots and purges; one step in binary64 for the infinite mass.
- **C62** Inversion statistics count every solve. The map as a partial function with the running maximum; induction over the list of added values with the invariant that the map holds the number of occurrences; threads as read and write steps of a schedule; ranks as successive truncating writes; the iteration bound from C03.
- **C63** The geometry is the one the deck asks for, and a spacetime at every point. Deck-reading programs of Model/Config.v for each Initialize (Model/GeometryDeck.v); spec (Spec/GeometryDeckSpec.v) gives the asked-for system and the regular decks; C10's consistency theorems for the if direction, an explicit degenerate point for the only-if direction.
- **C64** The answer does not depend on how the mesh is cut into blocks. Model/Decomposition.v runs the driver's order of passes (update, inversion, repair, floors, exchange, second inversion and repair) over an arbitrary per-zone update of finite reach, on one mesh and on a cut mesh; Spec/DecompositionSpec.v says when a block agrees with the mesh; induction over stages. P_DecompositionFlux instantiates the reach with the flux kernel and FluxCT.
- **C65** The built-in self-checks report every error. Model/SelfCheck.v models RelErr, the Kokkos Max reduction as an arbitrary tree of joins, and ReportError over Num; Spec/SelfCheckSpec.v says when two numbers agree; induction over plans and zones, NaN cases at B64.
- **C66** Matter and radiation relax to a common temperature without overshoot. Spec/EquilibriumSpec.v defines an implicit exchange step and histories of them with no reference to the code; induction over histories; C66_zone_step shows that Model/RadSource.v's oned performs such a step; Model/Equilibration.v models the problem generator.
- **C67** The boundary condition named in the deck is applied. Model/BoundaryDeck.v: the deck-reading program of start-up in the monad of Model/Config.v, the registry and the comparisons of FixFluxes; inversion of the program, then C24's theorems about FixFluxes for the resulting configuration.
- **C68** A run starts only in a consistent configuration. Model/Startup.v: the deck-reading program of start-up in the monad of Model/Config.v with the requirements of every generator; Spec/StartupSpec.v holds an independent table of problems and metrics; inversion of the program and enumeration of the table.
- **C69** A run with cooling conserves, and what it writes and restarts from. Model/PostStep.v: conserved data and the single copy of the primitives through stages, post-step and restart; budget by induction on steps and stages, the others by computing one step.
- **C70** Neutrino test problems start as documented, and thin cooling follows its exact solution. Model/NeutrinoDecks.v: the three generators and one cooling step through add_cooling and ApplyRadiationFourForce (Model/RadSource.v); Spec/NeutrinoSpec.v: exact decay, cell centres; induction over steps, 1-x <= exp(-x) <= 1-x+x^2, reversal of finite sums.
- **C71** Every zone carries the opacities of its own matter. Model/MomentOpacities.v: the loop over zones and species on one memory; owner argument of Proofs/ParForProofs.v for any order; gray opacities through C57's theorems.
