{
 "claims": [
  {
   "property": "C01",
   "status": "proved",
   "theorems": [
    "C01_make_positive",
    "C01_make_bounded",
    "C01_ratio_guard",
    "C01_sgn",
    "C01_make_positive_b64",
    "C01_make_positive_nan_refuted",
    "C01_ratio_not_nan_b64",
    "C01_ratio_finite_b64",
    "C01_ratio_exact_b64"
   ],
   "note": "make_positive/make_bounded/ratio/sgn over R and IEEE binary64; NaN propagation through make_positive is shown by the _refuted theorem and excluded from the claim"
  },
  {
   "property": "C02",
   "status": "proved",
   "theorems": [
    "C02_bisect_sound",
    "C02_regula_falsi_sound",
    "C02_itp_sound",
    "C02_bisect_unbracketed",
    "C02_guess_unbracketed",
    "C02_bisect_left_root_refuted",
    "C02_secant_refuted",
    "C02_bisect_b64",
    "C02_bracket_underflow_refuted"
   ],
   "note": "proved for bisect, regula_falsi, itp (R) and bisect (binary64) except edge cases that the code gets wrong: a root exactly at the left end with f(b)>0 is lost by bisect (refuted), secant success does not imply a root (refuted), bracket test can underflow (refuted)"
  },
  {
   "property": "C03",
   "status": "proved",
   "theorems": [
    "C03_bisect_budget",
    "C03_regula_budget",
    "C03_secant_budget",
    "C03_itp_budget",
    "C03_bisect_terminates",
    "C03_itp_terminates",
    "C03_status_iff",
    "C03_status_means_not_converged_refuted",
    "C03_itp_between"
   ],
   "note": "budget and status for all number systems, bisect and itp convergence counts"
  },
  {
   "property": "C04",
   "status": "proved",
   "theorems": [
    "C04_bracketing_defined",
    "C04_itp_defined",
    "C04_secant_defined_iff",
    "C04_secant_uninitialised_refuted",
    "C04_nan_residual_refuted"
   ],
   "note": "false of the code: secant reads uninitialised variables iff the guess is outside the bracket; NaN residual reported as success"
  },
  {
   "property": "C05",
   "status": "proved",
   "theorems": [
    "C05_constant",
    "C05_plm_no_new_extrema",
    "C05_plm_monotone",
    "C05_plm_extremum",
    "C05_plm_conserves_mean",
    "C05_plm_exact_on_linear",
    "C05_plm_unlimited_when_smooth",
    "C05_plm_mirror",
    "C05_ieee_same_code",
    "C05_ieee_no_new_extrema",
    "C05_ieee_floor",
    "C05_ieee_nan",
    "C05_ieee_overflow_refuted"
   ],
   "note": "PiecewiseConstant and PiecewiseLinear over R and, with all roundings, in IEEE binary64"
  },
  {
   "property": "C06",
   "status": "proved",
   "theorems": [
    "C06_weno_blend",
    "C06_parabola_unique",
    "C06_blend_convex_refuted",
    "C06_weno_no_new_extrema_refuted",
    "C06_weno_exact_on_linear",
    "C06_weno_exact_on_constant",
    "C06_weno_mirror",
    "C06_ieee_same_code",
    "C06_ieee_finite",
    "C06_ieee_overflow_refuted"
   ],
   "note": "weights, exactness and mirror symmetry proved; the blending factor is bounded by 1.126, and alpha <= 1 is refuted (the code's factor exceeds one), so the blend is not convex"
  },
  {
   "property": "C07",
   "status": "proved",
   "theorems": [
    "C07_mp5_limited",
    "C07_mp5_monotone",
    "C07_mp5_exact_on_linear",
    "C07_mp5_odd",
    "C07_mp5_mirror",
    "C07_scale_invariance_refuted",
    "C07_ieee_same_code",
    "C07_ieee_finite"
   ],
   "note": "interval property, monotone data, linear exactness proved; unit independence is refuted (absolute threshold 1e-12)"
  },
  {
   "property": "C08",
   "status": "proved",
   "theorems": [
    "C08_koren_tvd",
    "C08_mc_lim_tvd",
    "C08_minmod_tvd",
    "C08_superbee_tvd",
    "C08_unit_on_equal_slopes",
    "C08_overbee_unit_refuted",
    "C08_mc",
    "C08_phifunc",
    "C08_barth_jespersen_refuted",
    "C08_overbee_refuted"
   ],
   "note": "koren, mc_lim, minmod, superbee, mc, phifunc proved; barth_jespersen and overbee violate the claim (refuted)"
  },
  {
   "property": "C09",
   "status": "proved",
   "theorems": [
    "C09_determinant3",
    "C09_determinant4",
    "C09_det_spec",
    "C09_inverse4",
    "C09_inverse3_symmetric",
    "C09_inverse3_general_refuted",
    "C09_solve2x2",
    "C09_inverse_unique"
   ],
   "note": "Determinant, determinant (4x4), adjoint, matrixInverse4x4, SolveAxb2x2 proved for every matrix; matrixInverse3x3 proved for symmetric matrices (its only use) and refuted in general: the determinant it divides by is only right for symmetric input"
  },
  {
   "property": "C10",
   "status": "proved",
   "theorems": [
    "C10_minkowski",
    "C10_boosted_minkowski",
    "C10_spherical_minkowski",
    "C10_flrw",
    "C10_snake",
    "C10_inchworm",
    "C10_spherical_kerr_schild",
    "C10_monopole",
    "C10_boyer_lindquist_refuted"
   ],
   "note": "proved for every system except BoyerLindquist, whose lapse, three-metric and inverse do not belong to its (correct) four-metric: refuted at a=0, r=4; charts: X1 /= 0, sin(X2) /= 0 for spherical ones, alpha>0, scale factor > 0, a k cos(k x) /= 1 (the excluded points are coordinate singularities)"
  },
  {
   "property": "C11",
   "status": "proved",
   "theorems": [
    "C11_boyer_lindquist_refuted",
    "C11_boyer_lindquist_inverse",
    "C11_kerr_inverse_spec",
    "C11_boyer_lindquist_inverse_time",
    "C11_boyer_lindquist_time_refuted",
    "C11_minkowski",
    "C11_boosted_minkowski",
    "C11_spherical_minkowski",
    "C11_spherical_minkowski_negative_refuted",
    "C11_flrw",
    "C11_snake",
    "C11_inchworm",
    "C11_spherical_kerr_schild",
    "C11_monopole"
   ],
   "note": "proved for Minkowski, boosted, spherical (X1>=0), FLRW, Snake, Inchworm, Kerr-Schild (X1>0, all spins) and the monopole metric (for exact profile derivatives); refuted for SphericalMinkowski at X1<0; BoyerLindquist's derivative routine is refuted at every point and spin (it differentiates the inverse metric)"
  },
  {
   "property": "C12",
   "status": "proved",
   "theorems": [
    "C12_minkowski",
    "C12_boosted_minkowski",
    "C12_spherical_minkowski",
    "C12_flrw",
    "C12_snake",
    "C12_inchworm",
    "C12_spherical_kerr_schild",
    "C12_monopole",
    "C12_assembly"
   ],
   "note": "every modelled system, and the generic assembly for an arbitrary symmetric differentiable metric"
  },
  {
   "property": "C13",
   "status": "proved",
   "theorems": [
    "C13_modified",
    "C13_modified_pullback",
    "C13_mgr_jacobian",
    "C13_mgr_inverse",
    "C13_fmks",
    "C13_mgr_range",
    "C13_sph2cart",
    "C13_monopole_cart",
    "C13_sph2cart_derivatives_refuted",
    "C13_fd_metric",
    "C13_fd_lapse",
    "C13_static_time_derivative",
    "C13_time_dependent_refuted"
   ],
   "note": "pull-back consistency for any base system/transformation with inverse Jacobians; MGR and spherical-to-Cartesian Jacobians and the FMKS chart; second-order error bound of the finite-difference derivatives. Refuted: time-dependent branch (wrong point and wrong Jacobian), GetCoordsAndDerivatives"
  },
  {
   "property": "C14",
   "status": "proved",
   "theorems": [
    "C14_reads_on_grid",
    "C14_derivatives",
    "C14_derivatives_fd",
    "C14_schedule_independent",
    "C14_interpolated_reads",
    "C14_interpolated_between",
    "C14_spacetime_inverse_offgrid_refuted",
    "C14_coords_shifted",
    "C14_coords_refuted"
   ],
   "note": "on-grid reads, stored and finite-difference derivatives, schedule independence, interpolated reads proved for every system/layout; refuted (the code violates them): Coords is shifted by one component, off-grid SpacetimeMetricInverse reads block 0's lapse; derivatives at faces read an uninitialised index and are excluded"
  },
  {
   "property": "C15",
   "status": "proved",
   "theorems": [
    "C15_orthonormal",
    "C15_default_trial",
    "C15_diagonal_trial",
    "C15_roundtrip",
    "C15_inner_products",
    "C15_observer_at_rest",
    "C15_trial_refuted"
   ],
   "note": "orthonormal and invertible for the default trial vector (the only one phoebus passes), for a spatial trial vector with diagonal metrics, and for any trial whose candidates are independent; refuted for a general trial vector (candidates can be dependent)"
  },
  {
   "property": "C16",
   "status": "proved",
   "theorems": [
    "C16_four_velocity",
    "C16_overloads_agree",
    "C16_four_velocity_onto",
    "C16_magnetic_field",
    "C16_systems"
   ],
   "note": "every 3+1 metric, every primitive velocity, both overloads; systems of C10 meet the hypothesis"
  },
  {
   "property": "C17",
   "status": "proved",
   "theorems": [
    "C17_face_ceiling_refuted",
    "C17_face_limits",
    "C17_limited_face_state",
    "C17_spec_mixed",
    "C17_conserved",
    "C17_fluxes",
    "C17_face_state_is_p2c",
    "C17_covariant_energy_error",
    "C17_covariant_energy_refuted"
   ],
   "note": "p2c in both formulations and all fluxes; the covariant energy density of the face state is wrong by sg*(alpha-1)*b^0 b_0 (refuted, the exact error is proved)"
  },
  {
   "property": "C18",
   "status": "proved",
   "theorems": [
    "C18_round_trip",
    "C18_inverse",
    "C18_solve_total",
    "C18_velocity_consistent",
    "C18_tiny_density_refuted",
    "C18_unconverged_success_refuted",
    "C18_unique",
    "C18_recovers",
    "C18_unique_unlimited",
    "C18_accuracy"
   ],
   "note": "round trip at mu = 1/(hW), the converse (every unlimited root of the residual is a preimage under p2c), and totality of the solver for every conserved state; refuted: the guard max(.,EPS) breaks the residual for energy densities below 10*2^-52, and an unconverged root search is reported as success. For an ideal gas with 1 <= Gamma <= 2 every conserved state has exactly one root in (0,1) (floors and ceilings included) and the returned root is within the tolerance of 1/(hW) unless the iteration limit is hit; for every causal differentiable equation of state there is at most one unlimited root; stored primitives tend to the original ones as the tolerance tends to 0"
  },
  {
   "property": "C19",
   "status": "proved",
   "theorems": [
    "C19_consistent",
    "C19_upwind",
    "C19_hll_fan",
    "C19_llf_fan",
    "C19_mirror",
    "C19_reflected_state",
    "C19_mass_bounds"
   ],
   "note": "LLF and HLL for arbitrary sides: consistency, upwinding, mirror symmetry (and prim_to_flux does map a reflected state to the mirrored side), conservation and Rankine-Hugoniot across the fan, mass positivity and mass-flux bounds for every pair of face states of prim_to_flux"
  },
  {
   "property": "C20",
   "status": "proved",
   "theorems": [
    "C20_limited_face_waves",
    "C20_face_advection",
    "C20_face_waves",
    "C20_cell_speeds",
    "C20_causal_refuted"
   ],
   "note": "face and cell speeds: bracketing of the advection speed and of all fronts up to the fast speed, exactness and causality when no guard acts; refuted: causality fails where the guard max(.,EPS) on the radicand acts (g^dd < EPS)"
  },
  {
   "property": "C21",
   "status": "proved",
   "theorems": [
    "C21_face_ceiling",
    "C21_face_ceiling_value_refuted",
    "C21_c2p_ceilings",
    "C21_c2p_clamped_velocity_refuted",
    "C21_c2p_ceiling_refuted",
    "C21_clamp",
    "C21_clamp_refuted",
    "C21_inside_unchanged",
    "C21_energy_ceiling_refuted"
   ],
   "note": "face states, con2prim_robust, fixup clamp, ApplyFloors. Proved: below the ceiling nothing changes; face Lorentz factor never above the ceiling; clamped velocity below a ceiling >= sqrt 2. Refuted: the rescaling factor sqrt(g^2-1)/(W^2-1) does not give the ceiling (above it for W^2<2), con2prim stores a velocity above the ceiling whenever it acts, the energy ceiling of ApplyFloors never lowers the energy"
  },
  {
   "property": "C22",
   "status": "proved",
   "theorems": [
    "C22_floors",
    "C22_floors_input_refuted",
    "C22_c2p_floors",
    "C22_increment",
    "C22_injection",
    "C22_injected_energy_refuted",
    "C22_apply_floors_density",
    "C22_sie_floor_refuted",
    "C22_failed_inversion_refuted",
    "C22_magnetic",
    "C22_magnetic_inside",
    "C22_magnetic_refuted",
    "C22_derived"
   ],
   "note": "GetFloors, con2prim_robust, ApplyFloors. Proved: floor profiles, c2p floors, size of the increment, what enters the conserved variables, final density. Refuted: ExpX1RhoU reads an uninitialised argument; injection adds B^2/2 of energy; dense cells stay below the specific energy floor; after a failed inversion the cell is set to the increment, below the floor"
  },
  {
   "property": "C23",
   "status": "proved",
   "theorems": [
    "C23_schedule_independent",
    "C23_fluid_repair",
    "C23_average_between",
    "C23_failed_data_unused",
    "C23_rad_repair",
    "C23_src_repair",
    "C23_nan_refuted",
    "C23_fluid_repair_with_radiation",
    "C23_fluid_repair_moments",
    "C23_rad_repair_state",
    "C23_src_repair_state",
    "C23_clamped_moments_refuted",
    "C23_src_flux_refuted",
    "C23_src_repair_thermodynamics"
   ],
   "note": "for every order and interleaving of the zone updates and every neighbour pattern with at least one good neighbour; neighbours' failed data never enters over the reals. Refuted in binary64: failed data that is NaN or infinite does enter, since the mask is a multiplication (0*NaN), and the result then depends on the order. The closure itself is a parameter of the radiation kernels"
  },
  {
   "property": "C24",
   "status": "proved",
   "theorems": [
    "C24_outflow",
    "C24_wall_and_axis",
    "C24_untouched",
    "C24_order",
    "C24_disabled",
    "C24_mass_budget",
    "C24_axis_radiation_refuted",
    "C24_composition_refuted"
   ],
   "note": "every boundary selection, block, flux field and loop order: outflow faces, walls, axis, frame, mass budget of a block. Refuted: on the axis the second radiation-flux component is not stopped; at outflow faces composition enters while the mass flux is zero. Without a magnetic field the polar branch indexes an invalid pack index (not modelled)"
  },
  {
   "property": "C25",
   "status": "proved",
   "theorems": [
    "C25_hyperbola",
    "C25_field_added",
    "C25_probe_restores",
    "C25_divb",
    "C25_rate_limits",
    "C25_lowering_refuted",
    "C25_settling_refuted",
    "C25_bookkeeping",
    "C25_unmatched_refuted",
    "C25_long_step_refuted",
    "C25_only_the_step",
    "C25_response",
    "C25_probe_left_refuted"
   ],
   "note": "every history of cycles and stages, number of partitions, interleaving of the task lists, measured fluxes, other physics and value returned by an out-of-contract std::clamp. Proved: controls change only in stage 1 at scheduled times, exactly one cadence per update, reductions matched, provided dt <= cadence and no late (re)start; the added field is divergence free and the probe cancels if all partitions remove it before any updates the controls; limits when the rate rises. Refuted: reductions left pending after a late restart or long step; std::clamp called with lo > hi whenever the rate must fall; the rate never settles; with several partitions the probe stays in the field under a list-by-list schedule."
  },
  {
   "property": "C26",
   "status": "proved",
   "theorems": [
    "C26_index_and_weights",
    "C26_bracket",
    "C26_node",
    "C26_between",
    "C26_affine_1d",
    "C26_multilinear_2d",
    "C26_multilinear_3d",
    "C26_single_node_index",
    "C26_piecewise_constant"
   ],
   "note": "over exact reals; the Linear class template is PARTHENON_FAIL('Not written yet') and excluded; the index -1 of a single-node axis is exhibited and is unreachable through Do"
  },
  {
   "property": "C27",
   "status": "proved",
   "theorems": [
    "C27_velocity",
    "C27_second_order",
    "C27_block_refuted",
    "C27_send_refuted",
    "C27_range",
    "C27_stored_motion",
    "C27_ye_refuted",
    "C27_bernoulli_refuted"
   ],
   "note": "every geometry, field, block and step. Proved for tracers in the first block of their pack in 3D: rhs is u^i/u^0 of the interpolated four-velocity; the update is second order with a constant uniform over fields; stored quantities between neighbours; stored motion and geometry right. Refuted: tracers in other blocks use block 0's velocity, the destination block is computed from the old position, Ye and the entropy's Ye are always 0, the Bernoulli number uses u^t with the wrong sign and energy density for specific energy. Geometry is queried at time 0"
  },
  {
   "property": "C28",
   "status": "proved",
   "theorems": [
    "C28_eddington_factor",
    "C28_lower_bound_refuted",
    "C28_realizable",
    "C28_realizable_refuted",
    "C28_m1_tensor",
    "C28_limits",
    "C28_projections",
    "C28_eddington_energy",
    "C28_energy_refuted",
    "C28_number_flux",
    "C28_number_flux_refuted",
    "C28_basis",
    "C28_iteration",
    "C28_domain",
    "C28_linear",
    "C28_con_tensor",
    "C28_con_prim_refuted"
   ],
   "note": "every metric, fluid velocity below the cap v^2=0.9999, flux factor. Proved: Eddington factor in [25/81,1] with the right limits, tensor transverse and traceless, thick and free-streaming limits, Eulerian momentum and pressure projections, iteration stays in [0,1]. Refuted: the factor dips below 1/3 for flux factors below 1/2 and below xi^2 above 0.65; the conserved energy uses W^2 v.v.Pi where the projection has v.v.Pi; the flux angle is never solved for, so the tensor from conserved moments is not that from primitive ones; the number flux uses the covariant flux"
  },
  {
   "property": "C29",
   "status": "proved",
   "theorems": [
    "C29_prim_con_prim",
    "C29_con_prim_con",
    "C29_success",
    "C29_eddington_regular",
    "C29_m1_regular",
    "C29_singular",
    "C29_singular_refuted",
    "C29_negative_energy_refuted",
    "C29_superluminal_flux",
    "C29_number",
    "C29_number_refuted",
    "C29_speed_cap_refuted"
   ],
   "note": "every metric, velocity below the cap, moments and tensor: both round trips whenever the 2x2 system is regular, status success for physical states, robust repair of superluminal flux. Regular always for Eddington; for M1 when W^2<=2.3. Refuted: singular M1 state at v=4/5; robust branch returns negative J unchanged; velocity above the cap; the number_conserve variant with anisotropic pressure along the motion"
  },
  {
   "property": "C30",
   "status": "proved",
   "theorems": [
    "C30_exchange",
    "C30_one_way",
    "C30_floor_refuted",
    "C30_unsuccessful_refuted",
    "C30_energy_ceiling_refuted",
    "C30_temperature",
    "C30_retry_refuted",
    "C30_fourd",
    "C30_rescue_refuted",
    "C30_fourd_force_refuted",
    "C30_cooling",
    "C30_cooling_energy_refuted",
    "C30_lightbulb_refuted",
    "C30_cooling_energy",
    "C30_lightbulb",
    "C30_lightbulb_exact",
    "C30_fourd_force"
   ],
   "note": "Every source solver, species count, metric, fluid and inversion: C30_exchange, C30_one_way, C30_temperature, C30_fourd; exact accounts for every metric, velocity and opacity: C30_fourd_force, C30_cooling, C30_cooling_energy, C30_lightbulb, C30_lightbulb_exact. Violations: C30_floor_refuted, C30_unsuccessful_refuted, C30_energy_ceiling_refuted, C30_retry_refuted, C30_rescue_refuted, C30_fourd_force_refuted, C30_cooling_energy_refuted, C30_lightbulb_refuted. Monte Carlo deposition is C44, MOCMC exchange is C50."
  },
  {
   "property": "C31",
   "status": "proved",
   "theorems": [
    "C31_backward_euler",
    "C31_positive",
    "C31_energy_positive_refuted",
    "C31_equilibrium",
    "C31_transparent",
    "C31_m1_refuted"
   ],
   "note": "energy_conserve equation, every metric, velocity below the cap, opacity, step. Proved for tensors without component along the motion (Eddington closure or matter at rest): exact and unique backward-Euler step stated with the four-force, J >= 0, equilibrium limits with explicit rates. Refuted: the updated conserved energy can be negative (Eddington, v=4/5); with the M1 tensor of a beam J becomes negative and absorption increases the momentum"
  },
  {
   "property": "C32",
   "status": "proved",
   "theorems": [
    "C32_slice_metric",
    "C32_constraints",
    "C32_slicing_rows",
    "C32_slicing",
    "C32_lapse",
    "C32_interpolate",
    "C32_interpolate_lower",
    "C32_projection",
    "C32_average",
    "C32_schedule",
    "C32_mean",
    "C32_shift_refuted",
    "C32_cartesian_refuted",
    "C32_partitions_refuted",
    "C32_timestep",
    "C32_calls_refuted",
    "C32_flat",
    "C32_flat_refuted",
    "C32_centre",
    "C32_order_refuted",
    "C32_gauge",
    "C32_rates_refuted",
    "C32_static"
   ],
   "note": "every radial grid, matter profile, zone list and order of the atomic additions. Proved: the metric used elsewhere is the areal one; the integrated equations hold exactly when the Hamiltonian and the three momentum constraints hold; each lapse row is the central difference of the maximal slicing condition with the regular centre and Robin outer rows; the sweeps solve the system uniquely, the lapse lies in (0,1] and grows outwards when 3K^2+8pi(rho+S) >= 0 and the grid resolves a; shift and da/dt follow from the gauge; interpolation is exact on quadratics between the three points it selects; projections of the stress-energy tensor; averaging conserves volume and matter, in any order; time step bound. Refuted: dK/dt is off by -4 alpha K^2; a'/r is set to 1 for r <= 0.01, so flat space has dK/dt = 2 there; the radial step is first order; matter is shifted by half a cell; Cartesian zones with negative projected width are lost; with several partitions only the last one counts; the solver runs one time more than requested."
  },
  {
   "property": "C33",
   "status": "proved",
   "theorems": [
    "C33_ghost_zones",
    "C33_interior_untouched",
    "C33_wall",
    "C33_no_inflow",
    "C33_no_inflow_refuted",
    "C33_radiation_inflow",
    "C33_polar_radiation_refuted",
    "C33_converted",
    "C33_converted_conserved",
    "C33_checked_outflow",
    "C33_conserved_radiation_refuted"
   ],
   "note": "every block, combination of conditions, pack layout, loop order and stale ghost data: faces, edges and corners, signs, densitisation, interior untouched; outflow velocity and radiation-flux checks at outer x1 over the reals. Refuted: with fast tangential motion (remaining speed >= 1) the outer x1 check stores NaN; across the polar axis the x2 component of the radiation flux keeps its sign. ConvertBoundaryConditions: c2p and the radiation conversion are parameters (any function of the zone), p2c is the model of C17. Not modelled: the swarm boundaries; coarse buffers query the volume element with coarse indices (det is a parameter)"
  },
  {
   "property": "C34",
   "status": "proved",
   "theorems": [
    "C34_accepts",
    "C34_inverse",
    "C34_dimensions",
    "C34_constants",
    "C34_boltzmann_refuted",
    "C34_scale_free_refuted",
    "C34_scales",
    "C34_zero_refuted",
    "C34_rounding",
    "C34_rounding_refuted"
   ],
   "note": "every input, any positive constants and scales. Also shown: zero scales are accepted and give NaN factors; the code value of k_B is 1/energy unit, not 1 as the comment says; scale-free constants keep their cgs values; in binary64 a factor times its inverse is 1 or 1 - 2^-53."
  },
  {
   "property": "C35",
   "status": "proved",
   "theorems": [
    "C35_sum",
    "C35_rounding_refuted",
    "C35_max",
    "C35_gain",
    "C35_gain_refuted",
    "C35_horizon",
    "C35_jet",
    "C35_flux_densities",
    "C35_energy_flux_error",
    "C35_energy_flux_noshift",
    "C35_energy_flux_refuted",
    "C35_mdot",
    "C35_mdot_block"
   ],
   "note": "every reduction tree that visits every zone once, field, mesh and metric. Proved: sums, maxima, gain-region integrals when all blocks share the determinant (or the variable is conserved), horizon integrals of fluxes linear across the horizon, jet cut, mass flux, magnetization, momentum and magnetic flux densities, accretion rate. Refuted: independence of the tree in binary64, block-0 determinant in the gain integrals, and the EM energy flux (its error term is given exactly; right only with zero shift and B.v = 0)."
  },
  {
   "property": "C36",
   "status": "proved",
   "theorems": [
    "C36_bl_is_kerr_schild"
   ],
   "note": "pull-back identity for every spin and every radius off the horizons"
  },
  {
   "property": "C37",
   "status": "proved",
   "theorems": [
    "C37_flat",
    "C37_wiggled_flat",
    "C37_kerr_schild_embedding",
    "C37_kerr_schild_form"
   ],
   "note": "explicit flat charts"
  },
  {
   "property": "C38",
   "status": "proved",
   "theorems": [
    "C38_divb_preserved",
    "C38_symmetric_axis",
    "C38_consistent",
    "C38_others_untouched",
    "C38_axis_refuted"
   ],
   "note": "every flux field, block decomposition, boundary selection and loop order, 2D and 3D, FluxCT followed by FixFluxes, nodes on block faces/edges/corners included. Refuted on a polar axis with non-vanishing edge electric field: FixFluxes runs after FluxCT and zeroes the x2 flux of B1 without adjusting the x1 flux of B2. Uniform zone widths; parthenon's FluxDivergence is modelled as flux differences"
  },
  {
   "property": "C39",
   "status": "proved",
   "theorems": [
    "C39_cfl",
    "C39_nan_refuted"
   ],
   "note": "every speed field, block and reduction order over the reals. Refuted in binary64: a zone with a NaN speed is ignored by the minimum. Kokkos' reduction tree is abstracted as a fold in arbitrary order"
  },
  {
   "property": "C40",
   "status": "proved",
   "theorems": [
    "C40_stress_energy",
    "C40_momentum",
    "C40_energy_valencia",
    "C40_energy_covariant",
    "C40_closed_form",
    "C40_evolution"
   ],
   "note": "every system whose queries satisfy C10/C11 at the cell, every smooth symmetric tensor field; momentum, Valencia energy and covariant energy; evolution of the variables stored by p2c under nabla T = 0. Real arithmetic; the diagnostics copies are not modelled"
  },
  {
   "property": "C41",
   "status": "proved",
   "theorems": [
    "C41_ye",
    "C41_ye_bounds",
    "C41_ye_history",
    "C41_ye_relaxes",
    "C41_fit",
    "C41_tau",
    "C41_net",
    "C41_gain",
    "C41_gain_history",
    "C41_restart_refuted",
    "C41_partitions_refuted"
   ],
   "note": "every input and history. Proved: the exact change of Ye in each case, bounds, the fit lies in [0.28, 0.47] and decreases (so Ye never falls below 0.28), geometric relaxation at fixed density; optical depth continuous, increasing, above 100 exactly for rho > 10^(5729/420); sign of the net rate; with one partition per rank the switch is right for every legal task order and whole histories. Refuted: the switch is forgotten by a restart; with several partitions per rank a legal order computes the force from last step's optical depths without heating."
  },
  {
   "property": "C42",
   "status": "proved",
   "theorems": [
    "C42_mixing",
    "C42_blend",
    "C42_streaming",
    "C42_positive",
    "C42_diffusion",
    "C42_fick",
    "C42_fick_refuted",
    "C42_gradient",
    "C42_face_bounds",
    "C42_ceiling_refuted",
    "C42_zone_roundtrip",
    "C42_flag",
    "C42_flag_refuted",
    "C42_assemble",
    "C42_balance",
    "C42_source",
    "C42_consistent"
   ],
   "note": "proved for the Eddington and M1 closures in every spacetime: reassembly of the stress-energy tensor, geometric sources and balance laws, consistency of the numerical flux (up to the energy term of C28), bounds and limits of the blending weight, light-speed bounds and positivity of a first-order streaming step, diffusion limit with explicit error O(1/tau), Fick's law for continuous states, exact gradients, floors and ceilings, round trip of a zone. Refuted: with piecewise-constant reconstruction the diffusive flux is 5/2 times too large; the clipped face velocity has the ceiling as its Lorentz factor only if W^2 = 2; with several species the failure flag of a zone is overwritten by the last species. MOCMC branches are not modelled; streaming bounds are stated for weight a = 1 (the flux is the exact blend C42_blend)."
  },
  {
   "property": "C43",
   "status": "proved",
   "theorems": [
    "C43_conserved_momentum",
    "C43_conserved",
    "C43_time",
    "C43_flat",
    "C43_source",
    "C43_order",
    "C43_second_order_refuted"
   ],
   "note": "every geometry; conserved momenta by induction over the steps; order of accuracy for every light ray with bounded derivatives on a region where the rates are Lipschitz; the order is sharp (refuted: second order)"
  },
  {
   "property": "C44",
   "status": "proved",
   "theorems": [
    "C44_unbiased",
    "C44_energy",
    "C44_quadrature",
    "C44_frequency",
    "C44_sampler",
    "C44_isotropic",
    "C44_packet",
    "C44_slots",
    "C44_exchange",
    "C44_conserved",
    "C44_lepton",
    "C44_lepton_refuted",
    "C44_eulerian_energy_refuted",
    "C44_absorption",
    "C44_optical_depth",
    "C44_optical_depth_refuted",
    "C44_tuning_bounded",
    "C44_tuning_oscillates_refuted",
    "C44_scattering_refuted"
   ],
   "note": "every emissivity, metric and random stream over the reals; expectations as integrals over uniform random numbers; conservation by induction over runs with arbitrary permutations of the deposits; refuted: lepton factor u^0, Eulerian energy, opacity of moving matter, oscillating tuning, unbounded scattering factor. Outside the model: particle communication between blocks, remove_emitted_particles, the quality of the random generator"
  },
  {
   "property": "C45",
   "status": "proved",
   "theorems": [
    "C45_step",
    "C45_schedule_refuted",
    "C45_sourceless",
    "C45_methods",
    "C45_vl2_refuted",
    "C45_ssp",
    "C45_second_order",
    "C45_mass_conserved",
    "C45_geometry_time",
    "C45_abscissa",
    "C45_geometry_time_refuted",
    "C45_dt",
    "C45_reaches_tlim",
    "C45_dt_init_refuted",
    "C45_stages_stop",
    "C45_status_refuted"
   ],
   "note": "every table, right-hand side and legal order, over the reals; refuted: order without sources, dt_init, masked failure, rk3 geometry time, vl2. Assumed from Parthenon (not in the repository): the semantics of AverageIndependentData, UpdateIndependentData, FluxDivergence, SumData, the task rule and the integrator tables"
  },
  {
   "property": "C46",
   "status": "proved",
   "theorems": [
    "C46_face_flux",
    "C46_no_stale",
    "C46_shared_face",
    "C46_uniform_flow",
    "C46_mirror",
    "C46_positivity",
    "C46_cfl_positivity",
    "C46_radiation_layout",
    "C46_positivity_curved",
    "C46_curved_cfl_refuted"
   ],
   "note": "Model/FluxKernel.v models fluid.cpp:659-773 on one block (loops as parallel bodies in any order over arrays with arbitrary previous content); positivity: C46_positivity and C46_cfl_positivity for first-order reconstruction in uniform geometry, C46_positivity_curved for every geometry and reconstruction under the stated condition; violation C46_curved_cfl_refuted (the code's own step empties the innermost zone of a spherical grid); the mirror theorem is for fluxes along the reflected axis."
  },
  {
   "property": "C47",
   "status": "proved",
   "theorems": [
    "C47_thermo",
    "C47_entropy",
    "C47_static_star",
    "C47_static_star_nonvacuous",
    "C47_mass",
    "C47_profile",
    "C47_matter",
    "C47_surface",
    "C47_centre",
    "C47_order_refuted",
    "C47_threshold_refuted",
    "C47_cells",
    "C47_perturbation_refuted"
   ],
   "note": "Model/TOV.v; Spec/StarSpec.v states static Einstein equations with the 3+1 specification of C32. Hypotheses r > 2m for the monotone profile, as in the statement. Violations: C47_order_refuted, C47_threshold_refuted, C47_perturbation_refuted. Existence of local solutions (the hypotheses of C47_static_star) is C47_static_star_nonvacuous."
  },
  {
   "property": "C48",
   "status": "proved",
   "theorems": [
    "C48_norm",
    "C48_critical",
    "C48_guess",
    "C48_temperature",
    "C48_far_refuted",
    "C48_sonic_refuted",
    "C48_thermo",
    "C48_transform",
    "C48_steady",
    "C48_spin_refuted",
    "C48_shift"
   ],
   "note": "Steady flow proved for cells with r > 2 (no spin, not excised); cells moved out of the excised region only get the norm theorem. Three violations are proved as _refuted."
  },
  {
   "property": "C49",
   "status": "proved",
   "theorems": [
    "C49_velocity",
    "C49_equilibrium",
    "C49_lfish",
    "C49_maximum",
    "C49_cell_floor",
    "C49_cell",
    "C49_edge",
    "C49_field",
    "C49_grid",
    "C49_beta_meaning",
    "C49_beta",
    "C49_unmagnetized",
    "C49_tracers",
    "C49_tracers_refuted",
    "C49_tracer_mass",
    "C49_tracer_mass_refuted",
    "C49_tracer_place"
   ],
   "note": "Ideal gas. Equilibrium and velocity for r > 2 (outside, the root the code takes is the future one for every spin). The stellar-collapse adiabat and the radiation fields of the setup are not modelled. Two violations are proved as _refuted."
  },
  {
   "property": "C50",
   "status": "proved",
   "theorems": [
    "C50_quadrature",
    "C50_solid_angle",
    "C50_cover",
    "C50_rectangles_refuted",
    "C50_sign_refuted",
    "C50_shift_refuted",
    "C50_traceless",
    "C50_realizable",
    "C50_no_samples",
    "C50_isotropic",
    "C50_eddington_refuted",
    "C50_grid",
    "C50_doppler",
    "C50_doppler_rest",
    "C50_opacity",
    "C50_kappa",
    "C50_one_bin_refuted",
    "C50_mean_intensity",
    "C50_exchange",
    "C50_no_fluid",
    "C50_first_call",
    "C50_source",
    "C50_sample_update",
    "C50_absorption_refuted",
    "C50_index",
    "C50_init",
    "C50_init_intensity",
    "C50_boundary",
    "C50_periodic_refuted",
    "C50_floor",
    "C50_time_refuted",
    "C50_order_refuted",
    "C50_owners",
    "C50_tiling",
    "C50_owners_outside",
    "C50_two_owners_refuted"
   ],
   "note": "Owners of a direction are counted without proviso (C50_owners: one more than the reversed owners; C50_owners_outside; C50_tiling for grids without reversed rectangles; C50_two_owners_refuted shows the reversal happens). Backward Euler step for tensors without a component along the velocity. Violations are proved as _refuted. Swarm sorting and communication are not modelled."
  },
  {
   "property": "C51",
   "status": "proved",
   "theorems": [
    "C51_nan",
    "C51_guess_refuted",
    "C51_passes",
    "C51_range",
    "C51_success",
    "C51_descent",
    "C51_exact_guess",
    "C51_low_density_refuted",
    "C51_ye_refuted",
    "C51_covariant_refuted",
    "C51_guess",
    "C51_signal",
    "C51_signal_refuted",
    "C51_round_trip",
    "C51_inverse"
   ],
   "note": "Every sentence of the statement is proved; the sentences after Violated are proved as _refuted. The statement does not claim that the Newton iteration converges from an arbitrary guess, and it does not: see the _refuted theorems. The kernels never pass their block index on, which is harmless because the only instantiation is on one block at a time (fluid.cpp:71)."
  },
  {
   "property": "C52",
   "status": "proved",
   "theorems": [
    "C52_eigenmode",
    "C52_eigenmode_1d",
    "C52_normalised",
    "C52_data",
    "C52_data_1d",
    "C52_entropy",
    "C52_gamma_refuted",
    "C52_flat",
    "C52_chart",
    "C52_snake_time",
    "C52_shift_period_refuted",
    "C52_inchworm_refuted"
   ],
   "note": "Proved for the tabulated modes, at the tolerance 1e-10 of the 12-digit table, with pi bounded rigorously. Refutations: the table is only right for Gamma = 4/3 but any eos Gamma is accepted; in inchworm coordinates the Jacobian used is not that of the chart; with a shift the wave does not return to the initial data at tlim."
  },
  {
   "property": "C53",
   "status": "proved",
   "theorems": [
    "C53_pulse_diffuses",
    "C53_pulse_data",
    "C53_pulse_at_rest",
    "C53_optical_depth",
    "C53_velocity",
    "C53_shear",
    "C53_shock_tube_velocity_refuted",
    "C53_homologous_velocity_refuted",
    "C53_shock_tube_ye_refuted",
    "C53_rotor_rigid",
    "C53_rotor_field",
    "C53_rotor_velocity",
    "C53_rotor_time",
    "C53_friedmann_refuted",
    "C53_energy",
    "C53_energy_tolerance_refuted",
    "C53_blast_exact",
    "C53_blast_data",
    "C53_blast_outside",
    "C53_sedov",
    "C53_sedov_1d_refuted"
   ],
   "note": "Proved for the data as exact reals (rounding, temperature and Gamma_1 not modelled). The refutations are listed in the statement: tolerance of energy_from_rho_P, 1-D/2-D Sedov energy, shock-tube and progenitor velocities, shock-tube Ye, friedmann index shadowing, rotor final time per block. That the driver reads the final time after all blocks are initialised is taken from Parthenon, whose source is not in the repository."
  },
  {
   "property": "C54",
   "status": "proved",
   "theorems": [
    "C54_interp",
    "C54_samples",
    "C54_temperatures",
    "C54_read_back",
    "C54_entropy_refuted",
    "C54_min_enthalpy",
    "C54_state",
    "C54_bounds",
    "C54_table"
   ],
   "note": "Proved for arbitrary continuous monotone entropy functions, with the hypothesis that the root searches do not use up their 2^31-1 iterations (shown for linear residuals). Spiner's interpolation (external) is modelled from its documentation. C54_entropy_refuted: the table is read back with a different spacing than it was filled with."
  },
  {
   "property": "C55",
   "status": "proved",
   "theorems": [
    "C55_read",
    "C55_rectangular",
    "C55_profile",
    "C55_positive",
    "C55_profile_iff",
    "C55_nonuniform_refuted",
    "C55_zone",
    "C55_zone_sph",
    "C55_sources",
    "C55_outside_refuted",
    "C55_mass_refuted",
    "C55_mass_shells"
   ],
   "note": "The reading, interpolation and placement are proved for all files and zones; Spiner's interpolation (external library) is modelled from its documentation. Violations: C55_nonuniform_refuted and the equivalence C55_profile_iff, C55_outside_refuted, C55_mass_refuted (what the loop accumulates before it reads out of bounds is C55_mass_shells). The zone's internal energy and temperature (EOS calls) and the polar axis are not covered."
  },
  {
   "property": "C56",
   "status": "proved",
   "theorems": [
    "C56_horizon",
    "C56_isco_exist",
    "C56_isco_refuted",
    "C56_isco_schwarzschild_refuted",
    "C56_x0",
    "C56_x0_refuted"
   ],
   "note": "C56_isco_exist characterises the marginally stable orbits from the Kerr metric (stationary energy of circular equatorial geodesics), C56_isco_refuted shows the stored radii too small for every spin 0 <= a < 1; C56_x0_refuted. The meaning of 'innermost stable' is taken as marginal stability of the family of circular orbits."
  },
  {
   "property": "C57",
   "status": "proved",
   "theorems": [
    "C57_coefficients",
    "C57_accepts",
    "C57_scattering",
    "C57_mean_scattering",
    "C57_mean_scale_free",
    "C57_mean_twice",
    "C57_mean_refuted"
   ],
   "note": "The classes of singularity-opac are external and modelled from their documentation (stated in Model/Opacity.v); the logarithmic tables of the means are taken as exact. C57_mean_refuted and C57_mean_twice: double unit conversion of the mean absorption opacity."
  },
  {
   "property": "C58",
   "status": "proved",
   "theorems": [
    "C58_switches",
    "C58_floors",
    "C58_sie_floor_refuted",
    "C58_ceilings",
    "C58_strategies",
    "C58_accepts",
    "C58_fluid",
    "C58_dimension",
    "C58_restart",
    "C58_order",
    "C58_tov_static_refuted",
    "C58_lightbulb_dt_refuted",
    "C58_order_rad_refuted"
   ],
   "note": "Switches, floors (density for all types, energy for ConstantRhoSie, ExpX1RhoSie, ExpX1RhoU), ceilings, strategies, fluid methods, acceptance, restart and package order. Violated: floor types X1RhoSie and RRhoSie read u0_floor instead of sie0_floor, so the shipped tov-static.pin has no energy floor (C58_sie_floor_refuted, C58_tov_static_refuted); the light bulb's exemption from the radiation time step is dead code because do_lightbulb is shadowed (C58_lightbulb_dt_refuted); physics/rad has a default only in a package set up after the one that requires it (C58_order_rad_refuted)."
  },
  {
   "property": "C59",
   "status": "proved",
   "theorems": [
    "C59_step",
    "C59_order",
    "C59_light",
    "C59_no_moments",
    "C59_flux_speed",
    "C59_shift_refuted",
    "C59_positive",
    "C59_spike",
    "C59_multid_refuted",
    "C59_thick_refuted"
   ],
   "note": "C59_step, C59_order, C59_light, C59_flux_speed, C59_positive, C59_spike hold; C59_multid_refuted, C59_thick_refuted and C59_shift_refuted show where the step does not keep energies non-negative or bound the flux speed."
  },
  {
   "property": "C60",
   "status": "proved",
   "theorems": [
    "C60_thermodynamics",
    "C60_divergence",
    "C60_continuum",
    "C60_telescopes",
    "C60_memory_refuted",
    "C60_shift_refuted",
    "C60_slice",
    "C60_width",
    "C60_width_refuted"
   ],
   "note": "C60_thermodynamics, C60_divergence, C60_continuum, C60_telescopes, C60_slice, C60_width; violations C60_memory_refuted, C60_shift_refuted, C60_width_refuted. The tracer refill at the end of the routine is C27."
  },
  {
   "property": "C61",
   "status": "proved",
   "theorems": [
    "C61_mesh_volume",
    "C61_mesh_volume_refuted",
    "C61_unbalanced_refuted",
    "C61_block_volume",
    "C61_share",
    "C61_total",
    "C61_total_refuted",
    "C61_ids",
    "C61_ids_refuted",
    "C61_placement",
    "C61_mass_if_counted",
    "C61_mass_refuted",
    "C61_mass_infinite_refuted",
    "C61_purge",
    "C61_purge_refuted",
    "C61_advection_share",
    "C61_advection_1d_refuted"
   ],
   "note": "C61_mesh_volume, C61_block_volume, C61_share, C61_total, C61_ids, C61_placement, C61_mass_if_counted, C61_purge, C61_advection_share; violations C61_mesh_volume_refuted, C61_unbalanced_refuted, C61_total_refuted, C61_ids_refuted, C61_mass_refuted, C61_mass_infinite_refuted, C61_purge_refuted, C61_advection_1d_refuted."
  },
  {
   "property": "C62",
   "status": "proved",
   "theorems": [
    "C62_report",
    "C62_order",
    "C62_total",
    "C62_lines",
    "C62_overflow_refuted",
    "C62_threads_refuted",
    "C62_ranks_refuted"
   ],
   "note": "C62_report, C62_order, C62_total, C62_lines; violations C62_overflow_refuted, C62_threads_refuted, C62_ranks_refuted."
  },
  {
   "property": "C63",
   "status": "proved",
   "theorems": [
    "C63_deck",
    "C63_restart",
    "C63_spacetime",
    "C63_spacetime_refuted",
    "C63_flrw_lifetime",
    "C63_rest",
    "C63_rest_snake",
    "C63_boost_refuted",
    "C63_spin_refuted"
   ],
   "note": "Deck to geometry (both directions), restart stability, exact characterisation of the regular decks (iff), lifetime of a collapsing universe, subluminality of zones (iff). The unguarded decks are stated as _refuted theorems. FMKS set-up is C56, the monopole geometry C32; parthenon's parameter parser is modelled as in C58."
  },
  {
   "property": "C64",
   "status": "proved",
   "theorems": [
    "C64_cut",
    "C64_two_cuts",
    "C64_stale_repair_refuted",
    "C64_zone_update"
   ],
   "note": "Stage-by-stage simulation of the cut run by the whole-mesh run, any number of stages and blocks; reach of the fluid update proved from the flux kernel model. The dependence on the cut when an edge zone fails is C64_stale_repair_refuted. Not modelled: physical boundary conditions, mesh refinement, the radiation source step; the exchange copies the owner's zones exactly."
  },
  {
   "property": "C65",
   "status": "proved",
   "theorems": [
    "C65_geometry_report",
    "C65_geometry_schedule",
    "C65_geometry_negative_refuted",
    "C65_geometry_nan_refuted",
    "C65_recovery_report",
    "C65_recovery_profiles",
    "C65_recovery_rows_refuted",
    "C65_recovery_nan_refuted"
   ],
   "note": "Exact characterisation (iff) of both reports over the reals and independence of the reduction order; NaN blindness in binary64; the blind spots are _refuted theorems. The geometry and the inversions being checked are C10-C14 and C17-C18."
  },
  {
   "property": "C66",
   "status": "proved",
   "theorems": [
    "C66_range",
    "C66_no_overshoot",
    "C66_relaxation",
    "C66_equilibrium",
    "C66_zone_step",
    "C66_step_exists",
    "C66_equilibration_run",
    "C66_blocks_refuted",
    "C66_stationary_temperature",
    "C66_stationary",
    "C66_stationary_closures"
   ],
   "note": "Discrete maximum principle, monotone relaxation, geometric rate, unique equilibrium, existence of the step (intermediate value theorem) and the link to the oned solver and the set-up. The temperature solve is taken as exact for the energy balance (its tolerance is C30_temperature); the fluid inversion at rest is C18. Params::Add is external (parthenon) and modelled from its documentation."
  },
  {
   "property": "C67",
   "status": "proved",
   "theorems": [
    "C67_names",
    "C67_starts",
    "C67_consistent",
    "C67_wall_refuted",
    "C67_poles_refuted",
    "C67_samples_refuted"
   ],
   "note": "All decks; start-up characterised exactly for well-typed decks. That a registered name yields boundary_flag user and the registered function is Parthenon's and assumed; names Parthenon provides itself (periodic, outflow, reflecting) are not phoebus conditions in the model."
  },
  {
   "property": "C68",
   "status": "proved",
   "theorems": [
    "C68_starts",
    "C68_problem",
    "C68_restart_refuted"
   ],
   "note": "Exact characterisation for decks whose three switches are booleans. Other requirements of individual generators (equation of state, numbers) are not part of it; that Parthenon does not call the generator on a restart and that a missing parameter throws is assumed."
  },
  {
   "property": "C69",
   "status": "proved",
   "theorems": [
    "C69_budget",
    "C69_output_refuted",
    "C69_unsplit",
    "C69_restart",
    "C69_restart_refuted",
    "C69_order_refuted"
   ],
   "note": "Rates, conversion with repairs and floors, and source are arbitrary functions; the budget needs transport and repair to keep the total, the others that no zone is floored. That Parthenon converts again on a restart is assumed (it does so in Mesh::Initialize; PostInitializationCommunication in /repo does it when enabled). Monte Carlo applies its force in the same place but is not included."
  },
  {
   "property": "C70",
   "status": "proved",
   "theorems": [
    "C70_boxes",
    "C70_boxes_total",
    "C70_lepton_start",
    "C70_thin_start",
    "C70_cooling",
    "C70_cooling_accuracy",
    "C70_overcool_refuted",
    "C70_sphere",
    "C70_sphere_cartesian_refuted",
    "C70_sphere_velocity_refuted"
   ],
   "note": "Exact arithmetic; the gas is uniform and at rest in Minkowski space, its primitives are the exact inverse of the conserved state. The tophat emissivity (energy and number emitted proportional to 2 Ye or 1 - 2 Ye) is that of singularity-opac, which is not in /repo."
  },
  {
   "property": "C71",
   "status": "proved",
   "theorems": [
    "C71_zones",
    "C71_repeat",
    "C71_gray",
    "C71_units_refuted"
   ],
   "note": "One block; the opacity object is arbitrary in C71_zones and C71_repeat, and Model/Opacity.v's (whose singularity-opac classes are modelled from documentation) in C71_gray. Pack positions follow the list of names (Parthenon). With MOCMC the update does nothing."
  }
 ]
}