{
 "claims": [
  {
   "property": "C01",
   "status": "proved",
   "theorems": [
    "C01_raw_moments",
    "C01_raw_moments_2d",
    "C01_scalar_input"
   ],
   "note": "Improper Riemann integral against the normal density (Gaussian integral proved from scratch). Vectors of any length; matrices for the orders 1..8 (order 0 of a matrix input returns a 1-D array of ones)."
  },
  {
   "property": "C02",
   "status": "proved",
   "theorems": [
    "C02_dm",
    "C02_ds",
    "C02_local"
   ],
   "note": "Every order 1..8, every position; positions do not interact."
  },
  {
   "property": "C03",
   "status": "partial",
   "theorems": [
    "C03_format",
    "C03_format_stray",
    "C03_mismatch_partial",
    "C03_mismatch_refuted",
    "C03_order",
    "C03_shapes_match"
   ],
   "note": "Orders: exact for every integer. Finding: gaussian_moments.py:31 has a malformed format string '{2)', so a shape mismatch raises ValueError, never the intended RuntimeError (C03_mismatch_partial, C03_mismatch_refuted; small model of str.format). C03_format: a format string whose fields are all written {i} is filled in, so this error is due to the string alone. C03_format_stray: any format string with an unmatched brace raises ValueError unless a field before it fails (fields with nested braces not covered)."
  },
  {
   "property": "C04",
   "status": "proved",
   "theorems": [
    "C04_matrix",
    "C04_scalar",
    "C04_vector"
   ],
   "note": "Scalar, vector and matrix valued samples; any sorted obs_t, with repetitions or indexes beyond the array. Exact arithmetic."
  },
  {
   "property": "C05",
   "status": "proved",
   "theorems": [
    "C05_affine",
    "C05_linear",
    "C05_nonneg"
   ],
   "note": "Linearity, positivity, exactness on affine samples (Riemann integral)."
  },
  {
   "property": "C06",
   "status": "proved",
   "theorems": [
    "C06_inverse",
    "C06_scalar",
    "C06_solve_unique"
   ],
   "note": "Any dimension, exact arithmetic. Also: the triangular system has a unique solution, so modelling numpy's solve by forward substitution loses nothing."
  },
  {
   "property": "C07",
   "status": "proved",
   "theorems": [
    "C07_matrix",
    "C07_not_square",
    "C07_scalar",
    "C07_vector"
   ],
   "note": "Determinant: Laplace expansion along the first column (Spec_Det.v)."
  },
  {
   "property": "C08",
   "status": "proved",
   "theorems": [
    "C08_bounds",
    "C08_monotone"
   ],
   "note": "All reals, clamp bounds exactly 1e-300 and 1e300 (decimal values)."
  },
  {
   "property": "C09",
   "status": "proved",
   "theorems": [
    "C09_evaluations",
    "C09_quadratic_exact",
    "C09_scalar_input",
    "C09_second_order"
   ],
   "note": "Evaluation log, exactness on quadratics, O(h^2) bound (needs three derivatives on a ball slightly larger than h)."
  },
  {
   "property": "C10",
   "status": "partial",
   "theorems": [
    "C10_affine_partial",
    "C10_covariance_refuted",
    "C10_kappa_pos",
    "C10_quadratic_mean",
    "C10_sigma_points"
   ],
   "note": "Sigma points, mean of affine and quadratic maps: proved. Finding: the returned covariance is B S B' + kappa(d) ybar ybar' with kappa > 0 (weights subtracted along the wrong axis), so it is exact only when the mean is zero (C10_affine_partial, C10_covariance_refuted)."
  },
  {
   "property": "C11",
   "status": "proved",
   "theorems": [
    "C11_bwd_lengths",
    "C11_bwd_shape_boundary",
    "C11_bwd_total",
    "C11_fwd_lengths",
    "C11_fwd_shape_boundary",
    "C11_fwd_total"
   ],
   "note": "For every Num (so also binary64). *_total: the sweeps raise no IndexError when the arrays have the grid length. *_lengths: which lengths of the arrays raise IndexError."
  },
  {
   "property": "C12",
   "status": "partial",
   "theorems": [
    "C12_cov_1d_partial",
    "C12_cov_nd_partial",
    "C12_mean_1d",
    "C12_mean_nd",
    "C12_rk2_covariance_refuted"
   ],
   "note": "Finding: runge_kutta2.py:96 passes sk where the coefficient ak belongs, so the RK2 covariance step is not the mid-point rule (C12_rk2_covariance_refuted). Means: all methods, 1-D and n-D; covariances: Euler, Heun, RK4."
  },
  {
   "property": "C13",
   "status": "partial",
   "theorems": [
    "C13_lam_1d",
    "C13_lam_nd_code",
    "C13_lam_nd_partial",
    "C13_lam_nd_refuted",
    "C13_psi_1d",
    "C13_psi_nd"
   ],
   "note": "Finding: ode_solver.py:77 (n-D) integrates lambda with A instead of its transpose (C13_lam_nd_code, C13_lam_nd_refuted). Full for 1-D, for psi n-D, and for lambda n-D with symmetric A."
  },
  {
   "property": "C14",
   "status": "partial",
   "theorems": [
    "C14_error_bound",
    "C14_mean_closed_form",
    "C14_rk2_variance_refuted",
    "C14_var_closed_form_partial"
   ],
   "note": "Mean: all methods, closed form and order. Variance: Euler, Heun, RK4. Finding: the RK2 variance is not second order (C14_rk2_variance_refuted), same cause as C12."
  },
  {
   "property": "C15",
   "status": "proved",
   "theorems": [
    "C15_covariance_symmetric",
    "C15_psi_symmetric"
   ],
   "note": "All methods, any dimension, arbitrary A(t)."
  },
  {
   "property": "C16",
   "status": "partial",
   "theorems": [
    "C16_midpoint_rule_positive",
    "C16_rk2_refuted",
    "C16_variance_positive"
   ],
   "note": "Proved for all four methods under rate_ok. Finding: RK2 needs 2*a*dt <= 1 (rate_ok) because of runge_kutta2.py:96; inside [0,2), where the mid-point rule is positive, the code returns a negative variance (C16_rk2_refuted)."
  },
  {
   "property": "C17",
   "status": "partial",
   "theorems": [
    "C17_jump_1d",
    "C17_jump_nd",
    "C17_last_point_refuted"
   ],
   "note": "Proved for every index but the last. Finding: the jump at the last grid point is never used by any backward sweep (C17_last_point_refuted)."
  },
  {
   "property": "C18",
   "status": "proved",
   "theorems": [
    "C18_causal",
    "C18_linear_1d",
    "C18_linear_nd"
   ],
   "note": "Causality for every Num; joint linearity of the mean in (initial mean, offsets) in exact arithmetic."
  },
  {
   "property": "C19",
   "status": "partial",
   "theorems": [
    "C19_calls",
    "C19_nan_refuted",
    "C19_selection_any_arithmetic",
    "C19_selection_partial"
   ],
   "note": "Exact in real arithmetic. Finding: in binary64 dt = nan passes the check 'dt <= 0.0' and is accepted (C19_nan_refuted). C19_calls: the method names, in lower case, select the four methods."
  },
  {
   "property": "C20",
   "status": "proved",
   "theorems": [
    "C20_averages",
    "C20_dm",
    "C20_ds",
    "C20_dsigma",
    "C20_dtheta",
    "C20_energy",
    "C20_nonneg"
   ],
   "note": "Expectations are improper integrals against the normal density. The per-time-point gradients are stated with the trapezoidal weight of the sample (dt, dt/2 at the ends)."
  },
  {
   "property": "C21",
   "status": "partial",
   "theorems": [
    "C21_averages",
    "C21_dsigma",
    "C21_dtheta",
    "C21_energy_partial",
    "C21_exact_energy_gradients_partial",
    "C21_gradient_refuted",
    "C21_negative_refuted"
   ],
   "note": "Finding: double_well.py:214 has coefficient 8 instead of 16 for the sixth moment. Proved: the returned energy is the exact one minus the integral of 4 E[x^6]/sigma; it can be negative; dEsde_dm/dEsde_ds are the gradients of the exact energy, not of the returned one; averages, dEsde_dtheta and dEsde_dsigma are right."
  },
  {
   "property": "C22",
   "status": "proved",
   "theorems": [
    "C22_averages",
    "C22_components",
    "C22_dm",
    "C22_drift",
    "C22_ds",
    "C22_dsigma",
    "C22_dtheta",
    "C22_energy",
    "C22_full_noise_refuted",
    "C22_point_dm",
    "C22_point_ds",
    "C22_root_exists",
    "C22_theta_components"
   ],
   "note": "Expectations are iterated improper integrals over x = m + L z, for every matrix root L of S. dEsde_ds entry (i,j) is the derivative moving both symmetric entries (other parts of the code use the half of it off the diagonal). Noise that is not diagonal is outside the claim; there the energy drops the off-diagonal terms (C22_full_noise_refuted)."
  },
  {
   "property": "C23",
   "status": "proved",
   "theorems": [
    "C23_conservation",
    "C23_fixed_point",
    "C23_indexing",
    "C23_shift",
    "C23_shifts",
    "C23_vector_field"
   ],
   "note": "Every dimension >= 1 and every forcing vector (shift equivariance for a constant forcing); the index structure holds in every arithmetic."
  },
  {
   "property": "C24",
   "status": "proved",
   "theorems": [
    "C24_drift",
    "C24_drift_normal",
    "C24_jacobian",
    "C24_jacobian_mean",
    "C24_small_dimension"
   ],
   "note": "Expectation: every linear functional with the given mean and covariance, and also the multivariate normal integral. The matrix is the Jacobian for dimension >= 4; C24_small_dimension shows it is not in dimension 3."
  },
  {
   "property": "C25",
   "status": "partial",
   "theorems": [
    "C25_border_refuted",
    "C25_interior_partial",
    "C25_refuted",
    "C25_single_row_partial"
   ],
   "note": "Finding: lorenz_96.py shift_vectors uses np.roll without axis, which flattens the batch. Proved: columns 2..D-2 and one-row batches are right; columns 0, 1, D-1 use entries of the neighbouring rows, and for every shape with at least two rows some batch is evaluated wrongly."
  },
  {
   "property": "C26",
   "status": "partial",
   "theorems": [
    "C26_1d_partial",
    "C26_1d_refuted",
    "C26_1d_right_iff",
    "C26_grad_1d",
    "C26_grad_nd_covariance",
    "C26_grad_nd_mean",
    "C26_kl_1d",
    "C26_kl_nd",
    "C26_nd_covariance_refuted",
    "C26_nd_error_refuted",
    "C26_nd_mean_refuted",
    "C26_nd_partial",
    "C26_nd_row",
    "C26_nd_rows_partial",
    "C26_nd_sign",
    "C26_solve"
   ],
   "note": "Divergence defined as the expected log density ratio; proved non-negative and zero only at equality. Findings: prior_kl0.py:60 has -log(s0) for -0.5*log(s0), so the 1-D value is the divergence minus ln(s0)/2 (negative values, right only for s0 = 1); prior_kl0.py:88 broadcasts a scalar, so for 1-D arrays of means the quadratic term is wrong (exact value in C26_nd_partial; 1 x d arrays are right, C26_nd_row; with more rows each one after the first adds half of its squared distance, C26_nd_rows_partial); prior_kl0.py:87 takes the Cholesky factor of tau0 inv(s0), which is not symmetric when tau0 and s0 do not commute (wrong value or LinAlgError). The gradients are the derivatives of the divergence, 1-D and n-D."
  },
  {
   "property": "C27",
   "status": "partial",
   "theorems": [
    "C27_energy",
    "C27_energy_unique",
    "C27_gradients",
    "C27_index_error",
    "C27_lengths",
    "C27_noise_gradient_refuted",
    "C27_operator_default",
    "C27_operator_given",
    "C27_operator_refuted",
    "C27_repeated_times_refuted"
   ],
   "note": "Energy: proved for every grid, index list (repetitions included), values and R > 0. Derivatives with respect to means and variances, and zeros elsewhere: proved for distinct times and the default operator. Findings: the third array of gradients() (noise) is not a derivative (gaussian_like.py:193); repeated times lose all but the last observation in the gradients; a non-default operator is ignored by the energy. C27_operator_given: an operator that is passed is kept; C27_lengths: mismatching lengths raise."
  },
  {
   "property": "C28",
   "status": "partial",
   "theorems": [
    "C28_energy_index_refuted",
    "C28_energy_noise_refuted",
    "C28_energy_partial",
    "C28_energy_right_partial",
    "C28_energy_unique",
    "C28_errors",
    "C28_gradients",
    "C28_operator_default",
    "C28_operator_given"
   ],
   "note": "Exact value of the returned energy. Findings: gaussian_like.py:145 indexes the covariance diagonals by the observation number n instead of the time tn, and uses the inner product of diagonals where the expectation has tr(R^-1 S), so the energy is wrong in general (two refutations); it is right for diagonal R when the variances agree (C28_energy_right_partial). The gradients are the derivatives of the expected negative log-likelihood itself, for every positive definite R and distinct times. C28_errors: which inputs raise; C28_operator_given: an operator that is passed is kept."
  },
  {
   "property": "C29",
   "status": "proved",
   "theorems": [
    "C29_gradient_length",
    "C29_init_length",
    "C29_positions",
    "C29_round_trip_1d",
    "C29_round_trip_nd",
    "C29_unpack_pack_1d",
    "C29_unpack_pack_nd",
    "C29_wrong_length"
   ],
   "note": "Any n, d and any arithmetic. Round trips in both directions, positions of the entries, lengths of the vectors returned by initialization and gradient; Simulation.run unpacks with the same slices."
  },
  {
   "property": "C30",
   "status": "proved",
   "theorems": [
    "C30_dw",
    "C30_grad_at",
    "C30_l63",
    "C30_l96",
    "C30_ou",
    "C30_root_exists"
   ],
   "note": "OU, double well, Lorenz 63, Lorenz 96 (at least 4 sites); every entry of A and b, any symmetric inverse noise, any mean and symmetric covariance. Expectations are improper integrals."
  },
  {
   "property": "C31",
   "status": "partial",
   "theorems": [
    "C31_dw_comparison_partial",
    "C31_dw_partial",
    "C31_l63_comparison_partial",
    "C31_l63_covariance_refuted",
    "C31_l63_partial",
    "C31_l63_refuted",
    "C31_last_entry_dw_refuted",
    "C31_last_entry_l63_refuted",
    "C31_last_entry_l96_refuted",
    "C31_last_entry_refuted",
    "C31_last_offset_l96_partial",
    "C31_ou_comparison_partial",
    "C31_ou_partial",
    "C31_refuted"
   ],
   "note": "Finding: gradient() is not the gradient of free_energy(). For OU and the double well with Euler, both directional derivatives are computed exactly for every x (C31_*_comparison_partial): gradient() belongs to the left rectangle sum of the energy, free_energy() uses the trapezoidal rule; the observation derivatives act one grid point late and the one at the last point not at all; the double well also has the wrong sixth-moment coefficient in the value. C31_*_partial: gradient() is the exact gradient of that rectangle objective. For every OU, double-well or Lorenz-63 problem with two or more points the entries of the last point are twice the derivative (C31_last_entry_*). Lorenz 63 (diagonal noise, every x, every direction, C31_l63_comparison_partial) adds two more defects: the mean multiplier uses A where its transpose belongs, and the off-diagonal entries of the covariance derivative, which already count both symmetric entries, are paired with both of them (C31_l63_covariance_refuted). With symmetric A the b part is the exact gradient of the rectangle objective (C31_l63_partial). Lorenz 96 (energy by the unscented approximation): the entries of the last point, for sites away from the ends of the state, are twice the derivative as well, and the b entry is the Gaussian mean misfit (C31_last_entry_l96_refuted, C31_last_offset_l96_partial). Not covered for Lorenz 96: earlier points and the end sites."
  },
  {
   "property": "C32",
   "status": "proved",
   "theorems": [
    "C32_failed",
    "C32_free_energy",
    "C32_fresh",
    "C32_gradient_after",
    "C32_gradient_eval"
   ],
   "note": "Any environment, arithmetic and call history. Without a preceding successful free_energy(x), gradient(x) uses the state of other calls (C32_fresh, C32_failed)."
  },
  {
   "property": "C33",
   "status": "proved",
   "theorems": [
    "C33_log_faithful",
    "C33_no_stale_gradient",
    "C33_vgp_gradients_fresh"
   ],
   "note": "Any arithmetic, any stateful objective, runs that raise included; the log is of an instrumented objective and C33_log_faithful shows that instrumenting changes nothing. For VarGP the run equals the one with eval_fun=True everywhere."
  },
  {
   "property": "C34",
   "status": "proved",
   "theorems": [
    "C34_value_of_returned_point",
    "C34_vgp"
   ],
   "note": "Any arithmetic; the objective's value may not depend on its internal state, the state itself may change."
  },
  {
   "property": "C35",
   "status": "partial",
   "theorems": [
    "C35_binary64_refuted",
    "C35_descent",
    "C35_last_slot_not_written",
    "C35_moves_only_down"
   ],
   "note": "Proved in exact arithmetic for every objective and gradient. Findings: in binary64 the comparison ratio can underflow to -0.0 and an increasing step is accepted (C35_binary64_refuted); when a run ends with a small direction, the slot MaxIt-1 of the recorded values keeps its initial 0.0 (C35_last_slot_not_written)."
  },
  {
   "property": "C36",
   "status": "proved",
   "theorems": [
    "C36_denominators",
    "C36_no_undefined_operation",
    "C36_scale_update"
   ],
   "note": "Exact arithmetic. Invariants at every reachable state, and independence of the whole run from the values of x/0 and sqrt of negative numbers."
  },
  {
   "property": "C37",
   "status": "proved",
   "theorems": [
    "C37_evaluation_counts",
    "C37_iterations",
    "C37_second_call"
   ],
   "note": "Any arithmetic. MaxIt counts the iterations begun (an iteration that ends with a small direction tries no step). Also for reused objects: counts add up, MaxIt can be stale (C37_second_call)."
  },
  {
   "property": "C38",
   "status": "partial",
   "theorems": [
    "C38_last_evaluation",
    "C38_moments_nd_partial",
    "C38_moments_partial",
    "C38_refuted"
   ],
   "note": "True on every exit except one (C38_moments_partial): when the 500 iterations are used up and the last trial step is rejected, the stored moments belong to the rejected point. C38_refuted is a run of the Ornstein-Uhlenbeck model in binary64, evaluated with the standard library's binary64, in which this happens."
  },
  {
   "property": "C39",
   "status": "partial",
   "theorems": [
    "C39_binary64_density",
    "C39_binary64_errors",
    "C39_index_column_refuted",
    "C39_index_table_noise",
    "C39_index_table_refuted",
    "C39_multi_dim_partial",
    "C39_no_number",
    "C39_no_path",
    "C39_one_column",
    "C39_one_dim",
    "C39_path_kept",
    "C39_refuted",
    "C39_rejected",
    "C39_single_index",
    "C39_unique"
   ],
   "note": "Proved in exact arithmetic for every uniform grid, accepted density (integers and fractions not above int(1/dt)), noise and random stream: 1-D systems, and n-D systems observing all components or a mask of any number of components except one. Finding: a mask that selects one component raises ValueError unless there is exactly one observation time (C39_refuted; (m,) draws added to an (m, 1) array). The off-diagonal entries of a noise matrix are dropped. C39_path_kept and C39_no_path hold in any arithmetic. C39_one_column: the one-component mask with one observation time works. C39_unique: repeated observation indexes are merged in order; C39_binary64_errors: equal or undefined first times raise OverflowError or ValueError. C39_no_number: a density that is no number raises TypeError. C39_binary64_density: a density that is not a number or is infinite raises ValueError or OverflowError. Components given by number: one number observes that component, negative ones counted from the end (C39_single_index); findings: with a table of numbers the draws meant for the observations are spread over the rows, so unless there are as many observations as rows, or one, collect_obs raises ValueError after drawing (C39_index_table_refuted), and a table of one column works only for one observation (C39_index_column_refuted)."
  },
  {
   "property": "C40",
   "status": "partial",
   "theorems": [
    "C40_accessors",
    "C40_assign",
    "C40_binary64_refuted",
    "C40_binary64_window",
    "C40_covariance_partial",
    "C40_dw",
    "C40_empty_window",
    "C40_fallback",
    "C40_l63",
    "C40_l96",
    "C40_ou",
    "C40_refuted"
   ],
   "note": "Grid, Euler-Maruyama recursion and the start of the path: proved for all four models in exact arithmetic. Findings: the Lorenz models multiply by the upper Cholesky factor U instead of its transpose, so the noise covariance U U' is Sigma dt exactly when Sigma is diagonal (C40_covariance_partial, C40_refuted); in binary64 the grid can have one point too many (C40_binary64_refuted). C40_binary64_window: limits or steps that are not finite numbers give ValueError and change nothing; C40_empty_window: zero steps and windows without points. C40_fallback: a noise matrix that is not positive definite is replaced by its diagonal; C40_assign: assigned paths and windows are the ones returned."
  },
  {
   "property": "C41",
   "status": "partial",
   "theorems": [
    "C41_complex",
    "C41_histories_partial",
    "C41_integers_refuted",
    "C41_nan_refuted",
    "C41_nonsymmetric_refuted",
    "C41_one_dim",
    "C41_one_dim_atomic",
    "C41_one_dim_constructor",
    "C41_one_dim_setter",
    "C41_refuted",
    "C41_setter_outcomes",
    "C41_theta_setter"
   ],
   "note": "1-D: proved over every history of calls. Lorenz: outcomes of the setter classified for symmetric matrices, histories of such assignments (C41_histories_partial). Findings: the setter tests all() instead of any() and stores the matrix before inverting it, so an indefinite matrix (LinAlgError) or one of integers (numba TypingError, modelled as TypeError) leaves sigma changed and inverse_sigma not; a matrix that is not symmetric is accepted and never in sync; in binary64 nan passes the positivity test. np.linalg.eigvals is any function that returns the eigenvalues of the matrices involved. C41_one_dim_constructor: the constructors of the 1-D models. C41_theta_setter: the drift parameter setter; C41_complex: the order numpy uses for complex eigenvalues of a matrix that is not symmetric."
  },
  {
   "property": "C42",
   "status": "partial",
   "theorems": [
    "C42_integers_refuted",
    "C42_matrix",
    "C42_nonsymmetric_refuted",
    "C42_scalar_refuted",
    "C42_shapes",
    "C42_vector"
   ],
   "note": "Vectors, symmetric matrices and wrong shapes: proved. Findings: a scalar is always rejected with ValueError because np.isscalar(np.asarray(x)) is False; integer input is always rejected (numba TypingError); matrices that are not symmetric can be accepted."
  },
  {
   "property": "C43",
   "status": "partial",
   "theorems": [
    "C43_negative_seed",
    "C43_refuted",
    "C43_seed_lists",
    "C43_seeded_partial"
   ],
   "note": "Proved for every true-valued seed, every history, in any arithmetic, also for lists of seeds. Finding: seed 0 counts as no seed (`if r_seed`), so runs with seed 0 are not reproducible."
  },
  {
   "property": "C44",
   "status": "partial",
   "theorems": [
    "C44_data_file_refuted",
    "C44_density_refuted",
    "C44_generated",
    "C44_initial_moments_1d",
    "C44_one_dim_partial",
    "C44_user_data_partial",
    "C44_user_data_refuted"
   ],
   "note": "setup and run are modelled over an abstract world of components, so every model, parameter dictionary and history of calls is covered. Generated observations: run finds every quantity, and it is the one of the last setup (C44_generated). For OU and the double well in exact arithmetic, with densities that are integers or fractions, the run completes exactly when 1 <= m < n - 1 for m observations on n grid points (C44_one_dim_partial, C44_density_refuted: m = n - 1 is accepted by collect_obs but the interpolation gets a knot twice, m = 0 fails at index -1). Findings: with user data obs_noise is never stored, so run raises KeyError, or uses the noise of an earlier setup (C44_user_data_refuted, C44_user_data_partial); main passes a data frame that setup indexes with 0, so a data file never works (C44_data_file_refuted)."
  },
  {
   "property": "C45",
   "status": "partial",
   "theorems": [
    "C45_all_keys",
    "C45_collision_refuted",
    "C45_empty",
    "C45_file_name",
    "C45_load_errors",
    "C45_new_object",
    "C45_one_dim",
    "C45_refused_key",
    "C45_round_trip_partial",
    "C45_slash_refuted",
    "C45_write_error",
    "C45_zero_dim_refuted"
   ],
   "note": "HDF5 files are trees of groups and data sets, keys in the order of writing. The round trip holds for keys without slash and arrays with at least one dimension, in particular for every output of a successful run of the 1-D models in any arithmetic (C45_one_dim). Findings: an array without dimensions raises TypeError after the file has been truncated; a key with a slash becomes a group; names that differ in spaces share a file. For every key: entries whose paths do not meet are all written, each at its path, and nothing else (C45_all_keys); the first entry that cannot be written raises and the file holds the entries before it (C45_refused_key). C45_file_name: the file name is the name without surrounding white space, with underscores for blanks."
  },
  {
   "property": "C46",
   "status": "proved",
   "theorems": [
    "C46_name_lorenz",
    "C46_name_one_dim",
    "C46_no_dictionary_1d",
    "C46_no_dictionary_nd",
    "C46_no_parameters",
    "C46_stages",
    "C46_status",
    "C46_unreadable_file",
    "C46_validate"
   ],
   "note": "Whatever the order in which the set of keys is traversed. A file that cannot be opened, and an unreadable data file end in an exception that main does not catch, status 1 of the interpreter (C46_status, C46_unreadable_file). Parameters that are no dictionary: numbers and null end the same way, lists with exit status 1, and text passes the validation exactly when it has the nine names as parts (C46_no_dictionary_1d, C46_no_dictionary_nd). Argument parsing is property C63."
  },
  {
   "property": "C47",
   "status": "proved",
   "theorems": [
    "C47_knot_values",
    "C47_knots",
    "C47_knots_nd",
    "C47_mean_follows",
    "C47_stationary",
    "C47_stationary_unique",
    "C47_variance_stays"
   ],
   "note": "The interpolant (scipy CubicSpline) is an arbitrary function; its check of the knots is modelled. The covariance 0.25 I is stationary for the diagonal of the noise; the off-diagonal noise remains (C47_stationary)."
  },
  {
   "property": "C48",
   "status": "partial",
   "theorems": [
    "C48_costs_1d",
    "C48_costs_nd_partial",
    "C48_euler_1d",
    "C48_euler_covariance_nd",
    "C48_euler_mean_nd_partial",
    "C48_euler_mean_nd_refuted",
    "C48_jumps_1d",
    "C48_jumps_nd_partial",
    "C48_rk2_refuted",
    "C48_trapezoid_refuted"
   ],
   "note": "Exact arithmetic. Euler with running costs and jumps: the identity holds in 1-D (C48_euler_1d), for covariances in n-D (C48_euler_covariance_nd) and for means when every A(t) is symmetric (C48_euler_mean_nd_partial); Heun and RK4 for the jumps (C48_jumps_1d, C48_jumps_nd_partial). Findings: the n-D backward equation multiplies lambda with A instead of its transpose, so the multipliers of the mean are wrong for non-symmetric A (C48_euler_mean_nd_refuted); RK2 is not adjoint even in 1-D (C48_rk2_refuted). Heun and RK4 with running costs: the identity holds with the cost integrated by the scheme of the sweep (C48_costs_1d, C48_costs_nd_partial), not with the trapezoidal sum over the grid (C48_trapezoid_refuted)."
  },
  {
   "property": "C49",
   "status": "partial",
   "theorems": [
    "C49_exact_gradient_passes",
    "C49_gradient_exception",
    "C49_outcome",
    "C49_passed_is_accurate",
    "C49_relative_difference",
    "C49_state_left_behind",
    "C49_state_preserved_refuted",
    "C49_statistics_untouched"
   ],
   "note": "Accuracy for objectives with three derivatives along the axes, step 1e-6, exact arithmetic; the statistics are unchanged in every arithmetic. Finding: the last evaluation is at x - h e_n, so an objective that keeps state between calls (VarGP does) is left at that point, and gradient(x, eval_fun=False) after a check is not the gradient at x (C49_state_left_behind, C49_state_preserved_refuted). Printing is not modelled: the result is the pair of the printed relative difference and whether PASSED is printed."
  },
  {
   "property": "C50",
   "status": "partial",
   "theorems": [
    "C50_averages",
    "C50_diagonal_only",
    "C50_dsigma",
    "C50_dtheta_mean",
    "C50_dtheta_partial",
    "C50_dtheta_refuted",
    "C50_energy_partial",
    "C50_energy_refuted",
    "C50_gaussian_refuted",
    "C50_indefinite",
    "C50_nonneg",
    "C50_points",
    "C50_result",
    "C50_root_exists",
    "C50_root_unique"
   ],
   "note": "Exact arithmetic; np.linalg.solve is a parameter assumed to return the solution for symmetric positive definite matrices and to raise only LinAlgError. Findings: (1) the sigma points are passed to l96 as one matrix, whose border columns take neighbours from other points (C25), so Esde is the average over one ring of all points (C50_energy_partial) and not the average of the points' own misfits (C50_energy_refuted), nor the Gaussian expectation (C50_gaussian_refuted), in every dimension from 4; (2) dEsde_dth is the Gaussian mean of the misfit (C50_dtheta_mean) and the derivative of the returned Esde for interior columns only (C50_dtheta_partial, C50_dtheta_refuted); (3) only the diagonal of the inverse noise enters Esde (C50_diagonal_only). dEsde_dSig is the derivative (C50_dsigma)."
  },
  {
   "property": "C51",
   "status": "partial",
   "theorems": [
    "C51_dm_columns_partial",
    "C51_dm_refuted",
    "C51_ds_columns_partial",
    "C51_ds_refuted",
    "C51_score_partial"
   ],
   "note": "Finding: dEsde_dm and dEsde_ds are sigma-point averages of the misfit times the Gaussian score (C51_score_partial), i.e. central differences along the columns of the covariance root and a matrix that is diagonal in those coordinates (C51_dm_columns_partial, C51_ds_columns_partial); they are not the derivatives of the returned Esde with respect to the means and covariances in any dimension from 4 (C51_dm_refuted, C51_ds_refuted). Assumptions as for C50."
  },
  {
   "property": "C52",
   "status": "partial",
   "theorems": [
    "C52_initial_moments",
    "C52_l63_partial",
    "C52_l96_partial",
    "C52_saved",
    "C52_scalar_noise_refuted",
    "C52_shipped_dw",
    "C52_shipped_lorenz_refuted"
   ],
   "note": "Exact arithmetic. The double-well file: main returns and the saved file holds the eleven results (C52_shipped_dw). Finding: sim_params_L3D.json and sim_params_L40D.json give the system noise as a number, which the Lorenz constructors always reject with ValueError (np.isscalar of an array, see C42), so both shipped Lorenz simulations end with status 1 in setup and write nothing (C52_shipped_lorenz_refuted, C52_scalar_noise_refuted for every such dictionary). With the noise as a list or matrix of floats, Lorenz-63 runs complete exactly when 1 <= m < n - 1 for m observations on n grid points; Lorenz-96 runs complete or raise LinAlgError (np.linalg.solve is a parameter assumed to raise only that; np.linalg.eigvals one that returns the eigenvalues of the noise matrix). Observation operators: C55."
  },
  {
   "property": "C53",
   "status": "partial",
   "theorems": [
    "C53_history",
    "C53_rerun",
    "C53_seed_kinds",
    "C53_seeded_partial",
    "C53_stale_refuted",
    "C53_unseeded_refuted"
   ],
   "note": "Parameters with an integer seed other than 0: setup and main do not depend on the state the generator starts from, for all four models in any arithmetic (C53_seeded_partial). Generated observations: the results of setup and run do not depend on what was done with the object before (C53_history); running again changes nothing (C53_rerun). Findings: seed null and seed 0 both mean no seed, so for all acceptable parameters of the 1-D models m0 can differ between two runs (C53_unseeded_refuted); a failed run keeps the output of the previous one, which save would then write (C53_stale_refuted). C53_seed_kinds: which values count as a seed, as no seed and as an error, for each model. In C53_unseeded_refuted the generator is chosen, since the model leaves its distribution open."
  },
  {
   "property": "C54",
   "status": "partial",
   "theorems": [
    "C54_dw_methods_refuted",
    "C54_dw_partial",
    "C54_dw_refuted",
    "C54_l63_methods_refuted",
    "C54_l63_partial",
    "C54_l63_refuted",
    "C54_l63_rk4_refuted",
    "C54_l96",
    "C54_l96_returns",
    "C54_ou_partial",
    "C54_ou_refuted",
    "C54_ou_stable_partial"
   ],
   "note": "Exact arithmetic. Ornstein-Uhlenbeck, every method: bounded by the prior and observation constants as long as the variances of the forward sweep stay nonnegative (C54_ou_partial), with Euler in particular if dt a <= 1/2 at all points but the last (C54_ou_stable_partial). Findings: nothing keeps the variances nonnegative, and with every method there are arguments below every number, whatever the data (C54_ou_refuted; for RungeKutta2 unless the factor rk2_pull of its covariance step is 0); for the double well, with Euler, there are such arguments even with positive variances, because the energy has 8 E[x^6] instead of 16 (C54_dw_refuted), with the other methods with negative ones (C54_dw_methods_refuted; for RungeKutta2 if rk2_pull is positive); with the missing half added the bound holds (C54_dw_partial). Lorenz 63, every method: bounded as long as the covariances stay positive definite (C54_l63_partial); otherwise, with Euler, Heun and RungeKutta2 (there unless the first entry rk2_pull_n of a covariance is 0), there are arguments below every number, whatever the data (C54_l63_refuted, C54_l63_methods_refuted), and with RungeKutta4 if the first component is not correlated with the others in the initial covariance and the noise (C54_l63_rk4_refuted). Lorenz 96, every method and dimension: proved without condition (C54_l96), since energy() raises LinAlgError exactly when a covariance is not positive definite (C54_l96_returns)."
  },
  {
   "property": "C55",
   "status": "partial",
   "theorems": [
    "C55_all_refuted",
    "C55_all_value_partial",
    "C55_all_value_refuted",
    "C55_columns_partial",
    "C55_columns_refuted",
    "C55_columns_value_partial",
    "C55_columns_value_refuted",
    "C55_empty_refuted",
    "C55_mask_partial",
    "C55_mask_refuted",
    "C55_matrix_refuted",
    "C55_number_refuted",
    "C55_one_dim_empty_refuted",
    "C55_one_dim_refuted",
    "C55_one_dim_true_refuted",
    "C55_one_dim_zero_partial",
    "C55_rows_refuted",
    "C55_single_refuted",
    "C55_true_refuted",
    "C55_zero_partial",
    "C55_zero_value_refuted"
   ],
   "note": "Exact arithmetic, generated observations, OU, double well and both Lorenz models. What holds: a mask of a Lorenz model that selects none or at least two components, or a list of none or at least two integers, leaves the selected components of the path with their own noise (C55_mask_partial, C55_columns_partial); 0, 0.0 and false observe everything and the run completes (C55_zero_partial). Findings: in one dimension every number, text or object that counts as true raises IndexError in setup (C55_one_dim_refuted: collect_obs indexes a 1-D array with two indexes); arrays of floats, numbers with a fraction, text, objects, masks of another length and integers out of range do the same in the Lorenz models (C55_matrix_refuted); a mask for one component raises ValueError in setup (C55_single_refuted); a mask for some components passes setup but the run always fails (C55_mask_refuted: VarGP interpolates all d components from rows of q values); a mask for all components fails unless there are exactly d observations (C55_all_refuted: gaussian_like.py multiplies one number per row with a d x d factor), and then the d residuals of each observation are added up before squaring, so the energy is not the one without operator (C55_all_value_partial, C55_all_value_refuted). Lists of integers: the run fails unless there are d integers and exactly d observations (C55_columns_refuted), and then the integers are used as weights of the residuals (C55_columns_value_partial), so [0, 1, ..., d - 1] ignores every observation of the first component (C55_columns_value_refuted). One integer, a matrix of integers (the unit matrix too) and true never lead to a completed run (C55_number_refuted, C55_rows_refuted, C55_true_refuted), nor does the empty list (C55_empty_refuted). With 0 or false the energy does not depend on observations or means and its gradients are zero (C55_zero_value_refuted). In one dimension 0, 0.0 and false observe the path and the run completes (C55_one_dim_zero_partial); true raises ValueError in setup, or in the run if there is exactly one observation (C55_one_dim_true_refuted), and the empty list never gives a completed run (C55_one_dim_empty_refuted). Not modelled: non-empty lists as operators of a 1-D model whose run follows a refused setup; empty text, empty objects, lists of empty lists and deeper lists as operators of a Lorenz model."
  },
  {
   "property": "C56",
   "status": "partial",
   "theorems": [
    "C56_lorenz_partial",
    "C56_one_dim_partial"
   ],
   "note": "Exact arithmetic, generated observations, no operator, 1 <= m < n - 1 observations, positive variances; the noise of the Lorenz models as in C52. Both theorems connect setup and run: the drawn path, observations and initial mean are those of the described system, fx is the free energy of the returned at and bt as the code takes it (with the deviations found in C21, C26, C28 and C50 written out), fx is not above the value at the interpolation, and mt, st solve the moment equations for some variational parameters, not necessarily the returned ones (see C38). Missing: that the result is optimal, and for Lorenz-96 that the run does not end with LinAlgError. The covariances of the method RK2 are left open, because that step is not the mid-point rule (C12)."
  },
  {
   "property": "C57",
   "status": "partial",
   "theorems": [
    "C57_dw_any_method_partial",
    "C57_dw_limit_partial",
    "C57_dw_methods_refuted",
    "C57_dw_partial",
    "C57_dw_rate_partial",
    "C57_dw_refuted",
    "C57_ou_any_method_partial",
    "C57_ou_bound_partial",
    "C57_ou_limit_partial",
    "C57_ou_partial",
    "C57_ou_prior_refuted",
    "C57_ou_rate_partial",
    "C57_ou_refuted"
   ],
   "note": "1-D models, exact arithmetic. The evidence exists, is unique and positive; with Euler, as long as dt a <= 1/2, the objective bounds its negative logarithm up to three explicit terms: ln(s0)/2 (C26), the difference between the trapezoidal and the left rectangle rule, and the difference between the slope of the Euler step and that of the chain with the same variances (C57_ou_partial), for the double well also the missing half of the sixth moment (C57_dw_partial). It is a bound if the variance at the start is at most 1, the slopes are at most theta (1 - theta dt / 2) and the energy density is not smaller at the last point than at the first (C57_ou_bound_partial). Findings: whatever the data, there are arguments with an objective below the negative log evidence (C57_ou_refuted and C57_dw_methods_refuted for every method, with the condition of C54 for RungeKutta2; with Euler and positive variances C57_dw_refuted); so is the objective at the exact slopes of the prior itself, for prior variances above 1 and noisy observations (C57_ou_prior_refuted). With Euler the gap is at most ln(s0)/2 plus a constant times dt, with one constant for all data, priors, grids up to a final time and parameters up to a bound (C57_ou_rate_partial; C57_dw_rate_partial with the missing half of the sixth moment). Every method: the objective is a bound up to ln(s0)/2 and the difference between the trapezoidal rule for the given mismatch and the rectangle rule for the mismatch of a linear chain with the same means and variances, which exists if no variance falls below sigma dt (C57_ou_any_method_partial, C57_dw_any_method_partial). For slopes and offsets sampled from smooth functions the gap is at most ln(s0)/2 (and the sixth moment) plus a constant times dt for each of the four methods, with one constant for all data and small steps (C57_ou_limit_partial, C57_dw_limit_partial). The Lorenz models are not covered."
  },
  {
   "property": "C58",
   "status": "partial",
   "theorems": [
    "C58_bounds_exist",
    "C58_flat",
    "C58_near_minimum",
    "C58_rosenbrock_refuted",
    "C58_sphere_test",
    "C58_steps",
    "C58_tests_raise"
   ],
   "note": "Exact arithmetic, any dimension; the objective and its gradient may keep state. C58_steps: every step is accepted, the rate and the three ways to end; C58_near_minimum: distance of the value and of the point to the minimum; C58_bounds_exist: every positive definite Hessian qualifies; C58_sphere_test: the assertions of test_sphere_fun with the finite-difference gradient and default options, for every start point with squared length up to 1e130, with the change of line 167 that the test file asks for. Findings: as the files are, the tests raise TypeError (C58_tests_raise); the absolute tolerance on the gradient returns the start point for flat objectives (C58_flat). Finding (C58_rosenbrock_refuted, binary64): the outcome of test_rosenbrock_fun depends on the random start point; from (-2, 1) the 50 iterations end with a value above 0.01, far from (1, 1)."
  },
  {
   "property": "C59",
   "status": "partial",
   "theorems": [
    "C59_cov_1d_partial",
    "C59_cov_1d_rk2_partial",
    "C59_cov_nd_partial",
    "C59_cov_nd_rk2_partial",
    "C59_lam_1d_partial",
    "C59_lam_nd_code",
    "C59_lam_nd_partial",
    "C59_lam_nd_refuted",
    "C59_mean_1d_partial",
    "C59_mean_nd_partial",
    "C59_psi_1d_partial",
    "C59_psi_nd_partial",
    "C59_rk4_refuted"
   ],
   "note": "Exact arithmetic, all step sizes. Proved with one constant for all steps, methods and grid points: order 1 for Euler and 2 for the other three, for the means, covariances, lam and psi in one dimension and for the means, covariances and psi in n dimensions; lam in n dimensions for symmetric A. Findings: RungeKutta4 is only of second order on varying coefficients, because runge_kutta4.py takes averages of neighbouring grid values for the middle of a step (C59_rk4_refuted: not even third order on dm/dt = 3 t^2); for A that is not symmetric the n-D lam converges to the equation with A in place of A' (C59_lam_nd_code), so not to the multiplier equation (C59_lam_nd_refuted: distance at least 1/4 for all small steps and every method). The covariance of RungeKutta2 converges at first order for small steps, in one dimension and in n (C59_cov_1d_rk2_partial, C59_cov_nd_rk2_partial); its second order fails already for constant coefficients (C14)."
  },
  {
   "property": "C60",
   "status": "partial",
   "theorems": [
    "C60_dw_defined",
    "C60_dw_gradient",
    "C60_dw_refuted",
    "C60_dw_value_partial",
    "C60_l63_defined",
    "C60_l63_gradient_partial",
    "C60_l63_gradient_refuted",
    "C60_l63_refuted",
    "C60_l63_value_partial",
    "C60_ou_defined",
    "C60_ou_gradient",
    "C60_ou_refuted",
    "C60_ou_value_partial"
   ],
   "note": "Exact arithmetic, observations on the grid and before the final time. Proved for every method with one constant for all small steps (order 1 for Euler and RungeKutta2, 2 for Heun and RungeKutta4): gradient/dt converges to the functional gradient, for both models. Findings: free_energy does not converge to the free energy: the limit lacks ln(s0)/2 (C26) and, for the double well, the integral of 4 E[x^6]/sigma (C21); the limits are proved with these terms (C60_ou_value_partial, C60_dw_value_partial) and the claim without them is refuted (C60_ou_refuted for s0 other than 1, C60_dw_refuted for s0 = 1). Lorenz 63: the continuous free energy exists and is unique (C60_l63_defined), and the values converge with every method, at order 1, to it plus two terms (C60_l63_value_partial): the broadcast mean of the initial divergence (C26), and the observation covariances, which are read at the first grid points instead of the observation times and only on the diagonal (C28); so the claim fails (C60_l63_refuted). Gradient of Lorenz 63 with respect to b: for symmetric A(t) its entries divided by dt converge uniformly, at order 1 and with every method, to the functional derivative of the continuous free energy (C60_l63_gradient_partial). Finding (C60_l63_gradient_refuted): without symmetry they do not, because the multipliers of the mean are propagated with A instead of its transpose; for A_02 = 1 the limit of the entry of b_2 at time 0 is off by 11/12. Not done: the entries for A of Lorenz 63 (wrong in the discrete problem already, C31), Lorenz 96."
  },
  {
   "property": "C61",
   "status": "partial",
   "theorems": [
    "C61_covariance_refuted",
    "C61_misfit",
    "C61_rows_refuted",
    "C61_used_partial"
   ],
   "note": "Exact arithmetic. Proved end to end (C61_used_partial) for means given by a number, a list or rows, and covariances given by a number, a list of variances or rows: what is minimised contains the divergence from the Gaussian with this mean and the diagonal of this covariance; lists that do not fit raise ValueError in setup (C61_misfit). Findings: simulation.py:176 multiplies tau0 by the identity matrix, so all covariances between components are dropped without a message: parameters that differ in them give the same results (C61_covariance_refuted); a mean with one axis adds the term of C26 (excess), a mean given as one row does not, so the spelling of the same prior changes the objective. With several rows, each one after the first adds half of its squared distance to the objective, even if it repeats the first (C61_rows_refuted). Arrays (which *= would change in place) are not modelled. Leaves may be booleans, which count as 0 and 1."
  },
  {
   "property": "C62",
   "status": "partial",
   "theorems": [
    "C62_chol_inv_partial",
    "C62_finite_diff",
    "C62_log_det_partial",
    "C62_moments",
    "C62_safe_log",
    "C62_tests_refuted",
    "C62_trapz"
   ],
   "note": "Exact arithmetic for test_utilities.py (safe_log at its limits also in binary64, with any function as np.log), binary64 for test_gaussian_moments.py. Proved for every draw without a zero; the assertions on log_det, my_trapz and chol_inv then hold with equality, and the matrix of test_chol_inv is positive definite in every size. Finding (C62_tests_refuted): numpy.random.rand may return 0, and then log_det (test_utilities.py:104) and chol_inv (test_utilities.py:169) raise LinAlgError, so these two tests can fail; test_gaussian_moments.py replaces zeros by 0.1, test_utilities.py does not. Not modelled: rounding in test_utilities.py, the import of scipy.integrate.trapz (removed in recent versions of scipy), the summation in np.sum and np.mean."
  },
  {
   "property": "C63",
   "status": "proved",
   "theorems": [
    "C63_accepted",
    "C63_exact_ending",
    "C63_help",
    "C63_help_text",
    "C63_nothing",
    "C63_params_required",
    "C63_rejected",
    "C63_status",
    "C63_unambiguous"
   ],
   "note": "argparse is modelled after CPython 3.11 (M_Cli; characters of 8 bits, ASCII digits) and was compared with that library on 7769 argument lists; the text of messages is not modelled. C63_accepted and C63_rejected characterise the accepted lines by a grammar; C63_exact_ending gives the exact status of every other line: 0 exactly for the lines that show the help (a grammar in Spec_Cli), 2 otherwise."
  },
  {
   "property": "C64",
   "status": "partial",
   "theorems": [
    "C64_complete",
    "C64_missing_entry",
    "C64_mixture_refuted",
    "C64_model_1d",
    "C64_model_nd",
    "C64_numbers_1d",
    "C64_numbers_nd",
    "C64_outcome",
    "C64_unchanged_partial"
   ],
   "note": "For every behaviour of the stochastic models (the World record of M_Sim), every parameter value and history. C64_outcome: setup raises e exactly for the obstacle met first (relation refusal of Spec_Setup) and succeeds exactly without one. C64_missing_entry and C64_complete: the entries one by one. C64_numbers_1d and C64_numbers_nd: without numbers as time window, density and so on no setup succeeds. C64_model_1d: which seeds, noises and drifts of the one-dimensional models raise TypeError and ValueError, in the order seed, noise, drift (a drift of DW that is no number is refused with the model, in the code with the trajectory). C64_model_nd: the same for the seeds and the shape of the noise of the Lorenz models, and no matrix or diagonal of integers is accepted as noise (lists of truth values as noise left out; a drift that does not fit is refused with the model, in the code with the trajectory). C64_unchanged_partial: a refusal before the model is made leaves model, observations, initial moments, name and output. Finding: the rest is overwritten entry by entry, so after a setup that raised KeyError (a dictionary without Prior) the run goes ahead with the time step, method and operator of the refused dictionary and the path, observations and prior of the previous one (C64_mixture_refuted; C64_instance shows such a run completing in binary64)."
  },
  {
   "property": "C65",
   "status": "proved",
   "theorems": [
    "C65_algorithm",
    "C65_gradient_of_previous_point",
    "C65_options",
    "C65_returns",
    "C65_vgp"
   ],
   "note": "Exact arithmetic. Objective and gradient are functions on Python's side with any state; wherever they return, their values are those of two functions F and G of the point (C65_algorithm), which for VarGP are the free energy and its fresh gradient (C65_vgp). Gradients have as many entries as the point. C65_returns holds in any arithmetic. C65_gradient_of_previous_point: the recorded gradient is one accepted step behind the recorded objective (optim_scg.py:197-209), so the two entries of an iteration belong to different points. Not covered: rounding, and np.minimum/np.maximum of nan, which in binary64 needs overflowing gradients."
  }
 ]
}