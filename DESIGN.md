# Formal model of VGPA in Rocq (Coq 8.16.1)

## 1. Architecture

* **Arithmetic is a parameter.** The model is written once over a record `Num`
  (`theories/Num.v`) of operations `+ - * / sqrt abs`, comparisons, literals, floor, ceiling. No
  laws are part of the record. Instances: `RNum` (Coq's real numbers; used wherever a property
  is about exact arithmetic) and `FNum` (IEEE binary64 as specified by the standard library's
  `SpecFloat`; used to run witnesses with `vm_compute` in the arithmetic numpy uses).
  Structural theorems (shapes, boundary values, call histories, optimiser traces) are proved
  for **every** `Num`, hence also for floating point. `np.log` and `np.pi` are arguments
  (`nln`, `npi`), instantiated with `ln` and `PI` where a value matters.
* **Arrays.** Arrays over time are lists. One vector or matrix inside a time point is a function
  of its indexes together with the dimension `d` that the operations get as an argument; only
  indexes below `d` are read. Equality of such values is therefore stated entry by entry, below `d`.
  Inputs of unknown rank are `arr` (`M_LinAlg.v`: scalar, vector, matrix, higher).
* **Loops** are structural recursions or folds over lists, **exceptions** are values:
  `result A := Ok a | Err exn`. Objects are records; a method is a function to a result and the
  object afterwards, also when it raises. A history is a list of calls.
* **Values the solvers work on** are an abstract module `Val` (`Arr.v`): scalars, vectors and
  matrices are instances, so `my_trapz` and the ODE solvers are written once.
* **Layout.** `M_*.v` = model only (no proofs), function by function, each definition citing
  file and lines. `Spec_*.v` = small independent specifications. `P_*.v` = proofs.
  `Props_*.v` = the property theorems, each followed by `Print Assumptions`, with a concrete
  instance (`Example`) beside. Names: `Cxx_...` belongs to property Cxx. `_partial`: part of the
  property. `_refuted`: the property as stated fails for the code (a finding); the theorem
  states for which inputs, and a `_partial` theorem says what the code does instead.

## 2. What is modelled, per property

| id | model | specification | proof |
|----|-------|---------------|-------|
| C01 | `M_Moments` `mom_elt`, `gm_call` | `Spec_Gauss`: improper Riemann integral against the normal density | Gaussian integral from scratch, integration by parts |
| C02 | `dm_elt`, `ds_elt`, `gm_dm`, `gm_ds` | `is_derive` (Coquelicot) | derivative of polynomials |
| C03 | `gm_init`, `gm_call`..., a small model of `str.format` | error table | case analysis; finding: malformed format string |
| C04, C05 | `M_Utils` `trapezoid`, `my_trapz` | sum over intervals, abstract module of values | induction on the observation times |
| C06 | `M_LinAlg` `cholesky`, `solve_lower`, `chol_inv` | inverse, triangular root, positive definiteness | induction on the dimension |
| C07 | `log_det` | determinant by Laplace expansion (`Spec_Det`) | multiplicativity for triangular products |
| C08 | `safe_log` | clipping | real analysis |
| C09 | `finite_diff` with a log of evaluation points | difference quotient, error bound | induction, Taylor-Lagrange |
| C10 | `ut_approx` | sigma points, moments of affine and quadratic maps | finite sums; finding: covariance |
| C11-C18 | `M_Ode`: four forward and four backward solvers, generic over the value type | Butcher tableaux (`Spec_Ode`), recurrences, exponentials | induction; findings: RK2 covariance, jump at the last point |
| C19 | factories | letter variants of the four names | case analysis |
| C20, C21 | `M_Sde1` `ou_energy`, `dw_energy` | expectations as integrals, derivatives | moments; finding: DW coefficient |
| C22 | `M_L63` | iterated normal integrals | `ring`, `is_derive` |
| C23-C25 | `M_L96` | cyclic indexes, expectations | finding: `np.roll` flattens batches |
| C26 | `M_Prior` | expected log density ratio | `ln x <= x - 1`; findings |
| C27, C28 | `M_Like` | expected negative log density | finite sums, derivatives; findings |
| C29-C32 | `M_VarGP` (`Env`, `vgp1`, `vgpn`) | layout, Stein identities, directional derivatives, cache | state machine, discrete adjoint by induction (one dimension: `P_Grad1`; d dimensions: `Spec_GradN`, `P_GradN*`, Lorenz 63: `P_GradL63*`); findings in C31 |
| C33-C38 | `M_Scg`, `M_Run` | instrumented objective, traces (`Spec_Scg`) | loop invariants, simulation between runs; findings C35 (binary64), C38 |
| C39-C43 | `M_Proc` | `Spec_Proc` (grids, integer parts, eigenvalues, seeds) | floor arithmetic, invariants over call lists, spectral theorem for symmetric matrices; findings |
| C44-C46 | `M_Sim` (generic `World`), `M_Sim1` (one-dimensional models filled in) | `Spec_Sim`, `Spec_Sim1` | state machine over dictionaries, forward execution; findings |
| C47 | `initialization` (`init1`, `initn`), the spline is an arbitrary function | stationarity, Euler sweep | algebra |
| C48 | `M_Ode` (both sweeps) | inner products (`Spec_Dual`) | discrete summation by parts; findings |
| C49 | `M_Check` | central differences, Euclidean norm (`Spec_Check`) | Taylor-Lagrange, Cauchy-Schwarz; finding |
| C50, C51 | `M_L96E` | sigma points, one ring, Gaussian averages (`Spec_L96E`) | the solver is a parameter with a stated contract; findings |
| C52 | `M_SimN` (`World` of the Lorenz models) | entries of the parameters, shapes of the results (`Spec_SimN`) | `eigvals` and `solve` are parameters with stated contracts; findings |
| C53 | `M_Sim`, `M_Sim1`, `M_SimN` | two runs side by side | relational reasoning over the state; findings |
| C54 | `M_VarGP` with `M_Sde1`, `M_L63`, `M_L96E`, `M_Ode` | `Spec_Gauss`, `Spec_Utils.trap` | growth along a family of arguments; findings |
| C55 | `M_Sim1`, `M_SimN`, `M_Like` (vector operators) | entries with an operator (`Spec_Oper`), `Spec_Proc.selected` | follows setup and run call by call; findings |
| C56 | `M_Sim` with `M_Sim1`, `M_SimN` and all models below them | the described problem (`Spec_Problem`, `Spec_ProblemN`): `path_named`, `observed`, `moments_solve`, `free_energy_of`, `starting_point` | joins C35, C38, C40, C44, C47 and C52 for whole simulations |
| C57 | `M_VarGP` with `M_Sde1`, `M_Prior`, `M_Like` | the density of the observations under the discretised diffusion as iterated normal expectations (`Spec_Evid.evidence`) | existence, uniqueness, change of measure and Jensen's inequality for iterated integrals (`P_Jensen`, `P_Evid`); findings |
| C58 | `M_Scg`, `M_Utils.finite_diff` | quadratic objectives, their gradient and spectrum (`Spec_Quad`) | descent and conjugacy estimates for quadratics (`P_Quad`), invariant of the whole run (`P_Quad2`) |
| C59 | `M_Ode` | smooth coefficients sampled on a grid, solutions of the linear equations with jumps (`Spec_TimeVar`, `Spec_Ode`) | Taylor bounds, local error and stability of the schemes on affine systems (`P_TimeVar`-`P_TimeVar4`), the sweeps (`P_TimeVar5`-`P_TimeVar10`) |
| C60 | `M_VarGP` with `M_Sde1`, `M_Ode`, `M_Prior`, `M_Like` | moments of a linear diffusion, continuous free energy and its functional gradient (`Spec_Limit`) | existence, uniqueness and smoothness of the moments, continuous adjoint identity (`P_Limit1`-`P_Limit3`), perturbed sweeps, trapezoidal error, convergence (`P_Limit4`-`P_Limit6`); linear systems by Picard iteration, Lorenz 63 (`Spec_LimitN`, `P_LinOde`, `P_LimitN0`-`P_LimitN3`), the derivative in b and the sweep of the mean multipliers (`P_LimitN4`-`P_LimitN8`) |
| C61 | `M_SimN` (`mu0_n`, `tau0_n`: numpy broadcasting of lists) with the models of C56 | prior means and covariances as parameters (`Spec_Priors`) | generalises the proof of C56 to diagonal priors; findings |
| C62 | `M_Utils`, `M_LinAlg`, `M_Moments` | numpy.allclose, the functions and matrices of the tests (`Spec_Tests`) | small-angle bounds, positive definiteness of the test matrix (`P_Tests`); uses C04, C06-C09; findings |
| C63 | `M_Cli` (argparse, lines 148-179) with `M_Sim.main` | a grammar of accepted lines (`Spec_Cli`) | case analysis of words, induction on lines (`P_Cli`, `P_Cli2`); uses C46 |
| C64 | `M_Sim` (setup, stochastic_model) | `Spec_Setup.refusal` (obstacles in the order of the lookups) | follows setup statement by statement; finding |
| C45 (all keys) | `M_Sim` (save, load) | `Spec_File.holds` (data sets at the paths of the keys) | the file is compared path by path, not as a tree |
| C45, C46 (file names, files that are no dictionaries) | `M_Sim` (file_name, contains), `M_Sim1`, `M_SimN` | `Spec_Text` (white space, underscores, parts of a text) | induction on texts |
| C65 | `M_Scg` (all), `M_VarGP` | `Spec_ScgAlg` (the method on a record of point, direction, damping; `place_at`, `scg_ends`) | simulation of the loop by the iterated `advance`, with the invariants of C36 (`P_ScgAlg`) |

The numbers of the properties are those of `properties.jsonl`; statuses, theorem names and findings are
in `MANIFEST.json`.

## 3. Trusted base

* Coq's kernel (8.16.1), including its virtual machine for the `vm_compute` witnesses.
* The axioms of the standard library listed by `Print Assumptions` (section 5). Coquelicot and Flocq
  are used for definitions and lemmas; they add no axioms of their own.
* The reading of the Python code by the model (every definition cites its lines), and the
  readings of numpy/scipy/h5py/pandas functions listed next.

Library functions and how they are read:

| function | reading |
|---|---|
| `np.linalg.cholesky`, `scipy.linalg.cholesky` | column algorithm of LAPACK; one triangle is read; pivot not > 0 raises LinAlgError |
| `np.linalg.solve` on a lower triangular matrix | forward substitution (the solution is unique, `C06_solve_unique`) |
| `np.linalg.solve` on a covariance (Lorenz-96) | any function that solves symmetric positive definite systems and raises only LinAlgError (`solver_ok`) |
| `np.linalg.eigvals` | any function that returns the eigenvalues of the matrices involved |
| `np.roll`, `np.arange`, `np.linspace(dtype=int)`, `np.unique`, slices, reshape, ravel | as documented, including the fill formula of arange |
| `scipy.integrate.trapezoid` | the sum of dx (y1 + y0) / 2 |
| `CubicSpline` | its check of the knots is modelled, the interpolant is arbitrary |
| `standard_normal`, `random`, `SeedSequence` | an arbitrary bit generator (`Rng`): state, two draws, state from a seed |
| `np.isclose`, `np.minimum`, `np.maximum`, `np.abs(..).max()` | as documented, including nan |
| numba | compiled code computes what the Python text says; the element type restriction of `np.linalg.cholesky` raises TypingError, modelled as TypeError |
| `str.format`, `str.lower`, `str.upper`, `str.strip`, `str.replace` | on ASCII text |
| `h5py` | a file is a tree of groups and data sets in the order of writing; `create_dataset` with compression refuses rank 0; any OSError is modelled as FileNotFoundError |
| `json.load`, `pandas.read_csv` | arbitrary results or errors |

## 4. Not modelled

* Printing, timing, `__str__`/`__repr__`; the texts of the messages of `argparse` (its decisions are modelled in `M_Cli`
  after CPython 3.11, with 8-bit characters and ASCII digits).
* The order in which BLAS and numpy add (sums are in index order; exact theorems do not depend on
  it, binary64 witnesses do).
* Aliasing of arrays: setters store the array object they get; the model stores its value.
* Broadcasting beyond the cases the text mentions; negative observation indexes; arrays of rank three
  or more where the code expects less; non-ASCII text.
* Sizes that exceed memory; the quality of the pseudo random numbers.
* `fastmath` reorderings of numba.

## 5. What `Print Assumptions` lists for each theorem

Only axioms of the standard library:

* **a** `ClassicalDedekindReals.sig_forall_dec`
* **b** `ClassicalDedekindReals.sig_not_dec`
* **c** `Classical_Prop.classic`
* **d** `FunctionalExtensionality.functional_extensionality_dep`

`-` means "Closed under the global context". The same command stands behind every theorem in the source.

| file | theorem | axioms |
|---|---|---|
| Props_Bound.v | `C54_ou_partial` | a b c d |
| Props_Bound.v | `C54_ou_stable_partial` | a b c d |
| Props_Bound.v | `C54_ou_refuted` | a b c d |
| Props_Bound.v | `C54_dw_partial` | a b c d |
| Props_Bound.v | `C54_dw_refuted` | a b c d |
| Props_Bound.v | `C54_dw_methods_refuted` | a b c d |
| Props_BoundN.v | `C54_l63_partial` | a b c d |
| Props_BoundN.v | `C54_l63_refuted` | a b c d |
| Props_BoundN.v | `C54_l63_methods_refuted` | a b c d |
| Props_BoundN.v | `C54_l63_rk4_refuted` | a b c d |
| Props_BoundN.v | `C54_l96` | a b c d |
| Props_BoundN.v | `C54_l96_returns` | a b c d |
| Props_Check.v | `C49_outcome` | a b d |
| Props_Check.v | `C49_relative_difference` | a b d |
| Props_Check.v | `C49_passed_is_accurate` | a b c d |
| Props_Check.v | `C49_exact_gradient_passes` | a b c d |
| Props_Check.v | `C49_statistics_untouched` | - |
| Props_Check.v | `C49_gradient_exception` | a b d |
| Props_Check.v | `C49_state_left_behind` | a |
| Props_Check.v | `C49_state_preserved_refuted` | a b d |
| Props_Cli.v | `C63_accepted` | - |
| Props_Cli.v | `C63_unambiguous` | - |
| Props_Cli.v | `C63_params_required` | - |
| Props_Cli.v | `C63_status` | - |
| Props_Cli.v | `C63_rejected` | - |
| Props_Cli.v | `C63_nothing` | - |
| Props_Cli.v | `C63_help` | - |
| Props_Cli.v | `C63_help_text` | - |
| Props_Cli.v | `C63_exact_ending` | - |
| Props_Cli.v | `C63_exact_ending_instance` | - |
| Props_Cli.v | `C63_instance` | - |
| Props_Dual.v | `C48_euler_1d` | a b d |
| Props_Dual.v | `C48_euler_covariance_nd` | a b d |
| Props_Dual.v | `C48_euler_mean_nd_partial` | a b d |
| Props_Dual.v | `C48_euler_mean_nd_refuted` | a b d |
| Props_Dual.v | `C48_jumps_1d` | a b d |
| Props_Dual.v | `C48_jumps_nd_partial` | a b d |
| Props_Dual.v | `C48_costs_1d` | a b d |
| Props_Dual.v | `C48_costs_nd_partial` | a b d |
| Props_Dual.v | `C48_trapezoid_refuted` | a b d |
| Props_Dual.v | `C48_rk2_refuted` | a b d |
| Props_Evid.v | `C57_ou_partial` | a b c d |
| Props_Evid.v | `C57_ou_bound_partial` | a b c d |
| Props_Evid.v | `C57_ou_refuted` | a b c d |
| Props_Evid.v | `C57_ou_prior_refuted` | a b c d |
| Props_Evid.v | `C57_dw_partial` | a b c d |
| Props_Evid.v | `C57_dw_refuted` | a b c d |
| Props_Evid.v | `C57_dw_methods_refuted` | a b c d |
| Props_Evid2.v | `C57_ou_any_method_partial` | a b c d |
| Props_Evid2.v | `C57_dw_any_method_partial` | a b c d |
| Props_Evid2.v | `C57_ou_rate_partial` | a b c d |
| Props_Evid2.v | `C57_dw_rate_partial` | a b c d |
| Props_Evid3.v | `C57_ou_limit_partial` | a b c d |
| Props_Evid3.v | `C57_dw_limit_partial` | a b c d |
| Props_File.v | `C45_all_keys` | - |
| Props_File.v | `C45_refused_key` | - |
| Props_GradL96.v | `C31_last_entry_l96_refuted` | a b c d |
| Props_GradL96.v | `C31_last_offset_l96_partial` | a b c d |
| Props_GradN.v | `C31_l63_comparison_partial` | a b c d |
| Props_GradN.v | `C31_l63_partial` | a b c d |
| Props_GradN.v | `C31_last_entry_l63_refuted` | a b c d |
| Props_GradN.v | `C31_l63_refuted` | a b c d |
| Props_GradN.v | `C31_l63_covariance_refuted` | a b c d |
| Props_Index.v | `C39_single_index` | a b d |
| Props_Index.v | `C39_index_table_refuted` | a b d |
| Props_Index.v | `C39_index_table_noise` | a b d |
| Props_Index.v | `C39_index_column_refuted` | a b d |
| Props_L63.v | `C22_drift` | a b d |
| Props_L63.v | `C22_components` | a b c d |
| Props_L63.v | `C22_root_exists` | a b d |
| Props_L63.v | `C22_point_dm` | a b c d |
| Props_L63.v | `C22_point_ds` | a b c d |
| Props_L63.v | `C22_theta_components` | a b c d |
| Props_L63.v | `C22_averages` | a b c d |
| Props_L63.v | `C22_energy` | a b c d |
| Props_L63.v | `C22_dm` | a b c d |
| Props_L63.v | `C22_ds` | a b c d |
| Props_L63.v | `C22_dtheta` | a b c d |
| Props_L63.v | `C22_dsigma` | a b d |
| Props_L63.v | `C22_full_noise_refuted` | a b c d |
| Props_L96.v | `C23_vector_field` | a b d |
| Props_L96.v | `C23_indexing` | - |
| Props_L96.v | `C23_shift` | a b d |
| Props_L96.v | `C23_conservation` | a b d |
| Props_L96.v | `C23_fixed_point` | a b d |
| Props_L96.v | `C23_shifts` | - |
| Props_L96.v | `C24_drift` | a b d |
| Props_L96.v | `C24_drift_normal` | a b c d |
| Props_L96.v | `C24_jacobian` | a b c d |
| Props_L96.v | `C24_jacobian_mean` | a b d |
| Props_L96.v | `C24_small_dimension` | a b c d |
| Props_L96.v | `C25_interior_partial` | - |
| Props_L96.v | `C25_single_row_partial` | - |
| Props_L96.v | `C25_border_refuted` | - |
| Props_L96.v | `C25_refuted` | a b d |
| Props_L96E.v | `C50_result` | a b d |
| Props_L96E.v | `C50_indefinite` | a b d |
| Props_L96E.v | `C50_root_exists` | a b d |
| Props_L96E.v | `C50_root_unique` | a b d |
| Props_L96E.v | `C50_points` | a b d |
| Props_L96E.v | `C50_energy_partial` | a b d |
| Props_L96E.v | `C50_nonneg` | a b d |
| Props_L96E.v | `C50_diagonal_only` | a b d |
| Props_L96E.v | `C50_averages` | a b c d |
| Props_L96E.v | `C50_dtheta_mean` | a b c d |
| Props_L96E.v | `C50_dtheta_partial` | a b c d |
| Props_L96E.v | `C50_dtheta_refuted` | a b c d |
| Props_L96E.v | `C50_dsigma` | a b d |
| Props_L96E.v | `C50_energy_refuted` | a b d |
| Props_L96E.v | `C50_gaussian_refuted` | a b c d |
| Props_L96E.v | `C51_score_partial` | a b d |
| Props_L96E.v | `C51_dm_columns_partial` | a b d |
| Props_L96E.v | `C51_ds_columns_partial` | a b d |
| Props_L96E.v | `C51_dm_refuted` | a b c d |
| Props_L96E.v | `C51_ds_refuted` | a b c d |
| Props_Like.v | `C27_energy` | a b c d |
| Props_Like.v | `C27_energy_unique` | a b c d |
| Props_Like.v | `C27_gradients` | a b c d |
| Props_Like.v | `C27_operator_default` | a b d |
| Props_Like.v | `C27_operator_given` | a b d |
| Props_Like.v | `C27_lengths` | a b c d |
| Props_Like.v | `C27_index_error` | a b c d |
| Props_Like.v | `C27_noise_gradient_refuted` | a b c d |
| Props_Like.v | `C27_repeated_times_refuted` | a b c d |
| Props_Like.v | `C27_operator_refuted` | a b c d |
| Props_Like.v | `C28_energy_partial` | a b c d |
| Props_Like.v | `C28_energy_right_partial` | a b c d |
| Props_Like.v | `C28_energy_unique` | a b c d |
| Props_Like.v | `C28_energy_index_refuted` | a b c d |
| Props_Like.v | `C28_energy_noise_refuted` | a b c d |
| Props_Like.v | `C28_gradients` | a b c d |
| Props_Like.v | `C28_operator_default` | a b d |
| Props_Like.v | `C28_operator_given` | a b d |
| Props_Like.v | `C28_errors` | a b c d |
| Props_Limit.v | `C60_ou_defined` | a b c d |
| Props_Limit.v | `C60_ou_value_partial` | a b c d |
| Props_Limit.v | `C60_ou_gradient` | a b c d |
| Props_Limit.v | `C60_ou_refuted` | a b c d |
| Props_Limit.v | `C60_dw_defined` | a b c d |
| Props_Limit.v | `C60_dw_value_partial` | a b c d |
| Props_Limit.v | `C60_dw_gradient` | a b c d |
| Props_Limit.v | `C60_dw_refuted` | a b c d |
| Props_LimitN.v | `C60_l63_defined` | a b c d |
| Props_LimitN.v | `C60_l63_value_partial` | a b c d |
| Props_LimitN.v | `C60_l63_refuted` | a b c d |
| Props_LimitN.v | `C60_l63_gradient_partial` | a b c d |
| Props_LimitN.v | `C60_l63_gradient_refuted` | a b c d |
| Props_Moments.v | `C01_raw_moments` | a b c d |
| Props_Moments.v | `C01_raw_moments_2d` | a b c d |
| Props_Moments.v | `C01_scalar_input` | - |
| Props_Moments.v | `C02_dm` | a b c d |
| Props_Moments.v | `C02_ds` | a b c d |
| Props_Moments.v | `C02_local` | a b d |
| Props_Moments.v | `C03_order` | - |
| Props_Moments.v | `C03_shapes_match` | - |
| Props_Moments.v | `C03_mismatch_partial` | - |
| Props_Moments.v | `C03_mismatch_refuted` | a b d |
| Props_Moments.v | `C03_format` | - |
| Props_Moments.v | `C03_format_stray` | - |
| Props_Name.v | `C46_name_one_dim` | a b c d |
| Props_Name.v | `C46_name_lorenz` | a b c d |
| Props_Ode.v | `C11_fwd_shape_boundary` | - |
| Props_Ode.v | `C11_fwd_total` | - |
| Props_Ode.v | `C11_bwd_shape_boundary` | - |
| Props_Ode.v | `C11_bwd_total` | - |
| Props_Ode.v | `C11_fwd_lengths` | - |
| Props_Ode.v | `C11_bwd_lengths` | - |
| Props_Ode.v | `C12_mean_1d` | a b d |
| Props_Ode.v | `C12_mean_nd` | a b d |
| Props_Ode.v | `C12_cov_1d_partial` | a b d |
| Props_Ode.v | `C12_cov_nd_partial` | a b d |
| Props_Ode.v | `C12_rk2_covariance_refuted` | a b d |
| Props_Ode.v | `C13_lam_1d` | a b d |
| Props_Ode.v | `C13_psi_1d` | a b d |
| Props_Ode.v | `C13_psi_nd` | a b d |
| Props_Ode.v | `C13_lam_nd_partial` | a b d |
| Props_Ode.v | `C13_lam_nd_code` | a b d |
| Props_Ode.v | `C13_lam_nd_refuted` | a b d |
| Props_Ode.v | `C14_mean_closed_form` | a b d |
| Props_Ode.v | `C14_var_closed_form_partial` | a b d |
| Props_Ode.v | `C14_error_bound` | a b c d |
| Props_Ode.v | `C14_rk2_variance_refuted` | a b c d |
| Props_Ode.v | `C15_covariance_symmetric` | a b d |
| Props_Ode.v | `C15_psi_symmetric` | a b d |
| Props_Ode.v | `C16_variance_positive` | a b d |
| Props_Ode.v | `C16_rk2_refuted` | a b d |
| Props_Ode.v | `C16_midpoint_rule_positive` | a b d |
| Props_Ode.v | `C17_jump_1d` | a b d |
| Props_Ode.v | `C17_jump_nd` | a b d |
| Props_Ode.v | `C17_last_point_refuted` | - |
| Props_Ode.v | `C18_causal` | - |
| Props_Ode.v | `C18_linear_1d` | a b d |
| Props_Ode.v | `C18_linear_nd` | a b d |
| Props_Ode.v | `C19_selection_partial` | a b d |
| Props_Ode.v | `C19_selection_any_arithmetic` | - |
| Props_Ode.v | `C19_calls` | - |
| Props_Ode.v | `C19_nan_refuted` | - |
| Props_Oper.v | `C55_one_dim_refuted` | a b c d |
| Props_Oper.v | `C55_one_dim_true_refuted` | a b c d |
| Props_Oper.v | `C55_one_dim_zero_partial` | a b c d |
| Props_Oper.v | `C55_one_dim_empty_refuted` | a b c d |
| Props_Oper.v | `C55_matrix_refuted` | a b c d |
| Props_Oper.v | `C55_single_refuted` | a b c d |
| Props_Oper.v | `C55_mask_partial` | a b c d |
| Props_Oper.v | `C55_mask_refuted` | a b c d |
| Props_Oper.v | `C55_all_refuted` | a b c d |
| Props_Oper.v | `C55_all_value_partial` | a b c d |
| Props_Oper.v | `C55_all_value_refuted` | a b c d |
| Props_Oper.v | `C55_columns_partial` | a b c d |
| Props_Oper.v | `C55_columns_refuted` | a b c d |
| Props_Oper.v | `C55_columns_value_partial` | a b c d |
| Props_Oper.v | `C55_columns_value_refuted` | a b c d |
| Props_Oper.v | `C55_number_refuted` | a b c d |
| Props_Oper.v | `C55_rows_refuted` | a b c d |
| Props_Oper.v | `C55_true_refuted` | a b c d |
| Props_Oper.v | `C55_empty_refuted` | a b c d |
| Props_Oper.v | `C55_zero_partial` | a b c d |
| Props_Oper.v | `C55_zero_value_refuted` | a b c d |
| Props_Prior.v | `C26_1d_partial` | a b c d |
| Props_Prior.v | `C26_1d_right_iff` | a b c d |
| Props_Prior.v | `C26_1d_refuted` | a b c d |
| Props_Prior.v | `C26_kl_1d` | a b c d |
| Props_Prior.v | `C26_grad_1d` | a b c d |
| Props_Prior.v | `C26_nd_partial` | a b c d |
| Props_Prior.v | `C26_nd_sign` | a b c d |
| Props_Prior.v | `C26_nd_row` | a b c d |
| Props_Prior.v | `C26_kl_nd` | a b c d |
| Props_Prior.v | `C26_nd_mean_refuted` | a b c d |
| Props_Prior.v | `C26_nd_covariance_refuted` | a b c d |
| Props_Prior.v | `C26_nd_error_refuted` | a b c d |
| Props_Prior.v | `C26_grad_nd_mean` | a b c d |
| Props_Prior.v | `C26_grad_nd_covariance` | a b c d |
| Props_Prior.v | `C26_solve` | a b d |
| Props_Priors.v | `C61_used_partial` | a b c d |
| Props_Priors.v | `C26_nd_rows_partial` | a b c d |
| Props_Priors.v | `C61_rows_refuted` | a b d |
| Props_Priors.v | `C61_misfit` | a b c d |
| Props_Priors.v | `C61_covariance_refuted` | a b c d |
| Props_Problem.v | `C56_one_dim_partial` | a b c d |
| Props_Problem.v | `C56_lorenz_partial` | a b c d |
| Props_Proc.v | `C39_one_dim` | a b d |
| Props_Proc.v | `C39_multi_dim_partial` | a b d |
| Props_Proc.v | `C39_rejected` | a b d |
| Props_Proc.v | `C39_no_path` | - |
| Props_Proc.v | `C39_path_kept` | - |
| Props_Proc.v | `C39_refuted` | a b d |
| Props_Proc.v | `C39_one_column` | a b d |
| Props_Proc.v | `C39_no_number` | - |
| Props_Proc.v | `C39_unique` | - |
| Props_Proc.v | `C39_binary64_errors` | - |
| Props_Proc.v | `C39_binary64_density` | - |
| Props_Proc.v | `C40_ou` | a b c d |
| Props_Proc.v | `C40_dw` | a b c d |
| Props_Proc.v | `C40_l63` | a b d |
| Props_Proc.v | `C40_l96` | a b d |
| Props_Proc.v | `C40_covariance_partial` | a b c d |
| Props_Proc.v | `C40_fallback` | a b c d |
| Props_Proc.v | `C40_refuted` | a b c d |
| Props_Proc.v | `C40_binary64_refuted` | - |
| Props_Proc.v | `C40_binary64_window` | - |
| Props_Proc.v | `C40_empty_window` | a b d |
| Props_Proc.v | `C40_accessors` | - |
| Props_Proc.v | `C40_assign` | - |
| Props_Proc.v | `C41_one_dim` | a b d |
| Props_Proc.v | `C41_one_dim_constructor` | a b d |
| Props_Proc.v | `C41_one_dim_atomic` | a b d |
| Props_Proc.v | `C41_one_dim_setter` | a b d |
| Props_Proc.v | `C41_theta_setter` | a b d |
| Props_Proc.v | `C41_complex` | a b d |
| Props_Proc.v | `C41_setter_outcomes` | a b c d |
| Props_Proc.v | `C41_histories_partial` | a b c d |
| Props_Proc.v | `C41_refuted` | a b c d |
| Props_Proc.v | `C41_integers_refuted` | a b c d |
| Props_Proc.v | `C41_nonsymmetric_refuted` | a b d |
| Props_Proc.v | `C41_nan_refuted` | - |
| Props_Proc.v | `C42_matrix` | a b c d |
| Props_Proc.v | `C42_vector` | a b c d |
| Props_Proc.v | `C42_shapes` | a b d |
| Props_Proc.v | `C42_scalar_refuted` | a b d |
| Props_Proc.v | `C42_integers_refuted` | a b d |
| Props_Proc.v | `C42_nonsymmetric_refuted` | a b d |
| Props_Proc.v | `C43_seeded_partial` | - |
| Props_Proc.v | `C43_refuted` | - |
| Props_Proc.v | `C43_negative_seed` | - |
| Props_Proc.v | `C43_seed_lists` | - |
| Props_Quad.v | `C58_steps` | a b d |
| Props_Quad.v | `C58_near_minimum` | a b d |
| Props_Quad.v | `C58_bounds_exist` | a b d |
| Props_Quad.v | `C58_flat` | a b d |
| Props_Quad.v | `C58_sphere_test` | a b c d |
| Props_Quad.v | `C58_tests_raise` | a b d |
| Props_Quad.v | `C58_rosenbrock_refuted` | - |
| Props_Repro.v | `C53_seeded_partial` | - |
| Props_Repro.v | `C53_seed_kinds` | - |
| Props_Repro.v | `C53_history` | - |
| Props_Repro.v | `C53_rerun` | - |
| Props_Repro.v | `C53_unseeded_refuted` | a b c d |
| Props_Repro.v | `C53_stale_refuted` | a b c d |
| Props_Scg.v | `C33_no_stale_gradient` | - |
| Props_Scg.v | `C33_log_faithful` | - |
| Props_Scg.v | `C33_vgp_gradients_fresh` | - |
| Props_Scg.v | `C34_value_of_returned_point` | - |
| Props_Scg.v | `C34_vgp` | - |
| Props_Scg.v | `C35_descent` | a b d |
| Props_Scg.v | `C35_moves_only_down` | a b d |
| Props_Scg.v | `C35_binary64_refuted` | - |
| Props_Scg.v | `C35_last_slot_not_written` | a b d |
| Props_Scg.v | `C36_denominators` | a b d |
| Props_Scg.v | `C36_scale_update` | a b d |
| Props_Scg.v | `C36_no_undefined_operation` | a b d |
| Props_Scg.v | `C37_evaluation_counts` | - |
| Props_Scg.v | `C37_iterations` | - |
| Props_Scg.v | `C37_second_call` | - |
| Props_Scg.v | `C38_moments_partial` | - |
| Props_Scg.v | `C38_moments_nd_partial` | - |
| Props_Scg.v | `C38_last_evaluation` | - |
| Props_Scg.v | `C38_refuted` | - |
| Props_ScgAlg.v | `C65_algorithm` | a b d |
| Props_ScgAlg.v | `C65_returns` | - |
| Props_ScgAlg.v | `C65_vgp` | a b d |
| Props_ScgAlg.v | `C65_options` | a b d |
| Props_ScgAlg.v | `C65_gradient_of_previous_point` | a b d |
| Props_Sde1.v | `C20_energy` | a b c d |
| Props_Sde1.v | `C20_nonneg` | a b d |
| Props_Sde1.v | `C20_averages` | a b c d |
| Props_Sde1.v | `C20_dm` | a b c d |
| Props_Sde1.v | `C20_ds` | a b c d |
| Props_Sde1.v | `C20_dtheta` | a b c d |
| Props_Sde1.v | `C20_dsigma` | a b c d |
| Props_Sde1.v | `C21_energy_partial` | a b c d |
| Props_Sde1.v | `C21_negative_refuted` | a b d |
| Props_Sde1.v | `C21_averages` | a b c d |
| Props_Sde1.v | `C21_exact_energy_gradients_partial` | a b c d |
| Props_Sde1.v | `C21_gradient_refuted` | a b c d |
| Props_Sde1.v | `C21_dtheta` | a b c d |
| Props_Sde1.v | `C21_dsigma` | a b c d |
| Props_Setup.v | `C64_outcome` | - |
| Props_Setup.v | `C64_missing_entry` | - |
| Props_Setup.v | `C64_complete` | - |
| Props_Setup.v | `C64_numbers_1d` | - |
| Props_Setup.v | `C64_numbers_nd` | - |
| Props_Setup.v | `C64_model_1d` | - |
| Props_Setup.v | `C64_model_nd` | - |
| Props_Setup.v | `C64_unchanged_partial` | - |
| Props_Setup.v | `C64_mixture_refuted` | - |
| Props_Sim.v | `C44_generated` | - |
| Props_Sim.v | `C44_initial_moments_1d` | - |
| Props_Sim.v | `C44_user_data_refuted` | - |
| Props_Sim.v | `C44_user_data_partial` | - |
| Props_Sim.v | `C44_data_file_refuted` | - |
| Props_Sim.v | `C44_one_dim_partial` | a b c d |
| Props_Sim.v | `C44_density_refuted` | a b c d |
| Props_Sim.v | `C45_round_trip_partial` | - |
| Props_Sim.v | `C45_new_object` | - |
| Props_Sim.v | `C45_empty` | - |
| Props_Sim.v | `C45_write_error` | - |
| Props_Sim.v | `C45_load_errors` | - |
| Props_Sim.v | `C45_one_dim` | - |
| Props_Sim.v | `C45_zero_dim_refuted` | - |
| Props_Sim.v | `C45_slash_refuted` | - |
| Props_Sim.v | `C45_collision_refuted` | - |
| Props_Sim.v | `C46_validate` | - |
| Props_Sim.v | `C46_no_parameters` | - |
| Props_Sim.v | `C46_stages` | - |
| Props_Sim.v | `C46_status` | - |
| Props_Sim.v | `C46_unreadable_file` | - |
| Props_SimN.v | `C52_shipped_dw` | a b c d |
| Props_SimN.v | `C52_scalar_noise_refuted` | a b c d |
| Props_SimN.v | `C52_shipped_lorenz_refuted` | a b c d |
| Props_SimN.v | `C52_l63_partial` | a b c d |
| Props_SimN.v | `C52_l96_partial` | a b c d |
| Props_SimN.v | `C52_initial_moments` | - |
| Props_SimN.v | `C52_saved` | - |
| Props_Tests.v | `C62_finite_diff` | a b c d |
| Props_Tests.v | `C62_safe_log` | a b c d |
| Props_Tests.v | `C62_log_det_partial` | a b c d |
| Props_Tests.v | `C62_trapz` | a b d |
| Props_Tests.v | `C62_chol_inv_partial` | a b d |
| Props_Tests.v | `C62_tests_refuted` | a b c d |
| Props_Tests.v | `C62_moments` | - |
| Props_Text.v | `C45_file_name` | - |
| Props_Text.v | `C46_no_dictionary_1d` | - |
| Props_Text.v | `C46_no_dictionary_nd` | - |
| Props_TimeVar.v | `C59_mean_1d_partial` | a b c d |
| Props_TimeVar.v | `C59_mean_nd_partial` | a b c d |
| Props_TimeVar.v | `C59_cov_1d_partial` | a b c d |
| Props_TimeVar.v | `C59_cov_1d_rk2_partial` | a b c d |
| Props_TimeVar.v | `C59_cov_nd_partial` | a b c d |
| Props_TimeVar.v | `C59_cov_nd_rk2_partial` | a b c d |
| Props_TimeVar.v | `C59_lam_1d_partial` | a b c d |
| Props_TimeVar.v | `C59_psi_1d_partial` | a b c d |
| Props_TimeVar.v | `C59_psi_nd_partial` | a b c d |
| Props_TimeVar.v | `C59_lam_nd_partial` | a b c d |
| Props_TimeVar.v | `C59_lam_nd_code` | a b c d |
| Props_TimeVar.v | `C59_lam_nd_refuted` | a b c d |
| Props_TimeVar.v | `C59_rk4_refuted` | a b d |
| Props_Utils.v | `C04_scalar` | a b d |
| Props_Utils.v | `C04_vector` | a b d |
| Props_Utils.v | `C04_matrix` | a b d |
| Props_Utils.v | `C05_linear` | a b d |
| Props_Utils.v | `C05_nonneg` | a b d |
| Props_Utils.v | `C05_affine` | a b c d |
| Props_Utils.v | `C06_inverse` | a b d |
| Props_Utils.v | `C06_scalar` | a b d |
| Props_Utils.v | `C06_solve_unique` | a b d |
| Props_Utils.v | `C07_matrix` | a b c d |
| Props_Utils.v | `C07_vector` | a b c d |
| Props_Utils.v | `C07_scalar` | a b c d |
| Props_Utils.v | `C07_not_square` | a b c d |
| Props_Utils.v | `C08_bounds` | a b c d |
| Props_Utils.v | `C08_monotone` | a b c d |
| Props_Utils.v | `C09_evaluations` | a b d |
| Props_Utils.v | `C09_scalar_input` | a b d |
| Props_Utils.v | `C09_quadratic_exact` | a b c d |
| Props_Utils.v | `C09_second_order` | a b c d |
| Props_Utils.v | `C10_sigma_points` | a b d |
| Props_Utils.v | `C10_affine_partial` | a b d |
| Props_Utils.v | `C10_kappa_pos` | a d |
| Props_Utils.v | `C10_quadratic_mean` | a b d |
| Props_Utils.v | `C10_covariance_refuted` | a b d |
| Props_VarGP.v | `C29_round_trip_1d` | - |
| Props_VarGP.v | `C29_unpack_pack_1d` | - |
| Props_VarGP.v | `C29_round_trip_nd` | - |
| Props_VarGP.v | `C29_unpack_pack_nd` | - |
| Props_VarGP.v | `C29_wrong_length` | - |
| Props_VarGP.v | `C29_positions` | - |
| Props_VarGP.v | `C29_init_length` | a b d |
| Props_VarGP.v | `C29_gradient_length` | - |
| Props_VarGP.v | `C30_ou` | a b c d |
| Props_VarGP.v | `C30_dw` | a b c d |
| Props_VarGP.v | `C30_l63` | a b c d |
| Props_VarGP.v | `C30_l96` | a b c d |
| Props_VarGP.v | `C30_root_exists` | a b d |
| Props_VarGP.v | `C30_grad_at` | a b d |
| Props_VarGP.v | `C31_ou_partial` | a b c d |
| Props_VarGP.v | `C31_dw_partial` | a b c d |
| Props_VarGP.v | `C31_ou_comparison_partial` | a b c d |
| Props_VarGP.v | `C31_dw_comparison_partial` | a b c d |
| Props_VarGP.v | `C31_last_entry_refuted` | a b c d |
| Props_VarGP.v | `C31_last_entry_dw_refuted` | a b c d |
| Props_VarGP.v | `C31_refuted` | a b c d |
| Props_VarGP.v | `C32_free_energy` | - |
| Props_VarGP.v | `C32_gradient_eval` | - |
| Props_VarGP.v | `C32_gradient_after` | - |
| Props_VarGP.v | `C32_fresh` | - |
| Props_VarGP.v | `C32_failed` | - |
| Props_VarGP.v | `C47_stationary` | a b d |
| Props_VarGP.v | `C47_stationary_unique` | a b d |
| Props_VarGP.v | `C47_variance_stays` | a b d |
| Props_VarGP.v | `C47_mean_follows` | a b d |
| Props_VarGP.v | `C47_knots` | a b d |
| Props_VarGP.v | `C47_knots_nd` | a b d |
| Props_VarGP.v | `C47_knot_values` | a b d |
