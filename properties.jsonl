{"id": "C01", "title": "Gaussian raw moments are exact", "statement": "GaussianMoments(m, s)(order=k), for k = 0..8, returns at every position the k-th raw moment of the normal distribution with mean m and variance s, i.e. the integral of x^k against that density.", "quantifier": "every mean m, every variance s > 0, every order 0..8, arrays of every length", "why_tests_cant": "The unit test compares the formulas with a second copy of the same formulas at random points; only a proof relates them to the integral for all m and s.", "anchors": ["src/var_bayes/gaussian_moments.py:GaussianMoments.__call__"]}
{"id": "C02", "title": "Moment derivatives are the partial derivatives", "statement": "GaussianMoments.dm(k) and .ds(k), k = 1..8, are the partial derivatives of the value returned by the call with the same order, with respect to the mean and to the variance.", "quantifier": "every mean, every variance, every order 1..8", "why_tests_cant": "A derivative identity ranges over a continuum of points; sampled finite differences have error.", "anchors": ["src/var_bayes/gaussian_moments.py:GaussianMoments.dm", "src/var_bayes/gaussian_moments.py:GaussianMoments.ds"]}
{"id": "C03", "title": "GaussianMoments rejects bad requests with the documented exception", "statement": "Asking for an order outside the supported range raises ValueError and never returns a value; constructing the object from arrays of different shapes raises the RuntimeError the code means to raise.", "quantifier": "every integer order and every pair of input shapes", "why_tests_cant": "Tests probe a couple of orders; the claim is about all of them and about which exception escapes.", "anchors": ["src/var_bayes/gaussian_moments.py:GaussianMoments.__init__", "src/var_bayes/gaussian_moments.py:GaussianMoments.__call__", "src/var_bayes/gaussian_moments.py:GaussianMoments.dm", "src/var_bayes/gaussian_moments.py:GaussianMoments.ds"]}
{"id": "C04", "title": "Splitting the integral at the observations does not change it", "statement": "my_trapz(fx, dx, obs_t) equals the plain composite trapezoidal sum of fx with step dx, for every non-decreasing list of observation indexes, whatever their number, with repetitions, at either end of the array or beyond it.", "quantifier": "every array fx (scalar, vector or matrix valued), every dx, every sorted obs_t", "why_tests_cant": "The boundary cases (first, last, repeated index, none) are a family of unbounded size.", "anchors": ["src/numerics/utilities.py:my_trapz"]}
{"id": "C05", "title": "The numerical integral is a positive linear functional, exact on affine data", "statement": "my_trapz is linear in fx, is non-negative when fx and dx are, and returns the exact integral for samples of an affine function.", "quantifier": "every pair of arrays of equal length, all scalars, every sorted obs_t", "why_tests_cant": "Universal algebraic laws.", "anchors": ["src/numerics/utilities.py:my_trapz"]}
{"id": "C06", "title": "chol_inv returns the inverse", "statement": "For every symmetric positive definite matrix x of any size, chol_inv(x) succeeds and returns (y, c) with x y = y x = I, y symmetric, y = c' c and c the inverse of the lower Cholesky factor; it raises LinAlgError when x is symmetric and not positive definite.", "quantifier": "every dimension and every symmetric matrix", "why_tests_cant": "The repository's own test says 'this is not the right test'; invertibility over all sizes needs induction on the size.", "anchors": ["src/numerics/utilities.py:chol_inv", "src/numerics/utilities.py:chol_inv_fast"]}
{"id": "C07", "title": "log_det is the logarithm of the determinant", "statement": "log_det(x) = ln(det x) for a positive scalar, for a vector of positive numbers (diagonal matrix), and for every symmetric positive definite matrix; non-square input raises RuntimeError.", "quantifier": "every dimension and every such input", "why_tests_cant": "Determinant identities over all sizes.", "anchors": ["src/numerics/utilities.py:log_det"]}
{"id": "C08", "title": "safe_log is finite, clamped and monotone", "statement": "safe_log(x) always lies between ln(1e-300) and ln(1e300), equals ln(x) whenever x lies between the two bounds, and is monotone in x.", "quantifier": "every real x, including zero and negative numbers", "why_tests_cant": "Quantifies over all inputs.", "anchors": ["src/numerics/utilities.py:safe_log"]}
{"id": "C09", "title": "finite_diff evaluates the objective where it should and is second-order accurate", "statement": "finite_diff(fun, x) evaluates fun only at x + h e_i and x - h e_i (h = 1e-6), one pair per coordinate in order; its i-th entry is exact for every function that is quadratic along coordinate i, and otherwise differs from the partial derivative by at most M h^2 / 6 where M bounds the third derivative along that coordinate.", "quantifier": "every function, every point, every dimension", "why_tests_cant": "The tests check three functions at one point.", "anchors": ["src/numerics/utilities.py:finite_diff"]}
{"id": "C10", "title": "The unscented transform reproduces mean and covariance of affine maps", "statement": "When the covariance is symmetric positive definite, ut_approx propagates sigma points whose weights sum to one, whose weighted mean is x_bar and whose weighted covariance is x_cov; hence for an affine function y = Bx + c it returns exactly the mean B x_bar + c and covariance B x_cov B'; the returned mean is also exact for every quadratic function.", "quantifier": "every dimension, mean, symmetric positive definite covariance, affine or quadratic map", "why_tests_cant": "Universal identity over all dimensions and matrices.", "anchors": ["src/numerics/utilities.py:ut_approx"]}
{"id": "C11", "title": "ODE solutions live on the time grid and satisfy their boundary values", "statement": "For every method, the forward solve returns one mean and one covariance per time point, the first being exactly the given initial moments; the backward solve returns one pair of multipliers per time point, the last being exactly zero.", "quantifier": "all four methods, 1-D and n-D, every grid length, arbitrary arithmetic (including floating point)", "why_tests_cant": "All sizes, all inputs.", "anchors": ["src/numerics/euler.py:Euler", "src/numerics/heun.py:Heun", "src/numerics/runge_kutta2.py:RungeKutta2", "src/numerics/runge_kutta4.py:RungeKutta4"]}
{"id": "C12", "title": "Forward sweeps implement the named Runge-Kutta scheme", "statement": "One step of the forward sweep of Euler, Heun, RK2 and RK4 is the textbook scheme of that name (explicit Runge-Kutta step with its Butcher tableau, mid-point coefficients averaged) applied to dm/dt = -A m + b and dS/dt = -A S - S A' + Sigma.", "quantifier": "every step, every method, 1-D and n-D, all coefficient trajectories", "why_tests_cant": "Exact agreement of all steps with a tableau cannot be sampled; there is no test for the solvers at all.", "anchors": ["src/numerics/euler.py:Euler.solve_fwd", "src/numerics/heun.py:Heun.solve_fwd", "src/numerics/runge_kutta2.py:RungeKutta2.solve_fwd", "src/numerics/runge_kutta4.py:RungeKutta4.solve_fwd", "src/numerics/ode_solver.py:OdeSolver.fun_mt", "src/numerics/ode_solver.py:OdeSolver.fun_st"]}
{"id": "C13", "title": "Backward sweeps implement the named scheme, run backwards, plus the observation jumps", "statement": "One step of the backward sweep of each method is the textbook scheme of that name applied with step -dt to the multiplier equations, after which the derivative of the observation energy at the new time point is added.", "quantifier": "every step, every method, 1-D and n-D, all inputs", "why_tests_cant": "As for the forward sweeps.", "anchors": ["src/numerics/euler.py:Euler.solve_bwd", "src/numerics/heun.py:Heun.solve_bwd", "src/numerics/runge_kutta2.py:RungeKutta2.solve_bwd", "src/numerics/runge_kutta4.py:RungeKutta4.solve_bwd", "src/numerics/ode_solver.py:OdeSolver.fun_lam", "src/numerics/ode_solver.py:OdeSolver.fun_psi"]}
{"id": "C14", "title": "The solvers converge to the exact moments at their advertised order", "statement": "For constant coefficients the forward mean has the closed form m* + P(-a dt)^k (m0 - m*) with P the Taylor polynomial of exp of degree 1 (Euler), 2 (Heun, RK2), 4 (RK4), and the distance to the exact solution at a fixed final time is at most a constant times dt^p with p that degree; likewise for the variance.", "quantifier": "every rate a, offset, initial value, step size, number of steps", "why_tests_cant": "A rate of convergence is a limit statement.", "anchors": ["src/numerics/euler.py:Euler.solve_fwd", "src/numerics/heun.py:Heun.solve_fwd", "src/numerics/runge_kutta2.py:RungeKutta2.solve_fwd", "src/numerics/runge_kutta4.py:RungeKutta4.solve_fwd"]}
{"id": "C15", "title": "Covariances and covariance multipliers stay symmetric", "statement": "If the initial covariance and the system noise are symmetric then every covariance returned by the forward sweep is symmetric; if the supplied energy derivatives are symmetric then every psi returned by the backward sweep is symmetric.", "quantifier": "all four methods, every dimension, every grid length, every (non-symmetric) A(t)", "why_tests_cant": "Invariant over arbitrarily many steps.", "anchors": ["src/numerics/euler.py:Euler", "src/numerics/heun.py:Heun", "src/numerics/runge_kutta2.py:RungeKutta2", "src/numerics/runge_kutta4.py:RungeKutta4"]}
{"id": "C16", "title": "Variances stay positive when the step resolves the rate", "statement": "In one dimension, if s0 > 0, sigma > 0 and the step size satisfies the stability restriction of the method at every time point, then every returned variance is positive.", "quantifier": "every grid length and every rate trajectory within the restriction", "why_tests_cant": "Invariant over arbitrarily many steps.", "anchors": ["src/numerics/euler.py:Euler.solve_fwd", "src/numerics/heun.py:Heun.solve_fwd", "src/numerics/runge_kutta2.py:RungeKutta2.solve_fwd", "src/numerics/runge_kutta4.py:RungeKutta4.solve_fwd"]}
{"id": "C17", "title": "Every observation influences the multipliers", "statement": "The jump of the observation energy at each observed time point enters the multiplier at exactly that point, and through it all earlier ones; changing the jump at a point changes no multiplier at later points.", "quantifier": "every grid, every observation index, every method", "why_tests_cant": "Causality over all indices and inputs.", "anchors": ["src/numerics/euler.py:Euler.solve_bwd", "src/numerics/heun.py:Heun.solve_bwd", "src/numerics/runge_kutta2.py:RungeKutta2.solve_bwd", "src/numerics/runge_kutta4.py:RungeKutta4.solve_bwd"]}
{"id": "C18", "title": "The forward sweep is causal and affine", "statement": "The moments at time point k depend only on the variational parameters up to the point k, and the mean trajectory is an affine function of the initial mean and of the offsets.", "quantifier": "all methods, every k, all inputs", "why_tests_cant": "Universal non-interference statement.", "anchors": ["src/numerics/euler.py:Euler.solve_fwd", "src/numerics/heun.py:Heun.solve_fwd", "src/numerics/runge_kutta2.py:RungeKutta2.solve_fwd", "src/numerics/runge_kutta4.py:RungeKutta4.solve_fwd"]}
{"id": "C19", "title": "Solver selection accepts exactly the four documented methods", "statement": "FwdOde and BwdOde succeed exactly when dt > 0 and the method name equals euler, heun, rk2 or rk4 up to letter case, and then use that scheme; otherwise they raise ValueError.", "quantifier": "every string, every dt", "why_tests_cant": "All strings.", "anchors": ["src/var_bayes/fwd_ode.py:FwdOde.__init__", "src/var_bayes/bwd_ode.py:BwdOde.__init__", "src/numerics/utilities.py:num_integration"]}
{"id": "C20", "title": "The Ornstein-Uhlenbeck energy is the expected squared drift mismatch", "statement": "The energy returned by OrnsteinUhlenbeck.energy is the trapezoidal integral of E[(f(x)-g(x))^2]/(2 sigma), with f(x) = -theta x, g(x) = -a x + b and x normal with the given moments; it is non-negative; the returned averages are E[f] and E[f'], and the returned gradients are the derivatives of that energy with respect to the means, variances, theta and sigma.", "quantifier": "every parameter, every trajectory of moments, every grid length and sorted obs_t", "why_tests_cant": "Derivative and expectation identities over continua.", "anchors": ["src/dynamics/ornstein_uhlenbeck.py:OrnsteinUhlenbeck.energy"]}
{"id": "C21", "title": "The double-well energy is the expected squared drift mismatch", "statement": "The energy returned by DoubleWell.energy is the trapezoidal integral of E[(f(x)-g(x))^2]/(2 sigma), with f(x) = 4x(theta - x^2), g(x) = -a x + b; it is non-negative; the returned averages are E[f] and E[f'], and the returned gradients are its derivatives with respect to the means, variances, theta and sigma.", "quantifier": "every parameter, every trajectory of moments", "why_tests_cant": "As above; a wrong coefficient in a sixth-order moment is invisible to shape tests.", "anchors": ["src/dynamics/double_well.py:DoubleWell.energy"]}
{"id": "C22", "title": "The Lorenz-63 energy and its gradients are the Gaussian expectations they are documented to be", "statement": "Each component returned by Lorenz63.energy_dm_ds is E[(f_i(x)-g_i(x))^2] for x normal with the given mean and covariance, f the Lorenz-63 vector field and g(x) = -A x + b; the returned gradients are the derivatives of half their diag(Sigma^-1)-weighted sum with respect to the mean and the covariance; the drift-parameter expectations and the averages E[f], E[Df] are exact.", "quantifier": "every A, b, mean, covariance, drift vector and diagonal noise", "why_tests_cant": "Hundreds of polynomial terms in 24 variables; any sign slip survives a shape test.", "anchors": ["src/dynamics/lorenz_63.py:Lorenz63.energy_dm_ds", "src/dynamics/lorenz_63.py:Lorenz63.Efg_drift_theta", "src/dynamics/lorenz_63.py:Lorenz63.energy", "src/dynamics/lorenz_63.py:l63"]}
{"id": "C23", "title": "The Lorenz-96 vector field has the cyclic structure of the model", "statement": "l96(x, F) has i-th component (x_{i+1} - x_{i-2}) x_{i-1} - x_i + F with cyclic indices; it commutes with cyclic shifts, its quadratic part conserves sum x_i^2, and the constant state F is its fixed point.", "quantifier": "every dimension and state", "why_tests_cant": "All dimensions.", "anchors": ["src/dynamics/lorenz_96.py:l96", "src/dynamics/lorenz_96.py:shift_vectors", "src/dynamics/lorenz_96.py:fwd_1", "src/dynamics/lorenz_96.py:bwd_1", "src/dynamics/lorenz_96.py:bwd_2"]}
{"id": "C24", "title": "Lorenz-96 averages are exact", "statement": "E96_drift(m, S) is the expectation of the drift under any distribution with mean m and covariance S, and E96_drift_dx(m) is the Jacobian of the drift at m (which is the expected Jacobian, the drift being quadratic).", "quantifier": "every dimension (>= 4), every mean and covariance", "why_tests_cant": "All dimensions and inputs.", "anchors": ["src/dynamics/lorenz_96.py:Lorenz96.E96_drift", "src/dynamics/lorenz_96.py:E96_drift_dx"]}
{"id": "C25", "title": "Evaluating the Lorenz-96 drift on a batch of states evaluates it on each state", "statement": "l96 applied to a matrix of sigma points (one state per row), as Lorenz96.energy does, returns the matrix whose rows are the drift of the rows.", "quantifier": "every number of rows and every dimension", "why_tests_cant": "Universal over batch shapes.", "anchors": ["src/dynamics/lorenz_96.py:Lorenz96.energy", "src/dynamics/lorenz_96.py:l96", "src/dynamics/lorenz_96.py:shift_vectors"]}
{"id": "C26", "title": "The prior term is the Kullback-Leibler divergence", "statement": "PriorKL0(mu0, tau0)(m0, s0) is KL(N(m0,s0) || N(mu0,tau0)): non-negative, zero exactly when the two Gaussians coincide; PriorKL0.gradients adds to the multipliers its derivatives with respect to m0 and s0.", "quantifier": "all means and positive (co)variances, 1-D and n-D", "why_tests_cant": "Inequality and derivative over continua.", "anchors": ["src/var_bayes/prior_kl0.py:PriorKL0.gauss_1d", "src/var_bayes/prior_kl0.py:PriorKL0.gauss_nd", "src/var_bayes/prior_kl0.py:PriorKL0.gradients_1d", "src/var_bayes/prior_kl0.py:PriorKL0.gradients_nd"]}
{"id": "C27", "title": "The 1-D observation energy is the expected negative log-likelihood, and the jumps are its derivatives", "statement": "GaussianLikelihood (1-D) returns the sum over observations of E[-ln N(y; x, R)] for x normal with the marginal moments at the observation time; gradients() returns arrays that are zero away from the observation times and the derivatives of that energy at them.", "quantifier": "every grid, every set of observation times and values, every R > 0", "why_tests_cant": "Expectation and derivative identities over continua, all index sets.", "anchors": ["src/var_bayes/gaussian_like.py:GaussianLikelihood.gauss_1d", "src/var_bayes/gaussian_like.py:GaussianLikelihood.gradients_1d", "src/var_bayes/likelihood.py:Likelihood"]}
{"id": "C28", "title": "The n-D observation energy is the expected negative log-likelihood, and the jumps are its derivatives", "statement": "GaussianLikelihood (n-D, default operator) returns the sum over observations of E[-ln N(y; x, R)] where x has the marginal mean and covariance at the time of that observation; gradients() are its derivatives with respect to the means and covariances at the observation times and zero elsewhere.", "quantifier": "every grid, dimension, observation set and positive definite R", "why_tests_cant": "As above.", "anchors": ["src/var_bayes/gaussian_like.py:GaussianLikelihood.gauss_nd", "src/var_bayes/gaussian_like.py:GaussianLikelihood.gradients_nd"]}
{"id": "C29", "title": "Variational parameters are packed and unpacked consistently", "statement": "The flat vector produced by initialization(), consumed by free_energy() and gradient(), returned by gradient() and unpacked by Simulation.run() uses one layout: unpacking a packed pair (A, b) returns it unchanged, and all vectors have length n d (d + 1).", "quantifier": "every n, d and every pair of arrays", "why_tests_cant": "Round trip for all shapes.", "anchors": ["src/var_bayes/variational.py:VarGP.initialization", "src/var_bayes/variational.py:VarGP.free_energy", "src/var_bayes/variational.py:VarGP.gradient", "src/var_bayes/simulation.py:Simulation.run"]}
{"id": "C30", "title": "The pointwise parameter gradients are the partial derivatives of the drift-mismatch energy", "statement": "The terms used by gradient() for the derivative of the SDE energy with respect to a(t) and b(t) are the partial derivatives of E[(f-g)' Sigma^-1 (f-g)]/2 with respect to A and b at that time.", "quantifier": "every model, every A, b, mean, covariance", "why_tests_cant": "Derivative identities relying on Stein's lemma, over continua.", "anchors": ["src/var_bayes/variational.py:VarGP._dEsde_da", "src/var_bayes/variational.py:VarGP._dEsde_db", "src/var_bayes/variational.py:VarGP._grad_at"]}
{"id": "C31", "title": "gradient() is the gradient of the discretised objective it optimises", "statement": "With the Euler solver, the vector returned by gradient(x, eval_fun=True) is the exact gradient with respect to x of the discretised free energy computed by free_energy(x).", "quantifier": "every model, every grid, every x", "why_tests_cant": "The repository only has a commented-out finite-difference check; exactness is a statement about all x and all coordinates.", "anchors": ["src/var_bayes/variational.py:VarGP.free_energy", "src/var_bayes/variational.py:VarGP.gradient", "src/numerics/euler.py:Euler"]}
{"id": "C32", "title": "gradient(x, eval_fun=True) depends on x only", "statement": "gradient(x, eval_fun=True), and gradient(x) called right after free_energy(x), return the same value whatever calls were made before; free_energy(x) is a function of x only.", "quantifier": "every history of calls to free_energy and gradient", "why_tests_cant": "Quantifies over all call histories of a stateful object.", "anchors": ["src/var_bayes/variational.py:VarGP.free_energy", "src/var_bayes/variational.py:VarGP.gradient"]}
{"id": "C33", "title": "The optimiser never uses a stale gradient", "statement": "During an SCG run every gradient evaluation at a point is made with the objective's internal state computed at that same point: either the preceding call to the objective was at that point, or the evaluation is requested with eval_fun=True.", "quantifier": "every objective, every start point, every iteration budget and every branch taken", "why_tests_cant": "Quantifies over all executions of the optimiser.", "anchors": ["src/numerics/optim_scg.py:SCG.__call__"]}
{"id": "C34", "title": "The optimiser returns a point together with the objective's value at that point", "statement": "SCG(f, df)(x0) returns (x, fx) with fx = f(x), on every exit path.", "quantifier": "every objective, gradient, start point, tolerances, iteration budget; any arithmetic", "why_tests_cant": "All exit paths of all runs.", "anchors": ["src/numerics/optim_scg.py:SCG.__call__"]}
{"id": "C35", "title": "The optimiser never makes things worse", "statement": "SCG returns fx <= f(x0); the recorded objective values are non-increasing in the iteration number; the iterate only moves on iterations that do not increase the objective.", "quantifier": "every objective and gradient function (related or not), every start point and budget", "why_tests_cant": "Invariant over all executions.", "anchors": ["src/numerics/optim_scg.py:SCG.__call__"]}
{"id": "C36", "title": "The optimiser's arithmetic is well defined", "statement": "In exact arithmetic no run of SCG divides by zero: curvature, step size and direction denominators are non-zero whenever they are used, the scale parameter stays positive and the search direction is a descent direction at every step.", "quantifier": "every objective and gradient, start point, budget", "why_tests_cant": "Invariant over all executions.", "anchors": ["src/numerics/optim_scg.py:SCG.__call__"]}
{"id": "C37", "title": "The optimiser's statistics count what happened", "statement": "After a run of a fresh SCG object f_eval and df_eval equal the number of objective and gradient evaluations made, MaxIt is the number of iterations performed, and at most max_it iterations are performed.", "quantifier": "every run", "why_tests_cant": "All executions.", "anchors": ["src/numerics/optim_scg.py:SCG.__call__", "src/numerics/optim_scg.py:SCG.statistics"]}
{"id": "C38", "title": "Saved posterior moments belong to the saved variational parameters", "statement": "After Simulation.run(), the marginal moments and multipliers stored in the output are those computed from the stored variational parameters at/bt.", "quantifier": "every run of the optimiser", "why_tests_cant": "Depends on the exit path taken by the optimiser; the failing path is rarely exercised.", "anchors": ["src/var_bayes/simulation.py:Simulation.run", "src/numerics/optim_scg.py:SCG.__call__", "src/var_bayes/variational.py:VarGP.free_energy"]}
{"id": "C39", "title": "Observation times are distinct, sorted, inside the grid and as many as announced", "statement": "For an accepted density, collect_obs returns strictly increasing integer indexes within the time grid, equally spaced up to rounding, as many as floor(T * n_obs); too high a density raises ValueError and a missing path NotImplementedError; the stored path is not modified and at each index the observation is the path value plus noise.", "quantifier": "every grid, density and noise draw", "why_tests_cant": "Integer rounding for all sizes.", "anchors": ["src/dynamics/stochastic_process.py:StochasticProcess.collect_obs"]}
{"id": "C40", "title": "Trajectories are Euler-Maruyama paths on the requested time grid", "statement": "make_trajectory stores a path and a grid of the same length; the grid starts at t0, has constant step dt and ends at the first point not before tf; consecutive path values satisfy x[t] = x[t-1] + f(x[t-1]) dt + noise[t], with the noise of covariance Sigma dt.", "quantifier": "every model, window, step and random stream", "why_tests_cant": "All windows and draws.", "anchors": ["src/dynamics/double_well.py:DoubleWell.make_trajectory", "src/dynamics/ornstein_uhlenbeck.py:OrnsteinUhlenbeck.make_trajectory", "src/dynamics/lorenz_63.py:Lorenz63.make_trajectory", "src/dynamics/lorenz_96.py:Lorenz96.make_trajectory"]}
{"id": "C41", "title": "Noise and inverse noise stay in sync", "statement": "After any sequence of constructor and setter calls, inverse_sigma is the inverse of sigma and sigma is positive (definite); a rejected assignment leaves the object unchanged.", "quantifier": "every sequence of assignments, valid and invalid", "why_tests_cant": "History property with failure atomicity.", "anchors": ["src/dynamics/double_well.py:DoubleWell.sigma", "src/dynamics/ornstein_uhlenbeck.py:OrnsteinUhlenbeck.sigma", "src/dynamics/lorenz_63.py:Lorenz63.sigma", "src/dynamics/lorenz_96.py:Lorenz96.sigma"]}
{"id": "C42", "title": "The Lorenz constructors accept scalar, vector and matrix noise", "statement": "Lorenz63 and Lorenz96 accept a positive scalar (giving a multiple of the identity), a vector of positive numbers (giving a diagonal matrix) or a positive definite matrix, and reject everything else with the documented exception.", "quantifier": "every input shape and value", "why_tests_cant": "All inputs.", "anchors": ["src/dynamics/lorenz_63.py:Lorenz63.__init__", "src/dynamics/lorenz_96.py:Lorenz96.__init__"]}
{"id": "C43", "title": "A given seed makes the simulation reproducible", "statement": "Two processes built with the same seed and parameters produce the same trajectory and the same observations after the same sequence of calls.", "quantifier": "every seed and every call sequence", "why_tests_cant": "Quantifies over seeds and histories.", "anchors": ["src/dynamics/stochastic_process.py:StochasticProcess.__init__"]}
{"id": "C44", "title": "A configured simulation runs to completion", "statement": "After setup() succeeds, with generated observations or with user-supplied data, run() finds every quantity it needs.", "quantifier": "every parameter dictionary, with and without data, every sequence of setup calls", "why_tests_cant": "History property over a dictionary of keys.", "anchors": ["src/var_bayes/simulation.py:Simulation.setup", "src/var_bayes/simulation.py:Simulation.run", "vgpa_main.py:main"]}
{"id": "C45", "title": "Saved results can be loaded back", "statement": "load(file written by save()) returns a dictionary with the same keys and equal arrays (scalars become arrays of one element); save writes nothing when there is no output, and saving twice gives the same file.", "quantifier": "every output dictionary, every simulation name", "why_tests_cant": "Round trip for all dictionaries.", "anchors": ["src/var_bayes/simulation.py:Simulation.save", "src/var_bayes/simulation.py:load"]}
{"id": "C46", "title": "Parameter files are validated and errors turn into exit status 1", "statement": "validate_input_parameters_file accepts a dictionary exactly when all nine required keys are present, and returns it unchanged; main exits with status 1 when no file is given, when validation fails, or when any simulation stage fails, and saves results only if every stage succeeded.", "quantifier": "every dictionary and every failure point", "why_tests_cant": "All key subsets and all failure points.", "anchors": ["vgpa_main.py:validate_input_parameters_file", "vgpa_main.py:main"]}
{"id": "C47", "title": "The initial variational parameters are consistent", "statement": "initialization() chooses A(t) such that the covariance 0.25 I is stationary for the diagonal of the noise, and (n-D) b(t) such that an Euler forward sweep started on the interpolant of the observations stays on it; the interpolation knots are strictly increasing for observation times strictly inside the grid.", "quantifier": "every grid, noise and interpolant", "why_tests_cant": "All grids and noise matrices.", "anchors": ["src/var_bayes/variational.py:VarGP.initialization"]}
{"id": "C48", "title": "The Lagrange multipliers are the sensitivities of the accumulated cost", "statement": "The backward sweep of an ODE solver is the adjoint of its forward sweep: for two forward sweeps that differ only in the initial moments, the multiplier returned for a grid point, applied to the change of the moments at the point it belongs to (the next grid point for Euler), equals the change of the cost accumulated afterwards (running gradients times dt plus the jumps at the observations).", "quantifier": "every grid, drift, noise, initial moments, gradients and jumps; all four solvers, 1-D and n-D", "why_tests_cant": "All trajectories, grids and dimensions; a missing transpose is invisible for symmetric matrices and in one dimension.", "anchors": ["src/numerics/euler.py", "src/numerics/heun.py", "src/numerics/runge_kutta2.py", "src/numerics/runge_kutta4.py", "src/var_bayes/fwd_ode.py", "src/var_bayes/bwd_ode.py"]}
{"id": "C49", "title": "The gradient checker passes exactly the accurate gradients", "statement": "check_gradient_function evaluates the gradient once at the given point and the objective at the central-difference points with step 1e-6, reports PASSED exactly when the Euclidean distance between gradient and differences divided by the number of parameters is at most the tolerance, so a passing gradient is close to the true one entry by entry and an exact one passes for smooth objectives; it changes neither the optimiser's statistics nor the objective.", "quantifier": "every objective, point and tolerance", "why_tests_cant": "All objectives and points; the state left behind in the objective is not printed.", "anchors": ["src/numerics/optim_scg.py:SCG.check_gradient_function", "src/numerics/utilities.py:finite_diff"]}
{"id": "C50", "title": "The Lorenz-96 energy is the average misfit of the sigma points, with matching parameter and noise gradients", "statement": "Lorenz96.energy returns as Esde the trapezoid over the grid of half the weighted average, over the sigma points of the marginal at each grid point, of the squared difference between the drift of the point and the linear drift, weighted with the diagonal of the inverse noise; it raises LinAlgError for a covariance that is not positive definite; <f> and <df/dx> are the Gaussian averages, and dEsde_dth and dEsde_dSig are the derivatives of the returned Esde with respect to the forcing and the noise matrix.", "quantifier": "every dimension, grid, forcing, noise, linear drift, symmetric positive definite covariances and sorted observation indexes", "why_tests_cant": "All dimensions and marginals; the error is confined to three columns and vanishes for symmetric inputs.", "anchors": ["src/dynamics/lorenz_96.py:Lorenz96.energy", "src/dynamics/lorenz_96.py:l96", "src/numerics/utilities.py:ut_approx"]}
{"id": "C51", "title": "The Lorenz-96 energy gradients with respect to the marginals are derivatives of the energy", "statement": "The arrays dEsde_dm and dEsde_ds returned by Lorenz96.energy are, up to the integration weights, the derivatives of the returned Esde with respect to the marginal means and covariances at every grid point.", "quantifier": "every dimension, grid, forcing, noise, linear drift and symmetric positive definite covariances", "why_tests_cant": "All dimensions and marginals; the estimate is exact for some misfits and far off for others.", "anchors": ["src/dynamics/lorenz_96.py:Lorenz96.energy", "src/var_bayes/variational.py:grad_Esde_dm_ds"]}
{"id": "C52", "title": "The shipped simulations and simulations with the Lorenz models run to completion", "statement": "vgpa_main.py started with one of the parameter files of the repository (sim_params_DW.json, sim_params_L3D.json, sim_params_L40D.json) returns and leaves a file with the eleven results; setup followed by run with the Lorenz-63 or Lorenz-96 model and generated observations completes for every parameter dictionary whose values the classes document (noise as a number, a list or a matrix), with arrays of the documented shapes, an initial mean near the start of the sample path, initial covariance 0.2 I and the prior moments of the parameters; the results can be saved and loaded.", "quantifier": "every parameter dictionary, random stream, state of the simulation object and disk", "why_tests_cant": "All parameter dictionaries and random streams; a single run of the 40-dimensional file takes hours.", "anchors": ["src/var_bayes/simulation.py:Simulation.setup", "src/var_bayes/simulation.py:Simulation.run", "vgpa_main.py:main", "sim_params_DW.json", "sim_params_L3D.json", "sim_params_L40D.json"]}
{"id": "C53", "title": "A simulation is reproducible from its parameter file", "statement": "Two simulations set up and run with the same parameter file give the same results: vgpa_main.py leaves the same file, and Simulation.setup followed by run gives the same output whatever the state of the random number generator of the process and whatever was done with the simulation object before. A run that fails leaves no results to save.", "quantifier": "every parameter dictionary, initial state of the random number generator, history of calls on the simulation object", "why_tests_cant": "Two equal runs say nothing about other seeds, parameters and histories of calls.", "anchors": ["src/var_bayes/simulation.py:Simulation.setup", "src/var_bayes/simulation.py:Simulation.run", "src/var_bayes/simulation.py:Simulation.save", "src/dynamics/stochastic_process.py:StochasticProcess.__init__", "vgpa_main.py:main"]}
{"id": "C54", "title": "The objective of the optimisation is bounded below", "statement": "VarGP.free_energy is bounded below by a number that does not depend on the variational parameters: for every model, prior, set of observations and grid there is a number that free_energy(x) never falls below, so the minimisation is well posed.", "quantifier": "every vector x of variational parameters, model parameters, observations, prior and grid", "why_tests_cant": "Finitely many evaluations cannot show a lower bound over all x; the arguments without one need a sign of the variance or a size of the mean that the initial values do not have.", "anchors": ["src/var_bayes/variational.py:VarGP.free_energy", "src/dynamics/ornstein_uhlenbeck.py:OrnsteinUhlenbeck.energy", "src/dynamics/double_well.py:DoubleWell.energy", "src/numerics/euler.py:Euler.solve_fwd", "src/dynamics/lorenz_63.py:Lorenz63.energy", "src/dynamics/lorenz_96.py:Lorenz96.energy"]}
{"id": "C55", "title": "Observation operators select what is observed", "statement": "A simulation whose parameters give an observation operator generates observations of the part of the state that the operator selects, and its run completes and minimises the observation energy of that part: a mask that selects q of the d components leaves q observed values for each time with their own noise, selecting all components gives the same results as giving no operator, and a matrix or a list of weights observes the corresponding combinations of components.", "quantifier": "every acceptable parameter dictionary of the four models, operator, random stream and state of the simulation object", "why_tests_cant": "All parameter dictionaries, operators and random streams; the shipped parameter files and the test suite contain no operator at all.", "anchors": ["src/var_bayes/simulation.py:Simulation.setup", "src/var_bayes/simulation.py:Simulation.run", "src/dynamics/stochastic_process.py:StochasticProcess.collect_obs", "src/var_bayes/gaussian_like.py:GaussianLikelihood"]}
{"id": "C56", "title": "End to end: setup prepares the described problem and run minimises its free energy", "statement": "For acceptable parameters, setup draws a sample path of the named system on the given time window, noisy observations of that path at evenly spread times and an initial mean near the first point of the path, in this order and from the generator as the parameters seed it; run then returns variational parameters whose free energy for exactly these data, prior, noise and integration method is the returned number, which is never above the free energy at the interpolation of the observations where the optimisation starts, and the returned means and covariances solve the moment equations of a linear process that starts from the prepared initial moments.", "quantifier": "every acceptable parameter dictionary of the four models, random generator, interpolation and state of the simulation object", "why_tests_cant": "All parameter dictionaries and random streams; the test suite has no test of a whole simulation, and a wrong constant or a swapped argument anywhere between the parameter file and the optimiser leaves the program running with plausible output.", "anchors": ["src/var_bayes/simulation.py:Simulation.setup", "src/var_bayes/simulation.py:Simulation.run", "src/var_bayes/variational.py:VarGP", "src/dynamics/stochastic_process.py:StochasticProcess"]}
{"id": "C57", "title": "The free energy bounds the evidence", "statement": "The number that free_energy returns is an upper bound of the negative logarithm of the evidence, that is of the density of the observations when the states at the grid points follow the Euler-Maruyama discretisation of the diffusion from the prior of the first state, whatever the variational parameters; so minimising it tightens a bound of the evidence.", "quantifier": "every one-dimensional model, noise, drift parameter, grid, prior, initial moments, observations and variational parameters", "why_tests_cant": "All arguments and all data; the evidence is an integral over all states of the grid, which no test computes, and an objective that is no bound still decreases during the optimisation and yields plausible results.", "anchors": ["src/var_bayes/variational.py:VarGP.free_energy", "src/var_bayes/prior_kl0.py:PriorKL0", "src/dynamics/ornstein_uhlenbeck.py:OrnsteinUhlenbeck.energy", "src/dynamics/double_well.py:DoubleWell.energy", "src/var_bayes/gaussian_like.py:GaussianLikelihood"]}
{"id": "C58", "title": "The optimiser minimises quadratic objectives", "statement": "For a quadratic objective with positive definite Hessian and its gradient SCG completes, accepts the step of every iteration (so the recorded objective values strictly decrease and the scale parameter halves down to 1e-15), and brings the objective closer to its minimum by a factor below 1, depending only on the extreme eigenvalues, in every iteration; the returned value is as close to the minimum as the budget, f_tol or the gradient tolerance 1e-8 allow. In particular, from any start point that is not astronomically far away, the sphere function ends below 1e-8 with all coordinates below 1e-4.", "quantifier": "every dimension, positive definite Hessian, start point, budget and tolerances", "why_tests_cant": "All quadratic functions, dimensions and start points; the repository's own optimiser tests try two functions from random start points and raise TypeError with the optimiser as it is.", "anchors": ["src/numerics/optim_scg.py:SCG.__call__", "src/tests/test_scg.py:TestSCG.test_sphere_fun", "src/numerics/utilities.py:finite_diff"]}
{"id": "C59", "title": "The sweeps converge to the differential equations when the coefficients vary in time", "statement": "For variational parameters that are samples of twice differentiable functions of time, the means and covariances returned by solve_fwd converge to the solution of dm/dt = -A m + b, dS/dt = -A S - S A' + Sigma, and the multipliers returned by solve_bwd converge to the solution of d lam/dt = -dE/dm + A' lam, d psi/dt = -dE/dS + psi A + A' psi that is zero at the final time and jumps by the derivative of the observation energy at every observation time; uniformly over the grid, at the order of the method.", "quantifier": "all twice differentiable coefficients, all step sizes and final times, any number of observations on the grid, every method, 1-D and n-D", "why_tests_cant": "The constants hold for all step sizes and all smooth coefficients at once; a test sees finitely many grids and cannot tell a small systematic limit error from a discretisation error.", "anchors": ["src/numerics/euler.py:Euler.solve_fwd", "src/numerics/euler.py:Euler.solve_bwd", "src/numerics/heun.py:Heun.solve_fwd", "src/numerics/heun.py:Heun.solve_bwd", "src/numerics/runge_kutta2.py:RungeKutta2.solve_fwd", "src/numerics/runge_kutta4.py:RungeKutta4.solve_fwd", "src/numerics/runge_kutta4.py:RungeKutta4.solve_bwd"]}
{"id": "C60", "title": "free_energy and gradient converge to the continuous-time variational free energy and its derivative", "statement": "For one-dimensional problems (Ornstein-Uhlenbeck, double well) whose variational parameters are samples of twice differentiable functions a, b of time: as the time step goes to zero, free_energy converges to the KL divergence at time 0 plus the integral over time of the expected squared drift mismatch plus the expected negative log-likelihood of the observations, all under the linear diffusion with coefficients a and b; and the entries of gradient, divided by the step, converge uniformly over the grid to the functions ga, gb for which the derivative of that continuous free energy in any direction (h, k) is the integral of ga h + gb k. For Lorenz 63 with variational parameters sampled from twice differentiable A, b, the same limit of free_energy, and the entries of gradient for b, divided by the step, converge to the derivative of the continuous free energy with respect to the function b.", "quantifier": "all twice differentiable a, b and all directions h, k; all parameters, priors, noise levels and final times; any number of observations on the grid; every integration method; all sufficiently small step sizes", "why_tests_cant": "Tests evaluate a finite number of grids and cannot separate a systematic error of the limit (wrong coefficient, missing term) from the error of the discretisation, and the derivative along all directions is not a finite check.", "anchors": ["src/var_bayes/variational.py:VarGP.free_energy", "src/var_bayes/variational.py:VarGP.gradient", "src/dynamics/ornstein_uhlenbeck.py:OrnsteinUhlenbeck.energy", "src/dynamics/double_well.py:DoubleWell.energy", "src/var_bayes/prior_kl0.py:PriorKL0.gauss_1d", "src/var_bayes/gaussian_like.py:GaussianLikelihood", "src/numerics/euler.py:Euler.solve_fwd", "src/numerics/euler.py:Euler.solve_bwd", "src/dynamics/lorenz_63.py:Lorenz63.energy", "src/var_bayes/prior_kl0.py:PriorKL0.gauss_nd"]}
{"id": "C61", "title": "The prior given to a multi-dimensional simulation is the one it uses", "statement": "In a simulation of a Lorenz model the entries mu0 and tau0 of the prior may be a number for all components, a list with one entry per component, or (tau0) a covariance matrix. Simulation.setup accepts them, and the initial term of the free energy that Simulation.run minimises is the Kullback-Leibler divergence of the initial distribution from the Gaussian with this mean and this covariance. Lists of a wrong length are rejected.", "quantifier": "all prior means and positive definite prior covariances in these forms, both Lorenz models, all acceptable values of the other parameters, every state of the random generator", "why_tests_cant": "The shipped parameter files use one number for each; whether lists and matrices are honoured depends on the broadcasting of numpy for every shape, and an ignored covariance changes no shape and raises no error.", "anchors": ["src/var_bayes/simulation.py:Simulation.setup", "src/var_bayes/simulation.py:Simulation.run", "src/var_bayes/prior_kl0.py:PriorKL0.gauss_nd"]}
{"id": "C62", "title": "The shipped unit tests of the utilities and of the Gaussian moments pass for every random draw", "statement": "Every assertion of test_utilities.py and test_gaussian_moments.py holds: the finite differences of the four functions are within the tolerance of numpy.allclose of the true derivatives, safe_log is clipped at its limits, log_det is the logarithm of the determinant of the diagonal matrix, my_trapz is the trapezoidal rule with and without observation times, chol_inv is the inverse of the number, the diagonal matrix and the positive definite matrix of the test, and the moments and derivatives of GaussianMoments of order 0, 1 and 2 differ from the expected arrays by zero while orders out of range raise ValueError.", "quantifier": "all values of the arrays that the tests draw from numpy.random (rand in [0, 1), finite numbers for randn)", "why_tests_cant": "The tests draw new random numbers in every run and check one draw; whether an assertion can fail for some draw is not visible from runs that passed.", "anchors": ["src/tests/test_utilities.py:TestUtilities", "src/tests/test_gaussian_moments.py:TestGaussianMoments", "src/numerics/utilities.py:finite_diff", "src/numerics/utilities.py:my_trapz", "src/var_bayes/gaussian_moments.py:GaussianMoments"]}
{"id": "C63", "title": "The command line runs a simulation only for well-formed lines, and the exit status tells what happened", "statement": "vgpa_main.py called with options --params FILE and --data FILE (in any order, abbreviated to at least one letter, as two words or joined by =) runs main on the last value given for each option. A line without arguments ends with status 1; a line without --params ends with status 1; -h or --help ends with status 0; every other line ends before any file is read: with status 0 if reading from the left meets a well-formed request for help before an error (and no word before a following -- begins with --=), otherwise with 2. Without a complete run the disk is unchanged, and the closing message is shown exactly when main returns; status 0 means that the simulation completed or that help was asked for.", "quantifier": "all argument lists (words over 8-bit characters), all parameter and data files, all simulations and disks", "why_tests_cant": "There are infinitely many argument lists, and the rules for abbreviations, values that begin with a dash, repeated options and left-over words interact.", "anchors": ["vgpa_main.py:main", "vgpa_main.py:148-179"]}
{"id": "C64", "title": "Incomplete or wrong parameters are refused, and a refusal leaves the simulation as it was", "statement": "Simulation.setup raises KeyError when an entry that it needs is missing from the parameters, TypeError when a value that should hold entries is no dictionary, ValueError when the model is unknown, and otherwise passes on the error of the stochastic model, of the trajectory, of the observations or of the prior moments, whichever comes first; it succeeds exactly when there is no such obstacle, whatever was done with the object before. A setup that raises leaves the simulation object as it was before the call.", "quantifier": "every parameter value, data argument, behaviour of the stochastic models and state of the simulation object", "why_tests_cant": "All parameter dictionaries, all ways in which the classes may fail, and all earlier histories of the object; no test calls setup with wrong parameters.", "anchors": ["src/var_bayes/simulation.py:Simulation.setup", "src/var_bayes/simulation.py:Simulation._stochastic_model", "src/var_bayes/simulation.py:Simulation.run"]}
{"id": "C65", "title": "The optimiser follows the scaled conjugate gradient method, stops at the first stopping rule that holds, and records what it did", "statement": "SCG(f, df, options)(x0) follows the scaled conjugate gradient method: it moves along the proposed direction (steepest descent if the objective does not fall along it), with the step length given by the damped curvature, accepts a step exactly when the objective does not grow, adapts the damping to the ratio of achieved to predicted decrease, and proposes the next direction by the Polak-Ribiere rule with a restart after as many accepted steps as there are variables. It returns at the first iteration in which the direction is shorter than the square root of the machine epsilon, an accepted step changes all variables by at most x_tol and the objective by at most f_tol, or the squared gradient at the new point is at most 1e-8, and otherwise after max_it iterations (defaults 150, 1e-6, 1e-8). The statistics hold for every step tried the objective, the damping used and the sum of the absolute entries of the gradient before the last accepted step, and zeros elsewhere. If the objective and its gradient do not raise, neither does the optimiser. For VarGP this holds with the free energy and its fresh gradient.", "quantifier": "every objective and gradient (with internal state, possibly raising), start point, tolerances and number of iterations", "why_tests_cant": "There is no test of the optimiser, and a wrong update formula still descends on most objectives, so that only the path would show it.", "anchors": ["src/numerics/optim_scg.py:SCG.__init__", "src/numerics/optim_scg.py:SCG.__call__", "src/numerics/optim_scg.py:SCG.statistics"]}
