{"id": "C01", "title": "A run terminates and ends exactly at the requested final time", "statement": "Integrating a solution with any RK option from t to deck.finaltime >= t with deck.nout >= 2 always stops after finitely many steps, whatever wave speeds the solution shows on the way: either with an error exit, or with solution.t equal to deck.finaltime (exact arithmetic).", "quantifier": "every solution, deck, RK scheme, residual, limiter and every sequence of CFL time steps", "why_tests_cant": "The number of steps and the sequence of CFL steps depend on the evolving solution; a test sees one sequence.", "anchors": ["dg1d/rk.py:classic_rk", "dg1d/rk.py:low_storage_rk4", "dg1d/rk.py:get_next_time_step", "dg1d/rk.py:adjust_for_output", "dg1d/rk.py:sanity_check_dt"]}
{"id": "C02", "title": "Time never goes backwards and never overshoots an output time or the final time", "statement": "Throughout integrate, every step length is >= 0, solution.t is non-decreasing, and after each step solution.t is at most the pending output time and at most the final time; the step counter grows by exactly one per step.", "quantifier": "every step of every run, for all CFL histories", "why_tests_cant": "Overshoot only shows for particular ratios between CFL step and output interval.", "anchors": ["dg1d/rk.py:adjust_for_output", "dg1d/rk.py:classic_rk", "dg1d/rk.py:low_storage_rk4"]}
{"id": "C03", "title": "A completed run writes the requested outputs at equally spaced times", "statement": "integrate writes exactly deck.nout snapshots, numbered 0..nout-1, snapshot i being the solution at time t0 + i*(tf-t0)/(nout-1).", "quantifier": "every deck with nout >= 2 and tf > t0 and every CFL history", "why_tests_cant": "Needs all ratios of CFL step to output interval; in particular CFL steps longer than the output interval near the end of the run.", "anchors": ["dg1d/rk.py:classic_rk", "dg1d/rk.py:low_storage_rk4", "dg1d/rk.py:adjust_for_output", "dg1d/solution.py:Solution.printer"]}
{"id": "C04", "title": "Output files never overwrite each other", "statement": "The files written during a run have pairwise distinct names: different step numbers or different fields give different names, and the step numbers used by a run are 0,1,2,... without repetition.", "quantifier": "all fields, all step numbers (also beyond ten digits), all runs", "why_tests_cant": "File-name collisions can only be excluded over all numbers.", "anchors": ["dg1d/solution.py:Solution.format_fnames", "dg1d/solution.py:Solution.printer", "dg1d/rk.py:classic_rk"]}
{"id": "C05", "title": "Every step obeys the CFL bound and the sanity check", "statement": "Every time step actually taken is at most dx*cfl/(v*(2p+1)), v being the max wave speed of the solution at the beginning of the step, and a CFL step below 1e-14 aborts the run before the solution is touched.", "quantifier": "every step of every run", "why_tests_cant": "Depends on the evolving wave speed.", "anchors": ["dg1d/rk.py:cfl_time_step", "dg1d/rk.py:sanity_check_dt", "dg1d/rk.py:get_next_time_step", "dg1d/rk.py:adjust_for_output"]}
{"id": "C06", "title": "NaN in the cell averages stops the run", "statement": "In IEEE double arithmetic, if any cell average needed for the Euler wave speed is NaN, or any cell (ghost cells included) has zero density with zero momentum, or negative pressure over density, the next time step exits with an error instead of advancing.", "quantifier": "all double-precision solution arrays, all cells, all cfl, dx, p", "why_tests_cant": "Requires NaN propagation through max/abs/sqrt/compare for every position of the offending cell.", "anchors": ["dg1d/rk.py:sanity_check_dt", "dg1d/rk.py:cfl_time_step", "dg1d/euler_physics.py:max_wave_speed"]}
{"id": "C07", "title": "Low-storage RK4 computes exactly what classic RK4 computes", "statement": "For every solution, deck, residual and limiter the option low_storage_rk4 produces the same snapshots, times, step counts and final solution as rk4, operation for operation (so also in floating point).", "quantifier": "all solutions, decks, residuals, limiters, arithmetics", "why_tests_cant": "Equality over all inputs of two different loops with carried-over state.", "anchors": ["dg1d/rk.py:low_storage_rk4", "dg1d/rk.py:classic_rk", "dg1d/rk_coeffs.py:get_rk4_coefficients"]}
{"id": "C08", "title": "An RK step is the Butcher-tableau step", "statement": "Without limiter one step of option rkN maps u to u + sum_i c_i K_i with K_i = dt*residual(u + sum_{j<i} b_ij K_j): skipping coefficients below 1e-15 loses nothing because no tableau has a non-zero coefficient that small, and no coefficient lies on or above the diagonal.", "quantifier": "all eight tableaux, all states, residuals and dt", "why_tests_cant": "Quantifies over residual functions and states; the skip threshold interacts with every coefficient.", "anchors": ["dg1d/rk.py:classic_rk", "dg1d/solution.py:Solution.smart_axpy", "dg1d/rk_coeffs.py"]}
{"id": "C09", "title": "RK options are consistent and of their order on linear problems", "statement": "For any linear residual L the step of option rk3,rk4,rk5,rk6 equals the Taylor polynomial of exp(dt L) up to order 3,4,5,6 plus higher-order terms exactly, and for rk8,rk10,rk12,rk14 the Taylor coefficients up to order 8,10,12,14 agree within 1e-17, 1e-26, 1e-26 and 1e-24.", "quantifier": "all linear operators, states and dt", "why_tests_cant": "Holds for every linear operator; convergence tests sample a few.", "anchors": ["dg1d/rk_coeffs.py", "dg1d/rk.py:classic_rk"]}
{"id": "C10", "title": "RK tableaux satisfy the order conditions", "statement": "The tableaux of rk3, rk4, rk5, rk6 satisfy the rooted-tree order conditions of all trees with at most 3,4,5,6 nodes exactly; those of rk8, rk10, rk12 and rk14 satisfy the conditions of all trees with at most 8, 10, 12 and 14 nodes within 1e-17, 1e-14, 1e-13 and 1e-9; row sums equal the stage abscissae (rk8 within 1e-16; rk10, rk12 and rk14 within 1e-27).", "quantifier": "all rooted trees up to the order", "why_tests_cant": "The conditions are algebraic identities; a numerical convergence test cannot establish them.", "anchors": ["dg1d/rk_coeffs.py"]}
{"id": "C11", "title": "Unrecognised option names fall back to documented defaults", "statement": "Any RK name other than the nine known ones behaves exactly as rk4, any Riemann solver name other than rusanov/godunov as roe, any limiter name other than adaptive_hr as no limiting, any PDE system other than euler as advection with one field.", "quantifier": "all option strings", "why_tests_cant": "Ranges over all strings.", "anchors": ["dg1d/rk.py:integrate", "dg1d/solution.py:Solution.set_manipulation_functions", "dg1d/limiting.py:Limiter.__init__"]}
{"id": "C12", "title": "The DG residual is conservative", "statement": "For every solution, system, Riemann solver and face evaluation, the sum over interior cells of the mean-mode residual of a field times dx equals flux at the left boundary minus flux at the right boundary; interior fluxes cancel pairwise.", "quantifier": "all orders, cell counts, states, Riemann solvers, enhancements", "why_tests_cant": "Telescoping for every N_E, order and flux.", "anchors": ["dg1d/dg.py:DG.residual", "dg1d/dg.py:DG.add_interior_face_fluxes", "dg1d/basis.py:Basis.evaluate_basis_gauss"]}
{"id": "C13", "title": "Periodic runs conserve mass, momentum and energy", "statement": "With periodic boundary conditions the total of every field over the interior cells is the same in every snapshot and after every step of a run, for any order, Riemann solver, RK scheme, enhancement and with or without the limiter (exact arithmetic).", "quantifier": "all periodic solutions, decks and step histories", "why_tests_cant": "An invariant over every step of every run.", "anchors": ["dg1d/rk.py:integrate", "dg1d/dg.py:DG.residual", "dg1d/limiting.py:Limiter.adaptive_hr", "dg1d/solution.py:Solution.apply_bc"]}
{"id": "C14", "title": "A uniform flow stays uniform", "statement": "If every cell holds the same constant admissible state (higher modes zero), the residual vanishes in all interior cells for every consistent Riemann solver, order and boundary condition, and the whole run leaves the interior solution unchanged.", "quantifier": "all constant states, orders, cell counts, solvers, RK schemes", "why_tests_cant": "Quantifies over states, orders and runs.", "anchors": ["dg1d/dg.py:DG.residual", "dg1d/basis.py:Basis.evaluate_basis_gauss", "dg1d/euler_physics.py", "dg1d/rk.py"]}
{"id": "C15", "title": "The advection residual is exact on polynomials", "statement": "If the cells around an interior cell carry one global polynomial of degree <= p, the advection residual in that cell is the Legendre expansion of minus its derivative.", "quantifier": "all orders p, polynomials, cell widths and positions", "why_tests_cant": "Exactness for all degrees and coefficients.", "anchors": ["dg1d/dg.py:DG.residual", "dg1d/advection_physics.py", "dg1d/basis.py"]}
{"id": "C16", "title": "The semi-discrete advection scheme is L2 stable", "statement": "For periodic advection the inner product of the solution with its residual equals minus half the sum of the squared interface jumps divided by dx-scaling, hence the discrete energy cannot grow, for every order and every solution.", "quantifier": "all orders, cell counts and solution coefficients", "why_tests_cant": "An inequality over all states.", "anchors": ["dg1d/dg.py:DG.residual", "dg1d/advection_physics.py", "dg1d/basis.py", "dg1d/solution.py:Solution.apply_bc"]}
{"id": "C17", "title": "The residual is local", "statement": "The residual of a cell depends only on that cell and its two neighbours (after boundary conditions): changing any other interior cell does not change it, bit for bit.", "quantifier": "all states, cells, systems, solvers, enhancements and arithmetics", "why_tests_cant": "A non-interference property over all pairs of states.", "anchors": ["dg1d/dg.py:DG.residual", "dg1d/solution.py:Solution.collocate", "dg1d/enhance.py:Enhance.face_value"]}
{"id": "C18", "title": "Periodic problems have no preferred origin", "statement": "Cyclically shifting the interior cells of a periodic solution shifts the residual (and hence every RK step without limiter) by the same amount, and so every snapshot of a whole run, at the same times; in floating point too, bit for bit.", "quantifier": "all periodic states, shifts, orders, solvers", "why_tests_cant": "Equivariance over all states and shifts.", "anchors": ["dg1d/dg.py:DG.residual", "dg1d/solution.py:Solution.apply_bc"]}
{"id": "C19", "title": "Boundary conditions fill exactly the ghost cells", "statement": "apply_bc with periodic sets the left ghost to the last interior cell and the right ghost to the first one, with zerograd copies the adjacent interior cell, changes no interior cell, and is idempotent; after every step of a run the ghosts are consistent with the interior.", "quantifier": "all orders, numbers of fields, cell counts >= 1, mixed left/right types", "why_tests_cant": "Slice arithmetic with negative indices must work for all sizes.", "anchors": ["dg1d/solution.py:Solution.apply_bc", "dg1d/solution.py:Solution.add_ghosts"]}
{"id": "C20", "title": "A reloaded solution applies the boundary conditions it was saved with", "statement": "After loader reads a snapshot, apply_bc on the loaded solution fills its ghost cells as it would have in the saved solution.", "quantifier": "all snapshots", "why_tests_cant": "Depends on string identity of a freshly parsed string, invisible in tests that compare text.", "anchors": ["dg1d/solution.py:Solution.loader", "dg1d/solution.py:Solution.apply_bc"]}
{"id": "C21", "title": "The mass matrix is the Legendre Gram matrix", "statement": "basis.m and basis.minv hold exactly the integrals over [-1,1] of products of Legendre polynomials (off-diagonals vanish) and their inverses.", "quantifier": "all orders n, m", "why_tests_cant": "Orthogonality for every pair of degrees.", "anchors": ["dg1d/basis.py:Basis.mass_matrix"]}
{"id": "C22", "title": "Edge evaluation matrix is the Legendre endpoint values", "statement": "psi[0,n] = P_n(-1) = (-1)^n and psi[1,n] = P_n(1) = 1, so collocate_faces returns the exact one-sided face values of the cell polynomials.", "quantifier": "all orders, all coefficients", "why_tests_cant": "For every degree.", "anchors": ["dg1d/basis.py:Basis.evaluate_basis_edges", "dg1d/solution.py:Solution.collocate_faces"]}
{"id": "C23", "title": "Interior flux integration is exact for polynomial fluxes", "statement": "Applying dphi_w to the node values of a polynomial flux F of degree <= p+2 (so that P_n' F has degree <= 2p+1) gives exactly the integral of P_n' F over [-1,1].", "quantifier": "all orders, all polynomial fluxes of admissible degree", "why_tests_cant": "Exactness over all polynomials.", "anchors": ["dg1d/basis.py:Basis.evaluate_basis_gauss", "dg1d/dg.py:DG.integrate_interior_flux"]}
{"id": "C24", "title": "Projection interpolates at the Gauss nodes, reproduces polynomials and keeps the quadrature mean", "statement": "basis.projection(a,b,f) returns the unique degree-p expansion that equals f at the p+1 Gauss nodes of [a,b]; it reproduces polynomials of degree <= p; its mean coefficient is the Gauss-quadrature mean of f; collocating it returns the sampled values.", "quantifier": "all intervals, functions, orders", "why_tests_cant": "For every function and interval.", "anchors": ["dg1d/basis.py:Basis.projection", "dg1d/basis.py:Basis.shifted_xgauss", "dg1d/solution.py:Solution.populate", "dg1d/solution.py:Solution.collocate"]}
{"id": "C25", "title": "Shifting and product integration of Legendre series are exact", "statement": "shift_legendre_polynomial(l,s)(x) = l(x+s) for all x, and integrate_legendre_product(l1,l2) is the integral of l1*l2 over [-1,1].", "quantifier": "all coefficient lists, shifts and x", "why_tests_cant": "Polynomial identities.", "anchors": ["dg1d/basis.py:shift_legendre_polynomial", "dg1d/basis.py:integrate_legendre_product"]}
{"id": "C26", "title": "All Riemann solvers are consistent", "statement": "For every state u (admissible for Euler) each solver returns riemann(u,u) = interior_flux(u).", "quantifier": "all admissible states, gamma > 1, all solvers", "why_tests_cant": "For every state.", "anchors": ["dg1d/euler_physics.py:riemann_rusanov", "dg1d/euler_physics.py:riemann_roe", "dg1d/euler_physics.py:riemann_godunov", "dg1d/advection_physics.py:riemann_upwinding"]}
{"id": "C27", "title": "Riemann solvers respect mirror symmetry", "statement": "Swapping left and right states and reversing velocities returns the mirrored flux (mass and energy flux change sign, momentum flux does not), for every Euler solver.", "quantifier": "all pairs of admissible states", "why_tests_cant": "For every pair of states, including both supersonic branches.", "anchors": ["dg1d/euler_physics.py:riemann_rusanov", "dg1d/euler_physics.py:riemann_roe", "dg1d/euler_physics.py:riemann_godunov"]}
{"id": "C28", "title": "Stationary contacts are preserved by Roe and Godunov", "statement": "For equal pressures and zero velocities the Roe and Godunov fluxes are exactly (0,p,0) whatever the densities; Rusanov's mass flux is not zero unless the densities agree.", "quantifier": "all densities, pressures, gamma", "why_tests_cant": "For every pair of densities.", "anchors": ["dg1d/euler_physics.py:riemann_roe", "dg1d/euler_physics.py:riemann_godunov", "dg1d/euler_physics.py:riemann_rusanov"]}
{"id": "C29", "title": "Roe linearisation is exact and upwinds supersonic flow", "statement": "The Roe wave decomposition satisfies sum of eigenvalue*strength*eigenvector = F(uR)-F(uL), the Roe-averaged sound speed is real for admissible states, and when all Roe speeds are positive (negative) and no entropy fix acts the flux is F(uL) (F(uR)).", "quantifier": "all pairs of admissible states", "why_tests_cant": "Algebraic identity over all states.", "anchors": ["dg1d/euler_physics.py:riemann_roe"]}
{"id": "C30", "title": "The Roe entropy fix only adds dissipation and never divides by zero", "statement": "The entropy-fixed wave speed is >= the original absolute speed, is >= a quarter of the expansion spread where the fix acts, and the division by the spread happens only where the spread is positive.", "quantifier": "all pairs of states", "why_tests_cant": "Inequality over all states.", "anchors": ["dg1d/euler_physics.py:riemann_roe"]}
{"id": "C31", "title": "The wave-speed estimate bounds all characteristic speeds", "statement": "max_wave_speed is >= |v|, |v-a| and |v+a| of every cell average, is attained by some cell, and for advection it is 1.", "quantifier": "all solution arrays with admissible averages", "why_tests_cant": "Over all cells and states.", "anchors": ["dg1d/euler_physics.py:max_wave_speed", "dg1d/advection_physics.py:max_wave_speed"]}
{"id": "C32", "title": "Rusanov is the central flux with the largest local wave speed as viscosity", "statement": "riemann_rusanov(uL,uR) = (F(uL)+F(uR))/2 - s/2 (uR-uL) with F the Euler flux and s = max of |v|+a of both states, for every interface independently of all others.", "quantifier": "all states and interface counts", "why_tests_cant": "Over all states and positions in the interleaved array.", "anchors": ["dg1d/euler_physics.py:riemann_rusanov"]}
{"id": "C33", "title": "The Godunov star state solves the Riemann problem", "statement": "At a fixed point of the pressure iteration the left and right wave curves meet: across each side the star state satisfies the Rankine-Hugoniot conditions (shock side) or the isentropic Riemann-invariant relations (rarefaction side), and the sonic state is sonic and on the same isentrope.", "quantifier": "all pairs of admissible states with a fixed point", "why_tests_cant": "Nonlinear relations for all states.", "anchors": ["dg1d/euler_physics.py:riemann_godunov", "dg1d/euler_physics.py:massflux", "dg1d/euler_physics.py:sonic"]}
{"id": "C34", "title": "Godunov either returns a flux or exits; it never uses an unset variable", "statement": "For admissible states the Godunov solver either exits with 'did not converge' or returns; when it returns its last two pressures differ by less than 1e-6, and one of the interface branches always applies; it performs at most 101 iterations.", "quantifier": "all pairs of admissible states", "why_tests_cant": "Branch coverage over all states.", "anchors": ["dg1d/euler_physics.py:riemann_godunov"]}
{"id": "C35", "title": "Godunov picks the exact interface state for shocks", "statement": "For data that is a single shock the Godunov flux is the flux of the side that covers the interface.", "quantifier": "all single-shock data, also supersonic", "why_tests_cant": "Needs supersonic inflow against a strong shock.", "anchors": ["dg1d/euler_physics.py:riemann_godunov"]}
{"id": "C36", "title": "Limiting never changes cell averages", "statement": "Hierarchical reconstruction returns a cell polynomial with the same mean, for every order >= 1 and any neighbours; hence limit() leaves every interior mean coefficient unchanged.", "quantifier": "all orders >= 1, all cell data", "why_tests_cant": "Over all orders and data.", "anchors": ["dg1d/limiting.py:Limiter.hr", "dg1d/limiting.py:Limiter.limit_monomial", "dg1d/limiting.py:Limiter.adaptive_hr"]}
{"id": "C37", "title": "scalar_minmod is minmod", "statement": "scalar_minmod(a,b) is 0 if a and b have opposite signs (or one is 0) and otherwise the one of smaller magnitude; it is symmetric, odd, homogeneous and bounded by both arguments.", "quantifier": "all reals a,b", "why_tests_cant": "Over all pairs.", "anchors": ["dg1d/limiting.py:scalar_minmod"]}
{"id": "C38", "title": "Limiting is the identity on globally polynomial data", "statement": "If a cell and its two neighbours carry one global polynomial of degree <= p, hierarchical reconstruction returns the cell unchanged.", "quantifier": "all orders p >= 1, all polynomials", "why_tests_cant": "For every order and polynomial.", "anchors": ["dg1d/limiting.py:Limiter.hr", "dg1d/limiting.py:Limiter.limit_monomial", "dg1d/limiting.py:integrate_monomial_derivative_bounds"]}
{"id": "C39", "title": "For p=1 limiting creates no new extrema", "statement": "The limited linear polynomial stays between the minimum and maximum of the three cell averages on the whole cell, and is constant at a local extremum of the averages.", "quantifier": "all p=1 cell data", "why_tests_cant": "Over all data.", "anchors": ["dg1d/limiting.py:Limiter.limit_monomial"]}
{"id": "C40", "title": "Limiting acts only on flagged cells, simultaneously", "statement": "limit() changes exactly cells whose sensor is set, computes each from the unlimited neighbours (order of cells irrelevant), and ends with consistent ghost cells.", "quantifier": "all solutions and sensor patterns", "why_tests_cant": "Over all patterns.", "anchors": ["dg1d/limiting.py:Limiter.adaptive_hr"]}
{"id": "C41", "title": "The limiter works for every polynomial order", "statement": "limit() with adaptive_hr returns normally for every order >= 0 when sensors are set.", "quantifier": "all orders", "why_tests_cant": "Order 0 is the corner case.", "anchors": ["dg1d/limiting.py:Limiter.limit_monomial"]}
{"id": "C42", "title": "Sensors flag exactly the two cells next to a strong jump", "statement": "After sensing, cell e is flagged iff one of its two interfaces exceeds the threshold (shock flag 2 overrides discontinuity flag 1); the result does not depend on earlier sensor values; values are in {0,1,2}.", "quantifier": "all solutions, thresholds, previous sensor contents", "why_tests_cant": "Over all histories and patterns.", "anchors": ["dg1d/sensor.py:Sensor.sensing", "dg1d/advection_physics.py:sensing", "dg1d/euler_physics.py:sensing"]}
{"id": "C43", "title": "Sensor functions are bounded by one half and vanish on uniform data", "statement": "The normalised sensor 2x/(1+x)^2 lies in [0,1/2] and is zero iff the jump is zero, so thresholds >= 1/2 never flag a cell and non-negative thresholds never flag uniform data.", "quantifier": "all states and thresholds", "why_tests_cant": "Over all reals.", "anchors": ["dg1d/advection_physics.py:sensing", "dg1d/euler_physics.py:sensing"]}
{"id": "C44", "title": "Limiting inside RK stages sees up-to-date boundary data", "statement": "A periodic limited RK step commutes with cyclic shifts of the cells, i.e. stage limiting treats the boundary cells like all others.", "quantifier": "all periodic states", "why_tests_cant": "Needs data with activity at the boundary.", "anchors": ["dg1d/rk.py:classic_rk", "dg1d/limiting.py:Limiter.adaptive_hr"]}
{"id": "C45", "title": "Enhanced face values come from the polynomial matching both cells", "statement": "With enhancement modes distinct and <= p, the face value is the value at the face of the unique polynomial of degree p+|modes| whose moments in the cell equal all of the cell's and whose selected moments in the neighbour equal the neighbour's; consequently it is exact if both cells carry one polynomial of that degree.", "quantifier": "all orders, sorted mode lists, cell data", "why_tests_cant": "Over all orders, mode sets and data.", "anchors": ["dg1d/enhance.py:enhancement_matrices", "dg1d/enhance.py:left_enhancement_vectors", "dg1d/enhance.py:Enhance.face_value"]}
{"id": "C46", "title": "Built-in Euler initial conditions are admissible", "statement": "simplew, entrpyw, acsticw, shuoshe (and scktube for positive parameters) give positive density and pressure at every x, so the projected cell averages are admissible and the first time step is well defined and positive.", "quantifier": "all x, cell counts, orders", "why_tests_cant": "At every point and resolution.", "anchors": ["dg1d/solution.py:Solution.simplew", "dg1d/solution.py:Solution.entrpyw", "dg1d/solution.py:Solution.acsticw", "dg1d/solution.py:Solution.scktube", "dg1d/solution.py:Solution.shuoshe"]}
{"id": "C47", "title": "An invalid initial condition never yields a completed run", "statement": "A deck naming an unknown initial condition (or giving scktube the wrong number of parameters) ends in an error exit; no run completes and at most the empty snapshot 0 is written.", "quantifier": "all icline strings not naming a known condition", "why_tests_cant": "Over all strings.", "anchors": ["dg1d/solution.py:Solution.__init__", "dg1d/rk.py:sanity_check_dt", "dg1d/main.py"]}
{"id": "C48", "title": "Saving and loading round-trips", "statement": "loader(step) after printer(step) restores element centroids, time, step count, boundary-condition names, order, cell count, mesh and all interior coefficients of every field, for >= 2 cells.", "quantifier": "all solutions, orders, field counts, steps", "why_tests_cant": "Strided negative-index slices and text parsing over all shapes.", "anchors": ["dg1d/solution.py:Solution.printer", "dg1d/solution.py:Solution.loader", "dg1d/solution.py:Solution.format_fnames"]}
{"id": "C49", "title": "Nineteen significant digits identify a double", "statement": "Writing a finite double with format %.18e and reading the text back (correct rounding) gives the same double.", "quantifier": "all finite doubles", "why_tests_cant": "2^64 values.", "anchors": ["dg1d/solution.py:Solution.printer", "dg1d/solution.py:Solution.loader"]}
{"id": "C50", "title": "Deck files round-trip", "statement": "Parsing the file produced by write_deck sets each recognised key to the last value given for it and leaves other settings at their defaults; unrecognised keys are ignored.", "quantifier": "all definition lists with single-line values", "why_tests_cant": "Over all key/value lists.", "anchors": ["dg1d/deck.py:Deck.parser", "dg1d/deck.py:write_deck"]}
{"id": "C51", "title": "Solutions do not influence each other", "statement": "Creating another Solution does not change the fluxes computed for an existing one.", "quantifier": "all sequences of Solution constructions", "why_tests_cant": "A history property: gamma is a module global.", "anchors": ["dg1d/constants.py:init", "dg1d/solution.py:Solution.__init__", "dg1d/solution.py:Solution.simplew"]}
{"id": "C52", "title": "Mis-configured limiting fails loudly", "statement": "adaptive_hr without sensor thresholds, or with fewer thresholds than the system needs, raises before any time step is taken; thresholds without limiter write all-zero sensors.", "quantifier": "all decks", "why_tests_cant": "Over all configurations.", "anchors": ["dg1d/limiting.py:Limiter.adaptive_hr", "dg1d/solution.py:Solution.__init__", "dg1d/sensor.py:Sensor.sensing"]}
{"id": "C53", "title": "The mesh is uniform and covers the domain", "statement": "For N_E >= 1 the element edges start at A, end at B, are equally spaced by dx = (B-A)/N_E, and centroids are the midpoints; the scaled inverse mass matrix is (2n+1)/dx.", "quantifier": "all N_E, A, B, orders", "why_tests_cant": "For all cell counts.", "anchors": ["dg1d/solution.py:Solution.setup_common_ic"]}
{"id": "C54", "title": "Sensors are invariant under reflection", "statement": "Reflecting the data (swap left and right, negate velocities) flags the mirror images of the flagged cells, with the same flag.", "quantifier": "all pairs of admissible states", "why_tests_cant": "Regression decks all have one orientation.", "anchors": ["dg1d/euler_physics.py:sensing", "dg1d/advection_physics.py:sensing"]}
{"id": "C55", "title": "Only outputs of the last CFL step can be missing", "statement": "In a run that completes, every output requested before the start of the last time step is written at its requested time, and any requested output that is not written lies less than one CFL step before the final time.", "quantifier": "all runs that complete: any state, order, solver, limiter, RK option, CFL number, final time, nout >= 2", "why_tests_cant": "Over all runs; the regression decks request two or few outputs.", "anchors": ["dg1d/rk.py:integrate", "dg1d/rk.py:get_next_time_step", "dg1d/rk.py:adjust_for_output"]}
{"id": "C56", "title": "The analysis matrix is the Fourier symbol of the solver", "statement": "On periodic advection data whose cell e carries t^e w, the solver's residual carries t^e times 2/dx times the matrix dg_stability.py assembles at T = t applied to w, for the plain scheme and for the enhanced scheme with the same modes.", "quantifier": "all orders, cell counts, complex t with t^ne = 1, mode vectors w, enhancements built from distinct modes up to the order", "why_tests_cant": "The analysis script and the solver are written separately and no test compares them; the claim ranges over all orders, phases and vectors.", "anchors": ["analysis/dg_stability.py:dg_matrices", "analysis/dg_stability.py:icb_matrices", "analysis/aux_functions.py:delta", "dg1d/dg.py:DG.residual", "dg1d/enhance.py:Enhance"]}
{"id": "C57", "title": "The DG spectrum lies in the left half-plane", "statement": "Every eigenvalue of the matrix dg_stability.py plots for the plain scheme has a non-positive real part when |T| = 1. The real part is zero in one case only: the eigenvalue 0 at T = 1, whose eigenvectors are the constants.", "quantifier": "all orders, all T with |T| >= 1, all eigenvalues and eigenvectors", "why_tests_cant": "The script samples finitely many phases and orders.", "anchors": ["analysis/dg_stability.py:get_eigenvalue", "analysis/dg_stability.py:dg_matrices"]}
{"id": "C58", "title": "The plotted determinant is the amplification polynomial of the solver's table", "statement": "For every Runge-Kutta option, the determinant contoured by rk_stability.py is the polynomial 1 + sum_k g_k z^k, where g_k is computed from the Butcher table the solver integrates with.", "quantifier": "all method names (known or not), all complex z, every function with the properties of the determinant", "why_tests_cant": "Polynomial identity in z, over all options, and relative to the specification of a determinant.", "anchors": ["analysis/rk_stability.py", "dg1d/rk_coeffs.py"]}
{"id": "C59", "title": "Advection runs amplify Fourier eigenmodes by the plotted factor", "statement": "A completed periodic advection run started from the real and imaginary parts of an eigenmode of the analysis matrix ends with that eigenmode multiplied by the product, over its time steps, of the determinant of rk_stability.py at z = 2 dt lambda / dx; the step lengths add up to the elapsed time, none is negative or exceeds the CFL step, and the same holds for every snapshot written.", "quantifier": "all orders, cell counts, phases, eigenpairs, RK options, CFL numbers, final times, output counts, enhancements", "why_tests_cant": "Relates whole runs of any length to the analysis scripts.", "anchors": ["analysis/dg_stability.py:get_eigenvalue", "analysis/rk_stability.py", "dg1d/rk.py:integrate", "dg1d/rk.py:classic_rk"]}
{"id": "C60", "title": "First-order advection runs create no new extrema", "statement": "An advection run at order 0 without enhancement, with options rk3, rk4 or rk5 and a CFL number of at most 1, keeps every cell average of every snapshot and of the final state inside the initial range, and the total variation of the averages never exceeds the initial one. Option rk6 does not: started from one full cell its first step produces a negative average at any CFL number.", "quantifier": "all cell counts, initial data, final times, output counts, CFL numbers up to 1, periodic or zero-gradient boundaries", "why_tests_cant": "Inequality over all initial data, step sequences and run lengths; it depends on the sign of the coefficients of the stability polynomial of each table.", "anchors": ["dg1d/rk.py:integrate", "dg1d/rk_coeffs.py", "dg1d/dg.py:DG.residual", "dg1d/advection_physics.py:riemann_upwinding"]}
{"id": "C61", "title": "Uniform velocity and pressure survive", "statement": "In an Euler run without limiter that starts with the same velocity and pressure at every point and any density, every snapshot and the final state have that velocity and pressure at every point of every cell, provided the density is positive wherever the run evaluates it.", "quantifier": "all densities, velocities, pressures, orders, cell counts, Riemann solvers, RK schemes, step sizes, enhancements, periodic or zero-gradient boundaries, run lengths", "why_tests_cant": "Exact invariant over all density fields and run lengths; it hinges on every flux being advective when velocity and pressure agree.", "anchors": ["dg1d/dg.py:DG.residual", "dg1d/euler_physics.py:riemann_rusanov", "dg1d/euler_physics.py:riemann_roe", "dg1d/euler_physics.py:riemann_godunov", "dg1d/rk.py:integrate"]}
{"id": "C62", "title": "Contacts at rest stay put with the Roe and exact solvers only", "statement": "With the Roe or the exact Riemann solver, a flow at rest with uniform pressure and any positive density is returned unchanged by every run without limiter, and the run reaches its final time. With Rusanov's flux the average density of a cell with a jump at exactly one of its interfaces changes in the first evaluation.", "quantifier": "all densities (polynomial in each cell), pressures, orders, cell counts, RK schemes, step sizes, enhancements, boundaries, run lengths", "why_tests_cant": "The regression case stationary_contact runs one density field with one flux, and compares with a stored gold file.", "anchors": ["dg1d/dg.py:DG.residual", "dg1d/euler_physics.py:riemann_roe", "dg1d/euler_physics.py:riemann_godunov", "dg1d/euler_physics.py:riemann_rusanov", "regressions/stationary_contact/deck.inp"]}
{"id": "C63", "title": "Entropy waves are advected like scalars", "statement": "With the Roe or the exact Riemann solver and uniform velocity v >= 0 and pressure, every Euler time step of length dt turns the density modes into exactly those the advection solver produces from them in one step of length v dt of the same Runge-Kutta scheme, as long as the density of the stages is positive.", "quantifier": "all densities, v >= 0, pressures, orders, cell counts, RK options, step sizes, enhancements, boundaries, every step of every run without limiter", "why_tests_cant": "Relates two different physics modules over all data; a test compares numbers at one resolution.", "anchors": ["dg1d/dg.py:DG.residual", "dg1d/euler_physics.py:riemann_roe", "dg1d/euler_physics.py:riemann_godunov", "dg1d/advection_physics.py:riemann_upwinding", "dg1d/rk.py:classic_rk"]}
{"id": "C64", "title": "First-order entropy waves stay in range", "statement": "At order 0 without enhancement, with the Roe or the exact Riemann solver, rk3 or rk4 and a CFL number of at most 1/2, a run with uniform velocity v >= 0 and pressure keeps the density of every snapshot inside its initial range, keeps velocity and pressure exactly, and reaches the final time.", "quantifier": "all positive initial densities, v >= 0, pressures, cell counts, CFL numbers up to 1/2, final times, output counts, boundaries", "why_tests_cant": "Inequality over all data and run lengths of a nonlinear solver.", "anchors": ["dg1d/rk.py:integrate", "dg1d/rk_coeffs.py", "dg1d/euler_physics.py:riemann_roe", "dg1d/euler_physics.py:riemann_godunov", "dg1d/euler_physics.py:max_wave_speed"]}
{"id": "C65", "title": "Order-0 advection converges at first order", "statement": "A periodic advection run at order 0 without enhancement or limiter, with options rk3, rk4 or rk5 and a CFL number of at most 1, keeps every cell average within K/2*dx*t of the initial profile moved by t, where K is the Lipschitz constant of the profile's derivative. For a deck with the sine wave on N cells the error of every snapshot at time t is at most 4*pi^2*t/N, the run reaches its final time, and any accuracy is reached by refining the grid.", "quantifier": "all periodic profiles with Lipschitz derivative, cell counts, final times, output counts, CFL numbers up to 1, decks", "why_tests_cant": "Error bound over all grids, profiles and step sequences; a convergence study samples four resolutions.", "anchors": ["dg1d/main.py", "dg1d/rk.py:integrate", "dg1d/rk_coeffs.py:get_rk4_coefficients", "dg1d/solution.py:Solution.sinewave", "dg1d/dg.py:DG.residual"]}
{"id": "C66", "title": "Plots show the snapshot", "statement": "Plotting step k of a finished or interrupted run draws, for every field and cell, a point at each Gauss node and at both edges, at the height the cell's polynomial has there (density, velocity and pressure at gamma 1.4 for Euler); the sensors drawn are the snapshot's; the regression plots show the primitive variables of the cell averages. Asking for a step that was not written or for the other system fails on the missing file. The reference curve of advection plots is the exact solution exactly at whole times.", "quantifier": "all runs, snapshots, orders, cell counts, fields and cells; directories holding the run's files", "why_tests_cant": "There are no tests of the plotting scripts; the claim is about every snapshot of every run.", "anchors": ["dg1d/plot.py", "regressions/plot.py", "dg1d/solution.py:Solution.loader", "dg1d/solution.py:Solution.printer"]}
{"id": "C67", "title": "What the regression comparison accepts", "statement": "compare_with_golds accepts a directory exactly when the computed and the stored state have the same number of cells and modes and their centroids and all modes of all fields differ by less than 1.5e-10. It compares neither time, step count, boundary conditions nor sensors.", "quantifier": "all pairs of Euler solutions whose numbers survive the text files", "why_tests_cant": "An equivalence over all pairs of states; the regression suite is the code in question.", "anchors": ["regressions/regressions.py:compare_with_golds", "dg1d/solution.py:Solution.printer"]}
{"id": "C68", "title": "The convergence study measures the error", "statement": "At every order and resolution the deck written by the study makes the program finish at t = 8 with eleven snapshots 0.8 apart, and the error computed from the files is half the root mean square of the change of the cell averages over the eight periods, up to the accuracy of the text files. The printed orders do not depend on that factor and are q when the errors are C h^q.", "quantifier": "all orders and resolutions from 2 up to a CFL step of 1e-14; all lists of errors and resolutions", "why_tests_cant": "The study itself samples three orders and a few resolutions and has no oracle.", "anchors": ["advection_convergence/run.py", "advection_convergence/plot.py:error_norm", "dg1d/deck.py:write_deck", "dg1d/main.py"]}
{"id": "C69", "title": "Advection runs superpose", "statement": "If the data of a third advection problem are a times those of a first plus b times those of a second, then the three runs take the same steps, write as many snapshots at the same times, end alike, and every coefficient of every snapshot and of the final state of the third run is a times that of the first plus b times that of the second.", "quantifier": "all real a and b; all orders, cell counts, Runge-Kutta schemes, known or unknown boundary conditions, enhancements, CFL numbers, end times, snapshot counts; no limiter", "why_tests_cant": "A relation between three runs, over all data and all orders.", "anchors": ["dg1d/rk.py:integrate", "dg1d/dg.py:DG.residual", "dg1d/advection_physics.py:riemann_upwinding"]}
{"id": "C70", "title": "Order-0 advection runs stay ordered and do not drift apart", "statement": "At order 0 with CFL number at most 1 and rk3, rk4, low_storage_rk4 or rk5, the difference of the cell averages of two advection runs stays, at every snapshot and at the end, within the range it had at the start; in particular ordered data stay ordered. In a periodic domain the sum of the distances of the cell averages never exceeds its initial value.", "quantifier": "all pairs of data, cell counts, end times, snapshot counts, CFL numbers up to 1", "why_tests_cant": "A relation between two runs over all data.", "anchors": ["dg1d/rk.py:integrate", "dg1d/rk_coeffs.py", "dg1d/dg.py:DG.residual"]}
{"id": "C71", "title": "Euler runs do not depend on the units", "statement": "Describe an Euler problem in other units: densities times alpha, velocities times beta, lengths times lambda, so momenta times alpha beta, energies times alpha beta^2, times times lambda/beta. The run of the converted problem takes the converted steps, writes the converted snapshots and ends alike; when the time unit changes it may differ only in that one of the two runs is abandoned because a step is below 1e-14, and up to there they agree. This holds with the Rusanov and Roe fluxes for all alpha, beta, lambda, and with the exact flux when the unit of pressure is kept; the exact flux is not independent of the unit of pressure.", "quantifier": "all positive alpha, beta, lambda; all Euler data, orders, cell counts, Runge-Kutta schemes, boundary conditions, enhancements, limiters, sensors, CFL numbers, end times", "why_tests_cant": "A relation between two whole runs, for all data and all units.", "anchors": ["dg1d/rk.py:integrate", "dg1d/euler_physics.py:riemann_rusanov", "dg1d/euler_physics.py:riemann_roe", "dg1d/euler_physics.py:riemann_godunov", "dg1d/sensor.py:Sensor.sensing", "dg1d/limiting.py:Limiter.adaptive_hr"]}
{"id": "C72", "title": "The mirror image of a gas flow evolves into the mirror image", "statement": "Reflect an Euler problem: reverse the cells, replace each cell polynomial u(x) by u(-x), negate the momenta and swap the two boundary conditions. Without a limiter the run of the reflected problem takes the same steps, writes the same number of snapshots at the same times, each the mirror image of the original one, and ends alike; a problem that is its own mirror image stays so. This holds for the Rusanov flux unconditionally, for the Roe flux as long as the states at the interfaces have positive density and pressure, and for the exact flux as long as moreover no two supersonic streams collide at an interface.", "quantifier": "all Euler data, orders, cell counts, Runge-Kutta schemes, boundary conditions, enhancements, CFL numbers, end times and snapshot counts", "why_tests_cant": "A relation between two whole runs, for all data.", "anchors": ["dg1d/rk.py:integrate", "dg1d/dg.py:DG.residual", "dg1d/basis.py:Basis", "dg1d/euler_physics.py:riemann_rusanov", "dg1d/euler_physics.py:riemann_roe", "dg1d/euler_physics.py:riemann_godunov", "dg1d/enhance.py"]}
{"id": "C73", "title": "Advection with rk3 does not increase the L2 norm, at any order", "statement": "In a periodic domain without limiter or enhancement, with rk3 and a CFL number up to (2p+1)/(2(p+1)^2), the integral of the square of the advection solution at a snapshot never exceeds its value at the start or at any earlier snapshot, and the same holds for the final state. The integral of the square of the difference of two such runs never exceeds its initial value.", "quantifier": "all orders p, data, cell counts, end times, snapshot counts and CFL numbers up to the bound; all pairs of data", "why_tests_cant": "A bound for all data and all step counts; instabilities of high-order schemes show only for particular data after many steps.", "anchors": ["dg1d/rk.py:integrate", "dg1d/rk_coeffs.py", "dg1d/dg.py:DG.residual", "dg1d/basis.py:Basis", "dg1d/advection_physics.py:riemann_upwinding"]}
{"id": "C74", "title": "Advection with rk3 converges at order min(p+1, 3)", "statement": "In a periodic domain without limiter or enhancement, with rk3 and a CFL number up to (2p+1)/(2(p+1)^2), the L2 distance between the computed solution and a smooth profile moved by the elapsed time is at most the initial distance plus explicit terms of size dx^(p+1) and t (dx^(p+1) + dx^3). For the sine-wave deck, whose initial data interpolate the profile, the L2 error at time t on ne cells is at most C (1+t) / ne^min(p+1,3) with an explicit C depending on p only, and such runs reach the final time.", "quantifier": "all orders p, cell counts, smooth profiles, initial states, end times, snapshot counts and CFL numbers up to the bound", "why_tests_cant": "A convergence study fits a slope on a handful of grids at one time; the statement is a bound with an explicit constant for every grid and every time.", "anchors": ["dg1d/rk.py:integrate", "dg1d/rk_coeffs.py", "dg1d/dg.py:DG.residual", "dg1d/basis.py:Basis.projection", "dg1d/solution.py:Solution.sinewave", "advection_convergence/run.py"]}
{"id": "C75", "title": "Smooth entropy waves: Euler runs with rk3 converge at order min(p+1, 3)", "statement": "In a periodic gas of uniform velocity v >= 0 and pressure whose density is near a smooth profile bounded below, with the Roe or exact flux, rk3, no limiter or enhancement, a CFL number up to (2p+1)/(2(p+1)^2) and a grid fine enough for an explicit condition, at every snapshot and at the end velocity and pressure are unchanged, the density is positive everywhere with an explicit lower bound, and its L2 distance from the profile moved by v times the elapsed time is at most the initial distance plus explicit terms of size dx^(p+1) and v t (dx^(p+1) + dx^3). For the entropy-wave deck the L2 error at time t on ne cells is at most C (1+t) / ne^min(p+1,3) with an explicit C depending on p only, every grid with more cells than a number depending on p and the final time is fine enough, and such runs reach the final time.", "quantifier": "all orders p, cell counts above the bound, smooth profiles, velocities v >= 0, pressures, end times, snapshot counts and CFL numbers up to the bound; both fluxes", "why_tests_cant": "The Euler equations are nonlinear and positivity of the density at every quadrature point of every stage decides whether the run survives; the statement covers every grid, order and final time.", "anchors": ["dg1d/rk.py:integrate", "dg1d/rk_coeffs.py", "dg1d/dg.py:DG.residual", "dg1d/euler_physics.py:riemann_roe", "dg1d/euler_physics.py:riemann_godunov", "dg1d/solution.py:Solution.entrpyw", "dg1d/solution.py:Solution.max_wave_speed"]}
{"id": "C76", "title": "The clock of a run in double arithmetic", "statement": "In IEEE double arithmetic, with every operation rounded to nearest even, a run whose requested final time tf is a finite number from 0 to 2^1000 and which completes ends at a finite time within tf/2^52 of tf, and exactly at tf when its last step starts at 0 or in the second half of the run. Every run with tf at most 22 stops, completed or with an error, for every system, scheme, limiter, CFL number and number of snapshots. Advection with two requested times that completes ends at the very bits of tf, and without limiter it does complete if the time step is at least 1e-14 and at least tf/2^51. The check that refuses time steps below 1e-14 does not ensure that a run stops: if the step is at most tf/2^55, which it may be once tf exceeds 361, the clock of an advection run comes to rest before tf, no such run completes, and without limiter it loops for ever.", "quantifier": "all decks, all values of the mathematical library functions and of the Gauss rules, all numbers of steps; tf over all doubles in the stated ranges", "why_tests_cant": "Which bits the clock ends on depends on every rounding of the run; a run that never ends cannot be observed by a test, and one that ends shows nothing about other final times.", "anchors": ["dg1d/rk.py: integrate, classic_rk, low_storage_rk4, get_next_time_step, cfl_time_step, sanity_check_dt, adjust_for_output"]}
{"id": "C77", "title": "What a regression test tells", "statement": "A regression test passes exactly when its directory has a deck.inp, the run of that deck stopped and wrote a snapshot 1 of an Euler state, and the numbers of the three files of that snapshot are those of the three gold files: same number of rows and columns, entries less than 1.5e-10 apart or both NaN. How the run stopped plays no role, so a test with more than two outputs can pass although its run ended with an error; with two outputs, as in all decks of the repository, a pass means that the run completed and that its final state matches. Output left by earlier runs has no influence on the verdict nor on the files found afterwards; the deck, the golds and all files other than *.dat and the log stay as they are; a run without snapshot 1, or of advection, makes the test end in an error.", "quantifier": "all directories with any files in them, all decks, all arithmetics; no bound on the run", "why_tests_cant": "It is a statement about the test itself: what can be concluded from its verdict for every deck and directory.", "anchors": ["regressions/regressions.py: launch, runcode, compare_with_golds", "dg1d/main.py", "dg1d/solution.py:Solution.printer"]}
{"id": "C78", "title": "The convergence study never starts the solver", "statement": "The script of the convergence study looks for the solver at a relative path after it has moved to the directory of a run, two levels further down: there the path names a file in the directory of the order, which the script has removed at the start. So for every directory it is started from, every file system contents and every list of orders and resolutions, it starts the solver not once; if the resolutions are distinct it nevertheless ends normally, as it ignores the return codes, and leaves behind decks and logs only, so the plotting script finds no data for any of the orders.", "quantifier": "all starting directories, file trees, lists of orders and resolutions", "why_tests_cant": "A test in one checkout cannot exclude that some other layout of directories makes the path valid; the statement covers all layouts.", "anchors": ["advection_convergence/run.py", "advection_convergence/plot.py"]}
{"id": "C79", "title": "The built-in initial conditions are the flows they are named after", "statement": "For every gas constant in force before: 'simplew' sets gamma to 3 and gives gas at rest of sound speed 1 around the origin, joined by continuous, isentropic simple waves in which one Riemann invariant is constant and the characteristic speed does not decrease (rarefactions, mirror images of each other) to flows of speed 2/3 leaving the domain; 'entrpyw' is a sine wave of density in a flow of uniform velocity and pressure 1; 'acsticw' is gas at rest of sound speed 1 with a bump of at most 1/10000 that is the same in density and pressure; 'scktube' sets gamma to 1.4 and has the two states given in the deck on the two sides of the given point; 'shuoshe' sets gamma to 1.4 and has, up to one millionth, the state behind a Mach-3 shock on the left (Rankine-Hugoniot against gas of density and pressure 1 at rest) and gas at rest with sinusoidal density on the right; 'sinewave' is two odd waves of amplitude one.", "quantifier": "all positions, parameters and previous gas constants", "why_tests_cant": "The regression tests compare with stored output of the same code; a wrong formula for the energy or the wave would be stored as gold. The physical relations hold at every point, which no set of sampled points shows.", "anchors": ["dg1d/solution.py:Solution.simplew", "dg1d/solution.py:Solution.entrpyw", "dg1d/solution.py:Solution.acsticw", "dg1d/solution.py:Solution.scktube", "dg1d/solution.py:Solution.shuoshe", "dg1d/solution.py:Solution.sinewave"]}
{"id": "C80", "title": "Initial conditions fit their boundary conditions, with two exceptions", "statement": "Every built-in initial condition that asks for periodic boundaries repeats itself after the length of its domain, except 'ictest', whose values at the two ends differ by a jump. The ones that ask for zero-gradient boundaries are constant near both ends ('simplew'; 'scktube' when its diaphragm is inside the domain), except the right end of 'shuoshe', where the density has a positive slope.", "quantifier": "all initial-condition names, parameters, gas constants and positions", "why_tests_cant": "Periodicity and constancy are statements about all positions; the stored results of the tests contain the effect of a misfit without showing it.", "anchors": ["dg1d/solution.py:Solution.sinewave", "dg1d/solution.py:Solution.ictest", "dg1d/solution.py:Solution.shuoshe", "dg1d/solution.py:Solution.simplew"]}
{"id": "C81", "title": "Uniform data do not drift by rounding", "statement": "A run without limiter that starts from the same polynomial in every cell, between periodic or zero-gradient boundaries, keeps the cells identical bit for bit, in whatever arithmetic it is carried out. In double precision the cell averages it prints never move: each one is the starting average (up to the sign of a zero) or NaN. The initial condition 'scktube' with the same density, velocity and pressure on both sides starts this way.", "quantifier": "all orders, numbers of cells, systems, Riemann solvers, enhancement tables, Runge-Kutta options, CFL numbers, end times and output counts, and all results of the math library and of numpy's routines", "why_tests_cant": "Rounding error accumulates over the number of steps; a test sees one run length and compares with a tolerance.", "anchors": ["dg1d/dg.py:DG.residual", "dg1d/rk.py:integrate", "dg1d/solution.py:Solution.apply_bc", "dg1d/solution.py:Solution.scktube"]}
{"id": "C82", "title": "What the Runge-Kutta stability plot shows", "statement": "rk_stability.py samples the points (-6 + 9i/199, 6j/199), 0 <= i,j < 200, and their mirror images in the real axis, each exactly with the modulus of the amplification factor at the point where it is drawn; the coefficients of every option of the solver are among those drawn. The drawn rectangle [-6,3] x [-6,6] contains every point where the factor is at most 1 for rk3, rk4, rk5 and for unknown names (which stand for rk4). For rk6, rk8, rk10, rk12 and rk14 it does not: each of them has a zero of the factor outside the rectangle. On the imaginary axis (undamped waves) the factor is at most 1 exactly for y^2 <= 3 with rk3 and y^2 <= 8 with rk4, and only at 0 with rk5 and rk6.", "quantifier": "all method names, all complex points, every function with the properties of the determinant", "why_tests_cant": "The claim is about all points of the complex plane and the script samples 40000 of a rectangle; no test runs it.", "anchors": ["analysis/rk_stability.py:approximate_stability_bndry", "analysis/rk_stability.py:get_formatted_rk_coeffs", "dg1d/rk_coeffs.py"]}
{"id": "C83", "title": "How many steps an advection run takes, and how far its Courant number can be raised", "statement": "If the CFL step h = CFL*dx/(2p+1) fits m times into the time between two outputs, but not m+1 times, an advection run makes exactly m steps of size h and one step of the remaining size (possibly 0) between any two outputs, with any limiter and integrator option. Order 0, even number of cells, data +a,-a,+a,...; and order 1, the same straight line of average 0 and end value a in every cell: at output i the data have the same form with a multiplied by (P(-2 CFL)^m P(-2 CFL r/h))^i, where P is the polynomial of the integrator option and r the remaining step. Hence |a| does not grow if CFL <= 1.2563 (rk3), 1.3926 (rk4, low_storage_rk4), 1.8671 (rk5), 1.4526 (rk6), and from 1.2564, 1.3927, 1.8672, 1.4527 on it exceeds every bound for suitable final times, in runs that complete without an error.", "quantifier": "all numbers of cells, orders and integrator options (step count); all Courant numbers, final times, output counts, amplitudes and bounds", "why_tests_cant": "A test runs one Courant number and one final time; whether a run with another one is unstable, and that the program does not notice, concerns infinitely many runs of unbounded length.", "anchors": ["dg1d/rk.py:adjust_for_output", "dg1d/rk.py:get_next_time_step", "dg1d/rk.py:classic_rk", "dg1d/dg.py:DG.residual"]}
{"id": "C84", "title": "Interface enhancement can make the scheme unstable", "statement": "With the enhancement of modes 0 1 2 at order 3, the case dg_stability.py analyses, the analysis matrix at phase -1 has an eigenvalue with positive real part (at least 0.00038); with all modes of order 3 enhanced the matrix at phase i has one with real part at least 0.096. In the latter case there is an initial condition of period four cells for which every periodic advection run, with any time scheme and any CFL number up to 1, grows: at every snapshot and at the end, the sum over the cells of the square of each mode is at least exp((t - t0) / (4 dx)) times its initial value, so refining the grid makes it worse.", "quantifier": "all cell counts divisible by four, cell sizes, RK options, CFL numbers up to 1, final times, output counts; all snapshots", "why_tests_cant": "Growth of whole runs of any length and on any grid; a test sees one grid and one time.", "anchors": ["dg1d/enhance.py:Enhance", "analysis/dg_stability.py:icb_interface_flux_matrix", "analysis/dg_stability.py:get_eigenvalue", "dg1d/rk.py:integrate", "dg1d/dg.py:DG.residual"]}
{"id": "C85", "title": "What the DG stability script prints and draws", "statement": "dg_stability.py samples fifty phases on the unit circle, a set closed under conjugation that contains -1 twice and never contains 1. The polygon it draws has one vertex per eigenvalue and phase, ordered by the angle about the mean of the vertices; the two numbers it prints are the least and the greatest real part of the vertices, both attained. For the plain and the enhanced matrices the vertices are symmetric about the real axis. For the plain scheme every vertex lies strictly left of the imaginary axis and the printed maximum is negative, although the spectrum touches the axis at the phase that is not sampled. For the enhanced scheme the script actually runs (order 3, modes 0 1 2) the printed maximum real part is at least 0.00038.", "quantifier": "all orders, all enhanced mode lists (symmetry), all functions meeting the stated contracts of eigvals and argsort", "why_tests_cant": "Ranges over all orders and over every admissible eigenvalue routine; the sign of the printed maximum is within round-off of what a test tolerates.", "anchors": ["analysis/dg_stability.py:get_eigenvalue", "analysis/dg_stability.py:icb_matrices", "analysis/dg_stability.py:dg_matrices", "analysis/aux_functions.py:sort_roots_angle"]}
{"id": "C86", "title": "Limiting and mirror images", "statement": "Reflecting an Euler flow (x to -x, momentum reversed) and limiting it commute whenever the shock flags of the sensor do not depend on the orientation of the axis: one call of the hierarchical limiter on the mirror image returns the mirror image, and a whole limited run started from the mirror image writes mirrored snapshots at the same times and ends in the same way. The condition holds whenever the shock threshold is at least 1/2; it is needed, since the compression test of the sensor only looks at one of the two acoustic waves.", "quantifier": "all polynomial orders of at least 1, cell numbers, boundary conditions, Runge-Kutta schemes, CFL numbers, final times, thresholds and initial flows whose limited states are orientation free; the Rusanov flux without further condition, the Roe and the exact flux where C72 holds for them", "why_tests_cant": "a test compares two runs of one flow; the claim covers every flow, order and number of steps", "anchors": ["dg1d/limiting.py:Limiter.hr", "dg1d/limiting.py:Limiter.adaptive_hr", "dg1d/limiting.py:Limiter.limit_monomial", "dg1d/sensor.py:Sensor.sensing", "dg1d/rk.py:integrate"]}
{"id": "C87", "title": "Limiting leaves plateaus alone", "statement": "A cell in which a field is constant and which has a neighbour with the same constant is left unchanged by the hierarchical limiter, whatever the other neighbour holds and whatever the thresholds are. Layers of gas at rest under one pressure, each at least two cells wide, are therefore not changed by limited runs with the Roe or the exact flux.", "quantifier": "all orders of at least 1, constants, neighbours, fields, thresholds, cell numbers; for runs all Runge-Kutta schemes, CFL numbers, final times and layered densities", "why_tests_cant": "needs every order of the downward recursion and every content of the other neighbour; runs of any length", "anchors": ["dg1d/limiting.py:Limiter.hr", "dg1d/limiting.py:Limiter.adaptive_hr", "dg1d/limiting.py:Limiter.limit_monomial", "dg1d/rk.py:integrate"]}
{"id": "C88", "title": "Advection runs do not depend on the sign and the zero level of the data", "statement": "Advecting k u + c instead of u gives k times the result plus c: every snapshot, step size, number of steps and exception of the run from k u + c is that of the run from u, with averages multiplied by k and raised by c and higher modes multiplied by k. Without limiter this holds for all k and c; with the adaptive limiter (whose sensor is not homogeneous) for k = 1 and k = -1.", "quantifier": "all orders, mesh sizes, RK schemes, CFL numbers, final times, numbers of outputs, boundary conditions, enhancements and sensor thresholds; all initial data, all k and c", "why_tests_cant": "the regression decks compare one run with stored output; the symmetry relates two runs for every choice of data and level, and its failure under limiting shows only at order 2 and above, on stages whose ghost cells are stale", "anchors": ["dg1d/dg.py:DG.residual", "dg1d/limiting.py:Limiter.adaptive_hr", "dg1d/limiting.py:Limiter.limit", "dg1d/sensor.py:Sensor.sensing", "dg1d/rk.py:integrate"]}
{"id": "C89", "title": "Changing the sign of advected data is exact in double precision", "statement": "In IEEE double arithmetic, advecting -u without limiter gives exactly the negated run of u: the same snapshot times, step sizes, number of steps and exceptions, and in every snapshot every mode is the opposite of that of u (rounding included; NaN and infinities too; the two zeros count as one number).", "quantifier": "all orders, mesh sizes, RK schemes, CFL numbers, final times, numbers of outputs, boundary conditions and enhancements; all binary64 data", "why_tests_cant": "a bit-for-bit relation between two runs for all data; the regression decks run one datum each and compare to a tolerance", "anchors": ["dg1d/dg.py:DG.residual", "dg1d/advection_physics.py:riemann_upwinding", "dg1d/enhance.py:Enhance.face_value", "dg1d/solution.py:Solution.smart_axpy", "dg1d/rk.py:integrate"]}
{"id": "C90", "title": "A NaN never disappears, spreads with the flow, and advection does not report it", "statement": "In IEEE double arithmetic a mode that is NaN in a snapshot is NaN in all later snapshots and in the final solution, for both systems, with or without limiter. In advection it spreads downstream by at least one cell per step (around a periodic domain too), filling all modes of the cells it reaches. An advection run without limiter neither stops nor changes its times because of it. The limiter hides a NaN of the left neighbour of a flagged cell and takes over one of the right neighbour.", "quantifier": "all orders, mesh sizes, RK schemes, CFL numbers, boundary conditions, enhancements, cells and modes; all binary64 data with at least one NaN", "why_tests_cant": "no test has NaN data; the claim is about every position of the NaN and every later snapshot", "anchors": ["dg1d/rk.py:integrate", "dg1d/dg.py:DG.residual", "dg1d/solution.py:Solution.smart_axpy", "dg1d/limiting.py:Limiter.hr", "dg1d/limiting.py:scalar_minmod"]}
{"id": "C91", "title": "Advected data travel downstream only, at most one cell per Runge-Kutta stage", "statement": "Without limiter and enhancement, a cell of an advection run depends only on the initial data of the cell itself and of the cells upstream of it, at most as many as evaluations of the right-hand side were made (steps times stages). In a domain that is not periodic, changing the data to the right of a cell never changes the cell. Times, step sizes and the way the run ends do not depend on the data at all.", "quantifier": "all arithmetics (binary64 and real numbers among them), orders, mesh sizes, RK schemes, CFL numbers, boundary conditions and data", "why_tests_cant": "relates all pairs of initial data; exact equality in every cell and snapshot", "anchors": ["dg1d/dg.py:DG.residual", "dg1d/advection_physics.py:riemann_upwinding", "dg1d/rk.py:classic_rk", "dg1d/rk.py:low_storage_rk4", "dg1d/solution.py:Solution.apply_bc"]}
{"id": "C92", "title": "Data travel at most one cell per evaluation (two with the limiter), except through the step length", "statement": "After time steps of given lengths a cell depends only on the initial data of cells at most as many cells away (through the boundary conditions) as evaluations of the right-hand side were made, or twice as many if the limiter is on; this holds for advection and the Euler equations, every Riemann solver, with and without interface enhancement. Every run that ends without error is such a sequence of steps. Advection steps do not depend on the data, so the bound holds of whole advection runs. Whole Euler runs do not obey it: the step length is taken from all cells, so a distant cell changes the result everywhere at once.", "quantifier": "all arithmetics (binary64 and real numbers among them), orders, mesh sizes, RK schemes, Riemann solvers, enhancements, limiter on or off, step lengths, boundary conditions and data", "why_tests_cant": "relates all pairs of initial data; exact equality in every cell after any number of steps", "anchors": ["dg1d/dg.py:DG.residual", "dg1d/rk.py:classic_rk", "dg1d/rk.py:low_storage_rk4", "dg1d/rk.py:get_next_time_step", "dg1d/enhance.py:Enhance.face_value", "dg1d/solution.py:Solution.apply_bc", "dg1d/limiting.py:Limiter.adaptive_hr"]}
{"id": "C93", "title": "A run can be continued from any of its snapshots", "statement": "A run that has stopped, continued from any of its snapshots but the last with the remaining number of outputs and the same final time, writes the same remaining snapshots with the same step lengths, numbered from that snapshot on, and ends the same way, with the same final state or the same exception (exact arithmetic; in double precision whenever the remaining output times round the same way). In double precision too, the run from one snapshot to the requested time of the next ends in that next snapshot bit for bit. Nothing a step leaves behind in the work arrays (stage solution with its never reset time, increments, sensor flags) reaches a later step.", "quantifier": "all runs with every RK scheme, Riemann solver, limiter, enhancement, system, boundary condition, number of outputs, final time and initial data, that end normally or with an error; every snapshot but the last", "why_tests_cant": "exact equality of all remaining snapshots for every starting snapshot; state leaking between steps would show only for particular histories", "anchors": ["dg1d/rk.py:classic_rk", "dg1d/rk.py:low_storage_rk4", "dg1d/rk.py:adjust_for_output", "dg1d/solution.py:Solution.copy_data_only", "dg1d/solution.py:Solution.smart_axpy", "dg1d/solution.py:Solution.printer", "dg1d/sensor.py:Sensor.sensing"]}
