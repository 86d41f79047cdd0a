# dg1d: a machine-checked model in Coq 8.16

dg1d solves one-dimensional conservation laws (linear advection, Euler) with a modal
discontinuous Galerkin method, explicit Runge-Kutta time stepping and a hierarchical limiter.
The model is in `rocq/theories/`; `properties.jsonl` lists the claims, `MANIFEST.json` the
theorems that settle them, `ASSUMPTIONS.md` what `Print Assumptions` reports for each,
`seeded/LOG.jsonl` the wrong programs the theorems were tried on.

## 1. Approach

The model is a shallow transcription of the Python, function by function, branch by branch; each
definition cites file and lines. It is written once over an abstract number type (`Num`: field
operations, comparisons, literals; `Libm`: sqrt, pow, exp, trigonometry; `Ext`: library routines)
and used at

| numbers | purpose |
|---|---|
| any `Num` | statements true operation for operation (locality, shifts, boundary conditions, file formats): bit for bit in any arithmetic |
| `R` | exact-arithmetic statements (conservation, exactness, time loop, Riemann solvers) |
| `spec_float` | IEEE-754 binary64 of the standard library: NaN handling, text of doubles, failures caused by rounding |
| `Q` | evaluating concrete cases inside proofs |
| `R * R` | complex numbers of the stability scripts |
| `PrimFloat` | running the model on the repository's regression decks (tests, not proofs) |

Conventions:

* Arrays are lists, 2-D arrays lists of rows; slices keep Python's negative indices (`Py.v`).
* Exceptions are values (`res`); `sys.exit` is the exception `SysExit`. A Python name that may be
  unbound is an `option`, and reading it raises `UnboundLocalError`.
* Mutation returns the new object. The one module-level variable (`constants.gamma`) is an explicit
  argument and result.
* Strings carry an identity (`pystr`), because `apply_bc` compares with `is`.
* While-loops run on fuel and end in the distinct outcome `OutOfFuel`; C01 excludes it for every
  larger fuel. The Godunov iteration has the code's own bound.
* Files are strings; `print` is modelled only where it names a file or ends a run.

## 2. Files

* Model: `Num Py PyStr Constants LegNumpy Ext Basis Sensor Enhance AdvectionPhysics EulerPhysics
  Limiting IC Solution Solver RKCoeffs RK IO Deck Main Analysis Scripts Launch FloatText`.
* Vocabulary of the statements, independent of the model's helpers: `Spec*.v` (cells and
  interfaces, Legendre polynomials and Riemann integrals, rooted trees, primitive variables,
  text files, determinants, ...).
* Proofs: `Proofs*.v`. Theorems: `Properties*.v` only (`exact` a lemma, `Print Assumptions`,
  examples meeting the hypotheses).
* `ExtReal.v`: library routines over `R` that satisfy the contracts below (existence of Gauss
  rules, inverses, interpolation). `Witness.v`: solutions built by the modelled constructor with
  those routines; the non-vacuity examples use them. `WitnessText.v`: text routines over `R` that are exact for
  numbers of 18 decimals and accurate to 1e-18 otherwise.

## 3. Trusted base

1. Coq 8.16.1's kernel, including its virtual machine (`vm_compute`) and, for the theorems listed
   in the last two groups of `ASSUMPTIONS.md`, its native integer and float primitives.
2. Axioms of the standard library only: `sig_forall_dec`, `sig_not_dec` (Dedekind reals),
   `functional_extensionality_dep`, `classic`, and in the witnesses
   `constructive_indefinite_description`. `C10_rounded` also uses the specifications of `Uint63`;
   `C48_run_double`, `C49_identified_prim`, `C49_distinct` use `FloatAxioms.Prim2SF_valid` and
   `SF2Prim_Prim2SF`. Per theorem: `ASSUMPTIONS.md` (regenerate with `tools/assumptions.py`).
   Theorems over abstract arithmetic are closed under the global context.
   Flocq and Coquelicot are used as libraries and add no axioms.
3. The reading of `/repo`: the code was not run. As a check of the reading, the model at `PrimFloat`
   was run on the six regression decks; all fields agree with the gold files within 4e-11. All 36 unit
   tests of `tests/` are in `TestsUnit.v`, evaluated on the model with the tolerances of the tests.
4. Contracts of external routines, always explicit hypotheses, all satisfied by `ExtReal`:
   * `gauss_ok`: `leggauss(n)` is exact up to degree 2n-1, with n distinct nodes in (-1,1);
   * `legfit_ok`: a fit of degree n-1 through n distinct nodes interpolates;
   * `inv_ok`: `inv` returns the inverse, and raises only on singular matrices;
   * for file round trips over arbitrary numbers, that reading a written number gives it back. For
     doubles this is a theorem (C49) about the model of `'%.18e'` and `float()` in `FloatText.v`;
   * `det_ok` (C58, C59): a determinant is multilinear, alternating and 1 on the identity.
   * `only_eigenvalues`, `all_eigenvalues` (C85): what `numpy.linalg.eigvals` returns; `argsort_ok` (C85): `argsort`
     returns a sorting permutation.

## 4. What is modelled and what is not

Modelled in full: `dg1d/` `advection_physics.py`, `euler_physics.py`, `basis.py`, `constants.py`,
`deck.py`, `dg.py`, `enhance.py`, `limiting.py`, `main.py`, `rk.py`, `rk_coeffs.py`, `sensor.py`,
`solution.py` (constructors, initial conditions, printer, loader, boundary conditions);
`analysis/`: the matrices and determinant whose spectra are plotted, the values contoured by `rk_stability.py`; the numbers that `dg1d/plot.py`, `regressions/plot.py`
and `advection_convergence/plot.py` draw or print, `regressions.py`'s `compare_with_golds`, the decks of
`advection_convergence/run.py` (`Scripts.v`); a whole regression test (`launch`) and the loops of `run.py` with the files and
directories they create, remove and look up (`Launch.v`).

Not modelled: `helpers.makedir`; progress output and timers of `main.py`; argparse; directories and permissions (a run
writes to named files that always succeed); NumPy warnings; drawing itself (axes, LaTeX, image files) in all plotting scripts, the optimiser behind `analysis/`'s
plots; processes other than as functions on files, timers and reports in `regressions.py` and `run.py`; `numpy.loadtxt`'s treatment of input
other than files written by `printer`; non-ASCII text. Integers are unbounded, as in Python.

Simplifications, also stated at the definitions: numpy sums and dot products are added up from the last term (immaterial over
`R`; in doubles the last bits can differ, which no theorem depends on); the literals of
`rk_coeffs.py` are the exact decimals over `R` and correctly rounded over binary64; over `R` division by
zero is total (theorems assume positive densities where the code divides, or prove them).

## 5. Plan and method per property

Time loop (C01-C05, C11, C55): `classic_rk` and `low_storage_rk4` as one fuelled state machine that
emits snapshot events; invariants by induction on the loop; termination from the lower bound 1e-14 on
steps. C06: the binary64 instance, NaN through maximum and comparison. C07, C08: stage loops against
Butcher steps. C09: powers of a linear operator; C10: order conditions for all rooted trees, by verified
enumeration, exactly in Q(sqrt 5)/Q and for the tables of order 10, 12 and 14 in interval arithmetic over
machine integers.

Scheme (C12-C19): the residual is rewritten once, over any arithmetic, into a formula in cells and
interfaces (`C12_residual_characterised`), from which conservation, locality, shifts and boundary
behaviour follow; runs by invariants (`ProofsWf`) and by simulation of two runs (`ProofsRel`).
C14: ghost cells lose their higher modes inside a step, so the invariant fixes interior modes and
ghost averages only. C20: refuted through `is`.

Basis (C21-C25): NumPy's Clenshaw and derivative recurrences against Bonnet's polynomials and `RInt`.
Riemann solvers (C26-C35): case analysis over primitive variables; Godunov by monotonicity of the wave
curves and its contraction. Limiter (C36-C41, C44), sensors (C42, C43, C52, C54), enhancement (C45: a
rule of signs for Legendre series makes every distinct mode set invertible).

Construction and files (C46-C53): admissible initial data pointwise and on average; text round trips
by parsing lemmas. C51: the module-level gamma.

Stability scripts (C56-C59): the matrix assembled by `dg_stability.py` is the Fourier symbol of the
residual, its spectrum is in the left half-plane, the determinant of `rk_stability.py` is the
amplification polynomial, and completed runs multiply eigenmodes by it.
C60: an order-0 step is a combination of shifted averages; its weights come from the stability
polynomial in powers of (1 - shift) and are non-negative for rk3, rk4, rk5 up to CFL 1.
Flows of uniform velocity and pressure (C61-C64): all three Euler fluxes reduce to advection of the
density there, so momentum and energy stay affine in the density along every stage; the density of
each step is the polynomial in the advection operator that the advection solver computes.
C65: the weights of C60 have mean nu and variance nu (first two growth coefficients), so a step's error is at most
K/2 dx^2 nu by Taylor's bound; the averages are a convex combination, so errors add up.
Scripts (C66-C68): a script is a function from the files of a directory to the numbers it draws; C48's loader theorem
for C66, entrywise comparison of the two tables for C67, C01 and C04 for the runs of C68.
Several runs side by side (C69, C70): one step is the same matrix polynomial for all data; induction over the
loops of the three runs. C70: C60 and mass conservation applied to the run of the difference.
C71: every flux, wave speed, sensor value and limited coefficient is homogeneous; lockstep simulation of the two loops
with clocks in a fixed ratio (over R division by zero is zero on both sides, so no positivity of the data is needed).
C72: Gauss rules are symmetric (any rule of that exactness is); face values, volume terms and fluxes of the reflected
state are the reflected ones; lockstep simulation using the states the first run evaluates (`SpecTrace.v`).
C73: the residual is a matrix on Legendre coefficients whose symmetric part is minus the Gram matrix of the interface
jumps; with norm at most 1 (the CFL bound) the cubic Taylor polynomial of such a matrix is a contraction.
C74: compare with the Gauss-Radau projection of the moving profile (same moments below p, same value at the right end), for
which the spatial operator is exact up to the top mode; Taylor's formula bounds what is left, C73 sums it over the steps,
and the quadrature contract bounds the interpolation error of the initial data.
C75: by C61 the run reduces to advection of the density with speed v (C63) as long as every stage is dense; the error
bound of C74 keeps the density and its two intermediate stages near the profile, which gives that density, the wave speed
and so the time step, in one induction over the steps.
C76: `SFadd`, `SFsub` and comparisons of the standard library's `spec_float` are shown to round correctly (nearest double,
relative error 2^-53) and `SFdiv` to return canonical doubles; then invariants of the clock over the visited states:
Sterbenz' lemma for the last step, progress by half a step for termination, the spacing of doubles for the clock that stops.
C77: `launch` is a function from the files of a directory to its files afterwards and the verdict; names of snapshots end in .dat and
are injective (C04), so the comparison reads exactly snapshot 1 of this run; with two outputs the output time is the final time and
the loop writes snapshot 1 only in its last pass.
C78: invariant of the loops: below the directory of an order there are only files deck.inp and logfile of runs; a number in decimal is
never `dg1d`, so the path that the shell looks up never exists.
C79, C80: the velocity of `simplew` is a difference of two smooth ramps (tanh of a rational function, monotone, continuous at the
joints by 1 + tanh y <= -1/y); entropy, Riemann invariant, Rankine-Hugoniot conditions and periodicity by real algebra.
C81: invariant of the run (`integrate_inv`): all cells have the coefficients of cell 1, and every increment of an average is a zero or
NaN. The latter because the two fluxes of a cell are the same double, x - x is a zero or NaN, and the constant mode has a zero derivative.
C82: moduli of polynomials with the exact growth coefficients (C58). Left and right of the rectangle the squared modulus is a polynomial
with positive coefficients in the distance and y^2; above it the leading term around -1 dominates. Islands: sign change of the real
polynomial between two integers, evaluated in the ball arithmetic of `ProofsRKTables.v`, and the intermediate value theorem.
C83: invariant of the loop: i outputs and j <= m full steps have been made (`along_run`). The data are eigenvectors of the residual for the eigenvalue
-2(2p+1)/dx, so C09 gives the factor of each step. The bounds on P: on [0, 2 CFL] by the terms of the Bernstein form, beyond it by positive coefficients.
C84 makes the failure of C57 under enhancement precise. The characteristic polynomials of the enhanced
matrices are quartics with rational coefficients; a zero with positive real part is located through the
resolvent cubic (`ProofsGrow.v`). C59, with its bound on the step lengths, turns it into growth of runs: the
amplification factor of each of the eight time schemes has modulus above 1 at z = 2 dt lambda / dx
(`ProofsGrowRun.v`), because their Taylor coefficients are those of exp up to the fourth (third for rk3) and
small afterwards (ball arithmetic).

C85 models the rest of `dg_stability.py` and `sort_roots_angle` (`AnalysisEig.v`). The vertices are a
permutation of the eigenvalues because `argsort` returns a permutation; conjugate symmetry follows from the
Fourier symbol, whose coefficients are real. Strict negativity is C57_neutral plus the fact that
(2k - 49) pi / 49 is never 0. The positive maximum is C84_modes_012 at the sampled phase -1.

* **C86** (proved) One cell: Taylor coefficients of the mirrored polynomials are k(-1)^n times the old ones, the three averages of limit_monomial change sign with (-1)^(m-1), minmod is symmetric and homogeneous, so the downward recursion commutes with reflection (ProofsHrMirror). One call: flags_mirror (C54) plus the cell form. Runs: the relational walk of C72 extended with the states handed to the limiter (SpecClip, ProofsRelTrace, ProofsMirrorLim).
* **C87** (proved) With one equal neighbour one of the two arguments of every minmod is 0, so all limited derivatives vanish and the constant is restored by the average (ProofsSteadyLim.monomial_flat). Runs: the fixed-point invariant of C62 is kept by the limiter.
* **C88** (partial) One relation between the two runs (averages lifted in the interior and the ghosts the code refreshes; ghosts during stages tied only as far as the limiter looks) is kept by every operation: fluxes and quadrature are affine, minmod commutes with sign and the averages cancel in its differences. For order 1 the limiter reads neighbour averages only, which the spurious volume term does not change. Order 2: the first stage gives the ghost cells a slope proportional to the level, the limiter uses it; evaluated in binary64.
* **C89** A relation between numbers that survives +, - and multiplication by a common number survives collocation, fluxes, quadrature, inverse mass matrix, enhancement, ghosts and axpy, since none of them inspects the data without limiter (the wave speed of advection is constant). Rounding to nearest is symmetric, so `opposite` is such a relation.
* **C90** NaN absorbs in +, -, *, so every dot product that meets one is NaN, also with a zero coefficient; axpy, ghosts and reconstruction (NaN slopes give NaN candidates on both sides) keep it. Spread: volume term and upwind flux make all rows of the increment of the cell and of the next one NaN at every stage, and every table has a weight above the threshold of smart_axpy (evaluated). Unnoticed: C89's lockstep lemma with the relation that always holds. minmod: sorted([a, b, 0]) as CPython sorts three elements, by cases.
* **C91** Lockstep of two runs with a depth: at depth j the runs agree in every cell whose j upstream cells had the same data. The residual costs one level (upwind flux), axpy none, so a step costs as many levels as stages; stale increments of low-storage RK4 are from an earlier level.
* **C92** Lockstep as in C91 with neighbours on both sides: at depth j two states agree in every cell all of whose cells within j neighbours had the same data. Interface fluxes read the two adjacent cells, also enhanced ones, so an evaluation costs one level; ghost cells whose boundary condition is not recognised keep their data and only see themselves. The limiter costs another level (flags and reconstruction of a cell read its two neighbours; `adaptive_hr_spec` of C40); it reads ghost cells, whose data between boundary updates come from their source cell alone. The time loop is unrolled into `steps`; in advection both runs choose the same lengths. The Euler counterexample is evaluated in binary64.
* **C93** What a stage can see of a solution is everything but its time, step count and which sensors are on; residual, limiter and boundary conditions respect this. Increments are read only after the same step has written them, and the first low-storage coefficient is zero, so its increment is skipped. Hence the loop gives the same result from any work arrays of the same run. The states at snapshots are states of the loop (`visits`); in real arithmetic the tail of linspace is linspace from there.

Partial properties are those that are false of the code as written, with a `_refuted` theorem and the
strongest true version; see section 6.

## 6. Disagreements between the code and the claims

Found while proving; each is a theorem about a concrete run or input.

| | finding | theorem |
|---|---|---|
| 1 | `adjust_for_output` tests the final time first: the last step can skip requested outputs | `C03_refuted`, `C55_output_rule` |
| 2 | boundary conditions are compared with `is`; after loading a snapshot `apply_bc` does nothing | `C20_refuted` |
| 3 | Godunov's supersonic shortcut returns one side's flux although a shock may move against the stream; mirror symmetry fails there | `C27_godunov_refuted`, `C35_refuted` |
| 4 | near vacuum Godunov's pressure update is negative in binary64, its power NaN, and the flux unbound | `C34_float_refuted` |
| 5 | limiting at order 0 raises UnboundLocalError at the first flagged cell | `C41_refuted` |
| 6 | inside RK stages the limiter reads ghost cells of the previous stage | `C44_refuted` |
| 7 | a deck value containing a heading is misparsed | `C50_refuted` |
| 8 | constructing a `simplew` solution changes gamma for every existing one | `C51_refuted` |
| 9 | the shock sensor's compression test looks at one acoustic wave only, so flags are not mirror symmetric | `C54_refuted`, `C54_flags_refuted` |
| 10 | a loaded one-cell snapshot is a TypeError | `C48_single_cell` |
| 11 | an unknown initial condition is not rejected up front; the run can write an empty snapshot 0 before it ends | `C47_unknown_ic` |
| 12 | enhancement modes above the order are accepted by the constructor but not by face evaluation; repeated modes give a singular matrix; `dg_stability.py` silently drops modes above the order | `C45_large_refused`, `C45_repeated_refused` |
| 13 | `nout <= 1` ends in StopIteration | hypothesis `2 <= nout` of C01 |
| 14 | the loader does not set the scaled inverse mass matrix: a reloaded solution cannot be advanced | model of `loader` in `IO.v` |
| 15 | the stability polynomial of rk6 has a negative leading coefficient: first-order runs undershoot at every CFL number | `C60_rk6` |
| 16 | the regression case `stationary_contact` runs Rusanov's flux, which smears a contact at rest at once; the Roe and exact solvers keep it exactly | `C62_rusanov_smears`, `C62_stationary_contact` |
| 17 | the plotting scripts fix gamma = 1.4: for `simplew` (gamma = 3) the pressure drawn is a fifth of the pressure | `C66_pressure_refuted` |
| 18 | `plot.py` draws sin(2 pi x) over advection results of any time | `C66_reference_curve` |
| 19 | `error_norm` halves the cell averages again (mode 0 already is the average): the error of the study is half the true one; the printed orders are unaffected | `C68_study`, `C68_orders_scale` |
| 20 | `compare_with_golds` does not notice a different time, step count, boundary condition or sensor | `C67_compare` |
| 21 | the exact solver stops when successive pressures differ by less than 1e-6, whatever the unit: the same collision written in larger units gets a flux that is too small | `C71_godunov_refuted` |
| 22 | the check that refuses steps below 1e-14 does not ensure that the clock moves: for a final time above 361 a small CFL number makes an infinite loop | `C76_never_stops` |
| 23 | `advection_convergence/run.py` looks for `../dg1d/main.py` from the directory of the run, where it does not exist: the solver is never started, and the return code is not looked at | `C78_solver_not_started`, `C78_study_ends` |
| 24 | a regression test does not look at the return code of the run: with three outputs it passes although the run aborts after snapshot 1 (NaN equals NaN in the comparison); no deck of the repository has three outputs | `C77_return_code_ignored`, `C77_two_outputs` |
| 25 | `ictest` asks for periodic boundaries but its function is not periodic on the domain: the values at the ends differ | `C80_ictest_jumps` |
| 26 | `shuoshe` asks for zero-gradient boundaries at its right end, where the density has a slope; the comment of `simplew` says its waves move away from each other, but their inner edges run towards each other with speed 1 (v - c = -1 at x = 1/2) | `C80_shuoshe_ends`, `C79_simplew` |
| 27 | the rectangle drawn by `rk_stability.py` misses parts of the stability regions of rk6, rk8, rk10, rk12 and rk14 | `C82_islands` |
| 28 | enhanced schemes are unstable: the case analysed by `dg_stability.py` (order 3, modes 0 1 2) has an eigenvalue with positive real part, and runs with all four modes of order 3 enhanced grow exponentially at any CFL number up to 1 | `C84_modes_012`, `C84_growth`, `C85_script_positive` |
| 29 | `residual()` adds the volume term to the ghost cells without the interface fluxes, so during RK stages they carry slopes proportional to the zero level of the data; the limiter reads them, and limited advection of u + 16 is not that of u plus 16 (order 2, binary64) | `C88_refuted` |
| 30 | `scalar_minmod` sorts `[a, b, 0]`: a NaN in a is hidden (result 0 or b), a NaN in b is returned, so the limiter hides a NaN of the left neighbour and copies one of the right neighbour; advection runs end normally with NaN data | `C90_minmod`, `C90_hidden`, `C90_seen`, `C90_witness` |
| 31 | the time step of Euler runs is global, so changing one cell changes the numerical solution in all other cells, however distant, as soon as it changes a step length | `C92_global` |
