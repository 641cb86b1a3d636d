# Formal model of FreeGS — design

Subject: `freegs-plasma/freegs`, Python sources under `/repo/freegs` (read as
text, never run).  Prover: Coq 8.16.1, sources in `rocq/theories`, build with
`coq_makefile -f _CoqProject -o Makefile && make -j4` in `rocq/`.

`properties.jsonl` lists the properties, `MANIFEST.json` the theorems that
settle them, `seeded/LOG.jsonl` the mutation tests of the theorems.

## 1. How the code is modelled

* **Shallow, total, executable functions.**  Every Python function becomes a
  Gallina function mirroring its branches.  Each definition carries a comment
  with the file and lines it models.
* **Numbers.**  Numeric code is written once over a small class `Num` of
  arithmetic operations (`Num.v`) with two instances: `Q` (so that the model
  runs under `vm_compute`) and the standard-library reals `R` (for the
  theorems).  Floating point rounding, overflow, NaN and infinity are **not**
  modelled; statements are about exact arithmetic.  Where Python would raise or
  produce NaN because of a zero divisor the theorems carry the corresponding
  `<> 0` hypothesis.
* **Exceptions** are values: `result A := Ok a | Raise e` with one constructor
  per exception class that the code raises (`Py.v`).
* **Loops** are folds or structural recursion; unbounded loops take fuel, and
  running out of fuel is a separate constructor/exception (`OutOfFuel`) that a
  theorem either excludes or is about.
* **Mutable state** (coil currents, cached Green's functions, `evolving` flags,
  random generators) is threaded explicitly.
* **External libraries.**  Elliptic integrals, spline interpolation, sparse LU,
  SLSQP, ODE integration, random numbers and shapely polygons are *parameters*
  (Section variables) of the model; what a theorem assumes of them appears as a
  hypothesis in its statement, never as an axiom.  `numpy`/`scipy` routines whose algorithm matters
  (`linspace`, `clip`, `argmax`, `argmin`, `romb`, `interp1d`,
  `average`, `sorted`, `roll`) are modelled concretely in `Numpy.v`.
* **2D arrays** are functions `nat -> nat -> T` together with their two sizes;
  in-place assignment is functional update.

## 2. Trusted base

1. The Coq 8.16.1 kernel (and `vm_compute`).
2. Standard-library axioms listed by `Print Assumptions` (section 5).
3. The reading of the Python source: every definition cites the lines it models
   and says where it simplifies.
4. Exact arithmetic instead of binary64, as described above.
5. The behaviour of NumPy/SciPy/h5py/shapely routines as modelled or assumed.

Not modelled at all: plotting, printing, file syntax of G-EQDSK (`freeqdsk`),
HDF5 bytes, the graphical monitor.

## 3. Plan per property

* **C01 Green's function is reciprocal and Z-symmetric** — `GradShafranov.v` models `Greens*` over R with `ellipk`, `ellipe` as arbitrary functions; ring/field identities.
* **C02 Coils exert no net vertical force on each other** — `Machine.v` models coils with mutable currents; pairwise antisymmetry of `GreensBr` from C01, double sum over the coil list by induction.
* **C03 Field of a machine is the superposition of its filaments** — `Coils.v`/`Machine.v`; independent specification: flatten a machine to a list of filaments; induction over the (nested) coil list.
* **C04 The number of turns scales the field of every coil type** — same model; proved for the types that comply, refuted by witness for MultiCoil/PreCalcCoil.
* **C05 Control response is exactly linear** — `Machine.v`; induction over the coil list with the control flags.
* **C06 Setting control currents is a lossless round trip** — `Machine.v`; induction over coil list and currents.
* **C07 Circuit members always follow the circuit current** — `Machine.v`; state machine over circuit operations, invariant over op lists.
* **C08 Coil force excludes the coil's own field and has no side effects** — `Machine.v`; stateful `getForces`; pure specification sums the field of all other coils.
* **C09 Force on a circuit member excludes its own field** — same; witness circuit whose own field enters the force.
* **C10 MirroredCoil makes a pair at +Z and -Z with the given current** — same; refuted by computation.
* **C11 Cached flux equals direct flux under any history** — `Machine.v`; cache as association list by label, invariant over op lists.
* **C12 Labels need not be unique and coils may be moved** — same; refuted by witness (duplicate labels; moved coil).
* **C13 A solved constraint system gives the requested shape** — `Control.v`; rows and right hand sides built by folds over constraints; uses C05.
* **C14 Tikhonov step is the unique minimiser** — `Control.v`; finite sums over R, normal equations, completion of squares; injectivity of AᵀA+γ²I.
* **C15 Coil current limits are respected and attached to the right coil** — `Control.v`; optimiser as oracle with 'respects bounds' hypothesis; index alignment by induction.
* **C16 Total current limit is the sum of absolute coil currents** — `Control.v`; as C15 with the inequality constraint.
* **C17 Flux matching ignores a constant offset** — `Control.v`; weighted averages.
* **C18 Bounded flux matching is usable with its defaults** — `Control.v`; refuted by witnesses.
* **C19 Sparse second-order matrix is the finite-difference operator** — `GradShafranov.v`; sparse matrix as list of assignments (last write wins) flattened index.
* **C20 Second-order operator is consistent with the Grad-Shafranov operator** — `GradShafranov.v`; field identities.
* **C21 Direct second-order solve is well posed and sign preserving** — `GradShafranovProofs.v`; discrete maximum principle by finite maximum argument, any grid size.
* **C22 Fourth-order matrix is exact on quartics** — `GradShafranov.v`; stencil lists, polynomials as coefficient lists; field identities per power.
* **C23 Fourth-order matrix is valid on every accepted grid** — refuted by computation on ny=5.
* **C24 Restriction uses full weighting** — `Multigrid.v`; statement-by-statement model of `restrict` (no-op expression statements kept); refuted by witness.
* **C25 Restriction inverts interpolation on the interior** — `Multigrid.v`; closed form for the accumulation loop of `interpolate`.
* **C26 Multigrid hierarchy is built consistently** — `Multigrid.v`; recursion on nlevels.
* **C27 V-cycle leaves the exact solution fixed and its error does not depend on the right hand side** — `Multigrid.v`; hierarchy as inductive type; induction over levels, cycles, sweeps.
* **C28 Boundary conditions touch the boundary only** — `Boundary.v`.
* **C29 Equilibrium.solve satisfies the discrete Grad-Shafranov equation** — `Equilibrium.v`, uses C19, C28, C30; linear solver as oracle with exactness hypothesis.
* **C30 Romberg integration is linear and exact** — `Numpy.v` models scipy's `romb`; induction over refinement levels.
* **C31 Plasma current constraint is met exactly** — `Jtor.v`.
* **C32 Pressure on axis constraint is met exactly** — `Jtor.v`; quad as linear functional / Riemann integral.
* **C33 Poloidal beta constraint is met exactly** — `Jtor.v`.
* **C34 Toroidal current is consistent with the profiles** — `Jtor.v`.
* **C35 pressure and fpol are the integrals of the profile gradients** — `Jtor.v` with Riemann integrals (Coquelicot `RInt`).
* **C36 fpol keeps the direction of the toroidal field** — refuted for negative fvac.
* **C37 Accepted profile exponents give a usable profile** — `Jtor.v`; proved for positive exponents; refuted at the accepted value alpha_m = 0 / alpha_n = 0.
* **C38 A specified boundary flux is honoured** — `Jtor.v`; refuted for the two constrained profiles, proved for ProfilesPprimeFfprime.
* **C39 core_mask always terminates** — `Critical.v`; lexicographic measure (unmarked points, top of stack marked?, stack height).
* **C40 core_mask marks exactly the connected core** — `Critical.v`; loop invariant for soundness and completeness against an inductive reachability relation.
* **C41 core_mask excludes the private flux region** — refuted by computation.
* **C42 Duplicate removal keeps one representative of every cluster** — `Critical.v`; list induction.
* **C43 Critical points are genuine, and sorted** — `Critical.v`; spline as oracle; Newton loop with fuel 102.
* **C44 find_psisurface returns a point of the surface inside the domain** — `Critical.v`.
* **C45 find_psisurface reports a missing surface** — refuted.
* **C46 Limiter flux is the flux at the limiter** — `Equilibrium.v`; refuted (transposed array).
* **C47 The plasma boundary is the surface closest to the axis** — `Equilibrium.v`; proved for flux maximal on axis, refuted for the other sign.
* **C48 Picard iteration count and failure mode** — `Picard.v`; loop over abstract state with fuel; trace of calls.
* **C49 maxits bounds the iteration** — `Picard.v`; refuted at maxits=0.
* **C50 Picard returns only when converged** — `Picard.v`.
* **C51 Picard does not converge without a boundary** — `Picard.v`; refuted by a history with a lost boundary.
* **C52 pickUnique returns distinct admissible indices** — `Optimiser.v`; random stream as oracle bounded by numpy's half-open range.
* **C53 pickUnique can return every admissible index** — refuted: index N-1.
* **C54 Differential evolution never loses ground** — `Optimiser.v`; invariant over generations.
* **C55 optimise returns the lowest score it has seen** — refuted by witness.
* **C56 optimise works for any number of controls and can change every control** — refuted by witness (one control raises ValueError; last control never forced).
* **C57 Coil position controls respect their limits** — `Optimise.v`.
* **C58 Zero is a valid coil position limit** — refuted.
* **C59 Polygon area is a geometric invariant** — `Polygons.v`.
* **C60 Triangulation conserves area** — `Polygons.v`; ear clipping with fuel; signed areas; convex polygons terminate.
* **C61 Triangulation terminates and covers the polygon** — `Polygons.v`; refuted by witness polygon on which no ear is ever found.
* **C62 intersect reports crossing of polylines** — `Polygons.v`.
* **C63 intersect examines every edge of an open polyline** — refuted by witness.
* **C64 Triangle quadrature is exact** — `Quadrature.v`; exact moments of a triangle.
* **C65 Shaped coils carry their current at the centroid of their shape** — `Quadrature.v`; moments are additive under ear clipping.
* **C66 Coils survive a save/load round trip** — `Serial.v`.
* **C67 Saving keeps the position of a moved coil and works for every coil type** — `Serial.v`; refuted by witness.
* **C68 Equilibrium survives a save/load round trip** — `Serial.v`; file as association list read back in label order.
* **C69 Saving keeps coil order and solver settings** — refuted by witness.
* **C70 G-EQDSK write/read preserves geometry and flux** — `Geqdsk.v`.
* **C71 G-EQDSK write/read preserves profiles and limiter** — refuted by witness.
* **C72 Grid size rounding** — `Geqdsk.v`; binary arithmetic.
* **C73 Reading with a domain never increases the grid spacing** — refuted by witness.
* **C74 Refining preserves the set-up** — `Equilibrium.v`.
* **C75 Coarsening and changing the domain preserve the set-up** — refuted by witness.
* **C76 Shape diagnostics are mutually consistent** — `Shape.v`.
* **C77 Midplane separatrix radii bracket the axis** — `Equilibrium.v`.
* **C78 Field line tracing stops for good** — `FieldTracer.v`; state = evolving flags, arbitrary call schedule.
* **C79 Rogowski measurement is the enclosed toroidal current** — `Sensors.v`; shapely containment and overlap as oracles.
* **C80 Rogowski measurement counts turns** — refuted by witness.
* **C81 Limit points lie on the wall** — `Sensors.v`/`Machine.v`; interp1d model.
* **C82 Limit points close the wall and follow wall changes** — refuted by witness.
* **C83 Second-order truncation error bound** — `GSConsistency.v`; Taylor-Lagrange from Coquelicot.
* **C84 Direct solve converges to the true flux** — `GSConsistency.v`; C83, the maximum principle of C21 and a quadratic barrier function.
* **C85 Matrix-free V-cycle** — `MultigridGS.v`; induction over sub-levels.
* **C86 Laplace matrix equals the Laplacian operator** — `MultigridGS.v`; as C19.
* **C87 Jacobi iteration converges** — `MultigridGS.v`; weighted maximum norm with a quadratic weight in Z.
* **C89 Romberg integration is exact for polynomials** — `RombExact.v`: even-power expansion of the trapezoid sums of t^m (induction over m), eliminated term by term by the extrapolation.
* **C90 Romberg integration is positive and monotone** — `RombExact.v`: by induction over the columns of the table, the value at one level is at least 1/6 + 4^-j/3 times the value at the level before.
* C39-C45, C91-C94 (`Critical.v`, `CriticalSpec.v`, `CriticalProofs*.v`, `PropCritical.v`): `find_critical`, `core_mask`, `find_psisurface` and `find_separatrix` in full. The spline is a function `f dr dz r z`; the stack of the fill is a list; its termination is proved with the potential |stack| + 6 x unmarked cells + 3 x (top already marked). The flood fill is proved equal to an inductively defined connected set. `find_safety` is modelled in `Safety.v`.
* C28, C95, C96 (`Boundary.v`, `BoundarySpec.v`, `BoundaryProofs.v`, `PropBoundary.v`): `fixedBoundary`, `freeBoundary`, `freeBoundaryHagenow` in full. Arrays modified in place are returned; a solver is a function returning the array it was given, as it is after the call, and the solution. The edge value of von Hagenow is stated with a separate definition of the outward derivative and of the observer.
* **C97 Profiles carried over by refine work on the refined grid** — `Equilibrium.v` (`env_of`); refuted.
* **C98 Shape diagnostics have the symmetries of the shape** — `Shape.v`.
* **C99 The shape of a plasma bounded by a limiter is defined** — `Shape.v`, `Equilibrium.v`; refuted.
* C100-C102 (`Diagnostics.v`, `DiagnosticsSpec.v`, `DiagnosticsProofs.v`, `PropDiagnostics.v`): volume, betas, inductances, mean pressure, stored energy, cylindrical q, as functions of the profile functions and of the separatrix points.
* C103 (`PropControl2.v`) and the exact ear test `C61_ear_test` (`PropPolygons2.v`), added after mutation tests.
* - `Safety.v` / `PropSafety.v` (C104-C107): find_safety (critical.py 445-543), Equilibrium.q, tor_flux, rhotor (equilibrium.py 338-416). The surface points come from the find_psisurface of `Critical.v`; pi, sin, cos, sqrt, arctan2, the spline, eq.fpol and scipy interp1d are parameters (the theorems about the loop integral use the real PI, sin, cos and sqrt). Simplified: warnings are dropped; empty arrays are outside the model of cumulative_trapezoid.
* - `Picard.v` / `PropPicard.v` (C48-C51, C108, C109): picard.solve (picard.py 27-236) over an abstract equilibrium state with the operations it calls; operations return the state together with a value or an exception, so calls are counted through failures. `eq_ops` is the instance for `Equilibrium.v`. numpy.inf and undefined quotients are `None`; the tolerances are finite numbers. Plotting is not modelled.
* `Serial.v`: to_numpy_array / from_numpy_array of all coil classes and OutputFile.write_equilibrium / read_equilibrium. A structured NumPy array is a value of an inductive type with one constructor for each dtype; the HDF5 group of coils is a list of named entries read in byte order of the names. Not modelled: what is left in a file after a failed write, writing twice into one file, the empty label and labels beginning with a slash, PreCalcCoil.from_numpy_array (unreachable from a file).
* `Geqdsk.v`, `GeqdskSpec.v`, `GeqdskProofs.v`, `GeqdskExamples.v`, `PropGeqdsk.v`: geqdsk.write (up to the file format) and geqdsk.read up to the Picard solve (C70-C73, C111-C114).
* `FieldTracer.v`, `FieldTracerSpec.v`, `FieldTracerProofs.v`, `PropFieldTracer.v`: fieldtracer.py without odeint; integrators are schedules of evaluations and explicit Runge-Kutta steps (C78, C115-C119).
* C120-C125 Moving, areas, lookup, stored currents (MovingSpec, MovingProofs, PropMachine2); C126-C127 measurements (Measurements, MeasurementsProofs, PropMeasurements); C128 limits of the bounded fits (PropControl3); C34 from the critical points (PropJtor2).
* C129-C131 Equality (Equality, EqualitySpec, EqualityProofs, PropEquality); C132-C133 measures and moved coils (Measures, PropMeasures).
* MultiHeap.v: MultiCoil (multi_coil.py 125-146, 280-306) with the caller's sequences as cells of a heap; lists, tuples, float and integer arrays; refines the value model of Coils.v. C134 in PropMultiHeap.v.
* Populate.v: populate_with_fils (filament_coil.py 32-157) and FilamentCoil without filaments (194-271); only the last two entries of the tables are kept because np.interp reads no others. C135 in PropPopulate.v.
* C136 (PropSerial2.v): equality of the loaded machine with the saved one, using the restored relation of C66 and the comparison of C129.
* Machines.v: the predefined machines (machine.py 871-2835), generated from the text of the source so that every number is the decimal number written there; sensors of TestTokamakSensor are left out. A Solenoid inside of the circuit OH of TCV is represented by a filament coil with the same field (`winding`). C137 in PropMachinesMade.v, C138 in PropMachines.v and PropMachinesMore.v, C139 and C141 in PropMachinesTurns.v, C140 in PropMachinesWalls.v.
* C142-C144 (PropDiagnosticsMore, PropSafetyMore): effective elongation, Shafranov shift, Btor, Btot (FieldStrength), betaN, qcyl, poloidalBeta2 and the profile of q, written because mutants of these definitions survived.
* C145-C147: the flux fits of control.py as operations on the Equilibrium object (Fitting.v, FittingSpec.v, FittingProofs.v, PropFitting.v). leastsq and L-BFGS-B are terminating strategies `search` that choose the next trial from the residuals told so far; every theorem quantifies over all of them. eq._constraints is not modelled.
* GeqdskFit.v: the end of geqdsk.read (linear solve, fit of the currents, Picard iteration, control system) and the X-point loop of plotConstraints: C148, C149.
* DivGeo.v / PropDivGeo.v (C150): _divgeo.write on the data made by geqdsk.write; the file is a record, digits and line layout are not modelled. Vessel.v / PropVessel.v (C151, C152): Equilibrium.intersectsWall and optimise.no_wall_intersection.
* EllipticSpec.v, EllipticProofs.v, GreensProofs*.v, PropGreens.v (C153-C157): the complete elliptic integrals as Riemann integrals, their derivatives, and what Greens, GreensBr and GreensBz compute with them: the Biot-Savart flux of a loop, the vacuum Grad-Shafranov equation, sign, monotonicity, attraction of like currents, and the limit of small steps. `resolved` (EllipticSpec.v) describes the points where the clipping of k^2 has no effect.
* SafetyRays: C158, C159; FitResiduals: C160; GreensFloat, GreensProofs4, PropGreensAxis: C161-C163.
* FitOffset: C164, C165.
* C166-C168 (PropSolveFlux.v): what solve does to the current density. From C29 (the equation of the second order solve), the discrete maximum principle (C21), the linearity of the operator and of the free boundary (C28) and the positivity of the Green function (C155): sign, linearity and up-down symmetry of the plasma flux.
* C169-C170 (PropRombError.v): error bounds of the Romberg rule on a line and on a grid, from the trapezoid error of a Lipschitz function, the growth of first order errors in the extrapolation table (at most a factor 3), and positivity of the weights (C90).
* C171-C172 (PropSolveError.v): stability and total error of Equilibrium.solve, from the comparison principle of the second order operator with a parabola in Z as barrier, and the truncation bound (C83).
* C173 (PropGS4Error.v): Taylor remainder in both directions for each stencil of GSsparse4thOrder, giving a fourth-order truncation bound for every smooth flux.
* C174-C176: `PropSolveState.v` (model `FluxQueries.v`): attributes after a solve, stale attributes when the new flux has no O-point, and setSolverVcycle with order 4.
* C177-C179: `PropPicardLimit.v`: convergence and accuracy of the Picard iteration when the solve contracts, the contraction constant of the fixed boundary solve, and the psi_bndry argument.
* C180–C184 (zero and sign of the flux): GaugeSpec.v, GaugeProofs*.v, PropGauge.v
* C185 (PropReturned.v): end-to-end statement about `picard.solve` with ConstrainPaxisIp/ConstrainBetapIp. The invariant of the loop is "grid, solver and profile parameters unchanged"; the last solve is inverted with `solve_inv`, its current density with `cfinish_inv`. The current is exact because the profile normalises after masking and solve stores the integral of that same array.
* C186-C187: `PropFixedPoint.v`: existence and uniqueness of the discrete equilibrium for contracting solves, and the contraction constant of the free boundary solve.
* C188-C189: `PropTrueFlux.v`: distance of the flux returned by picard.solve from the solution of the fixed and free boundary Grad-Shafranov problem, from consistency (C170, C172) and contraction (C178, C187).
* C190-C195 (MeasureSum.v, ProfileCall.v, PropMeasureSum.v, PropProfileCall.v, PropUserSolver.v): weighted sums of measures with infinite values, the calls of pressure and fpol with numbers, lists, arrays and output arrays, smoothMG, and user-supplied solvers.
* C196/C197 (PropPicardMirror.v): the Picard iteration keeps up-down symmetry: by induction over the turns with C168 for the solve, C138 for the coils and C40 for the mask (the set of cells connected to the axis is invariant under the reflection).
* C198 (PropControlMirror.v): uniqueness of the minimiser turns invariance of the cost under the exchange of mirror pairs into symmetry of the currents
* C199–C201: ControlEq.v, PropControlEq.v, PropPicardControl.v: constrain.__call__ on the whole equilibrium, the constraints at the return of picard.solve, and symmetry of the run with control.
* C202–C206: PropControlRepeat.v, PropControlScale.v: repeated calls of constrain, order of the constraints, gamma, homogeneity, reversal of the run with control.
* C207: limits of coil currents over a whole run of picard.solve (`PropControlRun.v`), from C15 and C16 and the fact that Equilibrium.solve changes no coil.
* C208: pressure profiles of the constrained classes in closed form (`PropPressure.v`). C209, C210: printForces, modelled in `ForceTable.v`, over the dictionary of getForces (`PropForceTable.v`).
* C211, C212 (PropSimilar.v, PropFourthSimilar.v for the fourth-order solver): a device k times as large. C211: Greens is homogeneous of degree one; the flux of a machine made k times as large; uniqueness of the discrete problem carries this to solve. C212: lengths written in the code.
* C213, C214 (PropConstrained.v): the constrained current density as Ip A + target B, and the flux for which its coefficient L is zero; C215 (PropDimension.v): powers of the length and of the field in the diagnostics.
* C216, C217 (PropStart.v): the flux a new equilibrium starts with, and runs of picard.solve from it.
* C218 (PropFourth.v, FourthProofs.v): the fourth-order solver. A matrix whose systems can all be solved has no kernel (`solves_injective`, by elimination on the inverse), so the flux is determined by the equation and the edge (`unique4`); the rows commute with the mirror image in the middle of the domain (`row_mirror`). The section of PropPicardMirror.v on runs now takes the symmetry of one solve as its hypothesis, which C168 gives for order 2 and C218 for order 4. `regular9` shows the matrix regular on a family of grids by the inverse of its 7 x 7 radial part.
* C219 (PropFourthSign.v): the witness fluxes are integer tables; the current density is defined from them by the rows of the matrix and is shown nowhere negative point by point.
* C220 (FourthBound.v, PropFourthError.v): the counterparts of C171, C172 and C178 for the fourth-order solver. The matrix has no maximum principle (C219), so the bound of the inverse is a hypothesis, shown to hold with some constants on every grid with a regular matrix and with explicit ones on grids nine points wide.
* C221 (SensorEq.v, PropSensorEq.v): Sensor.__eq__.
* C222: the iteration with the fourth-order solver and the true solution (PropFourthTrue.v), from C220_error, C220_contracts and C188_near.
* C223-C224: the free boundary with the fourth-order solver (PropFourthFree.v): contraction, one solution, distance to the true free-boundary solution.
* C225-C226: von Hagenow boundary: the plasma flux is linear in the current density, stable, and the Picard iteration contracts (PropHagenow.v).
* C228, C229 (`PropHagenow4.v`, `PropHagenowMirror.v`): the fourth-order solver with von Hagenow's boundary, and the up-down symmetry of that boundary. C230 (`PropGeqdskSolve.v`): the linear solve made by geqdsk.read, found missing by a wrong program that ignored the current density of the file and broke no theorem.
* C231, C232 (PropSerialSolve.v): solving again with an equilibrium that was saved and loaded.
* C233, C234 (PropRepeat.v): solving again with the same current density.
* C235 (PrintCurrents.v, PropPrintCurrents.v): the lines of Machine.printCurrents and the __repr__ of the coils.
* PropMutate.v: what mutate (C236) and a trial (C237) do to the controls, for every outcome of the random generator. Added after mutants of mutate survived: reading the copy instead of the original, and the order of the controls.
* PropRepeatJacobi.v: repeated solves with the one-level iterative solver converge to the direct solution (C238), with the contraction rate of C87. A weighted norm is kept through the solves so that the factor 4/3 appears once.
* C132_no_position (PropMeasures.v) was added after a mutant of position_get survived.
* PropFrozen.v: what the generations of the optimiser cannot change (C239).
* PropVcycleSolve.v: any solver of setSolverVcycle acts linearly on the error of the plasma flux (C240).

## 4. Findings

Each finding is a property of the code that does not hold; the named theorem
exhibits the witness.

* **C23** `GSsparse4thOrder` accepts ny = 5 but its one-sided stencils then run
  over the end of a column of the flattened array (`row + offset`), coupling
  unrelated grid points; for 3 <= nx <= 5 it always raises IndexError
  (`C23_every_accepted_grid_refuted`, `C23_small_nx_rejected`).
* **C53/C55/C56/C58** optimiser: `randint(0, N-1)` excludes its upper bound, so
  the last index/control is never drawn (and one control raises ValueError);
  the initial `best` is the worst of the population; a position limit of 0 is
  treated as "no limit" (theorems `C53_*`, `C55_*`, `C56_*`, `C58_*`).
* **C24** `restrict`: the two statements meant to add the neighbour weights
  (multigrid.py 207-218) start with a unary plus, so they are separate
  expressions whose value is discarded. The result is plain injection, and
  with `avg=True` a constant array becomes a quarter of itself
  (`C24_restrict_is_injection`, `C24_full_weighting_refuted`).
* C61: `polygons.triangulate` accepts any vertex that passes a flawed ear test
  and repeats a pass that finds none without limit. On the simple hexagon
  (0,2) (5,6) (5,0) (4,5) (3,3) (2,0) it never returns
  (`C61_termination_refuted`), so constructing a `ShapedCoil` with that shape
  hangs; on the dart (0,2) (1,6) (1,3) (6,3) it returns a triangle of negative
  area (`C61_positive_triangles_refuted`), i.e. a negative quadrature weight.
* C63: `polygons.intersect` with `closed=False` takes the next index modulo
  n-1, so the last edge of an open polyline is replaced by the edge closing
  the polyline without its last point, and the last point is never used
  (`C63_open_edges_tested`); two crossing open segments are reported as not
  crossing (`C63_open_polylines_refuted`). This is the cause of the flawed ear
  test of C61.
* C04: MultiCoil given as a single point with turns=n, and PreCalcCoil,
  produce the field of one turn (multi_coil.py 148-186, pre_calc_coil.py
  121-155), against the documentation "total toroidal current is current *
  turns". Theorems C04_turns_refuted, C04_turns_ignored.
* C09: Coil.getForces sets its own current to zero, but for a circuit member
  Circuit.Br assigns the current again (machine.py 134, 164, 174) before the
  field is evaluated, so the reported force contains the coil own field.
  Theorems C09_member_force_refuted, C09_own_field_included.
* C10: MirroredCoil (machine.py 293-314) builds both coils at +Z, and the
  Circuit constructor overwrites their current by 0 and control by True.
  Theorems C10_mirrored_refuted, C10_pair_as_built.
* C12: createPsiGreens keeps one entry per label, so with repeated labels
  Equilibrium.psi() differs from psiRZ; the cached responses are not updated
  when a coil is moved. Theorems C12_repeated_labels_refuted,
  C12_moved_coil_refuted, C12_last_label_wins.
* C80: RogowskiSensor adds coil.current without turns (machine.py 541), and
  raises AttributeError when the machine has a Solenoid (no inShape method).
  Theorems C80_turns_refuted, C80_solenoid_refuted.
* C82: generate_limit_points (machine.py 680-700) does not sample the side
  from the last to the first wall point, and assigning machine.wall keeps the
  limit points of the old wall. Theorems C82_closing_side_refuted,
  C82_new_wall_refuted.
* Observation (not a claim): controlAdjust (machine.py 785) calls dI.item(),
  so a list of plain floats raises AttributeError; ShapedCoil setters move the
  filaments but not the outline used by inShape.
* C18: ConstrainPsi2DAdvanced and ConstrainPsiNorm2DAdvanced index
  self.current_lims[i] before testing it for None (control.py 370-378,
  468-476), so the default raises TypeError; the default weights=1.0 make
  numpy.average raise TypeError (414); the average is taken from psi but not
  from the target, so the residual is not zero at the target; limit i is
  applied to the i-th controlled coil, whereas constrain applies it to the
  i-th coil; max_total_current is accepted and ignored. Theorems
  C18_defaults_usable_refuted, C18_zero_residual_refuted,
  C18_limits_by_coil_refuted, C18_default_lims_crash,
  C18_default_weights_crash, C18_residual_at_target. * Observation:
  ConstrainPsi2D documents "weights : float or 2D array", but a   float raises
  TypeError in numpy.average (control.py 233, 260).
* **C36** `jtor.py` `Profile.fpol`: returns the positive square root, so at
  the plasma boundary it gives |fvac|; for negative fvac the toroidal field
  jumps sign across the boundary (`C36_toroidal_field_direction_refuted`).
* **C37** `jtor.py` constructors: the check is `alpha < 0` although the
  message says the exponents must be positive. alpha_m = 0 gives a profile
  that vanishes everywhere (0/0 follows); alpha_n = 0 one that does not vanish
  at the boundary (`C37_zero_alpha_m_refuted`, `C37_zero_alpha_n_refuted`).
* **C38** `jtor.py` `ConstrainBetapIp.Jtor` and `ConstrainPaxisIp.Jtor`
  overwrite their argument psi_bndry by eq.psi_bndry in their second
  statement, so a boundary flux given to `solve` has no effect on them
  (`C38_constrained_ignore_psi_bndry`).
* **C31 (observation)** `jtor.py`: when the pressure term alone carries the
  current the factor L is zero and `Beta0 = LBeta0/L` divides by zero,
  although a valid current density exists. The theorems assume L is not zero.
* C41: `core_mask` marks every point with normalised flux below 1 in the 3x3
  block around an X-point, so up to a few points of the private flux region
  are marked (7x7 example in `C41_private_flux_refuted`).
* C44: `find_psisurface` does not clip a ray whose extent in R (or Z) is at
  most 1e-6, so the point returned may lie up to 1e-6 outside the domain. The
  extrapolation warning cannot occur.
* C45: if no sample on the ray exceeds the requested flux, `find_psisurface`
  silently returns the start of the ray (the axis); the same if the first
  sample already exceeds it.
* C93: the test that moves the angles of `find_separatrix` and `find_safety`
  away from the X-point does not know that the angles 0 and 2 pi are the same.
* C94: `find_separatrix` fails with an IndexError when there is no X-point
  (limited plasma) and when ntheta is 1.
* (C95) `freeBoundaryHagenow` passes `psi` to the solver as initial guess.
  `MGJacobi.__call__` works in a view of that array, so after
  `setSolverVcycle(direct=False)` (or with several levels) the boundary
  condition overwrites the interior of `plasma_psi` with the solution of a
  different equation (source R Jtor, zero edges). The following solve then
  starts from that array. With the default direct solver nothing happens. Also
  the corner values are computed twice; those of the left and right edges win,
  with the observer moved in R.
* C46: Equilibrium._updateBoundaryPsi evaluates the TRANSPOSED flux map
  (`psi.T`, equilibrium.py 567) at the limit points. On a square grid the
  limiter flux is wrong unless the map is symmetric
  (`C46_limiter_flux_refuted`); on any other grid the spline raises ValueError
  as soon as check_limited is on (`C46_grid_shape_refuted`,
  `C46_grid_must_be_square`).
* C47: the limiter flux is the maximum over the limit points and psi_bndry the
  maximum of X-point and limiter flux (equilibrium.py 570-600). When the axis
  is the minimum of the flux (negative plasma current) this is the surface
  furthest from the axis (`C47_limit_point_refuted`, `C47_xpoint_example`).
* C75: coarsen and newDomain construct the new Equilibrium without boundary
  and order, so a fixed-boundary or second-order equilibrium becomes a
  free-boundary fourth-order one; newDomain takes the default of ny from
  eq.R.shape[0] (equilibrium.py 1357); coarsen sets the edge flux to zero
  (`C75_coarsen_refuted`, `C75_newDomain_refuted`).
* C77: innerOuterSeparatrix returns Rmin / Rmax for rows without a crossing
  (`C77_no_crossing_refuted`).
* C97: constrained profiles call _updateBoundaryPsi of the equilibrium they
  were made with, so they raise ValueError on a refined grid
  (`C97_refined_profiles`).
  test-convergence.py re-solves refined equilibria with the profile object
  made for the first one.
* C99: find_separatrix places its rays with the angle of xpoint[0]
  (critical.py 419), so separatrix() and every shape diagnostic raise
  IndexError for a plasma without an X-point inside the domain, limited or
  fixed-boundary (`C99_separatrix_needs_xpoint`). shafranovShift ignores its
  argument npoints.
* C101: `poloidalBeta3` multiplies the integral of the pressure by the plasma
  volume, so it has the dimension of a volume: it is 4 V^2 <p> / (mu0 Ip^2 R0)
  where the usual definition is 4 V <p> / (mu0 Ip^2 R0) (`C101_betap3_value`,
  `C101_betap3_refuted`).
* - C105: `eq.q([0.2, 0.5, 0.9])`, the example in the docstring, raises
  TypeError for every list (`psinorm < 0.01` compares a list with a number).
* - C106: find_safety normalises to the flux of the first X-point and ignores
  psi_bndry. For a limited plasma q(s) is not the safety factor on the surface
  psiN = s; without an X-point it raises ValueError.
* - C107: tor_flux is counted from the first requested flux, not from the
  axis, so the value at a given flux depends on the others in the array;
  single values and arrays with one element always raise; when the flux rises
  from the axis (current in the other direction) the maximum used by rhotor is
  0 and the result is a division by zero.
* - C49: maxits=0 is no limit (documented: None for no limit).
* - C51: when the boundary is lost, bndry_relchange gets a dummy value above
  the tolerance but bndry_change keeps its old value; if the boundary flux had
  settled before, the iteration is declared converged without a boundary.
* **C67** (shaped_coil.py 194-215): the setters of R and Z move the quadrature
  points but not `shape`, and `shape` is what is saved. A ShapedCoil that was
  moved is loaded at its old position (`C67_moved_coil_refuted`,
  `C67_moved_coil_goes_back`).
* **C67** (filament_coil.py, multi_coil.py 237-262, pre_calc_coil.py, dump.py
  122-128, machine.py 240-250): FilamentCoil inherits to_numpy_array and
  cannot be converted to its own dtype; MultiCoil and PreCalcCoil are missing
  in type_to_dtype; MultiCoil.from_numpy_array asks for a field "npoints" that
  is not there; a circuit can only hold plain coils (`C67_unsavable`,
  `C67_filament_coil_refuted`, `C67_multi_coil_refuted`,
  `C67_precalc_coil_refuted`).
* **C67** (coil.py 241-249, machine.py 252-277): the area of a Coil is not
  saved, so hoop forces change after loading (`C67_area_refuted`); a circuit
  takes its current from its first coil, so that a coil edited on its own
  changes the circuit (`C67_edited_circuit_refuted`).
* **C69** (dump.py 200-210, 241-252): coils are read in alphabetical order of
  their labels, with order=4 and check_limited=False whatever was set; a
  boundary function of the user is looked up by its name in freegs.boundary,
  which fails or finds another function (`C69_coil_order_refuted`,
  `C69_settings_refuted`, `C69_user_boundary_refuted`).
* **C110** (dump.py 172-182): HDF5 takes a slash in a label for a path. The
  file is written without complaint and read_equilibrium raises KeyError
  (`C110_slash_refuted`, `C110_slash_in_label`).
* **Profiles stretched by write and read** (C71). `geqdsk.write` (104) samples
  the profiles at k/nx (`endpoint=False`), `geqdsk.read` (276) takes them as
  values at k/(nx-1). The pressure 1-x read from a file with 9 columns is 1/9
  on the plasma boundary.
* **Limit points are not regenerated** (C71, C82). `geqdsk.read` assigns
  `machine.wall` from the file, but the limit points used for the plasma
  boundary remain those of the wall given to `Machine`; a machine created
  without a wall has none and reading fails (C111).
* **domain makes the grid coarser or fails** (C73). `geqdsk.read` computes
  `newnx`, `newny` so that the spacing is kept (376-381), but passes the old
  `nx`, `ny` to the new `Equilibrium` (397-398), so a larger domain always has
  a larger spacing; if the domain is not larger both ways, `newnx` or `newny`
  is unbound (UnboundLocalError at 383).
* **A wall needs a square grid** (C111). `_updateBoundaryPsi` passes psi.T to
  a spline on (R, Z); writing works for every size, reading back with a wall
  only for square grids.
* **The boundary in the file does not start at its lowest point** (C112).
  `isoflux` is reversed and then rolled by the index of the minimum in the
  unreversed array.
* **Rejected steps stop field lines** (C115). `evolving` is changed by every
  evaluation of the right-hand side, so a trial point outside the domain stops
  the line even if the integrator rejects the step. The right-hand side given
  to odeint is not a function of position.
* **Lengths of the wrong sign** (C78). `dldphi = evolving * R * B / Btor` is
  negative for a negative toroidal field.
* **Wall test** (C116). The crossing test uses strict inequalities and an
  absolute threshold 1e-6 on the determinant, so no wall is seen in the
  direction of a wall vertex or through a short segment; all points are
  reversed if the middle of the domain is outside the wall.
* **follow with numbers or 2D arrays** (C118). `evolving` has the shape of the
  start array, but the mask has one axis: scalars and arrays with several axes
  raise IndexError, column vectors RuntimeError.
* C121: setting R or Z of a PreCalcCoil changes the reported position only;
  the field stays (pre_calc_coil.py ignores R, Z).  Moving a ShapedCoil or
  FilamentCoil moves the filaments, not `shape`: inShape, plot and
  to_numpy_array keep the old outline.
* C122: AreaCurrentLimit gives zero area for a coil without current (coil.py
  50-57); getForces then takes log(8 R / 0) * 0 = nan.
* C125: Circuit.getForces uses the current stored in the member; members are
  only refreshed by psi/Br/Bz of the circuit, which Coil.getForces calls after
  the first use when the circuit comes first.
* C126: printMeasurements raises AttributeError for a sensor created with
  status=False (measurement is never set), and TypeError for a machine whose
  sensors are left at the default None.
* C129: Machine.__eq__ sorts (label, coil) pairs, so two coils under one label
  need `<` between coils (TypeError); Wall == None raises AttributeError;
  MultiCoil == ShapedCoil works while ShapedCoil == MultiCoil raises;
  np.allclose makes wall equality asymmetric.
* C130: MultiCoil and FilamentCoil equality looks at the centre only, so coils
  with different fields are equal; areas (and with them self forces) are never
  compared.
* C132: after `tokamak[label].R = x`, eq.psi() still uses the Green functions
  stored at construction; only optimise.py renews them.
* C133: max_coil_force indexes the force of a Circuit or Solenoid (a
  dictionary) with 0: KeyError, which optimise turns into an infinite score
  for every candidate.  It calls getForces() without the equilibrium, so the
  plasma exerts no force.
* * C134: MultiCoil keeps the lists it is given (multi_coil.py 127-129) and
  the R and Z setters change them in place (285-306): two coils made from the
  same list move together, and so do the lists of the caller; a coil made from
  tuples cannot be moved (TypeError), and one from integer arrays is moved by
  truncated amounts. * C135: np.interp is called with a list (filament_coil.py
  120), so d_opt is an array of one element and filaments in staggered rows
  are arrays while others are numbers: np.asarray (154) or
  np.array(list(zip())) (267) raise ValueError with numpy >= 1.24, and
  pyproject.toml asks for >= 1.25. FilamentCoil(shape=...) therefore fails
  except when no filament is in a staggered row. With Shapely 2
  geometry.Point(rpoint, zpoint) is expected to fail in the same way one step
  earlier. * C135: the interpolated spacing can leave no filament: a rectangle
  of size 961/625 by 1 with Nfils=1. controlPsi then divides by npoints = 0.
* C136: a ShapedCoil moved by assigning R or Z is saved with the outline it
  was created with (shaped_coil.py, `shape` never moves), so it is read back
  at the old place; `==` compares outlines, turns, currents and controls only
  and reports the two machines equal (C136_moved_unnoticed,
  C136_same_place_refuted).
* C138: the Pc coil of MASTU is not centred: its strands reach from z =
  -0.7815 to z = 0.7695 (machine.py 1386-2835), so that a current in it is not
  up-down symmetric (C138_MASTU_Pc_refuted). C138: the shaped coils P1U and
  P1L of TestTokamak are triangulated along different diagonals, so that their
  quadrature points are not mirror images (C138_TestTokamak_refuted).
* C139: the filament coils of MASTU are made with turns=1, the default, and
  split this one turn between their strands, so that D1 carries 2 amp-turns
  per ampere of the circuit, against 70 in MASTU_simple (C139_turns_refuted).
  Only the solenoid has the same 324 turns.
* C140: the wall of the MAST-U machines is not a simple polygon: sides 31 and
  34 cross (by some 10 micrometres, C140_crossing_refuted), and sides run back
  along each other (C140_backtracking_refuted). Its first and last corner are
  (1.6, 1) and (1.6, -1), so the polygon is closed by a side of 2 m without
  limit points: a plasma limited at the outboard side is not seen
  (C140_gap_refuted).
* C141: MASTU cannot be written to a file (filament coils, C67), and MAST and
  DIIID come back with their coils in alphabetical order (C141_order_refuted).
* C146: ConstrainPsiNorm2D (and Advanced): when trial currents give a flux
  without an O-point, _updateBoundaryPsi returns early and the flux is
  normalised with psi_axis and psi_bndry of whatever trial came before, so the
  residual is not a function of the currents (C146_normalised_refuted: 3/4 or
  1/2 for the same currents).
* C147: after a fit psi_axis, psi_bndry and mask belong to the last trial of
  the optimiser (ConstrainPsi2D: to the flux before the fit), not to the
  currents that are set. picard.solve with check_limited=True then passes that
  stale psi_bndry to eq.solve.
* **C149** (geqdsk.read options): with `fit_sol=True` and `current_bounds`
  ConstrainPsi2DAdvanced gets the scalar weights 1.0, which np.average refuses
  (TypeError): the combination never works. With `current_bounds` the argument
  `maxits` is replaced by 1000. If the flux has no X-point and the plasma is
  not limited, eq.mask is None and the second fit multiplies an array by None
  (TypeError): such files cannot be read. read stores X-points as (R, Z, psi);
  plotConstraints unpacks pairs (ValueError).
* C152: optimise.no_wall_intersection only looks for crossings of the plasma
  boundary with the wall. A plasma that lies around the wall, entirely outside
  the vessel, is given cost 0, and crossings of edges with a cross product
  below 1e-6 (both about 1 mm or shorter) are never seen.
* C150: the DivGeo header calls psib the flux at the plasma boundary, but what
  is written is the flux between magnetic axis and boundary; the array psi -
  psib is written relative to the true boundary flux, so psi recovered from
  the file is measured from the axis.
* C159 (find_safety): the rays are scaled by ptp(R) and ptp(Z) separately, so
  on a domain that is not square they are not at the poloidal angles of the
  grid; the shift of the grid away from the X-point compares the unscaled
  angle and so may leave a ray exactly through the X-point.
* C163 (GreensBz): at radii 0 < R < 1e-3 the vertical field of every coil is
  nan, because the central difference evaluates Greens at R - eps < 0 and
  takes sqrt(R*Rc) there. test_coil_axis evaluates Br at R = 0.0001 but Bz
  only at R = 0.001.
* C165 (ConstrainPsi2DAdvanced): the residual is (psi - mean(psi) - target) *
  weights; ConstrainPsi2D also subtracts the mean of the target. The minimum
  is the same for weights of 0 and 1 (C164), but with other weights currents
  that reproduce the target exactly are not the best fit.
* C175: `_updateBoundaryPsi` does nothing when no O-point is found, so after
  such a solve `psi_axis`, `psi_bndry` and `mask` belong to an older flux and
  `psiN` mixes the two. C176: `setSolverVcycle` always uses `GSsparse`, so an
  equilibrium with `order=4` silently solves the second-order equations
  afterwards.
* C179: `picard.solve(..., psi_bndry=x, check_limited=True)` never uses x once
  the limiter check is active (from the first iteration with the default
  limit_it=0): line 155 passes `eq.psi_bndry` instead of the argument.
* C183: with check_limited the limiter flux and the boundary flux are maxima
  (equilibrium.py 570, 585). Reversing the flux therefore changes which of
  X-point and limiter bounds the plasma; the same equilibrium with reversed
  current gets another boundary (C183_limiter_refuted).
* C184: the Newton iteration of find_critical stops when Br^2 + Bz^2 < 1e-6
  (critical.py 117), whatever the size of the flux. With the flux ((r -
  1.03)^2 + z^2) / 100 the O-point returned is the grid point (1, 0), with 100
  times that flux it is (1.03, 0) (C184_scale_refuted).
* C191: `weighted_sum(..., (no_wall_intersection, 0.0))` scores nan instead of
  ignoring the measure when the plasma touches the wall (inf*0). Comparisons
  with nan are false, so an optimisation whose starting point scores nan
  returns the starting point whatever else it finds.
* C193: `Profile.pressure` tests `hasattr(psinorm, "shape")` where
  `Profile.fpol` tests `__len__`, so a list is accepted by fpol and goes into
  quad as an integration limit (TypeError) in pressure.
  `ProfilesPprimeFfprime.pressure(psinorm, out)` ignores `out` when p_func was
  given, and p_func is never compared with pprime.
* C210: printForces goes over the dictionary of getForces (machine.py
  832-847), so coils with the same label share one line; a Solenoid, whose
  getForces returns an empty dictionary, is printed as "label (circuit)"
  without a force.
* C212: results depend on the unit of length. find_critical removes points
  closer than sqrt(1e-5) m (critical.py 165-175), so two O-points of a small
  device are reported as one; freeBoundaryHagenow places the observer 1 cm
  outside the domain (boundary.py 189-203); GreensBr and GreensBz use a step
  of 1 mm.
* C214: `ConstrainPaxisIp.Jtor` and `ConstrainBetapIp.Jtor` write the current
  density as L (Beta0 R/Raxis + (1 - Beta0) Raxis/R) and compute Beta0 =
  LBeta0 / L (jtor.py 257-281, 393-418). L is zero for one wanted current for
  each flux and pressure, with everything positive; the wanted current density
  exists, but numpy gives nan (`C214_coefficient_refuted`).
* C215: `poloidalBeta3` is multiplied by k^3 in a device k times as large, all
  other betas are unchanged (`C215_betap3`; the same fault as in C101).
* C217: the constructor of `Equilibrium` documents concentric circular
  surfaces for the starting flux (equilibrium.py 88-90), but measures the
  distance in units of the width and of the height of the domain (118-121): on
  a domain that is not square the surfaces are ellipses
  (`C217_circles_refuted`, `C217_square`).
* C219: the fourth-order matrix (the default) has no maximum principle. On the
  9 x 9 grid of 1/8 < R < 9/8, -1/2 < Z < 1/2 a nowhere negative current
  density concentrated two cells from the inner edge gives the flux -5 at a
  neighbouring grid point where the largest flux is 76 (`C219_near_axis`, for
  every solver that solves the systems). Spurious extrema of the flux next to
  the edge are then possible for find_critical. With order=2 the flux cannot
  change sign (C166).
* C221: Sensor.__eq__ (machine.py 507-508) compares R and Z only, so sensors
  of different classes or angles at one place are equal; comparing Rogowski
  loops with different numbers of corners raises ValueError from numpy.
* C227: freeBoundaryHagenow can give a negative plasma flux on the whole edge
  for a current density that is nowhere negative: the five-point one-sided
  differences for dU/dn have the wrong sign for a current two points from the
  edge.
* C232: write_equilibrium does not store the order of the solver, and
  read_equilibrium always makes a fourth-order one; a second-order equilibrium
  therefore gives another plasma flux for the same current density once it is
  loaded (C232_second_order_refuted, a 9 x 9 box without coils).
* C234: with setSolverVcycle(direct=False) the result of eq.solve depends on
  the plasma flux before it; the second solve with the same current density
  gives another plasma flux (C234_jacobi_refuted).

## 5. Assumptions of the theorems

* **C26, C27, C87**: the LU factorisation (`scipy.sparse.linalg.factorized`)
  is an arbitrary function `lu`; C27 assumes it solves nonsingular systems
  exactly. C27 also assumes the coarsest direct level is nonsingular;
  `C27_grad_shafranov_solvable` shows that this holds for every hierarchy of
  second-order Grad-Shafranov matrices.
* **C01, C02, C03**: the elliptic integrals are arbitrary functions.
* C64: the mean over a triangle is an iterated Coquelicot Riemann integral
  (RInt); polynomials are polynomials in the affine coordinates of the
  triangle. C60/C65 take the number of passes of the while loop as fuel and
  hold for every value for which the run returns.
* C02-C12: coil objects are values, so one object placed twice in a machine is
  outside the model; the three Green functions enter as one tagged function G
  (C02 uses the real formulas, with arbitrary elliptic integrals; the others
  hold for every G). FilamentCoil without given filaments (populate_with_fils)
  is not modelled. Positions are points, arrays are handled pointwise.
* C79, C80: shapely contains and intersection areas are arbitrary functions.
  C81: interp1d is modelled as scipy _call_linear (searchsorted, clip to
  1..n-1, linear formula); the first two wall points differ.
* C13-C18: the plasma flux and field are an arbitrary function P of position
  (they do not depend on the coil currents during the call); numpy inv,
  SLSQP, leastsq and L-BFGS-B are arbitrary functions and each theorem lists
  what it assumes of them; norm(v)**2 is the sum of squares. Existence of
  inverses (the assumption inv_ok) is proved in ControlProofs.inverse_exists.
* **C30-C38, C89, C90** `romb` is modelled in full (`Romb.v`). `quad` is a
  parameter; where its value matters it is Coquelicot's Riemann integral
  `RInt`. Real powers are `rpow` (0**0 = 1). `find_critical`, `core_mask`,
  `_updateBoundaryPsi` and the poloidal field enter as arbitrary functions
  (record `env`).
* C39-C45, C91-C94: exact arithmetic; the grid has at least one point each way
  (C39-C41); R spacing and Z spacing are not zero where second derivatives are
  used; the spline `f` is arbitrary except in `C91_newton_step`, where its
  entries are assumed to be the partial derivatives. `sin`, `cos`, `pi` are
  those of the real numbers and `arctan2` is `atan2` of `CriticalSpec.v`.
* **C29**: the linear solver `lu` solves the systems with the matrix of the
  solver object (C27, C83 show the second-order matrix is nonsingular;
  `elimination` of Gauss.v is an instance). **C46, C47, C77**:
  RectBivariateSpline is a parameter; the witnesses assume only that it is
  exact for quadratic data, as cubic splines are, with derivatives up to the
  second (`spline2` is an instance). **C74**: the spline interpolates.
* **C70-C73, C111-C114**: the text format (freeqdsk) is the identity on the
  data record; splines are parameters (`through_points` for the profile
  splines in C71); bilinear resampling is modelled in full; a machine without
  limit points has the empty list.
* **C78, C115-C119**: odeint is not modelled; in C78 an evaluation with Btor =
  0 is 0/0 = 0 in the model and NaN in the code. C117 assumes a differentiable
  flux with Br = -psi_Z/R, Bz = psi_R/R.
* C128: L-BFGS-B started inside the bounds returns a point inside the bounds
  (`respects_bounds`).
* C129-C131: `sorted` is an insertion sort; for distinct labels the result is
  the only sorted order, and for two entries every sort makes the same single
  comparison.  C132: the solver keeps the stored Green functions and changes
  only currents and control (`currents_only`).
* MultiHeap.v: trunc, the conversion of a float on assignment to an integer
  array, is a parameter. Populate.v: sqrt, ceil (length of np.arange) and
  contains (shapely interior test) are parameters; C135_terminates uses that
  of ceil which [is_ceil] says, the real square root, and that contains
  accepts an open box; that np.array of a ragged list raises ValueError is
  taken from numpy >= 1.24.
* C153-C157: ellipK and ellipE are the defining integrals (Coquelicot RInt);
  that scipy returns them, and rounding, is trusted. The derivative formulas
  of the elliptic integrals are proved, not assumed. Axioms: those of the real
  numbers of the standard library, functional extensionality and classical
  logic (Print Assumptions beside each theorem).
* C162, C163: nan of floating point arithmetic is the None of an option type
  over the reals; infinities are not told from nan.
* C180–C182: axioms of the real numbers (sig_forall_dec) and functional
  extensionality. The interpolation of scipy is assumed to commute with
  adding a constant and with the sign (spline_follows), the LU solve with the
  sign (lu_follows).
* PrintCurrents.v: how Python writes floats, ints, lists and arrays of numbers
  is a parameter.
