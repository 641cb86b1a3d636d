{"id": "C01", "title": "Green's function is reciprocal and Z-symmetric", "statement": "Greens(Rc,Zc,R,Z) gives the same flux when source and observer are exchanged, when both are shifted by the same amount in Z, when both are mirrored in Z, and scales linearly when all lengths are scaled; GreensBr is odd and GreensBz is even in Z-Zc, so Br vanishes in the plane of the source.", "quantifier": "for every source and observer position, every shift and every positive scale factor, and whatever the elliptic-integral routines return", "why_tests_cant": "the symmetries are identities over a four dimensional continuum; a test samples a few points", "anchors": ["freegs/gradshafranov.py:Greens", "freegs/gradshafranov.py:GreensBr", "freegs/gradshafranov.py:GreensBz"]}
{"id": "C02", "title": "Coils exert no net vertical force on each other", "statement": "For a machine made of plain coils (no plasma) the vertical forces returned by getForces add up to zero.", "quantifier": "for every number of coils, every position, current and number of turns", "why_tests_cant": "action = reaction has to hold for all machines; a test only covers the two-coil example in the suite", "anchors": ["freegs/machine.py:Machine.getForces", "freegs/coil.py:Coil.getForces"]}
{"id": "C03", "title": "Field of a machine is the superposition of its filaments", "statement": "psi, Br and Bz of a Machine equal the sum over all filaments (coil centre, quadrature point, strand, solenoid turn, circuit member) of (amp-turns of that filament) x (Green's function of that filament); a Coil, ShapedCoil, FilamentCoil or list-type MultiCoil carries current*turns in total, split between its filaments by weights adding up to one (single-point MultiCoil: see C04).", "quantifier": "for every machine made of Coil, ShapedCoil, FilamentCoil, MultiCoil, Solenoid and Circuits of coils and every point", "why_tests_cant": "tests compare single coils at single points; superposition is a statement over all coil lists and nested circuits", "anchors": ["freegs/machine.py:Machine.psi", "freegs/machine.py:Circuit", "freegs/machine.py:Solenoid", "freegs/coil.py:Coil.controlPsi", "freegs/shaped_coil.py:ShapedCoil.controlPsi", "freegs/filament_coil.py:FilamentCoil.controlPsi", "freegs/multi_coil.py:MultiCoil.controlPsi"]}
{"id": "C04", "title": "The number of turns scales the field of every coil type", "statement": "For every coil class with a `turns` argument the flux and field at a point are proportional to current*turns (documented: 'The total toroidal current carried by the coil is current * turns').", "quantifier": "for every coil type, number of turns, current and point", "why_tests_cant": "the suite never builds a MultiCoil or PreCalcCoil with turns different from one", "anchors": ["freegs/multi_coil.py:MultiCoil", "freegs/pre_calc_coil.py:PreCalcCoil.controlPsi"]}
{"id": "C05", "title": "Control response is exactly linear", "statement": "After controlAdjust(dI) the flux and field of the machine at any point have changed by exactly the sum of dI[k] times entry k of controlPsi / controlBr / controlBz at that point; coils with control off do not change.", "quantifier": "for every machine (any mix of coil types, circuits and control flags), every list of current changes of the right length and every point", "why_tests_cant": "it relates three independently ordered lists over all coil lists and control flags", "anchors": ["freegs/machine.py:Machine.controlAdjust", "freegs/machine.py:Machine.controlPsi", "freegs/machine.py:Machine.controlBr", "freegs/machine.py:Machine.controlBz"]}
{"id": "C06", "title": "Setting control currents is a lossless round trip", "statement": "controlCurrents() after setControlCurrents(c) returns c, setControlCurrents(controlCurrents()) changes nothing, controlAdjust adds entrywise, and the currents of coils with control off, all positions and all labels stay as they were.", "quantifier": "for every machine and every list of currents with one entry per controlled coil", "why_tests_cant": "list alignment over an arbitrary pattern of control flags", "anchors": ["freegs/machine.py:Machine.setControlCurrents", "freegs/machine.py:Machine.controlCurrents", "freegs/machine.py:Machine.controlAdjust"]}
{"id": "C07", "title": "Circuit members always follow the circuit current", "statement": "After construction and after any sequence of public operations on a Circuit (setting current or control, evaluating psi/Br/Bz/cached flux), the current in each member coil is the circuit current times its multiplier, and the flux of the circuit is its current times its unit response.", "quantifier": "for every circuit and every finite history of operations", "why_tests_cant": "the claim is an invariant over unbounded histories of mutating calls", "anchors": ["freegs/machine.py:Circuit.current", "freegs/machine.py:Circuit.psi", "freegs/machine.py:Circuit.calcPsiFromGreens"]}
{"id": "C08", "title": "Coil force excludes the coil's own field and has no side effects", "statement": "Coil.getForces uses the field of all other coils (plus plasma) at the coil, adds the analytic hoop force, and leaves every current in the machine as it was, for every coil placed directly in the machine.", "quantifier": "for every machine, plasma field and coil in it", "why_tests_cant": "the self field is removed by temporarily mutating shared state; whether that works depends on which other code touches the same state", "anchors": ["freegs/coil.py:Coil.getForces", "freegs/machine.py:Circuit.getForces", "freegs/machine.py:Circuit.Br"]}
{"id": "C09", "title": "Force on a circuit member excludes its own field", "statement": "The force reported for a coil that is a member of a Circuit uses the field of all other coils only, like the force on the same coil outside a circuit.", "quantifier": "for every circuit, machine and member coil", "why_tests_cant": "the self field is removed by zeroing a current that the circuit itself rewrites during field evaluation", "anchors": ["freegs/machine.py:Circuit.getForces", "freegs/machine.py:Circuit.Br", "freegs/coil.py:Coil.getForces"]}
{"id": "C10", "title": "MirroredCoil makes a pair at +Z and -Z with the given current", "statement": "MirroredCoil(R,Z,current,...) is a circuit of two coils at +/-Z (documented) carrying the given current, so its flux is symmetric (or antisymmetric) in Z.", "quantifier": "for every R, Z, current, control and symmetric argument", "why_tests_cant": "never instantiated in the test suite", "anchors": ["freegs/machine.py:MirroredCoil"]}
{"id": "C11", "title": "Cached flux equals direct flux under any history", "statement": "Equilibrium.psi(), which uses Green's functions cached at construction, equals plasma flux + the flux evaluated directly from the coils, after any history of changes to coil currents and control flags, for a machine with distinct labels.", "quantifier": "for every machine, every grid point and every finite history of modifications", "why_tests_cant": "a cache invariant over unbounded histories", "anchors": ["freegs/equilibrium.py:Equilibrium.psi", "freegs/equilibrium.py:Equilibrium.psiRZ", "freegs/machine.py:Machine.createPsiGreens", "freegs/machine.py:Machine.calcPsiFromGreens"]}
{"id": "C12", "title": "Labels need not be unique and coils may be moved", "statement": "Documented: 'The label doesn't have to be unique'. Equilibrium.psi() agrees with psiRZ at the grid points also for machines with repeated labels and after a coil has been moved through its R or Z attribute.", "quantifier": "for every machine and history", "why_tests_cant": "needs a machine/history outside the suite", "anchors": ["freegs/machine.py:Machine.createPsiGreens", "freegs/machine.py:Machine.calcPsiFromGreens", "freegs/equilibrium.py:Equilibrium.psi"]}
{"id": "C13", "title": "A solved constraint system gives the requested shape", "statement": "If the current change found by control.constrain satisfies its linear system exactly then after the call Br=Bz=0 at every requested X-point, the two points of every isoflux pair have equal flux, every psival point has its requested flux; in general the constraint residual after the call equals the residual of the linear system.", "quantifier": "for every machine, plasma and every list of constraints of the three kinds", "why_tests_cant": "depends on the alignment of rows, right hand sides and coil order for arbitrary lists", "anchors": ["freegs/control.py:constrain.__call__"]}
{"id": "C14", "title": "Tikhonov step is the unique minimiser", "statement": "Without limits the change of control currents computed by control.constrain is the unique minimiser of |A x - b|^2 + gamma^2 |x|^2, which exists for every gamma != 0 whatever the constraints; with gamma = 0 or redundant constraints the normal equations are still the optimality condition.", "quantifier": "for every number of constraints and coils, every matrix and right hand side, every nonzero gamma", "why_tests_cant": "optimality against all competitors", "anchors": ["freegs/control.py:constrain.__call__"]}
{"id": "C15", "title": "Coil current limits are respected and attached to the right coil", "statement": "If current_lims is given, then (given that the bounded optimiser respects its bounds) after constrain every controlled coil has a current inside its own limits, where limits are listed one per coil in machine order; a list of limits of another length is refused; coils with control off do not change. The flux fits with limits start their optimiser from a point inside the limits.", "quantifier": "for every machine, any pattern of control flags, any list of limits", "why_tests_cant": "index bookkeeping between all coils and controlled coils for every pattern of flags", "anchors": ["freegs/control.py:constrain.__call__", "freegs/control.py:ConstrainPsi2DAdvanced"]}
{"id": "C16", "title": "Total current limit is the sum of absolute coil currents", "statement": "If max_total_current is given, then (given that the optimiser satisfies its inequality constraint) after constrain the sum of absolute currents of the controlled coils is at most max_total_current.", "quantifier": "for every machine and every limit", "why_tests_cant": "sign conventions and list order for all machines", "anchors": ["freegs/control.py:constrain.max_total_currents"]}
{"id": "C17", "title": "Flux matching ignores a constant offset", "statement": "The residual minimised by ConstrainPsi2D does not change when a constant is added to the equilibrium flux or to the target, and is zero exactly when flux and target differ by a constant.", "quantifier": "for every flux array, target, weights with nonzero sum and offset", "why_tests_cant": "invariance over all arrays", "anchors": ["freegs/control.py:ConstrainPsi2D.psi_difference"]}
{"id": "C18", "title": "Bounded flux matching is usable with its defaults", "statement": "ConstrainPsi2DAdvanced / ConstrainPsiNorm2DAdvanced can be called with their default arguments, have zero residual when flux equals target, and apply limit i to coil i of the machine as control.constrain does.", "quantifier": "for every machine, flux and target", "why_tests_cant": "never exercised by the suite", "anchors": ["freegs/control.py:ConstrainPsi2DAdvanced", "freegs/control.py:ConstrainPsiNorm2DAdvanced"]}
{"id": "C19", "title": "Sparse second-order matrix is the finite-difference operator", "statement": "The matrix built by GSsparse applied to a flattened flux array equals GSElliptic applied to the 2D array at every interior point and returns the flux itself at every boundary point.", "quantifier": "for every grid size, domain and flux array", "why_tests_cant": "index flattening and in-place matrix assembly for all sizes", "anchors": ["freegs/gradshafranov.py:GSsparse", "freegs/gradshafranov.py:GSElliptic"]}
{"id": "C20", "title": "Second-order operator is consistent with the Grad-Shafranov operator", "statement": "GSElliptic is exact for flux functions a + b Z + c Z^2 + d Z^3 + e R^2 + f R^2 Z, and for R^4 its error is exactly -2 dR^2 : second order.", "quantifier": "for every domain, grid size and interior point with R != 0", "why_tests_cant": "algebraic identity over a continuum of grids", "anchors": ["freegs/gradshafranov.py:GSElliptic"]}
{"id": "C21", "title": "Direct second-order solve is well posed and sign preserving", "statement": "For a domain with 0 <= Rmin < Rmax the linear system of GSsparse has at most one solution for each right hand side; a solution with non-positive interior right hand side (positive current) and non-negative boundary values is non-negative everywhere, and the flux is bounded by the boundary extremes where the current vanishes.", "quantifier": "for every grid size, domain, boundary values and current distribution", "why_tests_cant": "uniqueness and comparison hold against all flux arrays on all grids (discrete maximum principle)", "anchors": ["freegs/gradshafranov.py:GSsparse", "freegs/multigrid.py:MGDirect"]}
{"id": "C22", "title": "Fourth-order matrix is exact on quartics", "statement": "The matrix built by GSsparse4thOrder applied to any flux polynomial of degree <= 4 in R and <= 5 in Z gives the exact Grad-Shafranov operator at every interior point, including points next to the boundary, and returns the boundary values on the boundary.", "quantifier": "for every domain, every polynomial and every grid with at least six points in each direction", "why_tests_cant": "the stencils reach over several rows; whether they stay inside the row depends on the grid size", "anchors": ["freegs/gradshafranov.py:GSsparse4thOrder"]}
{"id": "C23", "title": "Fourth-order matrix is valid on every accepted grid", "statement": "Every grid size for which GSsparse4thOrder returns a matrix gives a consistent discretisation (each row only couples points of its own row and column of the grid).", "quantifier": "for every accepted grid size", "why_tests_cant": "the suite uses large grids only; small ones index outside the row", "anchors": ["freegs/gradshafranov.py:GSsparse4thOrder"]}
{"id": "C24", "title": "Restriction uses full weighting", "statement": "multigrid.restrict computes the 9-point weighted average (1/4 centre, 1/8 edges, 1/16 corners) of the fine grid around each interior coarse point, so that with avg=True a constant array restricts to the same constant in the interior.", "quantifier": "for every array of odd size", "why_tests_cant": "restrict is only used inside one multigrid test, whose result does not depend on the weights", "anchors": ["freegs/multigrid.py:restrict"]}
{"id": "C25", "title": "Restriction inverts interpolation on the interior", "statement": "interpolate is bilinear interpolation of the coarse array with zero boundary, is linear, returns an array of size 2(n-1)+1, and restrict(interpolate(c)) = c at every interior coarse point and 0 on the boundary.", "quantifier": "for every array of every size", "why_tests_cant": "pointwise identity over all sizes and arrays, with accumulation order", "anchors": ["freegs/multigrid.py:interpolate", "freegs/multigrid.py:restrict"]}
{"id": "C26", "title": "Multigrid hierarchy is built consistently", "statement": "createVcycle makes at most nlevels levels, halves both grid intervals at each level, stops exactly when an interval count becomes odd, gives every level the matrix of the same domain, and the coarse correction handed to a sub-solver always has the shape the sub-solver was built for.", "quantifier": "for every grid size and requested number of levels", "why_tests_cant": "recursion over an arbitrary number of levels", "anchors": ["freegs/multigrid.py:createVcycle", "freegs/multigrid.py:MGJacobi.__call__"]}
{"id": "C27", "title": "V-cycle leaves the exact solution fixed and its error does not depend on the right hand side", "statement": "If x solves the linear system then the multigrid solver returns x, for any number of cycles, sweeps and levels; for any start the error after the call is a fixed linear function of the error before; after at least one sweep Dirichlet boundary rows are satisfied exactly; a start on which a Jacobi sweep changes nothing solves the system.", "quantifier": "for every hierarchy, every cycle/sweep count, every right hand side and start", "why_tests_cant": "induction over levels, cycles and sweeps", "anchors": ["freegs/multigrid.py:MGJacobi", "freegs/multigrid.py:MGDirect"]}
{"id": "C28", "title": "Boundary conditions touch the boundary only", "statement": "fixedBoundary sets all four edges of plasma_psi to zero and freeBoundary sets every edge point to the integral of Green's function times Jtor; both leave the interior unchanged, and freeBoundary is linear in Jtor and gives zero without current.", "quantifier": "for every grid size, flux array and current distribution", "why_tests_cant": "every array entry on every grid", "anchors": ["freegs/boundary.py:fixedBoundary", "freegs/boundary.py:freeBoundary"]}
{"id": "C29", "title": "Equilibrium.solve satisfies the discrete Grad-Shafranov equation", "statement": "After solve() with an exact linear solver the plasma flux has the boundary values set by the boundary function and satisfies the discrete equation with right hand side -mu0 R Jtor in the interior; plasmaCurrent() is the Romberg integral of the supplied Jtor over the domain.", "quantifier": "for every profile, grid, boundary function and machine", "why_tests_cant": "pointwise equation on all grids for all currents", "anchors": ["freegs/equilibrium.py:Equilibrium.solve"]}
{"id": "C30", "title": "Romberg integration is linear and exact", "statement": "The Romberg rule used for all integrals is linear in its samples, is exact for constants and straight lines, is symmetric under reversal, and rejects sample counts that are not 2^k+1.", "quantifier": "for every k, spacing and sample list", "why_tests_cant": "unbounded number of refinement levels", "anchors": ["freegs/equilibrium.py:romb", "freegs/jtor.py:romb", "freegs/boundary.py:romb"]}
{"id": "C31", "title": "Plasma current constraint is met exactly", "statement": "The current density returned by ConstrainPaxisIp.Jtor and ConstrainBetapIp.Jtor integrates (with the same Romberg rule that Equilibrium.solve uses for plasmaCurrent) to Ip.", "quantifier": "for every flux map, mask, profile exponents and constraint values for which the shape integrals do not vanish", "why_tests_cant": "identity over all flux maps", "anchors": ["freegs/jtor.py:ConstrainPaxisIp.Jtor", "freegs/jtor.py:ConstrainBetapIp.Jtor"]}
{"id": "C32", "title": "Pressure on axis constraint is met exactly", "statement": "After ConstrainPaxisIp.Jtor, pressure(0) equals paxis and pressure(1) equals 0.", "quantifier": "for every flux map, axis/boundary flux and profile exponents with nonzero shape integral", "why_tests_cant": "identity over all inputs", "anchors": ["freegs/jtor.py:ConstrainPaxisIp.Jtor", "freegs/jtor.py:Profile.pressure"]}
{"id": "C33", "title": "Poloidal beta constraint is met exactly", "statement": "After ConstrainBetapIp.Jtor the pressure implied by pprime has ratio 2 mu0 <p>/<Bpol^2> = betap over the integration region with the flux map used.", "quantifier": "for every flux map and betap with nonvanishing integrals", "why_tests_cant": "identity over all inputs", "anchors": ["freegs/jtor.py:ConstrainBetapIp.Jtor"]}
{"id": "C34", "title": "Toroidal current is consistent with the profiles", "statement": "At every point in the plasma core the returned Jtor equals R p'(psi) + ff'(psi)/(mu0 R) with the profile functions exposed by the same object, and it is zero outside the core mask, for all profile classes.", "quantifier": "for every flux map, grid point and profile object", "why_tests_cant": "pointwise identity over all grids", "anchors": ["freegs/jtor.py:ConstrainPaxisIp", "freegs/jtor.py:ConstrainBetapIp", "freegs/jtor.py:ProfilesPprimeFfprime.Jtor"]}
{"id": "C35", "title": "pressure and fpol are the integrals of the profile gradients", "statement": "d(pressure)/dpsi = pprime, d(fpol^2/2)/dpsi = ffprime, pressure vanishes at the boundary and |fpol| equals |fvac| at the boundary.", "quantifier": "for every continuous profile, axis and boundary flux and fvac (either sign)", "why_tests_cant": "differential identity at every point, both field directions", "anchors": ["freegs/jtor.py:Profile.pressure", "freegs/jtor.py:Profile.fpol"]}
{"id": "C36", "title": "fpol keeps the direction of the toroidal field", "statement": "At the plasma boundary fpol equals fvac, so the toroidal field is continuous across the boundary for either sign of fvac.", "quantifier": "for every profile and every fvac, positive or negative", "why_tests_cant": "the suite only uses positive fvac", "anchors": ["freegs/jtor.py:Profile.fpol", "freegs/equilibrium.py:Equilibrium.Btor"]}
{"id": "C37", "title": "Accepted profile exponents give a usable profile", "statement": "Every pair (alpha_m, alpha_n) accepted by the constructors (others raise ValueError) gives a profile shape that is 1 on axis, 0 at the boundary, between 0 and 1 and has a positive integral.", "quantifier": "for every pair of real exponents", "why_tests_cant": "boundary cases of the validation", "anchors": ["freegs/jtor.py:ConstrainPaxisIp.__init__", "freegs/jtor.py:ConstrainBetapIp.__init__"]}
{"id": "C38", "title": "A specified boundary flux is honoured", "statement": "Passing psi_bndry to picard.solve / Equilibrium.solve / profile.Jtor makes that flux the plasma boundary used for the current (documented: 'If psi_bndry is set then this overrides the usual process').", "quantifier": "for every profile class, flux map and psi_bndry", "why_tests_cant": "the suite never passes psi_bndry together with a constrained profile", "anchors": ["freegs/jtor.py:ConstrainPaxisIp.Jtor", "freegs/jtor.py:ConstrainBetapIp.Jtor", "freegs/jtor.py:ProfilesPprimeFfprime.Jtor"]}
{"id": "C39", "title": "core_mask always terminates", "statement": "core_mask returns for every input: the fill loop does a bounded number of steps.", "quantifier": "for every grid size, flux map, list of X-points and O-point", "why_tests_cant": "the stack may hold duplicates, so termination needs a global argument over all flux maps", "anchors": ["freegs/critical.py:core_mask"]}
{"id": "C40", "title": "core_mask marks exactly the connected core", "statement": "The result contains only 0 and 1 and outside the 3x3 blocks around X-points a point is 1 iff it is connected to the O-point by horizontal/vertical steps through points with normalised flux below 1 that avoid those blocks; inside the blocks it is 1 iff the normalised flux is below 1.", "quantifier": "for every grid, flux map and X-points", "why_tests_cant": "reachability on arbitrary graphs", "anchors": ["freegs/critical.py:core_mask"]}
{"id": "C41", "title": "core_mask excludes the private flux region", "statement": "Every point marked by core_mask is connected to the O-point through points with normalised flux below 1 (documented: marks the points 'inside the separatrix').", "quantifier": "for every grid, flux map and X-points", "why_tests_cant": "depends on flux maps with private flux next to an X-point", "anchors": ["freegs/critical.py:core_mask"]}
{"id": "C42", "title": "Duplicate removal keeps one representative of every cluster", "statement": "The O- and X-point lists returned by find_critical have no two points closer than 1e-5 (squared distance), every candidate found lies within 1e-5 of a returned one, order is preserved and nothing is invented.", "quantifier": "for every list of candidates", "why_tests_cant": "greedy filtering over arbitrary lists", "anchors": ["freegs/critical.py:find_critical.remove_dup"]}
{"id": "C43", "title": "Critical points are genuine, and sorted", "statement": "Every point returned by find_critical satisfies Br^2+Bz^2 < 1e-6 within the search radius of the grid point it started from; the Newton search makes at most 101 steps; the first O-point is the one closest to the grid centre, and X-points are ordered by flux distance from the axis; discard_xpoints only removes points.", "quantifier": "for every flux map (any interpolating spline), every grid", "why_tests_cant": "Newton iteration from arbitrary data", "anchors": ["freegs/critical.py:find_critical"]}
{"id": "C44", "title": "find_psisurface returns a point of the surface inside the domain", "statement": "The point returned by find_psisurface lies on the ray from the axis, inside the domain, between two consecutive samples, and linear interpolation of the normalised flux there gives exactly the requested value, whenever some sample on the ray exceeds the requested value.", "quantifier": "for every flux function, axis, end point and requested value", "why_tests_cant": "all sample patterns; failure branch", "anchors": ["freegs/critical.py:find_psisurface"]}
{"id": "C45", "title": "find_psisurface reports a missing surface", "statement": "If no sample on the ray reaches the requested normalised flux, find_psisurface signals this (raises or warns) instead of returning a point that is not on the surface.", "quantifier": "for every flux function and requested value", "why_tests_cant": "failure branch never exercised", "anchors": ["freegs/critical.py:find_psisurface"]}
{"id": "C46", "title": "Limiter flux is the flux at the limiter", "statement": "When check_limited is on, the limiter flux compared with the X-point flux by Equilibrium is the flux of the map psi(R,Z) at the wall limit points, on every grid shape.", "quantifier": "for every flux map, grid shape, wall and sign of the plasma current", "why_tests_cant": "tests use only square grids and one sign of current", "anchors": ["freegs/equilibrium.py:Equilibrium._updateBoundaryPsi"]}
{"id": "C47", "title": "The plasma boundary is the surface closest to the axis", "statement": "With check_limited on, psi_bndry is the one of X-point flux and limiter flux that is closest to the axis flux, for either direction of the plasma current, and is_limited says which one was taken.", "quantifier": "for every pair of fluxes and both current directions", "why_tests_cant": "the suite only uses positive current", "anchors": ["freegs/equilibrium.py:Equilibrium._updateBoundaryPsi"]}
{"id": "C48", "title": "Picard iteration count and failure mode", "statement": "picard.solve with maxits=n performs at most n+1 Grad-Shafranov solves and then either returns or raises RuntimeError; the convergence history has exactly one entry per solve; the constraint function is called once before the loop and once per unfinished iteration.", "quantifier": "for every sequence of states produced by the physics, every tolerance and option", "why_tests_cant": "all convergence histories", "anchors": ["freegs/picard.py:solve"]}
{"id": "C49", "title": "maxits bounds the iteration", "statement": "Every number given as maxits bounds the number of iterations (documented: maximum number of iterations; None for no limit).", "quantifier": "for every integer maxits, including 0, and every sequence of states", "why_tests_cant": "non-termination cannot be tested", "anchors": ["freegs/picard.py:solve"]}
{"id": "C50", "title": "Picard returns only when converged", "statement": "If picard.solve returns normally, the last change in flux is below the absolute or relative tolerance, the boundary flux change recorded last is below tolerance, and with wait_for_limited the plasma is limited; if no iteration ever finds a boundary flux it never returns.", "quantifier": "for every sequence of states, every tolerance and option", "why_tests_cant": "all histories, including those where the boundary is lost", "anchors": ["freegs/picard.py:solve"]}
{"id": "C51", "title": "Picard does not converge without a boundary", "statement": "picard.solve does not declare convergence in an iteration in which no plasma boundary was found (documented in the code as a dummy condition to prevent it).", "quantifier": "for every history, including those where the boundary is found and later lost", "why_tests_cant": "needs a particular history of lost boundaries", "anchors": ["freegs/picard.py:solve"]}
{"id": "C52", "title": "pickUnique returns distinct admissible indices", "statement": "pickUnique(N, m, e) returns m pairwise different indices in 0..N-1, none of them in e, for every stream of random numbers.", "quantifier": "for every N, m, exclusion list e of distinct indices with m + len(e) <= N and every random stream", "why_tests_cant": "random; a test samples streams", "anchors": ["freegs/optimiser.py:pickUnique"]}
{"id": "C53", "title": "pickUnique can return every admissible index", "statement": "Every index in 0..N-1 not in e can be returned by pickUnique for some random stream, so every agent takes part in the evolution (documented: 'Pick m random values from the range 0...(N-1)').", "quantifier": "for every N, m, e and every admissible index", "why_tests_cant": "absence of an outcome cannot be tested by sampling", "anchors": ["freegs/optimiser.py:pickUnique"]}
{"id": "C54", "title": "Differential evolution never loses ground", "statement": "In optimiser.optimise the population size stays N, the score of every population slot and the best score never increase from one generation to the next, and every stored score is the measure of the stored object.", "quantifier": "for every measure, controls, population size, generation count and random stream", "why_tests_cant": "invariant over generations and random streams", "anchors": ["freegs/optimiser.py:optimise"]}
{"id": "C55", "title": "optimise returns the lowest score it has seen", "statement": "The object returned by optimiser.optimise has the lowest measure of all objects evaluated, in particular not worse than the starting object (documented: 'Returns the Equilibrium with the lowest measure').", "quantifier": "for every measure, controls and random stream", "why_tests_cant": "holds or fails depending on rare orderings of scores", "anchors": ["freegs/optimiser.py:optimise"]}
{"id": "C56", "title": "optimise works for any number of controls and can change every control", "statement": "optimiser.optimise runs for every non-empty list of controls, and every control can be the one that is always mutated in a trial.", "quantifier": "for every non-empty list of controls and random stream", "why_tests_cant": "the suite uses two controls only", "anchors": ["freegs/optimiser.py:optimise"]}
{"id": "C57", "title": "Coil position controls respect their limits", "statement": "After CoilRadius.set / CoilHeight.set with nonzero limits minimum <= maximum the coil position is the requested value clamped to [minimum, maximum], get() returns it, and no other coil changes.", "quantifier": "for every nonzero limits, requested value and machine", "why_tests_cant": "boundary values of the limits", "anchors": ["freegs/optimise.py:CoilRadius.set", "freegs/optimise.py:CoilHeight.set"]}
{"id": "C58", "title": "Zero is a valid coil position limit", "statement": "A limit equal to zero (the default minimum of CoilRadius; a midplane limit for CoilHeight) is enforced like any other.", "quantifier": "for every requested value", "why_tests_cant": "boundary value of the limit", "anchors": ["freegs/optimise.py:CoilRadius.set", "freegs/optimise.py:CoilHeight.set"]}
{"id": "C59", "title": "Polygon area is a geometric invariant", "statement": "polygons.area does not change under translation or cyclic rotation of the vertex list, changes sign under reversal, scales quadratically, and equals the shoelace sum; clockwise agrees with its sign.", "quantifier": "for every polygon with any number of vertices", "why_tests_cant": "all vertex counts and positions", "anchors": ["freegs/polygons.py:area", "freegs/polygons.py:clockwise"]}
{"id": "C60", "title": "Triangulation conserves area", "statement": "polygons.triangulate returns n-2 triangles whose signed areas add up to the area of the polygon, using only vertices of the polygon, whenever it returns; it returns for every convex polygon.", "quantifier": "for every polygon", "why_tests_cant": "the while loop has no bound; all vertex lists", "anchors": ["freegs/polygons.py:triangulate"]}
{"id": "C61", "title": "Triangulation terminates and covers the polygon", "statement": "polygons.triangulate returns for every list of at least three vertices and every returned triangle of a simple polygon has non-negative (clockwise) area.", "quantifier": "for every polygon", "why_tests_cant": "unbounded while loop; adversarial vertex lists", "anchors": ["freegs/polygons.py:triangulate"]}
{"id": "C62", "title": "intersect reports crossing of polylines", "statement": "polygons.intersect returns True only if two edges of the given polylines cross, and always if two edges cross properly (away from near-parallel edges), for closed polylines.", "quantifier": "for every pair of polylines with any number of points", "why_tests_cant": "all polylines, open and closed", "anchors": ["freegs/polygons.py:intersect"]}
{"id": "C63", "title": "intersect examines every edge of an open polyline", "statement": "With closed1=False / closed2=False polygons.intersect tests exactly the edges between consecutive points of the open polyline.", "quantifier": "for every pair of polylines", "why_tests_cant": "the suite only covers closed polygons", "anchors": ["freegs/polygons.py:intersect"]}
{"id": "C64", "title": "Triangle quadrature is exact", "statement": "triangle_quad returns points inside the triangle with weights adding to 1; it integrates exactly constants and linear functions (n=1), quadratics (n=3) and (n=6) quartics up to the 15 digits of its tabulated coefficients; any other n raises ValueError.", "quantifier": "for every triangle and every polynomial", "why_tests_cant": "continuum of triangles and polynomials", "anchors": ["freegs/quadrature.py:triangle_quad"]}
{"id": "C65", "title": "Shaped coils carry their current at the centroid of their shape", "statement": "The quadrature points of a polygon have weights adding to one and their weighted mean is the centroid of the polygon (shoelace formula), so average() of any linear function is exact.", "quantifier": "for every polygon with nonzero area for which triangulation returns", "why_tests_cant": "all polygons", "anchors": ["freegs/quadrature.py:polygon_quad", "freegs/quadrature.py:average", "freegs/shaped_coil.py:ShapedCoil"]}
{"id": "C66", "title": "Coils survive a save/load round trip", "statement": "Coil, ShapedCoil, Solenoid and Circuit objects are equal to the result of from_numpy_array(to_numpy_array()), for coils whose position was not changed after construction (ShapedCoil, at most ten vertices), with integer turns and a nonzero first multiplier (Circuit).", "quantifier": "for every coil object reachable through the public interface", "why_tests_cant": "all object states", "anchors": ["freegs/coil.py:Coil.from_numpy_array", "freegs/shaped_coil.py:ShapedCoil.to_numpy_array", "freegs/machine.py:Circuit.from_numpy_array", "freegs/machine.py:Solenoid.from_numpy_array", "freegs/filament_coil.py:FilamentCoil", "freegs/multi_coil.py:MultiCoil.from_numpy_array"]}
{"id": "C67", "title": "Saving keeps the position of a moved coil and works for every coil type", "statement": "A coil that has been moved is saved at its new position, and every coil type that can be put in a machine can be written to file and read back.", "quantifier": "for every coil object reachable through the public interface", "why_tests_cant": "needs state changes before saving; types not in the suite", "anchors": ["freegs/shaped_coil.py:ShapedCoil.to_numpy_array", "freegs/filament_coil.py:FilamentCoil", "freegs/multi_coil.py:MultiCoil.from_numpy_array", "freegs/pre_calc_coil.py:PreCalcCoil"]}
{"id": "C68", "title": "Equilibrium survives a save/load round trip", "statement": "Writing an Equilibrium with OutputFile and reading it back gives a machine with the same set of labelled coils and the same wall, and an equilibrium with the same domain, grid, plasma flux, plasma current and boundary condition.", "quantifier": "for every equilibrium with savable coils and distinct labels that are single HDF5 names (not empty, not \".\", no slash), and one of the boundary functions of the package", "why_tests_cant": "all machines and settings", "anchors": ["freegs/dump.py:OutputFile.write_equilibrium", "freegs/dump.py:OutputFile.read_equilibrium"]}
{"id": "C69", "title": "Saving keeps coil order and solver settings", "statement": "After a save/load round trip the coils are in the same order (so that lists of limits or currents keep their meaning) and the order of the discretisation and the limiter setting are the same.", "quantifier": "for every machine and equilibrium", "why_tests_cant": "all label orders", "anchors": ["freegs/dump.py:OutputFile.read_equilibrium"]}
{"id": "C70", "title": "G-EQDSK write/read preserves geometry and flux", "statement": "geqdsk.write followed by geqdsk.read recovers the domain (Rmin,Rmax,Zmin,Zmax), the normalised flux map, the vacuum field and a closed boundary with the same points.", "quantifier": "for every equilibrium and grid size", "why_tests_cant": "all grids and profiles", "anchors": ["freegs/geqdsk.py:write", "freegs/geqdsk.py:read"]}
{"id": "C71", "title": "G-EQDSK write/read preserves profiles and limiter", "statement": "Profiles written by geqdsk.write are read back as the same functions of normalised flux, and the limiter read from the file is the one used for limit points.", "quantifier": "for every equilibrium and grid size", "why_tests_cant": "the suite compares no profiles", "anchors": ["freegs/geqdsk.py:write", "freegs/geqdsk.py:read", "freegs/machine.py:Machine.generate_limit_points"]}
{"id": "C72", "title": "Grid size rounding", "statement": "isPow2 recognises exactly the powers of two among positive integers; ceilPow2(v) is the least power of two that is at least v, so the resized grid has 2^n+1 >= n points.", "quantifier": "for every positive integer / every domain", "why_tests_cant": "all integers; all domains", "anchors": ["freegs/geqdsk.py:isPow2", "freegs/geqdsk.py:ceilPow2", "freegs/geqdsk.py:read"]}
{"id": "C73", "title": "Reading with a domain never increases the grid spacing", "statement": "With a `domain` argument geqdsk.read returns an equilibrium on that domain with grid spacing not larger than in the file (documented).", "quantifier": "for every file grid and domain", "why_tests_cant": "never exercised", "anchors": ["freegs/geqdsk.py:read"]}
{"id": "C74", "title": "Refining preserves the set-up", "statement": "refine returns an equilibrium on the same domain with 2(n-1)+1 points by default (or the given sizes), the same machine, boundary condition and order of accuracy; coarsen(refine(eq)) has the same size and the same interior plasma flux when the refined flux interpolates the original at coincident points.", "quantifier": "for every equilibrium", "why_tests_cant": "all sizes and settings", "anchors": ["freegs/equilibrium.py:refine", "freegs/equilibrium.py:coarsen", "freegs/equilibrium.py:newDomain"]}
{"id": "C75", "title": "Coarsening and changing the domain preserve the set-up", "statement": "coarsen and newDomain keep the machine, boundary condition and order of accuracy; coarsen keeps the plasma flux at coincident grid points, newDomain by default keeps the number of points in each direction.", "quantifier": "for every equilibrium", "why_tests_cant": "all sizes and settings", "anchors": ["freegs/equilibrium.py:coarsen", "freegs/equilibrium.py:newDomain"]}
{"id": "C76", "title": "Shape diagnostics are mutually consistent", "statement": "Geometric axis, minor radius, elongations, triangularities and aspect ratio computed from separatrix extrema satisfy their defining relations: lower+upper elongation = 2 elongation, triangularity is the mean of upper and lower, aspect ratio x inverse = 1, minor radius and elongation are invariant and the geometric axis covariant under translation in R and Z.", "quantifier": "for every separatrix (list of points)", "why_tests_cant": "all point lists", "anchors": ["freegs/equilibrium.py:Equilibrium.geometricAxis", "freegs/equilibrium.py:Equilibrium.elongation", "freegs/equilibrium.py:Equilibrium.triangularity"]}
{"id": "C77", "title": "Midplane separatrix radii bracket the axis", "statement": "innerOuterSeparatrix returns radii at which the linearly interpolated normalised flux along the row is exactly 1, one inboard and one outboard of the axis with normalised flux at most 1 between the bracketing grid points, and raises ValueError if there is no crossing.", "quantifier": "for every flux row", "why_tests_cant": "all rows", "anchors": ["freegs/equilibrium.py:Equilibrium.innerOuterSeparatrix"]}
{"id": "C78", "title": "Field line tracing stops for good", "statement": "Once a field line has left the domain (or hit the wall) its position and length no longer change for the rest of the trace, whatever the order in which the integrator evaluates points; following backward reverses R and Z rates and counts length positively.", "quantifier": "for every sequence of evaluation points the integrator may choose", "why_tests_cant": "arbitrary integrator schedules", "anchors": ["freegs/fieldtracer.py:FieldTracer.fieldDirection", "freegs/fieldtracer.py:FieldTracer.eqDomain"]}
{"id": "C79", "title": "Rogowski measurement is the enclosed toroidal current", "statement": "A Rogowski sensor reports the plasma current weighted by cell overlap plus the sum of currents of single-turn coils inside its outline, including circuit members; measurements are linear in all currents; a switched-off sensor is not updated.", "quantifier": "for every machine, sensor outline and plasma", "why_tests_cant": "all machines, all turn numbers", "anchors": ["freegs/machine.py:RogowskiSensor.get_measure", "freegs/machine.py:Circuit.inShape"]}
{"id": "C80", "title": "Rogowski measurement counts turns", "statement": "The coil contribution to a Rogowski measurement is the total toroidal current current*turns of each enclosed coil, for every machine with Rogowski sensors.", "quantifier": "for every machine, all turn numbers", "why_tests_cant": "the suite uses single turn coils", "anchors": ["freegs/machine.py:RogowskiSensor.get_measure"]}
{"id": "C81", "title": "Limit points lie on the wall", "statement": "The limit points generated for a wall lie on the wall polygon, and the first and last are the first and last wall points.", "quantifier": "for every wall polygon and number of limit points", "why_tests_cant": "all polygons", "anchors": ["freegs/machine.py:Machine.generate_limit_points"]}
{"id": "C82", "title": "Limit points close the wall and follow wall changes", "statement": "The limit points sample the closed wall polygon (documented: 'form a closed boundary'), including the segment from the last to the first point, and assigning a new wall to an existing machine (documented) updates them.", "quantifier": "for every wall polygon", "why_tests_cant": "all polygons and histories", "anchors": ["freegs/machine.py:Machine.generate_limit_points", "freegs/geqdsk.py:read"]}
{"id": "C83", "title": "Second-order truncation error bound", "statement": "For every flux with bounded third and fourth derivatives on a box with Rmin > 0, the finite difference operator differs from the Grad-Shafranov differential operator at every interior point by at most M*(dR^2/12 + dZ^2/12 + (dR^2/6 + dR^3/24)/Rmin).", "quantifier": "for every sufficiently smooth flux and every grid", "why_tests_cant": "all smooth functions and all resolutions; the suite has no convergence test of the operator", "anchors": ["freegs/gradshafranov.py:GSElliptic.__call__"]}
{"id": "C84", "title": "Direct solve converges to the true flux", "statement": "Solving the second-order sparse system with the exact right hand side and exact boundary values gives at every grid point the true flux to within (Zmax-Zmin)^2/8 times the truncation bound, so the error vanishes as the grid is refined.", "quantifier": "for every smooth flux, every box with Rmin > 0 and every grid size", "why_tests_cant": "all fluxes, all resolutions", "anchors": ["freegs/gradshafranov.py:GSsparse.__call__", "freegs/multigrid.py:MGDirect.__call__"]}
{"id": "C85", "title": "Matrix-free V-cycle keeps boundary values and exact solutions", "statement": "smoothVcycle with the Laplacian or Grad-Shafranov operator leaves boundary values unchanged when the right hand side is zero there and leaves an exact solution unchanged, on every grid that can be halved the requested number of times; on a grid that cannot be halved it raises instead of returning an answer.", "quantifier": "for every array, every grid, every number of sweeps and sub-levels", "why_tests_cant": "all grids and level counts", "anchors": ["freegs/multigrid.py:smoothVcycle", "freegs/multigrid.py:LaplacianOp"]}
{"id": "C86", "title": "Laplace matrix equals the Laplacian operator", "statement": "The LaplaceSparse matrix applied to any array gives the five point LaplacianOp at interior points and the identity at boundary points.", "quantifier": "for every array and grid size", "why_tests_cant": "all sizes and arrays", "anchors": ["freegs/multigrid.py:LaplaceSparse.__call__", "freegs/multigrid.py:LaplacianOp.__call__"]}
{"id": "C87", "title": "Jacobi iteration converges for the Grad-Shafranov matrix", "statement": "The Jacobi-only solver for the second-order Grad-Shafranov matrix contracts the error: after nc cycles of 2*ni sweeps the largest error is at most 4/3 rho^(2 ni nc) times the initial one, with rho = 1 - 1/((Zmax-Zmin)^2 (1/dR^2+1/dZ^2)) < 1.", "quantifier": "for every box with Rmin >= 0, every grid, start, right hand side and sweep count", "why_tests_cant": "a statement about all sweep counts and all inputs", "anchors": ["freegs/multigrid.py:MGJacobi.__call__", "freegs/gradshafranov.py:GSsparse.__call__"]}
{"id": "C88", "title": "Field and flux sensors report the total field", "statement": "A switched-on PoloidalFieldSensor reports (coil + plasma) Br cos(theta) + Bz sin(theta) and a FluxLoopSensor the total flux at its position; measuring leaves the machine as it was; a switched-off sensor is not updated.", "quantifier": "for every machine with consistent circuits, position, angle and plasma", "why_tests_cant": "all machines, positions and angles", "anchors": ["freegs/machine.py:PoloidalFieldSensor.get_measure", "freegs/machine.py:FluxLoopSensor.get_measure"]}
{"id": "C89", "title": "Romberg integration is exact for polynomials", "statement": "With 2^k+1 samples the integration rule gives the exact integral of every polynomial of degree at most 2k+1.", "quantifier": "for every k, spacing and polynomial", "why_tests_cant": "all sample counts and polynomials", "anchors": ["freegs/equilibrium.py:romb", "freegs/jtor.py:romb", "freegs/boundary.py:romb"]}
{"id": "C90", "title": "Romberg integration is positive and monotone", "statement": "Non-negative samples give a non-negative integral, a positive sample among them a positive one, and larger samples a larger integral; so the shape integrals by which the profile constraints divide are positive for a non-empty plasma.", "quantifier": "for every accepted sample count and sample values", "why_tests_cant": "the extrapolation subtracts; that no weight becomes negative is a statement about every level", "anchors": ["freegs/equilibrium.py:romb", "freegs/jtor.py:romb"]}
{"id": "C91", "title": "The Newton search uses the true derivatives", "statement": "Each step of the search in find_critical solves the linear equations with the matrix of partial derivatives of (Br, Bz), a point is accepted at once when the field is below the limit, and the O-point/X-point test is the determinant of the second derivatives, exact for a quadratic flux.", "quantifier": "for every differentiable flux function, start and radius not zero; every quadratic flux and uniform grid", "why_tests_cant": "a wrong matrix entry only slows down convergence in a test; the statement is about all flux functions", "anchors": ["freegs/critical.py:find_critical"]}
{"id": "C92", "title": "X-points visible from the O-point are kept", "statement": "With discard_xpoints an X-point joined to the O-point by a line along which the flux is monotone is kept; for a kept one the flux on the line exceeds that at the X-point by at most 0.1% of the range and is lowest within 0.01 of the O-point.", "quantifier": "for every flux function, O-point and X-point", "why_tests_cant": "all flux functions along the line", "anchors": ["freegs/critical.py:find_critical"]}
{"id": "C93", "title": "Separatrix rays avoid the X-point", "statement": "No ray used by find_separatrix or find_safety is closer than 0.001 to the direction of the X-point (modulo 2 pi).", "quantifier": "for every ray count, O-point and X-point", "why_tests_cant": "needs an X-point direction just below 2 pi", "anchors": ["freegs/critical.py:find_separatrix", "freegs/critical.py:find_safety"]}
{"id": "C94", "title": "find_separatrix returns one surface point per ray", "statement": "find_separatrix returns ntheta points, the k-th on the ray from the O-point at angle 2 pi k/ntheta (plus an optional half step), and it is the crossing with the requested flux if the ray has one; it succeeds iff there is an O-point, an X-point and ntheta is at least 2.", "quantifier": "for every flux function, domain, O- and X-points and ray count", "why_tests_cant": "all rays and flux functions", "anchors": ["freegs/critical.py:find_separatrix"]}
{"id": "C95", "title": "Von Hagenow's boundary sets the edge and leaves the interior alone", "statement": "freeBoundaryHagenow solves with source R Jtor and zero edge values and sets every edge point to the loop integral of G/R dU/dn over the four edges, for an observer moved 1 cm outwards; it leaves the interior of psi unchanged.", "quantifier": "for every accepted grid, current and solver", "why_tests_cant": "the interior is only changed with the iterative solver, which the tests do not combine with this boundary", "anchors": ["freegs/boundary.py:freeBoundaryHagenow", "freegs/multigrid.py:MGJacobi.__call__"]}
{"id": "C96", "title": "The normal derivative at the boundary is fourth order accurate", "statement": "The one-sided difference used by freeBoundaryHagenow is minus the inward derivative up to (17/3) M h^4 where M bounds the fifth derivative; it is exact for polynomials of degree four.", "quantifier": "for every function with five derivatives and every step", "why_tests_cant": "an order of accuracy is a statement about all steps and functions", "anchors": ["freegs/boundary.py:freeBoundaryHagenow"]}
{"id": "C97", "title": "Profiles carried over by refine work on the refined grid", "statement": "After refine(eq) the profile object handed on with the new equilibrium can be used to solve on the new grid.", "quantifier": "for every equilibrium, every refinement and every kind of profile", "why_tests_cant": "the suite never refines an equilibrium with constrained profiles", "anchors": ["freegs/equilibrium.py:refine", "freegs/jtor.py:ConstrainPaxisIp", "freegs/jtor.py:ConstrainBetapIp"]}
{"id": "C98", "title": "Shape diagnostics have the symmetries of the shape", "statement": "Minor radius, elongations and triangularities are within their geometric bounds (|triangularity| <= 1, elongations >= 0, aspect ratio > 1 for R > 0), do not change under scaling, are exchanged up and down by a mirror image, and the size does not depend on the order of the points.", "quantifier": "for every list of separatrix points", "why_tests_cant": "symmetries are statements about all point lists", "anchors": ["freegs/equilibrium.py:Equilibrium.minorRadius", "freegs/equilibrium.py:Equilibrium.elongationUpper", "freegs/equilibrium.py:Equilibrium.triangularityUpper"]}
{"id": "C99", "title": "The shape of a plasma bounded by a limiter is defined", "statement": "The separatrix and the shape diagnostics can be computed for every equilibrium with a magnetic axis and a boundary flux, whether the plasma is bounded by an X-point or by a limiter.", "quantifier": "for every equilibrium with an axis and a boundary flux", "why_tests_cant": "the suite asks for no shape of a limited plasma", "anchors": ["freegs/equilibrium.py:Equilibrium.separatrix", "freegs/critical.py:find_separatrix"]}
{"id": "C100", "title": "Volume, mean pressure and stored energy are consistent", "statement": "plasmaVolume is the volume of the masked part of the domain (all of it without a mask: pi (Rmax^2-Rmin^2)(Zmax-Zmin)), is never negative and grows with the mask; the mean pressure lies between the extremes of the pressure in the plasma; w_th = 3/2 pressure_ave plasmaVolume.", "quantifier": "for every grid with 2^k+1 points, every mask, flux and pressure profile", "why_tests_cant": "relations between independent methods that integrate separately", "anchors": ["freegs/equilibrium.py:Equilibrium.plasmaVolume", "freegs/equilibrium.py:Equilibrium.pressure_ave", "freegs/equilibrium.py:Equilibrium.w_th"]}
{"id": "C101", "title": "Betas and internal inductances agree with their definitions and with each other", "statement": "internalInductance and internalInductance3 are the same; internalInductance1, 2 and 3 differ by the geometric factors only; 1/totalBeta = 1/poloidalBeta + 1/toroidalBeta; the stored energy is 3/8 mu0 R0 Ip^2 poloidalBeta li3; poloidalBeta3 is 4 V <p> / (mu0 Ip^2 R0).", "quantifier": "for every equilibrium with non-zero current and volume", "why_tests_cant": "the suite evaluates none of these diagnostics", "anchors": ["freegs/equilibrium.py:Equilibrium.internalInductance1", "freegs/equilibrium.py:Equilibrium.internalInductance2", "freegs/equilibrium.py:Equilibrium.internalInductance3", "freegs/equilibrium.py:Equilibrium.internalInductance", "freegs/equilibrium.py:Equilibrium.totalBeta", "freegs/equilibrium.py:Equilibrium.poloidalBeta3"]}
{"id": "C102", "title": "The poloidal beta diagnostic returns the constrained value", "statement": "For a profile of ConstrainBetapIp evaluated with the flux, boundary and field of the equilibrium, poloidalBeta() returns the poloidal beta the profile was asked for.", "quantifier": "for every equilibrium, profile parameters and masks inside the integration region", "why_tests_cant": "two pieces of code integrate pressure and field independently; no test compares them", "anchors": ["freegs/equilibrium.py:Equilibrium.poloidalBeta", "freegs/jtor.py:ConstrainBetapIp.Jtor"]}
{"id": "C103", "title": "Constraints on normalised flux measure the distance to the target", "statement": "The residual of ConstrainPsiNorm2D (and the Advanced variant, its sum of squares) vanishes exactly when every weighted point has flux psi_axis + target (psi_bndry - psi_axis); it is unchanged by shifting or rescaling all fluxes.", "quantifier": "for all targets, weights, fluxes and psi_axis <> psi_bndry", "why_tests_cant": "an equivalence over all flux values", "anchors": ["freegs/control.py:ConstrainPsiNorm2D.psinorm_difference", "freegs/control.py:ConstrainPsiNorm2DAdvanced.psinorm_difference"]}
{"id": "C104", "title": "The loop integral for the safety factor does not depend on how the surface is traversed", "statement": "The sum that find_safety forms on a flux surface is linear in the poloidal current function, has its sign, is unchanged when the list of points is rotated or reversed, uses line elements that never add up to more than the length of the polygon, and for equally spaced points on a circle with constant integrand differs from the exact integral by at most the second order in the angular spacing.", "quantifier": "all lists of points, fields, values of f; all numbers of points on the circle", "why_tests_cant": "rotation and reversal invariance for arbitrary lists and an error bound for every number of points", "anchors": ["freegs/critical.py:find_safety"]}
{"id": "C105", "title": "Equilibrium.q accepts numbers, lists and arrays and treats surfaces independently", "statement": "q(psinorm) works for a number, a list or an array, gives the safety factor of each surface in [0.01, 0.99] as found by find_safety, and the value for a surface does not depend on the others that are asked for.", "quantifier": "all requested surfaces, all results of find_safety, all equilibria", "why_tests_cant": "all lists of surfaces; the documented list form is never exercised by the tests", "anchors": ["freegs/equilibrium.py:Equilibrium.q", "freegs/critical.py:find_safety"]}
{"id": "C106", "title": "The safety factor is tabulated in the normalised flux of the plasma", "statement": "find_safety(eq, psinorm=s) gives the safety factor on the surface where the normalised flux of the equilibrium (0 on the axis, 1 on the plasma boundary) is s, for plasmas bounded by a limiter as well as for diverted ones.", "quantifier": "all equilibria, boundary states, requested surfaces", "why_tests_cant": "quantifies over boundary states; the tests have no limited plasma with an X-point whose safety factor is checked", "anchors": ["freegs/critical.py:find_safety", "freegs/equilibrium.py:Equilibrium.q"]}
{"id": "C107", "title": "The toroidal flux is the integral of q from the axis and rhotor runs from 0 to 1", "statement": "tor_flux(psi) is the integral of the safety factor over the poloidal flux from the magnetic axis by the trapezoid rule, for single values as well as arrays; rhotor increases from 0 on the axis to 1 at the last closed flux surface for either direction of the plasma current.", "quantifier": "all arrays of fluxes, safety factors, axis and boundary fluxes", "why_tests_cant": "all profiles with positive q and both signs of the flux difference", "anchors": ["freegs/equilibrium.py:Equilibrium.tor_flux", "freegs/equilibrium.py:Equilibrium.rhotor"]}
{"id": "C108", "title": "A solved equilibrium is recognised after two iterations", "statement": "If solving and constraining keep the flux and the boundary flux of an equilibrium, picard.solve returns after exactly two Grad-Shafranov solves with zero changes, whatever the blending; it never returns after the first solve unless the boundary flux itself is below the absolute tolerance.", "quantifier": "all states, operations, tolerances with 0 < rtol <= 1, all blending factors and iteration limits", "why_tests_cant": "all histories and blending factors", "anchors": ["freegs/picard.py:solve"]}
{"id": "C109", "title": "Waiting for a limited plasma without checking for one never ends", "statement": "picard.solve with wait_for_limited and without check_limited never returns normally for an equilibrium that was not limited before: is_limited can only be set by the check.", "quantifier": "all equilibria, profiles, constraint functions, tolerances and iteration limits", "why_tests_cant": "a statement about all executions, including infinite ones", "anchors": ["freegs/picard.py:solve", "freegs/equilibrium.py:Equilibrium._updateBoundaryPsi"]}
{"id": "C110", "title": "Any label can be saved", "statement": "A machine whose coils have any distinct non-empty labels can be written to a file and read back; repeated labels are reported as an error when writing.", "quantifier": "for every set of labels", "why_tests_cant": "the suite uses three labels", "anchors": ["freegs/dump.py:OutputFile.write_equilibrium", "freegs/dump.py:OutputFile.read_equilibrium"]}
{"id": "C111", "title": "A G-EQDSK file written from a machine with a wall can be read back", "statement": "If geqdsk.write succeeds for an equilibrium in a machine with a wall, geqdsk.read of the file with the same machine finds the plasma boundary and builds an equilibrium; a file with a limiter can be read whatever the numbers of grid points.", "quantifier": "all machines, equilibria, grid sizes and limiters", "why_tests_cant": "all grid sizes; the suite reads no G-EQDSK file", "anchors": ["freegs/geqdsk.py:write", "freegs/geqdsk.py:read", "freegs/equilibrium.py:Equilibrium._updateBoundaryPsi"]}
{"id": "C112", "title": "The boundary in a G-EQDSK file starts at its lowest point", "statement": "The boundary written by geqdsk.write is the separatrix run through once in the opposite direction and closed, starting at its lowest point (the point selected by argmin).", "quantifier": "all separatrix lists", "why_tests_cant": "all positions of the lowest point in the list", "anchors": ["freegs/geqdsk.py:write"]}
{"id": "C113", "title": "Resizing a G-EQDSK grid interpolates the flux", "statement": "When geqdsk.read resizes the grid, the new flux is the bilinear interpolant of the flux in the file on the same domain: corner values are kept and no value leaves the range of the data.", "quantifier": "all grid sizes with at least two points each way, all flux arrays", "why_tests_cant": "all sizes and data", "anchors": ["freegs/geqdsk.py:read"]}
{"id": "C114", "title": "The safety factor profile in a G-EQDSK file", "statement": "The q profile written by geqdsk.write has one value per grid column: eq.q at k/nx for k = 1 .. nx-1, preceded by the first of these as value on the axis.", "quantifier": "all equilibria and grid sizes with at least three columns", "why_tests_cant": "all profiles and sizes", "anchors": ["freegs/geqdsk.py:write", "freegs/equilibrium.py:Equilibrium.q"]}
{"id": "C115", "title": "A field line inside the domain is never stopped", "statement": "The rates fieldDirection gives odeint at a position depend only on that position: a line that stays inside the domain goes on, however the integrator chooses, tries and rejects its points.", "quantifier": "for every sequence of evaluation points and rejected steps", "why_tests_cant": "all integrator schedules", "anchors": ["freegs/fieldtracer.py:FieldTracer.fieldDirection"]}
{"id": "C116", "title": "The wall test marks exactly the points outside the wall", "statement": "wallDomain marks a point if and only if it lies outside the wall, for every convex wall around the middle of the domain; without a wall, points nearer than 1 cm to the edge of the domain are marked.", "quantifier": "all convex polygons, domains and points", "why_tests_cant": "all walls and points, including degenerate directions", "anchors": ["freegs/fieldtracer.py:FieldTracer.wallDomain", "freegs/fieldtracer.py:FieldTracer.eqDomain"]}
{"id": "C117", "title": "Field lines follow the field and stay on flux surfaces", "statement": "The rates of change of R and Z with the toroidal angle are those of a curve along the magnetic field, the rate of the length is that of arc length, and an exact solution of the equations keeps its poloidal flux.", "quantifier": "all fields, positions and solutions", "why_tests_cant": "all solutions of a differential equation", "anchors": ["freegs/fieldtracer.py:FieldTracer.fieldDirection"]}
{"id": "C118", "title": "Field lines can be followed from arrays of any shape", "statement": "follow accepts starting points as numbers or arrays of any shape and gives one line for each.", "quantifier": "all shapes of arrays", "why_tests_cant": "all shapes; the suite has no test of the tracer", "anchors": ["freegs/fieldtracer.py:FieldTracer.follow"]}
{"id": "C119", "title": "Starting points of traceFieldLines", "statement": "traceFieldLines starts nlines lines equally spaced outside the outboard midplane, the last one solwidth away from the plasma and none on the separatrix.", "quantifier": "all positions, widths and numbers of lines", "why_tests_cant": "all values", "anchors": ["freegs/fieldtracer.py:traceFieldLines"]}
{"id": "C120", "title": "Moving a coil moves its current", "statement": "Setting the position of a coil, multi-filament coil, shaped coil or filament coil moves every current element by the same amount and keeps currents, turns and control; a vertical move carries the whole field with it; moving back restores the coil.", "quantifier": "all coils, positions and fields of the Green's functions", "why_tests_cant": "all coils and displacements at once", "anchors": ["freegs/multi_coil.py:MultiCoil.R", "freegs/multi_coil.py:MultiCoil.Z", "freegs/shaped_coil.py:ShapedCoil.R", "freegs/filament_coil.py:FilamentCoil.R"]}
{"id": "C121", "title": "Moving works for every coil class, with its outline", "statement": "Setting the position moves the field of every coil class, PreCalcCoil included, and the outline used by sensors and saving moves with the filaments.", "quantifier": "all coil classes and displacements", "why_tests_cant": "the suite moves only shaped and filament coils, and compares the field at a few points", "anchors": ["freegs/pre_calc_coil.py:PreCalcCoil.controlPsi", "freegs/shaped_coil.py:ShapedCoil.inShape", "freegs/filament_coil.py:FilamentCoil.inShape"]}
{"id": "C122", "title": "Areas of coils", "statement": "The area of a shaped coil or of a filament coil with an outline is that of the polygon, of one with filaments alone that of their box, of one with a current density limit that which reaches the limit, and every area is positive so that the self force is defined.", "quantifier": "all shapes, filaments, currents and limits", "why_tests_cant": "all shapes and currents, including zero", "anchors": ["freegs/coil.py:AreaCurrentLimit.__call__", "freegs/coil.py:Coil.area", "freegs/shaped_coil.py:ShapedCoil.area", "freegs/filament_coil.py:FilamentCoil.area"]}
{"id": "C123", "title": "Coils are found by label and can be switched", "statement": "machine[label] and circuit[label] give the first coil with the label and KeyError if there is none, getCurrents gives the current of the last one, and switching control of one coil changes the control vector only there.", "quantifier": "all machines and labels, repeated labels included", "why_tests_cant": "all machines and labels", "anchors": ["freegs/machine.py:Machine.__getitem__", "freegs/machine.py:Circuit.__getitem__", "freegs/machine.py:Machine.getCurrents", "freegs/machine.py:Circuit.control"]}
{"id": "C124", "title": "The field of a machine is the difference quotient of its flux", "statement": "Br and Bz of a machine of coils with Green's functions are the central differences of its flux, so the differenced field is exactly divergence free.", "quantifier": "all machines and points", "why_tests_cant": "exact identity for all points", "anchors": ["freegs/gradshafranov.py:GreensBr", "freegs/gradshafranov.py:GreensBz", "freegs/machine.py:Machine.Br"]}
{"id": "C125", "title": "Forces do not depend on stale member currents", "statement": "The forces given by getForces are those of the currents of the circuits, whatever is stored in the coils inside the circuits before the call.", "quantifier": "all machines and all stored currents", "why_tests_cant": "depends on the order of calls", "anchors": ["freegs/machine.py:Machine.getForces", "freegs/machine.py:Circuit.getForces", "freegs/coil.py:Coil.getForces"]}
{"id": "C126", "title": "Measurements can be taken and printed for every machine", "statement": "takeMeasurements gives every sensor the value it would have alone, and printMeasurements prints all of them, for machines with sensors switched off and machines without sensors too.", "quantifier": "all machines, sensors and plasmas", "why_tests_cant": "all combinations of sensors", "anchors": ["freegs/machine.py:Machine.takeMeasurements", "freegs/machine.py:Machine.printMeasurements"]}
{"id": "C127", "title": "The cells of a Rogowski sensor tile the domain", "statement": "The cells whose overlap with the sensor is measured cover every point of the domain once, so a sensor around the whole domain measures the total plasma current and all coil currents inside.", "quantifier": "all grids and current densities", "why_tests_cant": "all grids", "anchors": ["freegs/machine.py:RogowskiSensor.get_measure"]}
{"id": "C128", "title": "Bounded flux matching stays within its limits", "statement": "ConstrainPsi2DAdvanced and ConstrainPsiNorm2DAdvanced leave every controlled coil within its limits, whichever way round these are given, and change nothing else; too few limits are reported before anything changes.", "quantifier": "all machines, limits and objectives, for any optimiser that respects bounds", "why_tests_cant": "all limits and starting currents, including ones outside the limits", "anchors": ["freegs/control.py:ConstrainPsi2DAdvanced.__call__", "freegs/control.py:ConstrainPsiNorm2DAdvanced.__call__"]}
{"id": "C129", "title": "Machines can be compared", "statement": "machine == other gives True or False for any two machines, and the same whichever is on the left.", "quantifier": "all machines with any coils, labels and walls", "why_tests_cant": "all combinations of classes and labels", "anchors": ["freegs/machine.py:Machine.__eq__", "freegs/machine.py:Circuit.__eq__", "freegs/machine.py:Wall.__eq__", "freegs/coil.py:Coil.__eq__", "freegs/shaped_coil.py:ShapedCoil.__eq__", "freegs/multi_coil.py:MultiCoil.__eq__"]}
{"id": "C130", "title": "Equal machines are interchangeable", "statement": "Machines that compare equal have the same magnetic field everywhere and the same forces.", "quantifier": "all machines, points and Green's functions", "why_tests_cant": "all pairs of machines", "anchors": ["freegs/machine.py:Machine.__eq__", "freegs/coil.py:Coil.__eq__", "freegs/multi_coil.py:MultiCoil.__eq__"]}
{"id": "C131", "title": "Equality ignores the order of coils and nothing else", "statement": "A machine with distinct labels is equal to every reordering of itself; equal machines have the same labels with equal coils, and walls that agree within the tolerances of numpy.", "quantifier": "all machines and permutations", "why_tests_cant": "all permutations", "anchors": ["freegs/machine.py:Machine.__eq__", "freegs/machine.py:Wall.__eq__"]}
{"id": "C132", "title": "The flux follows coils moved by the optimiser", "statement": "Controls of coil positions move the coil they name; every candidate is then scored with fresh Green's functions, a failed solve counting as infinitely bad; and eq.psi() agrees with eq.psiRZ() after a coil has been moved.", "quantifier": "all machines, controls, solvers and measures", "why_tests_cant": "all machines and solver outcomes", "anchors": ["freegs/optimise.py:optimise", "freegs/optimise.py:CoilRadius.set", "freegs/optimise.py:CoilHeight.set", "freegs/equilibrium.py:Equilibrium.psi"]}
{"id": "C133", "title": "Measures of currents and forces", "statement": "max_abs_coil_current is the largest current of the machine and max_coil_force the largest force on a coil, for every machine, with the force of the plasma.", "quantifier": "all machines and Green's functions", "why_tests_cant": "all machines, with circuits and solenoids", "anchors": ["freegs/optimise.py:max_abs_coil_current", "freegs/optimise.py:max_coil_force"]}
{"id": "C134", "title": "Moving a MultiCoil moves that coil and nothing else", "statement": "Assigning R or Z of a MultiCoil moves all its filaments by the change of the centre, leaves other coils and the caller's lists alone, and works for every sequence the constructor accepts.", "quantifier": "all heaps, coils and positions", "why_tests_cant": "sharing of lists between coils, sequences of every kind", "anchors": ["freegs/multi_coil.py:MultiCoil.__init__", "freegs/multi_coil.py:MultiCoil.R", "freegs/multi_coil.py:MultiCoil.Z"]}
{"id": "C135", "title": "Automatic placing of filaments", "statement": "FilamentCoil(shape=..., Nfils=N) ends for every shape with interior, and makes a coil of about N filaments, at least one, all inside the shape.", "quantifier": "all shapes, N and interior tests", "why_tests_cant": "all polygons; the loop has no bound", "anchors": ["freegs/filament_coil.py:populate_with_fils", "freegs/filament_coil.py:FilamentCoil.__init__"]}
{"id": "C136", "title": "A loaded machine equals the saved one", "statement": "The machine read back from a file compares equal, both ways, with the machine that was written; and machines that compare equal after a round trip have their coils in the same places.", "quantifier": "all machines, equilibria and files", "why_tests_cant": "all coil kinds, labels and histories of moves", "anchors": ["freegs/dump.py:OutputFile.write_equilibrium", "freegs/dump.py:OutputFile.read_equilibrium", "freegs/machine.py:Machine.__eq__", "freegs/shaped_coil.py:ShapedCoil.__eq__"]}
{"id": "C137", "title": "The predefined machines are well formed", "statement": "Every predefined machine has distinct labels, in the machine and in each circuit, so that cached and direct flux agree after any history of currents; it starts without currents and field, with all coils under control except for the solenoid of MASTU; and its shaped coils can be triangulated with conductors at positive radii.", "quantifier": "all predefined machines, histories, points and Green's functions", "why_tests_cant": "all histories of currents and control flags", "anchors": ["freegs/machine.py:TestTokamak", "freegs/machine.py:DIIID", "freegs/machine.py:MAST", "freegs/machine.py:TCV", "freegs/machine.py:MASTU"]}
{"id": "C138", "title": "The predefined machines are up-down symmetric", "statement": "With equal currents in coils that are mirror images, flux and vertical field of MAST, MAST_sym, TCV, MASTU_simple, MASTU and TestTokamak are even in Z and the radial field is odd; circuits with multiplier -1 alone give the opposite parity; paired sensors read equal or opposite values.", "quantifier": "all currents and points, all elliptic integral functions", "why_tests_cant": "all currents and all points of the plane", "anchors": ["freegs/machine.py:MAST_sym", "freegs/machine.py:MAST", "freegs/machine.py:TCV", "freegs/machine.py:MASTU_simple", "freegs/machine.py:MASTU", "freegs/machine.py:TestTokamak", "freegs/machine.py:TestTokamakSensor"]}
{"id": "C139", "title": "The two descriptions of MAST-U carry the same turns", "statement": "A circuit of MASTU and the circuit of the same name of MASTU_simple carry the same amp-turns for the same current.", "quantifier": "all circuits and currents", "why_tests_cant": "the numbers are never compared", "anchors": ["freegs/machine.py:MASTU_simple", "freegs/machine.py:MASTU"]}
{"id": "C140", "title": "Walls of the predefined machines", "statement": "The wall of a predefined machine is a simple polygon, mirror symmetric for the MAST-U machines, with limit points all round it for every number of limit points.", "quantifier": "all points of the wall, all numbers of limit points", "why_tests_cant": "all points of the closing side", "anchors": ["freegs/machine.py:MASTU_simple", "freegs/machine.py:MASTU", "freegs/machine.py:Machine.generate_limit_points"]}
{"id": "C141", "title": "The predefined machines can be saved", "statement": "Every predefined machine can be written to a file with any currents, and comes back with the same coils in the same order.", "quantifier": "all predefined machines and currents", "why_tests_cant": "all currents", "anchors": ["freegs/machine.py:MASTU", "freegs/machine.py:DIIID", "freegs/machine.py:MAST", "freegs/dump.py:OutputFile.write_equilibrium"]}
{"id": "C142", "title": "Effective elongation and Shafranov shift", "statement": "The effective elongation is the volume divided by that of the circular torus with the same radii, hence b/a for an elliptical torus; the Shafranov shift is the vector from the geometric to the magnetic axis and does not change when both move.", "quantifier": "all boundaries, volumes and axes", "why_tests_cant": "all boundaries", "anchors": ["freegs/equilibrium.py:Equilibrium.effectiveElongation", "freegs/equilibrium.py:Equilibrium.shafranovShift"]}
{"id": "C143", "title": "Toroidal field and what is derived from it", "statement": "R Btor is f(psinorm) in the core, the vacuum value outside, and between the two elsewhere; Btot combines it with the poloidal field; betaN is beta in percent times a Bt / I in MA; qcyl is 2 pi B a^2 (1 + k^2) / 2 / (mu0 I R0); poloidalBeta2 counts the pressure inside the mask only.", "quantifier": "all equilibria, profiles, masks and points", "why_tests_cant": "all points, profiles and masks", "anchors": ["freegs/equilibrium.py:Equilibrium.Btor", "freegs/equilibrium.py:Equilibrium.Btot", "freegs/equilibrium.py:Equilibrium.betaN", "freegs/equilibrium.py:Equilibrium.qcyl", "freegs/equilibrium.py:Equilibrium.poloidalBeta2"]}
{"id": "C144", "title": "The profile of the safety factor", "statement": "Without argument q is returned at k/(n+1), k = 1..n; values at the nodes of the inner grid do not depend on whether other values need extrapolation; every value is the loop integral with f at its own normalised flux, around points which do not depend on f.", "quantifier": "all equilibria, profiles, interpolations and lists of fluxes", "why_tests_cant": "all grids and fluxes", "anchors": ["freegs/equilibrium.py:Equilibrium.q", "freegs/critical.py:find_safety"]}
{"id": "C145", "title": "A flux fit sets the currents it found", "statement": "After a fit of the flux the controlled coils carry the currents with which the optimiser stopped (within the limits given to the Advanced classes, in whichever order they are written), whatever it tried before; the other coils, the plasma flux, the grid and the profiles are as they were.", "quantifier": "all equilibria, targets, weights, limits and optimisers", "why_tests_cant": "all strategies of the optimiser", "anchors": ["freegs/control.py:ConstrainPsi2D", "freegs/control.py:ConstrainPsiNorm2D", "freegs/control.py:ConstrainPsi2DAdvanced", "freegs/control.py:ConstrainPsiNorm2DAdvanced"]}
{"id": "C146", "title": "The residual of a flux fit is a function of the currents", "statement": "The value given to the optimiser for trial currents does not depend on the trials made before.", "quantifier": "all equilibria, targets, weights, trial currents and sequences of earlier trials", "why_tests_cant": "all sequences of trials", "anchors": ["freegs/control.py:ConstrainPsi2D.psi_difference", "freegs/control.py:ConstrainPsiNorm2D.psinorm_difference", "freegs/control.py:ConstrainPsi2DAdvanced.psi_difference", "freegs/control.py:ConstrainPsiNorm2DAdvanced.psinorm_difference"]}
{"id": "C147", "title": "Boundary attributes after a flux fit", "statement": "After a fit psi_axis, psi_bndry and mask of the equilibrium are those of its flux with the currents just set.", "quantifier": "all equilibria, targets, weights and optimisers", "why_tests_cant": "all strategies of the optimiser", "anchors": ["freegs/control.py:ConstrainPsi2D.__call__", "freegs/control.py:ConstrainPsiNorm2D.__call__", "freegs/equilibrium.py:Equilibrium._updateBoundaryPsi"]}
{"id": "C148", "title": "The equilibrium read from a G-EQDSK file", "statement": "If geqdsk.read returns, the machine is the one given to it except for the currents of controlled coils (within current_bounds, in whichever order they are written); the equilibrium is the result of a solve with the limiter checked that changed the flux by less than the tolerance; and if its flux has an X-point its control system holds the X-points and pairs each of ntheta separatrix points with the first of them.", "quantifier": "all machines, files, profiles, masks, bounds, tolerances, optimisers and equilibrium solvers", "why_tests_cant": "all strategies of the optimiser and numbers of Picard iterations", "anchors": ["freegs/geqdsk.py:read", "freegs/picard.py:solve", "freegs/control.py:ConstrainPsiNorm2DAdvanced", "freegs/critical.py:find_separatrix"]}
{"id": "C149", "title": "The options of geqdsk.read", "statement": "fit_sol, current_bounds and maxits can be combined and each has the effect documented; a file whose flux has no X-point can be read; the control system left in the equilibrium can be plotted.", "quantifier": "all machines, files, options and optimisers", "why_tests_cant": "combinations of options nobody tried", "anchors": ["freegs/geqdsk.py:read", "freegs/control.py:ConstrainPsi2DAdvanced", "freegs/plotting.py:plotConstraints"]}
{"id": "C150", "title": "DivGeo files hold the grid and the flux of the equilibrium", "statement": "divgeo.write writes the R and Z coordinates of the equilibrium's grid, the total poloidal flux at every grid point minus its value at the plasma boundary (R index fastest), the flux between axis and boundary as psib, and the vacuum toroidal field at the reference radius of the machine; it succeeds whenever the G-EQDSK data can be made and the grid has at least two points each way.", "quantifier": "all equilibria, machines, grids and positions of the grid, any O- and X-points given or found", "why_tests_cant": "Tests do not write DivGeo files; the coordinates are rebuilt from rleft, rdim, zmid and zdim instead of being taken from the grid, and the flux is shifted twice.", "anchors": ["freegs/_divgeo.py:write", "freegs/divgeo.py:write", "freegs/geqdsk.py:write"]}
{"id": "C151", "title": "Wall intersection measure", "statement": "intersectsWall is true exactly when an edge of the closed separatrix polygon (360 points) crosses an edge of the closed wall at inner points of both with |cross product| >= 1e-6, and no_wall_intersection is then infinite and otherwise 0; a plasma with all boundary points strictly inside a convex wall costs 0.", "quantifier": "all equilibria with a separatrix, all walls", "why_tests_cant": "Tests use one wall and one plasma; a plasma that surrounds the whole wall, or a wall with very short edges, is not tried.", "anchors": ["freegs/equilibrium.py:Equilibrium.intersectsWall", "freegs/optimise.py:no_wall_intersection", "freegs/polygons.py:intersect"]}
{"id": "C152", "title": "A plasma outside the vessel is penalised", "statement": "no_wall_intersection is infinite for every plasma that is not inside the wall.", "quantifier": "all equilibria with a separatrix, all walls", "why_tests_cant": "a plasma that surrounds the whole wall, or a wall with very short edges, is not tried in tests", "anchors": ["freegs/equilibrium.py:Equilibrium.intersectsWall", "freegs/optimise.py:no_wall_intersection", "freegs/polygons.py:intersect"]}
{"id": "C153", "title": "Green's function is the flux of a current loop", "statement": "With the complete elliptic integrals defined by their integrals, Greens(Rc,Zc,R,Z) is R times the azimuthal vector potential of a unit current in a circle of radius Rc at height Zc by the law of Biot and Savart, wherever the parameter k^2 is not clipped; so the flux of a machine is the sum of the Biot-Savart fluxes of its filaments, and the plasma flux set on the boundary is the Romberg integral of Biot-Savart fluxes.", "quantifier": "all loops and field points with distance more than 1e-5 of the largest distance to the loop; all machines without PreCalcCoils; all grids and currents", "why_tests_cant": "Tests compare with numbers the same formula produced; no finite number of points establishes an identity between elliptic integrals and the line integral.", "anchors": ["freegs/gradshafranov.py:Greens", "freegs/machine.py:Machine.psi", "freegs/boundary.py:freeBoundary"]}
{"id": "C154", "title": "The flux of the coils satisfies the vacuum equation", "statement": "The flux of a loop, and of every machine, has a Grad-Shafranov operator (R d/dR (1/R dpsi/dR) + d2psi/dZ2 exists) equal to zero at every point away from the filaments, so that coils contribute no current density inside the plasma domain.", "quantifier": "all machines without PreCalcCoils, all currents, all points away from the filaments", "why_tests_cant": "a test can only take finite differences at sample points", "anchors": ["freegs/gradshafranov.py:Greens", "freegs/machine.py:Machine.psi"]}
{"id": "C155", "title": "Green's function is positive and falls with height", "statement": "Greens is positive for positive radii, including where its argument is clipped, and does not increase with the distance from the plane of the loop (strictly decreasing where not clipped); hence a plasma current of one sign gives flux of that sign on the whole boundary.", "quantifier": "all loops, field points and current densities", "why_tests_cant": "tests look at a few points, none where k^2 is clipped", "anchors": ["freegs/gradshafranov.py:Greens", "freegs/boundary.py:freeBoundary"]}
{"id": "C156", "title": "Like currents attract", "statement": "The radial field of a loop with positive current points outwards above the loop and inwards below it, for every finite difference step; in a machine of plain coils the vertical force on a coil is towards the others if all of them carry current of the same sign and lie on one side, and away from them for opposite currents.", "quantifier": "all machines of plain coils, all positions and currents", "why_tests_cant": "signs of forces are checked for no configuration or for one", "anchors": ["freegs/gradshafranov.py:GreensBr", "freegs/coil.py:Coil.getForces", "freegs/machine.py:Machine.getForces"]}
{"id": "C157", "title": "The field formulae approximate the field of the flux", "statement": "As the step eps goes to zero GreensBr tends to -(1/R) dpsi/dZ and GreensBz to (1/R) dpsi/dR of the Biot-Savart flux psi of the loop.", "quantifier": "all loops and all points away from them", "why_tests_cant": "a limit cannot be tested", "anchors": ["freegs/gradshafranov.py:GreensBr", "freegs/gradshafranov.py:GreensBz"]}
{"id": "C158", "title": "Points of the surfaces traced for the safety factor", "statement": "find_safety finds the point of a surface at angle theta on the segment from the axis to (Raxis + ptp(R) sin theta, Zaxis + ptp(Z) cos theta), inside the domain, and at the first crossing of the normalised flux along it; one point per angle, for every angle, with no exception.", "quantifier": "all domains, axes inside them, flux functions, angle grids and flux values", "why_tests_cant": "no test evaluates q", "anchors": ["freegs/critical.py:find_safety", "freegs/critical.py:find_psisurface"]}
{"id": "C159", "title": "Safety factor rays are at the angles of the poloidal grid", "statement": "The rays find_safety traces are at the angles of its poloidal grid, which has been shifted so that no angle is the angle of the X-point.", "quantifier": "all domains, axes and X-points", "why_tests_cant": "no test evaluates q; the angles go wrong only where a ray passes near the X-point", "anchors": ["freegs/critical.py:find_safety"]}
{"id": "C160", "title": "Residuals of the flux fits", "statement": "ConstrainPsi2D.psi_difference is the weighted difference of flux and target with their weighted means taken away, point by point on the grid; ConstrainPsiNorm2D's is that of the normalised flux with the axis and boundary found for the trial currents; the advanced versions are the sums of squares over the grid (without the mean of the target taken away). The trial currents are left in the machine.", "quantifier": "all equilibria, grids, targets, weights and trial currents", "why_tests_cant": "no test fits a two-dimensional flux; a transposed or misaligned residual is still zero for the exact currents", "anchors": ["freegs/control.py:ConstrainPsi2D.psi_difference", "freegs/control.py:ConstrainPsiNorm2D.psinorm_difference", "freegs/control.py:ConstrainPsi2DAdvanced.psi_difference", "freegs/control.py:ConstrainPsiNorm2DAdvanced.psinorm_difference"]}
{"id": "C161", "title": "Elementary bounds of the Green's function and the field near the axis", "statement": "Greens(a,h,R,Z) is between mu0 a^2 R^2 / (4 d^3) with d the largest and with d the smallest distance from the loop; so at R = eps the vertical field GreensBz is the field mu0 a^2 / (2 rho^3) on the axis up to a change of the distance rho by 2 eps.", "quantifier": "all loops, all steps eps and all points where k^2 is not clipped", "why_tests_cant": "test_coil_axis compares two heights for one coil", "anchors": ["freegs/gradshafranov.py:Greens", "freegs/gradshafranov.py:GreensBz"]}
{"id": "C162", "title": "Green's functions are numbers", "statement": "For positive radius of loop and field point Greens and GreensBr never give nan, and neither does GreensBz at radii of at least eps; the values are those over the reals.", "quantifier": "all loops, field points and steps", "why_tests_cant": "nan appears only at points the tests leave out", "anchors": ["freegs/gradshafranov.py:Greens", "freegs/gradshafranov.py:GreensBz", "freegs/gradshafranov.py:GreensBr"]}
{"id": "C163", "title": "The vertical field is a number at every positive radius", "statement": "GreensBz gives a number at every point off the axis, as Greens and GreensBr do.", "quantifier": "all loops and all points with R > 0", "why_tests_cant": "test_coil_axis evaluates Br at R = 0.0001 but Bz only at R = 0.001, exactly the step of the difference", "anchors": ["freegs/gradshafranov.py:GreensBz"]}
{"id": "C164", "title": "Flux fits with an offset in the target", "statement": "Currents whose flux is the target up to a constant leave a zero residual in ConstrainPsi2D; with weights that are 0 or 1, or all equal (all that geqdsk.read uses), the sum of squares of ConstrainPsi2DAdvanced is that of ConstrainPsi2D plus a number independent of the currents, so both prefer the same currents.", "quantifier": "all equilibria, targets, offsets, currents, and weights with w^2 = k w", "why_tests_cant": "tests do not fit with bounds; the two classes treat the mean of the target differently", "anchors": ["freegs/control.py:ConstrainPsi2D.psi_difference", "freegs/control.py:ConstrainPsi2DAdvanced.psi_difference"]}
{"id": "C165", "title": "The bounded flux fit reproduces an exact target", "statement": "Currents within the bounds whose flux is exactly the target minimise the sum of squares of ConstrainPsi2DAdvanced, for all weights.", "quantifier": "all equilibria, targets and weights", "why_tests_cant": "tests do not fit with bounds, nor with weights other than a mask", "anchors": ["freegs/control.py:ConstrainPsi2DAdvanced.psi_difference"]}
{"id": "C166", "title": "Plasma flux of a current of one sign", "statement": "solve with the second order equation and a current density that is nowhere negative gives a plasma flux that is nowhere negative, with the fixed and the free boundary; with the free boundary and current at some inner point the flux is positive on the whole grid, corners included.", "quantifier": "all domains off the axis, grids, machines and current densities", "why_tests_cant": "the sign of plasma_psi is never checked; O-point search and Ip depend on it", "anchors": ["freegs/equilibrium.py:Equilibrium.solve", "freegs/boundary.py:freeBoundary", "freegs/gradshafranov.py:GSsparse", "freegs/gradshafranov.py:Greens"]}
{"id": "C167", "title": "Plasma flux linear in the current density", "statement": "If the current density of one solve is a J1 + b J2 for the densities of two others on the same grid with the same boundary condition, then its plasma flux is a psi1 + b psi2 at every grid point, whatever the profiles, coils and previous flux.", "quantifier": "all grids, solvers that solve their systems, machines, previous states and coefficients, fixed and free boundary", "why_tests_cant": "tests solve once per case; leftover state from a previous solve would break it silently", "anchors": ["freegs/equilibrium.py:Equilibrium.solve", "freegs/equilibrium.py:Equilibrium.callSolver", "freegs/boundary.py:freeBoundary", "freegs/boundary.py:fixedBoundary"]}
{"id": "C168", "title": "Up-down symmetric current gives up-down symmetric flux", "statement": "If the current density is unchanged when the grid is turned upside down then so is the plasma flux found by solve, at every grid point.", "quantifier": "all grids, domains (also not centred on Z=0), fixed and free boundary, any elliptic integrals", "why_tests_cant": "an index slip between the top and the bottom edge changes only a few edge values", "anchors": ["freegs/equilibrium.py:Equilibrium.solve", "freegs/boundary.py:freeBoundary", "freegs/gradshafranov.py:GSsparse"]}
{"id": "C169", "title": "Error of the Romberg rule along a line", "statement": "With 2^k+1 samples at distance dx of a function with Lipschitz constant K on the sampled interval of length L, romb is within 3/4 K L dx of the integral; and within 2 L e for any integrable function that is within e of some polynomial of degree at most 2k+1.", "quantifier": "all k, steps, intervals, Lipschitz functions and functions near polynomials", "why_tests_cant": "tests compare single integrals with a tolerance; the rule subtracts large multiples, so an error bound is not obvious", "anchors": ["freegs/equilibrium.py:Equilibrium.plasmaVolume", "freegs/boundary.py:freeBoundaryHagenow"]}
{"id": "C170", "title": "Error of the area integrals on the grid", "statement": "For a function with Lipschitz constants KR, KZ on the domain, romb(romb(.)) times dR dZ is within 3/4 (Rmax-Rmin)(Zmax-Zmin)(KR dR + KZ dZ) of the double integral over the domain.", "quantifier": "all grids of 2^kx+1 by 2^ky+1 points, all domains and Lipschitz functions", "why_tests_cant": "plasma current, betas, stored energy and the free boundary all use the rule; no test refines the grid", "anchors": ["freegs/equilibrium.py:Equilibrium.solve", "freegs/equilibrium.py:Equilibrium.plasmaVolume", "freegs/jtor.py:ConstrainPaxisIp.Jtor", "freegs/boundary.py:freeBoundary"]}
{"id": "C171", "title": "The solve is stable", "statement": "Two solves on the same grid with the second order equation: if the current densities differ by at most D and the edge values by at most d (0 for the fixed boundary), then the plasma fluxes differ by at most d + mu0 Rmax (Zmax-Zmin)^2/8 D at every grid point, whatever the number of points.", "quantifier": "all domains, grids, machines, previous states and current densities", "why_tests_cant": "tests do not perturb the input; the bound is independent of the grid", "anchors": ["freegs/equilibrium.py:Equilibrium.solve", "freegs/gradshafranov.py:GSsparse", "freegs/boundary.py:fixedBoundary"]}
{"id": "C172", "title": "Error of a solve", "statement": "If psi has bounded third and fourth derivatives and satisfies the Grad-Shafranov equation with a current density that the one used matches within D, and the edge values match psi within d, the plasma flux after solve is within d + (Zmax-Zmin)^2/8 (truncation bound + mu0 Rmax D) of psi at every grid point.", "quantifier": "all smooth fluxes, domains with Rmin > 0, grids, current densities", "why_tests_cant": "tests compare with no analytic solution of the Grad-Shafranov equation", "anchors": ["freegs/equilibrium.py:Equilibrium.solve", "freegs/equilibrium.py:Equilibrium.callSolver", "freegs/gradshafranov.py:GSsparse"]}
{"id": "C173", "title": "Fourth-order operator has fourth-order truncation error for every smooth flux", "statement": "On every grid with at least 6 points per side and Rmin > 0, the matrix of GSsparse4thOrder applied to the samples of a flux with bounded sixth derivatives (fifth and sixth in R, sixth in Z, bound M) differs at every interior point from the Grad-Shafranov operator by at most M (469/432 (dR^4 + dZ^4) + 19/60 dR^4/Rmin), including the rows next to the boundary that use one-sided stencils; two points away from the boundary the constants are 1/54, 1/54 and 1/18.", "quantifier": "all fluxes six times differentiable for R > 0, all domains with Rmin > 0, all nx, ny >= 6, all interior points", "why_tests_cant": "the suite has no convergence test of the operator; a wrong weight in a corner stencil only shows up as a slower rate of convergence", "anchors": ["freegs/gradshafranov.py:GSsparse4thOrder"]}
{"id": "C174", "title": "After a solve the axis, boundary flux and core mask are those of the new flux", "statement": "When Equilibrium.solve returns for an equilibrium without limiter check (or without wall) and the new total flux has an O-point, psi_axis is the flux of the first O-point, magneticAxis, Rmagnetic and Zmagnetic return that point, psi_bndry is the flux of the first X-point if there is one, and the mask is 0 or 1 everywhere, 1 only where psiN < 1 or at the grid point nearest the axis; psiN is the total flux normalised with exactly these values. Without X-point the mask is None and psi_bndry is None, or the corner flux for the fixed boundary. At every grid point psiNRZ agrees with psiN after any history of current and switch changes since the flux cache was built.", "quantifier": "all equilibria, profiles, Jtor, starting fluxes, solvers and splines for which solve returns; all histories of coil changes; all grid points", "why_tests_cant": "a test looks at a converged equilibrium; attributes left from the flux before the last solve differ by less than its tolerance", "anchors": ["freegs/equilibrium.py:Equilibrium.solve", "freegs/equilibrium.py:Equilibrium._updatePlasmaPsi", "freegs/equilibrium.py:Equilibrium._updateBoundaryPsi", "freegs/equilibrium.py:Equilibrium.psiN", "freegs/equilibrium.py:Equilibrium.psiNRZ", "freegs/equilibrium.py:Equilibrium.magneticAxis", "freegs/equilibrium.py:Equilibrium.Rmagnetic", "freegs/equilibrium.py:Equilibrium.Zmagnetic"]}
{"id": "C175", "title": "Boundary attributes always belong to the current flux", "statement": "After every Equilibrium.solve that returns, psi_axis and psi_bndry are values of the flux found by that solve. (REFUTED: if the new flux has no O-point the attributes keep the values of the flux before.)", "quantifier": "all equilibria and solves that return", "why_tests_cant": "the test suite never solves into a flux without O-point; nothing is raised, the normalised flux is just wrong", "anchors": ["freegs/equilibrium.py:Equilibrium._updateBoundaryPsi", "freegs/equilibrium.py:Equilibrium.solve"]}
{"id": "C176", "title": "setSolverVcycle keeps the discretisation order of the equilibrium", "statement": "An equilibrium made with order=4 still solves the fourth-order equations after setSolverVcycle. (REFUTED: setSolverVcycle always builds the second-order matrix, the order attribute is left at 4.)", "quantifier": "all equilibria, numbers of levels, cycles and iterations", "why_tests_cant": "the one test checks that the solver is another object; both discretisations give similar fluxes", "anchors": ["freegs/equilibrium.py:Equilibrium.setSolverVcycle"]}
{"id": "C177", "title": "Picard iteration converges for contracting solves, at a known rate", "statement": "If on a family of equilibrium states eq.solve succeeds and shrinks differences of the starting flux by a factor q < 1 (and the boundary flux depends on it with a constant L), then picard.solve with blend in [0,1) returns after at most n+1 solves for every n with c^n D < atol and L(1-blend)c^(n-1)D < atol, where c = (1-blend)q + blend and D is the first change; it returns eventually for every atol > 0. The flux returned is within q/(1-q) times the last change of every solution, and the last change is below atol or below rtol times the range of the flux.", "quantifier": "all states, operations, tolerances, blending factors below 1, grids", "why_tests_cant": "tests show convergence for single equilibria; a wrong blending formula or convergence test only changes the rate or the error of the result", "anchors": ["freegs/picard.py:solve"]}
{"id": "C178", "title": "Fixed boundary iteration converges for weakly nonlinear profiles", "statement": "For an equilibrium with fixed boundary, second-order matrix and exact linear solver, eq.solve contracts with q = mu0 Rmax (Zmax-Zmin)^2/8 K when the current density of the profile changes by at most K times the change of flux; so with q < 1 the Picard iteration converges for every blend in [0,1) and every atol > 0.", "quantifier": "all domains, grids, machines, profiles with a Lipschitz current density, starting fluxes", "why_tests_cant": "no test can try all profiles; convergence near the limit depends on the linear solve and the iteration together", "anchors": ["freegs/picard.py:solve", "freegs/equilibrium.py:Equilibrium.solve"]}
{"id": "C179", "title": "The psi_bndry argument of picard.solve is honoured", "statement": "The boundary flux given to picard.solve as psi_bndry is passed to every eq.solve. (Holds without limiter check; REFUTED with check_limited=True, where eq.psi_bndry is passed instead.)", "quantifier": "all equilibria, options and numbers of iterations", "why_tests_cant": "no test gives psi_bndry together with check_limited; nothing is raised, the argument just has no effect", "anchors": ["freegs/picard.py:solve"]}
{"id": "C180", "title": "A constant added to the flux changes nothing but the fluxes", "statement": "If the interpolation reproduces constants, adding a constant c to the flux leaves the critical points where they are and adds c to their fluxes; update_boundary gives the same mask, is_limited and limiter point, with c added to psi_axis and psi_bndry, with or without the limiter check; ConstrainPaxisIp, ConstrainBetapIp and profiles given as functions give the same current density, L and Beta0. The core mask is the same for every a psi + c with a not 0.", "quantifier": "all grids, fluxes, constants, interpolations that reproduce constants, machines, profile parameters", "why_tests_cant": "tests use one flux each; an absolute instead of a relative comparison of fluxes would only show for particular constants", "anchors": ["freegs/critical.py:find_critical", "freegs/critical.py:core_mask", "freegs/equilibrium.py:Equilibrium._updateBoundaryPsi", "freegs/jtor.py:ConstrainPaxisIp.Jtor", "freegs/jtor.py:ConstrainBetapIp.Jtor", "freegs/jtor.py:ProfilesPprimeFfprime.Jtor"]}
{"id": "C181", "title": "Reversing all currents reverses the result of a solve", "statement": "Without limiter check, Equilibrium.solve with the currents of all coils, the plasma flux, the profile and the given arrays reversed gives the reversed equilibrium, for every boundary condition and solver that is odd, when no X-point candidate has exactly the flux of an O-point candidate. ConstrainPaxisIp and ConstrainBetapIp are reversed by reversing Ip. The critical points stay where they are.", "quantifier": "all equilibria, machines, boundary conditions, profiles, fluxes satisfying the separation condition", "why_tests_cant": "the tests use one sign of the plasma current; a missing abs() or a one-sided comparison only shows for the other", "anchors": ["freegs/equilibrium.py:Equilibrium.solve", "freegs/critical.py:find_critical", "freegs/jtor.py:ConstrainPaxisIp.Jtor", "freegs/jtor.py:ConstrainBetapIp.Jtor", "freegs/boundary.py:freeBoundary", "freegs/boundary.py:freeBoundaryHagenow"]}
{"id": "C182", "title": "Reversing all currents reverses the whole Picard iteration", "statement": "Without limiter check, when picard.solve returns, the same call on the reversed equilibrium with the reversed profile, an odd control system and reversed psi_bndry returns after the same number of solves, with the same convergence history, and leaves the reversed equilibrium.", "quantifier": "all equilibria, profiles, control systems, options, grids", "why_tests_cant": "as above; the iteration compares changes of flux, which must not depend on the sign", "anchors": ["freegs/picard.py:solve", "freegs/equilibrium.py:Equilibrium.solve"]}
{"id": "C183", "title": "Reversing the flux reverses the boundary flux when the limiter is checked", "statement": "With check_limited, reversing the flux reverses psi_bndry and leaves is_limited unchanged. (REFUTED: the limiter flux and the boundary flux are maxima, so a plasma with the axis at the minimum is bounded by the other of X-point and limiter.)", "quantifier": "all equilibria with a wall", "why_tests_cant": "the one test with a limiter uses one sign of the current", "anchors": ["freegs/equilibrium.py:Equilibrium._updateBoundaryPsi"]}
{"id": "C184", "title": "The critical points do not depend on the unit of the flux", "statement": "find_critical gives the same places for psi and k psi, k > 0. (REFUTED: Newton's iteration stops when Br^2 + Bz^2 < 1e-6, an absolute threshold, so for small fluxes the nearest grid point is returned.)", "quantifier": "all grids, fluxes and factors k > 0", "why_tests_cant": "tests use fluxes of order one", "anchors": ["freegs/critical.py:find_critical"]}
{"id": "C185", "title": "What picard.solve returns with the constrained profiles", "statement": "When picard.solve returns with ConstrainPaxisIp or ConstrainBetapIp: (1) the returned total flux agrees within atol or rtol (relative to its range) with a flux q; the stored current density is R p'(psiN) + ff'(psiN)/(mu0 R) inside the core of q and 0 outside, with the profile object left in the equilibrium; with the second-order direct solver the returned plasma flux satisfies the discrete Grad-Shafranov equation for exactly this current density. (2) plasmaCurrent is the Romberg integral of the current density and equals Ip exactly, whatever the tolerances, unless the current density is zero at every grid point. (3) With ConstrainPaxisIp the pressure on the axis is exactly paxis and vanishes at the boundary, if L is not 0 and the boundary flux is not the axis flux. The control system may do anything except change the grid, the solver or the parameters of the profile.", "quantifier": "all equilibria, coils, boundary conditions, profile parameters, tolerances, numbers of iterations, control systems that keep grid, solver and profile", "why_tests_cant": "tests look at a few converged equilibria and compare to loose tolerances; that the constraints hold exactly although the flux is only converged to a tolerance is a statement about the order of operations in the loop", "anchors": ["freegs/picard.py:solve", "freegs/equilibrium.py:Equilibrium.solve", "freegs/jtor.py:ConstrainPaxisIp.Jtor", "freegs/jtor.py:ConstrainBetapIp.Jtor"]}
{"id": "C186", "title": "Existence and uniqueness of the discrete equilibrium when the solve contracts", "statement": "When eq.solve contracts (C177: constant q < 1 in the maximum norm over the grid, whatever the state) there is exactly one total flux on the grid that a solve reproduces, and two calls of picard.solve that end by their test, with different starting equilibria, tolerances, blending and iteration limits, return fluxes within q/(1-q) times the sum of their last changes.", "quantifier": "all grids, equilibria, operations satisfying the contraction hypothesis, Picard options with check_limited and wait off", "why_tests_cant": "a test sees that one run stopped; it cannot tell whether another start would have led to another equilibrium", "anchors": ["freegs/picard.py:solve", "freegs/equilibrium.py:Equilibrium.solve"]}
{"id": "C187", "title": "Contraction of the free boundary solve", "statement": "With the free boundary, the second-order operator and an exact direct solver, two solves whose current densities differ by at most D over the grid differ in the plasma flux by at most (B + mu0 Rmax (Zmax-Zmin)^2/8) D, where B bounds the flux at the edge points from a unit current density with |G|.  So with a profile whose current density is Lipschitz in the flux with constant K and (B + mu0 Rmax (Zmax-Zmin)^2/8) K < 1, eq.solve contracts, there is exactly one free-boundary equilibrium flux, and picard.solve ends.", "quantifier": "all grids, machines, Green's functions, profiles and states satisfying the hypotheses, all blending factors in [0,1) and positive tolerances", "why_tests_cant": "convergence for all starts and the size of the constant cannot be seen in single runs", "anchors": ["freegs/picard.py:solve", "freegs/equilibrium.py:Equilibrium.solve", "freegs/boundary.py:freeBoundary"]}
{"id": "C188", "title": "picard.solve returns the fixed-boundary solution of the Grad-Shafranov equation", "statement": "Fixed boundary, second-order operator, exact direct solver, profile Lipschitz in the flux with constant K and q = mu0 Rmax (Zmax-Zmin)^2/8 K < 1.  If psi is a smooth flux with Delta* psi = -mu0 R J, third and fourth derivatives bounded by M, within d of 0 at the edge points, and the profile evaluated on psi gives J to within D inside the grid, then the discrete equilibrium flux and, up to q times the last change, the flux returned by picard.solve are at every grid point within (d + (Zmax-Zmin)^2/8 (truncation + mu0 Rmax D))/(1-q) of psi (plus the flux of the coils); the truncation is M (dR^2/12 + dZ^2/12 + (dR^2/6 + dR^3/24)/Rmin).", "quantifier": "all grids, domains, machines, profiles, smooth solutions, starting equilibria, tolerances and blending factors satisfying the hypotheses", "why_tests_cant": "a test can compare one run on one grid with a known solution; the bound for every grid, start and tolerance needs the stability of the operator, its consistency and the contraction together", "anchors": ["freegs/picard.py:solve", "freegs/equilibrium.py:Equilibrium.solve", "freegs/gradshafranov.py:GSsparse", "freegs/boundary.py:fixedBoundary"]}
{"id": "C189", "title": "picard.solve returns the free-boundary solution of the Grad-Shafranov equation", "statement": "As C188 with the free boundary: if psi is a smooth flux with Delta* psi = -mu0 R J whose value at each edge point is the integral of G J over the domain (the integrand Lipschitz with constants KR, KZ and zero at the edge point itself, as when the plasma stays clear of the edge), the returned flux is within (B D + 3/4 LR LZ (KR dR + KZ dZ) + (Zmax-Zmin)^2/8 (truncation + mu0 Rmax D) + q m)/(1-q) of psi plus the flux of the coils, with q = (B + mu0 Rmax (Zmax-Zmin)^2/8) K < 1 and m the last change.", "quantifier": "all grids, domains, machines, Green's functions, profiles, smooth solutions, starts, tolerances and blending factors satisfying the hypotheses", "why_tests_cant": "the error combines the Romberg rule at every edge point, the finite differences, the profile and the iteration; no single run separates them", "anchors": ["freegs/picard.py:solve", "freegs/equilibrium.py:Equilibrium.solve", "freegs/gradshafranov.py:GSsparse", "freegs/boundary.py:freeBoundary"]}
{"id": "C190", "title": "Combined measures", "statement": "weighted_sum(...) of measures that return numbers is the sum of weight times value, with weight 1 for a bare function, whatever the order of the arguments.  With infinite values (no_wall_intersection) and positive weights for them the sum is +inf exactly when some measure is, and otherwise a number.  The first measure that raises decides the exception.", "quantifier": "all lists of measures and weights, all equilibria", "why_tests_cant": "a test uses one list of measures; order independence and the behaviour with infinite values are statements about all of them", "anchors": ["freegs/optimise.py:weighted_sum"]}
{"id": "C191", "title": "A measure with weight 0 is switched off", "statement": "Adding a measure with weight 0 to weighted_sum does not change the score.  (False for a measure that returns inf: inf*0 is nan, and an optimisation whose starting point scores nan always returns the starting point.)", "quantifier": "all measures, all controls, populations, generations and random numbers", "why_tests_cant": "needs a wall intersection at the starting point together with a zero weight, and the consequence is about every run of the optimiser", "anchors": ["freegs/optimise.py:weighted_sum", "freegs/optimise.py:no_wall_intersection", "freegs/optimiser.py:optimise"]}
{"id": "C192", "title": "Calling pressure and fpol of given profile functions", "statement": "ProfilesPprimeFfprime.pressure and fpol on arrays are the values point by point, the output array is filled with them and one of another length is a ValueError.  Before Jtor has been called an integrated profile raises AttributeError and a given function works.  Without given functions the pressure has the slope pprime and is 0 at the boundary, f^2/2 has the slope ffprime and f is |fvac| there; a given pressure with that slope and boundary value equals the integral.", "quantifier": "all profile functions, fluxes, arguments and output arrays", "why_tests_cant": "the relation between values and slopes is one for all arguments; tests compare a few values", "anchors": ["freegs/jtor.py:ProfilesPprimeFfprime.pressure", "freegs/jtor.py:ProfilesPprimeFfprime.fpol", "freegs/jtor.py:Profile.pressure", "freegs/jtor.py:Profile.fpol"]}
{"id": "C193", "title": "pressure and fpol treat their arguments alike and agree with the current", "statement": "pressure accepts the same arguments as fpol, fills the output array it is given, and returns the pressure whose gradient makes the current.  (False: a list is taken by fpol and refused by pressure; with a given function the output array is not filled and its length not checked; a given pressure is not compared with pprime.)", "quantifier": "all profiles, arguments and output arrays", "why_tests_cant": "the tests only pass numbers and arrays and only profiles without given functions", "anchors": ["freegs/jtor.py:Profile.pressure", "freegs/jtor.py:Profile.fpol", "freegs/jtor.py:ProfilesPprimeFfprime.pressure", "freegs/jtor.py:ProfilesPprimeFfprime.Jtor"]}
{"id": "C194", "title": "Several matrix-free V-cycles", "statement": "smoothMG does ncycle calls of smoothVcycle, those of two calls add up, and for grids that can be halved often enough it succeeds, keeps the edge values when the right hand side is zero there and leaves an exact solution alone.", "quantifier": "all grids, operators LaplacianOp and GSElliptic, starts, right hand sides, numbers of cycles, levels and iterations", "why_tests_cant": "holds for every number of cycles and levels", "anchors": ["freegs/multigrid.py:smoothMG", "freegs/multigrid.py:smoothVcycle"]}
{"id": "C195", "title": "An equilibrium uses the solver it is given", "statement": "After setSolver(f), Equilibrium.solve calls f with the boundary flux as start and with the right hand side -mu0 R J inside and the boundary flux at the edge, and the plasma flux is what f returns.  If f keeps the edge to within d and leaves a residual of at most r, the flux is within d + (Zmax-Zmin)^2/8 r of that of the direct second-order solver.  The solver set last counts and nothing else changes.", "quantifier": "all equilibria, solvers, currents, fixed and free boundary", "why_tests_cant": "the effect of an inexact solver on the flux is a bound over all of them", "anchors": ["freegs/equilibrium.py:Equilibrium.setSolver", "freegs/equilibrium.py:Equilibrium.callSolver", "freegs/equilibrium.py:Equilibrium.solve"]}
{"id": "C196", "title": "picard.solve keeps up-down symmetry", "statement": "If the starting plasma flux, the flux of the coils on the grid and the profile (a mirror-symmetric flux gives a mirror-symmetric current density) are symmetric about the middle of the domain, and the control system keeps the flux of the coils so, then the plasma flux, the total flux and the current density that picard.solve returns are symmetric, with fixed or free boundary. The flux of the coils is symmetric on a domain centred on the midplane if the machine's field is, as for the predefined machines.", "quantifier": "for all grids, machines, profiles, symmetric starting fluxes, tolerances, blending, boundary conditions (fixed, free) and numbers of iterations", "why_tests_cant": "Tests run a few symmetric cases and do not compare the two halves; a stencil, boundary or mask slip that tilts the solution slightly passes them.", "anchors": ["freegs/picard.py:solve", "freegs/equilibrium.py:Equilibrium.solve", "freegs/boundary.py:freeBoundary", "freegs/machine.py:Machine.calcPsiFromGreens"]}
{"id": "C197", "title": "The plasma core and the current density are symmetric for a symmetric flux", "statement": "For a flux that is symmetric about the middle row, core_mask is symmetric if the grid point nearest to the magnetic axis is in the middle row and the blocks around the X-points are symmetric; then the current density of ConstrainPaxisIp, ConstrainBetapIp and ProfilesPprimeFfprime is symmetric.", "quantifier": "for all fluxes, grids, critical points, profile parameters", "why_tests_cant": "The flood fill visits cells in an order that is not symmetric; tests check masks by eye on single cases.", "anchors": ["freegs/critical.py:core_mask", "freegs/jtor.py:ConstrainPaxisIp.Jtor", "freegs/jtor.py:ConstrainBetapIp.Jtor", "freegs/jtor.py:ProfilesPprimeFfprime.Jtor"]}
{"id": "C198", "title": "The control system keeps up-down symmetry", "statement": "Without limits and with gamma not 0, if the controls of the machine come in mirror pairs (a control may be its own mirror image, with either sign), and the field of the machine, the field of the plasma and the set of constraints are symmetric about the midplane, then constrain gives mirror pairs the same change of current (with the sign of the pair) and the field of the coils stays symmetric. In MAST_sym the current of the antisymmetric circuit P6 stays zero.", "quantifier": "for all machines, pairings, Green's functions, plasmas, X-points, isoflux and psi constraints, gamma not 0, every sound inverse and optimiser", "why_tests_cant": "Tests run constrain on a few machines and compare fluxes to a tolerance; a row with the wrong sign or a misplaced current only tilts the result.", "anchors": ["freegs/control.py:constrain.__call__", "freegs/machine.py:Machine.controlAdjust", "freegs/machine.py:MAST_sym"]}
{"id": "C199", "title": "What one call of constrain leaves in the equilibrium", "statement": "A call of constrain on an equilibrium that returns changes the currents of the controlled coils and the stored constraints, and nothing else of the equilibrium. Without limits, if some change y of the control currents meets all the constraints, then after the call the sum of the squares of the X-point fields, isoflux differences and flux differences, evaluated with the methods Br, Bz and psiRZ of the equilibrium, is at most gamma squared times the sum of the squares of y.", "quantifier": "for all equilibria, machines, Green's functions, splines, constraints, every sound inverse and optimiser, all y", "why_tests_cant": "Tests look at one X-point of one machine after the whole solve; the bound with gamma and the untouched rest of the object are never looked at.", "anchors": ["freegs/control.py:constrain.__call__", "freegs/equilibrium.py:Equilibrium.Br", "freegs/equilibrium.py:Equilibrium.psiRZ"]}
{"id": "C200", "title": "The constraints in the equilibrium that picard.solve returns", "statement": "The equilibrium that picard.solve with a constrain object returns has the coil currents of the last call of constrain, made before the last solve; its field differs from the field after that call by the change of the plasma field in the last solve only, and without blending the plasma flux has changed by less than the tolerances. For a machine that can meet the constraints and a spline whose derivatives change by at most L times the change of the values, the field at a wanted X-point is at most abs(gamma) times the norm of the change of the currents plus L/R times the last change of the flux.", "quantifier": "for all equilibria, profiles, constraints without limits, tolerances, numbers of iterations, every sound inverse and optimiser", "why_tests_cant": "Tests check that the solver converges; how far the constraints are missed at return depends on the order of control and solve in the loop and on both tolerances.", "anchors": ["freegs/picard.py:solve", "freegs/control.py:constrain.__call__", "freegs/equilibrium.py:Equilibrium.solve"]}
{"id": "C201", "title": "picard.solve with the control system keeps up-down symmetry", "statement": "With a symmetric machine whose controls come in mirror pairs, symmetric constraints without limits, gamma not 0, a profile and a spline that keep symmetry, a domain centred on the midplane and a symmetric starting flux, the plasma flux, the total flux, the current density and the field of the coils in the equilibrium that picard.solve returns are symmetric about the midplane.", "quantifier": "for all such machines, grids, profiles, constraints, fixed and free boundary, tolerances, numbers of iterations and histories", "why_tests_cant": "Tests compare a few machines to a tolerance; a wrong sign in one row of the control matrix or one coil only tilts the plasma, and vertical instability can amplify it later.", "anchors": ["freegs/picard.py:solve", "freegs/control.py:constrain.__call__", "freegs/machine.py:Machine.controlAdjust", "freegs/boundary.py:freeBoundary"]}
{"id": "C202", "title": "Repeated calls of constrain reach the least squares solution", "statement": "Without limits each call of constrain leaves the sum of the squares of what is missed smaller than before by at least gamma squared times the squared change of the currents. After n calls for the same plasma the constraints are missed by at most what any change y of the currents would leave, plus gamma squared times the square of y over n. With gamma not 0 and at least one constraint the calls succeed any number of times.", "quantifier": "for all machines, Green's functions, plasmas, constraints, gamma, n, y, every sound inverse and optimiser", "why_tests_cant": "Tests call constrain a few times inside a solve; that the regularisation damps the steps and does not bias the limit needs an argument over all n.", "anchors": ["freegs/control.py:constrain.__call__", "freegs/machine.py:Machine.controlAdjust"]}
{"id": "C203", "title": "The order of the constraints does not matter", "statement": "Without limits and with gamma not 0, giving the X-points, the isoflux pairs or the psi values in another order, or exchanging the two points of an isoflux pair, changes neither the currents nor the field that constrain leaves.", "quantifier": "for all machines, plasmas, constraints and permutations of them, every sound inverse and optimiser", "why_tests_cant": "Tests use one order of the constraints.", "anchors": ["freegs/control.py:constrain.__call__"]}
{"id": "C204", "title": "A larger gamma means smaller changes and a worse fit", "statement": "Without limits, of two calls of constrain with the same constraints and abs(gamma) smaller in the first, the second changes the currents by no more (in the sum of squares) and leaves the constraints missed by no less.", "quantifier": "for all machines, plasmas, constraints and pairs of gammas, zero included where the matrix can be inverted", "why_tests_cant": "Tests use one gamma; a weight applied to the wrong block of the system keeps single results plausible.", "anchors": ["freegs/control.py:constrain.__call__"]}
{"id": "C205", "title": "The control system is homogeneous", "statement": "Without limits and with gamma not 0: if the plasma field, all coil currents and the wanted flux values are multiplied by a factor a other than 0, the call of constrain succeeds again, the change of the currents is multiplied by a, and the machine left is the machine left by the first call with all its currents multiplied by a.", "quantifier": "for all machines, circuits included, plasmas, constraints, factors of either sign, every sound inverse and optimiser", "why_tests_cant": "Tests have one sign and one size of the current; a lost sign shows only when the direction of the plasma current is changed.", "anchors": ["freegs/control.py:constrain.__call__", "freegs/machine.py:Machine.controlAdjust", "freegs/machine.py:Circuit"]}
{"id": "C206", "title": "Reversing all currents reverses picard.solve with the control system", "statement": "picard.solve with a constrain object (X-points and isoflux pairs, no limits, gamma not 0), started with the currents of the coils, the plasma flux and the profile reversed, takes the same number of iterations with the same history and returns the reversed equilibrium, coil currents included.", "quantifier": "for all equilibria, machines, profiles that follow the reversal, linear solvers and splines that do, tolerances, numbers of iterations; limiter not checked, and no X-point with exactly the flux of an O-point on the way", "why_tests_cant": "Tests run one direction of the plasma current.", "anchors": ["freegs/picard.py:solve", "freegs/control.py:constrain.__call__", "freegs/equilibrium.py:Equilibrium.solve"]}
{"id": "C207", "title": "picard.solve keeps the limits of the coil currents", "statement": "picard.solve with a constrain object returns a machine with the coils it was given: labels, geometry and control flags are the same, and so are the currents of coils that are not controlled. If coil current limits are given and the bounded optimiser respects the bounds it is given, there is one limit per coil and every controlled coil of the equilibrium returned has a current within its own limits. If a limit of the total current is given and the optimiser satisfies the constraint it is given, the sum of the absolute controlled currents in the equilibrium returned is within the limit.", "quantifier": "for all equilibria, machines, constraints, limits, profiles, linear solvers, splines, optimisers, tolerances and numbers of iterations", "why_tests_cant": "Tests run a solve with limits once at most; that no turn of the loop and no solve in between changes a coil needs an argument over the whole run.", "anchors": ["freegs/picard.py:solve", "freegs/control.py:constrain.__call__", "freegs/machine.py:Machine.controlAdjust", "freegs/equilibrium.py:Equilibrium.solve"]}
{"id": "C208", "title": "Pressure profiles of the constrained classes", "statement": "With 0 < alpha_m and 0 <= alpha_n the pressure of ConstrainPaxisIp at normalised flux x is paxis times the integral of (1 - t^alpha_m)^alpha_n from x to 1 over the same integral from 0 to 1, whatever the plasma current, its direction, Raxis and the flux. The pressure of ConstrainBetapIp is betap times a constant times that integral, and the constant is not negative, and positive if there is poloidal field in the core. For paxis > 0 (betap > 0) the pressure falls strictly from the axis to the edge, is never negative and is 0 at the edge.", "quantifier": "for all exponents, targets, currents of either sign, fluxes, grids and masks; L not 0 and the axis flux different from the boundary flux", "why_tests_cant": "Tests compare a few integrals for one direction of the current; a sign error in the flux difference shows only for the other direction.", "anchors": ["freegs/jtor.py:ConstrainPaxisIp.Jtor", "freegs/jtor.py:ConstrainBetapIp.Jtor", "freegs/jtor.py:Profile.pressure"]}
{"id": "C209", "title": "The table of forces", "statement": "For a machine with different labels whose circuits have different member labels, printForces prints a title and then in the order of the machine one line per coil with the force in kN in the field of the plasma and the other coils, and per circuit a heading and one indented line per member with its force in the field of the plasma and the machine. The number of lines is one more than coils, headings and members. Nothing in the machine changes.", "quantifier": "for all machines, Green's functions, plasmas and ways of formatting numbers", "why_tests_cant": "No test calls printForces.", "anchors": ["freegs/equilibrium.py:Equilibrium.printForces", "freegs/equilibrium.py:Equilibrium.getForces", "freegs/machine.py:Machine.getForces"]}
{"id": "C210", "title": "The table of forces shows every coil", "statement": "printForces prints a line with the force for every coil and solenoid, whatever the labels.", "quantifier": "for all machines", "why_tests_cant": "No test calls printForces.", "anchors": ["freegs/equilibrium.py:Equilibrium.printForces", "freegs/machine.py:Machine.getForces", "freegs/machine.py:Solenoid.getForces"]}
{"id": "C211", "title": "Similar devices", "statement": "In a device k times as large, with the same coil currents, the coil flux at the corresponding point is k times as large, for every class of coil, circuit and solenoid. With the current density divided by k^2, solve (second order, or fourth order on grids where that matrix is regular; direct, fixed or free boundary) gives k times the plasma flux at every grid point and the same plasma current.", "quantifier": "for all k > 0, machines, current densities, grids and domains not reaching the axis", "why_tests_cant": "Tests use devices of one size; a missing or additional factor of R or of the grid spacing looks like a different device.", "anchors": ["freegs/gradshafranov.py:Greens", "freegs/machine.py:Machine.psi", "freegs/boundary.py:freeBoundary", "freegs/equilibrium.py:Equilibrium.solve"]}
{"id": "C212", "title": "Independence of the unit of length", "statement": "The O-points found by find_critical and the edge flux of freeBoundaryHagenow in a device k times as large are those of the device multiplied by the same powers of k as the lengths and the flux.", "quantifier": "for all k > 0 and all fluxes and grids", "why_tests_cant": "Tests use devices with dimensions of about a metre.", "anchors": ["freegs/critical.py:find_critical", "freegs/boundary.py:freeBoundaryHagenow", "freegs/gradshafranov.py:GreensBr", "freegs/gradshafranov.py:GreensBz"]}
{"id": "C213", "title": "Superposition of the constrained current density", "statement": "For a given flux the current density of ConstrainPaxisIp and of ConstrainBetapIp is Ip times one function of the position plus the target times another. The first function has integral one over the domain and the second has integral zero, and neither depends on Ip, the target or fvac. So multiplying pressure and current by one factor multiplies the current density by it.", "quantifier": "for all fluxes, masks, exponents, currents and targets for which the coefficient L is not zero", "why_tests_cant": "A test fixes one current and one target; a term mixing them shows only when both are varied.", "anchors": ["freegs/jtor.py:ConstrainPaxisIp.Jtor", "freegs/jtor.py:ConstrainBetapIp.Jtor"]}
{"id": "C214", "title": "A current density for every wanted pressure and current", "statement": "For a positive wanted pressure on axis, a positive wanted current and a flux with its maximum on the axis, Jtor divides by a coefficient L that is not zero, and so returns a current density.", "quantifier": "for all fluxes, exponents, currents and pressures", "why_tests_cant": "L vanishes for one current only for a given flux; a test meets it by accident.", "anchors": ["freegs/jtor.py:ConstrainPaxisIp.Jtor"]}
{"id": "C215", "title": "Dimensions of the diagnostics", "statement": "For an equilibrium k times as large with b times the field, plasmaVolume is k^3 times as large, w_th k^3 b^2 times and pressure_ave b^2 times. poloidalBeta, poloidalBeta2, toroidalBeta, totalBeta, betaN, qcyl and the four internal inductances are unchanged. poloidalBeta3 is k^3 times as large.", "quantifier": "for all k > 0, b not zero, equilibria, masks, profiles and separatrices", "why_tests_cant": "A comparison with a number for one device shows little; a wrong power of R, of the spacing or of the current agrees in a device of size one.", "anchors": ["freegs/equilibrium.py:Equilibrium.plasmaVolume", "freegs/equilibrium.py:Equilibrium.poloidalBeta", "freegs/equilibrium.py:Equilibrium.poloidalBeta3", "freegs/equilibrium.py:Equilibrium.toroidalBeta", "freegs/equilibrium.py:Equilibrium.betaN", "freegs/equilibrium.py:Equilibrium.internalInductance1", "freegs/equilibrium.py:Equilibrium.qcyl", "freegs/equilibrium.py:Equilibrium.w_th"]}
{"id": "C216", "title": "The starting flux of a new equilibrium", "statement": "Made without a flux, an equilibrium starts with a plasma flux that is zero on the edge, positive and at most one inside, larger where a point is nearer to the middle (in units of the width and height of the domain) and the same on both sides of each middle line. With an odd number of points both ways its only maximum is the middle point. So a run of picard.solve from a new equilibrium of an up-down symmetric machine stays up-down symmetric.", "quantifier": "for all machines, domains, grids, boundary conditions and orders for which the constructor returns", "why_tests_cant": "Tests start from one grid and look at the result of the iteration; a starting flux off by a grid point changes only the path to it.", "anchors": ["freegs/equilibrium.py:Equilibrium.__init__", "freegs/picard.py:solve"]}
{"id": "C217", "title": "Circular starting surfaces", "statement": "Points at the same distance from the middle of the domain have the same starting flux, as the documentation of the constructor says (concentric circular flux surfaces).", "quantifier": "for all domains and grids", "why_tests_cant": "Domains that are not square are used in the examples without looking at the starting flux.", "anchors": ["freegs/equilibrium.py:Equilibrium.__init__"]}
{"id": "C218", "title": "Superposition and symmetry with the default solver", "statement": "With the fourth-order solver, the default of the constructor, the plasma flux found by solve is linear in the current density, and a current density symmetric about the middle of the domain gives a symmetric plasma flux. So picard.solve keeps up-down symmetry, with and without a control system, from a new equilibrium or any symmetric one.", "quantifier": "for all grids with at least six points both ways on which scipy's factorisation solves the systems of the matrix, fixed and free boundaries, current densities, symmetric machines, profiles and constraints", "why_tests_cant": "Tests of the fourth-order solver look only at converged equilibria; a weight of an offset stencil with the wrong sign on one side shows up only as a small asymmetry of the solution.", "anchors": ["freegs/gradshafranov.py:GSsparse4thOrder", "freegs/equilibrium.py:Equilibrium.solve", "freegs/picard.py:solve", "freegs/boundary.py:freeBoundary"]}
{"id": "C219", "title": "Plasma flux of a current of one sign, default solver", "statement": "With the fourth-order solver and the fixed boundary a current density that is nowhere negative gives a plasma flux that is nowhere negative.", "quantifier": "for all grids on which the solver solves the systems of the matrix, and all current densities that are nowhere negative", "why_tests_cant": "Tests use smooth current densities in the middle of the domain, for which the flux is positive; the inverse of the fourth-order matrix has entries of the wrong sign next to the edge and in domains with tall cells.", "anchors": ["freegs/gradshafranov.py:GSsparse4thOrder", "freegs/equilibrium.py:Equilibrium.solve"]}
{"id": "C220", "title": "Stability, error and convergence with the default solver", "statement": "With the fourth-order matrix (the default of the constructor) there are, for every grid on which its systems can be solved, constants C and K such that a flux is at most C times its edge values plus K times what the matrix assigns to it. Two solves differ by at most C times the difference of their edge values plus K mu0 Rmax times the difference of the current densities. The flux found differs from a smooth solution of the Grad-Shafranov equation by at most C times the error at the edge plus K times the truncation error, which is of fourth order in the grid spacing, plus K mu0 Rmax times the error of the current density. Fixed-boundary picard.solve ends converged when the current density depends on the flux with a Lipschitz constant L and mu0 Rmax K L < 1. On the grids of C218 that are nine points wide C is 47 and K is 7/8 (Rmax - Rmin)^2.", "quantifier": "for all grids, current densities, smooth fluxes and profiles meeting the stated conditions", "why_tests_cant": "No test compares a flux of the fourth-order solver with a known one, or on two grids.", "anchors": ["freegs/gradshafranov.py:GSsparse4thOrder", "freegs/equilibrium.py:Equilibrium.solve", "freegs/picard.py:solve"]}
{"id": "C221", "title": "Sensors that compare equal are interchangeable", "statement": "Any two sensors can be compared; they are equal if and only if their places agree within the tolerances of numpy, and sensors that compare equal at exactly the same place give the same reading in the same machine and plasma.", "quantifier": "for all sensors of the three classes, machines and plasmas", "why_tests_cant": "No test compares sensors of different classes, angles or numbers of corners.", "anchors": ["freegs/machine.py:Sensor.__eq__"]}
{"id": "C222", "title": "The iteration with the fourth-order solver returns the solution of the Grad-Shafranov equation", "statement": "With the default solver of the constructor and the fixed boundary, a flux with bounded fifth and sixth derivatives that solves the Grad-Shafranov equation on the domain is changed by one eq.solve by at most C d + K (truncation + mu0 Rmax D), where the truncation error is of fourth order, d bounds its values at the edge points, D is the error of the profile on it, and C, K bound the inverse of the matrix; and what picard.solve returns is within that, plus q times the last change, divided by 1 - q, of the solution plus the flux of the coils.", "quantifier": "for all devices, grids of at least 6 x 6 points, profiles whose current density is Lipschitz in the flux, solutions with bounded derivatives, and runs of picard.solve that return", "why_tests_cant": "The tests compare linear solves of the Laplace equation with a known solution, and never the result of the whole iteration.", "anchors": ["freegs/picard.py:solve", "freegs/equilibrium.py:Equilibrium.solve", "freegs/gradshafranov.py:GSsparse4thOrder", "freegs/boundary.py:fixedBoundary"]}
{"id": "C223", "title": "The free-boundary iteration with the fourth-order solver has one solution and ends", "statement": "With the default solver of the constructor and the free boundary, two solves whose current densities differ by at most D give plasma fluxes that differ by at most (C B + K mu0 Rmax) D, where B is the largest edge flux of a unit current density and C, K bound the inverse of the matrix; so if the current density is Lipschitz in the flux with a constant L such that (C B + K mu0 Rmax) L < 1, there is exactly one flux that eq.solve leaves unchanged and picard.solve ends for every positive absolute tolerance.", "quantifier": "for all devices, grids, Green's functions, profiles and starting fluxes that satisfy the bounds", "why_tests_cant": "The tests run the free-boundary iteration on a few machines and cannot show that it ends, or that the end does not depend on the start.", "anchors": ["freegs/picard.py:solve", "freegs/equilibrium.py:Equilibrium.solve", "freegs/gradshafranov.py:GSsparse4thOrder", "freegs/boundary.py:freeBoundary"]}
{"id": "C224", "title": "The free-boundary iteration with the fourth-order solver returns the solution of the free-boundary problem", "statement": "With the default solver of the constructor and the free boundary, if a flux with bounded fifth and sixth derivatives solves the Grad-Shafranov equation on the domain and is on the edge the integral of the Green's function times its current density, then what picard.solve returns is within (C (B D + quadrature error) + K (truncation error + mu0 Rmax D) + q times the last change) / (1 - q) of it plus the flux of the coils, where the truncation error is of fourth order and the quadrature error of first order in the spacing.", "quantifier": "for all devices, grids, profiles whose current density is Lipschitz in the flux, solutions of the free-boundary problem, and runs of picard.solve that return", "why_tests_cant": "No test knows the exact free-boundary solution.", "anchors": ["freegs/picard.py:solve", "freegs/equilibrium.py:Equilibrium.solve", "freegs/gradshafranov.py:GSsparse4thOrder", "freegs/boundary.py:freeBoundary"]}
{"id": "C225", "title": "With von Hagenow's boundary the plasma flux is linear in the current density", "statement": "With freeBoundaryHagenow and the second-order direct solver, if the current density at the inner points is a J1 + b J2, the plasma flux found by eq.solve is a psi1 + b psi2 at every grid point, edges included, whatever the flux before the solves.", "quantifier": "for all Green's functions, grids on which the solves return, current densities and numbers a, b", "why_tests_cant": "The tests use von Hagenow's boundary in no comparison of two solves.", "anchors": ["freegs/boundary.py:freeBoundaryHagenow", "freegs/equilibrium.py:Equilibrium.solve", "freegs/equilibrium.py:Equilibrium.callSolver"]}
{"id": "C226", "title": "With von Hagenow's boundary the Picard iteration has one solution and ends", "statement": "With freeBoundaryHagenow and the second-order direct solver, two solves whose current densities differ by at most D at inner points give plasma fluxes that differ by at most (B + mu0) Rmax (Zmax - Zmin)^2 / 8 D, where B is the largest contour integral of a function of size 1; so if the current density is Lipschitz in the flux with a small enough constant, exactly one flux is left unchanged by eq.solve and picard.solve ends for every positive absolute tolerance.", "quantifier": "for all devices, grids, Green's functions, profiles and starting fluxes that satisfy the bounds", "why_tests_cant": "The tests run the iteration on a few machines and cannot show that it ends, or that the end does not depend on the start.", "anchors": ["freegs/picard.py:solve", "freegs/boundary.py:freeBoundaryHagenow", "freegs/equilibrium.py:Equilibrium.solve"]}
{"id": "C227", "title": "With von Hagenow's boundary a current density that is nowhere negative gives a flux that is nowhere negative", "statement": "With freeBoundaryHagenow and the second-order direct solver, if the current density is nowhere negative then the plasma flux found by eq.solve is nowhere negative, as it is with freeBoundary.", "quantifier": "for all grids and current densities that are nowhere negative", "why_tests_cant": "The tests use smooth current densities far from the edge of the domain.", "anchors": ["freegs/boundary.py:freeBoundaryHagenow", "freegs/equilibrium.py:Equilibrium.solve"]}
{"id": "C228", "title": "With von Hagenow's boundary the fourth-order solver is linear and stable and the iteration ends", "statement": "With freeBoundaryHagenow and the fourth-order direct solver the plasma flux is linear in the current density; if the inverse of the fourth-order matrix is bounded by K at inner points and C at edges, two solves whose current densities differ by at most D give fluxes that differ by at most (C B + mu0) K Rmax D, where B is the largest contour integral of a function of size 1; so if the current density is Lipschitz in the flux with a small enough constant, exactly one flux is left unchanged by eq.solve and picard.solve ends for every positive absolute tolerance.", "quantifier": "for all devices, grids, Green's functions, profiles and starting fluxes that satisfy the bounds", "why_tests_cant": "The tests use von Hagenow's boundary in one run and cannot show that the iteration ends, or that the end does not depend on the start.", "anchors": ["freegs/picard.py:solve", "freegs/boundary.py:freeBoundaryHagenow", "freegs/equilibrium.py:Equilibrium.solve", "freegs/gradshafranov.py:GSsparse4thOrder"]}
{"id": "C229", "title": "With von Hagenow's boundary a current density symmetric about the middle of the domain gives a symmetric plasma flux", "statement": "With freeBoundaryHagenow and the second- or fourth-order direct solver, if the current density has the same value at (i, j) and (i, ny-1-j) for all inner points, the plasma flux found by eq.solve has the same value at (i, j) and (i, ny-1-j) for all points, edges included.", "quantifier": "for all grids on which the solve returns, current densities symmetric about the middle, and starting fluxes, symmetric or not", "why_tests_cant": "The tests compare no fluxes with their mirror images.", "anchors": ["freegs/boundary.py:freeBoundaryHagenow", "freegs/equilibrium.py:Equilibrium.solve", "freegs/gradshafranov.py:Greens"]}
{"id": "C230", "title": "The first solve when a G-EQDSK file is read is made with the current density of the file", "statement": "When geqdsk.read makes its linear solve (no domain given), the current density is R p'(s) + ff'(s) / (mu0 R) inside the plasma and zero elsewhere, with the profiles of the file at its normalised flux s, cut off at 0 and 1.1; afterwards the plasma flux solves the fourth-order equations for this current density, has the flux of this current as boundary values, the plasma current is its integral, and the profiles of the equilibrium are those of the file.", "quantifier": "for all machines, files that are read successfully and solvers that solve the linear system", "why_tests_cant": "No test of the package reads a G-EQDSK file.", "anchors": ["freegs/geqdsk.py:read", "freegs/equilibrium.py:Equilibrium.solve", "freegs/boundary.py:freeBoundary"]}
{"id": "C231", "title": "A fourth-order equilibrium that was saved and loaded solves like the one that was saved", "statement": "If an equilibrium with the fourth-order solver is written with OutputFile.write_equilibrium and read with read_equilibrium, then eq.solve with the same current density gives, for the saved and for the loaded equilibrium, the same plasma flux at every grid point, the same plasma current, and the same total flux and poloidal field everywhere.", "quantifier": "for all machines of savable coils with distinct plain labels, domains, grids, boundary conditions other than the user's own function, and current densities for which both solves return", "why_tests_cant": "The one test compares the machine and the flux of a loaded equilibrium with those saved, and never solves again.", "anchors": ["freegs/dump.py:OutputFile.write_equilibrium", "freegs/dump.py:OutputFile.read_equilibrium", "freegs/equilibrium.py:Equilibrium.solve"]}
{"id": "C232", "title": "An equilibrium that was saved and loaded solves like the one that was saved, whatever its order", "statement": "If an equilibrium of any order is written with OutputFile.write_equilibrium and read with read_equilibrium, then eq.solve with the same current density gives the same plasma flux for the saved and for the loaded equilibrium.", "quantifier": "for all machines, domains, grids, orders and current densities", "why_tests_cant": "The tests save and load one equilibrium and do not solve again.", "anchors": ["freegs/dump.py:OutputFile.write_equilibrium", "freegs/dump.py:OutputFile.read_equilibrium", "freegs/equilibrium.py:Equilibrium.__init__", "freegs/equilibrium.py:Equilibrium.solve"]}
{"id": "C233", "title": "With a direct solver a solve does not depend on the plasma flux before it, and repeating it changes nothing", "statement": "With the direct solver of second or fourth order and the fixed boundary, the free boundary or von Hagenow's boundary, two solves with the same current density on the same grid give the same plasma flux at every grid point and the same plasma current, whatever the plasma flux was before; in particular a second solve with the same current density leaves flux and current as they are.", "quantifier": "for all machines, grids, current densities and plasma fluxes before the solve", "why_tests_cant": "The tests never solve twice with the same current density.", "anchors": ["freegs/equilibrium.py:Equilibrium.solve", "freegs/boundary.py:freeBoundary", "freegs/boundary.py:freeBoundaryHagenow", "freegs/multigrid.py:createVcycle"]}
{"id": "C234", "title": "Repeating a solve with the same current density changes nothing, whatever solver setSolverVcycle made", "statement": "After setSolverVcycle with any number of levels, cycles and iterations, with or without a direct solver at the coarsest level, a second eq.solve with the same current density leaves the plasma flux as it is.", "quantifier": "for all arguments of setSolverVcycle, grids and current densities", "why_tests_cant": "The one test of setSolverVcycle checks that the solver is another object, and never solves with it.", "anchors": ["freegs/equilibrium.py:Equilibrium.setSolverVcycle", "freegs/equilibrium.py:Equilibrium.solve", "freegs/multigrid.py:MGJacobi"]}
{"id": "C235", "title": "printCurrents shows every coil", "statement": "Machine.printCurrents prints, between two lines of equal signs, one line for every entry of the machine in its order; the line begins with the label and shows current, turns and control of a coil of any class, current and control of a circuit or solenoid, and label, current, turns, control and multiplier of every member of a circuit; after the current of a circuit is set each member is shown with the multiplier times that current. The line also names the class and shows the position, shape or filaments of a coil, mirror and polarity of a MultiCoil, and radius, ends and turns of a solenoid.", "quantifier": "for all machines, coil classes, labels and currents, and any way of writing numbers", "why_tests_cant": "No test calls printCurrents.", "anchors": ["freegs/machine.py:Machine.printCurrents", "freegs/machine.py:Circuit.__repr__", "freegs/machine.py:Solenoid.__repr__", "freegs/coil.py:Coil.__repr__", "freegs/shaped_coil.py:ShapedCoil.__repr__", "freegs/filament_coil.py:FilamentCoil.__repr__", "freegs/multi_coil.py:MultiCoil.__repr__", "freegs/pre_calc_coil.py:PreCalcCoil.__repr__"]}
{"id": "C236", "title": "The starting population of the optimiser varies each control by at most 5%", "statement": "optimiser.mutate gives every control that later controls do not disturb the value read from the original object times 1 + 0.1 (u - 0.5), u being the uniform number drawn for its position, whatever earlier controls have set in the copy; for values of at least 1e-9 the change is at most 5% and keeps the sign; a value whose variation is below 1e-10 has the next normal number added, so a control that reads zero gets a random value.", "quantifier": "for all objects, lists of controls and outcomes of the random generator", "why_tests_cant": "The tests run the optimiser on one quadratic with two controls and look at the final score.", "anchors": ["freegs/optimiser.py:mutate"]}
{"id": "C237", "title": "A trial of the optimiser combines three other agents", "statement": "In optimiser.optimise the trial of an agent uses three agents that differ from each other and from it; one control is always replaced by the first value plus F times the difference of the other two; all controls are when no draw reaches CR, and no other when every draw does; in any case a control that no other control disturbs holds either the combination or the value of the agent.", "quantifier": "for all populations, lists of controls, CR, F and outcomes of the random generator", "why_tests_cant": "The tests run the optimiser on one quadratic with two controls and look at the final score.", "anchors": ["freegs/optimiser.py:optimise", "freegs/optimiser.py:pickUnique"]}
{"id": "C238", "title": "Repeating a solve with the iterative solver approaches the direct solution", "statement": "With the solver of setSolverVcycle for one level (Jacobi iteration), solving again and again with the same current density brings the plasma flux to that of the direct solver: after n solves the largest difference is at most 4/3 of the first difference times rho to the power 2 niter ncycle n, where rho, at least 0 and less than 1, depends on the grid alone; with at least one cycle and one iteration it tends to zero from every starting flux.", "quantifier": "for all grids with Rmin >= 0, current densities, starting fluxes, numbers of cycles, iterations and solves, and fixed or free boundary", "why_tests_cant": "The only test of setSolverVcycle checks that the solver object has changed; no test solves an equilibrium with it.", "anchors": ["freegs/equilibrium.py:Equilibrium.solve", "freegs/equilibrium.py:Equilibrium.setSolverVcycle", "freegs/multigrid.py:createVcycle"]}
{"id": "C239", "title": "The generations of the optimiser cannot change what all agents share", "statement": "In optimiser.optimise a control that has the same value in all agents keeps it through all generations and in the result, provided that other controls and the measurement leave it alone; and whatever neither a control nor the measurement changes is the same in the result and in all agents as in the object given.", "quantifier": "for all objects, lists of controls, measures, population sizes, numbers of generations, CR, F and outcomes of the random generator", "why_tests_cant": "The tests run the optimiser on one quadratic in which every number is controlled.", "anchors": ["freegs/optimiser.py:optimise", "freegs/optimiser.py:mutate"]}
{"id": "C240", "title": "A solve with any multigrid solver acts linearly on the error and leaves the direct solution alone", "statement": "For every solver made by setSolverVcycle there is one linear map, depending on the grid and the settings alone, that takes the difference between the plasma flux inside before a solve and the flux of the direct second-order solver to the difference at all grid points after the solve, for every current density; so a plasma flux that is the direct solution inside stays there.", "quantifier": "for all grids with Rmin >= 0, levels, cycles, iterations, direct or iterative coarsest level, current densities and starting fluxes, with fixed or free boundary", "why_tests_cant": "The only test of setSolverVcycle checks that the solver object has changed; no test solves an equilibrium with it.", "anchors": ["freegs/equilibrium.py:Equilibrium.solve", "freegs/equilibrium.py:Equilibrium.setSolverVcycle", "freegs/multigrid.py:createVcycle"]}
