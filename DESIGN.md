# Formal model of NEML in Rocq (Coq 8.16.1)

## Approach

* `rocq/theories/*Model.v` – shallow executable Gallina models, function by
  function, each definition citing file and lines of `/repo`.
* `rocq/theories/*Proofs.v` – lemmas. `rocq/theories/*Props.v` – only the
  property theorems (closed with `exact`), the examples showing that their
  hypotheses are met, and `Print Assumptions`.
* `Base.v`/`Diff.v` – the small specification vocabulary used in theorem
  statements: finite sums, vectors/matrices as functions of indices, and
  *differentiation along every differentiable path*.

### Numbers
`double` is modelled as the real numbers `R` of the Coq standard library.
Rounding, overflow and signed zero are **not** modelled.  NaN is modelled only
where control flow depends on it (the Newton solver uses `option R`).
`pow(x,y)` is `Rpower x y` for `x>0`, and the limit value 0 (or 1 for `y=0`)
for `x=0`; theorems carry the positivity hypotheses under which C's `pow` is a
real number.  `int`/`size_t` are `Z`/`nat` without wrap-around.

### Derivatives
"df is the derivative of f" is stated in the strongest convenient form: for
*every* path `c : R -> vector` whose components are differentiable at `t`, the
function `u |-> f (c u)` is differentiable at `t` with derivative
`sum_j df_j(c t) * c_j'(t)` (finite dimensional Frechet/Hadamard
differentiability; it implies all partial and directional derivatives, and it
composes).  Functions of several arguments are differentiated *jointly*.

### External code
BLAS/LAPACK (`dgemv`, `dgemm`, `dgesv`, `dgetrf/i`, `dsyev`) are modelled as
exact linear algebra; solves and inverses are oracles constrained only by the
equation they are supposed to solve (`J x = R`, `M Minv = I`) which appears
explicitly as a hypothesis.  rapidxml is replaced by an abstract XML tree.

## Trusted base

* Coq's kernel (8.16.1), no disabled checks, no own axioms.
* Standard library axioms reported by `Print Assumptions` (only through
  `Reals`): `ClassicalDedekindReals.sig_forall_dec`,
  `ClassicalDedekindReals.sig_not_dec`,
  `FunctionalExtensionality.functional_extensionality_dep`, and
  `Classical_Prop.classic` where Coquelicot's derivatives are used.
  Purely discrete theorems are closed under the global context.
* The reading of `/repo` embodied in the `*Model.v` files.
* Coquelicot is used as a library (definitions and lemmas only; it adds no
  axioms).

## Plan per property

* **C01** Interpolate.derivative is the derivative of Interpolate.value: interpolates as an inductive type with value/derivative; induction + path derivative. — *proved* (1 theorems)
* **C02** Piecewise interpolates pass through their knots, clamp outside and stay between neighbours: piecewise tables as list recursion; induction over the table. — *proved* (4 theorems)
* **C03** A valid GenericPiecewiseInterpolate evaluates without leaving its function table: executable validity check of each constructor; refuted for GenericPiecewise with a witness object. — *partial* (3 theorems)
* **C04** The nonlinear solver never returns an unconverged state: Newton loop with fuel = miter and an abstract residual system; induction on iterations. — *proved* (4 theorems)
* **C05** The nonlinear solver does a bounded amount of work: same loop, all error exits enumerated; induction on iterations. — *proved* (2 theorems)
* **C06** Adaptive substepping covers the requested step exactly: sub-stepping loop over an abstract step function; invariant on the covered fraction. — *proved* (3 theorems)
* **C07** Adaptive substepping terminates: same loop; termination by fuel bound, failure exits. — *proved* (2 theorems)
* **C08** History variables never alias: History as name list, offsets and storage; invariant over every sequence of operations. — *proved* (5 theorems)
* **C09** History rejects duplicate names and wrong-type/missing lookups: same model; copies and views as storage identity. — *proved* (5 theorems)
* **C10** History reorder keeps name -> value: split/union/reorder as list operations; refuted for reorder with a witness. — *partial* (2 theorems)
* **C11** History split/subset/copy_blank/union keep layout: offset arithmetic of every typed accessor. — *proved* (9 theorems)
* **C12** Saved objects reload with the same parameters: object graphs, printing to an XML tree and reading back; structural induction on objects. — *proved* (4 theorems)
* **C13** Saved floating point parameters reload exactly: decimal printing with six digits as integer arithmetic; rounding bound. — *partial* (5 theorems)
* **C14** Unregistered types and bad parameters give the documented errors: reader as a total function returning explicit errors; case analysis. — *partial* (7 theorems)
* **C15** Mandel notation is an isometry: tables of the conversions generated from the source text; each identity by exhaustive index cases and ring modulo sqrt(2)^2 = 2, for symbolic entries. — *proved* (14 theorems)
* **C16** Elastic compliance is the inverse of stiffness: C_calc_/S_calc_ tables; field identities in G, K; inverse uniqueness for invert_mat. — *proved* (3 theorems)
* **C17** Every modulus pair defines the same material: the twelve branches of get_GK_ as a function of the two strings; nsatz/field for each. — *proved* (4 theorems)
* **C18** Anisotropic stiffnesses have the symmetry they are named after: write stiffness in Kronecker deltas; rotate; orthogonality. Transverse isotropy refuted with a 45 degree rotation. — *partial* (5 theorems)
* **C19** Yield surface derivatives are the derivatives: surfaces as records of functions mirroring surfaces.cxx; derivative of the normalised relative stress; chain rule through IsoFunction. — *proved* (7 theorems)
* **C20** The J2 surface ignores pressure and the I1 surface responds to it as documented: algebra of the deviator; monotonicity of x -> sign(x)|x|^l. — *proved* (5 theorems)
* **C21** Hardening rule derivatives are the derivatives: rules as records of functions; scalar calculus, induction over lists of rules, block structure of the combined rule. — *proved* (8 theorems)
* **C22** Non-associative hardening derivatives are the derivatives: backstress number i and component j as position 1+6i+j; sums over blocks for any number of backstresses. — *partial* (10 theorems)
* **C23** Backstresses stay deviatoric: traces of the backward Euler equations give a linear system with a positive definite structure; induction over reachable histories. — *proved* (4 theorems)
* **C24** Flow rules combine surface and hardening by the chain rule: chain rule lemmas for gradients and Jacobians composed with q; sizes checked as in populate_hist. — *proved* (6 theorems)
* **C25** Plasticity Jacobians are exact: submodels as records of residual, Jacobian, elastic test, work; joint path derivative of the residual in unknowns, strain, old state. — *proved* (4 theorems)
* **C26** A converged rate independent update satisfies the constitutive equations: update_step with the Newton model; read the equations off the residual at the returned point with the tolerance explicit; concrete shear example for the refuted cases. — *partial* (9 theorems)
* **C27** The reported tangent is the derivative of the stress update: implicit differentiation of the residual with left inverse oracle; induction over the chain of substeps for the general integrator; explicit two substep counterexample for the rate independent models. — *partial* (6 theorems)
* **C28** Viscoplastic flow rule derivatives are exact: each rule as a record of value and derivative functions; differentiation along arbitrary curves, chain rule; exactness of TVPFlowRule for any exact rule. — *proved* (12 theorems)
* **C29** Superimposed flow rules add up: recursion over the list of rules with the history shifted; induction over the list; quotient rule for the averaged direction; witnesses for the two refuted clauses. — *partial* (7 theorems)
* **C30** No inelastic flow inside the yield surface: case split on the sign of f; positivity of pow; orthogonality of the deviatoric direction. — *proved* (7 theorems)
* **C31** Creep rate derivatives are exact: each law as a record of value and derivative functions; differentiation along arbitrary curves off the switching points; witnesses for the wrong derivatives. — *partial* (14 theorems)
* **C32** Region creep picks the region containing the normalized stress: the selection loop as a recursion over the cut points; exact characterisation of the index it returns; comparison with the interval containing the value. — *partial* (6 theorems)
* **C33** Multiaxial creep is deviatoric, power-consistent and exactly linearised: chain rule through the von Mises stress and the equivalent strain, with the code's clamps; algebra for the shape of the rate; the Newton soundness theorem for the update; linearised residual for the tangent. — *proved* (11 theorems)
* **C34** Damage law derivatives are exact: each law as a record of value and derivative functions; differentiation along arbitrary curves of damage, strain and stress; witnesses for the wrong derivatives of the work law. — *partial* (13 theorems)
* **C35** Effective stress measures are degree-one homogeneous with exact gradients: algebra and curve derivatives; the maximum principal stress through the extremal characterisation of the largest eigenvalue and a perturbation bound; induction over the list for max and sum; spectral theorem for 3x3 matrices to show the eigenvalue contract can be met. — *partial* (22 theorems)
* **C36** Damaged model residual, Jacobian and tangent are exact: Newton soundness for the step; curve derivative of the residual; linear algebra for the tangent. — *proved* (5 theorems)
* **C37** Element kill is irreversible: case analysis of the update and induction over the sequence of later loads. — *partial* (7 theorems)
* **C38** Creep + plasticity updates combine consistently: Newton soundness for the strain split; matrix algebra for the series tangent; derivative of the residual along curves; a concrete successful step for the layout findings. — *partial* (8 theorems)
* **C39** Larson-Miller relation is self-consistent: Newton soundness, logarithm algebra, and differentiability of a continuous branch of solutions. — *proved* (7 theorems)
* **C40** The C interface reports success and failure through ier: each entry point as a function of what the inner C++ call did and the previous flag; induction over sequences of calls. — *partial* (6 theorems)
* **C41** Block evaluation equals per-point evaluation: the three tables copied literally; exhaustive kernel computation over the finite table that the 36 x 81 table is the tensor product of the 6 x 9 one, then algebra for all values; fold invariant over arbitrary schedules. — *partial* (9 theorems)
* **C42** Work and energy accounting: trapezoid identity for symmetric S; induction over the chain of substeps. — *proved* (9 theorems)
* **C43** Unit quaternion algebra: quaternion components, polynomial identities by ring; uniqueness up to sign from the entries of the matrix. — *proved* (31 theorems)
* **C44** Rotating tensors preserves invariants: components of the rotated tensors against the double sum M_im M_jn A_mn; the 6x6 and 3x3 forms through the full tensor; orthogonality for invariants. — *proved* (22 theorems)
* **C45** Tensor class operators agree with index notation: tensor operators and the special mixed products as tables; index formula by exhaustive cases. — *partial* (46 theorems)
* **C46** Large strain update is consistent: 9x9 Truesdell matrix as operator X + tr(L)X - LX - XL^T; symmetry of the solution from nonsingularity; tangent from differentiability of solutions of linear systems (LinDiff.v). — *partial* (6 theorems)
* **C47** Regime selection picks the regime bracketing the activation energy: list recursion for the selection loop; monotonicity of ln. — *proved* (4 theorems)
* **C48** Miller index and gcd helpers: Euclid's loop with C remainder on Z and explicit fuel; induction on fuel; divisibility spec. — *proved* (4 theorems)
* **C49** Polynomial helpers: polynomial helpers as list recursion; induction. — *proved* (3 theorems)
* **C50** Angle conversion round trips: string cases and field. — *proved* (3 theorems)
* **C51** The numerical Jacobian helper approximates the Jacobian: central/forward difference Jacobian as function; exactness on affine maps and error behaviour. — *proved* (3 theorems)
* **C52** Derivative containers hold one block per variable: history_derivative name pairs; injectivity under distinct joined names, refuted otherwise. — *partial* (5 theorems)
* **C53** Formatted names label every stored number: format strings; injectivity of numbered names. — *proved* (1 theorems)
* **C54** Elastic energy is positive definite: quadratic form of the stiffness written as a sum of squares. — *proved* (2 theorems)
* **C55** A viscoplastic update solves the backward Euler rate equations: instance of the general integrator step equations; algebra. — *proved* (4 theorems)
* **C56** Damage does not heal: sign of the increment of each law, then the residual equation of the update. — *proved* (10 theorems)
* **C57** Every orientation format describes the same rotation: each constructor and accessor as in the code, with atan2, fmod and the tolerance branches; trigonometric identities; witnesses at the singular points. — *partial* (26 theorems)
* **C58** Distance, exponential and powers of rotations: distance through the inner product of quaternions and a Gram inequality; exponential and logarithm in polar form. — *partial* (23 theorems)
* **C59** Crystal symmetry groups: quaternions with entries (p + q sqrt D)/2 and a reflective checker of the group laws, run by the kernel on each class. — *proved* (3 theorems)
* **C60** Misorientation: the loop over all operator products as in the code; minimality by induction over the list and sign closure of the products; witnesses for the classes without it. — *partial* (4 theorems)
* **C61** Miller indices: cell vectors, gcd reduction (C48) and reciprocal vectors as in the code; duality by field. — *proved* (11 theorems)
* **C62** Slip and twin systems of a lattice: the lattice object as a state (groups, offsets, planes, cache); invariants by induction over all sequences of calls; Schmid tensors through C44. — *partial* (23 theorems)
* **C63** Slip rules: one scalar law per rule and one record per hardening law; Jacobians of all systems and all variables proved along arbitrary curves, with the zero-slip and threshold points included. — *partial* (19 theorems)
* **C64** Slip hardening laws: hardening laws as records of functions of slip rates; derivatives by the chain rule in three directions (stress, own variables, other variables); inequalities for the signs. — *partial* (25 theorems)
* **C65** Inelastic models of a crystal: inelastic models as records of functions of stress and history; derivatives from the promises of the slip rule (C63, C64), sums over blocks for combined models; invariance of the resolved shears under rotation. — *partial* (23 theorems)
* **C66** Kinematics of a crystal: stress rate and spin as in the code, with the commutator tables of C45; chain rule from the promises of the inelastic model; the commutator of full tensors commutes with rotation. — *partial* (9 theorems)
* **C67** Single crystal update: the bisection loop with fuel over an oracle linear solver and inverse; loop invariant (progress is a multiple of the current increment); Newton soundness (C04); tangents by implicit differentiation and block elimination. — *partial* (11 theorems)
* **C68** Lattice rotation, energy and orientation of a single crystal: the loop invariant of C67 gives the last substep; exponential map of C58; sums for energy and work; concrete elastic crystal for the refutations. — *partial* (13 theorems)
* **C69** Batches of crystals do not depend on the schedule: the parallel loop as a fold over an arbitrary permutation of the crystals; invariant over the fold for slices written, untouched and the error count. — *proved* (7 theorems)
* **C70** A Taylor polycrystal is the weighted mean of its crystals: crystal models as arbitrary functions; induction over the loads with the invariant that the store holds the states of crystals running alone; elastic strains by evaluation. — *partial* (14 theorems)
* **C71** Twin reorientation: induction over the list of systems for the scan and the reset; induction over calls for the flag. — *proved* (6 theorems)
* **C72** Crystal damage on slip planes: the two six by six tables copied literally and reduced to tractions; factors of one plane compose, so inverses are explicit; induction over planes for products, invertibility and derivatives; the sigmoid by calculus with a separate argument at zero damage. — *partial* (24 theorems)
* **C73** Kinematics of a damaged crystal: inverse as an oracle for invertible matrices; derivative of an inverse from two-sided inverses and continuity; chain rule along paths; small lattices for the refutations. — *partial* (16 theorems)
* **C74** Walker-Krempl rate switch: the switch as a general flow rule over the viscoplastic interface; product rule along paths; scaling of the norm of the strain rate. — *partial* (9 theorems)
* **C75** Walker model derivatives: variables as records of rate and partial derivatives, curves of states; the flow rule folds any number of backstresses; chain rule through direction and plastic strain rate. — *partial* (17 theorems)
* **C76** Walker model over loading histories: induction over a run of backward Euler steps with residuals; each variable's rate points inward outside its bounds; histories as name-indexed layouts. — *partial* (18 theorems)
* **C77** Python solvers: one loop shared by all solvers over an abstract system (residual, norm possibly NaN, solve, move); induction over iterations; line search by induction over reductions and the derivative at zero. — *partial* (11 theorems)
* **C78** Uniaxial model: the five transverse strains by the solver of C77; Schur complement from uniqueness of the inner solve; induction over steps. — *partial* (7 theorems)
* **C79** Driver steps and recorded history: the driver as nine lists; each step through the solver of C77 on its residual; induction over arbitrary sequences of calls, failures leaving the lists unchanged; Jacobians along curves. — *partial* (21 theorems)
* **C80** Standard tests: tests as loops over driver steps that stop at the first problem; solver errors accumulated by the triangle inequality; induction over steps and cycles; linear materials and an exact solver, built by Gauss elimination, for the refutations. — *partial* (25 theorems)
* **C81** Networks of bars: networks as edge lists over numbered nodes; bars by the uniaxial model; residual assembled by signed incidence; invariant over a step relation that includes failing calls; Jacobian by the chain rule, regularity by the energy form and connectedness to supports; termination by counting remaining fractions. — *partial* (12 theorems)
* **C82** Bree problem: the wall as a two-node network with one bar per integration point and a rule giving points and weights; sum rules by induction over layers; refutations with constant and linear materials. — *partial* (12 theorems)
* **C83** Wall of a vessel: elements and Gauss points as nested lists, the assembly as a fold; the residual is proved to be the virtual work of the stresses less that of the pressures; invariant over a step relation including failing calls; Jacobian through the fold by the chain rule; dgttrf/dgttrs as an oracle for tridiagonal systems. — *partial* (15 theorems)
* **C84** Temperature histories, time steps and meshes for vessels: the history as a function of real time with the remainder through the integer part; Lipschitz bound by splitting into two monotone functions; time steps, layers and meshes by induction over lists with an increasing-list predicate. — *proved* (18 theorems)
* **C85** Relaxation, follow up, stress cycles, rate jumps and extrapolated cycles: the five tests as functions on the recorded lists on top of the driver model; induction over steps, holds and cycles with accumulated tolerances; the extrapolated test with a trace predicate over its cycle list and a measure for termination; refutations by following a material of constant flow rate to the end. — *partial* (20 theorems)
* **C86** Precipitation kinetics: hucocks.cxx's precipitation model function by function, with its uninitialised derivative as a parameter; derivative calculus for the Jacobian; histories as differentiable curves: the volume balance has zero derivative, the fraction cannot pass the first equilibrium fraction because the rate vanishes there (mean value argument). — *partial* (14 theorems)
* **C87** Hu-Cocks hardening and Arrhenius slip: spacing, Hu-Cocks and Arrhenius models as instances of the slip rule interface, so that the whole-rule theorems apply; backward Euler steps by monotonicity; initialisation as writes into a flat array in the order of the calls. — *partial* (17 theorems)
* **C88** Several precipitates sharing species: all precipitates in one state vector; concentrations as what the precipitates containing a species leave over; histories by the squared positive part of the undershoot of each species; the basic model as the case of one precipitate; names resolved by an executable search. — *partial* (18 theorems)
* **C89** Dense vectors and matrices: memory as a function from places to values with arbitrary initial contents; the constructor loops as folds of writes, proved by which iteration writes a place; object lifetimes as sequences of operations on an abstract heap with the invariant that owned blocks are distinct and exactly the live ones. — *partial* (20 theorems)
* **C90** Pole figures and inverse pole figures: projections as real functions, areas by partial derivatives in height and azimuth; figures as lists of points, symmetry through the group properties of the operator lists (C60); the cubic operators as signed permutations, every direction brought into the triangle by case analysis on signs and order; colours by the cone representation of the triangle; the in-place normalisation as state passed through sequences of calls. — *partial* (42 theorems)
* **C91** Abaqus user material and example programs: the user material as a function of what Abaqus hands over, with the number of model objects; runs by induction over increments against a relation for direct update_sd calls on tensors; the tangent by the chain rule; the example programs as loops with the shared error variable. — *partial* (17 theorems)
* **C92** Building objects from Python: Python values as an inductive type, the cast of each parameter type, and the constructor as a fold of assignments over positional then keyword arguments; the specification is a relation for what a value stands for and for the object a call describes; both directions by induction over the arguments. — *partial* (11 theorems)
* **C93** Lattices keep their systems: Lattice objects with their parameter sets, the members of param_type that hold slip and twin lists, additions as calls that record first and may fail, saving through the XML model of C12/C13 and construction from what is read; by induction over the calls, which commute up to the order of slips and twins. — *partial* (11 theorems)
* **C94** Arrays and indices from Python mean what they show: Memory as blocks that can be freed, numpy arrays as offset, shape, strides and type, pybind11's conversion to contiguous arrays of doubles, pointers whose reads and writes outside a live block are undefined; wrappers by kind (read only, in place, checked, pointer kept). By induction over shapes (contiguity test = entries follow one another) and over the argument lists (copies are new blocks, freed afterwards). — *partial* (27 theorems)
* **C95** The yield stress of a tensile test is the stress where the permanent strain reaches the offset: scipy's interp1d as a function on lists of points and brentq as a relation (any zero between ends of opposite sign, otherwise an exception); the specification speaks of points on the polygon and their permanent strain. By induction over the curve: along a curve that never steepens, the distance from the offset line changes sign once. — *partial* (8 theorems)
* **C96** Driving a model through deformation gradients is a faithful time integration: 3 by 3 matrices as functions of indices, numpy's inverse by cofactors with an exception for determinant zero, the model as a record of init_store and update_ld_inc. By induction over the passes (invariant over all lists); gradients by matrix algebra; convergence from 0 <= exp y - 1 - y <= y^2 exp|y|; reference change by a simulation between two runs. — *partial* (12 theorems)
* **C97** The store of a composed model has one place for every variable, with the right name, start and size: A tree of models over lists of (name, type, initial value), on the histories of C10; populate and init as written, and beside them where the updates find the variables. A history made by adding is a closed form of its declarations; by induction over the tree with the variables before and after generalised; names by injectivity of the prefix; orders differ by a permutation. — *partial* (19 theorems)
* **C98** Giving a composed model another elastic model changes it everywhere in that model and nowhere else: A heap of objects with the pointers between them, programs of constructors and calls. Reachable heaps are well founded (objects point to older ones) and well typed; by induction over the depth of the call, with the set of objects written so far generalised over the loop of the regime model; behaviour is the tree of objects and the elastic models they read. — *partial* (9 theorems)
* **C99** Objects built from several lists read only entries the lists have: Every read of a vector is an explicit step with its own outcome when it is past the end. For each class an equivalence between lengths and the absence of that outcome for all arguments, by induction over the loops; where the lengths fit, the result equals the one of the models of the other properties. — *partial* (22 theorems)
* **C100** Numbers and switches written by hand in an input file mean what they say: The notation of numbers as inductive predicates on texts (TxtSpec), independent of the reader; the model of std::stod, stoi and stoul is shown to return the value of the longest prefix in that notation, by induction on runs of digits. Hexadecimal, inf and nan texts are excluded (no_letters); values beyond the range of double are not modelled (R). — *partial* (17 theorems)
* **C101** A Nye tensor handed to a single crystal stays in force: The stored array with its offsets; programs of calls against an ideal crystal that holds the tensor apart (NyeSpec). Simulation by induction over programs: equality with the ideal when the tensor is set before every step, equality with the ideal that clears it after every step in general. — *partial* (9 theorems)
* **C102** Every class receives the parameters it declares: A table of all registered classes (DeclTable.v, one row per class with the lines it was copied from) and the class hierarchy; parameter sets with one member per type as in param_type. Each row is checked by computation, the statement about all sequences of assignments is proved by induction for every row that passes. — *partial* (10 theorems)
* **C103** Tensors and orientations behave as values: Memory as blocks, those of the caller and those made by new []; objects as pointer, size and ownership flag; every operation of the source, with undefined behaviour as a result of its own. The specification has values and windows and no memory. Proved by simulation over programs of any length: separation of owners, liveness and absence of leaks are part of the invariant. — *partial* (6 theorems)
* **C104** Histories keep their numbers and their memory: Memory as blocks with lengths and arbitrary first contents; histories as pointer, size, capacity and ownership flag; every operation of the source, with undefined behaviour as a result of its own. The specification has containers, windows and numbers not given yet, and no memory. Proved by simulation over programs of any length. — *partial* (5 theorems)

## Findings (places where the code does not do what a user would expect; each has a theorem)

* `GenericPiecewiseInterpolate` validity (C03_*_refuted).
* Newton: `miter = 0` returns an unconverged point, convergence exactly on the last allowed iteration is reported as failure (C04_*_refuted).
* `History::reorder` leaves the offset map stale (C10_*_refuted).
* Objects are saved with six significant digits, so doubles do not survive a save/load (C13_double_reload_refuted); blank strings crash the reader (C12_blank_string_refuted); text after a number is ignored and unregistered types raise the wrong exception (C14_*_refuted).
* Joined names of `history_derivative` can collide (C52_*_refuted).
* `TransverseIsotropicLinearElasticModel` stores (C11-C12)/2 where Mandel notation needs C11-C12: it is not transversely isotropic (C18_transverse_refuted).
* `NEMLModel_sd` with `truesdell = false` still adds the Truesdell stress terms to the tangent A, which is then not the derivative of the stress (C46_jaumann_tangent_refuted).
* `IsoKinJ2` derivatives assume a deviatoric backstress; `IsoKinJ2I1` accepts h < 0 and l < 1 but then its derivatives have wrong signs (C19_*_refuted).
* `PowerLawIsotropicHardeningRule::dq_da` returns -1e15 at zero plastic strain whatever the exponent (C21_power_law_at_zero_refuted).
* `ChabocheVoceRecovery::dh_da_time` has the wrong sign below Rmin (C22_recovery_time_refuted).
* Rate independent models: with two or more plastic substeps the reported tangent is wrong, because the row of the plastic multiplier is carried from one substep to the next (C27_two_plastic_substeps_refuted).
* `SmallStrainRateIndependentPlasticity` tests the trial stress C(T_new)(e - ep) but on an elastic step returns s_old + C(T_new) de: with temperature dependent moduli the returned stress can violate the yield condition, the plastic strain changes and negative dissipation is reported (C26_elastic_thermal_refuted, C42_thermal_dissipation_refuted).
* The sign of the plastic multiplier is not enforced; the equations have a second root with a negative one (C26_multiplier_sign_refuted).
* `KMRegimeModel` does not check that it has more models than boundaries (C47_missing_model_refuted).
* `reduce_gcd` of the zero vector divides by zero (C48_reduce_zero_refuted).
* `SuperimposedViscoPlasticFlowRule`: the history of every component evolves with the total rate, so a component inside its own yield surface hardens when another one flows (C29_own_rate_refuted; this is what the documentation's formulas say); strain rates per unit time are averaged instead of added (C29_time_rate_refuted).
* `YaguchiGr91FlowRule::dh_da_time` is right only for deviatoric backstresses (C28_yaguchi_nondeviatoric_refuted); the evolution keeps them deviatoric (C28_yaguchi_stays_deviatoric).
* `GenericCreep::dg_ds` multiplies the derivative by the logarithm of the rate (C31_generic_refuted, C31_generic_partial).
* `MinCreep225Cr1MoCreep::dg_ds` uses rounded constants, so it is the derivative of a slightly different rate (C31_minimum_creep_rate_225_partial).
* Creep laws with temperature dependent coefficients report a zero or incomplete dg_dT (C31_power_law_temperature_refuted, C31_blackburn_temperature_refuted).
* `RegionKMCreep::select_region_` returns region 1 for every value beyond the first cut, so the third and later mechanisms are never used, except that a value equal to the first cut gets the last one (C32_beyond_second_cut_refuted, C32_first_cut_refuted).
* `SmallStrainCreepPlasticity` declares its history as base variables followed by plastic_strain but stores them in the opposite order; a base model with history starts from the wrong state when its initial history is not zero (C38_layout_refuted, C38_initial_state_refuted).
* `WorkDamage` reports derivatives with the wrong sign when the plastic work of the step is negative (the law uses the absolute value), and ddamage_dd returns the old damage instead of 0 when the work rate or the new damage is 0 (C34_work_negative_refuted, C34_work_zero_refuted).
* `HuddlestonEffectiveStress::deffective` divides by the second deviatoric invariant, which is 0 for a hydrostatic stress (C35_huddleston_hydrostatic_refuted).
* `MaxSeveralEffectiveStress` accepts an empty list and then reads measures_[-1] (C35_max_empty_refuted).
* `should_del_element` uses > where the update uses >=: with dkill = 1 a removed point is never flagged (C37_delete_flag_refuted).
* With dkill above 1 a removed point stores damage 1, is below the threshold at the next step and divides by 1 - 1 (C37_threshold_above_one_refuted).
* The default `Orientation` is documented as the identity but is a half turn about z, and `wexp` of the zero spin returns it, as does normalising a zero quaternion (C57_default_refuted, C58_exponential_zero_refuted).
* `to_euler` is wrong for rotations reversing the z axis (C57_euler_forth_refuted), so `make_crystal_orientation` and everything built on it lose such rotations; Bunge angles with Phi = 180 degrees are taken as Phi = 0 (C57_euler_bunge_refuted).
* `setVectors` says it rejects vectors that are not orthonormal but checks only the angle (C57_vectors_not_unit_refuted); half turns have no faithful Rodrigues vector (C57_rodrigues_half_turn_refuted); the identity has no logarithm, power or hyperspherical angles (C57_hyperspherical_identity_refuted, C58_log_identity_refuted, C58_power_identity_refuted); `pow` of a non-unit quaternion is not the power (C58_power_not_unit_refuted); `rotate_to` divides by zero for parallel vectors (C58_rotate_to_parallel_refuted).
* `Symmetric * Symmetric` returns only the symmetric part of the product and `Skew * Skew` only the skew part, so the square of a skew tensor is zero (C45_symmetric_product_refuted, C45_skew_product_refuted).
* `SymSymSymR6::middle_dot_after` and `middle_dot_before` do not contract (C45_middle_dot_*_refuted).
* `SymSkewR4()` leaves its storage uninitialised, unlike the other default constructors (src/math/tensors.cxx:1504-1507; not modelled).
* Crystal classes 6, 3, 4, 2 and 1: `SymmetryGroup::misorientation` compares signed quaternion angles and the operator products lack the opposite signs, so symmetry-equivalent orientations can be reported with a non-zero misorientation (C60_minimal_refuted).
* `Lattice`: a slip family without perpendicular pairs is silently dropped (C62_slip_empty_refuted); the cache of rotated systems is keyed by a hash of the quaternion only: it is not invalidated by add_slip_system, giving an out-of-bounds access (C62_stale_cache_refuted), and a hash collision returns another orientation's systems (C62_collision_refuted). `GeneralLattice` and `CubicLattice` declare the twin_systems parameter with the slip-system list type but a twin-system default.
* `SlipMultiStrengthSlipRule::slip` (and its derivatives) declare a loop variable that hides the system index, so strength k is queried for system k of the group: every system of a group gets the first system's strength, and a group with fewer systems than the rule has strengths is indexed out of range (C63_own_strength_refuted, C63_strength_query_refuted).
* `VocePerSystemHardening` and `FASlipHardening` report zero, and `LANLTiModel` the wrong sign, for the derivative by the other strengths' variables (C64_*_external_refuted). `GeneralLinearHardening` starts at twice the given strength (C64_initial_general_refuted). `SimpleLinearHardening` picks the interaction row by the place in the group (C64_simple_row_refuted). The per-system Voce law softens under negative slip (C64_voce_softens_refuted). A Nye coefficient that vanishes at zero temperature is ignored (C64_nye_refuted).
* `StandardKinematicModel::spin` computes Skew(e*dp - dp*e) with the Symmetric product that keeps only the symmetric part, so the documented commutator is identically zero (C66_spin_partial, C66_spin_refuted).
* `CombinedInelasticity` joins derivative histories that all have every variable: with two models with variables the first one's derivatives are lost, with three the lookup is out of bounds (C65_combined_two_refuted, C65_combined_three_refuted); `unravel_hh` then throws std::out_of_range for the missing mixed pairs.
* `PowerLawInelasticity` has zero rate but a non-zero reported derivative at stresses below machine epsilon (C65_power_small_refuted).
* `SingleCrystalModel` substepping restarts every substep from the stress at the start of the whole increment (and from the temperature at its start): only the stress of the last substep survives, so any subdivision, forced or after a failed solve, returns roughly the increment divided by 2^k (C67_subdivided_refuted, C67_subdivided_partial). With force_divide > max_divide the loop never ends (C67_forced_refuted).
* `SingleCrystalModel::update_rot_` turns the lattice by half a turn about z whenever the spin is exactly zero, because wexp(0) is the default orientation (C68_no_spin_refuted, C68_zero_time_partial). The energy increment uses the stress difference instead of the mean stress (C68_energy_refuted). rotation0 is not copied to the new history, so `Fe` ignores the rotation after the first update (C68_deformation_refuted).
* `SingleCrystalModel::calc_tangents_` adds into a default constructed SymSkewR4, whose storage is uninitialised; the model takes it as zero.
* `TaylorModel::elastic_strains` runs its inner loop over the number of crystals instead of the six components: with fewer than six crystals components are lost, with more than six the output array is overrun (C70_elastic_strains_refuted, C70_elastic_strains_overrun_refuted).
* `update_sd_nemlmodel`, `init_store_nemlmodel` and `elastic_strains_nemlmodel` never set *ier to 0 (C40_success_refuted); an error flag left over from an earlier call is read as a new failure. `alpha_nemlmodel` returns -1 on failure, which is a possible value (C40_alpha_refuted).
* `block_evaluate` catches NEMLErrors of single points, skips the conversion of all results and returns normally: the caller keeps the old stress and tangent and is not told (C41_failure_refuted).
* `shear_projection_ss` is twice the symmetric part of `shear_projection` (C72_shear_projection_refuted); with several planes a fully damaged plane may carry traction, except the first (C72_other_planes_refuted).
* `PlanarDamageModel::d_projection_d_stress` is wrong for any transformation that depends on the normal stress, because `middle_dot_after`/`middle_dot_before` do not contract (C72_projection_derivatives_refuted); the shipped transformations report zero there.
* With the default cutoff 1 the damage projection is singular as soon as one plane reaches the critical damage (C72_critical), so the update throws a LAPACK error.
* `DamagedStandardKinematicModel::spin` uses the plastic spin at the damaged stress while `stress_rate` uses the one at the undamaged stress (C73_spin_refuted); a rigid rotation changes the magnitude of the stress of a damaged crystal (C73_rigid_spin_refuted); without damage it differs from `StandardKinematicModel` for anisotropic elasticity (C73_nil_standard_refuted).
* `WalkerKremplSwitchRule::dkappa` divides by the norm of the deviatoric strain rate; at zero rate the scaling has a kink for any nonzero switch (C74_scale_derivative_refuted).
* `WalkerSofteningModel::dphi` for negative plastic strain reports a nonzero slope although phi is constant there (C75_softening_refuted).
* `WalkerDragStress` reports derivatives that are wrong below the initial drag stress (C75_drag_refuted); at the initial state of every Walker model the derivative of the flow rate by the isotropic strength is wrong (C75_initial_state_refuted).
* `WalkerKinematicHardening` has a limit that jumps at zero plastic strain unless l = l1 + 1 (C75_kinematic_limit_refuted).
* `WalkerFlowRule` and `TestFlowRule` inside `SuperimposedViscoPlasticFlowRule`: the cached history carries the unprefixed names, so every lookup of a prefixed name fails (C76_superposition_refuted).
* The Python solvers take a NaN residual for convergence and report convergence in the last allowed iteration as failure (C77_*_refuted).
* `UniaxialModel.elastic_strains` hands the model a store with five foreign entries in front (C78_elastic_strain_refuted); its `nstore` and `nhist` properties lack `self` and raise on every access.
* `strain_hold_step` has the Jacobian of component 0 whatever component is held, and fails for others (C79_hold_refuted); `srate_sinc_step` scales time with the length of the direction and takes rates up to 1e-8 for zero (C79_direction_length_refuted, C79_slow_loading_refuted); `erate_step` over no time returns its guess (C79_no_time_refuted).
* `uniaxial_test` with a direction that is not of length one reports scaled strains (C80_uniaxial_direction_refuted); `strain_cyclic` with negative maximum strain runs backwards in time, and with R > 1 reverses the wrong way (C80_cyclic_*_refuted).
* `creep`: logarithmic holds start one unit of time after loading, and compression creep counts as failure (C80_creep_*_refuted); `isochronous_curve` uses the strain before the last step of the hold, and is flat at zero if its first test fails (C80_isochronous_*_refuted).
* `thermomechanical_strain_raw` returns thermal for mechanical strain and drops the last point (C80_thermomechanical_refuted); `classify` calls identical cycles ratcheting if a strain returns to zero (C80_steady_refuted); `def_grad_driver` sees stretching in a rotation (C80_deformation_gradient_rotation_refuted).
* `BarModel.solve` that fails after some substeps keeps them (C81_failure_refuted), never ends for ndiv=0 (C81_endless_refuted), and records the energy as dissipation (C81_dissipation_refuted).
* `BreeProblem.step` ignores rtol and atol, squares the weights in energy and work, and gets out of step with its network after a failure; `update_loading` keeps recording the old pressures (C82_*_refuted).
* `AxisymmetricProblem.step` that divides a step evaluates temperatures and pressures of later times than the entry it records (C83_substep_time_refuted); convergence in the last allowed iteration raises (C83_last_iteration_refuted); the axial balance uses the plain mean over the thickness and not the force on the rings (C83_axial_force_refuted).
* `stress_relaxation` drops the start (and the last point) of the relaxation from its columns (C85_relaxation_peak_refuted); logarithmically spaced holds last one time unit less than asked and run backwards below one unit (C85_log_hold_refuted).
* `strain_cyclic_followup` adds the full amplitude after each hold, so strains wander from the limits (C85_followup_limits_refuted); `stress_cyclic` returns more times than strains after a stop and does not check the first ramp (C85_stress_cyclic_stop_refuted); `rate_jump_test` silently does nothing for target strains at or below the current one (C85_rate_jump_down_refuted).
* `strain_cyclic_extrapolated` extrapolates the stress with the change over two cycles, does not advance time, compares only stress component 0 with the allowed jump whatever the axis (C85_extrapolated_stress_refuted) and raises for a minimum of fewer than two cycles (C85_extrapolated_minimum_refuted).
* `HuCocksPrecipitationModel::switching_function_` leaves its derivative uninitialised when there is no precipitate (C86_no_precipitate_refuted); the rates divide by the driving force, zero at equilibrium (C86_equilibrium_refuted).
* `HuCocksHardening::init_hist` and `GeneralizedHuCocksHardening::init_hist` zero the whole history, so that a single crystal starts half turned about z instead of in `initial_rotation` and strengths listed earlier start at zero (C87_start_refuted, C87_strength_start_refuted).
* `ArrheniusSlipRule` jumps at zero shear stress (C87_arrhenius_zero_refuted) and is not a number beyond the strength (C87_arrhenius_strength_refuted).
* `GeneralizedHuCocksPrecipitationModel` counts the volume of precipitates without a species as solution, so that species is not conserved (C88_mass_refuted, by the amount in C88_mass_missing); `d_ripening_rate` counts the effect of the volume fraction on the number density twice (C88_jacobian_refuted); the effective volume of a species without precipitate is 0/0 (C88_unused_species_refuted).
* `Matrix::operator()` uses the number of rows as row length, so for matrices that are not square entries coincide, lie outside the storage and differ from those `dot` uses (C89_rectangular_*_refuted); `FlatVector` has no assignment operator and `Matrix` no copy constructor, so the generated ones free memory twice or never (C89_memory_*_refuted).
* Both inverse projections of `polefigures.py` return the mirror image in the plane of the plot (C90_inverse_*refuted); `pole_figure_discrete` applies the sample symmetry to the poles in the crystal frame, so the figure lacks it and for cubic crystals the option does nothing (C90_pole_sample_symmetry_*refuted); x and y are not the plot axes unless they are the defaults (C90_pole_axes_refuted); the reduced cubic figure has no point for half of the directions unless the sample symmetry reverses the direction, and raises an IndexError (C90_cubic_missing_refuted); a left handed triangle drops all its points (C90_triangle_reversed_refuted).
* The Abaqus user material divides the tangent by the strain factors instead of multiplying, so the shear columns of DDSDDE are twice the derivative (C91_tangent_refuted); it accesses six components whatever NTENS (C91_elements_refuted); a refused increment leaks the loaded model (C91_leak_refuted). The example programs report an error of `elastic_strains` as a failed update of the next step (C91_program_error_refuted).
* C92: a required parameter cannot be given by keyword, a parameter given positionally and by keyword silently takes the keyword, an unknown keyword with a value that is no number is reported as a failed cast, a list of numbers and objects is refused, and pickling keeps only six digits of each double.
* C93: GeneralLattice and CubicLattice declare `twin_systems` with the type of slip systems but read it as twin systems, so twins given to their constructors are ignored (and refused from Python) and twins added later are lost on saving (C93_twins_refuted, C93_given_refuted, C93_python_refuted); a lattice read back has all slip groups first, whatever the order of the additions, so histories of its systems are numbered differently (C93_order_refuted); additions are recorded before they are checked, so after one that failed the saved lattice cannot be read (C93_failed_refuted).
* C94: results for array arguments that are not C contiguous doubles (Fortran order, slices, float32) are written into a temporary copy and lost without an error: `block_evaluate`, `set_passive_orientation`, `set_active_orientation`, `update_nye` (C94_block_refuted, C94_in_place_refuted). `update_sd` and similar do not check sizes (C94_sizes_refuted); `block_evaluate` reads a shape that does not exist when a temperature is a plain number (C94_block_scalar_refuted). `Orientation(array of four)` reads freed memory for a non-contiguous array and matrices of any size are taken for 3 by 3 (C94_orientation_*_refuted). `History.set_data` keeps a pointer without keeping the array alive (C94_history_*_refuted). `RankTwo` and `RankFour` accept index 3 (C94_two_index_refuted, C94_four_index_refuted).
* C95: `uniaxial_test` searches the yield point between 0 and the largest (signed) strain of a curve of magnitudes, so every compression test (sdir negative) reports an infinite yield strength (C95_compression, C95_compression_refuted). On curves that steepen again the offset point is not unique and the root finder decides (C95_ambiguous_refuted).
* C96: `def_grad_driver` uses the gradient at the end of the step, so a rigid rotation by angle a in n steps gives normal strains n (1 - cos(a/n)) (C96_rotation_refuted; bounded by a^2/(2n), C96_rotation_small).
* C97: `SmallStrainCreepPlasticity` adds the variables of its plastic model first and plastic_strain last, but its updates use the first six entries as plastic strain: names do not match entries, and non-zero initial values of the plastic model start as plastic strain (C97_names_refuted, C97_start_refuted).
* C97: `KMRegimeModel::populate_state` adds the whole history of its first model: nstate counts the stress, a creep or damage model around it reads six entries past the end of the store, the initial damage is zeroed, and with a prefix init_store throws (C97_nstate_refuted, C97_reads_inside_refuted, C97_reads_creep_refuted, C97_start_inside_refuted, C97_prefix_refuted); regimes with more variables than the first read past the end (C97_reads_sizes_refuted).
* C97: `get_damage` looks a prefixed name up in a history cached without prefix: after set_variable_prefix it throws (C97_damage_prefix_refuted).
* C98: `set_elastic_model` of a damaged model does not reach its damage model: StandardScalarDamage and WorkDamage go on computing inelastic strain and work with the old elastic constants (C98_damage_refuted).
* C98: constructors store their elastic model without handing it to the inner model, and calls reach shared inner models: elastic() of a model may differ from the elastic model its update uses (C98_constructors_refuted, C98_shared_refuted).
* C99: the constructors of Chaboche, ChabocheVoceRecovery, RegionKMCreep, KMRegimeModel, MaxSeveralEffectiveStress, FixedStrengthHardening, VocePerSystemHardening, FASlipHardening, LANLTiModel and HuCocksPrecipitationModel do not compare the lengths of their lists: lists that do not fit are accepted and read past their end (C99_lists_refuted).
* C99: LANLTiModel is accepted only if the lattice has as many twin as slip systems, and reads outside its matrix if a twin comes before a slip system (C99_lanl_sizes, C99_twin_first_refuted).
* C99: d_hist_d_s and d_hist_d_h of VocePerSystemHardening and FASlipHardening lack the check against the lattice that hist has (C99_voce_derivative).
* C100: text after a number is ignored: a decimal comma loses the fraction, `1,2,3` is the list [1], `1e3` where an int is wanted is 1 (C100_comma_refuted, C100_comma_list_refuted, C100_cut_refuted); a negative size becomes a size near 2^64 (C100_size_refuted); a blank before or after a switch is an error although it is harmless around numbers (C100_bool_blank_refuted).
* C101: every update leaves a zero Nye tensor in the new store (the copy is commented out), so a tensor given once acts in one update only and the reported strength drops after it (C101_exact, C101_strength_lost_refuted, C101_kept_refuted).
* C101: VoceSlipHardening::use_nye means to ask whether k is a constant zero, but a dynamic_pointer_cast never throws, so any k that vanishes at zero degrees switches the Nye part off at every temperature (C101_cold_refuted).
* C102: param_type keeps one member per type and never compares the type asked for with the one assigned: twin systems given to GeneralLattice and CubicLattice as the type they declare never arrive (C102_lattice_refuted), an integer assigned to a real parameter in C++ leaves an indeterminate number (C102_other_type_refuted), and a character literal keeps its first character only, which is why the one-letter defaults of the Walker model work (C102_literal_refuted).
* C103: Tensor::operator=(Tensor &&) takes over the pointer of a right side that is a window, but not its ownership flag: a window assigned from a window copies nothing (C103_move_window_refuted; the commented-out line src/cp/singlecrystal.cxx:311 would do nothing if it were switched on), and a tensor that owns its numbers loses them and deletes the caller's array when it is destroyed (C103_move_owner_refuted). Quaternion(const Quaternion &) of a window is another window (C103_quaternion_copy_refuted). Adding an overlapping window that begins earlier counts numbers twice (C103_add_overlap_refuted). In the code as it is, the right sides of move assignments are temporaries that own their numbers.
* C104: History::make_store, documented as 'convert to store', does not keep the numbers of the window: the history shows indeterminate memory (C104_make_store_refuted). History::increase_store is public and on a history laid over an array deletes that array; with less room than numbers it writes past the end (C104_increase_store_refuted). No code in the repository does either.

## What is modelled

Citations found in the model files (file of /repo: line ranges).

* `ArrModel.v`: include/pyhelp.h 34-38; src/models_wrap.cxx 23-49; src/block_wrap.cxx 93-132, 49-160; src/math/rotations_wrap.cxx 92-115; src/history_wrap.cxx 32-41; src/math/tensors_wrap.cxx 163-175, 474-490
* `AxiModel.v`: neml/axisym.py 431-494, 452-504, 252-254, 466-490, 669-683, 685-781, 506-586, 588-666
* `BarModel.v`: neml/arbbar.py 305-336, 283, 273-286, 288-296, 310-340, 216-242, 56-64, 247-257, 219-232, 231-242, 166, 163-170, 172-214, 193-196, 190-196, 202-211, 188-211, 180-186, 171-213, 147-160, 122-133, 134-135, 111-139, 66-111, 66-109; neml/uniaxial.py 
* `BlockModel.v`: src/block.cxx 9-138, 9, 9-9, 12-14, 17-19, 22-135, 192-211, 201-206, 208-213, 140-192, 163-166; src/cinterface.cxx 62-70, 72-89, 30-38; src/math/nemlmath.cxx 894-898
* `BreeModel.v`: neml/axisym.py 262-274, 324-328, 285-363; neml/arbbar.py 67
* `CdModel.v`: src/math/projections.cxx ; src/cp/crystaldamage.cxx 519-523, 438-442, 7-13, 179-200, 247-283, 285-316; src/cp/kinematics.cxx 285-655, 619-622, 326-346, 485-541; include/cp/crystaldamage.h ; src/cp/crystallography.cxx 531-555
* `CpModel.v`: src/cp/inelasticity.cxx 7-11, 115-139, 56-141, 175-338, 335-483, 485-680, 564-653; src/cp/kinematics.cxx 51-300, 115-130, 246-261; include/cp/inelasticity.h ; include/math/tensors.h 386-395; src/history.cxx 86-101; src/math/tensors.cxx ; src/cp/singlecrystal.cxx 359-429
* `CreepModel.v`: src/creep.cxx 19-31, 63-78, 120-136, 174-207, 210-219, 340-368, 313-338, 401-453, 371-468, 511-531, 594-615, 752-815, 817, 789-794, 796-801, 803-808, 810-815, 752-766, 728-815, 618-642, 991-998, 1000-1003, 1005-1015, 1017-1026, 892-905, 645-725, 694-707, 645-665; src/models.cxx 1120-1302, 141-154, 1203-1245, 1120-1125; include/creep.h 
* `CrystModel.v`: src/cp/crystallography.cxx 13-132, 69-132, 195-241, 251-267, 269-275, 277-283, 753-757, 701-720, 305-325, 327-363, 571-590, 592-610, 365-454, 472-475, 456-465, 477-480, 497-500, 536-539, 541-544, 546-555, 502-506, 508-512, 502-512; src/math/rotations.cxx 620-627; src/math/tensors.cxx 146-157, 265-270, 246-256, 126-133; include/math/nemlmath.h 175-176; src/math/nemlmath.cxx 
* `CycModel.v`: neml/drivers.py 872-873, 1218-1219, 428, 875-876, 1213-1214, 1205-1211, 360-451, 1168-1254, 824-1008, 1245-1254, 1011-1166, 1420-1472, 619-821, 707-744, 697-816
* `DamageModel.v`: src/damage.cxx 590-594, 583-588, 619-624, 1571-1576, 1667-1672, 619-637, 657-670, 699-719, 721-762, 699-762, 788-828, 872-886, 857-870, 888-938, 928-938, 327-332, 340-394, 334-394, 422-488, 522-588, 973-1036, 1066-1145, 1153-1289, 1262-1289, 1147-1289, 1537-1576, 1610-1672, 1325-1506, 1499-1506, 86-309, 172-226, 37-50, 317-320; src/larsonmiller.cxx 46-94; include/damage.h 132-183
* `DeclModel.v`: include/objects.h 86-98, 337-357, 21-25, 42-45, 55-67, 41, 43-46, 70-80, 42, 82, 38-39, 41-46, 194-200, 177-200, 203-248, 329-335, 269-271, 162-272, 119-160, 177-181, 184-190, 176-200, 314-318, 203-208, 217, 236; src/objects.cxx 30-34, 124-130, 98-102, 63-76, 78-87, 104-112, 98-112; src/cp/crystaldamage.cxx 549-551, 161-171, 138-149; include/cp/crystaldamage.h 127
* `DenseModel.v`: src/math/matrix.cxx 9-57, 75-78, 222-228, 144-208; include/math/matrix.h 40-62; include/math/nemlmath.h 11
* `DgModel.v`: neml/drivers.py 1578-1641, 1610-1614, 1605-1623
* `DrvModel.v`: neml/drivers.py 12-41, 72-88, 17-41, 90-140, 154-168, 170-221, 170-193, 195-221, 223-279, 281-293, 295-316, 318-358, 170-358
* `ElasticModel.v`: src/elasticity.cxx 54-71, 185-241, 111-133, 119-125, 127-133, 135-156, 158-183, 95-109, 103-109, 243-328, 243-253, 307-328, 277-299, 330-413, 330-343, 369-413, 301-305, 392-396; include/elasticity.h 80-81
* `EmModel.v`: src/models.cxx 95-104, 174-177, 190-193, 1304-1308, 1602-1607, 1706-1712, 1073-1086, 1311-1317; src/damage.cxx 30-35, 327-332, 396-400; src/general_flow.cxx 26-29, 36-42, 338-341; src/walker.cxx 5-10, 328-331; include/models.h ; include/damage.h 
* `GhModel.v`: src/cp/generalizedhucocks.cxx 122-150, 122-136, 104-113, 204-218, 221-248, 83-87, 276-289, 292-318, 321-328, 331-346, 349-360, 363-376, 379-405, 408-455, 458-478, 481-517, 520-544, 563-591, 594-605, 608-628, 667-671, 682-693, 696-734; include/cp/generalizedhucocks.h 51-55, 55, 51-53
* `GradModel.v`: neml/axisym.py 13-56, 33-36, 137-140, 38-54, 110-166, 142-164, 58-108, 168-213
* `HardModel.v`: src/hardening.cxx 12-16, 18-32, 63-75, 116-127, 161-173, 222-239, 271-291, 342-359, 406-440, 366-440, 442-446, 531-537, 576-582, 503-541, 546-594, 599-611, 948-956, 1331-1339, 687-710, 657-827, 672-685, 712-765, 767-827, 898-936, 1287-1324, 920-936, 638-956, 829-848, 859-896, 599-956, 1010-1339, 1209-1233, 1244-1285, 961-1339; include/hardening.h 
* `HcModel.v`: src/cp/hucocks.cxx 443-491, 428-434, 437-440, 462-491, 500-526, 345-354, 357-373, 220-230, 233-245, 248-258, 261-269, 272-279, 282-289, 292-299, 388-391, 394-397, 400-404, 407-410, 192-199, 202-208, 211-217, 308-314, 317-324, 327-333, 336-342, 153-157, 160-164, 167-172, 175-180, 141-144, 147-150, 99-104, 107-114, 117-132, 639-673, 879-884, 1095-1103, 896-907, 910-949, 1105-1187
* `HistModel.v`: src/history.cxx 86-101, 148-155, 8-60, 227-260, 157-183, 238-260, 185-190, 192-201, 287-354, 287-340, 342-354, 268-285, 391-414; include/history.h 15-24, 37-44, 50-62, 222-223, 121-127, 257-263, 120-131, 181-207, 180-208
* `HstModel.v`: src/history.cxx 8-200, 256-260, 78, 110, 140, 187-189, 258, 11, 29-30, 154, 179-180, 62-68, 176-183; include/history.h 243-246, 256-262
* `InterpModel.v`: src/interpolate.cxx ; src/math/nemlmath.cxx 970-978, 1007-1025, 980-1005
* `LatModel.v`: include/objects.h 35-80; src/cp/crystallography.cxx 243-267, 327-363, 612-775, 612-623, 658-669, 701-720, 269-275, 746-751, 277-283, 753-757, 646-651, 630-644, 251-267, 365-454, 625-644, 671-687, 722-739, 151-158, 327-512; src/objects.cxx 20-23; src/parse.cxx 27-37
* `LayModel.v`: src/models.cxx 28-104, 156-167, 486-492, 560-568, 797-806, 1120-1131, 1463-1472, 1677-1688, 486-488, 797-801, 1120-1125, 1463-1467, 1677-1683, 156-159, 803-806, 1127-1131, 74-77, 79-82; src/damage.cxx 17-28, 142-150, 236-247, 311-315, 17-22; src/history.cxx 438-514, 443-451
* `LdModel.v`: src/models.cxx 195-230, 107-139, 106-139; include/math/nemlmath.h 33, 34; src/math/nemlmath.cxx 894-898, 872-892
* `LenModel.v`: src/hardening.cxx 599-611, 603, 948-956, 687-710, 829-847; src/creep.cxx 356-362, 340-368; src/models.cxx 1609-1619, 1665-1674, 1609-1675; src/damage.cxx 888-896, 871-886, 862-869; src/cp/slipharden.cxx 102-108, 330-334, 265-288, 505-509, 511-527, 580-587, 740-755, 935-963, 949-951, 1024-1052, 1088-1115; src/cp/hucocks.cxx 418-425, 448-456, 442-459; src/interpolate.cxx 618-626; src/math/matrix.cxx 75-78; include/cp/slipharden.h 496-497
* `NemlMathModel.v`: src/math/nemlmath.cxx 740-761, 740-748, 750-761, 763-768, 770-781, 498-536, 538-621, 284-304, 306-389, 391-411, 413-496, 12-50, 52-90, 92-112, 114-197, 199-282, 642-726, 728-738, 818-828, 830-836, 1165-1168, 1170-1182, 1027-1031, 1033-1040, 1042-1051, 1053-1077, 1066-1077, 1106-1109, 1111-1125, 1127-1135, 623-640; include/math/nemlmath.h 
* `NlModel.v`: neml/nlsolvers.py 48, 96, 174, 219, 122-144, 48-59, 18-120, 66-120, 18-64, 146-190, 192-239; neml/arbbar.py 376, 405-427, 376-399, 352-403
* `NyeModel.v`: src/cp/singlecrystal.cxx 492-495, 69-80, 64-98, 207-219, 497-504, 459-476, 82-98, 100-105, 125-135, 125-175, 125-325; src/cp/inelasticity.cxx 18-60, 182-186, 335-377, 527-537, 13-16, 330-333, 655-661, 56-60, 372-377; src/cp/slipharden.cxx 1360-1376, 1623-1769, 53-56, 1685-1699, 1761-1764, 1360-1371, 1337-1344, 1514-1525, 1543-1549; src/cp/sliprules.cxx 247-253, 104-120; src/cp/kinematics.cxx 95-113; src/math/rotations.cxx 89-92; include/history.h 120-127; src/models.cxx 66-72
* `ParseModel.v`: src/objects.cxx 63-76, 78-87, 25-35, 109-125; src/parse.cxx 306-340, 342-392, 246-266, 296-304, 257-266, 480-484, 394-403, 405-415, 306-392; src/deparse.cxx 153-193, 195-209; include/objects.h 86-98, 35-66, 316-318
* `PlastModel.v`: src/models.cxx 269-379, 269-454, 494-516, 381-461, 628-659, 723-752, 729-752, 673-720, 1042-1068, 914-1040, 914-1035, 1559-1600, 1488-1556, 1690-1704, 1661-1674, 1650-1675; src/solvers.cxx ; include/models.h ; include/general_flow.h 
* `PoleModel.v`: neml/cp/polefigures.py 15-33, 11, 340-368, 370-407, 340-407; src/math/tensors.cxx 237-244
* `PolyModel.v`: src/cp/batch.cxx 11-47, 34-40, 22-49, 49-93, 57-69, 49-55, 83-93, 71-81; src/cp/polycrystal.cxx 9-31, 65-103, 65-68, 70-73, 75-78, 80-83, 65-83, 152-217; src/cp/postprocessors.cxx 68-124, 40-52
* `PycModel.v`: include/pyhelp.h 112-181, 184-206, 19-27
* `RiModel.v`: src/ri_flow.cxx 7-11, 42-179, 42-49, 212-327, 183-190; include/ri_flow.h 
* `RotModel.v`: src/math/rotations.cxx 15-58, 15-22, 99-107, 109-120, 270-276, 122-128, 278-284, 130-136, 286-292, 138-144, 294-302, 304-335, 304-318, 320-335, 162-167, 248-253, 337-345, 759-764, 853-858, 169-174, 236-246, 347-352, 176-180, 262-267, 182-185, 255-260, 187-190, 192-199, 402-443, 213-234, 777-791, 567-583, 751-757, 766-770, 860-865, 772-775, 380-393, 453-463, 793-814, 816-837, 839-851, 474-488, 499-510, 520-531, 540-559, 641-656, 658-663, 594-618, 620-639, 665-678, 682-697, 700-720, 867-884, 886-890, 892-908, 910-922, 924-947, 956-959, 949-964, 966-971, 1050-1053, 1027-1036, 1038-1048, 1055-1069, 1071-1078, 1081-1088, 1112-1118, 1120-1128, 981-993; src/math/tensors.cxx 197-204, 224-235, 219-222, 442-453, 404-411, 646-656
* `ScModel.v`: src/cp/singlecrystal.cxx 5-26, 359-429, 685-691, 332-345, 700-716, 125-175, 197-205, 224-306, 177-325, 445-457, 459-476, 478-490; src/math/tensors.cxx 1504-1507; include/cp/singlecrystal.h 22-45
* `SlipModel.v`: src/cp/sliprules.cxx 139-182, 90-95, 122-137, 157-182, 184-193, 195-204, 206-245, 255-348, 379-436; src/cp/slipharden.cxx 239-263, 602-631, 1706-1769, 1766-1769; src/cp/crystallography.cxx 456-524, 472-475, 477-480, 482-485, 514-518; include/cp/slipharden.h 26-94
* `SolverModel.v`: src/solvers.cxx 139-164; src/nemlerror.cxx ; include/nemlerror.h 11-33; include/solvers.h 13-21, 28-41
* `StoModel.v`: src/math/tensors.cxx 11-119, 71, 77-80, 89, 100-102, 114-116, 121-123, 11-23, 37-42, 112-117, 11-124; src/math/rotations.cxx 15-100, 345-358, 15-83, 72, 80, 24-28, 354-358; include/math/tensors.h 54-57, 41; include/math/rotations.h 
* `SubstepModel.v`: src/models.cxx 269-379
* `SurfModel.v`: src/surfaces.cxx 65-73, 68-71, 261-280, 75-82, 84-90, 92-129, 136-154, 131-163, 165-196, 198-212, 37-212, 249-259, 282-291, 293-338, 345-361, 340-369, 371-400, 402-443, 216-443; include/surfaces.h 28-57, 60-165, 60-220, 225-229, 298-302
* `TensorModel.v`: src/math/tensors.cxx 581-584, 517-522, 531-536, 538-543, 552-557, 545-550, 559-564, 740-744, 419-423, 927-931, 746-750, 933-937, 717-720, 722-726, 757-760, 949-952, 1181-1188, 1396-1403, 1141-1150, 1376-1384, 1786-1817, 1578-1614, 1819-1831, 1611-1623, 1391-1394, 1904-1914, 2091-2104, 2106-2119, 2138-2153
* `TestsModel.v`: neml/drivers.py 453-617, 514-528, 540-553, 555-569, 360-451, 1256-1361, 1475-1535, 1497-1500, 1363-1418, 1460-1465, 1554-1576, 1630-1641, 1637-1641, 1605-1611
* `TextModel.v`: src/parse.cxx 429-478, 440-468, 429-438, 450-458, 460-468; src/deparse.cxx 107-209, 107-151
* `UniModel.v`: neml/uniaxial.py 37-117, 71-117, 119-128, 130-141, 37-41, 64-69, 90-117; neml/drivers.py 
* `ViscoModel.v`: src/visco_flow.cxx 17-102, 109-620, 194-211, 213-247, 249-296, 515-522, 524-539, 507-608, 657-666, 657-676, 708-876, 925-990, 1026-1034, 1067-1082, 1118-1311, 1313-2009, 1359-1379, 1381-1411, 1489-1528, 1552-1619, 1792-1849, 1337-1849, 1869-1907, 1854-1984; src/general_flow.cxx 76-346; include/visco_flow.h 606
* `WalkerModel.v`: src/walker.cxx 441-449, 401-449, 515-518, 510-513, 528-567, 1102-1141, 927-935, 1258-1272, 1424-1431, 1440-1445, 1447-1454, 1473-1482, 1347-1356, 1713-1789, 1707-1711, 1791-1820, 1849-1857, 1927-1934, 2312-2321, 2323-2332, 1874-1883, 1885-1925, 1936-1940, 1942-1951, 1849-2362, 1500-1504; include/walker.h 150; include/internalvariable.h 62-76, 36-76; include/math/tensors.h 386-395; src/visco_flow.cxx 120
* `YldModel.v`: neml/drivers.py 428-438, 1546, 1546-1552, 1537-1552

## What is not modelled

* Floating point rounding, overflow, NaN propagation (except in the Newton solvers), memory management and OpenMP scheduling.
* LAPACK/BLAS/numpy.linalg internals (oracles constrained by the equation they solve), rapidxml's text-to-tree step, pybind11 wrappers (`*_wrap.cxx`; construction and pickling, and how arrays and indices are taken, are modelled; one-line forwarding methods are not).
* neml/cp/polefigures.py: inverse_pole_figure_trajectory (the same steps per time) and everything matplotlib does.
* neml/drivers.py: plotting, the iterations inside scipy (interp1d and brentq are modelled by what they return), the starting history of rate_jump_test.
* util/: the report program, reading the command lines and printing, single precision `sqrt(2.0)`; the documentation and the test suite.
