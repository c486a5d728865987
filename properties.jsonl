{"id": "C01", "title": "Interpolate.derivative is the derivative of Interpolate.value", "statement": "For every interpolate type (polynomial, piecewise linear, log-linear, semi-log-x, constant, exponential, power law, MTS shear, MTS) derivative(x) is exactly d/dx value(x) at every x of the smooth part of its domain (away from knots, positive where a power or log is taken).", "quantifier": "every interpolate object with any parameters and any number of points, every admissible x", "why_tests_cant": "Unit tests compare the analytic derivative with a finite difference at a handful of points to ~1e-4; they cannot show the formula is the derivative everywhere, on every branch and for every parameter value.", "anchors": ["src/interpolate.cxx:PolynomialInterpolate", "src/interpolate.cxx:PiecewiseLinearInterpolate", "src/interpolate.cxx:PiecewiseLogLinearInterpolate", "src/interpolate.cxx:PiecewiseSemiLogXLinearInterpolate", "src/interpolate.cxx:ExpInterpolate", "src/interpolate.cxx:PowerLawInterpolate", "src/interpolate.cxx:MTSShearInterpolate", "src/interpolate.cxx:MTSInterpolate", "src/math/nemlmath.cxx:polyval", "src/math/nemlmath.cxx:differentiate_poly"]}
{"id": "C02", "title": "Piecewise interpolates pass through their knots, clamp outside and stay between neighbours", "statement": "A valid piecewise linear / log-linear / semi-log-x interpolate with strictly increasing points returns exactly values[i] at points[i], returns the first/last value left/right of the table, lies between the two bracketing values inside, never indexes out of range, and is continuous.", "quantifier": "every valid table of any length, every x", "why_tests_cant": "Tests use a few tables and points; the property is over all tables and all real x.", "anchors": ["src/interpolate.cxx:PiecewiseLinearInterpolate::value", "src/interpolate.cxx:PiecewiseLogLinearInterpolate::value", "src/interpolate.cxx:PiecewiseSemiLogXLinearInterpolate::value"]}
{"id": "C03", "title": "A valid GenericPiecewiseInterpolate evaluates without leaving its function table", "statement": "If valid() is true then value(x)/derivative(x) evaluates one of the supplied functions, for every x.", "quantifier": "every object whose valid() is true, every x", "why_tests_cant": "Tests only exercise one object (for which valid() is in fact false); an out of range access is silent.", "anchors": ["src/interpolate.cxx:GenericPiecewiseInterpolate"]}
{"id": "C04", "title": "The nonlinear solver never returns an unconverged state", "statement": "If the Newton solver returns normally with a positive iteration limit then the returned x is one at which the residual norm meets the absolute or relative tolerance; NaN residuals and exhausted iteration limits raise NonlinearSolverError instead.", "quantifier": "every system (arbitrary residual/Jacobian functions), start point, tolerance, line search flag and iteration limit >= 1", "why_tests_cant": "A test sees only the systems it constructs; silent non-convergence shows only for particular residual histories.", "anchors": ["src/solvers.cxx:newton", "include/solvers.h:SolverParameters"]}
{"id": "C05", "title": "The nonlinear solver does a bounded amount of work", "statement": "The Newton solver terminates for every system, with at most miter accepted iterations and at most 1+10*miter residual evaluations (1+miter without line search).", "quantifier": "every system including NaN-producing and non-contracting ones", "why_tests_cant": "Termination for every residual function is not testable.", "anchors": ["src/solvers.cxx:newton"]}
{"id": "C06", "title": "Adaptive substepping covers the requested step exactly", "statement": "When a substepping material update returns normally, the substeps it integrated are consecutive, start at the previous state, end exactly at the requested strain, temperature and time, and there are at most 2^max_divide of them; otherwise it raises.", "quantifier": "every pattern of per-substep failures/successes, every max_divide, every start and end state", "why_tests_cant": "The number of failure patterns is exponential and failures depend on solver behaviour.", "anchors": ["src/models.cxx:SubstepModel_sd::update_sd_actual"]}
{"id": "C07", "title": "Adaptive substepping terminates", "statement": "The substepping loop ends for every material, after at most 2^max_divide successes plus max_divide failures.", "quantifier": "every (even adversarial) sequence of update_step outcomes", "why_tests_cant": "Needs every schedule of failures.", "anchors": ["src/models.cxx:SubstepModel_sd::update_sd_actual"]}
{"id": "C08", "title": "History variables never alias", "statement": "After any sequence of successful add calls, distinct variables occupy disjoint storage ranges inside the array, the total size is the sum of variable sizes, and writing one variable leaves every other variable unchanged.", "quantifier": "every sequence of add operations with any names and types", "why_tests_cant": "Quantifies over every operation history.", "anchors": ["src/history.cxx:History", "include/history.h:History::add"]}
{"id": "C09", "title": "History rejects duplicate names and wrong-type/missing lookups", "statement": "add of an existing name raises; get of a missing name raises; get with the wrong type raises; otherwise get returns the last value stored.", "quantifier": "every history, name and type", "why_tests_cant": "Quantifies over every history.", "anchors": ["include/history.h:History::get", "include/history.h:History::add"]}
{"id": "C10", "title": "History reorder keeps name -> value", "statement": "After reorder(names) with a permutation of the names, get(name) returns the same value as before for every name.", "quantifier": "every history and permutation", "why_tests_cant": "Tests only look at the flat array order, not at named access afterwards.", "anchors": ["src/history.cxx:History::reorder"]}
{"id": "C11", "title": "History split/subset/copy_blank/union keep layout", "statement": "split(prefix) returns the remaining variables with unchanged values and order; subset returns the named variables with their values; copy_blank returns the same layout minus the excluded names; add_union appends the other's layout.", "quantifier": "every history and every argument", "why_tests_cant": "Quantifies over every history and argument list.", "anchors": ["src/history.cxx:History::split", "src/history.cxx:History::subset", "src/history.cxx:History::copy_blank", "src/history.cxx:History::add_union"]}
{"id": "C12", "title": "Saved objects reload with the same parameters", "statement": "Writing an object's parameter set as XML and reading it back yields the same parameters (types, vectors, nested objects, slip systems).", "quantifier": "every parameter set of the supported types", "why_tests_cant": "Infinite value and nesting space.", "anchors": ["src/deparse.cxx", "src/parse.cxx"]}
{"id": "C13", "title": "Saved floating point parameters reload exactly", "statement": "A floating point parameter written by save/serialize reads back as the same value.", "quantifier": "every double", "why_tests_cant": "Tests use short decimals only.", "anchors": ["src/deparse.cxx:deparse", "include/deparse.h"]}
{"id": "C14", "title": "Unregistered types and bad parameters give the documented errors", "statement": "Creating or parsing an unregistered type raises the documented UnregisteredError; unknown parameter names raise UnknownParameter; missing mandatory parameters raise UndefinedParameters.", "quantifier": "every type and parameter name", "why_tests_cant": "Name space is infinite.", "anchors": ["src/objects.cxx:Factory", "src/objects.cxx:ParameterSet", "src/parse.cxx"]}
{"id": "C15", "title": "Mandel notation is an isometry", "statement": "Converting a symmetric tensor to its 6-vector and back is the identity, the 6-vector dot product is the tensor double contraction, and the 6x6 matrix product represents composition/action of the fourth order tensors; same for the 3-vector skew form.", "quantifier": "every tensor", "why_tests_cant": "Universal algebraic identity.", "anchors": ["src/math/nemlmath.cxx:sym", "src/math/nemlmath.cxx:usym", "src/math/nemlmath.cxx:skew", "src/math/nemlmath.cxx:uskew", "src/math/nemlmath.cxx:full2mandel", "src/math/nemlmath.cxx:mandel2full"]}
{"id": "C16", "title": "Elastic compliance is the inverse of stiffness", "statement": "For isotropic elasticity C(T) S(T) = S(T) C(T) = I, both symmetric, for any admissible pair of moduli; C acts as K tr(e) I + 2 G dev(e).", "quantifier": "every temperature and every pair of positive moduli", "why_tests_cant": "Holds for all parameters.", "anchors": ["src/elasticity.cxx:IsotropicLinearElasticModel"]}
{"id": "C17", "title": "Every modulus pair defines the same material", "statement": "For each accepted pair of elastic constants the reported E, nu, G, K satisfy the isotropic elasticity relations, reproduce the two inputs, and all pairs describing one material give the same stiffness.", "quantifier": "all modulus pairs, all admissible values", "why_tests_cant": "Continuous parameter space.", "anchors": ["src/elasticity.cxx:IsotropicLinearElasticModel::get_GK_"]}
{"id": "C18", "title": "Anisotropic stiffnesses have the symmetry they are named after", "statement": "The cubic stiffness is invariant under the cubic rotations; the transversely isotropic stiffness is invariant under every rotation about the z axis.", "quantifier": "every set of constants and (for transverse isotropy) every angle", "why_tests_cant": "Continuous family of rotations.", "anchors": ["src/elasticity.cxx:CubicLinearElasticModel", "src/elasticity.cxx:TransverseIsotropicLinearElasticModel"]}
{"id": "C19", "title": "Yield surface derivatives are the derivatives", "statement": "For each yield surface df_ds, df_dq are the gradient of f, and df_dsds, df_dqdq, df_dsdq, df_dqds the derivatives of those gradients, away from the non-smooth point.", "quantifier": "every stress, hardening variable and temperature off the singular set", "why_tests_cant": "Unit tests compare the analytic derivative with a finite difference at a handful of points to ~1e-4; they cannot show the formula is the derivative everywhere, on every branch and for every parameter value.", "anchors": ["src/surfaces.cxx:IsoKinJ2", "src/surfaces.cxx:IsoKinJ2I1", "include/surfaces.h:IsoFunction"]}
{"id": "C20", "title": "The J2 surface ignores pressure and the I1 surface responds to it as documented", "statement": "Adding hydrostatic stress does not change the J2 yield function; the I1 variant is monotone in it.", "quantifier": "every stress and pressure", "why_tests_cant": "Continuous.", "anchors": ["src/surfaces.cxx:IsoKinJ2::f", "src/surfaces.cxx:IsoKinJ2I1::f"]}
{"id": "C21", "title": "Hardening rule derivatives are the derivatives", "statement": "dq_da is the Jacobian of q for every associative hardening rule (linear, interpolated, Voce, power law, combined isotropic, linear kinematic, combined).", "quantifier": "all states and parameters", "why_tests_cant": "Unit tests compare the analytic derivative with a finite difference at a handful of points to ~1e-4; they cannot show the formula is the derivative everywhere, on every branch and for every parameter value.", "anchors": ["src/hardening.cxx"]}
{"id": "C22", "title": "Non-associative hardening derivatives are the derivatives", "statement": "For Chaboche hardening dq_da, dh_ds, dh_da, dh_da_time, dh_da_temp are the Jacobians of q, h, h_time, h_temp with any number of backstresses; likewise Chaboche with Voce recovery.", "quantifier": "all states, parameters and numbers of backstresses", "why_tests_cant": "Unit tests compare the analytic derivative with a finite difference at a handful of points to ~1e-4; they cannot show the formula is the derivative everywhere, on every branch and for every parameter value.", "anchors": ["src/hardening.cxx:Chaboche", "src/hardening.cxx:ChabocheVoceRecovery"]}
{"id": "C23", "title": "Backstresses stay deviatoric", "statement": "Starting from zero, Chaboche backstresses remain traceless along every history of updates, so the deviatoric-backstress condition the J2 surface derivatives need is an invariant.", "quantifier": "all loading histories", "why_tests_cant": "Every history.", "anchors": ["src/hardening.cxx:Chaboche::h", "src/models.cxx:SmallStrainRateIndependentPlasticity::RJ"]}
{"id": "C24", "title": "Flow rules combine surface and hardening by the chain rule", "statement": "The associative and non-associative rate independent flow rules report exact derivatives of f, g and h with respect to stress and history whenever their surface and hardening do.", "quantifier": "any surface and hardening rule meeting their contract", "why_tests_cant": "Unit tests compare the analytic derivative with a finite difference at a handful of points to ~1e-4; they cannot show the formula is the derivative everywhere, on every branch and for every parameter value.", "anchors": ["src/ri_flow.cxx"]}
{"id": "C25", "title": "Plasticity Jacobians are exact", "statement": "The Newton Jacobian used by perfect plasticity, rate independent plasticity and the general integrator is the derivative of the corresponding residual at every iterate.", "quantifier": "all iterates, steps, flow rules meeting the contract", "why_tests_cant": "Unit tests compare the analytic derivative with a finite difference at a handful of points to ~1e-4; they cannot show the formula is the derivative everywhere, on every branch and for every parameter value.", "anchors": ["src/models.cxx:SmallStrainPerfectPlasticity::RJ", "src/models.cxx:SmallStrainRateIndependentPlasticity::RJ", "src/models.cxx:GeneralIntegrator::RJ"]}
{"id": "C26", "title": "A converged rate independent update satisfies the constitutive equations", "statement": "Up to the residual tolerated by the Newton solver the returned state has stress = C:(strain - plastic strain), yield function zero, plastic strain increment along the flow direction and backward Euler hardening; an elastic step satisfies f<=0 and changes no internal variable.", "quantifier": "all inputs", "why_tests_cant": "All inputs and branch outcomes.", "anchors": ["src/models.cxx:SmallStrainRateIndependentPlasticity", "src/models.cxx:SmallStrainPerfectPlasticity"]}
{"id": "C27", "title": "The reported tangent is the derivative of the stress update", "statement": "The algorithmic tangent A_np1 is d(stress)/d(strain) of the implicit update map.", "quantifier": "all converged states with nonsingular Jacobian", "why_tests_cant": "Unit tests compare the analytic derivative with a finite difference at a handful of points to ~1e-4; they cannot show the formula is the derivative everywhere, on every branch and for every parameter value.", "anchors": ["src/models.cxx:SubstepModel_sd::update_sd_actual", "src/models.cxx:SmallStrainElasticity::update_sd_actual", "src/models.cxx:SmallStrainPerfectPlasticity"]}
{"id": "C28", "title": "Viscoplastic flow rule derivatives are exact", "statement": "Perzyna, Chaboche, linear viscous and Yaguchi Grade 91 flow rules report exact derivatives of the rate y, the flow direction g and the history evolution h, including the time and temperature rate parts, and the stress and history rates assembled from them (TVPFlowRule) report exact derivatives too.", "quantifier": "all states", "why_tests_cant": "Unit tests compare the analytic derivative with a finite difference at a handful of points to ~1e-4; they cannot show the formula is the derivative everywhere, on every branch and for every parameter value.", "anchors": ["src/visco_flow.cxx:PerzynaFlowRule", "src/visco_flow.cxx:ChabocheFlowRule", "src/visco_flow.cxx:LinearViscousFlow", "src/visco_flow.cxx:GPowerLaw", "src/visco_flow.cxx:SaturatingFluidity", "src/visco_flow.cxx:YaguchiGr91FlowRule", "src/general_flow.cxx:TVPFlowRule"]}
{"id": "C29", "title": "Superimposed flow rules add up", "statement": "The superimposed rule's inelastic strain rate y*g is the sum of the component rates y_i*g_i, its derivatives are exact, the history of each component is stored and evolved by that component's own rule, and each component hardens with its own rate.", "quantifier": "any number of component rules", "why_tests_cant": "Unit tests compare the analytic derivative with a finite difference at a handful of points to ~1e-4; they cannot show the formula is the derivative everywhere, on every branch and for every parameter value.", "anchors": ["src/visco_flow.cxx:SuperimposedViscoPlasticFlowRule"]}
{"id": "C30", "title": "No inelastic flow inside the yield surface", "statement": "Perzyna, Chaboche and Yaguchi flow rates are zero exactly when the yield function is not positive and non negative always; inside the surface the stress rate is elastic and no work is dissipated; J2 flow never produces work.", "quantifier": "all states", "why_tests_cant": "All states.", "anchors": ["src/visco_flow.cxx:PerzynaFlowRule::y", "src/visco_flow.cxx:ChabocheFlowRule::y"]}
{"id": "C31", "title": "Creep rate derivatives are exact", "statement": "For each scalar creep law dg_ds, dg_de, dg_dT are the partial derivatives of g.", "quantifier": "all positive stresses, strains and parameters", "why_tests_cant": "Unit tests compare the analytic derivative with a finite difference at a handful of points to ~1e-4; they cannot show the formula is the derivative everywhere, on every branch and for every parameter value.", "anchors": ["src/creep.cxx"]}
{"id": "C32", "title": "Region creep picks the region containing the normalized stress", "statement": "The KM region creep law uses the constants of the region bracketing the normalized stress, for any number of regions.", "quantifier": "any number of cuts, any stress", "why_tests_cant": "Tests use two regions only.", "anchors": ["src/creep.cxx:RegionKMCreep::select_region_"]}
{"id": "C33", "title": "Multiaxial creep is deviatoric, power-consistent and exactly linearised", "statement": "J2 creep rates are deviatoric, their equivalent rate equals the scalar law, and df_ds, df_de are exact; the creep update tangent is the derivative of the converged strain.", "quantifier": "all stresses and strains", "why_tests_cant": "Unit tests compare the analytic derivative with a finite difference at a handful of points to ~1e-4; they cannot show the formula is the derivative everywhere, on every branch and for every parameter value.", "anchors": ["src/creep.cxx:J2CreepModel", "src/creep.cxx:CreepModel"]}
{"id": "C34", "title": "Damage law derivatives are exact", "statement": "ddamage_dd, ddamage_de, ddamage_ds are the partial derivatives of damage for each damage law.", "quantifier": "all states in the smooth domain", "why_tests_cant": "Unit tests compare the analytic derivative with a finite difference at a handful of points to ~1e-4; they cannot show the formula is the derivative everywhere, on every branch and for every parameter value.", "anchors": ["src/damage.cxx"]}
{"id": "C35", "title": "Effective stress measures are degree-one homogeneous with exact gradients", "statement": "von Mises, mean, Huddleston, max and weighted-sum effective stresses scale linearly, and deffective is their gradient.", "quantifier": "all stresses and scale factors", "why_tests_cant": "Unit tests compare the analytic derivative with a finite difference at a handful of points to ~1e-4; they cannot show the formula is the derivative everywhere, on every branch and for every parameter value.", "anchors": ["src/damage.cxx:VonMisesEffectiveStress", "src/damage.cxx:HuddlestonEffectiveStress", "src/damage.cxx:MaxSeveralEffectiveStress", "src/damage.cxx:SumSeveralEffectiveStress"]}
{"id": "C36", "title": "Damaged model residual, Jacobian and tangent are exact", "statement": "The damaged stress solves s=(1-d)s', its Newton Jacobian is exact and its tangent is the derivative of the damaged stress.", "quantifier": "all base models and damage laws meeting their contract", "why_tests_cant": "Unit tests compare the analytic derivative with a finite difference at a handful of points to ~1e-4; they cannot show the formula is the derivative everywhere, on every branch and for every parameter value.", "anchors": ["src/damage.cxx:NEMLScalarDamagedModel_sd::RJ", "src/damage.cxx:NEMLScalarDamagedModel_sd::tangent_"]}
{"id": "C37", "title": "Element kill is irreversible", "statement": "With ekill set, once damage reaches the kill threshold every later update returns the softened elastic response with damage 1 and strain energy is moved to dissipation exactly once.", "quantifier": "all later loading histories", "why_tests_cant": "Every history.", "anchors": ["src/damage.cxx:NEMLScalarDamagedModel_sd::ekill_update_", "src/damage.cxx:NEMLScalarDamagedModel_sd::update_sd_actual"]}
{"id": "C38", "title": "Creep + plasticity updates combine consistently", "statement": "The combined model's stress solves total strain = plastic + creep strain, its tangent is the series combination of the two tangents, and stored state names match stored values.", "quantifier": "all states", "why_tests_cant": "Unit tests compare the analytic derivative with a finite difference at a handful of points to ~1e-4; they cannot show the formula is the derivative everywhere, on every branch and for every parameter value.", "anchors": ["src/models.cxx:SmallStrainCreepPlasticity"]}
{"id": "C39", "title": "Larson-Miller relation is self-consistent", "statement": "Rupture time and stress are mutual inverses and dtR_ds is the derivative.", "quantifier": "all stresses, temperatures and master curves", "why_tests_cant": "Unit tests compare the analytic derivative with a finite difference at a handful of points to ~1e-4; they cannot show the formula is the derivative everywhere, on every branch and for every parameter value.", "anchors": ["src/larsonmiller.cxx"]}
{"id": "C40", "title": "The C interface reports success and failure through ier", "statement": "Every C interface call sets *ier to 0 on success and nonzero on failure; values returned directly cannot be mistaken for an error code.", "quantifier": "all calls and prior values of ier", "why_tests_cant": "Tests initialise ier to 0.", "anchors": ["src/cinterface.cxx"]}
{"id": "C41", "title": "Block evaluation equals per-point evaluation", "statement": "Evaluating a block converts tensors to and from Mandel form without loss (second and fourth order), gives every point the answer it would get alone whatever the thread schedule, and reports a failing point.", "quantifier": "all block sizes and data", "why_tests_cant": "All inputs.", "anchors": ["src/block.cxx"]}
{"id": "C42", "title": "Work and energy accounting", "statement": "Every update adds the trapezoidal stress power to the strain energy and its inelastic part to the dissipated work; at constant temperature the difference of the two is exactly the change of stored elastic energy, over any number of substeps; without a strain increment the strain energy does not change.", "quantifier": "all updates", "why_tests_cant": "All inputs.", "anchors": ["src/models.cxx"]}
{"id": "C43", "title": "Unit quaternion algebra", "statement": "Quaternion product is associative with inverses, norm multiplicative, and applying a product of rotations equals applying them in turn for vectors and second order tensors; rotation matrices are orthogonal with determinant one.", "quantifier": "all quaternions", "why_tests_cant": "Universal identities.", "anchors": ["src/math/rotations.cxx"]}
{"id": "C44", "title": "Rotating tensors preserves invariants", "statement": "Orientation application preserves trace, inner product and symmetry/skewness of tensors, and the 6x6 form agrees with the full form.", "quantifier": "all orientations and tensors", "why_tests_cant": "Universal identities.", "anchors": ["src/math/rotations.cxx:Orientation::apply"]}
{"id": "C45", "title": "Tensor class operators agree with index notation", "statement": "Each tensor product/contraction/inverse in the tensor classes equals the corresponding index formula, including mixed symmetric/skew operands.", "quantifier": "all operands", "why_tests_cant": "Universal identities.", "anchors": ["src/math/tensors.cxx"]}
{"id": "C46", "title": "Large strain update is consistent", "statement": "The large-strain update returns the stress solving the backward-Euler equation of the chosen objective rate exactly, reduces to the small strain update without rotation, and its two tangent matrices are the derivatives of that stress with respect to the deformation and the spin.", "quantifier": "all stresses, deformation and spin increments, and all differentiable families of them", "why_tests_cant": "Universal over stresses and velocity gradients; a tangent is a limit statement.", "anchors": ["src/models.cxx:NEMLModel_sd::update_ld_inc", "src/models.cxx:NEMLModel_sd::calc_tangent_", "src/math/nemlmath.cxx:truesdell_update_sym"]}
{"id": "C47", "title": "Regime selection picks the regime bracketing the activation energy", "statement": "The Kocks-Mecking regime model delegates to the model whose interval contains the normalized activation energy.", "quantifier": "all rates and temperatures, any number of regimes", "why_tests_cant": "Any number of regimes.", "anchors": ["src/models.cxx:KMRegimeModel"]}
{"id": "C48", "title": "Miller index and gcd helpers", "statement": "reduce_gcd returns the primitive integer vector with the same direction; gcd divides both arguments and is the greatest.", "quantifier": "all integers", "why_tests_cant": "Infinite domain.", "anchors": ["src/math/nemlmath.cxx:gcd", "src/math/nemlmath.cxx:reduce_gcd"]}
{"id": "C49", "title": "Polynomial helpers", "statement": "poly_from_roots vanishes exactly at the roots and is monic; polyval is Horner evaluation of the polynomial.", "quantifier": "all root lists", "why_tests_cant": "Infinite domain.", "anchors": ["src/math/nemlmath.cxx:poly_from_roots", "src/math/nemlmath.cxx:polyval"]}
{"id": "C50", "title": "Angle conversion round trips", "statement": "convert_angle and cast_angle are inverse for radians and degrees, and unknown kinds are rejected.", "quantifier": "all angles and kind strings", "why_tests_cant": "Infinite domain.", "anchors": ["src/math/nemlmath.cxx:convert_angle", "src/math/nemlmath.cxx:cast_angle"]}
{"id": "C51", "title": "The numerical Jacobian helper approximates the Jacobian", "statement": "The finite difference Jacobian used by verbose diagnostics is exact for affine residuals at every point and step size, its check value is then zero, and for every differentiable residual it tends to the Jacobian as the step tends to zero.", "quantifier": "all dimensions, residual functions, points and step sizes", "why_tests_cant": "Infinite function space.", "anchors": ["src/solvers.cxx:diff_jac", "src/solvers.cxx:diff_jac_check"]}
{"id": "C52", "title": "Derivative containers hold one block per variable", "statement": "The history object made to hold derivatives has exactly one zeroed block per variable (or pair of variables), of the size of the derivative type, under the documented name, and unravelling it gives the row-major Jacobian.", "quantifier": "all histories and variable types", "why_tests_cant": "All layouts.", "anchors": ["include/history.h:History::derivative", "src/history.cxx:history_derivative", "src/history.cxx:unravel_hh"]}
{"id": "C53", "title": "Formatted names label every stored number", "statement": "formatted_names returns exactly one name for each stored double, in storage order.", "quantifier": "all histories", "why_tests_cant": "All layouts.", "anchors": ["src/history.cxx:formatted_names"]}
{"id": "C54", "title": "Elastic energy is positive definite", "statement": "For positive moduli (isotropic) or constants meeting the cubic stability conditions, the elastic energy e:C:e is strictly positive for every non-zero strain.", "quantifier": "every non-zero strain and every admissible set of constants", "why_tests_cant": "Continuous domain; a test samples finitely many strains.", "anchors": ["src/elasticity.cxx:IsotropicLinearElasticModel::C_calc_", "src/elasticity.cxx:CubicLinearElasticModel::C"]}
{"id": "C55", "title": "A viscoplastic update solves the backward Euler rate equations", "statement": "When a viscoplastic small strain step succeeds, the returned stress and history satisfy, within the solver tolerance, the backward Euler form of the stress and history rate equations evaluated at the returned state, the flow rate there does not exceed the strain rate limit, and at constant temperature the inelastic strain moved by the integrated flow; the Newton Jacobian is exact.", "quantifier": "every flow rule, step, state, strain and temperature increment", "why_tests_cant": "Holds for every material and every step; a test samples a few histories of a few materials.", "anchors": ["src/general_flow.cxx:TVPFlowRule", "src/models.cxx:GeneralIntegrator", "src/visco_flow.cxx"]}
{"id": "C56", "title": "Damage does not heal", "statement": "With parameters of the documented sign and time not running backwards, every damage law returns at least the old damage, a combined law adds the increments of its parts, and a converged update lowers the damage by no more than the solver residual.", "quantifier": "all laws, states and time steps", "why_tests_cant": "Holds for every stress and strain step, including unloading.", "anchors": ["src/damage.cxx:ScalarDamageRate", "src/damage.cxx:CombinedDamage", "src/damage.cxx:StandardScalarDamage", "src/damage.cxx:WorkDamage"]}
{"id": "C57", "title": "Every orientation format describes the same rotation", "statement": "Constructing an orientation from a rotation matrix, Euler angles in any supported convention and unit, axis and angle, Rodrigues vector, Hopf or hyperspherical angles or two orthonormal vectors gives the unit quaternion of exactly that rotation, and converting an orientation to a format and back gives the same rotation.", "quantifier": "all rotations, angles, units and conventions", "why_tests_cant": "Continuous families with singular points (half turns, gimbal lock) that sampling misses.", "anchors": ["src/math/rotations.cxx:Orientation", "include/math/rotations.h"]}
{"id": "C58", "title": "Distance, exponential and powers of rotations", "statement": "The distance between orientations is a metric on rotations, invariant under left and right rotation and equal to half the misorientation angle; the exponential of a spin is the rotation about its axis by its norm, logarithm and exponential are inverse, powers add, and rotate_to takes one direction to the other.", "quantifier": "all orientations, spins, powers and vectors", "why_tests_cant": "Universal statements with singular points at the identity and at half turns.", "anchors": ["src/math/rotations.cxx:distance", "src/math/rotations.cxx:wexp", "src/math/rotations.cxx:wlog", "src/math/rotations.cxx:rotate_to", "src/math/rotations.cxx:rotate_to_family"]}
{"id": "C59", "title": "Crystal symmetry groups", "statement": "The list of operators returned for each supported crystal class is a group of proper rotations - identity, closed under product and inverse, no operator listed twice - of the order the class demands; any other class name is rejected.", "quantifier": "all class names and all pairs of operators", "why_tests_cant": "Closure involves up to 576 products of irrational quaternions, which floating point cannot confirm exactly.", "anchors": ["src/cp/crystallography.cxx:symmetry_rotations"]}
{"id": "C60", "title": "Misorientation", "statement": "The misorientation of two orientations is a symmetry-equivalent of their difference, its reported angle is the smallest over all pairs of symmetry operators, and the block version returns the same as the single version for each pair, rejecting lists of different lengths.", "quantifier": "all crystal classes, all pairs and lists of unit orientations", "why_tests_cant": "Minimality quantifies over all operators and a continuum of orientations.", "anchors": ["src/cp/crystallography.cxx:SymmetryGroup::misorientation", "src/cp/crystallography.cxx:SymmetryGroup::misorientation_block"]}
{"id": "C61", "title": "Miller indices", "statement": "Reciprocal vectors are dual to the lattice vectors; three- and four-index directions and planes are the primitive lattice vector and the reduced plane normal along the indices; a direction lies in a plane exactly when the Miller product vanishes; malformed indices are rejected.", "quantifier": "all cells of non-zero volume and all integer indices", "why_tests_cant": "Integer indices are unbounded and cells arbitrary.", "anchors": ["src/cp/crystallography.cxx:Lattice::miller2cart_direction", "src/cp/crystallography.cxx:Lattice::miller2cart_plane", "src/cp/crystallography.cxx:HCPLattice", "src/cp/crystallography.cxx:CubicLattice"]}
{"id": "C62", "title": "Slip and twin systems of a lattice", "statement": "Equivalent vectors are the images under the symmetry group, each once; slip systems are exactly the perpendicular pairs of unit direction and plane; flat indices number all systems one to one; unique planes and their systems are mutually consistent; the Schmid tensors returned for an orientation are the rotated ones whatever was asked before; resolved shear is direction.stress.normal; twin systems reorient by the half turn about the twin plane normal.", "quantifier": "all lattices built by any sequence of calls, all orientations, stresses and query sequences", "why_tests_cant": "History of cached queries and unbounded sequences of added systems.", "anchors": ["src/cp/crystallography.cxx:Lattice::equivalent_vectors", "src/cp/crystallography.cxx:Lattice::add_slip_system", "src/cp/crystallography.cxx:Lattice::add_twin_system", "src/cp/crystallography.cxx:Lattice::flat", "src/cp/crystallography.cxx:Lattice::M", "src/cp/crystallography.cxx:Lattice::cache_rot_", "src/cp/crystallography.cxx:Lattice::plane_systems"]}
{"id": "C63", "title": "Slip rules", "statement": "The slip rate of every system, the total slip and the rate of every history variable have exactly the reported derivatives by stress and by history, including at zero resolved shear; power-law slip follows the resolved shear and is odd, kinematic slip vanishes up to the threshold and follows the overstress beyond it; twin systems never slip backwards; each system uses its own strength.", "quantifier": "all lattices, any number of systems and strengths, all stresses, histories and parameters", "why_tests_cant": "Derivatives at every point, in particular the non-smooth ones, and for any number of coupled systems.", "anchors": ["src/cp/sliprules.cxx:SlipMultiStrengthSlipRule", "src/cp/sliprules.cxx:KinematicPowerLawSlipRule", "src/cp/sliprules.cxx:PowerLawSlipRule"]}
{"id": "C64", "title": "Slip hardening laws", "statement": "For every hardening law the strength has the reported gradient, and the rates have the reported derivatives through the stress, the law's own variables and the variables of the other strengths of the rule; laws harden towards their saturation value and the initial strength is the one given.", "quantifier": "all laws, lattices, numbers of systems, slip rates and histories", "why_tests_cant": "Chain rule through slip rates of an arbitrary number of systems; absolute values at zero slip.", "anchors": ["src/cp/slipharden.cxx", "include/cp/slipharden.h"]}
{"id": "C65", "title": "Inelastic models of a crystal", "statement": "The plastic deformation rate, plastic spin and history rates of a crystal have the reported derivatives by stress and by every internal variable; plastic flow keeps the volume and dissipates; turning crystal and stress together turns the rates; the power law has the documented value and strength, and a combined model is the sum of its parts.", "quantifier": "all lattices, slip rules, hardening laws, numbers of systems and models, stresses and histories", "why_tests_cant": "Derivatives through slip rules of arbitrary size; frame indifference for every rotation; bookkeeping of unions of histories.", "anchors": ["src/cp/inelasticity.cxx", "include/cp/inelasticity.h", "src/history.cxx:History::add_union"]}
{"id": "C66", "title": "Kinematics of a crystal", "statement": "The stress rate of a crystal has the reported derivatives by stress, internal variables, deformation rate and, through the spin fixed at the start of a step, vorticity; the crystal spin is the documented one; turning crystal, stress and loading turns stress rate and spin.", "quantifier": "all inelastic models with exact derivatives, elasticity tensors, stresses, loadings and histories", "why_tests_cant": "Six by six tensor identities that must hold for every tensor; frame indifference.", "anchors": ["src/cp/kinematics.cxx:StandardKinematicModel", "include/cp/kinematics.h", "doc/sphinx/crystal_plasticity.rst"]}
{"id": "C67", "title": "Single crystal update", "statement": "An accepted update of a single crystal solves the backward Euler equations of stress and internal variables over the whole increment to the solver tolerance, however often the increment had to be bisected; the Jacobian is that of the residual; the two tangents are the derivatives of the new stress by the final strain and vorticity; the update terminates whatever solves fail, trying the other first guess when told so.", "quantifier": "all crystals, inelastic models with exact derivatives, loading increments, options and outcomes of the inner solves", "why_tests_cant": "Depends on arbitrary sequences of failed and successful inner solves; derivatives at every solution.", "anchors": ["src/cp/singlecrystal.cxx:SingleCrystalModel::update_ld_inc", "src/cp/singlecrystal.cxx:SingleCrystalModel::attempt_update_ld_inc_", "src/cp/singlecrystal.cxx:SingleCrystalModel::RJ", "src/cp/singlecrystal.cxx:SingleCrystalModel::calc_tangents_"]}
{"id": "C68", "title": "Lattice rotation, energy and orientation of a single crystal", "statement": "The stored orientation stays a unit quaternion and is turned by the lattice spin over the step (not at all without spin, without time or when rotation is switched off); the energy increment is the work of the stress; an elastic crystal dissipates nothing; orientations set through the interface are read back; the elastic deformation gradient follows the rotation.", "quantifier": "all crystals, loadings, options and orientations", "why_tests_cant": "Singular point of the exponential map; every orientation and history.", "anchors": ["src/cp/singlecrystal.cxx:SingleCrystalModel::update_rot_", "src/cp/singlecrystal.cxx:SingleCrystalModel::calc_energy_inc_", "src/cp/singlecrystal.cxx:SingleCrystalModel::calc_work_inc_", "src/cp/singlecrystal.cxx:SingleCrystalModel::Fe", "src/cp/singlecrystal.cxx:SingleCrystalModel::set_active_orientation"]}
{"id": "C69", "title": "Batches of crystals do not depend on the schedule", "statement": "Evaluating a batch of crystals gives every crystal exactly what it would get on its own, in its own place of the arrays, whatever order the threads run in, and writes nothing else; it throws exactly when one of the crystals throws; initial stores and orientations set for the batch are those read back.", "quantifier": "all crystal models, numbers of crystals, inputs and thread schedules", "why_tests_cant": "Every interleaving and number of crystals.", "anchors": ["src/cp/batch.cxx:evaluate_crystal_batch", "src/cp/batch.cxx:init_history_batch", "src/cp/batch.cxx:set_orientation_passive_batch", "src/cp/batch.cxx:get_orientation_passive_batch"]}
{"id": "C70", "title": "A Taylor polycrystal is the weighted mean of its crystals", "statement": "Weights are normalised; over any loading history the polycrystal reports, step by step, the weighted mean of stress, tangents and energy of crystals that each run alone under the same history; its tangents are the derivatives of its stress; a polycrystal of equal crystals is the crystal; the elastic strain is the mean elastic strain.", "quantifier": "all crystal models, weights, orientations, loading histories and schedules", "why_tests_cant": "Induction over unbounded histories and numbers of crystals; mixing of stores.", "anchors": ["src/cp/polycrystal.cxx:PolycrystalModel::PolycrystalModel", "src/cp/polycrystal.cxx:PolycrystalModel::init_hist", "src/cp/polycrystal.cxx:TaylorModel::update_ld_inc", "src/cp/polycrystal.cxx:TaylorModel::elastic_strains"]}
{"id": "C71", "title": "Twin reorientation", "statement": "After each step the twin fraction of every twin system is its slip divided by the characteristic shear; if none exceeds the threshold nothing changes; otherwise the crystal is turned exactly once, by the reorientation of the first system above the threshold, and the slip of all twin systems restarts from zero while slip systems keep theirs; the orientation stays a rotation and the crystal may twin again.", "quantifier": "all lattices, thresholds, slips, orientations and sequences of calls", "why_tests_cant": "Every sequence of calls and number of systems, including several above the threshold at once.", "anchors": ["src/cp/postprocessors.cxx:PTRTwinReorientation::act", "src/cp/postprocessors.cxx:PTRTwinReorientation::init_hist"]}
{"id": "C72", "title": "Crystal damage on slip planes", "statement": "Damage of a slip plane removes the transformed fraction of the shear and normal traction on that plane; a fully damaged plane carries no traction; the transformation grows from zero to its cutoff and has the reported derivative; the damage projection can be inverted below the critical damage; the projection and the damage rates have the reported derivatives; an undamaged crystal is unaffected, and work damage never heals.", "quantifier": "all lattices, numbers of planes and systems, orientations, stresses, damage values and transformation parameters", "why_tests_cant": "Products over an arbitrary number of planes; derivatives at every point including the ends of the transformation.", "anchors": ["src/cp/crystaldamage.cxx:PlanarDamageModel", "src/cp/crystaldamage.cxx:SigmoidTransformation", "src/cp/crystaldamage.cxx:SwitchTransformation", "src/cp/crystaldamage.cxx:WorkPlaneDamage", "src/math/projections.cxx"]}
{"id": "C73", "title": "Kinematics of a damaged crystal", "statement": "The stress and history rates of a damaged crystal have the reported derivatives by stress, inelastic variables, damage variables, deformation rate and vorticity; without damage the model is the standard one; the spin fixed for a step removes the plastic spin of the model; a rigid rotation only turns the stress; the reported elastic strain reproduces the stress.", "quantifier": "all inelastic models with exact derivatives, damage models, elasticity tensors, stresses, loadings and histories", "why_tests_cant": "Derivative through the inverse of the damage projection for every tensor; limits.", "anchors": ["src/cp/kinematics.cxx:DamagedStandardKinematicModel", "src/cp/crystaldamage.cxx:NilDamageModel"]}
{"id": "C74", "title": "Walker-Krempl rate switch", "statement": "All derivatives reported by the rate switch are those of the rates, so the update has an exact Jacobian; with the switch at one and constant temperature the response does not depend on the loading rate, with the switch at zero it is the viscoplastic model, at the reference rate the switch has no effect; the plastic work is stress times inelastic strain rate.", "quantifier": "all viscoplastic flow rules with exact derivatives, switch functions, stresses, histories and strain rates", "why_tests_cant": "Derivatives at every point; rate independence relates all rates to each other.", "anchors": ["src/walker.cxx:WalkerKremplSwitchRule"]}
{"id": "C75", "title": "Walker model derivatives", "statement": "The flow rate, flow direction and all history rates of the Walker model have the reported derivatives by stress and every history variable, for any number of backstresses, as have softening, scaling, isotropic, drag and kinematic variables; the limiting functions are continuous.", "quantifier": "all parameters, numbers of backstresses, stresses, histories and temperatures", "why_tests_cant": "Chain rule through the flow direction for an arbitrary number of backstresses, on every branch.", "anchors": ["src/walker.cxx:WalkerFlowRule", "src/walker.cxx:WalkerKinematicHardening", "src/walker.cxx:WalkerDragStress", "src/walker.cxx:WalkerIsotropicHardening", "src/walker.cxx:WalkerSofteningModel", "src/walker.cxx:TestFlowRule"]}
{"id": "C76", "title": "Walker model over loading histories", "statement": "Over any sequence of updates the drag stress, isotropic strength and backstresses stay within the bounds set by the parameters up to the solver tolerance of each step, plastic strain never falls by more than that and measures the equivalent plastic strain; backstress rates are deviatoric; there is flow exactly at positive overstress; each variable is found under its name, also in a superposition.", "quantifier": "all sequences of updates of any length, temperatures, stresses and numbers of backstresses", "why_tests_cant": "Invariants over unbounded loading histories.", "anchors": ["src/walker.cxx:WrappedViscoPlasticFlowRule", "src/walker.cxx:WalkerFlowRule", "src/visco_flow.cxx:SuperimposedViscoPlasticFlowRule", "src/walker.cxx:WalkerKremplSwitchRule"]}
{"id": "C77", "title": "Python solvers", "statement": "A Python solver that returns has reached a point whose residual satisfies the relative or absolute tolerance, by the iteration it documents, within the allowed number of iterations; it always stops; line search takes the first acceptable step, finds one wherever the Jacobian is the derivative, and never lets the residual grow; anything else is reported by an exception, including residuals that are not numbers; convergence in the last allowed iteration counts.", "quantifier": "all residual functions, Jacobians, dimensions, starting points, tolerances and iteration limits", "why_tests_cant": "Arbitrary residual functions, NaN included; unbounded iterations.", "anchors": ["neml/nlsolvers.py:newton", "neml/nlsolvers.py:newton_precalc", "neml/nlsolvers.py:quasi_newton", "neml/nlsolvers.py:scalar_newton", "neml/nlsolvers.py:backtrack", "neml/arbbar.py:newton"]}
{"id": "C78", "title": "Uniaxial model", "statement": "A uniaxial model answers as the three dimensional model does under the given axial strain and temperature when all other stresses vanish, step after step over any history; its tangent is the slope of the axial stress by the axial strain with the other stresses kept; an elastic material answers with Young's modulus and never fails; the elastic strain is the axial elastic strain of the model.", "quantifier": "all material models, strain and temperature histories, solver tolerances", "why_tests_cant": "Every history and material; derivative at every solution.", "anchors": ["neml/uniaxial.py:UniaxialModel"]}
{"id": "C79", "title": "Driver steps and recorded history", "statement": "Whatever calls are made to a driver, and whether they fail or not, its recorded lists are one consistent history of the model starting from the virgin state, with thermal strains included; a failed call changes nothing; each step meets its target (strain, stress, stress direction with strain rate, stress rate, held component) within the tolerances, at the time and temperature asked for; the Jacobians are exact; failure is only reported if no guess works.", "quantifier": "all material models, sequences of calls, targets, directions, rates and tolerances", "why_tests_cant": "Arbitrary sequences of failing and succeeding calls; derivatives at every point.", "anchors": ["neml/drivers.py:Driver_sd", "neml/drivers.py:Driver_sd.erate_step", "neml/drivers.py:Driver_sd.srate_sinc_step", "neml/drivers.py:Driver_sd.strain_hold_step", "neml/drivers.py:Driver_sd.solve_try"]}
{"id": "C80", "title": "Standard tests", "statement": "A uniaxial test records strains and times in equal steps up to the maximum, the first failure or the damage limit; a strain controlled cyclic test returns to its maximum after each cycle and passes its minimum, in the time its rate and holds prescribe, and its summaries are the extreme recorded stresses; a creep test reaches and holds its stress, at increasing times up to the hold time; an isochronous curve ends at the given strain, for the given time; a temperature and strain history reports all its points; two identical cycles are not ratcheting; a deformation gradient history splits into stretching and spin.", "quantifier": "all material models, directions, rates, numbers of steps, cycles and holds, including tests that stop early", "why_tests_cant": "Unbounded numbers of steps and cycles, with accumulated solver errors; all signs of the parameters.", "anchors": ["neml/drivers.py:uniaxial_test", "neml/drivers.py:strain_cyclic", "neml/drivers.py:creep", "neml/drivers.py:isochronous_curve", "neml/drivers.py:thermomechanical_strain_raw", "neml/drivers.py:classify", "neml/drivers.py:def_grad_driver"]}
{"id": "C81", "title": "Networks of bars", "statement": "Whatever steps are taken on a network of bars, and whether they fail or not, its recorded states form one history from the unloaded network: in each entry the bars have the elongations of their end nodes and answered from the state of the entry before, given displacements are met, and the forces at the other nodes balance the given forces within the tolerances; the forces of all nodes add up to zero. A call that returns has reached the end of the step, by equal fractions if it had to divide it; every call ends; a call that fails leaves the record as it was. The Jacobian is the exact, symmetric derivative, regular if every node is supported through bars that resist; a supported elastic network is always solved. The recorded dissipation is that of the bars.", "quantifier": "all networks, bar materials, boundary conditions, sequences of calls, step sizes and solver settings", "why_tests_cant": "Arbitrary graphs and histories of failing and succeeding calls; derivative at every point.", "anchors": ["neml/arbbar.py:BarModel", "neml/arbbar.py:Bar", "neml/arbbar.py:BarModel.solve", "neml/arbbar.py:BarModel.RJ"]}
{"id": "C82", "title": "Bree problem", "statement": "A step of the Bree problem that returns has appended one entry for the requested time: all points of the wall share one strain, each answers at its own temperature, and together they carry the hoop force of the pressures within the tolerances asked for; the recorded pressures are those of the loading in force, the recorded energies are those of the wall; a step back in time is refused; after a failed step the record and the wall still agree on the time; the integration points integrate constant and linear fields exactly.", "quantifier": "all numbers of layers and points, radii, materials, loadings and sequences of steps", "why_tests_cant": "All discretisations and histories, with loading changes and failures in between.", "anchors": ["neml/axisym.py:BreeProblem", "neml/axisym.py:BreeProblem.step", "neml/axisym.py:BreeProblem.update_loading", "neml/axisym.py:VesselSectionProblem"]}
{"id": "C83", "title": "Wall of a vessel", "statement": "Whatever steps are taken on an axisymmetric wall, failing or not, its record is one history from the unloaded wall: each call that returns appends one entry for the requested time, whose strains are those of its displacements, whose thermal strains are those of its temperatures, whose materials answered from the entry before, and which is in equilibrium within the tolerances with the pressures and temperatures of that time, radially and axially; a call that raises leaves the record; every call ends. The hoop stresses carry the pressures and the axial stresses the force on the closed ends. The assembled matrix is the exact derivative, the Newton step solves with it, and an elastic wall is always solved within the iterations allowed.", "quantifier": "all meshes, integration rules, materials, temperature and pressure histories, sequences of calls and solver settings", "why_tests_cant": "All discretisations and histories with failing calls; derivative at every point; substep schedules.", "anchors": ["neml/axisym.py:AxisymmetricProblem", "neml/axisym.py:AxisymmetricProblem.step", "neml/axisym.py:AxisymmetricProblem.take_step", "neml/axisym.py:AxisymmetricProblem.RJ"]}
{"id": "C84", "title": "Temperature histories, time steps and meshes for vessels", "statement": "The temperature history of a thickness gradient keeps the inner temperature, is linear across the wall, heats, holds, cools and rests as asked, repeats every cycle, stays between the two temperatures and never changes faster than the given rates; through several layers the heat flux is the same everywhere and the surface temperatures are kept. The standard time steps start at zero, increase, stop at every change of rate of every cycle and end with the last cycle. A mesh increases strictly, passes through every given point with the number of elements asked for in each segment, symmetrically if biased, and each element has the material of its layer.", "quantifier": "all temperatures, positive rates, holds, delays, numbers of cycles and steps, layers and conductivities, segments and biases", "why_tests_cant": "Real-valued time and position; any number of cycles, layers and elements.", "anchors": ["neml/axisym.py:generate_thickness_gradient", "neml/axisym.py:generate_standard_timesteps", "neml/axisym.py:generate_multimaterial_thickness_gradient", "neml/axisym.py:mesh"]}
{"id": "C85", "title": "Relaxation, follow up, stress cycles, rate jumps and extrapolated cycles", "statement": "Stress relaxation tests, strain cycles with elastic follow up in the holds, stress controlled cycles, rate jump tests and extrapolated strain cycles return what was simulated: holds stay on the follow up line for the requested time with the other stresses unchanged, ramps move by the requested amount, cycle summaries are the greatest and least recorded values of their cycle, times are the sums of holds and ramps, limits are met up to accumulated solver tolerances, and extrapolated cycles continue the computed ones.", "quantifier": "every material model, amplitude, rate, ratio, hold time, number of steps and cycles, follow up factor, axis, solver and tolerance", "why_tests_cant": "Tests run a few cycles of one material; the claims are about accumulated errors, times and records for any number of cycles and about every combination of holds, spacing and axes.", "anchors": ["neml/drivers.py:stress_relaxation", "neml/drivers.py:strain_cyclic_followup", "neml/drivers.py:stress_cyclic", "neml/drivers.py:rate_jump_test", "neml/drivers.py:strain_cyclic_extrapolated"]}
{"id": "C86", "title": "Precipitation kinetics", "statement": "A precipitation model conserves each species between precipitate and solution; nucleation proceeds with a positive rate and critical radius while the solution is supersaturated and coarsening takes over exactly when a species reaches equilibrium, with weights between zero and one; over any history volume fraction, radius and number of precipitates stay consistent, and no species is driven below its equilibrium; the scales of the stored variables do not matter; the derivatives are those of the rates in every state.", "quantifier": "all species, concentrations, physical constants, temperatures, scales and histories", "why_tests_cant": "Continuous histories and derivatives at every state; finite difference tests look at one.", "anchors": ["src/cp/hucocks.cxx:HuCocksPrecipitationModel::rate", "src/cp/hucocks.cxx:HuCocksPrecipitationModel::jac", "src/cp/hucocks.cxx:HuCocksPrecipitationModel::switching_function_"]}
{"id": "C87", "title": "Hu-Cocks hardening and Arrhenius slip", "statement": "Dislocation spacings stay positive and between the steady values of the least and greatest slip activity over any history, with one solution per step; precipitates and solute only raise the strength; strength, evolution, slip rates and history rates have the reported derivatives, for any number of systems and precipitates; the slip rate is continuous in the stress and defined for every stress; a crystal starts with the orientation it was given and every strength with its initial value.", "quantifier": "all lattices, numbers of precipitates, parameters, states, orientations, orders of strengths and step histories", "why_tests_cant": "Derivatives at every state, histories of any length, any composition of strengths.", "anchors": ["src/cp/hucocks.cxx:DislocationSpacingHardening", "src/cp/hucocks.cxx:HuCocksHardening", "src/cp/hucocks.cxx:HuCocksHardening::init_hist", "src/cp/hucocks.cxx:ArrheniusSlipRule"]}
{"id": "C88", "title": "Several precipitates sharing species", "statement": "The precipitation model with any number of precipitates refuses unknown species names and otherwise takes each name for the species of that name; it conserves every species between all precipitates and the solution; the weight of coarsening of a precipitate is between zero and one, and one exactly when one of its species has reached equilibrium, when it keeps its volume in fewer, larger particles; over any history no species is driven below equilibrium whichever precipitates contain it; with one precipitate of all species it agrees with the basic model in rates and histories; the derivatives of rates and strength are the reported ones, and the strength is defined whenever the rates are.", "quantifier": "all numbers of species and precipitates, compositions, constants, states and histories", "why_tests_cant": "Histories, derivatives at every state and any number of precipitates; the tests compare one state of one mixture with finite differences, within a tolerance that hides a wrong term.", "anchors": ["src/cp/generalizedhucocks.cxx:GeneralizedHuCocksPrecipitationModel::rate", "src/cp/generalizedhucocks.cxx:GeneralizedHuCocksPrecipitationModel::jac", "src/cp/generalizedhucocks.cxx:GeneralizedHuCocksHardening"]}
{"id": "C89", "title": "Dense vectors and matrices", "statement": "A square matrix described as zero, identity, diagonal, diagonal by blocks, by blocks or in full has exactly the described entries, none of them depending on what was in memory before, and a description whose sizes do not match is refused; multiplying by a vector uses those entries and refuses vectors of the wrong length; writing an entry changes that entry only; any use of vectors and matrices (construction, wrapping of the caller's memory, copying, assignment, destruction) frees every block exactly once.", "quantifier": "all sizes, block structures, data, memory contents and sequences of operations", "why_tests_cant": "Tests build a few small matrices; the claims range over block structures, memory contents and object lifetimes.", "anchors": ["src/math/matrix.cxx:SquareMatrix", "src/math/matrix.cxx:Matrix::dot", "src/math/matrix.cxx:FlatVector"]}
{"id": "C90", "title": "Pole figures and inverse pole figures", "statement": "The two projections draw every direction of the upper half sphere, and no other, within the limit of the plot, at different points; the Lambert projection keeps areas and the stereographic one angles, and the inverse projections undo them. A pole figure shows, in the frame of the sample, exactly the crystal directions equivalent to the pole for every orientation, is the same for orientations equivalent by crystal symmetry and has the requested sample symmetry; x and y are the axes of the plot. An inverse pole figure shows the sample direction in the chosen lattice axes and is the same for orientations equivalent by crystal or sample symmetry. Reduction to a triangle keeps exactly the points inside it and, for cubic crystals, one representative of every orientation; colours lie between zero and one, each corner having its own; earlier calls do not influence later ones.", "quantifier": "all directions, points, orientations, poles, symmetry groups, triangles and sequences of calls", "why_tests_cant": "directions, orientations and triangles are continua and the statements concern whole orbits of symmetry groups; the repository tests only evaluate a few projections", "anchors": ["neml/cp/polefigures.py:project_stereographic", "neml/cp/polefigures.py:inverse_project_stereographic", "neml/cp/polefigures.py:pole_figure_discrete", "neml/cp/polefigures.py:project_ipf", "neml/cp/polefigures.py:reduce_points_triangle", "neml/cp/polefigures.py:ipf_color", "neml/cp/polefigures.py:inverse_pole_figure_discrete"]}
{"id": "C91", "title": "Abaqus user material and example programs", "statement": "A run of the Abaqus user material over any sequence of increments gives, in Abaqus' components, the same stress, state and energies as calling update_sd directly with the same strain tensors, times and temperatures, and asks for a smaller step, leaving everything else as it was, exactly when the model refuses the increment. DDSDDE is the derivative of STRESS with respect to DSTRAN. It works for all element types and every call frees the model it loaded. The C, Fortran and C++ example programs compute the same history and report the error that occurred.", "quantifier": "all models, sequences of increments, states, element types and numbers of steps", "why_tests_cant": "the repository has no tests of util/; the claims range over all models and increment sequences", "anchors": ["util/abaqus/nemlumat.f:UMAT", "util/abaqus/nemlumat.f:convertv", "util/abaqus/nemlumat.f:bconvertt", "util/c_interface/csimple.c:main", "util/f_interface/fsimple.f", "util/cxx_interface/cxxsimple.cxx:main"]}
{"id": "C92", "title": "Building objects from Python", "statement": "A Python constructor returns an object exactly when it gets one positional argument per required parameter and every argument names a declared parameter and has a value that stands for something of its type; the object has those values, numbers given for objects being constants, and the defaults for the rest. Keyword order does not matter, missing parameters are reported, unknown keywords refused, required parameters may be given by keyword, a parameter given twice is an error, and a pickled object comes back the same.", "quantifier": "all classes of the factory, all positional and keyword arguments, all Python values", "why_tests_cant": "any combination of arguments and values for any of the registered classes", "anchors": ["include/pyhelp.h: assign_python_parameter, create_object_python, PICKLEABLE", "src/objects.cxx: ParameterSet::assign_parameter, get_object_type, Factory::create"]}
{"id": "C93", "title": "Lattices keep their systems", "statement": "Whatever slip and twin systems are given to a crystal lattice or added to it later, saving (or pickling) it and reading it back gives a lattice with the same slip and twin groups in the same order and numbering. Twin systems can be given to the constructor of every kind of lattice. An addition that raises an exception leaves the lattice as it was.", "quantifier": "all lattices, cell parameters, initial systems and sequences of additions and queries, failed ones included", "why_tests_cant": "any sequence of additions to any lattice; the repository tests save no lattice with twins", "anchors": ["src/cp/crystallography.cxx:Lattice::add_slip_system", "src/cp/crystallography.cxx:Lattice::add_twin_system", "src/cp/crystallography.cxx:CubicLattice::parameters", "src/cp/crystallography.cxx:HCPLattice::current_parameters", "include/objects.h:param_type", "src/parse.cxx:get_object", "src/deparse.cxx"]}
{"id": "C94", "title": "Arrays and indices from Python mean what they show", "statement": "A function called from Python works on the numbers an array shows, whatever its memory layout or number type, and refuses arrays of the wrong size. Arrays given to receive results show them afterwards and no other array of the caller changes. No object keeps using memory the caller no longer provides. Indexing a vector or tensor gives the entry at that index or raises an exception.", "quantifier": "all arrays (shapes, offsets, strides, types), all contents of memory, all functions behind the wrapper and all indices", "why_tests_cant": "layouts, sizes and lifetimes of arrays are unbounded, and reading freed or foreign memory usually goes unnoticed in a test", "anchors": ["include/pyhelp.h:arr2ptr", "src/models_wrap.cxx:update_sd", "src/block_wrap.cxx:block_evaluate", "src/cp/singlecrystal_wrap.cxx:set_passive_orientation", "src/math/rotations_wrap.cxx:Orientation", "src/history_wrap.cxx:set_data", "src/math/tensors_wrap.cxx:__getitem__"]}
{"id": "C95", "title": "The yield stress of a tensile test is the stress where the permanent strain reaches the offset", "statement": "For a recorded stress-strain curve, offset_stress and the yield strength of uniaxial_test are the stress of the first point of the (linearly interpolated) curve at which the strain left after elastic unloading equals the offset; if the test never reaches that permanent strain, uniaxial_test reports an infinite yield strength; a test in compression reports the same number as the same test in tension.", "quantifier": "every recorded curve of any length, every offset", "why_tests_cant": "the curve and the offset are arbitrary; uniqueness of the crossing is a statement about all points of all curves", "anchors": ["neml/drivers.py: offset_stress, uniaxial_test", "neml/drivers.py:428-438", "neml/drivers.py:1537-1552"]}
{"id": "C96", "title": "Driving a model through deformation gradients is a faithful time integration", "statement": "def_grad_driver returns one entry per equal time step with the prescribed deformation gradient, each obtained by one large deformation update from the previous entry; the accumulated strains and spins determine the gradients; stretches along axes give logarithmic strain as steps are refined; a change of reference configuration changes nothing; a rigid rotation produces no strain.", "quantifier": "every model, every deformation history with invertible gradients, every number of steps and final time", "why_tests_cant": "ranges over all functions of time, all models and all numbers of steps; the convergence claims are limits", "anchors": ["neml/drivers.py: def_grad_driver, sym, skew", "neml/drivers.py:1578-1641"]}
{"id": "C97", "title": "The store of a composed model has one place for every variable, with the right name, start and size", "statement": "For models built from other models (creep plus plasticity, damage on a base model, models switched by regime), init_store succeeds and puts the initial value of every internal variable where the updates look for it; the reported names are those of the entries; nstore is the static part plus nstate; updates read no entry outside the store; get_damage reports the damage the update uses; a variable prefix changes nothing but names.", "quantifier": "every composition of models of any depth, every list of variables, types and initial values, every prefix", "why_tests_cant": "compositions nest to any depth with any variables; a read past the end of an array often goes unnoticed in a test", "anchors": ["src/models.cxx: populate_hist, init_hist, nstate, nstatic, report_internal_variable_names, SmallStrainCreepPlasticity, KMRegimeModel", "src/damage.cxx: populate_state, init_state, get_damage", "src/history.cxx: init_store, nhist, cache_history_, set_variable_prefix"]}
{"id": "C98", "title": "Giving a composed model another elastic model changes it everywhere in that model and nowhere else", "statement": "After set_elastic_model on a model, every object it is made of uses the new elastic model, so it behaves as if it had been built with it; of several calls the last counts; elastic() names the elastic model the updates use; other models do not change.", "quantifier": "every program of constructors and set_elastic_model calls, every composition of any depth, with shared objects", "why_tests_cant": "compositions, sharing and histories of calls are unbounded", "anchors": ["src/models.cxx: set_elastic_model, elastic", "src/damage.cxx: set_elastic_model, ScalarDamage", "src/general_flow.cxx: set_elastic_model", "src/walker.cxx: set_elastic_model"]}
{"id": "C99", "title": "Objects built from several lists read only entries the lists have", "statement": "An object made from several lists (moduli and recovery models of a hardening rule, cuts and constants of a creep law, thresholds and models of a regime model, measures and weights, per-system constants of a slip hardening law, concentrations of species) either refuses lists whose lengths do not fit, with an exception when it is built or used, or uses for its n-th part the n-th entry of every list and reads nothing past the end of a list.", "quantifier": "every choice of lists of every length, every stress, temperature, history, activation energy and lattice size", "why_tests_cant": "lengths are unbounded and a read past the end of an array often goes unnoticed in a test", "anchors": ["src/hardening.cxx: Chaboche, ChabocheVoceRecovery", "src/creep.cxx: RegionKMCreep::select_region_", "src/models.cxx: KMRegimeModel", "src/damage.cxx: SumSeveralEffectiveStress, MaxSeveralEffectiveStress", "src/cp/slipharden.cxx", "src/cp/hucocks.cxx: c, Gv"]}
{"id": "C100", "title": "Numbers and switches written by hand in an input file mean what they say", "statement": "An element whose text is a number in decimal notation (optional sign, digits with or without a point, optional exponent), with blanks, tabs and line ends around it, is read as the value of that number; whole numbers are read exactly if they fit the type wanted and refused otherwise; a list of numbers separated by blanks is read in order with none lost; a number where a function of temperature is wanted is that constant; the words for switches mean what they say; and a text that is not a number is refused with an error naming the element.", "quantifier": "every text, every number of digits, every sign, point and exponent, every run of blanks, every list length", "why_tests_cant": "the texts a user may write are unbounded; tests read the handful of numbers in their own input files", "anchors": ["src/parse.cxx: get_double, get_int, get_bool, get_string, get_size_type, get_vector_double, get_vector_size_type, get_object, split_string, split_string_double, split_string_size_type"]}
{"id": "C101", "title": "A Nye tensor handed to a single crystal stays in force", "statement": "The tensor given to update_nye hardens the crystal in every following update until another one is given, adds its part to the reported strength, changes nothing else in the stored state, and is ignored by crystals whose laws do not use it.", "quantifier": "every program of calls of update_nye, set_active_orientation and update_ld_inc of any length, every tensor, every composition of hardening laws, every solver outcome", "why_tests_cant": "the tests set the tensor once and look at the array; whether it survives updates is a property of all call sequences", "anchors": ["src/cp/singlecrystal.cxx: update_nye, use_nye, attempt_update_ld_inc_, populate_static, strength", "src/cp/kinematics.cxx: StandardKinematicModel::decouple", "src/cp/slipharden.cxx: nye_contribution, nye_part, use_nye", "src/cp/sliprules.cxx: use_nye, strength", "src/cp/inelasticity.cxx: use_nye, strength"]}
{"id": "C102", "title": "Every class receives the parameters it declares", "statement": "For every registered class: whatever values of the declared types are given, in any order and however often, an object made by the factory is of the class asked for and its constructor receives for each declared parameter the last value given, or else the default written in the source, and nothing else; missing parameters, unknown names and objects of an unsuitable class are refused with the error meant for it; no two classes share a name.", "quantifier": "every registered class (122), every sequence of assignments of any length, every value", "why_tests_cant": "a parameter read under a wrong name or type is silently blank or indeterminate; tests give each class one set of values", "anchors": ["include/objects.h: param_type, ParameterSet, Factory, Register", "src/objects.cxx", "src/*.cxx, src/cp/*.cxx, src/math/*.cxx: type, parameters, initialize and constructors of every registered class"]}
{"id": "C103", "title": "Tensors and orientations behave as values", "statement": "Vectors, rank-two and rank-four tensors and orientations behave as values, except those laid over an array of the caller, which are windows on that array: copies are independent of the original, an assignment (also from a temporary) gives the left side the numbers of the right side or throws if the sizes differ, a change through a window reaches the array and nothing else, and no operation touches memory that is not there or loses memory.", "quantifier": "every program of constructions, copies, moves, assignments, arithmetic and destructions, of any length and over any arrays and windows, overlapping or not", "why_tests_cant": "who owns the memory depends on the whole history of copies and moves; a leak or a use of deleted memory need not show in any result", "anchors": ["src/math/tensors.cxx: Tensor constructors, destructor, operator=, operator*=, add_, negate_", "src/math/rotations.cxx: Quaternion constructors, destructor, operator=, alloc_", "include/math/tensors.h: Tensor", "include/math/rotations.h: Quaternion"]}
{"id": "C104", "title": "Histories keep their numbers and their memory", "statement": "A history is a container with numbers of its own or, over an array of the caller, a window on that array: adding variables keeps the numbers there are, a copy is independent of the original (a copy of a window is a window, a deep copy never), assignments and sums act on all numbers or throw if the sizes differ, laying a history over an array or converting it back frees and allocates what it must, a change through a window reaches the array and nothing else, and no operation touches memory that is not there or loses memory.", "quantifier": "every program of constructions, additions, copies, assignments, arithmetic, set_data, copy_data, make_store, increase_store and destructions, of any length, over any arrays, whatever fresh memory contains", "why_tests_cant": "reallocation, ownership and sharing depend on the whole history of operations; indeterminate memory is often zero in tests", "anchors": ["src/history.cxx: History constructors, destructor, operator=, deepcopy, set_data, copy_data, make_store, resize, increase_store, scalar_multiply, operator+=, zero", "include/history.h: History", "src/history_wrap.cxx: set_data, copy_data, deepcopy"]}
