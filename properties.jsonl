{"id": "C01", "title": "Interpolation hits its end points and stays between them", "statement": "For each interpolation law (Histogram, LinLin, LinLog, LogLin, LogLog), evaluating between two data points returns the left ordinate at the left abscissa, the right ordinate at the right abscissa (except Histogram, which is the left ordinate everywhere), and at any abscissa in between a value lying between the two ordinates and monotone in the abscissa.", "quantifier": "all x1<x2, all ordinates and all x in [x1,x2] (positive where a logarithm is taken)", "why_tests_cant": "The claim is over a continuum of real inputs for five formulas; tests sample points.", "anchors": ["include/PapillonNDL/interpolation.hpp: Histogram, LinLin, LinLog, LogLin, LogLog interpolate"]}
{"id": "C02", "title": "Inverse interpolation is a true inverse", "statement": "For each invertible law, invert(interpolate(x)) = x and interpolate(invert(y)) = y between two data points whose ordinates differ.", "quantifier": "all pairs of data points with distinct ordinates and all x (y) between them", "why_tests_cant": "Needs every pair of points and every x.", "anchors": ["include/PapillonNDL/interpolation.hpp: invert"]}
{"id": "C03", "title": "Segment integrals are the definite integral of the interpolant", "statement": "For each interpolation law, integrate(a,b) on a segment equals the Riemann integral from a to b of the interpolated function; hence it is zero on an empty range, antisymmetric and additive.", "quantifier": "all data points, all a and b in the segment", "why_tests_cant": "Equality with an integral cannot be tested, only approximated at points.", "anchors": ["include/PapillonNDL/interpolation.hpp: integrate"]}
{"id": "C04", "title": "Tabulated function: interpolation of the bracketing points, clamped outside", "statement": "A Tabulated1D evaluates to the tabulated ordinate at the first and last abscissae and beyond (clamping), and inside returns the interpolation of two consecutive tabulated points that bracket x under the law of the region that contains x; in particular at each abscissa of a continuous table it returns the tabulated ordinate. No access is out of range.", "quantifier": "all tables with valid breakpoints, all x", "why_tests_cant": "Every table size, every region partition, every x.", "anchors": ["include/PapillonNDL/tabulated_1d.hpp: operator(), InterpolationRange", "src/tabulated_1d.cpp: constructor"]}
{"id": "C05", "title": "Tabulated integrals are exact, antisymmetric and additive", "statement": "Tabulated1D::integrate(a,b) equals the integral of the interpolated table over [a,b]; integrate(b,a) = -integrate(a,b); integrate(a,b)+integrate(b,c)=integrate(a,c).", "quantifier": "all linear/histogram tables with valid breakpoints, all a,b,c", "why_tests_cant": "Ranges over all tables and all limits.", "anchors": ["include/PapillonNDL/tabulated_1d.hpp: integrate", "src/tabulated_1d.cpp"]}
{"id": "C06", "title": "Tabulated1D construction never reads out of range", "statement": "Whatever breakpoints, interpolation codes, abscissae and ordinates it is given, the constructor either builds a usable table or throws PNDLException; it never accesses memory out of range.", "quantifier": "all NBT, INT, x, y arrays", "why_tests_cant": "Malformed breakpoints are an unbounded family and undefined behaviour is not observable by assertion.", "anchors": ["src/tabulated_1d.cpp: Tabulated1D::Tabulated1D"]}
{"id": "C07", "title": "A copied or linearized table does not depend on another object's storage", "statement": "After copying a Tabulated1D or calling linearize() on it, evaluation uses only memory owned by the object itself, so it survives the destruction of every other object.", "quantifier": "all tables and all histories of copy, linearize and destroy", "why_tests_cant": "Use-after-free depends on the history of the heap; a test may read stale memory and still pass.", "anchors": ["src/tabulated_1d.cpp: linearize", "include/PapillonNDL/tabulated_1d.hpp: InterpolationRange spans"]}
{"id": "C08", "title": "Linearization refines a grid, preserves exactness at grid points and meets the tolerance at midpoints", "statement": "linearize(x,f,tol) returns a sorted grid containing every input abscissa, with y[i]=f(x[i]) at every point, such that on each final interval the linear interpolant at the midpoint is within the relative tolerance of f.", "quantifier": "all functions f, all sorted starting grids with at least two points, all tolerances", "why_tests_cant": "Quantifies over all functions and adaptive histories.", "anchors": ["src/linearize.cpp: linearize"]}
{"id": "C09", "title": "Polynomial1D is the polynomial and its integral is exact", "statement": "Polynomial1D with coefficients c evaluates to sum c_i x^i for every x and integrate(a,b) is the Riemann integral of that polynomial.", "quantifier": "all coefficient lists, all x, a, b", "why_tests_cant": "Every degree and every argument.", "anchors": ["src/polynomial_1d.cpp", "include/PapillonNDL/polynomial_1d.hpp"]}
{"id": "C10", "title": "Sum, difference and constant functions are pointwise and integrate linearly", "statement": "Sum1D/Difference1D evaluate to the pointwise sum/difference and their integrals to the sum/difference of the integrals; Constant integrates to c(b-a). A null term is rejected with an exception and no other input is.", "quantifier": "all component functions, all arguments", "why_tests_cant": "Quantifies over all functions.", "anchors": ["include/PapillonNDL/sum_1d.hpp", "include/PapillonNDL/difference_1d.hpp", "include/PapillonNDL/constant.hpp"]}
{"id": "C11", "title": "Sampling a PCTable never leaves the tabulated range and is the exact inverse CDF", "statement": "For a table whose CDF is the integral of its PDF, sample_value(xi) lies in the bracketing tabulated values, has CDF exactly xi, and is nondecreasing in xi.", "quantifier": "all valid tables, all xi in [0,1)", "why_tests_cant": "A statement about every xi and every table; statistical tests are only approximate.", "anchors": ["include/PapillonNDL/pctable.hpp: sample_value, histogram_interp, linear_interp"]}
{"id": "C12", "title": "Sampling an accepted PCTable is memory safe", "statement": "Every table accepted by the PCTable constructor can be sampled with every xi in [0,1) without out-of-range access.", "quantifier": "all accepted tables, all xi in [0,1)", "why_tests_cant": "The failing xi can have arbitrarily small probability.", "anchors": ["src/pctable.cpp: constructors", "include/PapillonNDL/pctable.hpp: sample_value"]}
{"id": "C13", "title": "PCTable pdf is a density consistent with its CDF", "statement": "pdf(value) is nonnegative, zero outside the tabulated range, and its integral between two tabulated points is the difference of the tabulated CDF values (so total integral 1).", "quantifier": "all valid tables, all values", "why_tests_cant": "Continuum of values.", "anchors": ["include/PapillonNDL/pctable.hpp: pdf"]}
{"id": "C14", "title": "Every sampled scattering cosine lies in [-1,1]", "statement": "For each angular law (isotropic, 32 equiprobable bins, tabulated, Legendre, energy-dependent angle distribution) every sampled cosine lies in [-1,1], for every random sequence and energy.", "quantifier": "all accepted tables, energies and random sequences", "why_tests_cant": "All random sequences.", "anchors": ["src/angle_distribution.cpp", "include/PapillonNDL/angle_table.hpp", "src/equiprobable_angle_bins.cpp", "src/legendre.cpp", "include/PapillonNDL/isotropic.hpp"]}
{"id": "C15", "title": "Equiprobable angle bins: a sample lies in the bin selected by xi", "statement": "sample_mu(xi) returns a cosine in bin floor(32 xi), linear in xi within the bin, so that each bin has probability 1/32 and agrees with pdf.", "quantifier": "all bounds, all xi in [0,1)", "why_tests_cant": "Distributional claim over all xi.", "anchors": ["src/equiprobable_angle_bins.cpp: sample_mu, pdf"]}
{"id": "C16", "title": "Legendre series: evaluation, normalisation and probability", "statement": "Legendre::pdf(mu) equals sum (2l+1)/2 a_l P_l(mu) with a_0=1 and P_l the Legendre polynomials; its integral over [-1,1] is 1.", "quantifier": "all moment lists, all mu", "why_tests_cant": "All orders and all cosines.", "anchors": ["src/legendre.cpp", "include/PapillonNDL/legendre.hpp"]}
{"id": "C17", "title": "Legendre::set_moment that throws leaves the object unchanged", "statement": "If set_moment rejects a moment with an exception the stored distribution is unchanged.", "quantifier": "all distributions, indices and values", "why_tests_cant": "Requires checking the state after every possible rejection.", "anchors": ["src/legendre.cpp: set_moment"]}
{"id": "C18", "title": "Incident-energy selection brackets the energy", "statement": "For every energy-dependent distribution the table used is the one at the grid energy nearest below/above with probability given by linear interpolation, the first (last) table below (above) the grid; grid energies reproduce their own table.", "quantifier": "all grids, all incident energies, all xi", "why_tests_cant": "All grids and energies.", "anchors": ["src/angle_distribution.cpp", "src/tabular_energy.cpp", "src/tabular_energy_angle.cpp", "src/kalbach.cpp", "src/equiprobable_energy_bins.cpp"]}
{"id": "C19", "title": "Tabular outgoing energies stay within the interpolated limits", "statement": "TabularEnergy, TabularEnergyAngle and Kalbach return an outgoing energy between the interpolated minimum and maximum of the bracketing tables (unit-base interpolation), exactly reproducing the table at grid energies.", "quantifier": "all valid tables, energies and random numbers", "why_tests_cant": "All tables and draws.", "anchors": ["src/tabular_energy.cpp: sample_energy", "src/tabular_energy_angle.cpp", "src/kalbach.cpp"]}
{"id": "C20", "title": "Tables with a single incident energy are usable", "statement": "A distribution constructed with one incident energy can be sampled and its pdf evaluated at any incident energy without out-of-range access.", "quantifier": "all one-point distributions, all energies", "why_tests_cant": "Undefined behaviour.", "anchors": ["src/tabular_energy.cpp", "src/tabular_energy_angle.cpp", "src/kalbach.cpp", "src/angle_distribution.cpp"]}
{"id": "C21", "title": "EnergyAngleTable sampling and pdf are memory safe", "statement": "Every accepted EnergyAngleTable can be sampled with every xi in [0,1) and its pdf evaluated at every outgoing energy without out-of-range access.", "quantifier": "all accepted tables, all random numbers, all energies", "why_tests_cant": "The failing points have measure zero.", "anchors": ["src/energy_angle_table.cpp", "include/PapillonNDL/energy_angle_table.hpp: sample_angle_energy, pdf"]}
{"id": "C22", "title": "KalbachTable sampling is the inverse CDF and its parameters are interpolated within bounds", "statement": "sample_energy(xi) is memory safe and inverts the CDF; R(E) and A(E) lie between the tabulated neighbours and equal the tabulated values at grid energies; pdf is memory safe at every outgoing energy.", "quantifier": "all accepted tables, all xi and energies", "why_tests_cant": "All tables and energies.", "anchors": ["include/PapillonNDL/kalbach_table.hpp", "src/kalbach_table.cpp"]}
{"id": "C23", "title": "Kalbach-Mann angular density is normalised and sampled in [-1,1]", "statement": "For A>0 and 0<=R<=1 the Kalbach angular pdf integrates to 1 over [-1,1], and every sampled cosine is in [-1,1]; the sampling formulas invert the corresponding cumulative distributions.", "quantifier": "all A, R, all random numbers", "why_tests_cant": "Continuum.", "anchors": ["src/kalbach.cpp", "include/PapillonNDL/kalbach_table.hpp"]}
{"id": "C24", "title": "Equiprobable energy bins: samples in the bin selected by xi, memory safe", "statement": "Sampling n equiprobable bins with xi returns an energy in bin floor(n xi), without out-of-range access.", "quantifier": "all tables with at least two bounds, all xi in [0,1)", "why_tests_cant": "Every xi.", "anchors": ["src/equiprobable_energy_bins.cpp: sample_bins, pdf_bins", "src/general_evaporation.cpp: sample_energy"]}
{"id": "C25", "title": "Fission/evaporation spectra respect the restriction energy", "statement": "Maxwellian, Evaporation and Watt return an outgoing energy in [0, E_in-U] for every random sequence, and their pdf is zero outside that range and nonnegative inside.", "quantifier": "all parameters, all random sequences for which sampling returns", "why_tests_cant": "Rejection loops over unbounded random sequences.", "anchors": ["src/maxwellian.cpp", "src/evaporation.cpp", "src/watt.cpp"]}
{"id": "C26", "title": "Evaporation pdf integrates to one", "statement": "The Evaporation pdf integrates to one over [0,E_in-U].", "quantifier": "all temperatures > 0 and E_in > U", "why_tests_cant": "Integral over a continuum.", "anchors": ["src/evaporation.cpp: pdf"]}
{"id": "C27", "title": "Watt parameter accessors return the parameters", "statement": "Watt::a() and Watt::b() return the a and b parameter functions the distribution samples with.", "quantifier": "all Watt objects, all energies", "why_tests_cant": "For all parameters.", "anchors": ["include/PapillonNDL/watt.hpp: a, b"]}
{"id": "C28", "title": "Level inelastic scattering and N-body limits", "statement": "LevelInelasticScatter returns C2(E-C1), nondecreasing in E and nonnegative above the threshold; NBody returns energies in [0,Emax] and cosines in [-1,1) and rejects n outside {3,4,5} and nonpositive masses.", "quantifier": "all parameters, energies and random numbers", "why_tests_cant": "All inputs.", "anchors": ["src/level_inelastic_scatter.cpp", "src/nbody.cpp"]}
{"id": "C29", "title": "Mixtures select each component with its probability", "statement": "MultipleDistribution selects component d exactly for xi in its cumulative probability interval, so every draw selects exactly one component, and its pdf is the probability-weighted sum of the component pdfs (absent if any is absent).", "quantifier": "all component lists, probabilities, xi and energies", "why_tests_cant": "All lists and random numbers.", "anchors": ["src/multiple_distribution.cpp"]}
{"id": "C30", "title": "Summed fission spectrum pdf is the cross-section weighted mixture", "statement": "SummedFissionSpectrum::pdf is sum_i (xs_i/xs_tot) pdf_i, in agreement with how it samples.", "quantifier": "all partial fission reactions and energies", "why_tests_cant": "All energies and components.", "anchors": ["src/summed_fission_spectrum.cpp"]}
{"id": "C31", "title": "Uncorrelated pdf is the product of marginals", "statement": "Uncorrelated::pdf(E,mu,E') = angle pdf * energy pdf, absent exactly when the energy pdf is absent; sampling draws the angle then the energy, each from its own law.", "quantifier": "all laws, all arguments, all random sequences", "why_tests_cant": "All laws.", "anchors": ["src/uncorrelated.cpp"]}
{"id": "C32", "title": "Hashed energy-grid lookup equals binary search", "statement": "EnergyGrid::get_lower_index(E) returns i with grid[i] <= E <= grid[i+1] inside the grid, 0 below and size-1 at and above the top, whatever the number of hash bins.", "quantifier": "all grids, all bin counts >= 1, all energies", "why_tests_cant": "Every grid, hash configuration and energy.", "anchors": ["include/PapillonNDL/energy_grid.hpp: get_lower_index, hash_energy_grid", "src/energy_grid.cpp"]}
{"id": "C33", "title": "Cross section: threshold, clamping and linear interpolation", "statement": "A CrossSection is zero below its threshold, equals its tabulated value at grid energies, the last value above the grid, is linear between neighbours and never negative.", "quantifier": "all cross sections, all energies", "why_tests_cant": "All grids and energies.", "anchors": ["include/PapillonNDL/cross_section.hpp: operator()", "src/cross_section.cpp"]}
{"id": "C34", "title": "All ways of evaluating a cross section agree", "statement": "operator()(E), operator()(E, i) and operator()(E, i, El, Eh) agree when i = get_lower_index(E) and El, Eh are the bracketing energies.", "quantifier": "all cross sections, all energies", "why_tests_cant": "Disagreement occurs only at isolated energies.", "anchors": ["include/PapillonNDL/cross_section.hpp", "include/PapillonNDL/energy_grid.hpp"]}
{"id": "C35", "title": "XSPacket arithmetic obeys the vector-space laws", "statement": "XSPacket +, -, *, / and unary minus act component by component: (p+q)-q = p, c(p+q)=cp+cq, p+(-p)=0.", "quantifier": "all packets and scalars", "why_tests_cant": "Algebraic law over all values.", "anchors": ["include/PapillonNDL/xs_packet.hpp"]}
{"id": "C36", "title": "Evaluated neutron cross sections balance", "statement": "STNeutron::evaluate_xs returns a packet with absorption = disappearance + fission, inelastic = max(0, total - elastic - absorption); so all parts are nonnegative and the parts add up to the total unless inelastic was clamped.", "quantifier": "all energies, all cross sections", "why_tests_cant": "All energies.", "anchors": ["src/st_neutron.cpp: evaluate_xs"]}
{"id": "C37", "title": "Reaction lookup by MT agrees with the reaction list", "statement": "STNeutron::has_reaction(mt) holds exactly for MTs in mt_list(), and reaction(mt) returns the reaction with that MT, throwing otherwise; for any MT number, without out-of-range access.", "quantifier": "all reaction lists, all mt values", "why_tests_cant": "All MT numbers, all files.", "anchors": ["src/st_neutron.cpp: constructors", "include/PapillonNDL/st_neutron.hpp: has_reaction, reaction"]}
{"id": "C38", "title": "Probability tables: valid band, nonnegative parts, balanced sums", "statement": "URRPTables::evaluate_xs returns a result exactly for energies in the table range, selects the band whose CDF interval contains xi (always a valid band), and returns nonnegative partials with absorption >= capture+fission and total = elastic + inelastic + absorption.", "quantifier": "all tables, energies and xi in [0,1]", "why_tests_cant": "All tables, energies and random numbers.", "anchors": ["include/PapillonNDL/urr_ptables.hpp: evaluate_xs", "src/urr_ptables.cpp"]}
{"id": "C39", "title": "Fission multiplicities are consistent", "statement": "nu_total, nu_prompt and nu_delayed of Fission satisfy total = prompt + delayed at every energy, whichever blocks the evaluation provides; delayed is zero without delayed data.", "quantifier": "all combinations of provided blocks, all energies", "why_tests_cant": "All evaluations.", "anchors": ["src/fission.cpp"]}
{"id": "C40", "title": "Centre-of-mass and laboratory transforms are mutually inverse", "statement": "Transforming an (angle, energy) pair from CM to lab and back (or the reverse) returns the original pair, with cosines in [-1,1] and nonnegative energy in between.", "quantifier": "all A>0, E_in>0, mu in [-1,1], E_out>0 (nonzero resulting speed)", "why_tests_cant": "Continuum of kinematic states.", "anchors": ["include/PapillonNDL/frame.hpp: CMToLab::transform, LabToCM::transform"]}
{"id": "C41", "title": "Rotation of directions preserves length and realises the scattering cosine", "statement": "Rotating a unit vector by (mu, phi) yields a unit vector whose dot product with the original is mu.", "quantifier": "all unit directions, mu in [-1,1], phi", "why_tests_cant": "Continuum, with a special case near the pole.", "anchors": ["include/PapillonNDL/vector.hpp or src/vector.hpp: rotate_direction"]}
{"id": "C42", "title": "Elastic scattering off a target at rest", "statement": "With the target at rest the outgoing energy is E(1+2A mu_cm+A^2)/(1+A)^2, lies between alpha E and E, and the lab cosine is in [-1,1].", "quantifier": "all A>0, E>0, mu_cm in [-1,1]", "why_tests_cant": "Continuum.", "anchors": ["src/elastic.cpp"]}
{"id": "C43", "title": "Elastic configuration setters validate like the constructor", "statement": "No sequence of constructor and setter calls leaves an Elastic object with a negative temperature or negative target-at-rest threshold; a setter that throws leaves the object unchanged.", "quantifier": "all call sequences", "why_tests_cant": "All histories.", "anchors": ["src/elastic.cpp", "include/PapillonNDL/elastic.hpp"]}
{"id": "C44", "title": "DBRC majorant bounds the cross section", "statement": "The maximum cross section used by DBRC rejection bounds the 0K cross section at every relative energy in the sampled interval.", "quantifier": "all 0K cross sections, all energy intervals", "why_tests_cant": "All grids and energies in the interval.", "anchors": ["src/elastic_dbrc.cpp: max_xs_value"]}
{"id": "C45", "title": "Coherent elastic scattering", "statement": "STCoherentElastic::xs(E) is (structure factor sum of edges below E)/E, zero below the first Bragg edge; the sampled cosine lies in [-1,1], equals 1-2 E_edge/E for an edge below E and the energy is unchanged.", "quantifier": "all edges, energies, random numbers", "why_tests_cant": "All energies including exactly at an edge.", "anchors": ["src/st_coherent_elastic.cpp", "include/PapillonNDL/st_coherent_elastic.hpp"]}
{"id": "C46", "title": "Discrete thermal scattering tables are sampled in range", "statement": "DiscreteCosinesEnergies selects outgoing energy and cosine indices within the tables, with probabilities that sum to one in skewed and equiprobable modes, and the result has cosine in [-1,1].", "quantifier": "all tables with at least the required sizes, all random numbers", "why_tests_cant": "All random numbers.", "anchors": ["src/discrete_cosines_energies.cpp"]}
{"id": "C47", "title": "Continuous thermal scattering tables are sampled in range", "statement": "ContinuousEnergyDiscreteCosines samples outgoing energies within the table limits and cosines in [-1,1] without out-of-range access.", "quantifier": "all accepted tables, all random numbers", "why_tests_cant": "All random numbers.", "anchors": ["src/continuous_energy_discrete_cosines.cpp"]}
{"id": "C48", "title": "Elements: atomic number, symbol and name identify each other", "statement": "Element(Z) is accepted exactly for 1<=Z<=118; symbols and names are pairwise distinct and looking an element up by its own symbol or name returns the same element.", "quantifier": "all Z, all strings", "why_tests_cant": "All strings.", "anchors": ["include/PapillonNDL/element.hpp", "src/element.cpp"]}
{"id": "C49", "title": "Isotopes: validity and symbol round trip", "statement": "Isotope(Z,A) is accepted exactly when 1<=Z<=118 and Z<=A<300; Isotope(symbol()) returns the same isotope; equality and order are the lexicographic ones on (Z,A).", "quantifier": "all Z, A and strings", "why_tests_cant": "All inputs.", "anchors": ["include/PapillonNDL/isotope.hpp"]}
{"id": "C50", "title": "Nuclides: ZAID and symbol round trips", "statement": "Nuclide(n.zaid()) = n and Nuclide(n.symbol()) = n for every valid nuclide n; constructing from any ZAID yields a valid nuclide or an exception.", "quantifier": "all nuclides (Z,A,level), all ZAIDs", "why_tests_cant": "Ambiguous encodings are isolated.", "anchors": ["include/PapillonNDL/nuclide.hpp"]}
{"id": "C51", "title": "Identity types are totally ordered and hash consistently", "statement": "==, < on ZAID, Element, Isotope and Nuclide form a strict total order compatible with equality, and equal values have equal hashes.", "quantifier": "all pairs and triples of values", "why_tests_cant": "All triples.", "anchors": ["include/PapillonNDL/zaid.hpp", "include/PapillonNDL/element.hpp", "include/PapillonNDL/isotope.hpp", "include/PapillonNDL/nuclide.hpp"]}
{"id": "C52", "title": "Binary ACE files round trip", "statement": "Loading a file written by save_binary from an ACE object yields an object with identical NXS, JXS, XSS and header data.", "quantifier": "all ACE contents, all XSS lengths", "why_tests_cant": "All lengths across record boundaries.", "anchors": ["src/ace.cpp: save_binary, read_binary"]}
{"id": "C53", "title": "Saving an ACE file does not change the ACE object", "statement": "save_binary leaves every observable of the object unchanged, so that repeated saves write the same bytes.", "quantifier": "all ACE objects, all numbers of saves", "why_tests_cant": "History property.", "anchors": ["src/ace.cpp: save_binary"]}
{"id": "C54", "title": "Reading a malformed binary ACE file is an exception, not undefined behaviour", "statement": "read_binary on any byte sequence either produces an object or throws; it never writes out of range and always terminates.", "quantifier": "all byte sequences", "why_tests_cant": "All malformed inputs.", "anchors": ["src/ace.cpp: read_binary"]}
{"id": "C55", "title": "Library temperature selection is the nearest available", "statement": "nearest_temperature returns a provided temperature minimising the distance to the request, and loading uses the nearest table, throwing exactly when no table is within tolerance.", "quantifier": "all sorted temperature lists, requests and tolerances", "why_tests_cant": "All lists.", "anchors": ["src/nd_library.cpp: nearest_temperature, load_STNeutron, load_STTSL"]}
{"id": "C56", "title": "Library cache: each table is read at most once and repeated loads return the same object", "statement": "For every sequence of load requests, each table is read from disk at most once and every later request resolving to it returns the same object.", "quantifier": "all request sequences", "why_tests_cant": "All histories.", "anchors": ["src/nd_library.cpp: load_STNeutron, load_STTSL"]}
{"id": "C57", "title": "Random number engine: full-range LCG with exact advance", "statement": "rng_advance(n) puts the engine in the state reached by n single draws, rng_reset restores the seeded initial state, states stay in [0,2^63), and the generator has full period 2^63.", "quantifier": "all seeds, all n, all states", "why_tests_cant": "2^63 states.", "anchors": ["src/rng.cpp"]}
{"id": "C58", "title": "Lab scattering angle gives exactly the CM angles it can come from", "statement": "LabToCM::angle(E,A,Q,mu) returns exactly the centre-of-mass cosines in [-1,1] whose two-body kinematics give the lab cosine mu (none, one or two).", "quantifier": "all A>0, E, Q, all lab cosines mu", "why_tests_cant": "A continuum of angles and masses; the wrong extra root looks like a plausible cosine.", "anchors": ["include/PapillonNDL/frame.hpp: LabToCM::angle"]}
{"id": "C59", "title": "Densities change frame by the change-of-variables Jacobian", "statement": "CMDistribution::pdf multiplies the CM density by the determinant of the lab->CM map, and CMDistribution::angle_pdf by |d mu_cm/d mu_lab| for each CM angle, so probabilities are preserved; an absent density stays absent.", "quantifier": "all A>0, energies, cosines, all wrapped distributions", "why_tests_cant": "Derivative identity for every point.", "anchors": ["src/cm_distribution.cpp", "include/PapillonNDL/frame.hpp: angle_jacobian, jacobian"]}
{"id": "C60", "title": "Thermal target velocities are physical", "statement": "ElasticSVT returns, for every random sequence on which it returns, a target velocity whose speed squared is x^2 kT/A with x^2>=0 and whose angle to the neutron has a cosine in [-1,1].", "quantifier": "all energies, temperatures, masses and random sequences", "why_tests_cant": "Rejection loop over all random sequences.", "anchors": ["src/elastic_svt.cpp: sample_target_velocity"]}
{"id": "C61", "title": "Interpolated outgoing-energy densities are normalised", "statement": "TabularEnergy::pdf(E_in, .) is nonnegative, vanishes outside the interpolated outgoing-energy limits and integrates to one at every incident energy.", "quantifier": "all valid tables (at least two), all incident energies", "why_tests_cant": "A statement about an integral over a continuum, for every pair of tables.", "anchors": ["src/tabular_energy.cpp: pdf"]}
{"id": "C62", "title": "Maxwellian and Watt densities are normalised", "statement": "Maxwellian::pdf and Watt::pdf integrate to one over [0,E_in-U].", "quantifier": "all positive parameters and all incident energies above the restriction energy", "why_tests_cant": "Exact identity of an improper-looking integral for all parameter values.", "anchors": ["src/maxwellian.cpp: pdf", "src/watt.cpp: pdf"]}
{"id": "C63", "title": "N-body phase-space density", "statement": "NBody::pdf is nonnegative, integrates over [0,Emax] to the isotropic angular density 1/2, and vanishes beyond Emax.", "quantifier": "n in {3,4,5}, all masses, Q values and incident energies", "why_tests_cant": "Exact Beta-function integrals for all parameters.", "anchors": ["src/nbody.cpp: pdf, angle_pdf"]}
{"id": "C64", "title": "Fission cross section", "statement": "The fission cross section of an STNeutron is its MT 18 cross section if the file gives one, and otherwise the sum of the chances MT 19, 20, 21 and 38, at every energy.", "quantifier": "all files, grids and energies", "why_tests_cant": "All combinations of thresholds and grid positions.", "anchors": ["src/st_neutron.cpp: compute_fission_xs"]}
{"id": "C65", "title": "ACE blocks are decoded as laid out", "statement": "Multiplicity, tabulated-function and probability-table blocks written at any position of the XSS array in the layout of the ACE format are read back as exactly that function or table; a negative partial cross section in a probability table is rejected.", "quantifier": "all block contents and positions", "why_tests_cant": "All block lengths, region counts and values.", "anchors": ["src/fission.cpp: read_nu, read_tabular_nu, read_polynomial_nu", "src/reaction_base.cpp", "src/delayed_family.cpp", "src/urr_ptables.cpp"]}
{"id": "C66", "title": "Standard English element names are accepted", "statement": "Element(name) and Isotope/Nuclide lookups accept the standard (IUPAC, American spelling) English name of every element 1..118 and name() returns it.", "quantifier": "all 118 elements, all strings", "why_tests_cant": "a test suite checks a few names; the table is 118 entries long", "anchors": ["src/element.cpp: elements_table", "include/PapillonNDL/element.hpp: Element(std::string)"]}
{"id": "C67", "title": "Listed symbols lead to their data", "statement": "Every symbol in list_STNeutron() and list_STTSL() resolves, when used in a request, to the data it was listed for.", "quantifier": "all ZAIDs and thermal scattering names a library file may contain", "why_tests_cant": "a test sees the names of one library", "anchors": ["src/nd_library.cpp: symbol_to_zaid, populate_symbol_lists, load_STTSL"]}
{"id": "C68", "title": "A Serpent directory file registers each table once", "statement": "For every list of rows, each row with a new identifier is registered exactly once under its ZAID or material name with its file, type and temperature, lists are sorted by temperature, and white space at the end of the file makes no difference.", "quantifier": "all directory files", "why_tests_cant": "a test reads one file", "anchors": ["src/serpent_library.cpp: SerpentLibrary"]}
{"id": "C69", "title": "An MCNP directory registers each table once", "statement": "Each neutron or thermal line is registered exactly once under its ZAID or name with file, type and temperature in kelvin; malformed lines are an exception; lists are sorted by temperature and nothing is loaded.", "quantifier": "all directory sections", "why_tests_cant": "a test reads one file", "anchors": ["src/mcnp_library.cpp: MCNPLibrary"]}
{"id": "C70", "title": "Incoherent elastic thermal scattering", "statement": "STIncoherentElasticACE::xs(E) is the linear interpolation of the tabulated cross section (constant outside the grid, zero if the file has no incoherent elastic part); sample_angle_energy leaves the energy unchanged and picks, with equal probability, one of the tabulated cosine bins, interpolated between the bracketing incident energies, so that the cosine lies in [-1,1].", "quantifier": "all accepted files, all energies and random numbers", "why_tests_cant": "Every incident energy, index and random number, including one-point tables.", "anchors": ["src/st_incoherent_elastic_ace.cpp", "include/PapillonNDL/st_incoherent_elastic_ace.hpp: xs, sample_angle_energy"]}
{"id": "C71", "title": "Thermal scattering law", "statement": "STThermalScatteringLaw built from an ACE file reports coherent / incoherent elastic exactly as the file flags them, its total cross section is the sum of its parts, and its inelastic distribution is the one the file's flag selects.", "quantifier": "all ACE files", "why_tests_cant": "All combinations of flags and blocks.", "anchors": ["src/st_thermal_scattering_law.cpp", "src/st_incoherent_inelastic.cpp", "include/PapillonNDL/st_thermal_scattering_law.hpp"]}
{"id": "C72", "title": "Laws read from an ACE file are the laws the file describes", "statement": "For every ACE file in which a table or energy/angle-energy law (laws 1, 2, 3, 4, 5, 7, 9, 11, 44, 61, 66) is laid out as the ACE format prescribes, the object built from the file equals the object built from the same numbers by the class's vector constructor, and it is rejected exactly when the vector constructor rejects it.", "quantifier": "all ACE arrays, all positions of the block, all supported law numbers, all numbers of regions, energies, points and bins", "why_tests_cant": "A test covers a few files; the claim ranges over all layouts and offsets.", "anchors": ["src/tabular_energy.cpp TabularEnergy", "src/kalbach.cpp Kalbach", "src/kalbach_table.cpp KalbachTable", "src/energy_angle_table.cpp EnergyAngleTable", "src/tabular_energy_angle.cpp TabularEnergyAngle", "src/pctable.cpp PCTable", "src/equiprobable_energy_bins.cpp", "src/maxwellian.cpp", "src/evaporation.cpp", "src/watt.cpp", "src/general_evaporation.cpp", "src/nbody.cpp", "src/level_inelastic_scatter.cpp", "src/discrete_photon.cpp"]}
{"id": "C73", "title": "Angular distributions read from an ACE file", "statement": "An AngleDistribution built from a positive locator holds the file's incident energies, each with the isotropic, 32-equiprobable-bin or tabulated law its own locator names; locator 0 is isotropic; a negative locator throws; elastic scattering uses the first entry of the LAND block.", "quantifier": "all ACE arrays, all locators, all numbers of energies", "why_tests_cant": "A test covers a few files; the claim ranges over all layouts and offsets.", "anchors": ["src/angle_distribution.cpp AngleDistribution", "src/equiprobable_angle_bins.cpp", "src/angle_table.cpp", "src/st_neutron.cpp STNeutron"]}
{"id": "C74", "title": "The reaction returned for an MT is the one the file describes", "statement": "For every object read from a file, reaction(mt) is built from an entry of the file with that MT (the last one): its MT, Q, AWR, cross section, threshold, yield and secondary distribution are those of the file; the distribution is the single law or the mixture of the laws in file order, in the centre-of-mass frame iff TYR is negative; an absorption reaction has none; below the threshold sampling returns {0,0} without a draw. An object derived from another one takes yield and distribution from it and cross section and threshold from the new file.", "quantifier": "all ACE files, all MT numbers, all incident energies, all random streams", "why_tests_cant": "A test checks a few reactions of a few files.", "anchors": ["src/reaction_base.cpp ReactionBase", "src/reaction.cpp Reaction", "include/PapillonNDL/reaction.hpp", "include/PapillonNDL/st_neutron.hpp reaction", "src/st_neutron.cpp STNeutron", "src/cross_section.cpp CrossSection"]}
{"id": "C75", "title": "Unsupported laws are rejected and loading ends", "statement": "A reaction whose law number is not supported, or whose law needs an angular distribution the file does not give, makes the constructor throw; and the constructor always returns or throws.", "quantifier": "all ACE files, all law numbers, all chains of laws", "why_tests_cant": "Non-termination on some file cannot be excluded by tests.", "anchors": ["src/reaction_base.cpp ReactionBase::load_neutron_distributions"]}
{"id": "C76", "title": "Cosines of file reactions lie in [-1,1]", "statement": "Whatever the ACE file, the reaction, the incident energy and the random draws in [0,1), a sampled cosine lies in [-1,1].", "quantifier": "all ACE files, all reactions, all incident energies, all random streams", "why_tests_cant": "A test samples finitely many draws of finitely many files.", "anchors": ["src/reaction_base.cpp", "include/PapillonNDL/reaction_base.hpp sample_neutron_angle_energy", "src/cm_distribution.cpp", "src/uncorrelated.cpp", "src/kalbach.cpp", "src/tabular_energy_angle.cpp", "src/nbody.cpp", "src/multiple_distribution.cpp"]}
{"id": "C77", "title": "Delayed neutron families are decoded in sequence", "statement": "The delayed families of a fissile nuclide are those of the file's BDD block, in order, however long each block is: decay constant converted from inverse shakes to inverse seconds, probability table, and the energy law of the DNED block; an unsupported law throws.", "quantifier": "all ACE files, all numbers of families, all lengths of the probability tables", "why_tests_cant": "A test checks a few files.", "anchors": ["src/delayed_family.cpp DelayedFamily", "src/fission.cpp Fission"]}
{"id": "C78", "title": "The free-gas target sampler is exactly the SVT rejection scheme", "statement": "ElasticSVT returns, for every random sequence, the velocity of the first trial accepted: a trial proposes speed and cosine from the two-density mixture and is kept when its test number is below (relative speed)/(sum of speeds); the velocity returned has that speed, that cosine to the neutron and a uniform azimuth; exactly the numbers of the trials and one more are consumed; it never fails in another way.", "quantifier": "all energies, temperatures above 0, masses and random sequences in (0,1), any number of rejections", "why_tests_cant": "The rejection loop has no bound; a test sees finitely many sequences.", "anchors": ["src/elastic_svt.cpp sample_target_velocity", "src/vector.hpp rotate"]}
{"id": "C79", "title": "DBRC is exactly the resonance rejection scheme with the true maximum", "statement": "ElasticDBRC keeps a free-gas velocity iff its relative energy lies within four reduced speeds of the neutron's and its test number is below s(Er)/M, where M is the maximum of the 0 K cross section over that window; otherwise it draws again.", "quantifier": "all cross sections without threshold on strictly increasing grids, all energies whose window lies above the first grid energy, all temperatures above 0, all random sequences in (0,1)", "why_tests_cant": "The rejection loop has no bound, and the maximum is over a continuum.", "anchors": ["src/elastic_dbrc.cpp sample_target_velocity", "src/elastic_dbrc.cpp max_xs_value"]}
{"id": "C80", "title": "Sampling elastic scattering always makes progress", "statement": "For every accepted configuration, each trial of the target-velocity loop ends the call with a probability bounded away from zero.", "quantifier": "all accepted configurations, energies and random sequences", "why_tests_cant": "Non-termination cannot be observed by tests.", "anchors": ["src/elastic_svt.cpp sample_target_velocity", "src/elastic.cpp Elastic"]}
{"id": "C81", "title": "Principal cross sections come from the right columns of the file", "statement": "For every ACE file that loads, the nuclide's energy grid, total, disappearance and elastic cross sections and heating numbers are the five consecutive columns of the ESZ block, the photon production cross section is the GPD block or zero, temperature and fissile flag are the file's; the cross sections are non-negative. A nuclide derived from another one takes all of these but the fissile flag and the elastic angles from the new file.", "quantifier": "all ACE files with fewer than 2^30 energies, both constructors", "why_tests_cant": "A test checks a few files.", "anchors": ["src/st_neutron.cpp STNeutron", "src/cross_section.cpp CrossSection", "src/energy_grid.cpp EnergyGrid"]}
{"id": "C82", "title": "An AngleTable built from a Legendre expansion represents that expansion", "statement": "Constructing an AngleTable from a Legendre object yields a normalised table on [-1,1] whose CDF is the integral of its PDF, whose samples are the inverse CDF and lie in [-1,1], and whose pdf agrees with the expansion to the linearization tolerance of 0.1 % at every cosine; every non-negative expansion can be tabulated.", "quantifier": "all moment vectors the Legendre constructor accepts, all cosines, all random numbers", "why_tests_cant": "All expansions and a continuum of cosines.", "anchors": ["src/angle_table.cpp AngleTable(const Legendre&)", "src/linearize.cpp linearize", "src/legendre.cpp"]}
{"id": "C83", "title": "The joint angle-energy density of a table is consistent with its marginals", "statement": "For EnergyAngleTable and KalbachTable: pdf(mu,E) inside an outgoing-energy segment is the product of angular and energy density at the lower point (histogram) or the linear interpolation of the two products; its integral over the outgoing energy is angle_pdf(mu); its integral over the cosine is the density of the outgoing energy; both are defined at every outgoing energy.", "quantifier": "all valid tables, cosines and outgoing energies", "why_tests_cant": "A continuum of cosines and energies, and integrals.", "anchors": ["include/PapillonNDL/energy_angle_table.hpp: angle_pdf, pdf", "include/PapillonNDL/kalbach_table.hpp: angle_pdf, pdf"]}
{"id": "C84", "title": "Reading an ASCII ACE file yields exactly its contents or fails", "statement": "Constructing an ACE object from an ASCII file (legacy header, 2.0 header, or 2.0 header with the legacy lines) returns the header texts, weight ratio, temperature, IZAW, NXS, JXS and XSS written in the file, whatever the spacing, line ends and number formats; every accepted file has complete arrays with NXS(1) entries in XSS and can be converted to binary without loss; a file with missing or malformed numbers is rejected with an exception.", "quantifier": "all files: every header, every array content and length, every way to write the numbers, every truncation point and malformed word", "why_tests_cant": "Any byte sequence can be a file; truncation points and malformed words are unbounded, and the stream-state machine (eofbit, failbit, num_get) decides each.", "anchors": ["src/ace.cpp: ACE::read_ascii, split_line", "include/PapillonNDL/ace.hpp: ACE"]}
{"id": "C85", "title": "The energy grid reports the unresolved-resonance range of its nuclide", "statement": "EnergyGrid::has_urr() is true exactly when the nuclide has probability tables that start below the end of the grid, and urr_min_energy() is then the first energy of those tables.", "quantifier": "all ACE files and all grids built from vectors", "why_tests_cant": "Must hold for every file layout and every grid, and a read of uninitialised memory gives any answer in a test.", "anchors": ["src/energy_grid.cpp: EnergyGrid::EnergyGrid", "include/PapillonNDL/energy_grid.hpp: has_urr, urr_min_energy", "src/urr_ptables.cpp"]}
{"id": "C86", "title": "Directory files are read from their text", "statement": "MCNPLibrary(file) and SerpentLibrary(file) read the text of a directory file: every pair of the atomic weight ratio section gives the ratio of its nuclide (the last pair wins), every line of the directory section, continued lines joined, gives one entry whose file is located by the data path of the directory, the directory of the file itself when there is none; a file without the sections is refused, and no text makes the constructor do anything but return or throw.", "quantifier": "all texts of directory files: any layout of blanks, continuation lines, data paths, numbers of pairs and entries", "why_tests_cant": "The text is cut by seven regular expressions and streams; their interplay has to be right for every layout, and tests only try one file.", "anchors": ["src/mcnp_library.cpp: MCNPLibrary::MCNPLibrary, read_directory, populate_atomic_weight_ratios", "src/serpent_library.cpp: SerpentLibrary::SerpentLibrary"]}
{"id": "C87", "title": "Sampled energies follow the density", "statement": "For the analytic spectra (Evaporation, Maxwellian, Watt), fed with independent random numbers uniform in (0,1), sample_energy(E, rng) returns with probability one, and the probability that the returned energy is at most e equals the integral of pdf(E, .) from 0 to e, for every e in [0, E-U].", "quantifier": "all parameters with positive temperature (a, b), all incident energies above the restriction energy, all thresholds e, over the distribution of infinite streams of random numbers", "why_tests_cant": "It is a statement about probabilities, integrals over all streams of random numbers of a rejection loop without bound: a test can only draw a finite histogram.", "anchors": ["src/evaporation.cpp: Evaporation::sample_energy, pdf", "src/maxwellian.cpp: Maxwellian::sample_energy, pdf", "src/watt.cpp: Watt::sample_energy, pdf"]}
{"id": "C88", "title": "Sampled cosines and tabulated energies follow the density", "statement": "For Isotropic, AngleTable, Legendre, AngleDistribution, the Kalbach-Mann cosine, TabularEnergy and EquiprobableAngleBins, fed with independent random numbers uniform in (0,1), sampling returns with probability one and the probability that the returned value is at most e equals the integral of pdf up to e, for every e in the range.", "quantifier": "all valid tables, Legendre series that are densities, incident energies and thresholds e, over the distribution of infinite streams of random numbers", "why_tests_cant": "It is a statement about probabilities over all streams of random numbers (a rejection loop without bound for Legendre): a test can only draw a finite histogram.", "anchors": ["src/isotropic.cpp", "src/angle_table.cpp", "src/legendre.cpp: Legendre::sample_mu, find_max", "src/angle_distribution.cpp", "src/kalbach.cpp: sample_mu part of sample_angle_energy", "src/tabular_energy.cpp: sample_energy, pdf", "src/equiprobable_angle_bins.cpp"]}
{"id": "C89", "title": "Free-gas target velocities follow the collision-weighted Maxwellian", "statement": "For every incident energy, temperature and target mass (all positive), ElasticSVT::sample_target_velocity fed with independent random numbers uniform in (0,1) returns with probability one, and the velocity it returns is distributed as the Maxwell-Boltzmann distribution of the target weighted by the relative speed of neutron and target, with uniform azimuth about the neutron's direction.", "quantifier": "all positive incident energies, temperatures and masses and all regions of speed, cosine and azimuth, over the distribution of infinite streams of random numbers", "why_tests_cant": "It is a statement about probabilities over all streams of random numbers through a rejection loop without bound that mixes two proposal densities: a test can only draw a finite histogram.", "anchors": ["src/elastic_svt.cpp: ElasticSVT::sample_target_velocity", "src/vector.hpp: Vector::rotate"]}
{"id": "C90", "title": "Resonance-corrected target velocities follow the cross-section-weighted Maxwellian", "statement": "For every 0 K elastic cross section on a strictly increasing grid and every positive incident energy, temperature and mass whose rejection window starts on the grid, ElasticDBRC::sample_target_velocity fed with independent random numbers uniform in (0,1) returns with probability one, and the velocity it returns is distributed as the Maxwell-Boltzmann distribution of the target weighted by the relative speed times the cross section at the relative energy, for relative energies within the window, with uniform azimuth.", "quantifier": "all grids, cross sections, positive incident energies, temperatures and masses and all regions of speed, cosine and azimuth, over the distribution of infinite streams of random numbers", "why_tests_cant": "It is a statement about probabilities over all streams of random numbers through two nested rejection loops without bound: a test can only draw a finite histogram.", "anchors": ["src/elastic_dbrc.cpp: ElasticDBRC::sample_target_velocity, max_xs_value", "src/elastic_svt.cpp: ElasticSVT::sample_target_velocity", "include/PapillonNDL/cross_section.hpp: CrossSection::evaluate"]}
{"id": "C91", "title": "Samplers depend only on the random numbers they consume", "statement": "Every sampler of the library (reactions, fission spectra, delayed families, elastic and thermal scattering, target velocities and all the distributions they are built of) called with a random number generator consumes a finite prefix of its stream and its result is a function of that prefix: two generators that agree on the numbers consumed give the same result and are left at the same position, whatever they would deliver next. Sampling can therefore be replayed and streams can be split.", "quantifier": "all sampler objects built by the library, all incident energies, all streams of random numbers, in any arithmetic (reals and binary64 with any mathematical library)", "why_tests_cant": "It compares a call with the calls on all other streams with the same prefix, for rejection loops without bound.", "anchors": ["src/*.cpp: all sample and sample_* functions", "include/PapillonNDL/angle_energy.hpp: AngleEnergy::sample_angle_energy", "include/PapillonNDL/energy_law.hpp: EnergyLaw::sample_energy"]}
{"id": "C92", "title": "Combined distributions are the mixtures and products of their parts", "statement": "With independent random numbers uniform in (0,1): the cosine and the energy of Uncorrelated are independent and have the laws of its parts; MultipleDistribution has the mixture of the laws of its parts with the tabulated probabilities (the remainder to one going to the last part), and its pdf is the density of its samples if the pdfs of the parts are; SummedFissionSpectrum samples the mixture of the partial fissions weighted by their cross sections; a centre-of-mass distribution samples the image of its law under the transformation to the laboratory; a reaction read from a file samples the mixture the file describes.", "quantifier": "all parts with any laws, all probabilities and cross sections, all incident energies and all sets of outcomes for which the parts have a probability", "why_tests_cant": "It is a statement about probabilities over infinite streams of random numbers, for arbitrary parts including rejection samplers.", "anchors": ["src/uncorrelated.cpp: Uncorrelated::sample_angle_energy, pdf", "src/multiple_distribution.cpp: MultipleDistribution::sample_angle_energy, pdf", "src/summed_fission_spectrum.cpp: SummedFissionSpectrum::sample_angle_energy", "src/cm_distribution.cpp: CMDistribution::sample_angle_energy", "src/reaction_base.cpp: ReactionBase::load_neutron_distributions"]}
{"id": "C93", "title": "Elastic scattering off a target at rest has the textbook laws", "statement": "With the target at rest (target-at-rest approximation on and the energy at or above its threshold) and independent random numbers uniform in (0,1), Elastic::sample_angle_energy returns energies distributed on [alpha E, E] with the density of the centre-of-mass cosine carried through the kinematics - uniform for isotropic scattering - and laboratory cosines that are at most c with the probability that the centre-of-mass cosine is at most (c^2-1+c sqrt(A^2-1+c^2))/A; for isotropic scattering these have the closed-form density, for hydrogen 2c on [0,1].", "quantifier": "all masses, incident energies and densities of the centre-of-mass cosine", "why_tests_cant": "It is a statement about probabilities over all random numbers, for every density.", "anchors": ["src/elastic.cpp: Elastic::sample_angle_energy", "include/PapillonNDL/elastic.hpp"]}
{"id": "C94", "title": "N-body phase space samples with the density it reports", "statement": "For every NBody the constructor accepts and every incident energy that leaves energy to share, sample_angle_energy with independent random numbers uniform in (0,1) returns a cosine and an energy whose joint density on [-1,1] x [0,Emax] is what pdf(E,mu,E_out) reports, i.e. 1/2 times the textbook phase-space spectrum c_n sqrt(x) (Emax-x)^(3n/2-4) for 3, 4 and 5 bodies.", "quantifier": "all accepted parameters n, Ap, A, Q, all incident energies with Emax > 0, all cosines and energies", "why_tests_cant": "It is an equality of probabilities over all 7 or 10 random numbers with a density, for all parameters and energies.", "anchors": ["src/nbody.cpp: NBody::sample_angle_energy, NBody::pdf, NBody::maxwellian_spectrum", "include/PapillonNDL/nbody.hpp"]}
{"id": "C95", "title": "Thermal scattering samples with the tabulated probabilities", "statement": "With independent random numbers uniform in (0,1): STCoherentElastic, above its first edge, scatters off the m-th Bragg edge below E (cosine 1 - 2 E_m/E, unchanged energy) with probability (S_m - S_{m-1})/S_l; DiscreteCosinesEnergies chooses each cosine index with probability 1/Nmu and, independently, the outgoing energy index with its weight (equal, or in the proportions 1,4,10,...,10,4,1), the values being interpolated between the neighbouring incident energies; STIncoherentElasticACE returns the incident energy and a cosine distributed as the equal mixture of the interpolated cosines, each spread uniformly over its room; ContinuousEnergyDiscreteCosines returns, unit-based, an energy with the mixture of the two tabulated densities stretched to the interpolated limits and, with the nearest table, the energy of that table shifted to the incident energy.", "quantifier": "all accepted files (for continuous tables: whose CDF is the integral of their PDF; for coherent: with nonnegative increasing structure factors), all incident energies, all sets of results (coherent, discrete), all thresholds (incoherent, continuous)", "why_tests_cant": "probabilities are integrals over all random number sequences; a test can only estimate them", "anchors": ["include/PapillonNDL/st_coherent_elastic.hpp: STCoherentElastic::sample_angle_energy", "src/discrete_cosines_energies.cpp: DiscreteCosinesEnergies::sample_angle_energy", "include/PapillonNDL/st_incoherent_elastic_ace.hpp: STIncoherentElasticACE::sample_angle_energy", "src/continuous_energy_discrete_cosines.cpp: sample_with_unit_based_interpolation, sample_without_unit_based_interpolation"]}
{"id": "C96", "title": "Kalbach and TabularEnergyAngle sample the pair (cosine, energy) with the density pdf reports", "statement": "With independent random numbers uniform in (0,1), Kalbach::sample_angle_energy and TabularEnergyAngle::sample_angle_energy return a cosine in [-1,1] and an outgoing energy in the interpolated range whose joint density is the mixture of the two tables bracketing the incident energy, each stretched to that range; in each table the cosine is distributed, given the energy, by the Kalbach-Mann formula with the table's A and R at that energy, or by the table of cosines used at that energy; and pdf(E, mu, E') returns that joint density.", "quantifier": "all accepted distributions with normalised tables (Kalbach: A > 0, 0 <= R <= 1; cosines in [-1,1]), all incident energies, all pairs (cosine, energy)", "why_tests_cant": "joint probabilities are integrals over all random number sequences; a test can only estimate them at a few points", "anchors": ["src/kalbach.cpp: Kalbach::sample_angle_energy, pdf", "include/PapillonNDL/kalbach_table.hpp: KalbachTable", "src/tabular_energy_angle.cpp: TabularEnergyAngle::sample_angle_energy, pdf", "include/PapillonNDL/energy_angle_table.hpp: EnergyAngleTable::sample_angle_energy, pdf"]}
{"id": "C97", "title": "In double precision discrete choices stay in range", "statement": "Choosing one of n cells as static_cast<uint32_t>(n * xi) in double precision gives a valid cell number for every double xi in [0,1) and every n, and the cell is the one xi falls in up to 2^-53. Sampling EquiprobableAngleBins, STCoherentElastic, STIncoherentElasticACE, DiscreteCosinesEnergies and ContinuousEnergyDiscreteCosines with double arithmetic therefore ends normally, without reading outside a table and without an undefined conversion, at every incident energy (NaN and infinities included).", "quantifier": "all n < 2^32, all doubles in [0,1), all accepted files with at least one outgoing energy and cosine, two incident energies where two neighbouring tables are used and two outgoing energies per continuous table; all doubles as incident energy", "why_tests_cant": "the failing draw would be one of 2^62 doubles (the one just below 1) for one particular n; a test cannot try all pairs", "anchors": ["include/PapillonNDL/st_coherent_elastic.hpp: STCoherentElastic::sample_angle_energy", "include/PapillonNDL/st_incoherent_elastic_ace.hpp: STIncoherentElasticACE::sample_angle_energy", "src/discrete_cosines_energies.cpp: DiscreteCosinesEnergies::sample_angle_energy", "src/continuous_energy_discrete_cosines.cpp: ContinuousEnergyDiscreteCosines::sample_angle_energy", "src/equiprobable_angle_bins.cpp: EquiprobableAngleBins::sample_mu"]}
{"id": "C98", "title": "Legendre moments are the moments of the density and of the samples", "statement": "A Legendre distribution built from the moments a has pdf with l-th Legendre moment a_l (1 for l=0, 0 beyond those given); set_moment(l,v) makes the l-th moment v and leaves the others; the moments of a density are at most 1 in absolute value; and, when the density does not exceed the maximum the constructor found by its scan (always so for at most six moments), the expected value of P_l of the cosines sample_mu returns is a_l, in particular the mean cosine is a_1. Kalbach cosines have mean r(coth a - 1/a).", "quantifier": "all moment lists, all orders l, all objects for set_moment, all a > 0 and 0 <= r <= 1, over the distribution of infinite streams of random numbers", "why_tests_cant": "moments are integrals over a continuum of cosines and expected values over all random streams; a test can only compare sample averages of one distribution within noise", "anchors": ["src/legendre.cpp: Legendre::Legendre, pdf, set_moment, sample_mu", "include/PapillonNDL/kalbach_table.hpp, src/kalbach.cpp: sample_energy_angle"]}
{"id": "C99", "title": "Thermal scattering files are decoded as laid out", "statement": "Loading a thermal ACE table yields exactly the laws the file describes: the Bragg edges and cumulated structure factors at JXS(4) (rejected unless ascending and nonnegative); or the incoherent elastic cross section at JXS(4) and one row of NXS(6)+1 cosines per energy at JXS(6); the inelastic cross section at JXS(1); and, by the mode NXS(7), the discrete lines (NXS(4) per incident energy, each an energy and NXS(3)+1 cosines) or the continuous tables (entries energy, density, cumulated probability, NXS(3)-1 cosines) at JXS(3). Entries of a continuous table are kept as they are except that negative round-off densities become zero, cosines are put in ascending order, and a table whose first cumulated probability is positive is completed by a point at zero energy with isotropic cosines. Other modes are rejected.", "quantifier": "all XSS contents, pointers, dimensions and numbers of energies, lines, entries and cosines allowed by the format", "why_tests_cant": "the reader's index arithmetic must be right for every combination of dimensions; a few sample files cannot show that no other layout is misread", "anchors": ["src/st_coherent_elastic.cpp, src/st_incoherent_elastic_ace.cpp, src/discrete_cosines_energies.cpp, src/continuous_energy_discrete_cosines.cpp, src/st_incoherent_inelastic.cpp, src/st_thermal_scattering_law.cpp: constructors from an ACE object"]}
{"id": "C100", "title": "Sampling a well-formed distribution neither throws nor reads outside its data", "statement": "Sampling the outgoing angle and energy of any distribution the library accepts (tabular and equiprobable angular distributions, tabular, Maxwell, evaporation, Watt, level and Kalbach, law-61 and n-body laws, mixtures, centre-of-mass laws, elastic scattering), at any incident energy and with any random numbers strictly between 0 and 1, returns a pair or asks for more random numbers; it never throws and never reads outside a table.", "quantifier": "all well-formed distributions and reactions of a file, all incident energies (in binary64: all but NaN), all streams of random numbers in (0,1), in exact arithmetic and in binary64 for every libm", "why_tests_cant": "the indices are computed from binary searches over incident energies and cumulative tables at every incident energy and random number; no finite set of samples reaches every table end", "anchors": ["src/*.cpp: sample_angle_energy, AngleDistribution::sample_angle, Elastic::sample_angle_energy; include/PapillonNDL/kalbach_table.hpp, energy_angle_table.hpp, pctable.hpp: sample, sample_value"]}
{"id": "C101", "title": "Evaluated cross sections are finite, non-negative, exact at grid points and accurate between them, in double precision", "statement": "Evaluating a cross section at any energy other than NaN, with all arithmetic in double precision, gives a finite number that is never negative: zero below the threshold, the last value from the last energy on, exactly the tabulated value at a grid energy, and between grid energies the straight-line value up to a relative rounding error of 2^-49, never outside the two neighbouring tabulated values. The cross sections a nuclide returns are finite and never negative. A lin-lin table obeys the same law.", "quantifier": "all finite grids and non-negative tabulated values up to half the largest double, all thresholds, all energies including infinities and denormals, every libm", "why_tests_cant": "rounding errors depend on every bit of the energy, the grid and the values; no finite set of samples covers the combinations, and the rare ones that break a bound are one in many thousands", "anchors": ["include/PapillonNDL/cross_section.hpp: operator(), evaluate", "include/PapillonNDL/interpolation.hpp: LinLin::interpolate", "include/PapillonNDL/tabulated_1d.hpp: InterpolationRange::operator()", "include/PapillonNDL/st_neutron.hpp: evaluate_xs"]}
{"id": "C102", "title": "A neutron file laid out as the ACE format says is loaded, and the object holds what the file describes", "statement": "For every ACE file that is laid out as the format prescribes - an increasing energy grid with its four columns, photon production or none, any number of reactions with different MTs below 892, each with Q value, multiplicity (number or table), frame, any supported secondary laws and a cross section from a grid point to the end of the grid, the elastic angular distribution, fission multiplicities in any of the four layouts, delayed families, probability tables - constructing the neutron object succeeds, and the object reports the temperature, grid, columns, every reaction with its Q value, threshold, multiplicity, cross section, frame and distribution, exactly the MTs of the file in increasing order (fission ones only when the nuclide is fissile), the multiplicities, the families and the tables.", "quantifier": "all files of any size laid out as the format says, all positions of the blocks, all tables and laws", "why_tests_cant": "the blocks of a file are found by chains of locators of any length; the files that exist exercise a handful of layouts", "anchors": ["src/st_neutron.cpp: STNeutron(const ACE&)", "src/reaction_base.cpp: ReactionBase, load_neutron_distributions", "src/reaction.cpp", "src/fission.cpp", "src/delayed_family.cpp", "src/urr_ptables.cpp", "src/energy_grid.cpp", "src/cross_section.cpp"]}
{"id": "C103", "title": "A nuclide loaded from a well-formed file answers every query a transport code makes", "statement": "Once a well-formed file has been loaded, nothing a transport code asks of the nuclide throws or reads outside its data, whatever the energy (from the first grid energy on) and the random numbers: the cross sections and the probability-table cross sections are returned and none is negative; for every reaction of the file the cross section is returned and not negative, the multiplicity has a value, and sampling returns an outgoing neutron when the reaction emits one, throws when it does not; elastic scattering off a free gas, the three multiplicities and the delayed neutron families all return.", "quantifier": "all well-formed files, all energies from the first grid energy on, all random numbers, all reactions", "why_tests_cant": "the combinations of laws, tables, energies and random numbers cannot be enumerated, and a single out-of-range read is silent", "anchors": ["src/st_neutron.cpp", "include/PapillonNDL/st_neutron.hpp", "include/PapillonNDL/reaction_base.hpp: sample", "include/PapillonNDL/urr_ptables.hpp", "include/PapillonNDL/fission.hpp", "include/PapillonNDL/delayed_family.hpp", "src/elastic.cpp"]}
{"id": "C104", "title": "Sharing distributions with a nuclide at another temperature changes no answer", "statement": "If two files describe the same nuclide at two temperatures (same elastic angular distribution, multiplicities, delayed families and, for each reaction of the second file, a reaction of the first with the same MT, Q value, AWR, multiplicity and distributions; grids and cross sections may differ), the object constructed from the second file and the object loaded from the first gives the same answer to every query as the object loaded from the second file alone: temperature, grid, cross sections, reactions, fission data, probability tables, evaluated cross sections, and the list of MTs.", "quantifier": "all pairs of files of any size that describe the same nuclide, all grids and cross sections, all MTs and energies", "why_tests_cant": "the two constructors are separate code; that they agree must hold for every pair of files", "anchors": ["src/st_neutron.cpp: STNeutron(const ACE&), STNeutron(const ACE&, const STNeutron&)", "src/reaction.cpp: STReaction(const ACE&, size_t, const EnergyGrid&, const STReaction&)", "src/fission.cpp: both constructors"]}
{"id": "C105", "title": "A nuclide does not depend on the format its file came in", "statement": "An ACE file in text laid out as the format says (header, IZAW, NXS, JXS, XSS; blocks in XSS) is read and loaded as the nuclide it describes; an ACE object saved in binary and loaded again gives a neutron or thermal object that answers every query as the first does, except that the temperature may be the one C52 says, and is refused exactly when the first is.", "quantifier": "all texts laid out as the format says, all well-formed ACE objects, all decodings of doubles and all arithmetics, all sizes", "why_tests_cant": "the chain from bytes to object runs through two readers and many loaders; it must hold for every file", "anchors": ["src/ace.cpp: read_ascii, read_binary, save_binary", "src/st_neutron.cpp: STNeutron(const ACE&)", "src/st_thermal_scattering_law.cpp: STThermalScatteringLaw(const ACE&)"]}
{"id": "C106", "title": "A meaningful thermal scattering file is loaded and answers at every energy", "statement": "A thermal scattering table laid out as the ACE format says, whose contents are physically meaningful (at least two positive ascending incident energies, non-negative cross sections, cosines in [-1,1], positive lines or tables that are densities with their cumulated distributions, ascending Bragg edges and structure factors), is accepted: the law has exactly the elastic part the file has, its cross section is the interpolated inelastic one plus the elastic one and neither is negative, and for any random numbers an inelastic collision and an elastic one give a cosine in [-1,1], the elastic one keeping the energy and the inelastic one giving an energy that is not negative (from half of the first tabulated energy up, when unit-base interpolation is off). In exact arithmetic.", "quantifier": "all files with the layout and meaningful contents, both interpolation modes, all energies, all sequences of random numbers in [0,1)", "why_tests_cant": "all table sizes, all energies and all random numbers", "anchors": ["src/st_thermal_scattering_law.cpp: STThermalScatteringLaw(const ACE&)", "include/PapillonNDL/st_thermal_scattering_law.hpp: xs, max_energy", "src/st_incoherent_inelastic.cpp", "src/st_coherent_elastic.cpp", "src/st_incoherent_elastic_ace.cpp", "src/discrete_cosines_energies.cpp: sample_angle_energy", "src/continuous_energy_discrete_cosines.cpp: sample_angle_energy"]}
{"id": "C107", "title": "In double precision a thermal law never returns a cosine outside [-1,1] by more than rounding", "statement": "With IEEE double arithmetic, coherent elastic scattering returns a finite cosine in [-1,1] for every finite energy, inelastic scattering with discrete energies returns a finite cosine in [-1,1] for every energy, and inelastic scattering with continuous energies never returns a number outside [-1,1] (NaN is possible for degenerate tables). Incoherent elastic scattering does not clamp: its cosine is finite and exceeds 1 in magnitude by at most 2^-51, and it is exactly within [-1,1] at and below the lowest incident energy.", "quantifier": "all files whose numbers are finite and whose incident energies are not negative, all energies, all random doubles in [0,1)", "why_tests_cant": "whether rounding can carry mu + d*(xi-0.5) past 1 depends on the last bits of every table entry and random number", "anchors": ["include/PapillonNDL/st_incoherent_elastic_ace.hpp: sample_angle_energy", "include/PapillonNDL/st_coherent_elastic.hpp: sample_angle_energy", "src/discrete_cosines_energies.cpp: sample_angle_energy", "src/continuous_energy_discrete_cosines.cpp: sample_angle_energy"]}
{"id": "C108", "title": "In double precision sampled neutron scattering cosines stay within [-1,1]", "statement": "With IEEE double arithmetic, every angular law (isotropic, tabulated, equiprobable bins, Legendre), every angular distribution over them, and every joint angle-energy law (uncorrelated, tabulated, Kalbach-Mann, N-body, mixtures) returns a cosine within [-1,1], or NaN, for every incident energy and all random doubles; so does the law of any reaction read from a file, whichever frame the file gives it in. The cosine elastic scattering returns in the laboratory frame is finite and within [-1,1] whenever the outgoing energy it returns is finite and not below 2^-960 MeV.", "quantifier": "all tables, all files, all energies, all random doubles in [0,1), all target velocities", "why_tests_cant": "whether rounding carries a cosine past 1 depends on the last bits of every table entry, energy and random number", "anchors": ["src/isotropic.cpp: sample_mu", "src/angle_table.cpp: sample_mu", "src/equiprobable_angle_bins.cpp: sample_mu", "src/legendre.cpp: sample_mu", "src/angle_distribution.cpp: sample_angle", "src/kalbach.cpp: sample_angle_energy", "src/tabular_energy_angle.cpp: sample_angle_energy", "src/nbody.cpp: sample_angle_energy", "src/multiple_distribution.cpp: sample_angle_energy", "src/elastic.cpp: sample_angle_energy", "include/PapillonNDL/frame.hpp: CMToLab::transform"]}
{"id": "C109", "title": "In double precision equiprobable energies stay inside their bin", "statement": "With IEEE double arithmetic, the energy sampled from equiprobable energy bins of finite, non-negative bounds lies between two neighbouring bounds of one of the tables, however the subtraction, multiplication and addition round, for every incident energy and all random doubles in [0,1); for the general evaporation spectrum the same holds of the sampled energy before it is multiplied by the temperature.", "quantifier": "all tables of finite non-negative sorted bounds, all files with such numbers, all incident energies, all random doubles in [0,1) for which a value is returned", "why_tests_cant": "(b-a)*xi+a overshoots b for some formulas and some last bits; no sampling finds the worst bits", "anchors": ["src/equiprobable_energy_bins.cpp: sample_energy, sample_bins", "src/general_evaporation.cpp: sample_energy"]}
{"id": "C110", "title": "In double precision the N-body law returns an energy between zero and the kinematic limit, or NaN", "statement": "With IEEE double arithmetic, whenever the largest outgoing energy the kinematics allow is a finite non-negative double, the energy sampled from the N-body phase-space law is NaN or lies between 0 and that largest energy, for 3, 4 and 5 bodies, all incident energies, all random doubles in [0,1) and every math library whose logarithm is not positive on [0,1) and whose squares are not negative. NaN does occur when a random number is exactly 0.", "quantifier": "all masses, Q-values, incident energies, math libraries and random doubles in [0,1)", "why_tests_cant": "the ratio x/(x+y) times the limit is rounded three times, and logarithms may be infinite or zero", "anchors": ["src/nbody.cpp: sample_angle_energy, maxwellian_spectrum"]}
{"id": "C111", "title": "In double precision sampled outgoing energies are not negative", "statement": "With IEEE double arithmetic, elastic scattering never returns a negative energy, and Maxwellian, evaporation and Watt spectra return only finite energies between 0 and E - U when E - U is a finite double, whatever the temperatures, the math library and the random numbers. Inelastic level scattering returns no negative energy either.", "quantifier": "all energies, parameters, angular laws, target velocities, math libraries and random numbers for which a value is returned", "why_tests_cant": "rounding, overflow and the exceptional values of the math library cannot be enumerated", "anchors": ["src/elastic.cpp: sample_angle_energy", "src/maxwellian.cpp: sample_energy", "src/evaporation.cpp: sample_energy", "src/watt.cpp: sample_energy", "src/level_inelastic_scatter.cpp: sample_energy"]}
