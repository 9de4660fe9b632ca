# Formal model of papillon-ndl in Rocq (Coq 8.16.1)

## 1. Shape of the development

`rocq/theories/` (logical name `Verif`), listed in `rocq/_CoqProject`:

* `Base.v`   – outcome type (`Ok | Throw | UB | NoDraw`), checked vector access, the record of
  numeric operations `Num T`, the random-number monad.
* `NumR.v`, `NumF.v` – instances of `Num`: exact reals (theorems about values,
  integrals and probabilities) and IEEE-754 binary64
  (Coq's primitive floats; executable witnesses that are true of the real `double` code).
* `M_*.v`  – the model, one file per group of source files.  Definitions only.
  Every definition cites the file and lines in /repo that it models.
* `S_*.v`  – small independent specifications (no reference to model helpers).
* `L_*.v`  – lemmas and proofs.
* `Properties_*.v` – property theorems only: `Theorem …. Proof. exact …. Qed. Print Assumptions …`.

## 2. Modelling decisions

* **Outcomes.** A C++ call returns `Ok v`, `Throw` (a `PNDLException`, message dropped unless the
  property is about it), `UB` (out-of-range vector access, wrapped index used to subscript,
  out-of-range float→integer cast, use of dangling storage), or `NoDraw` (the finite list of random
  numbers supplied to the model ran out; it plays the role of fuel in rejection loops).
* **Vectors** are lists; `v[i]` is a checked access giving `UB` out of range.  `size_t`
  subtraction wraps modulo 2^64, modelled as `UB` when the wrapped value is used as an index.
* **Numbers.**  Model functions are generic in `Num T` (operations and comparisons of `double`).
  Theorems that only depend on comparisons are proved for every `T` with a total order
  (so they hold for non-NaN doubles as well);  theorems about values are proved on the instance `R`,
  i.e. in exact arithmetic: rounding error is *not* modelled there.  Refutations are evaluated
  on binary64 (or on R).
* **Random numbers.** `std::function<double()> rng` is a list of draws, each in [0,1).
* **Virtual functions / shared_ptr** are function-valued fields; null pointers are `option`.
* **Standard library.** `std::lower_bound` is the textbook binary search (proved equal to "first
  index not less"); `std::is_sorted`, `std::adjacent_find`, regexes are small decision functions.
  `libm` functions are the mathematical functions on `R`, oracles elsewhere.

## 3. Not modelled

Python bindings (`src/python`), tools, file-system access (files are byte/word/token lists), the
content of exception messages, threads (the library has none), rounding (except where the theorem is
on binary64 or purely order-based), performance.

## 4. Property plan

* **C01 Interpolation hits its end points and stays between them** – Interp model on R; algebra, monotonicity of ln/exp/Rpower.
* **C02 Inverse interpolation is a true inverse** – Interp model on R; field/ln/exp identities.
* **C03 Segment integrals are the definite integral of the interpolant** – Coquelicot: antiderivatives of each law; `is_RInt`.
* **C04 Tabulated function: interpolation of the bracketing points, clamped outside** – Tab1D model; induction on regions, lower_bound spec.
* **C05 Tabulated integrals are exact, antisymmetric and additive** – Tab1D model + C03; induction over regions and segments.
* **C06 Tabulated1D construction never reads out of range** – Constructor in outcome monad; refutation by vm_compute; positive under valid breakpoints.
* **C07 A copied or linearized table does not depend on another object's storage** – Small heap model (address → alive/dead buffers) of copy/linearize/destroy; refuted for the code.
* **C08 Linearization refines a grid, preserves exactness at grid points and meets the tolerance at midpoints** – Worklist model of the bisection loop; invariant by induction on fuel.
* **C09 Polynomial1D is the polynomial and its integral is exact** – Horner induction; Coquelicot.
* **C10 Sum, difference and constant functions are pointwise and integrate linearly** – Function-valued model; direct.
* **C11 Sampling a PCTable never leaves the tabulated range and is the exact inverse CDF** – PCTable model; inverse CDF algebra on R incl. square root branch.
* **C12 Sampling an accepted PCTable is memory safe** – Outcome monad; refuted for cdf[0]>0, positive for cdf[0]=0.
* **C13 PCTable pdf is a density consistent with its CDF** – Coquelicot on each segment.
* **C14 Every sampled scattering cosine lies in [-1,1]** – All angular laws' sampling functions; clamps; rejection loop invariants.
* **C15 Equiprobable angle bins: a sample lies in the bin selected by xi** – Refuted by vm_compute on binary64; positive: only the clamp.
* **C16 Legendre series: evaluation, normalisation and probability** – Bonnet recurrence vs independent spec; orthogonality to P_0 by integration.
* **C17 Legendre::set_moment that throws leaves the object unchanged** – State before/after; refuted.
* **C18 Incident-energy selection brackets the energy** – Generic bracketing lemma over lower_bound, all distributions.
* **C19 Tabular outgoing energies stay within the interpolated limits** – Scaled-energy algebra on R.
* **C20 Tables with a single incident energy are usable** – Refuted by vm_compute; positive for size ≥ 2.
* **C21 EnergyAngleTable sampling and pdf are memory safe** – Refuted at xi=0 and E=back; positive elsewhere.
* **C22 KalbachTable sampling is the inverse CDF and its parameters are interpolated within bounds** – PCTable-like inversion; bounds of R/A.
* **C23 Kalbach-Mann angular density is normalised and sampled in [-1,1]** – cosh/sinh integrals; inverse CDF.
* **C24 Equiprobable energy bins: samples in the bin selected by xi, memory safe** – Refuted; positive for xi below (n-1)/n.
* **C25 Fission/evaporation spectra respect the restriction energy** – Rejection loop model; induction on draws.
* **C26 Evaporation pdf integrates to one** – Coquelicot antiderivative.
* **C27 Watt parameter accessors return the parameters** – Refuted.
* **C28 Level inelastic scattering and N-body limits** – Algebra on R.
* **C29 Mixtures select each component with its probability** – Induction on components.
* **C30 Summed fission spectrum pdf is the cross-section weighted mixture** – Refuted by witness; sampling side proved.
* **C31 Uncorrelated pdf is the product of marginals** – Direct over all laws.
* **C32 Hashed energy-grid lookup equals binary search** – Hash table construction model; log/exp monotonicity.
* **C33 Cross section: threshold, clamping and linear interpolation** – Model; interpolation lemma.
* **C34 All ways of evaluating a cross section agree** – Refuted at the threshold point; positive elsewhere.
* **C35 XSPacket arithmetic obeys the vector-space laws** – ring; unary minus refuted.
* **C36 Evaluated neutron cross sections balance** – Direct.
* **C37 Reaction lookup by MT agrees with the reaction list** – List/array model; index invariants.
* **C38 Probability tables: valid band, nonnegative parts, balanced sums** – Model of evaluate_xs; search lemma.
* **C39 Fission multiplicities are consistent** – Case analysis on blocks.
* **C40 Centre-of-mass and laboratory transforms are mutually inverse** – Algebra on R with sqrt.
* **C41 Rotation of directions preserves length and realises the scattering cosine** – Algebra on R with sqrt, trig identity.
* **C42 Elastic scattering off a target at rest** – Algebra on R.
* **C43 Elastic configuration setters validate like the constructor** – State machine over setter calls; refuted parts.
* **C44 DBRC majorant bounds the cross section** – Induction over grid; convexity of linear interpolation.
* **C45 Coherent elastic scattering** – lower_bound spec.
* **C46 Discrete thermal scattering tables are sampled in range** – Index range lemmas; sum of probabilities.
* **C47 Continuous thermal scattering tables are sampled in range** – Index range lemmas; clamps.
* **C48 Elements: atomic number, symbol and name identify each other** – Finite sweep over table + string search lemma.
* **C49 Isotopes: validity and symbol round trip** – String model; decimal printing/parsing round trip.
* **C50 Nuclides: ZAID and symbol round trips** – Integer model with wraps; refutation and exact characterisation.
* **C51 Identity types are totally ordered and hash consistently** – Order axioms on lexicographic comparisons.
* **C52 Binary ACE files round trip** – Record/chunk codec model; induction on chunks.
* **C53 Saving an ACE file does not change the ACE object** – State machine; refuted.
* **C54 Reading a malformed binary ACE file is an exception, not undefined behaviour** – Parser on word lists; refuted.
* **C55 Library temperature selection is the nearest available** – Induction over the scan loop; load refuted.
* **C56 Library cache: each table is read at most once and repeated loads return the same object** – State machine over request lists; invariant.
* **C57 Random number engine: full-range LCG with exact advance** – Modular arithmetic; doubling algorithm; full period by order argument.
* **C58 Lab angle to CM angles** – M_Kin.lab_to_cm_angle; quadratic solved symbolically, equivalence with the two-body lab cosine; concrete wrong root.
* **C59 Frame change of densities** – partial derivatives by Coquelicot's auto_derive, determinant by field.
* **C60 SVT target velocities** – induction over the rejection loop's fuel; rotation lemma of C41.
* **C61 Interpolated density normalised** – exact value of the integral of `te_pdf` over its support (change of variables per table); equals one for equal widths or grid energies, refuted otherwise (the unit-base Jacobian is missing).
* **C62 Maxwellian and Watt densities** – closed antiderivatives with erf (defined by its integral), fundamental theorem on the open interval; Maxwellian refuted (erf(du/T) instead of erf(sqrt(du/T))).
* **C63 N-body density** – substitution x = M sin²θ for n = 3, 5 and an explicit antiderivative for n = 4; positive beyond Emax for n = 4 refutes the support claim.
* **C64 Fission cross section** – model of compute_fission_xs; sum of piecewise-linear functions on one grid; counterexample when a chance opens at a grid point with a jump.
* **C65 ACE blocks** – `holds a i block` says what XSS contains; the readers return the block's contents.
* **C66 Standard English element names** – Sweep of the table against the standard list; refuted for Fluorine and Molybdenum.
* **C67 Listed symbols lead to their data** – String and ZAID round trips of C50; refuted for ZAIDs decoded to levels above 2 and for names longer than six characters.
* **C68 Serpent directory files** – Stream of words with the eof flag and the variables that keep their values when extraction fails; induction over the rows; refuted for files that end with a newline.
* **C69 MCNP directories** – Logical lines as word lists; induction over the lines. The text of the file, the AWR section and the joining of continuation lines are in C86.
* **C70 Incoherent elastic thermal scattering** – Bracket and bin specification; refuted for one incident energy.
* **C71 Thermal scattering law** – Constructor case analysis, sum of the parts; refuted when the coherent flag is set without an elastic block.
* **C72** model of every ACE constructor of the secondary distributions (M_Laws); S_Laws states the ACE block layouts independently of the readers; theorem: a block laid out like this is read as the vector constructor's object. Laws 5, 4 (unsorted) and 61 (locator 0) refuted.
* **C73** as C72 for AngleDistribution.
* **C74** the loops of the STNeutron and Fission constructors carry the invariant that the stored reaction was built from the last entry with its MT; make_reaction is then decoded against S_Laws.
* **C75** the while loop over laws is modelled with fuel; more turns than XSS has entries repeats a position, hence loops forever; the cyclic file refutes termination.
* **C76** induction over the law list, every law's cosine is clamped or in range; centre-of-mass reactions only up to the lab transform.
* **C77** induction over the families.
* **C78** svt_sample is characterised (iff) by an inductive relation stated in physical units (S_Doppler); soundness by induction on the fuel, completeness by induction on the relation (so the fuel is always enough).
* **C79** same for dbrc_sample on top of C78 and C34; the majorant is shown to be attained as well as an upper bound (C44). Windows that start below the grid and threshold cross sections are excluded (C44 refutations).
* **C80** favourable trials (cosine not forward, test number at most 0.7) are always accepted; at 0 K in binary64 the acceptance probability is NaN and the loop never ends, for every draw list and every libm.
* **C81** slices of XSS are contiguous blocks; the five slices join to the ESZ block. Both constructors; arbitrary loaders for the distributions.
* **C82** AngleTable(Legendre) modelled on top of linearize, leg_pdf and make_pc; the result is a valid_table by induction on the trapezoid sums, so C11/C13 apply. The tolerance only holds at the points and midpoints (refuted elsewhere in binary64).
* **C83** joint density of one table: value on each segment, both marginals by induction over the segments (Coquelicot integrals); the last tabulated energy of a linear table is undefined (refuted).
* **C84** `M_AceText` models `read_ascii` character by character on a stream with eofbit and failbit: `read`, `ignore`, `peek`, `getline`, `>>` for int and double (libstdc++'s `num_get` gathering; the conversions `strtod`, `stod`, `stoi` are parameters). `S_AceText` says what a file looks like (fields, gaps, number syntax, the three header forms). Theorems: a file so written is read back exactly (all lengths, spacings); every accepted file is well formed (then C52 gives the binary round trip); short files are rejected except when exactly one number is missing before a final line end; malformed words, exponents without E (the very case of the error message) and bodies without numbers are accepted silently; a short 2.0 header is undefined behaviour; ASCII and binary convert the temperature differently.
* **C85** `M_GridUrr` adds the field `urr_start_energy_` to the grid model; the link to the probability tables is a theorem about `make_urr` on the same file. Refuted: grids built from a vector (field never initialised), grids beyond 50 GeV without tables, two-energy tables.
* **C86** `M_Xsdir` models the regular expressions (ECMAScript backtracking, leftmost match, the replacements) of the MCNP reader, the path rules and `istream >> word`. `S_Xsdir` describes the files by grammar rules independent of the expressions; the proofs follow the matcher by induction over the text. Refuted: ratios with an exponent, `directory` inside the data path, carriage returns, data paths with a colon or containing `datapath`, empty data paths. `std::stod`, `std::stoul` and `parent_path` are parameters; the recursion depth of the library's regex engine (which overflows the stack on large texts) is not modelled.
* **C87** `S_Prob` defines the expected value of a function of n uniform numbers (the iterated integral over the unit cube), the probability of an event, `law s B q` (the probability that the sampler has returned a value in B tends to q as it may use more numbers) and `has_density`. Proved for the real-number model: rejection sampling gives the ratio of probabilities (geometric series), fixed-draw samplers the probability itself; the candidates are computed by iterated integrals: -ln((1-g x1)(1-g x2)) for Evaporation; for Maxwellian -(ln x1 + ln x2 cos^2(pi x3/2)) needs the Gaussian integral and the integral of exp(-z^2/cos^2) (both proved here), exchanging the order of two integrals for a monotone curve; Watt adds a uniform shift integrated against that law (`transfer`). Refuted for Maxwellian::pdf, which does not integrate to one (C62): the samples follow the true truncated Maxwellian.
* **C88** On top of S_Prob (C87): inverse-CDF sampling gives the density (from the exactness of the inverse CDF, C11/C13), a branch on a random number gives the mixture, a linear stretch divides the density by the width; Legendre is rejection under a bounded curve, where the bound found by the constructor's scan of 2001 points is shown to hold from |P_n''| <= (n-1)n(n+1)(n+2)/8 on [-1,1]. Refuted for TabularEnergy::pdf between tables of different width (missing Jacobian, C61) and for EquiprobableAngleBins (C15).
* **C89** On top of S_Prob: a rejection loop whose turns consume a varying number of draws has the law b/a of an accepted turn (law_loop, by a convolution over the number of draws); -ln(ab) has density w exp(-w) and -ln b - ln d cos^2(pi a/2) density 2/sqrt(pi) sqrt(w) exp(-w) (order of the integrals exchanged for functions monotone in one variable); their mixture times the acceptance probability is the weighted Maxwellian; substitution to speeds; the azimuth is the last draw. S_ProbSvt states the target distribution by Riemann integrals over speed and cosine.
* **C90** The two nested loops are flattened into one loop whose trial is proposal, free-gas acceptance, azimuth, window, cross-section acceptance (L_ProbDbrc2-4); the trial's law is computed by integrals over five to eight draws; law_loop of C89 gives the law of the loop; linear interpolation on a strictly increasing grid is Lipschitz (L_ProbDbrc6), so all integrals exist. Needs the lower end of the window on the grid (below it the code extrapolates, see C13/C44) and a positive cross section somewhere in the window (C79_zero_window).
* **C91** replayable (S_Replay): running on a stream consumes a prefix u and gives the same result on u followed by anything; proved compositionally over the rand monad (L_Replay), rejection loops by induction on their fuel, and lifted to everything a file can contain by an invariant of the loaders (L_Replay2).
* **C92** law of two samplers run one after the other is the product (L_ProbComp.law_both, a convolution over the number of random numbers consumed), law of a choice with one random number is the weighted sum (law_pick); the library's combinators are instances (L_ProbComp2), joint densities follow by integrating (L_ProbComp3).
* **C93** The azimuth is an independent last draw (law_both); the energy is affine in the cosine (density_affine), the laboratory cosine monotone in it for A > 1 and for hydrogen without exact backscattering; the closed forms follow by differentiation (L_ProbElastic).
* **C94** The quotient x/(x+y) of a Maxwell energy x and an independent y with a gamma density (Maxwell, three exponentials, three exponentials plus Maxwell): the distribution of y is computed by conditioning (after_below), P(y >= r x) is the limit of integrals over [0,W], whose r-dependence is found by exchanging two integrals of a continuous function (fubini, proved here from differentiation under the integral), and the constant comes from the normalisation of the reported density (L_ProbNB to L_ProbNB4). S_NBody states the textbook spectrum.
* **C95** One random number choosing among n alternatives with given weights (law_weighted, law_uniform, from law_pick; the coherent search is left-open, so the number is reflected, law_flip); discrete alternatives end in fixed values (law_value), smeared cosines in a uniform one (law_uniform_below); the continuous energies by the inverse-CDF argument (inverse_step) applied to both tables and mixed by the second number (prob_two). Specification in S_ThermalLaw.v.
* **C96** Joint law defined as the double integral (S_JointLaw.v). The inverse of the tabulated CDF moves the expectation of any piecewise continuous function of the energy to the integral against the tabulated density (moved, seg_moved, table_moved), applied to the conditional probability of a cosine below m; the choice of table is a mixture (joint_mix), the unit base a linear change of variable (joint_affine). pdf against it: equal for histogram tables of one range; refuted by three instances.
* **C97** Binary64 instance of the model with Flocq's correctness theorems for the primitive floats: n xi is below the midpoint of pred(n) and n because xi <= 1 - 2^-53, hence fl(n xi) <= pred(n) (L_PickF). Memory safety is proved once in an arbitrary arithmetic, given that picking a cell yields a cell: the binary search ends inside its range whatever the comparisons say (L_SafeT).
* **C98** Orthogonality of the Legendre polynomials for all orders from Legendre's equation, norms by Bonnet's recursion (L_LegMoment); expected values (S_Mean) of Lipschitz functions of any sampler with a density by uniform approximation with step functions and exchange of limit and iterated integral (L_ProbMean).
* **C99** Block layouts as lists (S_ThermalFile), the readers by induction over rows, lines and entries (L_ThermalFile).
* **C100** Well-formedness predicates written on the data (S_Sound), generic over the arithmetic; safety by structural induction on the distribution, the order axioms being instantiated in R and in binary64 (L_Sound, L_SoundF).
* **C101** Model over Flocq's binary64 (primitive floats related to reals by `B2R . Prim2B`). Sums carry a relative error of 2^-53, products and quotients that or half the least positive double; the sign and the near end follow from monotonicity of rounding (L_LinF); the grid search is correct on doubles by the order axioms (L_XsF); the packet by the sign of sums and differences (L_PktF). That the value stays between its neighbours fails: proved up to 2^-51 relative, and refuted exactly by a computed witness.
* **C102** S_File: a description of a whole file (records of grid, columns, reactions, laws, multiplicities, families, tables), the relation `describes` between the numbers of the file and the description built from the block layouts of S_Neutron, S_Laws and S_Urr, and `carries` between the description and the accessors of the object. Theorem: described files load, and the object carries the description. Composition of the per-block theorems (C33-C38, C65, C72-C77) by induction over the reactions.
* **C103** S_Use: `well_formed` (a described file whose grid has no repeated energy and whose distributions are `sound`, S_Sound) and `answers_all` (what a transport code asks). Composition of C102 with C33, C36, C38 and C100; partial because below the first grid energy the code can return a negative cross section and because laws 1 and 5 are read out of range.
* **C104** S_Derive: `same_physics` between two objects and `answers_as`. The loops of the two constructors are shown to build the same reactions at every entry (L_Derive), for any arithmetic; with C102 the hypotheses become conditions on the two files (L_Derive2). The list of MTs differs: the second constructor puts one zero per reaction in front (refuted for every pair of files with a reaction).
* **C105** S_Format: `ace_of_file` (the part of an ACE object the loaders read) and `same_but_temperature_n/_t`. L_Format: every loader reads the temperature only to report it (induction over the loops). Composition of C52, C84 and C102 in L_Format2; L_FormatEx writes the example file of C102 as text and reads it back in binary64.
* **C106** S_ThermalWhole: the contents of a thermal file (`thermal`), its layout (`written`), what makes it `meaningful`, and the answers (`elastic_xs`, `elastic_outcome`), with no reference to the model's objects. L_ThermalWhole composes the readers of C99 with the samplers of C45, C46, C47, C70 and the sum of C71. Examples: continuous tables on a crystal, lines with incoherent elastic.
* **C107** S_CosF: `cosine` (finite and in [-1,1]), `finite_file`. L_CosF is a rounding-error analysis on real numbers with round-to-nearest-even: interpolation of doubles in [-1,1] stays in [-1,1] (a sum up to 1 + 2^-53 ties back to 1); the mirror points of the end bins are at most 2(1-|mu|)+2^-52 away, and so is an interpolated neighbour that rounding has put on the wrong side (`wrong_side`: 2^-52 when mu = 1, 2^-51 when mu = 1-2^-53), hence half a step stays in [-1,1] although the incoherent elastic law does not clamp. L_CosF2 carries this to the doubles of `smear`, L_CosF3/4 to the laws as loaded from a file. `C107_continuous_nan_met` shows the NaN case of the continuous law on a table with a repeated first cumulated value.
* **C108** S_CosG: `cosines_only` / `pairs_only` (whatever unit doubles the generator returns, the cosine is in [-1,1] or NaN). L_CosG: every law ends in the clamp (`clamp_any` of L_CosF4: the clamp of any double is NaN or a cosine) or in 2 xi - 1, which is a cosine for every unit double; then by inversion of the loader for any file (`C108_reaction_law`, laboratory-frame reactions). L_CosE: elastic scattering divides the third component by the computed norm; the rounded square root of the rounded square is never below the number (for |z| >= 2^-500), so the quotient cannot pass 1. `C108_cm_refuted`: the conversion of a centre-of-mass law to the laboratory (frame.hpp 63-72) is not clamped: isotropic in the centre of mass, mass 1, it returns a finite cosine above 1.5 through cancellation in the laboratory energy; `C108_cm_nan_refuted`: for neighbouring energies the laboratory energy is negative and the cosine NaN (the only assumption on libm: pow(2,2) = 4).
* **C109** S_BinsF: `energies_ok`, `in_some_bin`. L_BinsF: with d the rounded difference b-a, a random double xi is at most 1-2^-53, so d*xi rounds to at most the predecessor of d (strictly below the midpoint, or equal to it when d is a power of two), and the predecessor of the rounded difference is at most the exact difference; tiny differences are exact. So a + d*xi rounds into [a,b]. Then by inversion of the samplers. A draw in the last of the size() cells reads past the table (undefined behaviour, C24) and returns no value.
* **C110** L_NbF: signs of doubles (`sg`: sign, zero or NaN) through Flocq's product, sum, difference and opposite, infinities and overflow included; a logarithm times a cosine twice keeps its sign; x <= rounded x + y for signs non-negative, so the rounded quotient is at most 1 and the rounded product at most Emax. The two assumptions on libm are hypotheses of the theorem.
* **C111** L_EnF: the elastic energy is a square (sign analysis of L_NbF, infinities included); the rejection loops return only what passed `accept`, and a double that compares between 0 and a finite double is finite. `C111_level_refuted`: level scattering has no check and returns a negative energy below the threshold of the level (level_inelastic_scatter.cpp 47-50); with a laboratory conversion see also `C108_cm_nan_refuted`.

## 5. Trusted base

* **Coq's kernel** (8.16.1), including its primitive 63-bit integers and primitive binary64 floats and `vm_compute`.
* **Axioms**: only axioms of the standard library, through `Reals` (`ClassicalDedekindReals.sig_forall_dec`, `sig_not_dec`,
  `functional_extensionality_dep`), `Classical_Prop.classic` (through `Reals`/Coquelicot/Flocq lemmas) and, for the binary64
  theorems, `FloatAxioms` (`ltb_spec`, `leb_spec`, `eqb_spec`, `abs_spec`, `add_spec`, `sub_spec`, `mul_spec`, `div_spec`,
  `sqrt_spec`). The names `PrimFloat.*`, `PrimInt63.*`, `float`, `int`, `lsl`, ... that `Print Assumptions` also prints are the
  kernel's primitive types and operations, not axioms of ours. No axiom, `Admitted`, `Variable` outside a section, functor or
  module type is added. Coquelicot and Flocq are used as libraries of proved lemmas; they add no axiom of their own here.
* **The model.** That `M_*.v` says what the C++ says was checked by reading; every definition cites its lines. The C++ compiler,
  standard library and libm are not verified; where a theorem is on `R`, a `double` is an exact real number.

## 6. Which parts of the code are modelled

| code | model | remarks |
|---|---|---|
| interpolation.hpp | M_Interp | all five laws, evaluation, inversion, integration |
| tabulated_1d, linearize | M_Tab1D, M_Span | regions; the spans/storage of copies separately in M_Span; linearize with fuel for its recursion |
| function_1d, polynomial_1d, constant, sum_1d, difference_1d | M_Func | |
| energy_grid, cross_section, ElasticDBRC::max_xs_value | M_Grid, M_GridUrr | |
| xs_packet | M_Packet | |
| pctable, angle_table, equiprobable_angle_bins, isotropic, angle_distribution | M_PC | AngleTable(Legendre) in M_LegTable |
| legendre | M_Legendre | |
| tabular_energy, energy_angle_table, tabular_energy_angle, kalbach(_table) | M_OutE | |
| equiprobable_energy_bins, general_evaporation, maxwellian, evaporation, watt, level_inelastic_scatter, discrete_photon, nbody, uncorrelated, multiple_distribution, summed_fission_spectrum | M_Spectra | rejection loops consume the draw list |
| vector.hpp, frame.hpp, elastic, elastic_svt, cm_distribution | M_Kin | |
| elastic_dbrc | M_Doppler, M_Grid | |
| ace accessors, zaid reading, cross sections read from ACE | M_Ace | |
| ace read_binary/save_binary | M_AceBin | bytes, little-endian machine, binary64 payload |
| ace read_ascii, split_line | M_AceText | characters, stream flags, libstdc++ number gathering; strtod/stod/stoi are parameters |
| ACE constructors of all laws | M_Laws | |
| reaction_base, reaction, delayed_family, fission, urr_ptables, st_neutron | M_Neutron | |
| thermal scattering classes (st_*) | M_Thermal | |
| zaid, element, isotope, nuclide | M_Ident | with the fragment of ECMAScript regular expressions used |
| nd_library, serpent_library, mcnp_library | M_Library, M_Xsdir | word lists (M_Library), text (M_Xsdir) |
| rng | M_Rng | |

Not modelled: Python bindings, tools, file opening, the stack depth of std::regex, exception messages, version.cpp, prng state shared by threads.

<!-- assumptions: generated -->
### What `Print Assumptions` lists, theorem by theorem

Theorems are grouped by the exact list printed.

* **closed under the global context** (98): C17_moment_zero_partial, C104_derived_answers_partial, C10_null_terms_rejected, C48_element_accepted, C48_symbol_standard, C48_distinct, C48_lookup, C48_lookup_total, C48_lookup_own, C66_standard_names_partial, C66_standard_names_refuted, C66_standard_names_exact_refuted, C49_isotope_accepted, C49_isotope_zaid_accepted, C49_zaid_roundtrip, C49_string, C49_string_total, C49_symbol_roundtrip, C49_order, C50_nuclide_accepted, C50_symbol_roundtrip, C50_string, C50_string_total, C50_zaid_roundtrip_partial, C50_zaid_value, C50_zaid_roundtrip_refuted, C50_zaid_rejected_refuted, C50_zaid_total, C50_zaid_valid_partial, C50_zaid_level_refuted, C50_zaid_wrap_refuted, C51_zaid_order, C51_element_order, C51_isotope_order, C51_nuclide_order, C51_lexicographic, C51_hash, C51_isotope_hash_injective, C56_same_object, C56_cached, C56_step, C56_shared, C67_listed_symbol_partial, C67_symbol_meaning, C67_listed_symbol_refuted, C67_tsl_name_partial, C68_extension, C37_lookup_partial, C37_list, C37_derived_lookup_partial, C37_lookup_safe, C37_list_sorted, C64_all_chances_needed, C20_single_energy_refuted, C65_block_pointers, C65_entries, C51_nuclide_hash_is_zaid_hash, C02_histogram_invert, C67_tsl_characters, C07_linearize_undefined_iff, C86_mcnp_extension, C86_serpent_extension, C50_heaviest_isotopes, C51_isotope_hash_is_zaid_hash, C91_reaction, C91_neutron, C91_target, C91_elastic, C91_thermal, C91_angular, C91_energies, C91_composite, C91_more_numbers, C57_period, C57_full_range, C25_range_any_arithmetic_partial, C27_accessors_refuted, C27_exchanged_partial, C29_constructor_checks, C30_constructor_checks, C31_pdf_product, C31_sampling_order, C31_null_energy_law_throws, C07_without_copy_or_linearize_partial, C07_evaluation_defined_iff_partial, C07_linearize_refuted, C07_copies_while_nothing_is_freed_partial, C07_copy_refuted, C07_views_partial, C07_storage_is_not_shared_partial, C86_entries_partial, C86_rows, C86_awr_partial, C86_missing_awr, C86_missing_directory, C86_any_text, C86_serpent, C86_datapath_refuted
* **`ClassicalDedekindReals.sig_forall_dec`** (1): C27_accessors_distinguishable_refuted
* **`ClassicalDedekindReals.sig_forall_dec`, `FunctionalExtensionality.functional_extensionality_dep`** (7): C32_index_unique, C18_bracket_unique, C57_state_of_any_history, C57_values_in_unit_interval, C57_advance_equals_draws, C29_exactly_one, C29_interval_length
* **`ClassicalDedekindReals.sig_forall_dec`, `ClassicalDedekindReals.sig_not_dec`, `FunctionalExtensionality.functional_extensionality_dep`** (9): C78_acceptance_is_a_probability, C78_geometry, C79_window, C98_mean_of_density, C98_mean_unique, C23_mixture, C87_law_unique_partial, C87_density_unique_partial, C90_weight_unique
* **`ClassicalDedekindReals.sig_forall_dec`, `ClassicalDedekindReals.sig_not_dec`, `Classical_Prop.classic`, `FunctionalExtensionality.functional_extensionality_dep`** (424): C52_save_then_load_partial, C52_save_then_load_exact_partial, C52_save_then_load_zero_kelvin_partial, C52_factor, C52_power_of_two_temperature_refuted, C53_save_changes_nothing_but_temperature_partial, C53_save_changes_temperature_refuted, C53_second_save_differs_refuted, C54_reading_terminates, C54_fitting_records_are_safe_partial, C54_truncated_saved_file_is_safe_partial, C54_overlong_record_refuted, C54_truncation_unnoticed_refuted, C54_empty_file_accepted_refuted, C84_reads_what_is_written_partial, C84_accepted_well_formed, C84_to_binary, C84_short_rejected_partial, C84_one_missing_accepted_refuted, C84_bad_word_accepted_refuted, C84_missing_E_accepted_refuted, C84_no_numbers_accepted_refuted, C84_short_header_refuted, C84_formats_disagree_refuted, C11_inverse_cdf, C11_monotone, C11_valid_tables_accepted, C12_sample_safe_partial, C13_density, C13_segment, C14_isotropic, C14_bins, C14_table, C14_legendre, C14_angle_distribution, C15_memory_safe_partial, C15_sampled_value_partial, C15_pdf_partial, C15_bin_refuted, C16_value, C16_default, C16_normalised, C16_accepted, C17_refuted, C17_effect_partial, C17_rejects_iff_partial, C18_angle_below, C18_angle_above, C18_angle_between, C18_angle_empty_refuted, C104_derived_from_files_partial, C104_list_refuted, C104_case, C78_svt_is_the_rejection_scheme, C78_svt_returns_or_asks_for_more, C79_dbrc_is_the_rejection_scheme, C79_zero_window, C80_each_trial_may_end_the_loop_partial, C80_trials_partial, C102_file_loads, C102_one_object, C102_case, C102_case_object, C103_loaded_nuclide_usable_partial, C103_case, C105_binary_nuclide, C105_binary_thermal, C105_text_nuclide, C105_text_then_binary, C105_case, C09_polynomial_integral, C10_integral_of_any_expression, C09_polynomial_value, C10_sum, C10_difference, C32_lookup_brackets_partial, C32_bad_grids_throw, C33_zero_below_threshold, C33_last_value_above, C33_tabulated_at_grid_energies, C33_linear_between, C33_nonnegative, C33_inconsistent_data_throw, C34_evaluations_agree_partial, C34_threshold_refuted, C34_below_grid_refuted, C44_majorant_bounds_partial, C44_threshold_oob_refuted, C44_below_grid_refuted, C85_start_is_first_table_energy, C85_grid_made, C85_has_urr, C85_without_tables_partial, C85_without_tables_refuted, C85_vector_grid_refuted, C85_two_energies_refuted, C01_interpolate_is_the_law, C01_interpolate_endpoints, C01_interpolate_between_and_monotone, C02_invert_interpolate, C02_interpolate_invert, C03_segment_integral_partial, C03_segment_integral_additive, C21_angular_table_partial, C21_accepted_partial, C22_accepted, C83_table_value_partial, C83_kalbach_value_partial, C83_table_energy_marginal_partial, C83_kalbach_energy_marginal_partial, C83_table_cosine_marginal_partial, C83_kalbach_cosine_marginal_partial, C83_last_energy_refuted, C83_energy_angle_mixture, C83_kalbach_mixture, C63_angular_marginal_partial, C40_cm_to_lab_adds_cm_velocity, C40_lab_to_cm_subtracts_cm_velocity, C40_cm_lab_cm_round_trip, C40_lab_cm_lab_round_trip, C41_rotation, C42_target_at_rest_partial, C42_moving_target_conserves, C43_constructor_validates, C43_setter_histories_partial, C43_throwing_setter_unchanged_partial, C43_setters_report_iff, C43_set_temperature_refuted, C43_set_tar_threshold_refuted, C58_angles_solve_up_to_sign_partial, C58_unreachable_angles, C58_maximum_angle, C58_wrong_root_refuted, C59_jacobian_is_determinant, C59_angle_jacobian_partial, C59_angle_pdf_value_partial, C59_even_refuted, C59_negative_weight_refuted, C59_energy_jacobian, C59_file_reactions, C60_svt_target_velocity, C72_laws_partial, C72_energy_laws_partial, C72_interface, C72_density, C72_kalbach_table, C72_general_evaporation_refuted, C72_general_evaporation_always, C72_unsorted_refuted, C72_isotropic_refuted, C73_read, C73_isotropic, C73_negative, C73_elastic, C74_entry, C74_entry_derived, C74_numbers, C74_cross_section, C74_yield_constant, C74_yield_table, C74_distribution, C74_absorption, C74_below_threshold, C74_above_threshold, C74_accepted, C75_unknown_law, C75_no_angles, C75_terminates_partial, C75_turns, C75_cycle_refuted, C76_lab, C76_cm_partial, C77_families_partial, C77_unknown_law, C77_general_evaporation_refuted, C77_fission, C82_table_partial, C82_sample_partial, C82_total_partial, C55_nearest_available, C55_nearest_partial, C55_nearest_refuted, C55_load_neutron_partial, C55_load_tsl_partial, C55_load_nearest_partial, C55_load_nearest_refuted, C67_tsl_name_refuted, C68_neutron_partial, C68_tsl_partial, C68_sorted_fresh, C68_newline_refuted, C69_mcnp, C98_density_moments, C98_set_moment, C98_bounded, C98_sampled_moments, C98_sampled_moments_six, C98_kalbach_mean, C36_balance_partial, C36_fission_capture_partial, C36_below_grid_refuted, C37_mt0_refuted, C37_big_mt_refuted, C37_missing_mt_refuted, C38_inside_partial, C38_outside, C38_values, C38_competition, C38_tables, C38_two_energies_refuted, C38_in_range, C39_one_block, C39_prompt_and_delayed, C39_prompt_and_total, C39_all_three, C39_not_fissile, C39_consistent_partial, C39_three_blocks_refuted, C39_delayed_first_refuted, C39_delayed_only_refuted, C64_mt18, C64_sum_at_grid_points, C64_sum_between_partial, C64_between_refuted, C65_polynomial, C65_tabulated, C65_multiplicity, C65_probability_table, C65_negative_column_throws, C19_tabular_energy, C19_tabular_energy_angle_partial, C19_zero_draw_refuted, C19_kalbach, C19_tabular_energy_grid, C19_tabular_energy_angle_grid, C19_kalbach_grid, C18_zero_draw_refuted, C18_zero_draw_general, C20_two_energies_partial, C21_sample_partial, C21_pdf_partial, C21_sample_zero_refuted, C21_pdf_last_refuted, C21_mismatched_sizes_refuted, C22_inverse_cdf, C22_parameters, C22_pdf_partial, C22_pdf_last_refuted, C22_histogram_point_refuted, C22_empty_refuted, C23_density, C23_sampling, C23_cosine, C23_table_density, C61_integral_partial, C61_same_width_partial, C61_grid_energy_partial, C61_refuted, C35_vector_space_laws_partial, C35_component_by_component_partial, C35_unary_minus_partial, C35_unary_minus_exact_domain, C35_unary_minus_refuted, C81_columns_accepted, C43_setters_take_effect, C43_constructor_stores, C18_default_is_isotropic, C52_saved_layout, C67_listing_order, C99_negative_densities, C58_speed_ratio, C65_integers_truncate, C74_derived_reaction, C08_rejects, C65_signed_truncate, C65_table_codes, C17_length_partial, C34_single_value, C81_read_from_the_file, C81_derived, C87_evaporation_partial, C87_watt_partial, C87_maxwellian_partial, C87_maxwellian_pdf_refuted, C88_isotropic_partial, C88_angle_table_partial, C88_angle_table_accepted_partial, C88_legendre_partial, C88_legendre_six_partial, C88_angle_distribution_partial, C88_kalbach_cosine_partial, C88_tabular_energy_partial, C88_tabular_energy_pdf_partial, C88_tabular_energy_pdf_refuted, C88_equiprobable_angle_bins_refuted, C89_free_gas_velocity, C89_weights, C90_resonance_velocity, C92_uncorrelated, C92_uncorrelated_pdf, C92_mixture, C92_mixture_pdf, C92_fission_spectrum, C92_centre_of_mass, C92_reaction_of_file, C93_energy_density, C93_isotropic_energy, C93_cosine_law, C93_isotropic_cosine, C93_hydrogen_cosine, C94_pdf_is_the_density, C94_pdf_is_the_spectrum, C94_energy_spectrum, C95_coherent, C95_discrete, C95_discrete_total, C95_incoherent, C95_unit_based, C95_nearest, C96_kalbach_partial, C96_energy_angle_partial, C96_kalbach_pdf_partial, C96_energy_angle_pdf_partial, C96_kalbach_linear_refuted, C96_kalbach_stretch_refuted, C96_energy_angle_flat_refuted, C100_sampling_partial, C100_file_reaction_partial, C100_kalbach_law_of_file, C100_tabular_law_of_file, C100_density_of_file, C100_elastic_partial, C24_energy_in_a_bin_partial, C24_safe_below_partial, C24_out_of_range_refuted, C24_wrong_bin_refuted, C24_pdf_normalised, C24_between_energies, C24_outside_energies, C24_general_evaporation_partial, C24_general_evaporation_refuted, C24_general_evaporation_pdf, C24_constructors_check, C25_range_partial, C25_rejection_step, C25_watt_step, C25_pdf_zero_outside, C25_pdf_nonnegative_partial, C25_maxwellian_negative_refuted, C25_below_threshold_refuted, C26_evaporation_normalised, C26_defined, C62_watt_normalised_partial, C62_maxwellian_integral_partial, C62_maxwellian_at_temperature_partial, C62_maxwellian_refuted, C62_densities_defined, C28_level, C28_level_checks, C28_discrete_photon, C28_nbody_range_partial, C28_nbody_checks, C28_nbody_draws, C63_nbody_normalised_partial, C63_beyond_maximum_refuted, C29_selects_component, C29_fallback_last, C29_pdf_is_mixture, C29_pdf_absent, C30_sampling_weights_partial, C30_single_contribution_partial, C30_mixture_refuted, C31_absent_iff, C31_joint_normalised, C04_value, C04_grid_value, C05_integral_partial, C05_antisymmetric_additive_partial, C06_accepted_tables, C08_linearize, C08_linearized_table_is_the_chord, C08_linearize_terminates, C08_interval, C45_accepted_edges, C45_xs_partial, C45_no_edges, C45_at_most_one_last_edge, C45_at_first_edge_refuted, C45_at_last_edge, C45_sample_partial, C45_sample_below, C46_accepted_tables, C46_equiprobable, C46_skewed, C46_probabilities, C47_accepted_tables, C47_safe_partial, C47_unit_based_partial, C47_nearest_partial, C70_sample_partial, C70_xs, C70_absent, C70_one_incident_energy_refuted, C71_parts, C71_total_xs, C71_dispatch, C71_no_elastic_block_refuted, C99_coherent, C99_incoherent_elastic, C99_discrete, C99_continuous, C99_inelastic, C99_law, C106_law_loads, C106_cross_section, C106_inelastic_collision, C106_elastic_collision, C65_probability_tables, C38_smooth_cross_sections, C38_smooth_cross_sections_derived, C86_tables_partial, C86_exponent_refuted, C86_directory_in_path_refuted, C86_carriage_return_refuted
* **`PrimFloat.add`, `PrimFloat.div`, `PrimFloat.eqb`, `PrimFloat.leb`, `PrimFloat.ltb`, `PrimFloat.mul`, `PrimFloat.opp`, `PrimFloat.sqrt`, `PrimFloat.sub`, `PrimInt63.eqb`, `abs`, `float`, `frshiftexp`, `int`, `land`, `lor`, `lsl`, `lsr`, `normfr_mantissa`, `of_uint63`, `sub`** (26): C12_first_cdf_refuted, C14_nan_refuted, C108_cm_nan_refuted, C32_top_bin_refuted, C32_zero_grid_refuted, C03_constant_loglin_segment_refuted, C42_backscatter_refuted, C58_not_a_cosine_refuted, C59_forward_density_refuted, C76_below_level_refuted, C82_odd_expansion_refuted, C110_nbody_nan_occurs, C97_coherent_elastic, C100_kalbach_repeated_energy_refuted, C28_nbody_zero_draw_refuted, C04_histogram_grid_point_refuted, C05_jump_inside_region_refuted, C06_construction_safe_partial, C06_no_breakpoints_refuted, C06_breakpoint_beyond_data_refuted, C08_empty_grid_refuted, C47_inconsistent_cdf_refuted, C47_one_outgoing_energy_refuted, C47_zero_density_refuted, C47_negative_energy_refuted, C111_level_refuted
* **`Prim2SF_valid`, `PrimFloat.add`, `PrimFloat.div`, `PrimFloat.eqb`, `PrimFloat.leb`, `PrimFloat.ltb`, `PrimFloat.mul`, `PrimFloat.opp`, `PrimFloat.sqrt`, `PrimFloat.sub`, `PrimInt63.eqb`, `abs`, `float`, `frshiftexp`, `int`, `land`, `lor`, `lsl`, `lsr`, `normfr_mantissa`, `of_uint63`, `sub`** (1): C108_cm_refuted
* **`ClassicalDedekindReals.sig_forall_dec`, `FunctionalExtensionality.functional_extensionality_dep`, `Prim2SF_valid`, `PrimFloat.add`, `PrimFloat.div`, `PrimFloat.eqb`, `PrimFloat.leb`, `PrimFloat.ltb`, `PrimFloat.mul`, `PrimFloat.opp`, `PrimFloat.sqrt`, `PrimFloat.sub`, `PrimInt63.eqb`, `abs`, `float`, `frshiftexp`, `int`, `land`, `lor`, `lsl`, `lsr`, `normfr_mantissa`, `of_uint63`, `sub`** (1): C108_mixture
* **`FloatAxioms.eqb_spec`, `FloatAxioms.leb_spec`, `FloatAxioms.ltb_spec`, `PrimFloat.add`, `PrimFloat.div`, `PrimFloat.eqb`, `PrimFloat.leb`, `PrimFloat.ltb`, `PrimFloat.mul`, `PrimFloat.opp`, `PrimFloat.sqrt`, `PrimFloat.sub`, `PrimInt63.eqb`, `abs`, `float`, `frshiftexp`, `int`, `land`, `lor`, `lsl`, `lsr`, `normfr_mantissa`, `of_uint63`, `sub`** (3): C12_sample_safe_binary64_partial, C12_pdf_safe_binary64, C04_no_out_of_range
* **`FloatAxioms.eqb_spec`, `FloatAxioms.leb_spec`, `FloatAxioms.ltb_spec`, `PrimFloat.add`, `PrimFloat.div`, `PrimFloat.eqb`, `PrimFloat.leb`, `PrimFloat.ltb`, `PrimFloat.mul`, `PrimFloat.opp`, `PrimFloat.sqrt`, `PrimFloat.sub`, `PrimInt63.eqb`, `abs`, `abs_spec`, `float`, `frshiftexp`, `int`, `land`, `lor`, `lsl`, `lsr`, `normfr_mantissa`, `of_uint63`, `sub`** (1): C14_binary64_partial
* **`FloatAxioms.add_spec`, `FloatAxioms.div_spec`, `FloatAxioms.ltb_spec`, `FloatAxioms.mul_spec`, `FloatAxioms.sqrt_spec`, `FloatAxioms.sub_spec`, `PrimFloat.add`, `PrimFloat.div`, `PrimFloat.eqb`, `PrimFloat.leb`, `PrimFloat.ltb`, `PrimFloat.mul`, `PrimFloat.opp`, `PrimFloat.sqrt`, `PrimFloat.sub`, `PrimInt63.eqb`, `abs`, `float`, `frshiftexp`, `int`, `land`, `lor`, `lsl`, `lsr`, `normfr_mantissa`, `of_uint63`, `sub`** (1): C80_zero_kelvin_never_returns_refuted
* **`ClassicalDedekindReals.sig_forall_dec`, `ClassicalDedekindReals.sig_not_dec`, `Classical_Prop.classic`, `FloatAxioms.add_spec`, `FloatAxioms.div_spec`, `FloatAxioms.mul_spec`, `FloatAxioms.sqrt_spec`, `FunctionalExtensionality.functional_extensionality_dep`, `Prim2SF_SF2Prim`, `Prim2SF_valid`, `PrimFloat.add`, `PrimFloat.div`, `PrimFloat.eqb`, `PrimFloat.leb`, `PrimFloat.ltb`, `PrimFloat.mul`, `PrimFloat.opp`, `PrimFloat.sqrt`, `PrimFloat.sub`, `PrimInt63.eqb`, `SF2Prim_Prim2SF`, `abs`, `float`, `frshiftexp`, `int`, `land`, `ldshiftexp`, `lor`, `lsl`, `lsr`, `normfr_mantissa`, `of_uint63`, `sub`** (1): C108_elastic
* **`ClassicalDedekindReals.sig_forall_dec`, `ClassicalDedekindReals.sig_not_dec`, `Classical_Prop.classic`, `FloatAxioms.add_spec`, `FloatAxioms.leb_spec`, `FloatAxioms.ltb_spec`, `FloatAxioms.mul_spec`, `FloatAxioms.sub_spec`, `FunctionalExtensionality.functional_extensionality_dep`, `Prim2SF_SF2Prim`, `Prim2SF_valid`, `PrimFloat.add`, `PrimFloat.div`, `PrimFloat.eqb`, `PrimFloat.leb`, `PrimFloat.ltb`, `PrimFloat.mul`, `PrimFloat.opp`, `PrimFloat.sub`, `PrimInt63.eqb`, `SF2Prim_Prim2SF`, `abs`, `float`, `frshiftexp`, `int`, `land`, `ldshiftexp`, `lor`, `lsl`, `lsr`, `normfr_mantissa`, `of_uint63`, `sub`** (1): C109_interpolation
* **`ClassicalDedekindReals.sig_forall_dec`, `ClassicalDedekindReals.sig_not_dec`, `Classical_Prop.classic`, `FloatAxioms.eqb_spec`, `FloatAxioms.ltb_spec`, `FloatAxioms.opp_spec`, `FunctionalExtensionality.functional_extensionality_dep`, `Prim2SF_SF2Prim`, `Prim2SF_valid`, `PrimFloat.add`, `PrimFloat.div`, `PrimFloat.eqb`, `PrimFloat.leb`, `PrimFloat.ltb`, `PrimFloat.mul`, `PrimFloat.opp`, `PrimFloat.sqrt`, `PrimFloat.sub`, `PrimInt63.eqb`, `SF2Prim_Prim2SF`, `abs`, `abs_spec`, `float`, `frshiftexp`, `int`, `land`, `ldshiftexp`, `lor`, `lsl`, `lsr`, `normfr_mantissa`, `of_uint63`, `sub`** (7): C107_continuous, C108_angle_table, C108_angle_bins, C108_angle_distribution, C108_uncorrelated, C108_tabular_energy_angle, C108_kalbach
* **`ClassicalDedekindReals.sig_forall_dec`, `ClassicalDedekindReals.sig_not_dec`, `Classical_Prop.classic`, `FloatAxioms.add_spec`, `FloatAxioms.eqb_spec`, `FloatAxioms.leb_spec`, `FloatAxioms.ltb_spec`, `FloatAxioms.mul_spec`, `FloatAxioms.sub_spec`, `FunctionalExtensionality.functional_extensionality_dep`, `Prim2SF_SF2Prim`, `Prim2SF_valid`, `PrimFloat.add`, `PrimFloat.div`, `PrimFloat.eqb`, `PrimFloat.leb`, `PrimFloat.ltb`, `PrimFloat.mul`, `PrimFloat.opp`, `PrimFloat.sqrt`, `PrimFloat.sub`, `PrimInt63.eqb`, `SF2Prim_Prim2SF`, `abs`, `float`, `frshiftexp`, `int`, `land`, `ldshiftexp`, `lor`, `lsl`, `lsr`, `normfr_mantissa`, `of_uint63`, `sub`** (3): C109_equiprobable, C109_equiprobable_file, C109_general_evaporation
* **`ClassicalDedekindReals.sig_forall_dec`, `ClassicalDedekindReals.sig_not_dec`, `Classical_Prop.classic`, `FloatAxioms.add_spec`, `FloatAxioms.div_spec`, `FloatAxioms.eqb_spec`, `FloatAxioms.leb_spec`, `FloatAxioms.ltb_spec`, `FloatAxioms.mul_spec`, `FloatAxioms.sub_spec`, `FunctionalExtensionality.functional_extensionality_dep`, `Prim2SF_SF2Prim`, `Prim2SF_valid`, `PrimFloat.add`, `PrimFloat.div`, `PrimFloat.eqb`, `PrimFloat.leb`, `PrimFloat.ltb`, `PrimFloat.mul`, `PrimFloat.opp`, `PrimFloat.sqrt`, `PrimFloat.sub`, `PrimInt63.eqb`, `SF2Prim_Prim2SF`, `abs`, `float`, `frshiftexp`, `int`, `land`, `ldshiftexp`, `lor`, `lsl`, `lsr`, `normfr_mantissa`, `of_uint63`, `sub`** (4): C101_cross_section_partial, C101_cross_section_at_index_partial, C101_packet_nonnegative, C101_table
* **`ClassicalDedekindReals.sig_forall_dec`, `ClassicalDedekindReals.sig_not_dec`, `Classical_Prop.classic`, `FloatAxioms.add_spec`, `FloatAxioms.div_spec`, `FloatAxioms.eqb_spec`, `FloatAxioms.leb_spec`, `FloatAxioms.ltb_spec`, `FloatAxioms.mul_spec`, `FloatAxioms.opp_spec`, `FloatAxioms.sub_spec`, `FunctionalExtensionality.functional_extensionality_dep`, `Prim2SF_SF2Prim`, `Prim2SF_valid`, `PrimFloat.add`, `PrimFloat.div`, `PrimFloat.eqb`, `PrimFloat.leb`, `PrimFloat.ltb`, `PrimFloat.mul`, `PrimFloat.opp`, `PrimFloat.sqrt`, `PrimFloat.sub`, `PrimInt63.eqb`, `SF2Prim_Prim2SF`, `abs`, `float`, `frshiftexp`, `int`, `land`, `ldshiftexp`, `lor`, `lsl`, `lsr`, `normfr_mantissa`, `of_uint63`, `sub`** (1): C110_nbody_energy
* **`ClassicalDedekindReals.sig_forall_dec`, `ClassicalDedekindReals.sig_not_dec`, `Classical_Prop.classic`, `FloatAxioms.leb_spec`, `FloatAxioms.ltb_spec`, `FloatAxioms.mul_spec`, `FunctionalExtensionality.functional_extensionality_dep`, `Prim2SF_SF2Prim`, `Prim2SF_valid`, `PrimFloat.div`, `PrimFloat.eqb`, `PrimFloat.leb`, `PrimFloat.ltb`, `PrimFloat.mul`, `PrimFloat.opp`, `PrimInt63.eqb`, `PrimInt63.leb`, `SF2Prim_Prim2SF`, `Uint63.eqb_refl`, `abs`, `add`, `add_spec`, `eqb_correct`, `float`, `frshiftexp`, `int`, `land`, `ldshiftexp`, `leb_spec`, `lor`, `lor_spec`, `lsl`, `lsl_spec`, `lsr`, `lsr_spec`, `ltb`, `ltb_spec`, `normfr_mantissa`, `of_to_Z`, `of_uint63`, `of_uint63_spec`, `sub`, `sub_spec`** (1): C97_product_below
* **`ClassicalDedekindReals.sig_forall_dec`, `ClassicalDedekindReals.sig_not_dec`, `Classical_Prop.classic`, `FloatAxioms.eqb_spec`, `FloatAxioms.leb_spec`, `FloatAxioms.ltb_spec`, `FunctionalExtensionality.functional_extensionality_dep`, `Prim2SF_SF2Prim`, `Prim2SF_valid`, `PrimFloat.add`, `PrimFloat.div`, `PrimFloat.eqb`, `PrimFloat.leb`, `PrimFloat.ltb`, `PrimFloat.mul`, `PrimFloat.opp`, `PrimFloat.sqrt`, `PrimFloat.sub`, `PrimInt63.eqb`, `PrimInt63.leb`, `SF2Prim_Prim2SF`, `Uint63.eqb_refl`, `abs`, `add`, `add_spec`, `eqb_correct`, `float`, `frshiftexp`, `int`, `land`, `ldshiftexp`, `leb_spec`, `lor`, `lor_spec`, `lsl`, `lsl_spec`, `lsr`, `lsr_spec`, `ltb`, `ltb_spec`, `normfr_mantissa`, `of_to_Z`, `of_uint63`, `of_uint63_spec`, `sub`, `sub_spec`** (1): C101_overshoot_refuted
* **`ClassicalDedekindReals.sig_forall_dec`, `ClassicalDedekindReals.sig_not_dec`, `Classical_Prop.classic`, `FloatAxioms.leb_spec`, `FloatAxioms.ltb_spec`, `FloatAxioms.mul_spec`, `FunctionalExtensionality.functional_extensionality_dep`, `Prim2SF_SF2Prim`, `Prim2SF_valid`, `PrimFloat.add`, `PrimFloat.div`, `PrimFloat.eqb`, `PrimFloat.leb`, `PrimFloat.ltb`, `PrimFloat.mul`, `PrimFloat.opp`, `PrimFloat.sqrt`, `PrimFloat.sub`, `PrimInt63.eqb`, `PrimInt63.leb`, `SF2Prim_Prim2SF`, `Uint63.eqb_refl`, `abs`, `add`, `add_spec`, `eqb_correct`, `float`, `frshiftexp`, `int`, `land`, `ldshiftexp`, `leb_spec`, `lor`, `lor_spec`, `lsl`, `lsl_spec`, `lsr`, `lsr_spec`, `ltb`, `ltb_spec`, `normfr_mantissa`, `of_to_Z`, `of_uint63`, `of_uint63_spec`, `sub`, `sub_spec`** (2): C97_pick, C97_angle_bins
* **`ClassicalDedekindReals.sig_forall_dec`, `ClassicalDedekindReals.sig_not_dec`, `Classical_Prop.classic`, `FloatAxioms.add_spec`, `FloatAxioms.leb_spec`, `FloatAxioms.ltb_spec`, `FloatAxioms.mul_spec`, `FunctionalExtensionality.functional_extensionality_dep`, `Prim2SF_SF2Prim`, `Prim2SF_valid`, `PrimFloat.add`, `PrimFloat.div`, `PrimFloat.eqb`, `PrimFloat.leb`, `PrimFloat.ltb`, `PrimFloat.mul`, `PrimFloat.opp`, `PrimFloat.sqrt`, `PrimFloat.sub`, `PrimInt63.eqb`, `PrimInt63.leb`, `SF2Prim_Prim2SF`, `Uint63.eqb_refl`, `abs`, `add`, `add_spec`, `eqb_correct`, `float`, `frshiftexp`, `int`, `land`, `ldshiftexp`, `leb_spec`, `lor`, `lor_spec`, `lsl`, `lsl_spec`, `lsr`, `lsr_spec`, `ltb`, `ltb_spec`, `normfr_mantissa`, `of_to_Z`, `of_uint63`, `of_uint63_spec`, `sub`, `sub_spec`** (4): C97_incoherent_elastic, C97_discrete, C97_continuous, C97_discrete_entry
* **`ClassicalDedekindReals.sig_forall_dec`, `ClassicalDedekindReals.sig_not_dec`, `Classical_Prop.classic`, `FloatAxioms.eqb_spec`, `FloatAxioms.leb_spec`, `FloatAxioms.ltb_spec`, `FloatAxioms.mul_spec`, `FunctionalExtensionality.functional_extensionality_dep`, `Prim2SF_SF2Prim`, `Prim2SF_valid`, `PrimFloat.add`, `PrimFloat.div`, `PrimFloat.eqb`, `PrimFloat.leb`, `PrimFloat.ltb`, `PrimFloat.mul`, `PrimFloat.opp`, `PrimFloat.sqrt`, `PrimFloat.sub`, `PrimInt63.eqb`, `PrimInt63.leb`, `SF2Prim_Prim2SF`, `Uint63.eqb_refl`, `abs`, `add`, `add_spec`, `eqb_correct`, `float`, `frshiftexp`, `int`, `land`, `ldshiftexp`, `leb_spec`, `lor`, `lor_spec`, `lsl`, `lsl_spec`, `lsr`, `lsr_spec`, `ltb`, `ltb_spec`, `normfr_mantissa`, `of_to_Z`, `of_uint63`, `of_uint63_spec`, `sub`, `sub_spec`** (3): C100_sampling_binary64_partial, C100_reaction_binary64_partial, C100_elastic_binary64_partial
* **`ClassicalDedekindReals.sig_forall_dec`, `ClassicalDedekindReals.sig_not_dec`, `Classical_Prop.classic`, `FloatAxioms.leb_spec`, `FloatAxioms.ltb_spec`, `FloatAxioms.mul_spec`, `FloatAxioms.sub_spec`, `FunctionalExtensionality.functional_extensionality_dep`, `Prim2SF_SF2Prim`, `Prim2SF_valid`, `PrimFloat.add`, `PrimFloat.div`, `PrimFloat.eqb`, `PrimFloat.leb`, `PrimFloat.ltb`, `PrimFloat.mul`, `PrimFloat.opp`, `PrimFloat.sqrt`, `PrimFloat.sub`, `PrimInt63.eqb`, `PrimInt63.leb`, `SF2Prim_Prim2SF`, `Uint63.eqb_refl`, `abs`, `add`, `add_spec`, `eqb_correct`, `float`, `frshiftexp`, `int`, `land`, `ldshiftexp`, `leb_spec`, `lor`, `lor_spec`, `lsl`, `lsl_spec`, `lsr`, `lsr_spec`, `ltb`, `ltb_spec`, `normfr_mantissa`, `of_to_Z`, `of_uint63`, `of_uint63_spec`, `sub`, `sub_spec`** (2): C108_legendre, C108_nbody
* **`ClassicalDedekindReals.sig_forall_dec`, `ClassicalDedekindReals.sig_not_dec`, `Classical_Prop.classic`, `FloatAxioms.leb_spec`, `FloatAxioms.ltb_spec`, `FloatAxioms.mul_spec`, `FloatAxioms.opp_spec`, `FloatAxioms.sub_spec`, `FunctionalExtensionality.functional_extensionality_dep`, `Prim2SF_SF2Prim`, `Prim2SF_valid`, `PrimFloat.add`, `PrimFloat.div`, `PrimFloat.eqb`, `PrimFloat.leb`, `PrimFloat.ltb`, `PrimFloat.mul`, `PrimFloat.opp`, `PrimFloat.sqrt`, `PrimFloat.sub`, `PrimInt63.eqb`, `PrimInt63.leb`, `SF2Prim_Prim2SF`, `Uint63.eqb_refl`, `abs`, `add`, `add_spec`, `eqb_correct`, `float`, `frshiftexp`, `int`, `land`, `ldshiftexp`, `leb_spec`, `lor`, `lor_spec`, `lsl`, `lsl_spec`, `lsr`, `lsr_spec`, `ltb`, `ltb_spec`, `normfr_mantissa`, `of_to_Z`, `of_uint63`, `of_uint63_spec`, `sub`, `sub_spec`** (1): C108_isotropic
* **`ClassicalDedekindReals.sig_forall_dec`, `ClassicalDedekindReals.sig_not_dec`, `Classical_Prop.classic`, `FloatAxioms.div_spec`, `FloatAxioms.eqb_spec`, `FloatAxioms.leb_spec`, `FloatAxioms.ltb_spec`, `FloatAxioms.mul_spec`, `FloatAxioms.sub_spec`, `FunctionalExtensionality.functional_extensionality_dep`, `Prim2SF_SF2Prim`, `Prim2SF_valid`, `PrimFloat.add`, `PrimFloat.div`, `PrimFloat.eqb`, `PrimFloat.leb`, `PrimFloat.ltb`, `PrimFloat.mul`, `PrimFloat.opp`, `PrimFloat.sqrt`, `PrimFloat.sub`, `PrimInt63.eqb`, `PrimInt63.leb`, `SF2Prim_Prim2SF`, `Uint63.eqb_refl`, `abs`, `add`, `add_spec`, `eqb_correct`, `float`, `frshiftexp`, `int`, `land`, `ldshiftexp`, `leb_spec`, `lor`, `lor_spec`, `lsl`, `lsl_spec`, `lsr`, `lsr_spec`, `ltb`, `ltb_spec`, `normfr_mantissa`, `of_to_Z`, `of_uint63`, `of_uint63_spec`, `sub`, `sub_spec`** (1): C107_coherent_elastic
* **`ClassicalDedekindReals.sig_forall_dec`, `ClassicalDedekindReals.sig_not_dec`, `Classical_Prop.classic`, `FloatAxioms.eqb_spec`, `FloatAxioms.leb_spec`, `FloatAxioms.ltb_spec`, `FloatAxioms.mul_spec`, `FloatAxioms.opp_spec`, `FloatAxioms.sub_spec`, `FunctionalExtensionality.functional_extensionality_dep`, `Prim2SF_SF2Prim`, `Prim2SF_valid`, `PrimFloat.add`, `PrimFloat.div`, `PrimFloat.eqb`, `PrimFloat.leb`, `PrimFloat.ltb`, `PrimFloat.mul`, `PrimFloat.opp`, `PrimFloat.sqrt`, `PrimFloat.sub`, `PrimInt63.eqb`, `PrimInt63.leb`, `SF2Prim_Prim2SF`, `Uint63.eqb_refl`, `abs`, `abs_spec`, `add`, `add_spec`, `eqb_correct`, `float`, `frshiftexp`, `int`, `land`, `ldshiftexp`, `leb_spec`, `lor`, `lor_spec`, `lsl`, `lsl_spec`, `lsr`, `lsr_spec`, `ltb`, `ltb_spec`, `normfr_mantissa`, `of_to_Z`, `of_uint63`, `of_uint63_spec`, `sub`, `sub_spec`** (2): C108_reaction_law, C108_elastic_law
* **`ClassicalDedekindReals.sig_forall_dec`, `ClassicalDedekindReals.sig_not_dec`, `Classical_Prop.classic`, `FloatAxioms.add_spec`, `FloatAxioms.div_spec`, `FloatAxioms.eqb_spec`, `FloatAxioms.leb_spec`, `FloatAxioms.ltb_spec`, `FloatAxioms.mul_spec`, `FloatAxioms.opp_spec`, `FloatAxioms.sub_spec`, `FunctionalExtensionality.functional_extensionality_dep`, `Prim2SF_SF2Prim`, `Prim2SF_valid`, `PrimFloat.add`, `PrimFloat.div`, `PrimFloat.eqb`, `PrimFloat.leb`, `PrimFloat.ltb`, `PrimFloat.mul`, `PrimFloat.opp`, `PrimFloat.sqrt`, `PrimFloat.sub`, `PrimInt63.eqb`, `PrimInt63.leb`, `SF2Prim_Prim2SF`, `Uint63.eqb_refl`, `abs`, `add`, `add_spec`, `eqb_correct`, `float`, `frshiftexp`, `int`, `land`, `ldshiftexp`, `leb_spec`, `lor`, `lor_spec`, `lsl`, `lsl_spec`, `lsr`, `lsr_spec`, `ltb`, `ltb_spec`, `normfr_mantissa`, `of_to_Z`, `of_uint63`, `of_uint63_spec`, `sub`, `sub_spec`** (2): C107_incoherent_elastic, C107_discrete
* **`ClassicalDedekindReals.sig_forall_dec`, `ClassicalDedekindReals.sig_not_dec`, `Classical_Prop.classic`, `FloatAxioms.ltb_spec`, `FloatAxioms.mul_spec`, `FunctionalExtensionality.functional_extensionality_dep`, `Prim2SF_SF2Prim`, `Prim2SF_valid`, `PrimFloat.add`, `PrimFloat.div`, `PrimFloat.eqb`, `PrimFloat.leb`, `PrimFloat.ltb`, `PrimFloat.mul`, `PrimFloat.opp`, `PrimFloat.sqrt`, `PrimFloat.sub`, `PrimInt63.eqb`, `SF2Prim_Prim2SF`, `abs`, `float`, `frshiftexp`, `int`, `land`, `ldshiftexp`, `lor`, `lsl`, `lsr`, `normfr_mantissa`, `of_uint63`, `sub`** (1): C111_elastic
* **`ClassicalDedekindReals.sig_forall_dec`, `ClassicalDedekindReals.sig_not_dec`, `Classical_Prop.classic`, `FloatAxioms.leb_spec`, `FunctionalExtensionality.functional_extensionality_dep`, `Prim2SF_SF2Prim`, `Prim2SF_valid`, `PrimFloat.add`, `PrimFloat.div`, `PrimFloat.eqb`, `PrimFloat.leb`, `PrimFloat.ltb`, `PrimFloat.mul`, `PrimFloat.opp`, `PrimFloat.sqrt`, `PrimFloat.sub`, `PrimInt63.eqb`, `SF2Prim_Prim2SF`, `abs`, `float`, `frshiftexp`, `int`, `land`, `ldshiftexp`, `lor`, `lsl`, `lsr`, `normfr_mantissa`, `of_uint63`, `sub`** (3): C111_maxwellian, C111_evaporation, C111_watt
