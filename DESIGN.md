# Design of the formal model of Reaktoro

Source under study: `/repo` (read as text, never built or run).  The model is
written in Coq 8.16.1 under `rocq/theories` (logical name `Verif`).

## Layout

| kind of file | content |
|---|---|
| `Base.v` | outcome type (`Ok` / `Err` / `UB`), string helpers |
| `M_*.v` | model of the code, one definition per function, with a comment citing file and lines |
| `S_*.v` | small specifications that do not mention the model's helpers (grammar, printers, derivative laws, ...) |
| `P_*.v` | proofs |
| `C_*.v` | property theorems `Cnn_...`, `Print Assumptions`, and a non-vacuity `Example` beside them |

Conventions

* Undefined behaviour of C++ (out-of-bounds read, null dereference, unbounded
  recursion) is the explicit outcome `UB`; a C++ exception is `Err`.  Functions
  whose recursion is not structural take fuel; running out of fuel is `UB` and
  theorems show that it does not happen (or that it does for every fuel).
* Floating point numbers are modelled as exact numbers: `Q` where the code is a
  decision procedure or must be executed by the model, `R` (standard library
  reals) where the property is about logarithms, exponentials and derivatives.
  Rounding, NaN and infinities are not modelled unless said so in the comment of
  the definition.
* Derivatives which the code gets from automatic differentiation are the
  derivatives of the modelled functions (the library autodiff is trusted).
* When the English property is false of the faithful model, the file has
  `..._refuted` with a concrete witness and what does hold is `..._partial`.
* A property whose full statement is refuted or only partly proved keeps it in
  view as `Definition Cnn_statement : Prop` in the same file.

## Plan per group of properties

| id | modelled | proof idea |
|---|---|---|
| C01 | `parseChemicalFormula` and helpers over strings | printer from an AST of formulas (spec), induction on the AST, composition as a sum over occurrences |
| C02 | same, out-of-range `substr`/iterator access is `UB` | witness for unmatched `(`; safety for balanced strings by induction on the fuel |
| C03, C04 | `parseElectricCharge`, `splitSpeciesNameSuffix` | string lemmas about last/first occurrence; witnesses for all-sign strings |
| C05 | `ChemicalFormula::equivalent` | spec: pointwise equal coefficient functions |
| C06 | `makeunique` | loop invariant; refuted in general, partial when no word ends with the suffix |
| C07, C08 | `split`, `join`, `StringList`, `replace` | inductive spec of tokenisation / of left-to-right replacement |
| C09 | `ReactionEquation` parser and printer | induction over terms; printer round trip refuted by a witness |
| C10 | `ElementalComposition`, `Species::molarMass` | sums over lists |
| C11-C14 | `Units.cpp`: tables, parser, `slope`, `intercept`, `convertible` | AST printer for unit expressions, multiplicative semantics; tables by complete enumeration |
| C15 | `Algorithms.hpp` | list lemmas |
| C16, C17 | `Database`, `DatabaseParserYAML` | invariants over insertion histories; termination by a rank on species |
| C18-C22 | `SpeciesList`, `PhaseList`, `Phase`, `Phases`, `ChemicalSystem` | list and matrix sums |
| C23, C24 | `Memoization.hpp`, `Param`, `Model` | cache state machines, simulation with the pure function |
| C25-C29 | `ChemicalState`, `ChemicalProps`, `ArrayStream` | invariants over histories, sums |
| C30-C38 | `EquilibriumSpecs/Conditions/Restrictions/Setup/Props/Predictor/Sensitivity/Dims` | state machines over call histories; matrix assembly |
| C39-C45 | `Math/*` | algebra over `Q`/`R`/any field |
| C46-C56 | thermodynamic models | derivative laws over `R` with Coquelicot/standard reals |
| C57, C58, C93 | singletons | table enumeration and history invariants |
| C59 | YAML codecs of model parameters | per-type round trip |
| C60-C68 | hydrates, equality, word lists, pairs, unit conversions, species attributes, phases declared by elements, names | as C01-C22 |
| C69-C79 | updates of properties, Hessians, results of the solver, options, sensitivities | state machines with arbitrary models as parameters |
| C78, C80 | `LU.cpp` | algebra over any field; the decomposition of Eigen is a parameter with its defining property |
| C81-C85 | standard models and memoized species models | derivatives; cache state machines |
| C86-C89 | water equations of state and electrostatic properties, HKF | derivative combinators over every term of the equations |
| C90-C92, C104 | cubic equations of state, phase identification | derivatives of the closed form; roots of the cubic and of the quartic of stationary points |
| C94-C100, C105, C106 | activity models | Gibbs-Duhem residual in closed form; closed forms of the loops |
| C107, C108 | gases of Spycher and Reed, and of Spycher, Pruess and Ennis-King | derivatives of virial sums and of the Redlich-Kwong energy |
| C109-C114 | the Pitzer model, where it can be evaluated, jumps, dilution, parameters | a Gibbs energy whose derivatives give the coefficients; sums over pairs and triplets of species |
| C115 | databases written to documents, numbers written to streams | nearest numbers of six digits; induction over the species in the order of definition |
| C116-C118 | PHREEQC: species, equilibrium constants and water | invariant of the recursion that adds species; reachability for the exact condition; derivatives |
| C119 | `ThermoProps` with models that throw and parameters that change | arbitrary histories |
| C120-C122 | notations of names of species, radii of ions in the HKF model | invariant of the map of alternatives; induction over names |
| C123 | SUPCRT documents: nodes, elements, parameters, names | induction over nodes and words |
| C124 | standard properties of species of SUPCRT databases | term by term equality with the models of C89; derivatives |
| C125-C126 | volume and Gibbs energy of phases: `ChemicalPropsPhase` with the standard and activity models | Euler's relation; derivatives |
| C127 | texts of mineral mechanisms: `MineralMechanism`, `MineralCatalyst` | words as in C01-C03; all texts of entries |
| C128 | `SupcrtblModels` | derivatives, reduction to C47 |
| C129 | copies of `ChemicalState` and `PorousRockState` | simulation of a machine with pointers by values |
| C130 | `Phreeqc` objects after `execute`: species, phases, elements and valences, reactions, formula and stoichiometric matrices | sums over maps and matrices, independent spec of formulas and equations |
| C131 | `Phreeqc` objects: `set(T, P)`, `set(T, P, n)`, Gibbs energies, activities, volumes; what PHREEQC computes is given as functions | invariant of all objects that scripts and setters can make, linear algebra of reactions, witnesses |
| C132 | `EquilibriumSolver::solve` in full, with derivative parts of numbers, around an arbitrary optimizer | invariants of seeded evaluation (where the last evaluation was, for every sequence of requests), witnesses |
| C133 | The four tables and their ranges, transcribed number by number, the conversions of units and the interpolation of C39 (M_HkfTables.v). | Monotonicity of any bilinear interpolant of monotone data along each coordinate, also on a part of the grid (P_HkfTables.v), then checks of the tables by computation. |
| C134 | The three functions of saturation in WaterUtils.cpp over the real numbers, `pow` of a negative base as not a number (M_WaterSaturation.v); rounding is left out | the equations written with separate powers; roots of the reduced temperature turn them into polynomials; the sign of the derivative of the pressure by its Bernstein coefficients of degree 15 |
| C135 | The outputter: entries, values and options as lists of texts, and the lines printed (M_Outputter.v); the text of numbers is given | lines divided into cells of equal widths; refuted with separators and for output that is switched on later |
| C136 | `M_ThermoFun.v`: `createElements`, `createSpecies`, `fromFile` over the database of `M_System.v`, with the never-set aggregate state as the outcome of reading memory; `convertProps`, `props` on numbers with derivatives | induction over the substances for every content of the memory; two files that differ in their states alone give one database; reading an unset value is UB |
| C137 | `M_PhreeqcInitial.v`: `speciesAmounts`, `set`, `initializeChemicalState`, the table of critical properties and `initializeCriticalPropertiesGaseousSpecies`, `execute` over an arbitrary PHREEQC | amounts by cases on `moles_x` and the unknowns; what one execution leaves in PHREEQC is what the next reads |
| C138 | `M_CubicModel.v`: the construction in `activityPropsFnCubicEOS` over the registry of `M_Registry.v`; the assertions of `CubicEOS` | the lookup is characterised by the first known name and lifted over the list of species; the built-in table is checked line by line by computation and the results are stated for all species |
| C139 | `M_PitzerTables.v`: the table of the slope, transcribed number by number, its conversion of units and the interpolation of C39 | monotone data give monotone interpolants (`P_HkfTables.v`); the agreement with the HKF table is carried from the corners of the common refinement of the two grids to its cells |
| C140 | `M_PorousRock.v`: construction, copy, assignment (argument by value) and setters of `PorousRockState` over the states of `M_State.v` | case analysis; agreement is characterised by the documented initial state |
| C141 | `M_Interpolate.v`: the three `interpolate` functions; the array kept between calls is a list threaded through them, with arbitrary initial content | the loop is shown equal to a map by induction, for any content; values are then those of C39, moved to a common cell for linearity |
| C142 | `M_SupcrtLocale.v`: the entry points, the guard of the locale as a state that the body is run in; `strtod` is a parameter that depends on the locale, `setlocale` keeps the locale if there is none of the given name | by computation on the guard, for any reader; the names by induction on the list |
| C143 | `M_Shared.v`: a heap of data and variables that hold addresses; `clone`, the with-methods and assignments of `Reaction` and `Phase` on it, exceptions caught | simulation: reading the heap through the variables is the meaning of the program over plain values, by induction on the program |
| C144 | `M_Exception.v`: `location` and `message` on texts, `std::find_end` as the last occurrence | by induction on the path: the position is that of the last occurrence |
| C145 | `M_Elements.v`: the with-methods of `Element` on the heap of `M_Shared.v`, its comparisons | the simulation of C143; the masses by induction on the program |
| C101-C103 | `AqueousProps` | arbitrary echelon form, models and states |

## Properties: status, theorems, what is proved

`refuted` means that the property as stated is false of the model; the witness
is in the theorem ending in `_refuted` and what does hold is in those ending in
`_partial`.

**C01 Chemical formulas parse to their additive composition** — proved. `C01_formula` (`C_Formula.v`).
Formulas of any nesting parse to first-appearance order and additive coefficients.

**C02 Parsing an arbitrary formula string is memory safe** — refuted, with partial results. `C02_safe_refuted`, `C02_safe_partial` (`C_Formula.v`).
Refuted: an unmatched '(' reads past the end (ParseUtils.cpp:88-92). Partial: exact characterisation, UB iff a '(' is left open.

**C03 All charge notations denote the same charge** — proved. `C03_charge` (`C_Formula.v`).
All three notations and the sign-only bracket form, with optional suffix; bracketed zero excluded because it falls through to another mode.

**C04 Parsing an electric charge from an arbitrary string is memory safe** — refuted, with partial results. `C04_safe_refuted`, `C04_safe_partial` (`C_Formula.v`).
Refuted: names of one repeated character such as "C" read formula[-1] (ParseUtils.cpp:166-168). Partial: exact characterisation of UB, and neutrality of all other names.

**C05 Formula equivalence is an equivalence relation that ignores order** — proved. `C05_equivalent`, `C05_coefficient`, `C05_relation`, `C05_order`, `C05_parsed` (`C_Chem.v`).
Equivalence characterised; equivalence relation on formulas listing each element once, which holds for every parsed formula.

**C06 Making names unique yields distinct names** — refuted, with partial results. `C06_makeunique_refuted`, `C06_makeunique_partial` (`C_Strings.v`).
Refuted: [A!, A, A] gives A! twice. Partial: shape for all inputs, distinctness when no word is a suffixed form of another.

**C07 Splitting and joining word lists are inverse** — proved. `C07_split`, `C07_join`, `C07_split_join`, `C07_stringlist_words`, `C07_stringlist_lossless`, `C07_trim` (`C_Strings.v`).
Split, join, their round trip, StringList tokens and losslessness, trim.

**C08 Substring replacement replaces every non-overlapping occurrence** — proved. `C08_replace`, `C08_replace_total`, `C08_replace_empty` (`C_Strings.v`).
Replace equals the left-to-right non-overlapping replacement; total for non-empty pattern, empty pattern characterised.

**C09 Reaction equations parse to signed stoichiometry and print back** — refuted, with partial results. `C09_roundtrip_refuted`, `C09_parse_partial`, `C09_print_partial` (`C_Chem.v`).
Refuted round trip: H2O = H+ + OH- prints as "H2O= H+ O" (ReactionEquation.cpp:77-78). Partial: reading an equation is proved for all equations (C09_partial), and the printed text with the three lost characters restored reads back to the printed coefficients within 5e-7 for every equation (C09_print_partial).

**C10 Molar mass is additive in composition and corrects for electrons** — proved. `C10_species_mass`, `C10_unknown_element`, `C10_additive` (`C_Chem.v`).
Mass of a species built from a formula equals the recursive mass of the formula minus charge times electron mass; element table is an argument of the model.

**C11 Unit conversion is an invertible, transitive, affine change of scale** — proved. `C11_roundtrip`, `C11_via`, `C11_increasing`, `C11_affine`, `C11_temperature`, `C11_inconvertible` (`C_Units.v`).
Proved for all pairs of convertible unit strings, temperature scales against an independent table.

**C12 Composite unit expressions are evaluated with the documented precedence** — proved. `C12_expression`, `C12_si` (`C_Units.v`).
Proved for all expression trees; C12_si uses an independent SI table.

**C13 Malformed unit strings are rejected** — refuted, with partial results. `C13_interpreted_refuted`, `C13_bounds_refuted`, `C13_unknown_partial`, `C13_flat_partial` (`C_Units.v`).
Refuted: kg(m) is read as g; empty string, leading operator, empty parentheses are UB; foo converts to foo. Partial: unknown symbols and all parenthesis-free strings.

**C14 Built-in derived units have their SI dimensions** — refuted, with partial results. `C14_table_refuted`, `C14_table_partial` (`C_Units.v`).
Refuted: T, tesla and gauss are Wb*m2 instead of Wb/m2. Partial: all other 225 entries against an independent table.

**C15 Filter, set and index helpers implement their set-theoretic meaning** — proved. `C15_index`, `C15_indexfn`, `C15_filter`, `C15_sets`, `C15_union`, `C15_extract`, `C15_range`, `C15_sum` (`C_Algorithms.v`).
Proved for all containers, predicates and positive-step integer ranges.

**C16 A database never holds two species with the same name nor two elements with the same symbol** — proved. `C16_database`, `C16_add`, `C16_add_total` (`C_System.v`).
All histories of addElement/addSpecies/clear calls from an empty database; failed calls leave the database unchanged as in the code.

**C17 Loading a database document terminates and keeps definition-before-use order** — refuted, with partial results. `C17_order_partial`, `C17_terminates_partial`, `C17_cyclic_partial`, `C17_refuted`, `C17_database_partial` (`C_DatabaseYaml.v`).
Refuted: two species formed from each other (or one formed from itself) make the parser recurse without end; the model diverges for every amount of fuel. C17_terminates_partial: every other document is loaded (or rejected) with a recursion no deeper than the number of species, more fuel changing nothing; C17_cyclic_partial: a document with such a cycle is never loaded; C17_order_partial: whenever loading succeeds, every species is there once, after its reactants, with its elements, and is what the first node with its name says; C17_database_partial: the database has the same species, none renamed, and all elements of theirs. The tree of nodes is what yaml-cpp gives; the text of the document is not modelled.

**C18 Species list queries select exactly the documented species** — refuted, with partial results. `C18_names`, `C18_formulas`, `C18_substances`, `C18_state`, `C18_elements`, `C18_elements_of`, `C18_tags`, `C18_without_tags_refuted`, `C18_without_tags_partial` (`C_System.v`).
Every query is characterised by an inductive selection relation. withoutTags with two or more tags keeps species that carry some of the tags: refuted.

**C19 Global species numbering is consistent with phases** — proved. `C19_find`, `C19_inverse`, `C19_offsets`, `C19_by_name` (`C_System.v`).
Index to phase, phase to offset, and global to local species, in both directions, including empty phases and out-of-range indices.

**C20 The formula matrix conserves elements and charge** — refuted, with partial results. `C20_entries`, `C20_mass_refuted`, `C20_mass_partial` (`C_System.v`).
Entries and dimensions proved for all systems. Mass balance refuted when a composition lists an element twice; proved otherwise.

**C21 Species and phase names are unique in a chemical system and agree with its phases** — refuted, with partial results. `C21_names_refuted`, `C21_phase_names_refuted`, `C21_names_partial` (`C_System.v`).
Refuted by makeunique's flaw and because phases keep the old species names; the partial theorem says what does hold.

**C22 Phase construction handles every species selection safely** — refuted, with partial results. `C22_phase_refuted`, `C22_phase_partial`, `C22_with_species_partial` (`C_System.v`).
Refuted: an empty selection dereferences the first species of an empty list. All other cases proved.

**C23 Memoized functions are observationally equal to the original** — refuted, with partial results. `C23_memoize`, `C23_last_refuted`, `C23_last_partial`, `C23_last_no_failure_partial`, `C23_ref_refuted`, `C23_ref_partial`, `C23_ref_nondefault_partial` (`C_Memo.v`).
memoize proved for all functions and schedules. memoizeLast refuted for failing functions; memoizeLastUsingRef refuted under switching; both proved otherwise.

**C24 Model parameters are shared by copies and isolated by clones** — refuted, with partial results. `C24_set`, `C24_assign`, `C24_new`, `C24_by_id`, `C24_copy_refuted`, `C24_default_refuted`, `C24_current_partial` (`C_Memo.v`).
Handles: proved for all programs. Evaluation of memoized models refuted (copies share remembered parameter values; default arguments), proved for all other histories.

**C25 A chemical state is always physically valid** — refuted, with partial results. `C25_amounts_refuted`, `C25_temperature_pressure_partial`, `C25_debug_partial`, `C25_release_partial`, `C25_rejected`, `C25_frame`, `C25_read_back` (`C_State.v`).
Refuted in the default release build: amounts are checked by asserts only, so negative or missing amounts are accepted. Partial: temperature and pressure always, all in debug builds, release builds with non-negative input; frame, rejection and read-back theorems hold in every build.

**C26 Element amounts are linear in species amounts and additive over phases** — proved. `C26_linear`, `C26_phases`, `C26_defined`, `C26_order` (`C_State.v`).
Proved: linear, grouped by phase with first-match coefficients, and independent of the order of calls on different species.

**C27 Mole fractions of a phase are a probability distribution** — proved. `C27_distribution`, `C27_empty`, `C27_phase`, `C27_jacobian`, `C27_jacobian_zero`, `C27_ln_jacobian` (`C_State.v`).
Proved, including the exact finite difference behind the Jacobian.

**C28 Phase properties serialize and deserialize without loss or overlap** — proved. `C28_stream`, `C28_system`, `C28_phase`, `C28_sizes`, `C28_short` (`C_State.v`).
Proved for every list of scalars and arrays and for both property records; a short array is an unchecked read.

**C29 System properties are sums over phases** — proved. `C29_phases`, `C29_phase_mass`, `C29_totals`, `C29_standard` (`C_State.v`).
Proved for arbitrary standard and activity models as parameters; u = G0 + RT ln a is part of the record PhaseOk.

**C30 Equilibrium problem specifications stay internally consistent** — refuted, with partial results. `C30_evaluated`, `C30_names_refuted`, `C30_partial`, `C30_named_partial`, `C30_dimensions` (`C_Setup.v`, `C_Specs.v`).
Refuted only for names shared between a user's equation constraint and a chemical potential constraint; everything else, and evaluation of every constraint in order, is proved for all histories.

**C31 A rejected specification call has no effect** — refuted, with partial results. `C31_refuted`, `C31_partial` (`C_Specs.v`).
Refuted: an input is registered before the call is rejected. Partial: nothing else changes, and calls that add no input have no effect.

**C32 Equilibrium conditions set exactly the named input in SI units** — refuted, with partial results. `C32_components`, `C32_components_reached`, `C32_Eh_refuted`, `C32_partial`, `C32_start`, `C32_exclusive` (`C_Setup.v`, `C_Specs.v`).
Refuted: Eh ignores its unit. Partial: all other setters and Eh in volts; start amounts are exclusive and the last call wins.

**C33 Reactivity restrictions are last-call-wins per species and direction** — proved. `C33_last_call_wins`, `C33_exclusive`, `C33_others` (`C_Specs.v`).
Proved for all histories.

**C34 The optimization problem encodes element conservation and restrictions** — proved. `C34_conservation`, `C34_assembled`, `C34_bounds` (`C_Setup.v`).
Proved; the lower bound for non-negativity is the configured minimum amount epsilon, and upper bounds are also raised to it.

**C35 Temperature and pressure are read from the right place** — refuted, with partial results. `C35_refuted`, `C35_disagree_refuted`, `C35_partial` (`C_Setup.v`).
Refuted: a user's input named T or P is taken for temperature or pressure (the predictor and the evaluation then disagree). Partial: all other histories.

**C36 The first-order predictor is exact at the reference and affine in the conditions** — proved. `C36_reference`, `C36_affine`, `C36_conservation`, `C36_solved` (`C_Setup.v`).
Exactness at the reference, affinity with the stored slopes and preservation of every conserved component are proved.

**C37 Temporarily substituted parameters are restored** — refuted, with partial results. `C37_refuted`, `C37_partial`, `C37_substituted` (`C_Setup.v`).
Refuted: an evaluation that throws leaves input values in the parameters. Partial: evaluations that return; what the evaluation sees is proved as well.

**C38 Sensitivity queries address the right column** — refuted, with partial results. `C38_refuted`, `C38_partial` (`C_Setup.v`).
Refuted: an unknown name reads out of range and dudw/dudb accept any matrix. Partial: known names and the other setters.

**C39 Bilinear interpolation is exact, bounded and monotone in the data** — refuted, with partial results. `C39_refuted`, `C39_rejects_refuted`, `C39_partial`, `C39_monotone` (`C_Math.v`).
Refuted: with one abscissa and several ordinates the corner index wraps around; a one-point grid accepts every point. Partial: everything for grids of at least two by two; monotone in the data.

**C40 Lagrange interpolation reproduces the data and low-degree polynomials** — refuted, with partial results. `C40_refuted`, `C40_partial` (`C_Math.v`).
Refuted: the points used start at the node to the right, so near the end fewer than order + 1 are used. Partial: data at nodes, polynomials within the number of points used, ends.

**C41 Rational approximation respects the denominator bound and recovers exact fractions** — refuted, with partial results. `C41_refuted`, `C41_exact_refuted`, `C41_partial`, `C41_clean` (`C_Math.v`).
Refuted: 0.41 with limit 4 gives 1/2; above one the limit applies to the numerator and the denominator may be zero. Partial: exact recovery and no better fraction on the same side.

**C42 Rank-one diagonal updates invert the updated matrix** — proved. `C42_proved`, `C42_complete` (`C_Matrix.v`).
Proved over any field, with the converse that a zero pivot means a singular matrix on the way.

**C43 Compensated dot products and residuals equal their exact value in exact arithmetic** — proved. `C43_dot`, `C43_residual` (`C_Math.v`).
Proved for every rounding function, with exact double arithmetic.

**C44 Cubic roots solve the cubic** — refuted, with partial results. `C44_refuted`, `C44_partial`, `C44_exact`, `C44_ascending`, `C44_descending_refuted` (`C_Roots.v`).
Refuted: the tolerance on the discriminant is absolute. Partial: exact otherwise, and within the tolerance the roots are those of a cubic perturbed by k with k^3 bounded; real roots come in ascending, not descending, order.

**C45 Newton iterations return points satisfying the tolerance** — refuted, with partial results. `C45_refuted`, `C45_partial`, `C45_affine` (`C_Math.v`).
Refuted: the point is changed after the tolerance is checked. Partial: the previous point satisfies it and the number of iterations is bounded.

**C46 Reaction thermodynamic models satisfy the Gibbs-Helmholtz relation** — proved. `C46_gibbs_helmholtz`, `C46_volume`, `C46_pressure_correction`, `C46_reference` (`C_Thermo.v`).
Constant lg K, van't Hoff, GEMS and PHREEQC models over the reals: enthalpy is G - T dG/dT for every T > 0, dG/dP is the reaction volume, a chained pressure correction keeps both, reference values are returned. The reaction volume is an argument and is held fixed.

**C47 Standard thermodynamic models are thermodynamically consistent** — refuted, with partial results. `C47_maier_kelley_partial`, `C47_holland_powell_rigid_partial`, `C47_volume_partial`, `C47_every_compressible_solid`, `C47_refuted` (`C_Thermo.v`).
Refuted for the Holland-Powell model with kappa0 different from zero: the pressure integral starts at zero pressure instead of the reference pressure, so dH/dT at the reference pressure is not the returned heat capacity (shown for every such solid). Proved for Maier-Kelley and for Holland-Powell with kappa0 = 0; dG/dP = V proved for all.

**C48 Mineral HKF heat capacity is the temperature derivative of enthalpy across phase transitions** — refuted, with partial results. `C48_partial`, `C48_refuted`, `C48_volume_refuted` (`C_Mineral.v`).
Refuted: below 298.15 K the returned heat capacity is zero, and just below a transition with a pressure-dependent boundary the volume change is subtracted without having been added. Proved above 298.15 K for transitions with pressure-independent boundaries, with entropy and Gibbs energy relations too.

**C49 Formation reactions propagate reactant properties linearly** — refuted, with partial results. `C49_partial`, `C49_constant`, `C49_incomplete`, `C49_order`, `C49_gibbs_helmholtz`, `C49_stoichiometry`, `C49_refuted`, `C49_volume_dropped` (`C_Formation.v`).
Refuted: withProductStandardVolume ignores its argument and uses zero (C49_volume_dropped: for every argument). Partial: Gibbs energy, enthalpy and the volume of a volume model are as promised for every reaction, the order of reactants does not matter, the Gibbs-Helmholtz relation carries over to the product, coefficients are found by name, a constant equilibrium constant gives -RT ln K (C49_constant), and incomplete reactions are rejected.

**C50 Water property derivatives follow from the Helmholtz function** — refuted, with partial results. `C50_any_eos`, `C50_wagner_pruss_partial`, `C50_hgk_partial`, `C50_refuted`, `C50_pressure_partial`, `C50_density_solver` (`C_Water.v`).
Refuted: waterPressureWagnerPruss evaluates the Haar-Gallagher-Kell equation (WaterUtils.cpp:131-134). Partial: with the Wagner-Pruss equation all identities hold wherever the density solves the equation of state and has nonzero temperature derivative (densityTT divides by it, which is undefined at the density maximum); with Haar-Gallagher-Kell all identities hold except for the two second derivatives of density that use helmholtzTDD. The density solver is covered by C50_density_solver: what it returns is the Newton update of an iterate that satisfies the tolerance, not that iterate.

**C51 Cubic equation of state results depend only on the conditions** — refuted, with partial results. `C51_energies_partial`, `C51_refuted`, `C51_stale_refuted` (`C_CubicEOS.v`).
Refuted: the residual volume and its derivatives are computed as V - Vres with the residual volume of the evaluation before (CubicEOS.cpp:448-450), so that a repeated evaluation returns zero (C51_refuted); an evaluation with no substance, or with a phase that is not the expected one, keeps values of the evaluation before (C51_stale_refuted). C51_energies_partial: the residual Gibbs energy, enthalpy, heat capacities, fugacity coefficients and activities depend on the conditions alone.

**C52 Cubic equation of state residual properties are mutually consistent** — proved. `C52_alpha`, `C52_peng_robinson`, `C52_border`, `C52_consistent` (`C_CubicEOS.v`).
C52_alpha: all four alpha functions. C52_consistent: over the reals, for every number of species and any consistent interaction parameters, at every point where the attraction parameters are positive, the discriminant is not within the tolerance of zero and the volume exceeds the co-volume; any phase identification method, as long as the phase stays identified as the expected one nearby. The derivative of the selected root is proved from the continuity of Cardano's formulas.

**C53 Redlich-Kister activity coefficients satisfy Gibbs-Duhem** — proved. `C53_gibbs_duhem`, `C53_excess` (`C_Activity.v`).
Proved over the reals for all parameters and compositions in (0,1).

**C54 Aqueous mixture indices partition the species and ionic strengths follow from molalities** — proved. `C54_partition`, `C54_strengths`, `C54_order`, `C54_builtin` (`C_Aqueous.v`).
Proved for every species list for which construction succeeds; dissociation reactions are assumed to have non-negative ion coefficients, as the built-in ones do (C54_builtin).

**C55 Aqueous properties report pH and ionic strength with their textbook meaning** — refuted, with partial results. `C55_strength_partial`, `C55_pH_partial`, `C55_refuted`, `C55_pH_refuted` (`C_AqueousProps.v`).
Refuted: pH() returns the natural logarithm of the activity of H+ (C55_pH_refuted; C55_pH_partial says for which states this is the pH), and both ionic strengths are always zero because the aqueous state is never updated (C55_strength_partial gives when that is right).

**C56 Activity models depend only on their own phase** — refuted, with partial results. `C56_refuted`, `C56_duan_sun_refuted`, `C56_partial` (`C_Aqueous.v`).
Refuted: the Rumpf and Duan-Sun models keep the ion indices of the first mixture of the process in static variables (C56_refuted, C56_duan_sun_refuted with two brines). C56_partial: true while all phases evaluated have the same species list.

**C57 Built-in dissociation reactions are balanced** — proved. `C57_builtin`, `C57_history`, `C57_append`, `C57_coefficient` (`C_Registry.v`).
Proved for the built-in table (170 reactions, checked by evaluation) and for all histories of append and reset; formulas of complexes are assumed to list each element once, as every formula read from text does (C05_parsed). Nothing checks that appended reactions are balanced.

**C58 Critical property registry keeps names unambiguous** — refuted, with partial results. `C58_builtin`, `C58_refuted`, `C58_partial`, `C58_last`, `C58_rejected`, `C58_reported_refuted`, `C58_positive` (`C_Registry.v`).
Refuted: overwrite replaces only the first of several substances with a common name (WATER and AMMONIA), leaving one name for two substances. C58_partial: names stay unambiguous while no substance overwrites two; C58_last: the last stored substance is found under every given name after any history; C58_reported_refuted: the name reported by a substance need not find it, since suffixes are stripped again.

**C59 Model parameters survive serialization** — refuted, with partial results. `C59_refuted`, `C59_hollandpowell_refuted`, `C59_parameters_partial`, `C59_evaluation_partial`, `C59_models_partial` (`C_Yaml.v`).
Refuted twice: HKF writes Tmax but does not read it; HollandPowell with kappa0 = 0 loses alpha0, kappa0p, kappa0pp and numatoms. C59_parameters_partial: the parameters of all other models survive, and exactly which HKF and HollandPowell parameters do; C59_evaluation_partial: the lost fields are not used by the models, so that the properties are the same; C59_models_partial: whole models, and a model without serializer (chained or given by a function) cannot be read back. How yaml-cpp prints and reads one number is the hypothesis codec.

**C60 Hydrate notation adds its multiple** — refuted, with partial results. `C60_hydrate_refuted`, `C60_hydrate_partial` (`C_Formula.v`).
Refuted: "NaCl.2H2O" gives Cl 0.2. Partial: recognised only after a character that is not part of an element, number or group.

**C61 Equality of reaction equations is an equivalence relation** — refuted, with partial results. `C61_equality_refuted`, `C61_equality_partial` (`C_Chem.v`).
Refuted: equality with tolerance epsilon is not transitive. Partial: reflexive, symmetric, exact meaning.

**C62 Element lists of the form number:symbol are summed** — proved. `C62_pairs` (`C_Chem.v`).
Proved for all lists of well-formed words.

**C63 Reading a coefficient:species list is safe** — refuted, with partial results. `C63_reaction_refuted`, `C63_reaction_partial` (`C_Chem.v`).
Refuted: a word without colon reads pair[1] out of range (ParseUtils.cpp:216). Partial: well-formed lists.

**C64 Convertibility of units is an equivalence** — refuted, with partial results. `C64_transitive_refuted`, `C64_equivalence_partial` (`C_Units.v`).
Refuted: degC ~ K ~ (K) but not degC ~ (K). Partial: reflexive, symmetric, transitive without bare temperature names.

**C65 Renaming a duplicate species in a database changes nothing but its name** — refuted, with partial results. `C65_rename_refuted`, `C65_rename_partial` (`C_System.v`).
Refuted for species whose aggregate state is read from the name; proved for stored states and fresh names.

**C66 A phases generator creates one single-species phase per selected species** — refuted, with partial results. `C66_generator_refuted`, `C66_generator_partial` (`C_System.v`).
Refuted for species names with spaces (the name is split as a list); proved for names without white space.

**C67 The phases of a system do not depend on the order in which they are declared** — proved. `C67_order`, `C67_speciation` (`C_System.v`).
Phases up to order; the species of a phase declared without species or elements are characterised exactly.

**C68 The aggregate state of a species is read correctly from its name** — proved. `C68_suffix`, `C68_charge`, `C68_print_parse` (`C_System.v`).
Suffixes, charged names and print/parse.

**C69 A rejected evaluation of properties leaves them unchanged** — refuted, with partial results. `C69_unchanged_refuted`, `C69_later_phases_partial` (`C_State.v`).
Refuted: update writes temperature, pressure and earlier phases before a later phase is rejected. Partial: phases after the failing one keep their values.

**C70 An imposed constraint equates the named quantity with its own input** — proved. `C70_properties`, `C70_potentials` (`C_Specs.v`).
Proved for arbitrary activity and standard models as parameters.

**C71 Derivatives collected during a calculation belong to the seeded variable** — proved. `C71_columns` (`C_Setup.v`).
Proved for all sequences of evaluations.

**C72 Hessian matrices are those of the given properties** — refuted, with partial results. `C72_exact_refuted`, `C72_approximation_refuted`, `C72_diagonal_partial`, `C72_partially_partial` (`C_Setup.v`).
Refuted: the exact Hessians ignore the given properties and the approximate one is zero. Partial: the diagonal one.

**C73 Sensitivities of the solution obey the chain rule** — proved. `C73_chain_rule`, `C73_initial_state` (`C_Setup.v`).
Proved.

**C74 Amounts of explicit titrants are amounts of titrants** — refuted, with partial results. `C74_refuted`, `C74_partial` (`C_Setup.v`).
Refuted: unknown temperature and pressure are returned among the amounts. Partial: both known.

**C75 A predicted state reports the conditions it was predicted for** — refuted, with partial results. `C75_refuted`, `C75_partial` (`C_Setup.v`).
Refuted: the recorded conditions are those of the reference. Partial: exactly which conditions are recorded.

**C76 Rejected solver options have no effect** — refuted, with partial results. `C76_refuted`, `C76_partial` (`C_Setup.v`).
Refuted: options are stored before they are checked. Partial: acceptance and accepted options.

**C77 The objective gradient is the gradient of the objective** — refuted, with partial results. `C77_refuted`, `C77_partial` (`C_Setup.v`).
Refuted: the value has no term for implicit titrants although the gradient has. Partial: the entries of the gradient.

**C78 Solving with LU factors solves every consistent system** — proved. `C78_solve`, `C78_trsolve`, `C78_basic`, `C78_rows` (`C_Matrix.v`).
Proved over any field; the decomposition and triangular solves of Eigen are assumed.

**C79 Finite differences are exact for the functions their order promises** — proved. `C79_scalar`, `C79_affine`, `C79_quadratic`, `C79_matrix` (`C_Math.v`).
Proved.

**C80 An LU object holds the decomposition asked for last** — refuted, with partial results. `C80_cache_partial`, `C80_cache_refuted`, `C80_empty_refuted`, `C80_empty_partial`, `C80_weighted` (`C_LU.v`, `C_Matrix.v`).
Refuted: emptiness is inverted, and a matrix without entries is never decomposed by a new object. Partial: everything for matrices with columns; weighted factors decompose the unweighted matrix.

**C81 Standard models return the configured formation properties at the reference conditions** — refuted, with partial results. `C81_maier_kelley_partial`, `C81_rigid_partial`, `C81_compressible_partial`, `C81_refuted` (`C_ThermoRef.v`).
Refuted for Holland-Powell with kappa0 different from zero (pressure integral from zero). Proved for Maier-Kelley and kappa0 = 0, and the deviation is given otherwise.

**C82 The reported standard entropy is the temperature derivative of the standard Gibbs energy** — refuted, with partial results. `C82_partial`, `C82_refuted` (`C_ThermoRef.v`).
Refuted with the table values of water vapour: (H0-G0)/T uses formation values. Partial: for Maier-Kelley it holds exactly when Hf - Gf = Tr Sr.

**C83 The heat capacity of a species defined by a formation reaction is the derivative of its enthalpy** — refuted, with partial results. `C83_refuted`, `C83_partial` (`C_Formation.v`).
Refuted: the returned heat capacity is always zero. Partial: the derivative of the enthalpy is given for every reaction.

**C84 Properties of a species follow every parameter they depend on** — refuted, with partial results. `C84_partial`, `C84_switched_off`, `C84_refuted` (`C_SpeciesMemo.v`).
Refuted: the memoized product does not see changes of its reactants' parameters. Partial: holds when the reaction's own parameters cover what changes of the reactants (hence for species without reaction), and always with memoization switched off. The first-call comparison with default values is in C09's model, not here.

**C85 A species is constructed from attributes exactly when they are complete** — proved. `C85_attributes` (`C_Attribs.v`).
Proved; the standard model made from the attributes is not part of this model.

**C86 The Haar-Gallagher-Kell equation of water reports the derivatives of its Helmholtz function** — refuted, with partial results. `C86_partial`, `C86_TDD_refuted`, `C86_TTT_refuted`, `C86_refuted` (`C_Helmholtz.v`).
Refuted: helmholtzTDD and helmholtzTTT are wrong (three slips: the missing factor x in x_rrt of the second part, h/(t*t) instead of 2h/(t*t) in its third temperature derivative, psi_r*theta_r instead of psi_r*theta_t in the fourth part). Partial: all eight other fields are the derivatives.

**C87 The Wagner-Pruss equation of water reports the derivatives of its Helmholtz function** — proved. `C87_wagner_pruss`, `C87_partial_derivatives` (`C_Helmholtz.v`).
Proved for all positive temperatures and densities except the critical density 322 kg/m3, where the non-analytic terms divide by zero.

**C88 Dielectric constant of water and Born functions are consistent** — proved. `C88_dielectric`, `C88_born`, `C88_wagner_pruss` (`C_Electro.v`).
Proved wherever the coefficients of the polynomial in density and the dielectric constant do not vanish (the code divides by them).

**C89 HKF standard properties of solutes and of water satisfy the identities of thermodynamics** — proved. `C89_solute`, `C89_entropy`, `C89_wagner_pruss`, `C89_reference`, `C89_water` (`C_HKF.v`).
Proved. The identities hold with entropy (H0 - G0 - k)/T where k = Hf - Gf - Tr Sr (for water Htr - Gtr - Ttr Str): C89_entropy shows that the entropy (H0-G0)/T reported by the library is the right one exactly when k = 0, which formation data do not satisfy. The g function jumps at the borders of its regions and is undefined at density 1000 exactly; these are excluded by the hypothesis inside. Tmax is not used by the code.

**C90 Fugacity coefficients are partial molar residual Gibbs energies** — refuted, with partial results. `C90_deviation_partial`, `C90_equal_covolumes_partial`, `C90_refuted` (`C_CubicEOS.v`).
Refuted for mixtures of species with different co-volumes: CubicEOS.cpp:471 has betak = bbar[k]/b[k]*beta, which is beta, where bbar[k]/bmix*beta is meant. C90_deviation_partial gives the exact difference (b_k/bmix - 1)(Z - 1); C90_equal_covolumes_partial proves the property for equal co-volumes, in particular for pure fluids.

**C91 Residual volume of a cubic equation of state** — refuted, with partial results. `C91_first_partial`, `C91_refuted`, `C91_temperature_partial`, `C91_heat_capacities_partial` (`C_CubicEOS.v`).
Refuted: the first evaluation returns the molar volume instead of the residual volume (C91_refuted); C91_first_partial and C91_temperature_partial: with the ideal volume subtracted the identity holds, and the reported derivatives are right in a first evaluation.

**C92 The molar volume selected by a cubic equation of state exceeds the co-volume** — refuted, with partial results. `C92_vapor_partial`, `C92_van_der_waals_partial`, `C92_refuted` (`C_CubicEOS.v`).
Refuted: a liquid far above its critical temperature selects a negative root, and the logarithm of a negative number is taken (C92_refuted, Redlich-Kwong at 100 times the critical temperature). C92_vapor_partial: always true of vapours with simple roots; C92_van_der_waals_partial: true of van der Waals liquids too.

**C93 An element added to the element registry is found afterwards** — refuted, with partial results. `C93_refuted`, `C93_partial`, `C93_builtin` (`C_Registry.v`).
Refuted: an element appended under a symbol already in use is silently shadowed by the old one; also five superheavy elements have molar mass zero (C93_builtin). C93_partial: new symbols are found and all other queries are unchanged.

**C94 Redlich-Kister excess enthalpy follows from the excess Gibbs energy** — refuted, with partial results. `C94_refuted`, `C94_partial` (`C_Activity.v`).
Refuted: the excess Gibbs energy is returned as the excess enthalpy. C94_partial: with the temperature-independent parameters of this model the returned enthalpy is consistent exactly when the excess Gibbs energy is zero.

**C95 Ideal activity models satisfy Gibbs-Duhem** — refuted, with partial results. `C95_ideal_partial`, `C95_aqueous_partial`, `C95_refuted` (`C_Activity.v`).
Refuted for the ideal aqueous model: the water activity is ln xw while solutes use molalities. C95_aqueous_partial gives the exact residual and shows that it vanishes only without solutes; C95_ideal_partial: true of ideal solutions and gases.

**C96 Debye-Hueckel activities of water and ions are consistent** — refuted, with partial results. `C96_residual_partial`, `C96_salt_refuted`, `C96_refuted` (`C_Activity.v`).
Refuted: the water activity adds 2I/z^2 instead of the molality of each ion. C96_residual_partial gives the exact residual for every solution of ions; C96_salt_refuted: it never vanishes for a 1:1 salt and the limiting law. Solutions with neutral solutes are not covered by the residual theorem.

**C97 HKF activities of water and solutes are consistent** — refuted, with partial results. `C97_partial`, `C97_neutral_refuted`, `C97_refuted` (`C_Activity.v`).
Refuted: the activity of water is 1 when the only solutes are neutral (C97_neutral_refuted). C97_partial: true of every electroneutral solution of ions, with the exact residual in terms of the total charge.

**C98 Activity properties do not depend on what was computed before** — refuted, with partial results. `C98_ideal_partial`, `C98_refuted`, `C98_stale_refuted`, `C98_absent_refuted`, `C98_activities_partial` (`C_Activity.v`).
Refuted: Redlich-Kister, Debye-Hueckel and HKF leave excess properties as they were, and HKF leaves the coefficients of absent ions (C98_stale_refuted, C98_absent_refuted). C98_ideal_partial: ideal models overwrite everything; C98_activities_partial: activities are always overwritten by Redlich-Kister and Debye-Hueckel, and by HKF when all amounts are positive.

**C99 Debye-Hueckel parameters are found regardless of table order** — refuted, with partial results. `C99_refuted`, `C99_partial`, `C99_builtin` (`C_Activity.v`).
Refuted: a user table with two keys for one species. C99_partial: true when no two keys are the same substance, as in the built-in tables (C99_builtin, checked by evaluation).

**C100 Models for a dissolved species replace only that species** — proved. `C100_solute`, `C100_ions` (`C_Aqueous.v`).
Proved for chains after any base model; for the models that use ion indices under the hypothesis that construction of the base succeeded.

**C101 Aqueous molalities are amounts per kilogram of water** — proved. `C101_species`, `C101_element` (`C_AqueousProps.v`).
Proved over every object reached from construction by any updates; amounts of the formula elements through the system's formula matrix.

**C102 Aqueous properties do not depend on how they were updated** — proved. `C102_agree` (`C_AqueousProps.v`).
Proved with an arbitrary echelon form, standard models and activity models.

**C103 pE and Eh have their textbook meaning** — refuted, with partial results. `C103_reversed_partial`, `C103_refuted`, `C103_zero_partial` (`C_AqueousProps.v`).
Refuted: the sign is reversed. C103_reversed_partial: for every echelon form and every half reaction the code's pE is plus the electron's potential over RT ln 10 and Eh the same over F; C103_zero_partial: it agrees with the textbook exactly when that potential is zero. The echelon form of Optima is any matrix with the defining property of an echelon form. alkalinity() always throws.

**C104 Identification of fluid phases** — refuted, with partial results. `C104_one_partial`, `C104_three_partial`, `C104_volume`, `C104_refuted`, `C104_compressibility`, `C104_activity` (`C_PhaseId.v`).
M_PhaseId, M_CubicEOS. C104_one_partial: with one root the accepted phase is decided by the spinodal volumes and the error branch is unreachable (the polynomial solver is assumed exact for that quartic, which is proved to be the stationarity condition). C104_three_partial: least residual Gibbs energy, when the liquid root exceeds the co-volume. C104_refuted: above the critical temperature the smallest root can be negative, its energy is not a number, the comparison is false and the liquid with negative volume is accepted while the vapour gets exp(100). C104_volume, C104_compressibility (always fails), C104_activity.

**C105 Each dissolved species gets its own Debye-Hueckel parameters** — proved. `C105_parameters`, `C105_limiting_law` (`C_Chain.v`).
C105_parameters: every species of every phase, for tables with distinct keys (C99_builtin: the built-in ones are); C105_limiting_law: ions get -A z^2 sqrt(I), neutral species keep the default slope 0.1, which the documentation of the limiting law does not mention.

**C106 Chained activity models are evaluated in order** — proved. `C106_order`, `C106_solute`, `C106_last` (`C_Chain.v`).
C106_order determines the chain completely by recursion on its length; C106_solute and C106_last are about a base model followed by Setschenow models, for every base model. The activity of water is left as the base model gave it, so that a chain is in general not consistent in the sense of Gibbs-Duhem.

**C107 Spycher-Reed gas properties are thermodynamically consistent** — proved. `C107_potential`, `C107_fugacity`, `C107_gibbs_duhem`, `C107_accepts`, `C107_repeated` (`C_Gases.v`).
M_Gases. C107_potential for every accepted phase, composition, T > 0 and P > 0; C107_fugacity and C107_gibbs_duhem for phases of species with distinct formulas; C107_accepts; C107_repeated: of two species with one formula the second keeps the coefficient stored before the evaluation.

**C108 Fugacity coefficients and volume of the Spycher-Pruess-Ennis model** — refuted, with partial results. `C108_volume_partial`, `C108_refuted`, `C108_water_refuted` (`C_CO2.v`).
M_Gases. C108_refuted: the excess volume subtracts R T / P with R in bar cm3 and P in Pa, ten times the ideal volume. C108_water_refuted: in every state of the range the coefficient of water is too small, since the code writes ln((v + bH2O)/v) where the mixing rule gives ln((v + bmix)/v). C108_volume_partial: the volume is the one of least Gibbs energy among all volumes above the co-volume (every real root is shown to exceed it in the range), the coefficient of carbon dioxide is right, the exact deviations of the other two, and the six excess properties that are left as they were. Left out: discriminants within 100 epsilon of zero (hypothesis apart), where C44 says what cardano gives.

**C109 The Pitzer model satisfies the Gibbs-Duhem equation** — refuted, with partial results. `C109_equal_charges_partial`, `C109_triplet_refuted`, `C109_mixing_refuted`, `C109_refuted` (`C_Pitzer.v`).
M_Pitzer. C109_refuted, with two independent causes: C109_triplet_refuted for every dilution of sodium sulfate with carbon dioxide (the residual is computed; the ions' coefficients lack the zeta term) and C109_mixing_refuted for sodium and calcium chloride (J0 and J1 are step functions while their derivatives enter the osmotic coefficient). C109_equal_charges_partial: the equation holds for every list of species whose ions of one sign have equal charges and that contains none of the three triplets with a zeta parameter, for every path of compositions. The Debye-Hueckel parameter Aphi, interpolated by the code in a table, is an arbitrary function of temperature and pressure that may fail.

**C110 The Pitzer model can be evaluated in every solution of its species** — refuted, with partial results. `C110_ions_partial`, `C110_one_sign_refuted`, `C110_refuted`, `C110_strong_refuted` (`C_Pitzer2.v`).
M_Pitzer. C110_refuted with carbon dioxide in water. C110_one_sign_refuted: for every list without cations every evaluation subtracts one from an unsigned size and reads beyond the arrays, and no evaluation succeeds for a list without anions; C110_strong_refuted: beyond argument 10000 of the J tables an evaluation with ions of unequal charge throws. C110_ions_partial: with a cation, an anion and an ionic strength within the tables every evaluation succeeds.

**C111 Pitzer activities do not jump** — refuted, with partial results. `C111_between_partial`, `C111_equal_charges_partial`, `C111_jump_refuted`, `C111_refuted` (`C_Pitzer2.v`).
M_Pitzer. C111_jump_refuted: for every positive Debye-Hueckel parameter, dilutions of sodium and calcium chloride have a jump in the activity of water where 24 A sqrt(I) = 9.5, all evaluations nearby succeeding; the tables of J0 and J1 are read without interpolating between their points. C111_between_partial: continuous wherever no argument is a point of the tables; C111_equal_charges_partial: always continuous if the ions of one sign have equal charges.

**C112 The Pitzer model has the right limit at infinite dilution** — proved. `C112_limiting_law` (`C_Pitzer3.v`).
M_Pitzer. For every list with water, a cation and an anion and every proportion of the solutes; the table-driven terms of unequal charges are shown to vanish near zero strength.

**C113 The Pitzer model does not depend on how formulas are written** — refuted, with partial results. `C113_tables_partial`, `C113_salt_partial`, `C113_sulfate_refuted`, `C113_refuted` (`C_Pitzer4.v`).
M_Pitzer. C113_refuted: SO4-2 instead of SO4-- drops the interactions of carbon dioxide with sulfate; C113_sulfate_refuted gives the difference at every composition. beta0, beta1, beta2 and Cphi are looked up by elements and charge, theta, psi, lambda and zeta by text. C113_tables_partial: no difference if each formula is written the same or in ways absent from the tables; C113_salt_partial: none for a single salt in water.

**C114 Every second virial parameter of the Pitzer tables is used** — refuted, with partial results. `C114_hydroxide_refuted`, `C114_refuted`, `C114_sulfates_partial` (`C_Pitzer4.v`).
M_Pitzer. C114_hydroxide_refuted: the line of calcium and hydroxide (-5.72) never has an effect, for any list, condition and composition, since beta2 is only read when both charges are two. C114_sulfates_partial: each of the five other lines matters.

**C115 A database written as a document and loaded again is the same** — refuted, with partial results. `C115_rounded_partial`, `C115_exact_partial`, `C115_again_partial`, `C115_digits_refuted`, `C115_refuted`, `C115_formulas_refuted`, `C115_unreadable_refuted`, `C115_models_refuted` (`C_DatabaseOut.v`).
M_DatabaseOut on top of M_DatabaseYaml. C115_refuted, C115_digits_refuted: coefficients go through a text stream with six digits (0.8754321 is read back as 0.875432). C115_formulas_refuted: the suffix of a formula is removed again (FeS(b)(s), then FeS(b), then FeS). C115_unreadable_refuted: a formula that is only a suffix is written as nothing and cannot be loaded. C115_models_refuted: Holland-Powell parameters are lost if kappa0 is zero. C115_rounded_partial: otherwise everything survives and each coefficient is rounded to the nearest number of six digits; C115_exact_partial: exactly if no coefficient has more than six digits; C115_again_partial: what has been written once survives exactly. The documents themselves (text of YAML) are trees; numbers other than coefficients are assumed to be printed so that they are read back, as yaml-cpp does.

**C116 Databases of PHREEQC are loaded with the species and reactions they define** — refuted, with partial results. `C116_partial`, `C116_order_partial`, `C116_refuted`, `C116_dimer_refuted`, `C116_lost_refuted`, `C116_ordered_partial` (`C_Phreeqc.v`).
M_Phreeqc; the instance that PHREEQC fills when it reads a file is the input. C116_partial: loading never fails, and gives one species per name with the right identity. C116_order_partial: the reactions of all species are right exactly if the order is `Prepared`; C116_ordered_partial: enough is that every species comes after its reactants. C116_refuted, C116_dimer_refuted: createReactants takes the index of a reactant before the recursion that adds the reactant's own reactants, so (CO2)2 of databases/phreeqc/phreeqc.dat is formed from CO3-2. C116_lost_refuted: a phase with the name of a species (Cd(OH)2) is dropped.

**C117 Species of PHREEQC databases have the equilibrium constants of PHREEQC** — refuted, with partial results. `C117_partial`, `C117_refuted` (`C_Phreeqc.v`).
Built on C116 and the models of formation reactions. C117_refuted: the constant of 2CO2 = (CO2)2 in phreeqc.dat is off by that of CO2. C117_partial: phases always have the right constants if no species has their name, species if the order is suitable; properties are always computed, and master species have zero energies. The properties of water enter only the volumes and are arbitrary.

**C118 Properties of water of PHREEQC are derivatives of each other** — refuted, with partial results. `C118_partial`, `C118_vapour_refuted`, `C118_refuted`, `C118_limit_refuted` (`C_PhreeqcWater.v`).
M_PhreeqcWater. C118_partial: liquid water above saturation for which nothing is limited. C118_vapour_refuted: at every temperature up to the critical one and every pressure below saturation the density is constant and the compressibility is positive. C118_limit_refuted: temperatures above 350 degC are limited in some terms only, and above 647.096 K the results are not numbers, although the warning says that 350 degC is used. Logarithms of negative numbers and division by zero have unspecified values; the hypotheses of C118_partial exclude them.

**C119 Standard thermodynamic properties of a system are those of its models after every update** — refuted, with partial results. `C119_partial`, `C119_new_partial`, `C119_retry_refuted`, `C119_parameter_refuted`, `C119_refuted`, `C119_derived_partial` (`C_ThermoProps.v`).
M_ThermoProps: numbers carry a derivative, models may throw. C119_partial, C119_new_partial: right if parameters are constant, or if the conditions are new. C119_retry_refuted: T and P are stored before the models are evaluated, so that an update that threw, repeated at the same conditions, returns normally with stale data. C119_parameter_refuted: a changed parameter, or a derivative with respect to it, is not followed at the same conditions. C119_derived_partial: entropies and energies.

**C120 Names of charged species are understood in all documented notations** — refuted, with partial results. `C120_partial`, `C120_same_partial`, `C120_signed_refuted`, `C120_neutral_refuted`, `C120_accepted_refuted`, `C120_range_partial`, `C120_order_partial`, `C120_unclosed_partial`, `C120_refuted` (`C_Naming.v`).
M_Naming. C120_partial, C120_same_partial: Ca++, Ca+2 and Ca[2+], for all bases, charges and reachable maps. C120_signed_refuted: the documented Mg[+2] throws. C120_neutral_refuted: every name without - + [ is read out of range. C120_accepted_refuted: Ca[2] is read with charge +1; Na+1 is not an alternative of itself. C120_range_partial: the charge read from any name is an int. C120_unclosed_partial: a name with a bracket that is not closed is refused. C120_order_partial: the alternatives are listed once each in the order of strings.

**C121 Names of neutral aqueous species are understood in all documented notations** — proved. `C121_notations`, `C121_order`, `C121_same` (`C_Naming.v`).
M_Naming. Fully proved, for all base names without a suffix inside and all reachable maps. C121_order: they are listed once each in the order of strings.

**C122 The HKF model uses the radius of an ion whatever the notation of its name** — refuted, with partial results. `C122_partial`, `C122_others_partial`, `C122_estimates_partial`, `C122_groups_partial`, `C122_refuted` (`C_Naming.v`).
M_Naming (effective_radii, effectiveIonicRadius). C122_partial: every ion of the table in the three notations; C122_others_partial: others by charge, all positive. C122_refuted: Mg[+2] silently gets the radius 2.80 of unknown ions. C122_groups_partial: within a group of the periodic table heavier ions have larger radii, in all of these notations. C122_estimates_partial: radii of other ions are those of Cl-, NH4+ or rounded averages of the table, and grow with the charge.

**C123 A species read from a SUPCRT database has the elements, charge and parameters its document states** — refuted, with partial results. `C123_partial`, `C123_missing_refuted`, `C123_elements_refuted`, `C123_charge_refuted`, `C123_refuted` (`C_Supcrt.v`).
M_Supcrt (documents are trees of named nodes). C123_partial: every document whose nodes say everything and whose names are distinct is read as stated. C123_missing_refuted: a mineral node without energies (Dickite and 39 others of each shipped database) silently gets 999999 cal/mol. C123_elements_refuted: a missing or odd list of elements is read out of range. C123_charge_refuted: a solute without charge has charge 0 as a species and 999999 in its parameters.

**C124 Standard properties of species of SUPCRT databases are those of the equations of state, in SI units** — refuted, with partial results. `C124_solvent`, `C124_gas_partial`, `C124_range`, `C124_solute_partial`, `C124_volume_partial`, `C124_volume_refuted`, `C124_mineral_partial`, `C124_mineral_refuted`, `C124_refuted` (`C_SupcrtModels.v`).
M_SupcrtModels. C124_solvent, C124_gas_partial, C124_solute_partial, C124_mineral_partial: term by term against the models of the YAML databases (C89). C124_volume_refuted: the factor 1e-5 from J/bar to J/Pa is missing in the Born terms of the volume of solutes; C124_volume_partial gives the exact difference. C124_mineral_refuted: the integral of V dP of minerals is converted with a factor that is 3.8e-5 too large. C124_range: temperatures out of range are refused. The volume of gases is RT/P here and 0 in the YAML databases.

**C125 The volume of a gas phase is the derivative of its Gibbs energy with respect to pressure** — refuted, with partial results. `C125_supcrt_partial`, `C125_yaml_partial`, `C125_ideal_refuted`, `C125_refuted`, `C125_negative_refuted`, `C125_cubic_refuted` (`C_PhaseEnergy.v`).
M_PhaseEnergy (ChemicalPropsPhase over the reals, with the models of the other files). C125_supcrt_partial: gases of SUPCRT databases with the ideal and the Spycher-Reed models. C125_yaml_partial, C125_ideal_refuted: gases of the YAML databases have standard volume zero, so that the volume lacks RT/P: a phase of ideal gases has volume zero, at all conditions. C125_negative_refuted: with Spycher-Reed it is negative. C125_cubic_refuted: with a cubic equation of state it is right at the first evaluation and zero at the second.

**C126 The Gibbs energy of a phase is the sum of the chemical potentials of its species times their amounts** — refuted, with partial results. `C126_solution_partial`, `C126_gas_partial`, `C126_pure_partial`, `C126_mixing_refuted`, `C126_refuted`, `C126_entropy_refuted` (`C_PhaseEnergy.v`).
M_PhaseEnergy. C126_solution_partial, C126_gas_partial: the exact difference is RT times the mean of ln x, for gases plus RT ln(P/bar). C126_pure_partial: right for phases of one species. C126_mixing_refuted: wrong for every ideal solution of two or more species. C126_entropy_refuted: the entropy of ideal gases does not depend on the pressure.

**C127 A mechanism of a mineral reaction written as a text has the values in the text** — refuted, with partial results. `C127_text_partial`, `C127_catalyst_partial`, `C127_convert_partial`, `C127_quantity_partial`, `C127_refused_partial`, `C127_order_partial`, `C127_documented_refuted`, `C127_blank_refuted`, `C127_words_refuted`, `C127_numbers_refuted`, `C127_equality_refuted`, `C127_refuted` (`C_Mechanism.v`).
M_Mechanism (MineralMechanism, MineralCatalyst; numbers are decimal texts, 10^logk is real). C127_text_partial: every text with semicolons has the mechanism it describes, whatever the blanks, the units, the order and the number of its entries. C127_convert_partial: real values are converted as rational ones. C127_catalyst_partial, C127_quantity_partial: catalysts. C127_refused_partial: texts with an unknown entry are refused. C127_order_partial: catalysts keep the order of the text. C127_documented_refuted: both examples of the documentation, which have commas, throw. C127_blank_refuted: so does a blank after the last semicolon. C127_words_refuted: 'logk', 'p =' and 'a[]=1' read past the end of the words. C127_numbers_refuted: texts that are not numbers count as zero and superfluous units are dropped. C127_equality_refuted: operator== looks at the rate constant (the species) only.

**C128 Standard properties computed with the parameters of SUPCRTBL obey the laws of thermodynamics in SI units** — refuted, with partial results. `C128_fluid_partial`, `C128_heat_refuted`, `C128_mineral_partial`, `C128_pressure_refuted`, `C128_mineral_heat_refuted`, `C128_compressible_refuted`, `C128_solute_partial`, `C128_solute_units_partial`, `C128_entropy_refuted`, `C128_water_partial`, `C128_water_refuted`, `C128_refuted` (`C_Supcrtbl.v`).
M_Supcrtbl. C128_fluid_partial: fluids, all but the heat capacity. C128_heat_refuted: Cp stays in kJ/(mol*K), a thousandth of dH/dT, and Cv = Cp - R mixes units. C128_mineral_partial: minerals, with dG/dP and H - U a thousand times V and PV (C128_pressure_refuted); dG/dT = -S and dH/dT = Cp when there is no thermal expansion (C128_mineral_heat_refuted otherwise). C128_compressible_refuted: kappa is in kbar but the pressures in bar, so that minerals are a thousand times too compressible. C128_solute_units_partial: heat capacity and volume of solutes, name and charge. C128_solute_partial, C128_entropy_refuted: the entropy of solutes, in J/(mol*K), is passed on as if in cal/(mol*K). C128_water_partial, C128_water_refuted: the parameters of water are not used.

**C129 States are values: a copy has what the original has and does not share it** — refuted, with partial results. `C129_chemical_partial`, `C129_porous_partial`, `C129_no_copies_partial`, `C129_porous_refuted`, `C129_refuted` (`C_Copies.v`).
M_Copies: objects are pointers into memory; copies allocate. C129_chemical_partial: any program does with ChemicalState objects what it does with values (no sharing). C129_porous_partial: so it does with PorousRockState objects, but copies and assignments give the standard conditions and zero amounts (C129_porous_refuted). C129_no_copies_partial: without copies the classes behave the same.

**C130 A Phreeqc object has the species, elements and reactions of PHREEQC, and its reactions conserve the elements** — refuted, with partial results. `C130_elements_partial`, `C130_phases_partial`, `C130_from_phreeqc_partial`, `C130_reactions_partial`, `C130_conserved_partial`, `C130_valences_refuted`, `C130_twice_refuted`, `C130_refuted` (`C_PhreeqcObject.v`).
M_PhreeqcObject (the data of PHREEQC after a script is the input). C130_elements_partial: elements summed over their valences, charges and molar masses are those of PHREEQC's formulas. C130_from_phreeqc_partial: the species, gases, minerals and reactions are exactly those of PHREEQC, and the electron is added when a reaction has it. C130_phases_partial: phases partition the species. C130_reactions_partial: the matrix has the coefficients of the equations when species have different names. C130_conserved_partial: balanced reactions conserve elements summed over valences, and each row when no element is redox. C130_valences_refuted: H2S(g) counts its sulfur as S(6). C130_twice_refuted: a gas that is also in EQUILIBRIUM_PHASES is mistaken for the first of its name.

**C131 The properties of a Phreeqc object are those of the conditions set, and are consistent with the reactions of PHREEQC** — refuted, with partial results. `C131_history_partial`, `C131_scripts_partial`, `C131_mass_action_partial`, `C131_standard_partial`, `C131_volumes_partial`, `C131_coefficients_partial`, `C131_dry_refuted`, `C131_absent_refuted`, `C131_constants_refuted`, `C131_temperature_refuted`, `C131_gases_refuted`, `C131_refuted` (`C_PhreeqcState.v`).
M_PhreeqcState over the reals; constants, volumes, activity coefficients and the equation of state of PHREEQC are functions of the variables that the object sets (its own caches are not modelled: its source is not in the repository). C131_mass_action_partial: Gibbs energies and activities after set(T, P, n) satisfy the mass action equations of PHREEQC's activities and constants, for positive amounts. C131_history_partial: with water the state after set(T, P, n) does not depend on what was done before. C131_scripts_partial, C131_standard_partial, C131_volumes_partial, C131_coefficients_partial: scripts after scripts, standard properties, volumes of phases, activity coefficients and constants. C131_dry_refuted, C131_absent_refuted, C131_constants_refuted, C131_temperature_refuted, C131_gases_refuted: each of the other clauses fails.

**C132 An equilibrium calculation returns the state that the optimizer found at the given conditions, and nothing else of the calculation remains in it** — refuted, with partial results. `C132_result_partial`, `C132_problem_partial`, `C132_plain_partial`, `C132_seeded_partial`, `C132_unknown_partial`, `C132_columns_partial`, `C132_derivatives_partial`, `C132_from_state_partial`, `C132_from_state_refused_partial`, `C132_guess_partial`, `C132_start_partial`, `C132_failure_partial`, `C132_conservation_partial`, `C132_refuted`, `C132_failure_refuted`, `C132_again_refuted`, `C132_stale_refuted`, `C132_start_refuted`, `C132_inputs_refuted` (`C_Solve.v`).
M_Solve: numbers are pairs of value and derivative; the optimizer is any function from problem and start to requests, last state and success. C132_result_partial: the returned state. C132_problem_partial: the matrices, inputs, bounds and start given to the optimizer. C132_from_state_partial, C132_from_state_refused_partial: conditions from a state. C132_conservation_partial: elements and charge, at given T and P. C132_columns_partial, C132_derivatives_partial: second derivatives, right for inputs without derivatives. C132_plain_partial: given T and P stay without derivatives if the last evaluation wants none in the inputs. C132_seeded_partial, C132_unknown_partial: otherwise the last input (an unknown pressure) is left with derivative one in the state. C132_refuted, C132_again_refuted, C132_stale_refuted: every further calculation from such a state has the columns J(e_j + e_P). C132_guess_partial: T and P of the given state never matter. C132_start_partial, C132_start_refuted: the start can have too few unknowns. C132_failure_partial, C132_failure_refuted: what an error can change. C132_inputs_refuted: inputs that a state does not have are zero.

**C133 The HKF activity model finds its parameters exactly at the conditions of its tables, and they vary there as those of water do** — refuted, with partial results. `C133_covered`, `C133_bounds`, `C133_pressure`, `C133_temperature_refuted`, `C133_temperature_partial`, `C133_tabulated` (`C_HkfTables.v`).
Proved: exact region, bounds, tabulated values, monotonicity in pressure of A and bNaCl. Refuted: A and B rise with temperature (C133_temperature_refuted: at 250 bar A falls from 2.2948 at 375 C to 1.8509 at 400 C, because the table repeats the column of 500 bar there); proved from 500 bar on and up to 375 C at any pressure (C133_temperature_partial).

**C134 The saturation curve of water follows its equations up to the critical point** — refuted, with partial results. `C134_pressure`, `C134_pressure_rises`, `C134_liquid`, `C134_liquid_falls`, `C134_vapour_partial`, `C134_vapour_refuted`, `C134_liquid_positive_refuted` (`C_WaterSaturation.v`).
Proved: pressure and liquid density equal their equations, all claims of order. Refuted: the vapour density (C134_vapour_refuted): the code multiplies the exponent by Tc/T, which that equation does not have, so that the result is dc*(d/dc)^(Tc/T) for the density d of the equation and too low at every temperature under the critical one (C134_vapour_partial); and the density of the liquid is negative at low temperatures (C134_liquid_positive_refuted: at about 92 K).

**C135 Tables of progress have their values below their names** — refuted, with partial results. `C135_header_partial`, `C135_columns_partial`, `C135_aligned_partial`, `C135_printed_partial`, `C135_safe_partial`, `C135_rows_partial`, `C135_entries_partial`, `C135_separator_refuted`, `C135_inactive_refuted`, `C135_stuck_partial`, `C135_refuted` (`C_Outputter.v`).
M_Outputter (printing of numbers is the stream's). C135_header_partial: the three lines of the header. C135_columns_partial: the widths of a row. C135_aligned_partial: rows are aligned without separators or with short names. C135_printed_partial, C135_safe_partial, C135_rows_partial: when rows are printed, refused, and loops. C135_entries_partial: names of indexed entries differ. C135_separator_refuted: after a separator the values have the widths of other columns (the iterator over the entries does not skip separators). C135_inactive_refuted, C135_stuck_partial: values added while the output is off stay, and every later row fails. C135_refuted: the statement.

**C136 The species of a ThermoFun database are the substances of the file** — refuted, with partial results. `C136_species_partial`, `C136_mass_partial`, `C136_elements_partial`, `C136_total_partial`, `C136_negative_partial`, `C136_states_partial`, `C136_blind_refuted`, `C136_states_refuted`, `C136_undefined_refuted`, `C136_values_partial`, `C136_absent_partial`, `C136_derivatives_partial`, `C136_derivatives_refuted`, `C136_refuted` (`C_ThermoFun.v`).
Refuted: createSpecies never sets the aggregate state (the line is commented out) and a default-constructed Species leaves it uninitialised, so loading any non-empty file reads an unset value (C136_undefined_refuted); whatever the memory holds, the states of the file are not read (C136_blind_refuted, C136_states_refuted). The derivatives of the standard properties in T and P are dropped (C136_derivatives_refuted; C136_derivatives_partial says exactly when they are right). Proved for every content of the memory: names, formulas, elements without Zz, charges, molar masses, elements of the database, values and units of the properties, refusals. ThermoFun's parser and engine are parameters.

**C137 A Phreeqc object has the state that PHREEQC computed for the script** — refuted, with partial results. `C137_conditions_partial`, `C137_amounts_partial`, `C137_state_partial`, `C137_stale_refuted`, `C137_second_refuted`, `C137_both_refuted`, `C137_gone_refuted`, `C137_critical_partial`, `C137_positive_partial`, `C137_refuted` (`C_PhreeqcInitial.v`).
Refuted: the amount of a phase is its moles_x if positive and the moles of its unknown otherwise. The object itself writes moles_x of minerals, so if PHREEQC leaves it alone during the next script the amount of a mineral stays that of the first script (C137_stale_refuted, for all scripts; C137_second_refuted, a case); a gas that is in the assemblage too is counted twice (C137_both_refuted), and a gas whose phase is gone gets the amount of the assemblage (C137_gone_refuted). Proved: temperature, pressure within 1e-4 Pa per atm of 101325, aqueous amounts, order, the exact amounts in all cases (C137_amounts_partial), the whole state under the exact conditions (C137_state_partial), critical properties. PHREEQC's work on a script is an arbitrary function.

**C138 Phases with a cubic equation of state use the critical properties of their own species** — refuted, with partial results. `C138_given_partial`, `C138_refused_partial`, `C138_asserts_partial`, `C138_positive_partial`, `C138_table_partial`, `C138_elements_partial`, `C138_radon_refuted`, `C138_case_refuted`, `C138_refuted`, `C138_isomer_refuted`, `C138_mixed_refuted`, `C138_empty_refuted` (`C_CubicModel.v`).
Refuted: the table gives radon the symbol Ra, so Rn(g) is refused and Ra(g) gets radon's values (C138_radon_refuted); letter case is dropped from formulas, so Co(g) gets the values of CO and Cs2(g) those of CS2 (C138_case_refuted, C138_refuted); a substance that is not listed gets the values of another one with its formula (C138_isomer_refuted); only the first species is asked for its state (C138_mixed_refuted); no species is undefined (C138_empty_refuted). Proved for all registries: exactly what is accepted and given, refusals, the assertions of the equation; for the built-in table: positive values, every name of every line in any letter case, formulas of elements other than radon.

**C139 Debye-Hückel slope of the Pitzer model over temperature and pressure** — refuted, with partial results. `C139_covered`, `C139_bounds`, `C139_temperature`, `C139_pressure`, `C139_nodes`, `C139_slopes_partial`, `C139_refuted` (`C_PitzerTables.v`).
M_PitzerTables. C139_covered, C139_bounds, C139_temperature, C139_pressure, C139_nodes: all of the statement about the table itself, for all temperatures and pressures. C139_refuted: at 350 °C and 200 bar the slopes of the two models differ by 8 percent. C139_slopes_partial: up to 300 °C at every pressure, and from 400 bar on at every temperature, they agree within 5 percent; what is missing is the corner above 300 °C and below 400 bar, where the statement is refuted.

**C140 Copies of the state of a porous rock** — refuted, with partial results. `C140_new_partial`, `C140_copy_partial`, `C140_assign_partial`, `C140_chemical_partial`, `C140_throws_partial`, `C140_temperature_refuted`, `C140_refuted` (`C_PorousRock.v`).
M_PorousRock. C140_refuted, C140_temperature_refuted: no copy or assignment keeps a temperature other than 25 °C, for any system. C140_copy_partial, C140_assign_partial: system kept, everything else reset; the copy agrees exactly if nothing was set. C140_new_partial: new states; C140_chemical_partial: copies as chemical states are whole; C140_throws_partial: setters of rocks always throw and change nothing.

**C141 Interpolation of functions of temperature and pressure** — refuted, with partial results. `C141_components_partial`, `C141_found_partial`, `C141_nodes_partial`, `C141_linear_partial`, `C141_range_partial`, `C141_none_refuted`, `C141_single_refuted`, `C141_missing_refuted`, `C141_refuted` (`C_Interpolate.v`).
M_Interpolate. C141_components_partial, C141_found_partial, C141_nodes_partial, C141_linear_partial, C141_range_partial: all of the statement about functions, for all axes, functions and histories. C141_single_refuted, C141_missing_refuted, C141_refuted: data that do not fit are not refused. C141_none_refuted: without functions no point is out of range.

**C142 SUPCRT databases, the numeric locale and the documented names** — refuted, with partial results. `C142_locale_partial`, `C142_same_partial`, `C142_value_partial`, `C142_refused_partial`, `C142_database_partial`, `C142_documented_refuted`, `C142_refuted` (`C_SupcrtLocale.v`).
M_SupcrtLocale. C142_locale_partial, C142_same_partial, C142_value_partial: all of the statement about the locale, for every reader of numbers. C142_refused_partial, C142_database_partial: the names accepted are those of the files, with extension. C142_documented_refuted, C142_refuted: every documented name is refused, and so is every name that the error of Database::withName lists as supported. Threads that change the locale are not modelled.

**C143 Reactions and phases are values** — proved. `C143_reactions`, `C143_phases`, `C143_one`, `C143_runs`, `C143_kept`, `C143_species`, `C143_order` (`C_Shared.v`).
M_Shared. C143_reactions, C143_phases: every program reads what its meaning without sharing says; C143_one: that meaning is unique; C143_runs: programs on reactions run to their end; C143_kept: variables that are not assigned keep their values; C143_species: aggregate states and molar masses of phases; C143_order: comparisons. An empty list given to withSpecies is read out of bounds (C22, UB in the model) and is outside of the theorems.

**C144 Messages of errors name the error, its reason and the place** — refuted, with partial results. `C144_location_partial`, `C144_line_partial`, `C144_message_partial`, `C144_elsewhere_refuted`, `C144_refuted` (`C_Exception.v`).
M_Exception. C144_location_partial: the place, for paths with a directory Reaktoro; C144_line_partial: the line is always there, after a part of the path; C144_message_partial: the message as a whole. C144_elsewhere_refuted, C144_refuted: the name of the file is missing if the path has no directory Reaktoro, as for programs that use the macros, and for all paths written with backslashes.

**C145 Elements are values with comparisons that agree** — refuted, with partial results. `C145_values_partial`, `C145_one_partial`, `C145_masses_partial`, `C145_order_partial`, `C145_isotopes_refuted`, `C145_refuted` (`C_Elements.v`).
M_Elements on the heap of M_Shared. C145_values_partial, C145_one_partial: every program reads what its meaning without sharing says; C145_masses_partial: masses are not negative; C145_order_partial: == compares all attributes and < the symbols, consistent for different symbols. C145_isotopes_refuted, C145_refuted: two elements with one symbol that differ otherwise are neither equal nor ordered.

## Assumptions

Result of `Print Assumptions` for each of the 635 theorems (the commands stand
beside the theorems):

* Closed under the global context: all theorems not named below (415).

* `ClassicalDedekindReals.sig_forall_dec` (3): C49_incomplete, C49_stoichiometry, C49_volume_dropped.

* `ClassicalDedekindReals.sig_forall_dec`, `FunctionalExtensionality.functional_extensionality_dep` (19): C99_refuted, C99_builtin, C54_strengths, C54_order, C52_border, C49_partial, C49_order, C50_density_solver, C119_partial, C119_new_partial, C119_retry_refuted, C119_parameter_refuted, C119_refuted, C119_derived_partial, C124_solvent, C128_water_partial, C128_water_refuted, C127_order_partial, C127_convert_partial.

* `ClassicalDedekindReals.sig_forall_dec`, `ClassicalDedekindReals.sig_not_dec`, `FunctionalExtensionality.functional_extensionality_dep` (1): C52_peng_robinson.

* `ClassicalDedekindReals.sig_forall_dec`, `ClassicalDedekindReals.sig_not_dec`, `Classical_Prop.classic`, `FunctionalExtensionality.functional_extensionality_dep` (197): C53_gibbs_duhem, C53_excess, C94_refuted, C94_partial, C95_ideal_partial, C95_aqueous_partial, C95_refuted, C96_residual_partial, C96_salt_refuted, C96_refuted, C97_partial, C97_neutral_refuted, C97_refuted, C98_ideal_partial, C98_refuted, C98_stale_refuted, C98_absent_refuted, C98_activities_partial, C56_refuted, C56_duan_sun_refuted, C56_partial, C100_solute, C100_ions, C55_pH_partial, C55_refuted, C55_pH_refuted, C105_parameters, C105_limiting_law, C106_solute, C106_last, C52_alpha, C52_consistent, C91_first_partial, C91_refuted, C91_temperature_partial, C91_heat_capacities_partial, C90_deviation_partial, C90_equal_covolumes_partial, C90_refuted, C92_vapor_partial, C92_van_der_waals_partial, C92_refuted, C51_energies_partial, C51_refuted, C51_stale_refuted, C88_dielectric, C88_born, C88_wagner_pruss, C49_constant, C49_gibbs_helmholtz, C49_refuted, C83_refuted, C83_partial, C89_solute, C89_entropy, C89_wagner_pruss, C89_reference, C89_water, C87_wagner_pruss, C87_partial_derivatives, C86_partial, C86_TDD_refuted, C86_TTT_refuted, C86_refuted, C48_partial, C48_refuted, C48_volume_refuted, C104_one_partial, C104_three_partial, C104_volume, C104_refuted, C104_compressibility, C104_activity, C44_refuted, C44_partial, C44_exact, C44_ascending, C44_descending_refuted, C46_gibbs_helmholtz, C46_volume, C46_pressure_correction, C46_reference, C47_maier_kelley_partial, C47_holland_powell_rigid_partial, C47_volume_partial, C47_every_compressible_solid, C47_refuted, C81_maier_kelley_partial, C81_rigid_partial, C81_compressible_partial, C81_refuted, C82_partial, C82_refuted, C50_any_eos, C50_wagner_pruss_partial, C50_hgk_partial, C50_refuted, C50_pressure_partial, C59_evaluation_partial, C107_potential, C107_fugacity, C107_gibbs_duhem, C107_accepts, C107_repeated, C108_volume_partial, C108_refuted, C108_water_refuted, C109_equal_charges_partial, C109_triplet_refuted, C109_mixing_refuted, C109_refuted, C110_ions_partial, C110_one_sign_refuted, C110_refuted, C110_strong_refuted, C111_between_partial, C111_equal_charges_partial, C111_jump_refuted, C111_refuted, C112_limiting_law, C113_tables_partial, C113_salt_partial, C113_sulfate_refuted, C113_refuted, C114_hydroxide_refuted, C114_refuted, C114_sulfates_partial, C116_partial, C116_order_partial, C116_refuted, C116_dimer_refuted, C116_lost_refuted, C116_ordered_partial, C117_partial, C117_refuted, C118_partial, C118_vapour_refuted, C118_refuted, C118_limit_refuted, C124_gas_partial, C124_range, C124_solute_partial, C124_volume_partial, C124_volume_refuted, C124_mineral_partial, C124_mineral_refuted, C124_refuted, C125_supcrt_partial, C125_yaml_partial, C125_ideal_refuted, C125_refuted, C125_negative_refuted, C125_cubic_refuted, C126_solution_partial, C126_gas_partial, C126_pure_partial, C126_mixing_refuted, C126_refuted, C126_entropy_refuted, C127_text_partial, C127_catalyst_partial, C127_documented_refuted, C127_blank_refuted, C127_words_refuted, C127_numbers_refuted, C127_equality_refuted, C127_refuted, C128_fluid_partial, C128_heat_refuted, C128_mineral_partial, C128_pressure_refuted, C128_mineral_heat_refuted, C128_compressible_refuted, C128_solute_partial, C128_entropy_refuted, C128_refuted, C131_history_partial, C131_scripts_partial, C131_mass_action_partial, C131_standard_partial, C131_volumes_partial, C131_coefficients_partial, C131_dry_refuted, C131_absent_refuted, C131_constants_refuted, C131_temperature_refuted, C131_gases_refuted, C131_refuted, C127_refused_partial, C128_solute_units_partial, C134_pressure, C134_pressure_rises, C134_liquid, C134_liquid_falls, C134_vapour_partial, C134_vapour_refuted, C134_liquid_positive_refuted.

No axiom is added, no kernel check is switched off, and there is no `Admitted`,
`admit` or open obligation.  Theorems about matrices use mathcomp; the
assumptions listed by `Print Assumptions` are only those above.

## Trusted base

* The Coq 8.16.1 kernel (with `vm_compute`).
* The axioms of the standard library listed above (those of the classical reals
  and functional extensionality); mathcomp and Coquelicot as compiled libraries.
* The reading of the C++ source recorded in the comments of `M_*.v`, and the
  exact arithmetic in place of floating point.

## What is modelled, and what is not

Modelled (per file the cited lines; simplifications are in the comments):

* `Common`: `Algorithms.hpp`, `StringUtils.hpp`, `StringList`, `ParseUtils`,
  parts of `NamingUtils`, `Units`, `Memoization`, `ArrayStream`,
  `ArraySerialization`, `MoleFractionUtils`, `YAML`, `Constants`.
* `Core`: `ChemicalFormula`, `ElementalComposition`, `Element`, `Species`,
  `SpeciesList`, `ElementList`, `Phase`, `PhaseList`, `Phases`,
  `ChemicalSystem`, `ChemicalState`, `ChemicalProps`, `ChemicalPropsPhase`,
  `ActivityProps`, `ActivityModel`, `Param`, `Params`, `Model`, `Database`,
  `DatabaseParserYAML`, `FormationReaction`, `ReactionEquation`, `Utils`.
* `Equilibrium`: `EquilibriumSpecs`, `-Conditions`, `-Restrictions`, `-Dims`,
  `-Setup`, `-Props`, `-Hessian`, `-Predictor`, `-Sensitivity`, the parts of
  `-Solver` before and after the call of Optima.
* `Math`: all of it; `Singletons`: all of it.
* `Models` and `Models/Support`: all of it; `Serialization/Models.YAML.cpp`, and
  `Serialization/Core.YAML.cpp` for databases.
* `Thermodynamics`: `Water`, `Ideal`, `Fluids/CubicEOS`,
  `Fluids/PhaseIdentification`, `Fluids/ActivityModelCubicEOS`,
  `Fluids/ActivityModelSpycherReed`, `Fluids/ActivityModelSpycherPruessEnnis`,
  `Solids/ActivityModelRedlichKister`, `Aqueous`.
* `Core/ThermoProps` and the parts of `Core/ThermoPropsPhase` it uses; `Common/NamingUtils`;
  the effective radii of `ActivityModelHKF`.
* `Extensions/Phreeqc`: `PhreeqcDatabase`, `PhreeqcThermo`, `PhreeqcWater`, and the
  parts of `PhreeqcUtils` that read an instance (not PHREEQC itself).
* `Extensions/Supcrt`: `SupcrtDatabase` (documents are trees), `SupcrtModels`,
  `SupcrtEngine`, `SpeciesElectroStateHKF`.

Taken as parameters, with the property that is used of them stated in the
theorem: the optimiser Optima, the interpolation of the Debye-Hueckel parameter
of the Pitzer model, decompositions of Eigen, the root finder of
polynomials of degree four, the yaml-cpp parser (documents are trees),
activity and standard models where the theorem is about their callers.

Not modelled: the rest of `Extensions` (PHREEQC itself, GEMS, the ThermoFun library itself, the contents of the
embedded SUPCRT databases), `Core/Reaction`,
output (`Outputter`, `TableUtils`, printing of states),
the Python
bindings, and the files that consist of comments only (`Transport`, `Util`,
`ChemicalQuantity`, `ChemicalOutput`, `ChemicalPlot`, `EquilibriumProblem`,
`EquilibriumReactions`, `EquilibriumUtils`, `SmartEquilibriumSolver`,
`ReactionSystem`, `MineralReaction`, `ActivityModelVanLaar`).

## Disagreements between the properties and the code

Each is a theorem `..._refuted` or a lemma beside it; the notes above have the
details.  The ones with the widest effect:

* Formulas: unmatched `(` and names of one repeated character read out of range;
  `NaCl.2H2O` is read as 0.2 Cl; reaction equations do not print what they read.
* Units: tesla and gauss are Wb m2; `kg(m)` is read as g; empty strings and
  leading operators are undefined behaviour; `Eh` ignores its unit.
* Names: `makeunique` can produce duplicates; phases keep the old names.
* Registries: `overwrite` replaces only the first of several conflicting
  substances; appended elements are shadowed by older ones; five elements have
  mass zero; `RADON` has the alias `Ra`.
* State: amounts are checked by asserts only; failed calls of several setters
  leave partial changes.
* Equilibrium: a user input named `T` or `P` is taken for temperature or
  pressure; the exact Hessians ignore their argument and the approximate one is
  zero; the objective has no term for implicit titrants although the gradient
  has; unknown temperature and pressure are returned among the amounts;
  parameters keep input values after an evaluation that throws.
* Water: three slips in the third derivatives of the Haar-Gallagher-Kell equation
  (`x_rrt`, `helmholtzTTT`, `theta_rrt`); `waterPressureWagnerPruss` evaluates the
  other equation; `densityTT` is divided by the wrong derivative;
  Wagner-Pruss is undefined at density 322; the Born functions of HKF jump at
  region borders.
* Standard models: Holland-Powell integrates from pressure zero; heat capacity of
  the Maier-Kelley model below 298.15 K and of the pressure correction is zero;
  `withProductStandardVolume` ignores its argument; memoized products do not see
  changed parameters of their reactants.
* Cubic equations of state: the residual volume is computed from its own previous
  value; mixtures use the co-volume of the mixture in place of the species' one
  in the fugacity coefficient; a liquid can select a negative volume; the Gibbs
  criterion accepts such a liquid.
* Activity models: Debye-Hueckel and ideal aqueous activities of water violate the
  Gibbs-Duhem equation; HKF gives water activity one with neutral solutes only;
  Rumpf and Duan-Sun keep the ion indices of the first phase of the process;
  several models do not reset what they do not compute.
* Gases: the Spycher-Pruess-Ennis model subtracts ten times the ideal volume,
  gives water a coefficient that is always too small, and leaves six excess
  properties as they were.
* Pitzer model: the interactions of a neutral species with a cation and an anion
  enter the coefficients of the neutral species and of water but not those of the
  ions; the tabulated functions J0 and J1 are read as steps, so that mixing of
  ions of unequal charges violates the Gibbs-Duhem equation and activities jump;
  a phase without cations is undefined behaviour, one without anions or an ionic
  strength beyond the tables an exception; four of the eight tables are searched
  by the text of formulas, so that SO4-2 is not SO4--; the beta2 of calcium and
  hydroxide is never used.
* Aqueous properties: `pH()` returns the natural logarithm of the activity of H+
  with its sign; pE and Eh have the wrong sign; the ionic strengths are always
  zero; `alkalinity` always throws.
* YAML: HKF `Tmax` is written and not read; Holland-Powell loses five fields when
  `kappa0` is zero; chained models lose their serializer; species formed from
  each other make the parser recurse without end; coefficients are written with
  six digits, and formulas lose one more suffix each time they are written.
* `ThermoProps::update` stores T and P before it evaluates the models and returns early if they did
  not change: an update that threw, repeated at the same conditions, returns with stale data (C119).
* Names of charged species: the documented `Mg[+2]` throws, a name without `-`, `+` and `[` is read
  out of range, `Ca[2]` is accepted with charge +1 (C120); the HKF model gives `Mg[+2]` the radius of
  unknown ions (C122).
* PHREEQC: the reactants of a species are found by an index taken too early, so
  that species whose reactants come later in the order are formed from other ones
  (`(CO2)2` from CO3-2 in phreeqc.dat); phases with the name of a species are
  dropped; water below saturation has a constant density and a compressibility;
  above the critical temperature nothing is a number.
* SUPCRT databases: a mineral without energies in the document (40 in each shipped
  database) silently gets 999999 cal/mol; the volumes of solutes have Born terms
  that are not converted from J/bar; the pressure terms of minerals have a factor
  3.8e-5 too large (C123, C124).
* Phases: gases of the YAML databases have standard volume zero while the models of gases give the
  volume in excess of RT/P, so that a phase of ideal gases has volume zero (C125); the Gibbs energy of
  a phase lacks the energy of mixing, so that entropies lack the entropy of mixing and, for gases, the
  dependence on pressure (C126).
* Mineral mechanisms: the examples in the documentation of `MineralMechanism` throw, since entries are
  separated by semicolons in the code and commas in the documentation; texts of one word read out of
  range (C127).
* SUPCRTBL: the models mix kJ with J, kbar with bar and cal with J: heat capacities of fluids, the
  effect of pressure on minerals, their compressibility and the entropies of solutes are wrong by
  factors of 1000 or 4.184 (C128).
* Copies of a `PorousRockState` lose temperature, pressure and amounts (C129).
* `Phreeqc` objects: elements with several valences are counted in gases and minerals with the
  usual valence, so that the rows of the formula matrix are not conserved by balanced reactions;
  a gas that is also an equilibrium phase has an empty column in the stoichiometric matrix (C130).
* `Phreeqc` objects: without water the activities are those of the conditions before; solutes that are
  absent have activity one; after `set(T, P)` activities mix Gibbs energies of two temperatures; the
  constants of reactions after `set(T, P, n)` depend on the composition; a script without gases after
  one with gases writes out of range (C131).
* Equilibrium calculations: temperature and pressure of the returned state are taken from the
  last evaluation, in which the last input (after derivatives in the inputs) or an unknown
  pressure (after derivatives in the unknowns) is still seeded: the state's pressure has
  derivative one. A further calculation from that state has wrong second derivatives. The stored
  state of the optimizer is reused when the number of amounts agrees, even if the number of
  unknowns differs. Errors can leave initial amounts and temperature in the state. Inputs other
  than temperature and pressure are zero in calculations from a state alone (C132).
* Parameters of the HKF model: below 500 bar the tables repeat the values of 500 bar from 400 °C on, so that A, B and bNaCl jump back between 375 and 400 °C: at 250 bar A falls from 2.29 to 1.85 (C133). Pressures under 1 bar, such as 0.99 bar, are refused with an error.
* Saturated vapour of water: `waterSaturatedVapourDensityWagnerPruss` multiplies the exponent by Tc/T; the published equation has that factor for the pressure only. At 373 K the result is about a hundred times too low (C134).
* Common/Outputter.cpp:119-122: the iterator over the entries is not advanced at separators, so values after a separator have the widths of other columns; values added while the output is off are kept, and after switching it on every row ends in an error (C135). The template addValues(begin, end) calls a member AddValue that does not exist (Outputter.hpp:132).
- C136: `ThermoFunDatabase.cpp:74`, which would set the aggregate state of a species, is commented
  out, and `Species.cpp:76` has no initialiser: the state of every ThermoFun species is read from
  memory that was never written.  `ThermoFunEngine.cpp:33-37, 62-63` keep only values, so the
  standard properties have zero derivatives in temperature and pressure.
- C137: `PhreeqcUtils.cpp:438-448` prefers `moles_x` to the moles of the unknown, and
  `Phreeqc.cpp:935-936` writes `moles_x` of minerals: a second script on the same object reports the
  minerals of the first (if PHREEQC does not reset `moles_x` of pure phases, which its sources, not
  in the repository, decide).  A phase that is both gas and mineral is counted twice.
- C138: `CriticalProps.cpp:123` registers radon as `Ra`, the symbol of radium.  `CriticalProps.cpp:132-139`
  drops letter case from formulas too: cobalt gas has the critical properties of carbon monoxide.
  `ActivityModelCubicEOS.cpp:40-44` falls back on the formula, which isomers share.
- C139: the slopes of the Pitzer model and of the HKF model, which stand for one property of water, differ by 8 percent at 350 °C and 200 bar: `ActivityModelPitzerHMW.cpp:468-470` holds saturation values below the saturation pressure and interpolates from there.  Both models throw at pressures under 1 bar.
- C140: `PorousRockState.cpp:38-40` constructs a copy from the system of the other only, so that temperature, pressure and amounts are lost in every copy, and in every assignment (line 45 takes its argument by value), also of a state to itself.
- C141: `interpolate` and `BilinearInterpolator.cpp:57-64` accept data of any number: one datum is returned for all points, also out of range (line 118), and too few are read out of bounds.
- C142: `SupcrtDatabase::withName` documents the names `supcrt98`, `supcrt07`, `supcrt98-organics`, `supcrt07-organics`, and `Database::withName` documents `supcrt98`, `supcrt07`, `supcrt16`, `supcrtbl`: all of them are refused, since the code asks for the extension (`.xml` and `.yaml`). The error of `Database::withName` lists the names with `.xml`, which are refused too (Core/Database.cpp:202-208). (`C142_documented_refuted`.)
- C144: `Exception.cpp:35-37` cuts the path at the last `Reaktoro/`; without one, and with backslashes, `find_end` gives the end and the message has only the line, after a bare colon (`C144_elsewhere_refuted`).  The documented example of `location` leaves out the line that is appended.
- C145: `Element.cpp:142-154` orders elements by symbol alone but compares all attributes for equality, so that two elements with one symbol (say, isotopes under the symbol H) are neither before, nor equal to, nor after each other (`C145_isotopes_refuted`).
