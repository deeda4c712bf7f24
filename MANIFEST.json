{
 "claims": [
  {
   "property": "C01",
   "status": "proved",
   "theorems": [
    "C01_formula"
   ],
   "note": "Formulas of any nesting parse to first-appearance order and additive coefficients."
  },
  {
   "property": "C02",
   "status": "partial",
   "theorems": [
    "C02_safe_refuted",
    "C02_safe_partial"
   ],
   "note": "Refuted: an unmatched '(' reads past the end (ParseUtils.cpp:88-92). Partial: exact characterisation, UB iff a '(' is left open."
  },
  {
   "property": "C03",
   "status": "proved",
   "theorems": [
    "C03_charge"
   ],
   "note": "All three notations and the sign-only bracket form, with optional suffix; bracketed zero excluded because it falls through to another mode."
  },
  {
   "property": "C04",
   "status": "partial",
   "theorems": [
    "C04_safe_refuted",
    "C04_safe_partial"
   ],
   "note": "Refuted: names of one repeated character such as \"C\" read formula[-1] (ParseUtils.cpp:166-168). Partial: exact characterisation of UB, and neutrality of all other names."
  },
  {
   "property": "C05",
   "status": "proved",
   "theorems": [
    "C05_equivalent",
    "C05_coefficient",
    "C05_relation",
    "C05_order",
    "C05_parsed"
   ],
   "note": "Equivalence characterised; equivalence relation on formulas listing each element once, which holds for every parsed formula."
  },
  {
   "property": "C06",
   "status": "partial",
   "theorems": [
    "C06_makeunique_refuted",
    "C06_makeunique_partial"
   ],
   "note": "Refuted: [A!, A, A] gives A! twice. Partial: shape for all inputs, distinctness when no word is a suffixed form of another."
  },
  {
   "property": "C07",
   "status": "proved",
   "theorems": [
    "C07_split",
    "C07_join",
    "C07_split_join",
    "C07_stringlist_words",
    "C07_stringlist_lossless",
    "C07_trim"
   ],
   "note": "Split, join, their round trip, StringList tokens and losslessness, trim."
  },
  {
   "property": "C08",
   "status": "proved",
   "theorems": [
    "C08_replace",
    "C08_replace_total",
    "C08_replace_empty"
   ],
   "note": "Replace equals the left-to-right non-overlapping replacement; total for non-empty pattern, empty pattern characterised."
  },
  {
   "property": "C09",
   "status": "partial",
   "theorems": [
    "C09_roundtrip_refuted",
    "C09_parse_partial",
    "C09_print_partial"
   ],
   "note": "Refuted round trip: H2O = H+ + OH- prints as \"H2O= H+ O\" (ReactionEquation.cpp:77-78). Partial: reading an equation is proved for all equations (C09_partial), and the printed text with the three lost characters restored reads back to the printed coefficients within 5e-7 for every equation (C09_print_partial)."
  },
  {
   "property": "C10",
   "status": "proved",
   "theorems": [
    "C10_species_mass",
    "C10_unknown_element",
    "C10_additive"
   ],
   "note": "Mass of a species built from a formula equals the recursive mass of the formula minus charge times electron mass; element table is an argument of the model."
  },
  {
   "property": "C11",
   "status": "proved",
   "theorems": [
    "C11_roundtrip",
    "C11_via",
    "C11_increasing",
    "C11_affine",
    "C11_temperature",
    "C11_inconvertible"
   ],
   "note": "Proved for all pairs of convertible unit strings, temperature scales against an independent table."
  },
  {
   "property": "C12",
   "status": "proved",
   "theorems": [
    "C12_expression",
    "C12_si"
   ],
   "note": "Proved for all expression trees; C12_si uses an independent SI table."
  },
  {
   "property": "C13",
   "status": "partial",
   "theorems": [
    "C13_interpreted_refuted",
    "C13_bounds_refuted",
    "C13_unknown_partial",
    "C13_flat_partial"
   ],
   "note": "Refuted: kg(m) is read as g; empty string, leading operator, empty parentheses are UB; foo converts to foo. Partial: unknown symbols and all parenthesis-free strings."
  },
  {
   "property": "C14",
   "status": "partial",
   "theorems": [
    "C14_table_refuted",
    "C14_table_partial"
   ],
   "note": "Refuted: T, tesla and gauss are Wb*m2 instead of Wb/m2. Partial: all other 225 entries against an independent table."
  },
  {
   "property": "C15",
   "status": "proved",
   "theorems": [
    "C15_index",
    "C15_indexfn",
    "C15_filter",
    "C15_sets",
    "C15_union",
    "C15_extract",
    "C15_range",
    "C15_sum"
   ],
   "note": "Proved for all containers, predicates and positive-step integer ranges."
  },
  {
   "property": "C16",
   "status": "proved",
   "theorems": [
    "C16_database",
    "C16_add",
    "C16_add_total"
   ],
   "note": "All histories of addElement/addSpecies/clear calls from an empty database; failed calls leave the database unchanged as in the code."
  },
  {
   "property": "C17",
   "status": "partial",
   "theorems": [
    "C17_order_partial",
    "C17_terminates_partial",
    "C17_cyclic_partial",
    "C17_refuted",
    "C17_database_partial"
   ],
   "note": "Refuted: two species formed from each other (or one formed from itself) make the parser recurse without end; the model diverges for every amount of fuel. C17_terminates_partial: every other document is loaded (or rejected) with a recursion no deeper than the number of species, more fuel changing nothing; C17_cyclic_partial: a document with such a cycle is never loaded; C17_order_partial: whenever loading succeeds, every species is there once, after its reactants, with its elements, and is what the first node with its name says; C17_database_partial: the database has the same species, none renamed, and all elements of theirs. The tree of nodes is what yaml-cpp gives; the text of the document is not modelled."
  },
  {
   "property": "C18",
   "status": "partial",
   "theorems": [
    "C18_names",
    "C18_formulas",
    "C18_substances",
    "C18_state",
    "C18_elements",
    "C18_elements_of",
    "C18_tags",
    "C18_without_tags_refuted",
    "C18_without_tags_partial"
   ],
   "note": "Every query is characterised by an inductive selection relation. withoutTags with two or more tags keeps species that carry some of the tags: refuted."
  },
  {
   "property": "C19",
   "status": "proved",
   "theorems": [
    "C19_find",
    "C19_inverse",
    "C19_offsets",
    "C19_by_name"
   ],
   "note": "Index to phase, phase to offset, and global to local species, in both directions, including empty phases and out-of-range indices."
  },
  {
   "property": "C20",
   "status": "partial",
   "theorems": [
    "C20_entries",
    "C20_mass_refuted",
    "C20_mass_partial"
   ],
   "note": "Entries and dimensions proved for all systems. Mass balance refuted when a composition lists an element twice; proved otherwise."
  },
  {
   "property": "C21",
   "status": "partial",
   "theorems": [
    "C21_names_refuted",
    "C21_phase_names_refuted",
    "C21_names_partial"
   ],
   "note": "Refuted by makeunique's flaw and because phases keep the old species names; the partial theorem says what does hold."
  },
  {
   "property": "C22",
   "status": "partial",
   "theorems": [
    "C22_phase_refuted",
    "C22_phase_partial",
    "C22_with_species_partial"
   ],
   "note": "Refuted: an empty selection dereferences the first species of an empty list. All other cases proved."
  },
  {
   "property": "C23",
   "status": "partial",
   "theorems": [
    "C23_memoize",
    "C23_last_refuted",
    "C23_last_partial",
    "C23_last_no_failure_partial",
    "C23_ref_refuted",
    "C23_ref_partial",
    "C23_ref_nondefault_partial"
   ],
   "note": "memoize proved for all functions and schedules. memoizeLast refuted for failing functions; memoizeLastUsingRef refuted under switching; both proved otherwise."
  },
  {
   "property": "C24",
   "status": "partial",
   "theorems": [
    "C24_set",
    "C24_assign",
    "C24_new",
    "C24_by_id",
    "C24_copy_refuted",
    "C24_default_refuted",
    "C24_current_partial"
   ],
   "note": "Handles: proved for all programs. Evaluation of memoized models refuted (copies share remembered parameter values; default arguments), proved for all other histories."
  },
  {
   "property": "C25",
   "status": "partial",
   "theorems": [
    "C25_amounts_refuted",
    "C25_temperature_pressure_partial",
    "C25_debug_partial",
    "C25_release_partial",
    "C25_rejected",
    "C25_frame",
    "C25_read_back"
   ],
   "note": "Refuted in the default release build: amounts are checked by asserts only, so negative or missing amounts are accepted. Partial: temperature and pressure always, all in debug builds, release builds with non-negative input; frame, rejection and read-back theorems hold in every build."
  },
  {
   "property": "C26",
   "status": "proved",
   "theorems": [
    "C26_linear",
    "C26_phases",
    "C26_defined",
    "C26_order"
   ],
   "note": "Proved: linear, grouped by phase with first-match coefficients, and independent of the order of calls on different species."
  },
  {
   "property": "C27",
   "status": "proved",
   "theorems": [
    "C27_distribution",
    "C27_empty",
    "C27_phase",
    "C27_jacobian",
    "C27_jacobian_zero",
    "C27_ln_jacobian"
   ],
   "note": "Proved, including the exact finite difference behind the Jacobian."
  },
  {
   "property": "C28",
   "status": "proved",
   "theorems": [
    "C28_stream",
    "C28_system",
    "C28_phase",
    "C28_sizes",
    "C28_short"
   ],
   "note": "Proved for every list of scalars and arrays and for both property records; a short array is an unchecked read."
  },
  {
   "property": "C29",
   "status": "proved",
   "theorems": [
    "C29_phases",
    "C29_phase_mass",
    "C29_totals",
    "C29_standard"
   ],
   "note": "Proved for arbitrary standard and activity models as parameters; u = G0 + RT ln a is part of the record PhaseOk."
  },
  {
   "property": "C30",
   "status": "partial",
   "theorems": [
    "C30_evaluated",
    "C30_names_refuted",
    "C30_partial",
    "C30_named_partial",
    "C30_dimensions"
   ],
   "note": "Refuted only for names shared between a user's equation constraint and a chemical potential constraint; everything else, and evaluation of every constraint in order, is proved for all histories."
  },
  {
   "property": "C31",
   "status": "partial",
   "theorems": [
    "C31_refuted",
    "C31_partial"
   ],
   "note": "Refuted: an input is registered before the call is rejected. Partial: nothing else changes, and calls that add no input have no effect."
  },
  {
   "property": "C32",
   "status": "partial",
   "theorems": [
    "C32_components",
    "C32_components_reached",
    "C32_Eh_refuted",
    "C32_partial",
    "C32_start",
    "C32_exclusive"
   ],
   "note": "Refuted: Eh ignores its unit. Partial: all other setters and Eh in volts; start amounts are exclusive and the last call wins."
  },
  {
   "property": "C33",
   "status": "proved",
   "theorems": [
    "C33_last_call_wins",
    "C33_exclusive",
    "C33_others"
   ],
   "note": "Proved for all histories."
  },
  {
   "property": "C34",
   "status": "proved",
   "theorems": [
    "C34_conservation",
    "C34_assembled",
    "C34_bounds"
   ],
   "note": "Proved; the lower bound for non-negativity is the configured minimum amount epsilon, and upper bounds are also raised to it."
  },
  {
   "property": "C35",
   "status": "partial",
   "theorems": [
    "C35_refuted",
    "C35_disagree_refuted",
    "C35_partial"
   ],
   "note": "Refuted: a user's input named T or P is taken for temperature or pressure (the predictor and the evaluation then disagree). Partial: all other histories."
  },
  {
   "property": "C36",
   "status": "proved",
   "theorems": [
    "C36_reference",
    "C36_affine",
    "C36_conservation",
    "C36_solved"
   ],
   "note": "Exactness at the reference, affinity with the stored slopes and preservation of every conserved component are proved."
  },
  {
   "property": "C37",
   "status": "partial",
   "theorems": [
    "C37_refuted",
    "C37_partial",
    "C37_substituted"
   ],
   "note": "Refuted: an evaluation that throws leaves input values in the parameters. Partial: evaluations that return; what the evaluation sees is proved as well."
  },
  {
   "property": "C38",
   "status": "partial",
   "theorems": [
    "C38_refuted",
    "C38_partial"
   ],
   "note": "Refuted: an unknown name reads out of range and dudw/dudb accept any matrix. Partial: known names and the other setters."
  },
  {
   "property": "C39",
   "status": "partial",
   "theorems": [
    "C39_refuted",
    "C39_rejects_refuted",
    "C39_partial",
    "C39_monotone"
   ],
   "note": "Refuted: with one abscissa and several ordinates the corner index wraps around; a one-point grid accepts every point. Partial: everything for grids of at least two by two; monotone in the data."
  },
  {
   "property": "C40",
   "status": "partial",
   "theorems": [
    "C40_refuted",
    "C40_partial"
   ],
   "note": "Refuted: the points used start at the node to the right, so near the end fewer than order + 1 are used. Partial: data at nodes, polynomials within the number of points used, ends."
  },
  {
   "property": "C41",
   "status": "partial",
   "theorems": [
    "C41_refuted",
    "C41_exact_refuted",
    "C41_partial",
    "C41_clean"
   ],
   "note": "Refuted: 0.41 with limit 4 gives 1/2; above one the limit applies to the numerator and the denominator may be zero. Partial: exact recovery and no better fraction on the same side."
  },
  {
   "property": "C42",
   "status": "proved",
   "theorems": [
    "C42_proved",
    "C42_complete"
   ],
   "note": "Proved over any field, with the converse that a zero pivot means a singular matrix on the way."
  },
  {
   "property": "C43",
   "status": "proved",
   "theorems": [
    "C43_dot",
    "C43_residual"
   ],
   "note": "Proved for every rounding function, with exact double arithmetic."
  },
  {
   "property": "C44",
   "status": "partial",
   "theorems": [
    "C44_refuted",
    "C44_partial",
    "C44_exact",
    "C44_ascending",
    "C44_descending_refuted"
   ],
   "note": "Refuted: the tolerance on the discriminant is absolute. Partial: exact otherwise, and within the tolerance the roots are those of a cubic perturbed by k with k^3 bounded; real roots come in ascending, not descending, order."
  },
  {
   "property": "C45",
   "status": "partial",
   "theorems": [
    "C45_refuted",
    "C45_partial",
    "C45_affine"
   ],
   "note": "Refuted: the point is changed after the tolerance is checked. Partial: the previous point satisfies it and the number of iterations is bounded."
  },
  {
   "property": "C46",
   "status": "proved",
   "theorems": [
    "C46_gibbs_helmholtz",
    "C46_volume",
    "C46_pressure_correction",
    "C46_reference"
   ],
   "note": "Constant lg K, van't Hoff, GEMS and PHREEQC models over the reals: enthalpy is G - T dG/dT for every T > 0, dG/dP is the reaction volume, a chained pressure correction keeps both, reference values are returned. The reaction volume is an argument and is held fixed."
  },
  {
   "property": "C47",
   "status": "partial",
   "theorems": [
    "C47_maier_kelley_partial",
    "C47_holland_powell_rigid_partial",
    "C47_volume_partial",
    "C47_every_compressible_solid",
    "C47_refuted"
   ],
   "note": "Refuted for the Holland-Powell model with kappa0 different from zero: the pressure integral starts at zero pressure instead of the reference pressure, so dH/dT at the reference pressure is not the returned heat capacity (shown for every such solid). Proved for Maier-Kelley and for Holland-Powell with kappa0 = 0; dG/dP = V proved for all."
  },
  {
   "property": "C48",
   "status": "partial",
   "theorems": [
    "C48_partial",
    "C48_refuted",
    "C48_volume_refuted"
   ],
   "note": "Refuted: below 298.15 K the returned heat capacity is zero, and just below a transition with a pressure-dependent boundary the volume change is subtracted without having been added. Proved above 298.15 K for transitions with pressure-independent boundaries, with entropy and Gibbs energy relations too."
  },
  {
   "property": "C49",
   "status": "partial",
   "theorems": [
    "C49_partial",
    "C49_constant",
    "C49_incomplete",
    "C49_order",
    "C49_gibbs_helmholtz",
    "C49_stoichiometry",
    "C49_refuted",
    "C49_volume_dropped"
   ],
   "note": "Refuted: withProductStandardVolume ignores its argument and uses zero (C49_volume_dropped: for every argument). Partial: Gibbs energy, enthalpy and the volume of a volume model are as promised for every reaction, the order of reactants does not matter, the Gibbs-Helmholtz relation carries over to the product, coefficients are found by name, a constant equilibrium constant gives -RT ln K (C49_constant), and incomplete reactions are rejected."
  },
  {
   "property": "C50",
   "status": "partial",
   "theorems": [
    "C50_any_eos",
    "C50_wagner_pruss_partial",
    "C50_hgk_partial",
    "C50_refuted",
    "C50_pressure_partial",
    "C50_density_solver"
   ],
   "note": "Refuted: waterPressureWagnerPruss evaluates the Haar-Gallagher-Kell equation (WaterUtils.cpp:131-134). Partial: with the Wagner-Pruss equation all identities hold wherever the density solves the equation of state and has nonzero temperature derivative (densityTT divides by it, which is undefined at the density maximum); with Haar-Gallagher-Kell all identities hold except for the two second derivatives of density that use helmholtzTDD. The density solver is covered by C50_density_solver: what it returns is the Newton update of an iterate that satisfies the tolerance, not that iterate."
  },
  {
   "property": "C51",
   "status": "partial",
   "theorems": [
    "C51_energies_partial",
    "C51_refuted",
    "C51_stale_refuted"
   ],
   "note": "Refuted: the residual volume and its derivatives are computed as V - Vres with the residual volume of the evaluation before (CubicEOS.cpp:448-450), so that a repeated evaluation returns zero (C51_refuted); an evaluation with no substance, or with a phase that is not the expected one, keeps values of the evaluation before (C51_stale_refuted). C51_energies_partial: the residual Gibbs energy, enthalpy, heat capacities, fugacity coefficients and activities depend on the conditions alone."
  },
  {
   "property": "C52",
   "status": "proved",
   "theorems": [
    "C52_alpha",
    "C52_peng_robinson",
    "C52_border",
    "C52_consistent"
   ],
   "note": "C52_alpha: all four alpha functions. C52_consistent: over the reals, for every number of species and any consistent interaction parameters, at every point where the attraction parameters are positive, the discriminant is not within the tolerance of zero and the volume exceeds the co-volume; any phase identification method, as long as the phase stays identified as the expected one nearby. The derivative of the selected root is proved from the continuity of Cardano's formulas."
  },
  {
   "property": "C53",
   "status": "proved",
   "theorems": [
    "C53_gibbs_duhem",
    "C53_excess"
   ],
   "note": "Proved over the reals for all parameters and compositions in (0,1)."
  },
  {
   "property": "C54",
   "status": "proved",
   "theorems": [
    "C54_partition",
    "C54_strengths",
    "C54_order",
    "C54_builtin"
   ],
   "note": "Proved for every species list for which construction succeeds; dissociation reactions are assumed to have non-negative ion coefficients, as the built-in ones do (C54_builtin)."
  },
  {
   "property": "C55",
   "status": "partial",
   "theorems": [
    "C55_strength_partial",
    "C55_pH_partial",
    "C55_refuted",
    "C55_pH_refuted"
   ],
   "note": "Refuted: pH() returns the natural logarithm of the activity of H+ (C55_pH_refuted; C55_pH_partial says for which states this is the pH), and both ionic strengths are always zero because the aqueous state is never updated (C55_strength_partial gives when that is right)."
  },
  {
   "property": "C56",
   "status": "partial",
   "theorems": [
    "C56_refuted",
    "C56_duan_sun_refuted",
    "C56_partial"
   ],
   "note": "Refuted: the Rumpf and Duan-Sun models keep the ion indices of the first mixture of the process in static variables (C56_refuted, C56_duan_sun_refuted with two brines). C56_partial: true while all phases evaluated have the same species list."
  },
  {
   "property": "C57",
   "status": "proved",
   "theorems": [
    "C57_builtin",
    "C57_history",
    "C57_append",
    "C57_coefficient"
   ],
   "note": "Proved for the built-in table (170 reactions, checked by evaluation) and for all histories of append and reset; formulas of complexes are assumed to list each element once, as every formula read from text does (C05_parsed). Nothing checks that appended reactions are balanced."
  },
  {
   "property": "C58",
   "status": "partial",
   "theorems": [
    "C58_builtin",
    "C58_refuted",
    "C58_partial",
    "C58_last",
    "C58_rejected",
    "C58_reported_refuted",
    "C58_positive"
   ],
   "note": "Refuted: overwrite replaces only the first of several substances with a common name (WATER and AMMONIA), leaving one name for two substances. C58_partial: names stay unambiguous while no substance overwrites two; C58_last: the last stored substance is found under every given name after any history; C58_reported_refuted: the name reported by a substance need not find it, since suffixes are stripped again."
  },
  {
   "property": "C59",
   "status": "partial",
   "theorems": [
    "C59_refuted",
    "C59_hollandpowell_refuted",
    "C59_parameters_partial",
    "C59_evaluation_partial",
    "C59_models_partial"
   ],
   "note": "Refuted twice: HKF writes Tmax but does not read it; HollandPowell with kappa0 = 0 loses alpha0, kappa0p, kappa0pp and numatoms. C59_parameters_partial: the parameters of all other models survive, and exactly which HKF and HollandPowell parameters do; C59_evaluation_partial: the lost fields are not used by the models, so that the properties are the same; C59_models_partial: whole models, and a model without serializer (chained or given by a function) cannot be read back. How yaml-cpp prints and reads one number is the hypothesis codec."
  },
  {
   "property": "C60",
   "status": "partial",
   "theorems": [
    "C60_hydrate_refuted",
    "C60_hydrate_partial"
   ],
   "note": "Refuted: \"NaCl.2H2O\" gives Cl 0.2. Partial: recognised only after a character that is not part of an element, number or group."
  },
  {
   "property": "C61",
   "status": "partial",
   "theorems": [
    "C61_equality_refuted",
    "C61_equality_partial"
   ],
   "note": "Refuted: equality with tolerance epsilon is not transitive. Partial: reflexive, symmetric, exact meaning."
  },
  {
   "property": "C62",
   "status": "proved",
   "theorems": [
    "C62_pairs"
   ],
   "note": "Proved for all lists of well-formed words."
  },
  {
   "property": "C63",
   "status": "partial",
   "theorems": [
    "C63_reaction_refuted",
    "C63_reaction_partial"
   ],
   "note": "Refuted: a word without colon reads pair[1] out of range (ParseUtils.cpp:216). Partial: well-formed lists."
  },
  {
   "property": "C64",
   "status": "partial",
   "theorems": [
    "C64_transitive_refuted",
    "C64_equivalence_partial"
   ],
   "note": "Refuted: degC ~ K ~ (K) but not degC ~ (K). Partial: reflexive, symmetric, transitive without bare temperature names."
  },
  {
   "property": "C65",
   "status": "partial",
   "theorems": [
    "C65_rename_refuted",
    "C65_rename_partial"
   ],
   "note": "Refuted for species whose aggregate state is read from the name; proved for stored states and fresh names."
  },
  {
   "property": "C66",
   "status": "partial",
   "theorems": [
    "C66_generator_refuted",
    "C66_generator_partial"
   ],
   "note": "Refuted for species names with spaces (the name is split as a list); proved for names without white space."
  },
  {
   "property": "C67",
   "status": "proved",
   "theorems": [
    "C67_order",
    "C67_speciation"
   ],
   "note": "Phases up to order; the species of a phase declared without species or elements are characterised exactly."
  },
  {
   "property": "C68",
   "status": "proved",
   "theorems": [
    "C68_suffix",
    "C68_charge",
    "C68_print_parse"
   ],
   "note": "Suffixes, charged names and print/parse."
  },
  {
   "property": "C69",
   "status": "partial",
   "theorems": [
    "C69_unchanged_refuted",
    "C69_later_phases_partial"
   ],
   "note": "Refuted: update writes temperature, pressure and earlier phases before a later phase is rejected. Partial: phases after the failing one keep their values."
  },
  {
   "property": "C70",
   "status": "proved",
   "theorems": [
    "C70_properties",
    "C70_potentials"
   ],
   "note": "Proved for arbitrary activity and standard models as parameters."
  },
  {
   "property": "C71",
   "status": "proved",
   "theorems": [
    "C71_columns"
   ],
   "note": "Proved for all sequences of evaluations."
  },
  {
   "property": "C72",
   "status": "partial",
   "theorems": [
    "C72_exact_refuted",
    "C72_approximation_refuted",
    "C72_diagonal_partial",
    "C72_partially_partial"
   ],
   "note": "Refuted: the exact Hessians ignore the given properties and the approximate one is zero. Partial: the diagonal one."
  },
  {
   "property": "C73",
   "status": "proved",
   "theorems": [
    "C73_chain_rule",
    "C73_initial_state"
   ],
   "note": "Proved."
  },
  {
   "property": "C74",
   "status": "partial",
   "theorems": [
    "C74_refuted",
    "C74_partial"
   ],
   "note": "Refuted: unknown temperature and pressure are returned among the amounts. Partial: both known."
  },
  {
   "property": "C75",
   "status": "partial",
   "theorems": [
    "C75_refuted",
    "C75_partial"
   ],
   "note": "Refuted: the recorded conditions are those of the reference. Partial: exactly which conditions are recorded."
  },
  {
   "property": "C76",
   "status": "partial",
   "theorems": [
    "C76_refuted",
    "C76_partial"
   ],
   "note": "Refuted: options are stored before they are checked. Partial: acceptance and accepted options."
  },
  {
   "property": "C77",
   "status": "partial",
   "theorems": [
    "C77_refuted",
    "C77_partial"
   ],
   "note": "Refuted: the value has no term for implicit titrants although the gradient has. Partial: the entries of the gradient."
  },
  {
   "property": "C78",
   "status": "proved",
   "theorems": [
    "C78_solve",
    "C78_trsolve",
    "C78_basic",
    "C78_rows"
   ],
   "note": "Proved over any field; the decomposition and triangular solves of Eigen are assumed."
  },
  {
   "property": "C79",
   "status": "proved",
   "theorems": [
    "C79_scalar",
    "C79_affine",
    "C79_quadratic",
    "C79_matrix"
   ],
   "note": "Proved."
  },
  {
   "property": "C80",
   "status": "partial",
   "theorems": [
    "C80_cache_partial",
    "C80_cache_refuted",
    "C80_empty_refuted",
    "C80_empty_partial",
    "C80_weighted"
   ],
   "note": "Refuted: emptiness is inverted, and a matrix without entries is never decomposed by a new object. Partial: everything for matrices with columns; weighted factors decompose the unweighted matrix."
  },
  {
   "property": "C81",
   "status": "partial",
   "theorems": [
    "C81_maier_kelley_partial",
    "C81_rigid_partial",
    "C81_compressible_partial",
    "C81_refuted"
   ],
   "note": "Refuted for Holland-Powell with kappa0 different from zero (pressure integral from zero). Proved for Maier-Kelley and kappa0 = 0, and the deviation is given otherwise."
  },
  {
   "property": "C82",
   "status": "partial",
   "theorems": [
    "C82_partial",
    "C82_refuted"
   ],
   "note": "Refuted with the table values of water vapour: (H0-G0)/T uses formation values. Partial: for Maier-Kelley it holds exactly when Hf - Gf = Tr Sr."
  },
  {
   "property": "C83",
   "status": "partial",
   "theorems": [
    "C83_refuted",
    "C83_partial"
   ],
   "note": "Refuted: the returned heat capacity is always zero. Partial: the derivative of the enthalpy is given for every reaction."
  },
  {
   "property": "C84",
   "status": "partial",
   "theorems": [
    "C84_partial",
    "C84_switched_off",
    "C84_refuted"
   ],
   "note": "Refuted: the memoized product does not see changes of its reactants' parameters. Partial: holds when the reaction's own parameters cover what changes of the reactants (hence for species without reaction), and always with memoization switched off. The first-call comparison with default values is in C09's model, not here."
  },
  {
   "property": "C85",
   "status": "proved",
   "theorems": [
    "C85_attributes"
   ],
   "note": "Proved; the standard model made from the attributes is not part of this model."
  },
  {
   "property": "C86",
   "status": "partial",
   "theorems": [
    "C86_partial",
    "C86_TDD_refuted",
    "C86_TTT_refuted",
    "C86_refuted"
   ],
   "note": "Refuted: helmholtzTDD and helmholtzTTT are wrong (three slips: the missing factor x in x_rrt of the second part, h/(t*t) instead of 2h/(t*t) in its third temperature derivative, psi_r*theta_r instead of psi_r*theta_t in the fourth part). Partial: all eight other fields are the derivatives."
  },
  {
   "property": "C87",
   "status": "proved",
   "theorems": [
    "C87_wagner_pruss",
    "C87_partial_derivatives"
   ],
   "note": "Proved for all positive temperatures and densities except the critical density 322 kg/m3, where the non-analytic terms divide by zero."
  },
  {
   "property": "C88",
   "status": "proved",
   "theorems": [
    "C88_dielectric",
    "C88_born",
    "C88_wagner_pruss"
   ],
   "note": "Proved wherever the coefficients of the polynomial in density and the dielectric constant do not vanish (the code divides by them)."
  },
  {
   "property": "C89",
   "status": "proved",
   "theorems": [
    "C89_solute",
    "C89_entropy",
    "C89_wagner_pruss",
    "C89_reference",
    "C89_water"
   ],
   "note": "Proved. The identities hold with entropy (H0 - G0 - k)/T where k = Hf - Gf - Tr Sr (for water Htr - Gtr - Ttr Str): C89_entropy shows that the entropy (H0-G0)/T reported by the library is the right one exactly when k = 0, which formation data do not satisfy. The g function jumps at the borders of its regions and is undefined at density 1000 exactly; these are excluded by the hypothesis inside. Tmax is not used by the code."
  },
  {
   "property": "C90",
   "status": "partial",
   "theorems": [
    "C90_deviation_partial",
    "C90_equal_covolumes_partial",
    "C90_refuted"
   ],
   "note": "Refuted for mixtures of species with different co-volumes: CubicEOS.cpp:471 has betak = bbar[k]/b[k]*beta, which is beta, where bbar[k]/bmix*beta is meant. C90_deviation_partial gives the exact difference (b_k/bmix - 1)(Z - 1); C90_equal_covolumes_partial proves the property for equal co-volumes, in particular for pure fluids."
  },
  {
   "property": "C91",
   "status": "partial",
   "theorems": [
    "C91_first_partial",
    "C91_refuted",
    "C91_temperature_partial",
    "C91_heat_capacities_partial"
   ],
   "note": "Refuted: the first evaluation returns the molar volume instead of the residual volume (C91_refuted); C91_first_partial and C91_temperature_partial: with the ideal volume subtracted the identity holds, and the reported derivatives are right in a first evaluation."
  },
  {
   "property": "C92",
   "status": "partial",
   "theorems": [
    "C92_vapor_partial",
    "C92_van_der_waals_partial",
    "C92_refuted"
   ],
   "note": "Refuted: a liquid far above its critical temperature selects a negative root, and the logarithm of a negative number is taken (C92_refuted, Redlich-Kwong at 100 times the critical temperature). C92_vapor_partial: always true of vapours with simple roots; C92_van_der_waals_partial: true of van der Waals liquids too."
  },
  {
   "property": "C93",
   "status": "partial",
   "theorems": [
    "C93_refuted",
    "C93_partial",
    "C93_builtin"
   ],
   "note": "Refuted: an element appended under a symbol already in use is silently shadowed by the old one; also five superheavy elements have molar mass zero (C93_builtin). C93_partial: new symbols are found and all other queries are unchanged."
  },
  {
   "property": "C94",
   "status": "partial",
   "theorems": [
    "C94_refuted",
    "C94_partial"
   ],
   "note": "Refuted: the excess Gibbs energy is returned as the excess enthalpy. C94_partial: with the temperature-independent parameters of this model the returned enthalpy is consistent exactly when the excess Gibbs energy is zero."
  },
  {
   "property": "C95",
   "status": "partial",
   "theorems": [
    "C95_ideal_partial",
    "C95_aqueous_partial",
    "C95_refuted"
   ],
   "note": "Refuted for the ideal aqueous model: the water activity is ln xw while solutes use molalities. C95_aqueous_partial gives the exact residual and shows that it vanishes only without solutes; C95_ideal_partial: true of ideal solutions and gases."
  },
  {
   "property": "C96",
   "status": "partial",
   "theorems": [
    "C96_residual_partial",
    "C96_salt_refuted",
    "C96_refuted"
   ],
   "note": "Refuted: the water activity adds 2I/z^2 instead of the molality of each ion. C96_residual_partial gives the exact residual for every solution of ions; C96_salt_refuted: it never vanishes for a 1:1 salt and the limiting law. Solutions with neutral solutes are not covered by the residual theorem."
  },
  {
   "property": "C97",
   "status": "partial",
   "theorems": [
    "C97_partial",
    "C97_neutral_refuted",
    "C97_refuted"
   ],
   "note": "Refuted: the activity of water is 1 when the only solutes are neutral (C97_neutral_refuted). C97_partial: true of every electroneutral solution of ions, with the exact residual in terms of the total charge."
  },
  {
   "property": "C98",
   "status": "partial",
   "theorems": [
    "C98_ideal_partial",
    "C98_refuted",
    "C98_stale_refuted",
    "C98_absent_refuted",
    "C98_activities_partial"
   ],
   "note": "Refuted: Redlich-Kister, Debye-Hueckel and HKF leave excess properties as they were, and HKF leaves the coefficients of absent ions (C98_stale_refuted, C98_absent_refuted). C98_ideal_partial: ideal models overwrite everything; C98_activities_partial: activities are always overwritten by Redlich-Kister and Debye-Hueckel, and by HKF when all amounts are positive."
  },
  {
   "property": "C99",
   "status": "partial",
   "theorems": [
    "C99_refuted",
    "C99_partial",
    "C99_builtin"
   ],
   "note": "Refuted: a user table with two keys for one species. C99_partial: true when no two keys are the same substance, as in the built-in tables (C99_builtin, checked by evaluation)."
  },
  {
   "property": "C100",
   "status": "proved",
   "theorems": [
    "C100_solute",
    "C100_ions"
   ],
   "note": "Proved for chains after any base model; for the models that use ion indices under the hypothesis that construction of the base succeeded."
  },
  {
   "property": "C101",
   "status": "proved",
   "theorems": [
    "C101_species",
    "C101_element"
   ],
   "note": "Proved over every object reached from construction by any updates; amounts of the formula elements through the system's formula matrix."
  },
  {
   "property": "C102",
   "status": "proved",
   "theorems": [
    "C102_agree"
   ],
   "note": "Proved with an arbitrary echelon form, standard models and activity models."
  },
  {
   "property": "C103",
   "status": "partial",
   "theorems": [
    "C103_reversed_partial",
    "C103_refuted",
    "C103_zero_partial"
   ],
   "note": "Refuted: the sign is reversed. C103_reversed_partial: for every echelon form and every half reaction the code's pE is plus the electron's potential over RT ln 10 and Eh the same over F; C103_zero_partial: it agrees with the textbook exactly when that potential is zero. The echelon form of Optima is any matrix with the defining property of an echelon form. alkalinity() always throws."
  },
  {
   "property": "C104",
   "status": "partial",
   "theorems": [
    "C104_one_partial",
    "C104_three_partial",
    "C104_volume",
    "C104_refuted",
    "C104_compressibility",
    "C104_activity"
   ],
   "note": "M_PhaseId, M_CubicEOS. C104_one_partial: with one root the accepted phase is decided by the spinodal volumes and the error branch is unreachable (the polynomial solver is assumed exact for that quartic, which is proved to be the stationarity condition). C104_three_partial: least residual Gibbs energy, when the liquid root exceeds the co-volume. C104_refuted: above the critical temperature the smallest root can be negative, its energy is not a number, the comparison is false and the liquid with negative volume is accepted while the vapour gets exp(100). C104_volume, C104_compressibility (always fails), C104_activity."
  },
  {
   "property": "C105",
   "status": "proved",
   "theorems": [
    "C105_parameters",
    "C105_limiting_law"
   ],
   "note": "C105_parameters: every species of every phase, for tables with distinct keys (C99_builtin: the built-in ones are); C105_limiting_law: ions get -A z^2 sqrt(I), neutral species keep the default slope 0.1, which the documentation of the limiting law does not mention."
  },
  {
   "property": "C106",
   "status": "proved",
   "theorems": [
    "C106_order",
    "C106_solute",
    "C106_last"
   ],
   "note": "C106_order determines the chain completely by recursion on its length; C106_solute and C106_last are about a base model followed by Setschenow models, for every base model. The activity of water is left as the base model gave it, so that a chain is in general not consistent in the sense of Gibbs-Duhem."
  },
  {
   "property": "C107",
   "status": "proved",
   "theorems": [
    "C107_potential",
    "C107_fugacity",
    "C107_gibbs_duhem",
    "C107_accepts",
    "C107_repeated"
   ],
   "note": "M_Gases. C107_potential for every accepted phase, composition, T > 0 and P > 0; C107_fugacity and C107_gibbs_duhem for phases of species with distinct formulas; C107_accepts; C107_repeated: of two species with one formula the second keeps the coefficient stored before the evaluation."
  },
  {
   "property": "C108",
   "status": "partial",
   "theorems": [
    "C108_volume_partial",
    "C108_refuted",
    "C108_water_refuted"
   ],
   "note": "M_Gases. C108_refuted: the excess volume subtracts R T / P with R in bar cm3 and P in Pa, ten times the ideal volume. C108_water_refuted: in every state of the range the coefficient of water is too small, since the code writes ln((v + bH2O)/v) where the mixing rule gives ln((v + bmix)/v). C108_volume_partial: the volume is the one of least Gibbs energy among all volumes above the co-volume (every real root is shown to exceed it in the range), the coefficient of carbon dioxide is right, the exact deviations of the other two, and the six excess properties that are left as they were. Left out: discriminants within 100 epsilon of zero (hypothesis apart), where C44 says what cardano gives."
  },
  {
   "property": "C109",
   "status": "partial",
   "theorems": [
    "C109_equal_charges_partial",
    "C109_triplet_refuted",
    "C109_mixing_refuted",
    "C109_refuted"
   ],
   "note": "M_Pitzer. C109_refuted, with two independent causes: C109_triplet_refuted for every dilution of sodium sulfate with carbon dioxide (the residual is computed; the ions' coefficients lack the zeta term) and C109_mixing_refuted for sodium and calcium chloride (J0 and J1 are step functions while their derivatives enter the osmotic coefficient). C109_equal_charges_partial: the equation holds for every list of species whose ions of one sign have equal charges and that contains none of the three triplets with a zeta parameter, for every path of compositions. The Debye-Hueckel parameter Aphi, interpolated by the code in a table, is an arbitrary function of temperature and pressure that may fail."
  },
  {
   "property": "C110",
   "status": "partial",
   "theorems": [
    "C110_ions_partial",
    "C110_one_sign_refuted",
    "C110_refuted",
    "C110_strong_refuted"
   ],
   "note": "M_Pitzer. C110_refuted with carbon dioxide in water. C110_one_sign_refuted: for every list without cations every evaluation subtracts one from an unsigned size and reads beyond the arrays, and no evaluation succeeds for a list without anions; C110_strong_refuted: beyond argument 10000 of the J tables an evaluation with ions of unequal charge throws. C110_ions_partial: with a cation, an anion and an ionic strength within the tables every evaluation succeeds."
  },
  {
   "property": "C111",
   "status": "partial",
   "theorems": [
    "C111_between_partial",
    "C111_equal_charges_partial",
    "C111_jump_refuted",
    "C111_refuted"
   ],
   "note": "M_Pitzer. C111_jump_refuted: for every positive Debye-Hueckel parameter, dilutions of sodium and calcium chloride have a jump in the activity of water where 24 A sqrt(I) = 9.5, all evaluations nearby succeeding; the tables of J0 and J1 are read without interpolating between their points. C111_between_partial: continuous wherever no argument is a point of the tables; C111_equal_charges_partial: always continuous if the ions of one sign have equal charges."
  },
  {
   "property": "C112",
   "status": "proved",
   "theorems": [
    "C112_limiting_law"
   ],
   "note": "M_Pitzer. For every list with water, a cation and an anion and every proportion of the solutes; the table-driven terms of unequal charges are shown to vanish near zero strength."
  },
  {
   "property": "C113",
   "status": "partial",
   "theorems": [
    "C113_tables_partial",
    "C113_salt_partial",
    "C113_sulfate_refuted",
    "C113_refuted"
   ],
   "note": "M_Pitzer. C113_refuted: SO4-2 instead of SO4-- drops the interactions of carbon dioxide with sulfate; C113_sulfate_refuted gives the difference at every composition. beta0, beta1, beta2 and Cphi are looked up by elements and charge, theta, psi, lambda and zeta by text. C113_tables_partial: no difference if each formula is written the same or in ways absent from the tables; C113_salt_partial: none for a single salt in water."
  },
  {
   "property": "C114",
   "status": "partial",
   "theorems": [
    "C114_hydroxide_refuted",
    "C114_refuted",
    "C114_sulfates_partial"
   ],
   "note": "M_Pitzer. C114_hydroxide_refuted: the line of calcium and hydroxide (-5.72) never has an effect, for any list, condition and composition, since beta2 is only read when both charges are two. C114_sulfates_partial: each of the five other lines matters."
  },
  {
   "property": "C115",
   "status": "partial",
   "theorems": [
    "C115_rounded_partial",
    "C115_exact_partial",
    "C115_again_partial",
    "C115_digits_refuted",
    "C115_refuted",
    "C115_formulas_refuted",
    "C115_unreadable_refuted",
    "C115_models_refuted"
   ],
   "note": "M_DatabaseOut on top of M_DatabaseYaml. C115_refuted, C115_digits_refuted: coefficients go through a text stream with six digits (0.8754321 is read back as 0.875432). C115_formulas_refuted: the suffix of a formula is removed again (FeS(b)(s), then FeS(b), then FeS). C115_unreadable_refuted: a formula that is only a suffix is written as nothing and cannot be loaded. C115_models_refuted: Holland-Powell parameters are lost if kappa0 is zero. C115_rounded_partial: otherwise everything survives and each coefficient is rounded to the nearest number of six digits; C115_exact_partial: exactly if no coefficient has more than six digits; C115_again_partial: what has been written once survives exactly. The documents themselves (text of YAML) are trees; numbers other than coefficients are assumed to be printed so that they are read back, as yaml-cpp does."
  },
  {
   "property": "C116",
   "status": "partial",
   "theorems": [
    "C116_partial",
    "C116_order_partial",
    "C116_refuted",
    "C116_dimer_refuted",
    "C116_lost_refuted",
    "C116_ordered_partial"
   ],
   "note": "M_Phreeqc; the instance that PHREEQC fills when it reads a file is the input. C116_partial: loading never fails, and gives one species per name with the right identity. C116_order_partial: the reactions of all species are right exactly if the order is `Prepared`; C116_ordered_partial: enough is that every species comes after its reactants. C116_refuted, C116_dimer_refuted: createReactants takes the index of a reactant before the recursion that adds the reactant's own reactants, so (CO2)2 of databases/phreeqc/phreeqc.dat is formed from CO3-2. C116_lost_refuted: a phase with the name of a species (Cd(OH)2) is dropped."
  },
  {
   "property": "C117",
   "status": "partial",
   "theorems": [
    "C117_partial",
    "C117_refuted"
   ],
   "note": "Built on C116 and the models of formation reactions. C117_refuted: the constant of 2CO2 = (CO2)2 in phreeqc.dat is off by that of CO2. C117_partial: phases always have the right constants if no species has their name, species if the order is suitable; properties are always computed, and master species have zero energies. The properties of water enter only the volumes and are arbitrary."
  },
  {
   "property": "C118",
   "status": "partial",
   "theorems": [
    "C118_partial",
    "C118_vapour_refuted",
    "C118_refuted",
    "C118_limit_refuted"
   ],
   "note": "M_PhreeqcWater. C118_partial: liquid water above saturation for which nothing is limited. C118_vapour_refuted: at every temperature up to the critical one and every pressure below saturation the density is constant and the compressibility is positive. C118_limit_refuted: temperatures above 350 degC are limited in some terms only, and above 647.096 K the results are not numbers, although the warning says that 350 degC is used. Logarithms of negative numbers and division by zero have unspecified values; the hypotheses of C118_partial exclude them."
  },
  {
   "property": "C119",
   "status": "partial",
   "theorems": [
    "C119_partial",
    "C119_new_partial",
    "C119_retry_refuted",
    "C119_parameter_refuted",
    "C119_refuted",
    "C119_derived_partial"
   ],
   "note": "M_ThermoProps: numbers carry a derivative, models may throw. C119_partial, C119_new_partial: right if parameters are constant, or if the conditions are new. C119_retry_refuted: T and P are stored before the models are evaluated, so that an update that threw, repeated at the same conditions, returns normally with stale data. C119_parameter_refuted: a changed parameter, or a derivative with respect to it, is not followed at the same conditions. C119_derived_partial: entropies and energies."
  },
  {
   "property": "C120",
   "status": "partial",
   "theorems": [
    "C120_partial",
    "C120_same_partial",
    "C120_signed_refuted",
    "C120_neutral_refuted",
    "C120_accepted_refuted",
    "C120_range_partial",
    "C120_order_partial",
    "C120_unclosed_partial",
    "C120_refuted"
   ],
   "note": "M_Naming. C120_partial, C120_same_partial: Ca++, Ca+2 and Ca[2+], for all bases, charges and reachable maps. C120_signed_refuted: the documented Mg[+2] throws. C120_neutral_refuted: every name without - + [ is read out of range. C120_accepted_refuted: Ca[2] is read with charge +1; Na+1 is not an alternative of itself. C120_range_partial: the charge read from any name is an int. C120_unclosed_partial: a name with a bracket that is not closed is refused. C120_order_partial: the alternatives are listed once each in the order of strings."
  },
  {
   "property": "C121",
   "status": "proved",
   "theorems": [
    "C121_notations",
    "C121_order",
    "C121_same"
   ],
   "note": "M_Naming. Fully proved, for all base names without a suffix inside and all reachable maps. C121_order: they are listed once each in the order of strings."
  },
  {
   "property": "C122",
   "status": "partial",
   "theorems": [
    "C122_partial",
    "C122_others_partial",
    "C122_estimates_partial",
    "C122_groups_partial",
    "C122_refuted"
   ],
   "note": "M_Naming (effective_radii, effectiveIonicRadius). C122_partial: every ion of the table in the three notations; C122_others_partial: others by charge, all positive. C122_refuted: Mg[+2] silently gets the radius 2.80 of unknown ions. C122_groups_partial: within a group of the periodic table heavier ions have larger radii, in all of these notations. C122_estimates_partial: radii of other ions are those of Cl-, NH4+ or rounded averages of the table, and grow with the charge."
  },
  {
   "property": "C123",
   "status": "partial",
   "theorems": [
    "C123_partial",
    "C123_missing_refuted",
    "C123_elements_refuted",
    "C123_charge_refuted",
    "C123_refuted"
   ],
   "note": "M_Supcrt (documents are trees of named nodes). C123_partial: every document whose nodes say everything and whose names are distinct is read as stated. C123_missing_refuted: a mineral node without energies (Dickite and 39 others of each shipped database) silently gets 999999 cal/mol. C123_elements_refuted: a missing or odd list of elements is read out of range. C123_charge_refuted: a solute without charge has charge 0 as a species and 999999 in its parameters."
  },
  {
   "property": "C124",
   "status": "partial",
   "theorems": [
    "C124_solvent",
    "C124_gas_partial",
    "C124_range",
    "C124_solute_partial",
    "C124_volume_partial",
    "C124_volume_refuted",
    "C124_mineral_partial",
    "C124_mineral_refuted",
    "C124_refuted"
   ],
   "note": "M_SupcrtModels. C124_solvent, C124_gas_partial, C124_solute_partial, C124_mineral_partial: term by term against the models of the YAML databases (C89). C124_volume_refuted: the factor 1e-5 from J/bar to J/Pa is missing in the Born terms of the volume of solutes; C124_volume_partial gives the exact difference. C124_mineral_refuted: the integral of V dP of minerals is converted with a factor that is 3.8e-5 too large. C124_range: temperatures out of range are refused. The volume of gases is RT/P here and 0 in the YAML databases."
  },
  {
   "property": "C125",
   "status": "partial",
   "theorems": [
    "C125_supcrt_partial",
    "C125_yaml_partial",
    "C125_ideal_refuted",
    "C125_refuted",
    "C125_negative_refuted",
    "C125_cubic_refuted"
   ],
   "note": "M_PhaseEnergy (ChemicalPropsPhase over the reals, with the models of the other files). C125_supcrt_partial: gases of SUPCRT databases with the ideal and the Spycher-Reed models. C125_yaml_partial, C125_ideal_refuted: gases of the YAML databases have standard volume zero, so that the volume lacks RT/P: a phase of ideal gases has volume zero, at all conditions. C125_negative_refuted: with Spycher-Reed it is negative. C125_cubic_refuted: with a cubic equation of state it is right at the first evaluation and zero at the second."
  },
  {
   "property": "C126",
   "status": "partial",
   "theorems": [
    "C126_solution_partial",
    "C126_gas_partial",
    "C126_pure_partial",
    "C126_mixing_refuted",
    "C126_refuted",
    "C126_entropy_refuted"
   ],
   "note": "M_PhaseEnergy. C126_solution_partial, C126_gas_partial: the exact difference is RT times the mean of ln x, for gases plus RT ln(P/bar). C126_pure_partial: right for phases of one species. C126_mixing_refuted: wrong for every ideal solution of two or more species. C126_entropy_refuted: the entropy of ideal gases does not depend on the pressure."
  },
  {
   "property": "C127",
   "status": "partial",
   "theorems": [
    "C127_text_partial",
    "C127_catalyst_partial",
    "C127_convert_partial",
    "C127_quantity_partial",
    "C127_refused_partial",
    "C127_order_partial",
    "C127_documented_refuted",
    "C127_blank_refuted",
    "C127_words_refuted",
    "C127_numbers_refuted",
    "C127_equality_refuted",
    "C127_refuted"
   ],
   "note": "M_Mechanism (MineralMechanism, MineralCatalyst; numbers are decimal texts, 10^logk is real). C127_text_partial: every text with semicolons has the mechanism it describes, whatever the blanks, the units, the order and the number of its entries. C127_convert_partial: real values are converted as rational ones. C127_catalyst_partial, C127_quantity_partial: catalysts. C127_refused_partial: texts with an unknown entry are refused. C127_order_partial: catalysts keep the order of the text. C127_documented_refuted: both examples of the documentation, which have commas, throw. C127_blank_refuted: so does a blank after the last semicolon. C127_words_refuted: 'logk', 'p =' and 'a[]=1' read past the end of the words. C127_numbers_refuted: texts that are not numbers count as zero and superfluous units are dropped. C127_equality_refuted: operator== looks at the rate constant (the species) only."
  },
  {
   "property": "C128",
   "status": "partial",
   "theorems": [
    "C128_fluid_partial",
    "C128_heat_refuted",
    "C128_mineral_partial",
    "C128_pressure_refuted",
    "C128_mineral_heat_refuted",
    "C128_compressible_refuted",
    "C128_solute_partial",
    "C128_solute_units_partial",
    "C128_entropy_refuted",
    "C128_water_partial",
    "C128_water_refuted",
    "C128_refuted"
   ],
   "note": "M_Supcrtbl. C128_fluid_partial: fluids, all but the heat capacity. C128_heat_refuted: Cp stays in kJ/(mol*K), a thousandth of dH/dT, and Cv = Cp - R mixes units. C128_mineral_partial: minerals, with dG/dP and H - U a thousand times V and PV (C128_pressure_refuted); dG/dT = -S and dH/dT = Cp when there is no thermal expansion (C128_mineral_heat_refuted otherwise). C128_compressible_refuted: kappa is in kbar but the pressures in bar, so that minerals are a thousand times too compressible. C128_solute_units_partial: heat capacity and volume of solutes, name and charge. C128_solute_partial, C128_entropy_refuted: the entropy of solutes, in J/(mol*K), is passed on as if in cal/(mol*K). C128_water_partial, C128_water_refuted: the parameters of water are not used."
  },
  {
   "property": "C129",
   "status": "partial",
   "theorems": [
    "C129_chemical_partial",
    "C129_porous_partial",
    "C129_no_copies_partial",
    "C129_porous_refuted",
    "C129_refuted"
   ],
   "note": "M_Copies: objects are pointers into memory; copies allocate. C129_chemical_partial: any program does with ChemicalState objects what it does with values (no sharing). C129_porous_partial: so it does with PorousRockState objects, but copies and assignments give the standard conditions and zero amounts (C129_porous_refuted). C129_no_copies_partial: without copies the classes behave the same."
  },
  {
   "property": "C130",
   "status": "partial",
   "theorems": [
    "C130_elements_partial",
    "C130_phases_partial",
    "C130_from_phreeqc_partial",
    "C130_reactions_partial",
    "C130_conserved_partial",
    "C130_valences_refuted",
    "C130_twice_refuted",
    "C130_refuted"
   ],
   "note": "M_PhreeqcObject (the data of PHREEQC after a script is the input). C130_elements_partial: elements summed over their valences, charges and molar masses are those of PHREEQC's formulas. C130_from_phreeqc_partial: the species, gases, minerals and reactions are exactly those of PHREEQC, and the electron is added when a reaction has it. C130_phases_partial: phases partition the species. C130_reactions_partial: the matrix has the coefficients of the equations when species have different names. C130_conserved_partial: balanced reactions conserve elements summed over valences, and each row when no element is redox. C130_valences_refuted: H2S(g) counts its sulfur as S(6). C130_twice_refuted: a gas that is also in EQUILIBRIUM_PHASES is mistaken for the first of its name."
  },
  {
   "property": "C131",
   "status": "partial",
   "theorems": [
    "C131_history_partial",
    "C131_scripts_partial",
    "C131_mass_action_partial",
    "C131_standard_partial",
    "C131_volumes_partial",
    "C131_coefficients_partial",
    "C131_dry_refuted",
    "C131_absent_refuted",
    "C131_constants_refuted",
    "C131_temperature_refuted",
    "C131_gases_refuted",
    "C131_refuted"
   ],
   "note": "M_PhreeqcState over the reals; constants, volumes, activity coefficients and the equation of state of PHREEQC are functions of the variables that the object sets (its own caches are not modelled: its source is not in the repository). C131_mass_action_partial: Gibbs energies and activities after set(T, P, n) satisfy the mass action equations of PHREEQC's activities and constants, for positive amounts. C131_history_partial: with water the state after set(T, P, n) does not depend on what was done before. C131_scripts_partial, C131_standard_partial, C131_volumes_partial, C131_coefficients_partial: scripts after scripts, standard properties, volumes of phases, activity coefficients and constants. C131_dry_refuted, C131_absent_refuted, C131_constants_refuted, C131_temperature_refuted, C131_gases_refuted: each of the other clauses fails."
  },
  {
   "property": "C132",
   "status": "partial",
   "theorems": [
    "C132_result_partial",
    "C132_problem_partial",
    "C132_plain_partial",
    "C132_seeded_partial",
    "C132_unknown_partial",
    "C132_columns_partial",
    "C132_derivatives_partial",
    "C132_from_state_partial",
    "C132_from_state_refused_partial",
    "C132_guess_partial",
    "C132_start_partial",
    "C132_failure_partial",
    "C132_conservation_partial",
    "C132_refuted",
    "C132_failure_refuted",
    "C132_again_refuted",
    "C132_stale_refuted",
    "C132_start_refuted",
    "C132_inputs_refuted"
   ],
   "note": "M_Solve: numbers are pairs of value and derivative; the optimizer is any function from problem and start to requests, last state and success. C132_result_partial: the returned state. C132_problem_partial: the matrices, inputs, bounds and start given to the optimizer. C132_from_state_partial, C132_from_state_refused_partial: conditions from a state. C132_conservation_partial: elements and charge, at given T and P. C132_columns_partial, C132_derivatives_partial: second derivatives, right for inputs without derivatives. C132_plain_partial: given T and P stay without derivatives if the last evaluation wants none in the inputs. C132_seeded_partial, C132_unknown_partial: otherwise the last input (an unknown pressure) is left with derivative one in the state. C132_refuted, C132_again_refuted, C132_stale_refuted: every further calculation from such a state has the columns J(e_j + e_P). C132_guess_partial: T and P of the given state never matter. C132_start_partial, C132_start_refuted: the start can have too few unknowns. C132_failure_partial, C132_failure_refuted: what an error can change. C132_inputs_refuted: inputs that a state does not have are zero."
  },
  {
   "property": "C133",
   "status": "partial",
   "theorems": [
    "C133_covered",
    "C133_bounds",
    "C133_pressure",
    "C133_temperature_refuted",
    "C133_temperature_partial",
    "C133_tabulated"
   ],
   "note": "Proved: exact region, bounds, tabulated values, monotonicity in pressure of A and bNaCl. Refuted: A and B rise with temperature (C133_temperature_refuted: at 250 bar A falls from 2.2948 at 375 C to 1.8509 at 400 C, because the table repeats the column of 500 bar there); proved from 500 bar on and up to 375 C at any pressure (C133_temperature_partial)."
  },
  {
   "property": "C134",
   "status": "partial",
   "theorems": [
    "C134_pressure",
    "C134_pressure_rises",
    "C134_liquid",
    "C134_liquid_falls",
    "C134_vapour_partial",
    "C134_vapour_refuted",
    "C134_liquid_positive_refuted"
   ],
   "note": "Proved: pressure and liquid density equal their equations, all claims of order. Refuted: the vapour density (C134_vapour_refuted): the code multiplies the exponent by Tc/T, which that equation does not have, so that the result is dc*(d/dc)^(Tc/T) for the density d of the equation and too low at every temperature under the critical one (C134_vapour_partial); and the density of the liquid is negative at low temperatures (C134_liquid_positive_refuted: at about 92 K)."
  },
  {
   "property": "C135",
   "status": "partial",
   "theorems": [
    "C135_header_partial",
    "C135_columns_partial",
    "C135_aligned_partial",
    "C135_printed_partial",
    "C135_safe_partial",
    "C135_rows_partial",
    "C135_entries_partial",
    "C135_separator_refuted",
    "C135_inactive_refuted",
    "C135_stuck_partial",
    "C135_refuted"
   ],
   "note": "M_Outputter (printing of numbers is the stream's). C135_header_partial: the three lines of the header. C135_columns_partial: the widths of a row. C135_aligned_partial: rows are aligned without separators or with short names. C135_printed_partial, C135_safe_partial, C135_rows_partial: when rows are printed, refused, and loops. C135_entries_partial: names of indexed entries differ. C135_separator_refuted: after a separator the values have the widths of other columns (the iterator over the entries does not skip separators). C135_inactive_refuted, C135_stuck_partial: values added while the output is off stay, and every later row fails. C135_refuted: the statement."
  },
  {
   "property": "C136",
   "status": "partial",
   "theorems": [
    "C136_species_partial",
    "C136_mass_partial",
    "C136_elements_partial",
    "C136_total_partial",
    "C136_negative_partial",
    "C136_states_partial",
    "C136_blind_refuted",
    "C136_states_refuted",
    "C136_undefined_refuted",
    "C136_values_partial",
    "C136_absent_partial",
    "C136_derivatives_partial",
    "C136_derivatives_refuted",
    "C136_refuted"
   ],
   "note": "Refuted: createSpecies never sets the aggregate state (the line is commented out) and a default-constructed Species leaves it uninitialised, so loading any non-empty file reads an unset value (C136_undefined_refuted); whatever the memory holds, the states of the file are not read (C136_blind_refuted, C136_states_refuted). The derivatives of the standard properties in T and P are dropped (C136_derivatives_refuted; C136_derivatives_partial says exactly when they are right). Proved for every content of the memory: names, formulas, elements without Zz, charges, molar masses, elements of the database, values and units of the properties, refusals. ThermoFun's parser and engine are parameters."
  },
  {
   "property": "C137",
   "status": "partial",
   "theorems": [
    "C137_conditions_partial",
    "C137_amounts_partial",
    "C137_state_partial",
    "C137_stale_refuted",
    "C137_second_refuted",
    "C137_both_refuted",
    "C137_gone_refuted",
    "C137_critical_partial",
    "C137_positive_partial",
    "C137_refuted"
   ],
   "note": "Refuted: the amount of a phase is its moles_x if positive and the moles of its unknown otherwise. The object itself writes moles_x of minerals, so if PHREEQC leaves it alone during the next script the amount of a mineral stays that of the first script (C137_stale_refuted, for all scripts; C137_second_refuted, a case); a gas that is in the assemblage too is counted twice (C137_both_refuted), and a gas whose phase is gone gets the amount of the assemblage (C137_gone_refuted). Proved: temperature, pressure within 1e-4 Pa per atm of 101325, aqueous amounts, order, the exact amounts in all cases (C137_amounts_partial), the whole state under the exact conditions (C137_state_partial), critical properties. PHREEQC's work on a script is an arbitrary function."
  },
  {
   "property": "C138",
   "status": "partial",
   "theorems": [
    "C138_given_partial",
    "C138_refused_partial",
    "C138_asserts_partial",
    "C138_positive_partial",
    "C138_table_partial",
    "C138_elements_partial",
    "C138_radon_refuted",
    "C138_case_refuted",
    "C138_refuted",
    "C138_isomer_refuted",
    "C138_mixed_refuted",
    "C138_empty_refuted"
   ],
   "note": "Refuted: the table gives radon the symbol Ra, so Rn(g) is refused and Ra(g) gets radon's values (C138_radon_refuted); letter case is dropped from formulas, so Co(g) gets the values of CO and Cs2(g) those of CS2 (C138_case_refuted, C138_refuted); a substance that is not listed gets the values of another one with its formula (C138_isomer_refuted); only the first species is asked for its state (C138_mixed_refuted); no species is undefined (C138_empty_refuted). Proved for all registries: exactly what is accepted and given, refusals, the assertions of the equation; for the built-in table: positive values, every name of every line in any letter case, formulas of elements other than radon."
  },
  {
   "property": "C139",
   "status": "partial",
   "theorems": [
    "C139_covered",
    "C139_bounds",
    "C139_temperature",
    "C139_pressure",
    "C139_nodes",
    "C139_slopes_partial",
    "C139_refuted"
   ],
   "note": "M_PitzerTables. C139_covered, C139_bounds, C139_temperature, C139_pressure, C139_nodes: all of the statement about the table itself, for all temperatures and pressures. C139_refuted: at 350 \u00b0C and 200 bar the slopes of the two models differ by 8 percent. C139_slopes_partial: up to 300 \u00b0C at every pressure, and from 400 bar on at every temperature, they agree within 5 percent; what is missing is the corner above 300 \u00b0C and below 400 bar, where the statement is refuted."
  },
  {
   "property": "C140",
   "status": "partial",
   "theorems": [
    "C140_new_partial",
    "C140_copy_partial",
    "C140_assign_partial",
    "C140_chemical_partial",
    "C140_throws_partial",
    "C140_temperature_refuted",
    "C140_refuted"
   ],
   "note": "M_PorousRock. C140_refuted, C140_temperature_refuted: no copy or assignment keeps a temperature other than 25 \u00b0C, for any system. C140_copy_partial, C140_assign_partial: system kept, everything else reset; the copy agrees exactly if nothing was set. C140_new_partial: new states; C140_chemical_partial: copies as chemical states are whole; C140_throws_partial: setters of rocks always throw and change nothing."
  },
  {
   "property": "C141",
   "status": "partial",
   "theorems": [
    "C141_components_partial",
    "C141_found_partial",
    "C141_nodes_partial",
    "C141_linear_partial",
    "C141_range_partial",
    "C141_none_refuted",
    "C141_single_refuted",
    "C141_missing_refuted",
    "C141_refuted"
   ],
   "note": "M_Interpolate. C141_components_partial, C141_found_partial, C141_nodes_partial, C141_linear_partial, C141_range_partial: all of the statement about functions, for all axes, functions and histories. C141_single_refuted, C141_missing_refuted, C141_refuted: data that do not fit are not refused. C141_none_refuted: without functions no point is out of range."
  },
  {
   "property": "C142",
   "status": "partial",
   "theorems": [
    "C142_locale_partial",
    "C142_same_partial",
    "C142_value_partial",
    "C142_refused_partial",
    "C142_database_partial",
    "C142_documented_refuted",
    "C142_refuted"
   ],
   "note": "M_SupcrtLocale. C142_locale_partial, C142_same_partial, C142_value_partial: all of the statement about the locale, for every reader of numbers. C142_refused_partial, C142_database_partial: the names accepted are those of the files, with extension. C142_documented_refuted, C142_refuted: every documented name is refused, and so is every name that the error of Database::withName lists as supported. Threads that change the locale are not modelled."
  },
  {
   "property": "C143",
   "status": "proved",
   "theorems": [
    "C143_reactions",
    "C143_phases",
    "C143_one",
    "C143_runs",
    "C143_kept",
    "C143_species",
    "C143_order"
   ],
   "note": "M_Shared. C143_reactions, C143_phases: every program reads what its meaning without sharing says; C143_one: that meaning is unique; C143_runs: programs on reactions run to their end; C143_kept: variables that are not assigned keep their values; C143_species: aggregate states and molar masses of phases; C143_order: comparisons. An empty list given to withSpecies is read out of bounds (C22, UB in the model) and is outside of the theorems."
  },
  {
   "property": "C144",
   "status": "partial",
   "theorems": [
    "C144_location_partial",
    "C144_line_partial",
    "C144_message_partial",
    "C144_elsewhere_refuted",
    "C144_refuted"
   ],
   "note": "M_Exception. C144_location_partial: the place, for paths with a directory Reaktoro; C144_line_partial: the line is always there, after a part of the path; C144_message_partial: the message as a whole. C144_elsewhere_refuted, C144_refuted: the name of the file is missing if the path has no directory Reaktoro, as for programs that use the macros, and for all paths written with backslashes."
  },
  {
   "property": "C145",
   "status": "partial",
   "theorems": [
    "C145_values_partial",
    "C145_one_partial",
    "C145_masses_partial",
    "C145_order_partial",
    "C145_isotopes_refuted",
    "C145_refuted"
   ],
   "note": "M_Elements on the heap of M_Shared. C145_values_partial, C145_one_partial: every program reads what its meaning without sharing says; C145_masses_partial: masses are not negative; C145_order_partial: == compares all attributes and < the symbols, consistent for different symbols. C145_isotopes_refuted, C145_refuted: two elements with one symbol that differ otherwise are neither equal nor ordered."
  }
 ]
}