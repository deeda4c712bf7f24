{"id": "C01", "title": "Chemical formulas parse to their additive composition", "statement": "For every formula written with element symbols with optional subscripts and parenthesised groups with optional multipliers, the parsed list of (element, coefficient) pairs names each element exactly once, in order of first appearance, and gives it the sum over its occurrences of its subscript times all multipliers that enclose it.", "quantifier": "all formula expressions of any nesting depth and length, all subscripts", "why_tests_cant": "The formula language is infinite and recursive; tests only sample a few dozen formulas.", "anchors": ["Reaktoro/Common/ParseUtils.cpp: parseChemicalFormula, parseElementalFormulaAux"]}
{"id": "C02", "title": "Parsing an arbitrary formula string is memory safe", "statement": "Constructing a formula from any string either produces a composition or raises an error; it never reads outside the string.", "quantifier": "all strings", "why_tests_cant": "A crash or out-of-bounds read on one malformed string among infinitely many is not excluded by sampled tests.", "anchors": ["Reaktoro/Common/ParseUtils.cpp: findMatchedParenthesis, parseChemicalFormula"]}
{"id": "C03", "title": "All charge notations denote the same charge", "statement": "For any substance name body and any charge magnitude n >= 1, the notations with n repeated signs, with a sign followed by the number, and with a bracketed number and sign all yield the same electric charge (+n or -n), regardless of an aggregate-state suffix such as (aq).", "quantifier": "all name bodies not containing sign or bracket characters, all n >= 1, both signs", "why_tests_cant": "The set of names and charge magnitudes is unbounded.", "anchors": ["Reaktoro/Common/ParseUtils.cpp: parseElectricCharge", "Reaktoro/Common/NamingUtils.cpp: splitSpeciesNameSuffix"]}
{"id": "C04", "title": "Parsing an electric charge from an arbitrary string is memory safe", "statement": "Extracting the charge from any string either produces a number or raises an error; it never reads outside the string. A name without charge notation yields charge 0.", "quantifier": "all strings", "why_tests_cant": "One malformed string among infinitely many suffices for an out-of-bounds read.", "anchors": ["Reaktoro/Common/ParseUtils.cpp: parseElectricCharge"]}
{"id": "C05", "title": "Formula equivalence is an equivalence relation that ignores order", "statement": "Two formulas are equivalent exactly when they have the same charge and assign the same coefficient to every element; on compositions that list each element once this relation is reflexive, symmetric and transitive and does not depend on the order of elements.", "quantifier": "all pairs and triples of compositions and charges", "why_tests_cant": "Reflexivity, symmetry and transitivity quantify over all pairs and triples.", "anchors": ["Reaktoro/Core/ChemicalFormula.cpp: equivalent"]}
{"id": "C06", "title": "Making names unique yields distinct names", "statement": "Given any list of words and a non-empty suffix, the result has the same length, every result word is the original word followed by zero or more copies of the suffix, the first occurrence of every word is unchanged, and all result words are pairwise distinct.", "quantifier": "all lists of words, all non-empty suffixes", "why_tests_cant": "Distinctness must hold for every combination of repeated and suffix-like words; collisions appear only in unusual inputs.", "anchors": ["Reaktoro/Common/StringUtils.cpp: makeunique"]}
{"id": "C07", "title": "Splitting and joining word lists are inverse", "statement": "Splitting a string at a set of delimiter characters returns exactly the maximal non-empty runs of non-delimiter characters in order; joining words that contain no delimiter and splitting again returns the same words; a bracketed string list splits only at tokens outside parentheses and loses no character.", "quantifier": "all strings, delimiter sets and word lists", "why_tests_cant": "Strings are unbounded.", "anchors": ["Reaktoro/Common/StringUtils.hpp: split, join", "Reaktoro/Common/StringList.cpp: StringList"]}
{"id": "C08", "title": "Substring replacement replaces every non-overlapping occurrence", "statement": "Replacing a non-empty substring by another text in any string terminates and yields the text in which the left-to-right non-overlapping occurrences of the substring, and nothing else, were replaced, even when the new text contains the old substring; an empty substring leaves the string unchanged.", "quantifier": "all strings, substrings and replacement texts", "why_tests_cant": "Termination and exactness must hold for self-overlapping and self-containing replacements of any length.", "anchors": ["Reaktoro/Common/StringUtils.cpp: replace"]}
{"id": "C09", "title": "Reaction equations parse to signed stoichiometry and print back", "statement": "A reaction equation string with reactants left and products right of '=' is read as negative coefficients for reactants and positive ones for products in the order written; converting the equation to a string and reading it again gives the same equation.", "quantifier": "all lists of reactants and products with arbitrary names without spaces and all positive coefficients", "why_tests_cant": "The round trip must hold for every equation, not for the few printed in tests.", "anchors": ["Reaktoro/Core/ReactionEquation.cpp: ReactionEquation, operator std::string"]}
{"id": "C10", "title": "Molar mass is additive in composition and corrects for electrons", "statement": "The molar mass of a species is the sum over its elements of coefficient times element molar mass, minus its charge times the electron molar mass; merging two compositions adds their masses, and scaling a composition scales its mass.", "quantifier": "all compositions and charges", "why_tests_cant": "Additivity is a statement about all compositions.", "anchors": ["Reaktoro/Core/ElementalComposition.cpp: molarMass, coefficient", "Reaktoro/Core/Species.cpp: molarMass"]}
{"id": "C11", "title": "Unit conversion is an invertible, transitive, affine change of scale", "statement": "Whenever two units are convertible, converting a value from one to the other and back returns the value, converting through a third convertible unit gives the same value as converting directly, and conversion is strictly increasing; this includes temperature scales with offsets.", "quantifier": "all unit strings accepted by the library, all values", "why_tests_cant": "The unit strings form an infinite language and values are unbounded.", "anchors": ["Reaktoro/Common/Units.cpp: slope, intercept, convertible", "Reaktoro/Common/Units.hpp: convert"]}
{"id": "C12", "title": "Composite unit expressions are evaluated with the documented precedence", "statement": "For every unit expression built from known units with *, / and parentheses, the conversion factor and the physical dimension are those of the product and quotient read left to right with parentheses grouping.", "quantifier": "all unit expressions of any depth", "why_tests_cant": "Expressions are recursive and unbounded.", "anchors": ["Reaktoro/Common/Units.cpp: parseUnit, findMatchedParenthesis, factor, dimension"]}
{"id": "C13", "title": "Malformed unit strings are rejected", "statement": "A string that is not a well-formed unit expression over known units is reported by an exception; it is never silently interpreted as another unit and never read out of bounds.", "quantifier": "all strings", "why_tests_cant": "Negative behaviour must be excluded for the whole complement of the unit language.", "anchors": ["Reaktoro/Common/Units.cpp: parseUnit"]}
{"id": "C14", "title": "Built-in derived units have their SI dimensions", "statement": "Every entry of the built-in unit tables resolves, without cyclic definitions, to base SI dimensions, and entries with an SI definition have exactly that dimension and a positive factor.", "quantifier": "all entries of the built-in unit tables", "why_tests_cant": "The tables are large and only a handful of entries are exercised by tests.", "anchors": ["Reaktoro/Common/Units.cpp: derivedUnitsMap, lengthUnitsMap, massUnitsMap"]}
{"id": "C15", "title": "Filter, set and index helpers implement their set-theoretic meaning", "statement": "The index of an element is that of its first match or the size of the container when absent; filtering and removing partition a container preserving order; union is sorted without repetition; intersection, difference, containment, disjointness and identity agree with set membership; positive-step integer ranges list first, first+step, ... strictly below last.", "quantifier": "all containers, predicates and ranges", "why_tests_cant": "Containers and predicates are unbounded.", "anchors": ["Reaktoro/Common/Algorithms.hpp: index, indexfn, filter, remove, unique, merge, intersect, difference, contained, disjoint, identical, range"]}
{"id": "C16", "title": "A database never holds two species with the same name nor two elements with the same symbol", "statement": "After any sequence of species and element insertions, species names are pairwise distinct, element symbols are pairwise distinct, every element of every species is present, earlier species are unchanged and in insertion order, and selecting by aggregate state returns exactly the matching species in order.", "quantifier": "all histories of insertions", "why_tests_cant": "Uniqueness must survive every insertion history including adversarial suffixes.", "anchors": ["Reaktoro/Core/Database.cpp: addSpecies, addElement, speciesWithAggregateState"]}
{"id": "C17", "title": "Loading a database document terminates and keeps definition-before-use order", "statement": "For every database document, loading terminates; each species appears once and after the species used in its formation reaction, and every element used is defined.", "quantifier": "all documents, including recursive formation reactions", "why_tests_cant": "Termination and ordering depend on the shape of the dependency graph, which is unbounded.", "anchors": ["Reaktoro/Serialization/Core.YAML.cpp, Reaktoro/Databases/DatabaseParserYAML.cpp: addSpecies, createFormationReaction"]}
{"id": "C18", "title": "Species list queries select exactly the documented species", "statement": "Selecting species with names, formulas, substances, elements, aggregate state or tags returns exactly the species that satisfy the criterion, and excluding species with tags returns exactly those without them.", "quantifier": "all species lists and selection criteria", "why_tests_cant": "Lists and criteria are unbounded.", "anchors": ["Reaktoro/Core/SpeciesList.cpp: withNames, withFormulas, withAggregateState, withElements, withTag, withTags, withoutTag, withoutTags"]}
{"id": "C19", "title": "Global species numbering is consistent with phases", "statement": "For any list of phases, the global index of a species lies in exactly one phase, the phase found for it satisfies offset <= index < offset + size, and (phase, local index) pairs are in bijection with global indices.", "quantifier": "all phase lists, including phases with zero species, and all indices", "why_tests_cant": "Off-by-one errors show only for particular size patterns.", "anchors": ["Reaktoro/Core/PhaseList.cpp: findWithSpecies, numSpeciesUntilPhase", "Reaktoro/Core/ChemicalSystem.cpp"]}
{"id": "C20", "title": "The formula matrix conserves elements and charge", "statement": "Entry (j,i) of the formula matrix is the coefficient of element j in species i and the last row holds species charges; consequently for any amounts, total mass computed from element amounts (with the electron correction) equals total mass computed from species amounts.", "quantifier": "all chemical systems and all amount vectors", "why_tests_cant": "The identity must hold for all systems and all amounts.", "anchors": ["Reaktoro/Core/ChemicalSystem.cpp: detail::formulaMatrix, ChemicalSystem::Impl", "Reaktoro/Core/Species.cpp: molarMass"]}
{"id": "C21", "title": "Species and phase names are unique in a chemical system and agree with its phases", "statement": "In every constructed chemical system all species names are distinct, all phase names are distinct, and the species reported by a phase have the same names as the corresponding global species.", "quantifier": "all lists of phases", "why_tests_cant": "Collisions occur only for unusual name patterns.", "anchors": ["Reaktoro/Core/ChemicalSystem.cpp: detail::fixDuplicateNames", "Reaktoro/Core/Phases.cpp: convert"]}
{"id": "C22", "title": "Phase construction handles every species selection safely", "statement": "Building a phase from any selection of database species either produces a phase whose species all share one aggregate state or raises an error.", "quantifier": "all databases and selections, including empty selections", "why_tests_cant": "Empty or mixed selections arise only for particular databases.", "anchors": ["Reaktoro/Core/Phase.cpp: withSpecies", "Reaktoro/Core/Phases.cpp: GenericPhase::convert"]}
{"id": "C23", "title": "Memoized functions are observationally equal to the original", "statement": "For every pure function and every sequence of calls, a memoized version returns in each call exactly what the original would return, including when the original raises errors and when memoization is switched on and off between calls.", "quantifier": "all functions, all call histories, all on/off schedules", "why_tests_cant": "Stale-cache bugs depend on the history of calls.", "anchors": ["Reaktoro/Common/Memoization.hpp: memoize, memoizeLast, memoizeLastUsingRef, Memoization"]}
{"id": "C24", "title": "Model parameters are shared by copies and isolated by clones", "statement": "Assigning a new value through one handle of a parameter is visible through every copy of that handle and through no clone, and evaluating a model after a parameter change uses the new value.", "quantifier": "all histories of copy, clone, assignment and evaluation", "why_tests_cant": "Aliasing depends on the sequence of copies and assignments.", "anchors": ["Reaktoro/Core/Param.cpp", "Reaktoro/Core/Params.cpp", "Reaktoro/Core/Model.hpp: Model"]}
{"id": "C25", "title": "A chemical state is always physically valid", "statement": "After any sequence of successful state updates the temperature and pressure are positive, the number of species amounts equals the number of species, an update changes only the quantity it names, setting a species mass and reading the amount are consistent, and a rejected update leaves the state unchanged.", "quantifier": "all histories of state updates", "why_tests_cant": "Invariants over all histories cannot be sampled.", "anchors": ["Reaktoro/Core/ChemicalState.cpp: setTemperature, setPressure, setSpeciesAmount, setSpeciesMass, setSpeciesAmounts"]}
{"id": "C26", "title": "Element amounts are linear in species amounts and additive over phases", "statement": "Element amounts in the system equal the sum of element amounts in its phases, are linear in species amounts, and are not affected by reordering the calls that set individual species amounts.", "quantifier": "all systems and amounts", "why_tests_cant": "Linear identities quantify over all vectors.", "anchors": ["Reaktoro/Core/ChemicalState.cpp: elementAmounts, setSpeciesAmount, setSpeciesMass"]}
{"id": "C27", "title": "Mole fractions of a phase are a probability distribution", "statement": "For any non-negative species amounts of a phase with positive total the mole fractions are non-negative and sum to one; if the total is zero they are one for a single-species phase and zero otherwise; their Jacobians have the documented closed form.", "quantifier": "all amount vectors of any length", "why_tests_cant": "Requires all vectors, including zero and one-species phases.", "anchors": ["Reaktoro/Core/ChemicalPropsPhase.hpp: update", "Reaktoro/Common/MoleFractionUtils.hpp"]}
{"id": "C28", "title": "Phase properties serialize and deserialize without loss or overlap", "statement": "Writing the properties of any list of phases to a flat stream and reading them back restores every scalar and array in its place, for every number and size of phases.", "quantifier": "all property sets and phase sizes", "why_tests_cant": "Offsets can overlap for particular size patterns only.", "anchors": ["Reaktoro/Core/ChemicalProps.cpp: serialize, deserialize", "Reaktoro/Common/ArrayStream.hpp: ArrayStream"]}
{"id": "C29", "title": "System properties are sums over phases", "statement": "Volume, Gibbs energy, enthalpy, entropy, internal energy and Helmholtz energy of the system equal the sums over species of amount times standard property plus the sums over phases of amount times excess property, obey S = (H-G)/T, U = H-PV and A = U-TS, and the view of each phase holds its own amounts, mole fractions and chemical potentials u = G0 + RT ln a.", "quantifier": "all systems, states and activity models", "why_tests_cant": "Requires all systems.", "anchors": ["Reaktoro/Core/ChemicalProps.cpp", "Reaktoro/Core/ChemicalPropsPhase.hpp"]}
{"id": "C30", "title": "Equilibrium problem specifications stay internally consistent", "statement": "After any sequence of specification calls that succeed, input names are distinct, constraint identifiers are distinct, each chemical-potential constraint has exactly one implicit titrant, titrants are pairwise non-equivalent, and every parameter input refers to its own entry; specifications whose numbers of unknowns and constraints disagree are rejected before solving.", "quantifier": "all histories of specification calls", "why_tests_cant": "Combinations of constraints are unbounded.", "anchors": ["Reaktoro/Equilibrium/EquilibriumSpecs.cpp", "Reaktoro/Equilibrium/EquilibriumDims.cpp"]}
{"id": "C31", "title": "A rejected specification call has no effect", "statement": "If a specification call raises an error the specification is the same as before the call.", "quantifier": "all histories of specification calls", "why_tests_cant": "Exception safety must hold at every failing call of every history.", "anchors": ["Reaktoro/Equilibrium/EquilibriumSpecs.cpp: Eh, pE, fugacity, addConstraint, addInput"]}
{"id": "C32", "title": "Equilibrium conditions set exactly the named input in SI units", "statement": "Each condition setter succeeds exactly when the corresponding input was registered, converts the given value from the given unit, stores it in that input and changes no other; setting start amounts by species and by components are mutually exclusive and the last call wins.", "quantifier": "all registered inputs and histories of setter calls", "why_tests_cant": "Every setter, unit and history must be covered.", "anchors": ["Reaktoro/Equilibrium/EquilibriumConditions.cpp"]}
{"id": "C33", "title": "Reactivity restrictions are last-call-wins per species and direction", "statement": "After any sequence of restriction calls, the bounds of each species are those implied by the last call concerning that species and direction, a species is never simultaneously forbidden to increase and limited to increase up to a value, and other species are unaffected.", "quantifier": "all histories of restriction calls", "why_tests_cant": "Histories are unbounded.", "anchors": ["Reaktoro/Equilibrium/EquilibriumRestrictions.cpp"]}
{"id": "C34", "title": "The optimization problem encodes element conservation and restrictions", "statement": "For every specification, the assembled linear constraints hold exactly when the amounts of each element in species plus explicit and implicit titrants equal the given component amounts, and the assembled bounds are those required by the restrictions and by the configured smallest amount of a species.", "quantifier": "all systems, specifications and restrictions", "why_tests_cant": "Matrix assembly must be right for all column layouts.", "anchors": ["Reaktoro/Equilibrium/EquilibriumSetup.cpp: assembleMatrixAex, assembleMatrixAep, assembleVectorBe, assembleLowerBoundsVector, assembleUpperBoundsVector"]}
{"id": "C35", "title": "Temperature and pressure are read from the right place", "statement": "For every reachable specification the temperature and pressure used in evaluating properties are the input values when they are inputs and the corresponding unknowns otherwise, consistently in the evaluation of properties and in the first-order predictor.", "quantifier": "all reachable specifications", "why_tests_cant": "Depends on the order in which inputs and unknowns were registered.", "anchors": ["Reaktoro/Equilibrium/EquilibriumProps.cpp: update", "Reaktoro/Equilibrium/EquilibriumPredictor.cpp: predict"]}
{"id": "C36", "title": "The first-order predictor is exact at the reference and affine in the conditions", "statement": "Predicting at the reference conditions returns the reference state, the predicted amounts and potentials are affine in the changes of inputs and component amounts with the stored sensitivities as slopes, and mass balance of the reference is preserved when sensitivities satisfy it.", "quantifier": "all reference states, sensitivities and conditions", "why_tests_cant": "Affinity is a statement over all inputs.", "anchors": ["Reaktoro/Equilibrium/EquilibriumPredictor.cpp: predict"]}
{"id": "C37", "title": "Temporarily substituted parameters are restored", "statement": "Evaluating equilibrium properties with parameters as inputs leaves every model parameter with the value it had before, whatever happens during the evaluation.", "quantifier": "all parameter sets, all evaluations including failing ones", "why_tests_cant": "Must hold at every failure point.", "anchors": ["Reaktoro/Equilibrium/EquilibriumProps.cpp: update"]}
{"id": "C38", "title": "Sensitivity queries address the right column", "statement": "Derivatives with respect to a named input return the stored column of that input and unknown names are rejected; setters accept only matrices of matching dimensions.", "quantifier": "all specifications and names", "why_tests_cant": "All names and dimension patterns.", "anchors": ["Reaktoro/Equilibrium/EquilibriumSensitivity.cpp"]}
{"id": "C39", "title": "Bilinear interpolation is exact, bounded and monotone in the data", "statement": "Inside the grid, interpolation returns the data at grid points, reproduces every bilinear function exactly, lies between the smallest and largest surrounding data, and points outside the grid are rejected.", "quantifier": "all grids with strictly increasing coordinates, all data, all points", "why_tests_cant": "Grids, data and points are continuous and unbounded.", "anchors": ["Reaktoro/Math/BilinearInterpolator.cpp: operator()"]}
{"id": "C40", "title": "Lagrange interpolation reproduces the data and low-degree polynomials", "statement": "Interpolation returns the data at the nodes and reproduces every polynomial of degree up to the order everywhere inside the table.", "quantifier": "all tables, orders and points", "why_tests_cant": "Holds for all tables or fails only near the table end.", "anchors": ["Reaktoro/Math/LagrangeInterpolator.cpp: operator()"]}
{"id": "C41", "title": "Rational approximation respects the denominator bound and recovers exact fractions", "statement": "Rationalizing a number yields a fraction with positive denominator not above the limit, recovers p/q exactly whenever q does not exceed the limit, and is a closest such fraction.", "quantifier": "all rational numbers and denominator limits", "why_tests_cant": "The mediant search must be right for all numbers.", "anchors": ["Reaktoro/Math/MathUtils.cpp: rationalize, farey, cleanRationalNumbers"]}
{"id": "C42", "title": "Rank-one diagonal updates invert the updated matrix", "statement": "Given the inverse of A and a diagonal D such that all intermediate pivots are non-zero, the returned matrix is the inverse of A + D.", "quantifier": "all square matrices over the reals, all diagonals", "why_tests_cant": "Matrices of every size.", "anchors": ["Reaktoro/Math/MathUtils.cpp: inverseShermanMorrison"]}
{"id": "C43", "title": "Compensated dot products and residuals equal their exact value in exact arithmetic", "statement": "For every way in which intermediate sums are rounded, the compensated dot product equals s + x.y and the compensated residual equals A x - b when the compensation itself is exact.", "quantifier": "all vectors, matrices and rounding functions", "why_tests_cant": "Quantifies over rounding functions and all lengths.", "anchors": ["Reaktoro/Math/MathUtils.cpp: dot3p, residual3p"]}
{"id": "C44", "title": "Cubic roots solve the cubic", "statement": "The three complex numbers returned for a cubic x^3 + b x^2 + c x + d are its roots with multiplicity, and the real roots reported are exactly those with zero imaginary part.", "quantifier": "all real coefficients", "why_tests_cant": "All coefficients including near-degenerate discriminants.", "anchors": ["Reaktoro/Math/Roots.cpp: cardano, realRoots"]}
{"id": "C45", "title": "Newton iterations return points satisfying the tolerance", "statement": "When Newton's method returns normally the residual at the returned point is below the tolerance and at most the given number of iterations was used.", "quantifier": "all functions, starting points and tolerances", "why_tests_cant": "All functions.", "anchors": ["Reaktoro/Math/Roots.cpp: newton"]}
{"id": "C46", "title": "Reaction thermodynamic models satisfy the Gibbs-Helmholtz relation", "statement": "For constant log K, van't Hoff, GEMS and PHREEQC log K models the returned reaction enthalpy equals G - T dG/dT of the returned reaction Gibbs energy for every temperature above zero and every pressure.", "quantifier": "all parameter values, temperatures and pressures", "why_tests_cant": "Thermodynamic consistency is a derivative identity over a continuum.", "anchors": ["Reaktoro/Models/ReactionThermoModelConstLgK.cpp", "Reaktoro/Models/ReactionThermoModelVantHoff.cpp", "Reaktoro/Models/ReactionThermoModelGemsLgK.cpp", "Reaktoro/Models/ReactionThermoModelPhreeqcLgK.cpp"]}
{"id": "C47", "title": "Standard thermodynamic models are thermodynamically consistent", "statement": "For the Maier-Kelley and Holland-Powell standard models, dG/dP equals the returned volume, dH/dT at the reference pressure equals the returned heat capacity and dG/dT equals minus the entropy.", "quantifier": "all parameter values, temperatures and pressures in range", "why_tests_cant": "Derivative identities over a continuum.", "anchors": ["Reaktoro/Models/StandardThermoModelMaierKelley.cpp", "Reaktoro/Models/StandardThermoModelHollandPowell.cpp"]}
{"id": "C48", "title": "Mineral HKF heat capacity is the temperature derivative of enthalpy across phase transitions", "statement": "For every number of phase transitions and every temperature other than a transition temperature, the returned heat capacity equals the temperature derivative of the returned enthalpy and the returned volume counts exactly the transitions passed.", "quantifier": "all transition tables, temperatures and pressures", "why_tests_cant": "All transition tables and temperatures below and above each transition.", "anchors": ["Reaktoro/Models/StandardThermoModelMineralHKF.cpp"]}
{"id": "C49", "title": "Formation reactions propagate reactant properties linearly", "statement": "The standard Gibbs energy and enthalpy of a species defined by a formation reaction are the reaction values plus the coefficient-weighted sums of reactant values, and the configured product volume is the returned volume.", "quantifier": "all reactant lists and coefficients", "why_tests_cant": "All reaction shapes.", "anchors": ["Reaktoro/Core/FormationReaction.cpp: createStandardThermoModel, withProductStandardVolume"]}
{"id": "C50", "title": "Water property derivatives follow from the Helmholtz function", "statement": "Density derivatives, Gibbs energy, enthalpy and heat capacities of water computed from a Helmholtz function satisfy the exact thermodynamic identities, and the water pressure function of each equation of state uses that equation of state.", "quantifier": "all Helmholtz functions, temperatures and densities", "why_tests_cant": "Derivative identities over all Helmholtz functions.", "anchors": ["Reaktoro/Thermodynamics/Water/WaterThermoStateUtils.cpp: waterThermoState", "Reaktoro/Thermodynamics/Water/WaterUtils.cpp: waterPressureWagnerPruss"]}
{"id": "C51", "title": "Cubic equation of state results depend only on the conditions", "statement": "Evaluating a cubic equation of state at the same temperature, pressure and composition always gives the same residual properties, whatever was evaluated before.", "quantifier": "all histories of evaluations", "why_tests_cant": "History dependence is invisible to single-call tests.", "anchors": ["Reaktoro/Thermodynamics/Fluids/CubicEOS.cpp: compute"]}
{"id": "C52", "title": "Cubic equation of state residual properties are mutually consistent", "statement": "The alpha function derivatives are derivatives of alpha, residual enthalpy equals -R T^2 times the temperature derivative of Gres/(RT) at any differentiable root, residual heat capacity is the temperature derivative of residual enthalpy, and mole-fraction-weighted fugacity coefficients add to the residual Gibbs energy.", "quantifier": "all substances, mixtures, temperatures, pressures", "why_tests_cant": "Derivative identities over a continuum.", "anchors": ["Reaktoro/Thermodynamics/Fluids/CubicEOS.cpp: compute, alpha"]}
{"id": "C53", "title": "Redlich-Kister activity coefficients satisfy Gibbs-Duhem", "statement": "For every binary composition the weighted activity coefficients add to the excess Gibbs energy and satisfy the Gibbs-Duhem equation.", "quantifier": "all parameters and compositions", "why_tests_cant": "Continuum identity.", "anchors": ["Reaktoro/Thermodynamics/Solids/ActivityModelRedlichKister.cpp"]}
{"id": "C54", "title": "Aqueous mixture indices partition the species and ionic strengths follow from molalities", "statement": "Water, neutral and charged species partition the mixture; cations and anions partition the charged species; effective and stoichiometric ionic strengths are half the charge-squared weighted molalities and are non-negative; when no neutral complex dissociates both coincide.", "quantifier": "all species lists and compositions", "why_tests_cant": "All mixtures.", "anchors": ["Reaktoro/Thermodynamics/Aqueous/AqueousMixture.cpp"]}
{"id": "C55", "title": "Aqueous properties report pH and ionic strength with their textbook meaning", "statement": "The reported pH is minus the decimal logarithm of the hydrogen ion activity and the reported ionic strengths are those of the current state.", "quantifier": "all states", "why_tests_cant": "All states.", "anchors": ["Reaktoro/Thermodynamics/Aqueous/AqueousProps.cpp: pH, ionicStrength, pE, Eh"]}
{"id": "C56", "title": "Activity models depend only on their own phase", "statement": "Evaluating an activity model for a phase gives a result that depends only on that phase's species and conditions and not on phases evaluated earlier in the process.", "quantifier": "all sequences of phases evaluated", "why_tests_cant": "Depends on evaluation order across objects.", "anchors": ["Reaktoro/Thermodynamics/Aqueous/ActivityModelRumpf.cpp"]}
{"id": "C57", "title": "Built-in dissociation reactions are balanced", "statement": "Every built-in dissociation reaction conserves every element and charge, and appended reactions replace an equivalent complex or are added, so that at most one reaction is stored per complex.", "quantifier": "all table entries and all histories of appended reactions", "why_tests_cant": "The table is large and histories unbounded.", "anchors": ["Reaktoro/Singletons/DissociationReactions.cpp"]}
{"id": "C58", "title": "Critical property registry keeps names unambiguous", "statement": "After any history of append and overwrite calls a name designates at most one substance and looking up a name of the last stored substance returns its data.", "quantifier": "all histories", "why_tests_cant": "Histories are unbounded.", "anchors": ["Reaktoro/Singletons/CriticalProps.cpp: append, overwrite, get"]}
{"id": "C59", "title": "Model parameters survive serialization", "statement": "Encoding the parameters of any built-in thermodynamic model and decoding them again yields the same parameters.", "quantifier": "all parameter values of all built-in models", "why_tests_cant": "All parameter values; fields forgotten in one direction show only with non-default values.", "anchors": ["Reaktoro/Serialization/Models.YAML.cpp"]}
{"id": "C60", "title": "Hydrate notation adds its multiple", "statement": "A formula written as a part, a dot, a number and a second part denotes the sum of the first part and that multiple of the second part.", "quantifier": "all pairs of formulas and all multipliers", "why_tests_cant": "All combinations of the text before the dot and the number after it; the parser's choice depends on the neighbouring characters.", "anchors": ["Reaktoro/Common/ParseUtils.cpp: parseChemicalFormula"]}
{"id": "C61", "title": "Equality of reaction equations is an equivalence relation", "statement": "Comparing reaction equations is reflexive, symmetric and transitive, and does not depend on the order in which species are listed.", "quantifier": "all pairs and triples of reaction equations", "why_tests_cant": "Relations over all triples; the tolerance in the comparison matters only for special coefficients.", "anchors": ["Reaktoro/Core/ReactionEquation.cpp: operator=="]}
{"id": "C62", "title": "Element lists of the form number:symbol are summed", "statement": "Reading a list of number:symbol words yields each symbol once, in order of first appearance, with the sum of its numbers.", "quantifier": "all lists of such words", "why_tests_cant": "Lists are unbounded and may repeat symbols arbitrarily.", "anchors": ["Reaktoro/Common/ParseUtils.cpp: parseNumberStringPairs"]}
{"id": "C63", "title": "Reading a coefficient:species list is safe", "statement": "Reading a reaction written as coefficient:species words returns the pairs as written or raises an error, and never reads outside the list of words.", "quantifier": "all strings", "why_tests_cant": "One malformed word among all strings suffices for an out-of-bounds read.", "anchors": ["Reaktoro/Common/ParseUtils.cpp: parseReaction"]}
{"id": "C64", "title": "Convertibility of units is an equivalence", "statement": "On unit strings accepted by the library, convertibility is reflexive, symmetric and transitive, so that the set of accepted units splits into classes that are freely interchangeable.", "quantifier": "all accepted unit strings", "why_tests_cant": "Unit strings form an infinite language; transitivity quantifies over triples of them.", "anchors": ["Reaktoro/Common/Units.cpp: convertible"]}
{"id": "C65", "title": "Renaming a duplicate species in a database changes nothing but its name", "statement": "When a species is added under a name already taken, the stored species has the same composition, charge, tags and aggregate state as the given one; only its name differs.", "quantifier": "all databases and all species", "why_tests_cant": "The aggregate state is derived from the name in some species, so the interaction shows only for particular inputs.", "anchors": ["Reaktoro/Core/Database.cpp: addSpecies", "Reaktoro/Core/Species.cpp: aggregateState"]}
{"id": "C66", "title": "A phases generator creates one single-species phase per selected species", "statement": "A generator of pure phases yields, for every species it selects, exactly one phase containing exactly that species and named after it.", "quantifier": "all databases, generators and selected species", "why_tests_cant": "Species names are unbounded strings.", "anchors": ["Reaktoro/Core/Phases.cpp: GenericPhasesGenerator::convert"]}
{"id": "C67", "title": "The phases of a system do not depend on the order in which they are declared", "statement": "Declaring the same phases and generators in another order yields the same phases up to order and renaming, and a phase declared without species or elements contains exactly the database species of its aggregate state made of the elements mentioned anywhere in the declarations.", "quantifier": "all databases, declarations and reorderings", "why_tests_cant": "Orders grow factorially and databases are unbounded.", "anchors": ["Reaktoro/Core/Phases.cpp: Phases::convert"]}
{"id": "C68", "title": "The aggregate state of a species is read correctly from its name", "statement": "A name with a bracketed lower-case suffix containing one state symbol has that state whatever the base name; without a suffix, charged names are aqueous; printing a state and parsing it back gives the same state.", "quantifier": "all base names, suffixes and states", "why_tests_cant": "Names are unbounded strings.", "anchors": ["Reaktoro/Core/AggregateState.cpp: identifyAggregateState, parseAggregateState"]}
{"id": "C69", "title": "A rejected evaluation of properties leaves them unchanged", "statement": "If evaluating the properties of a system at new conditions is rejected with an error, the properties still hold the values of the last successful evaluation.", "quantifier": "all systems, models, conditions and earlier properties", "why_tests_cant": "Requires all points at which an evaluation can fail.", "anchors": ["Reaktoro/Core/ChemicalProps.cpp: update", "Reaktoro/Core/ChemicalPropsPhase.hpp: update"]}
{"id": "C70", "title": "An imposed constraint equates the named quantity with its own input", "statement": "After any specification through the named calls, each equation constraint vanishes exactly when the named property equals the value of its own input, and each chemical potential constraint evaluates to the potential that its named quantity (pH, pE, Eh, activity, fugacity, chemical potential) stands for at the value of its own input.", "quantifier": "all histories of named specification calls, all properties and input values", "why_tests_cant": "Inputs are addressed by position, which depends on the whole history of calls.", "anchors": ["Reaktoro/Equilibrium/EquilibriumSpecs.cpp: volume, internalEnergy, enthalpy, gibbsEnergy, helmholtzEnergy, entropy, chemicalPotential, lnActivity, fugacity, pH, pMg, pE, Eh"]}
{"id": "C71", "title": "Derivatives collected during a calculation belong to the seeded variable", "statement": "While the derivatives of the properties are collected over evaluations each seeding at most one variable, the column reported for an amount, unknown or input holds the derivatives of the last evaluation that seeded that very variable.", "quantifier": "all sequences of seeded evaluations", "why_tests_cant": "The order of evaluations is decided by the optimizer.", "anchors": ["Reaktoro/Equilibrium/EquilibriumProps.cpp: assembleFullJacobianBegin, update, dudn, dudp, dudw"]}
{"id": "C72", "title": "Hessian matrices are those of the given properties", "statement": "The exact Hessian holds the second derivatives of the Gibbs energy at the given properties, the approximate one its ideal part, and the diagonal one its ideal diagonal RT(1/n_i - 1/n_phase).", "quantifier": "all properties", "why_tests_cant": "Stale internal properties agree with the given ones in simple tests.", "anchors": ["Reaktoro/Equilibrium/EquilibriumHessian.cpp"]}
{"id": "C73", "title": "Sensitivities of the solution obey the chain rule", "statement": "In every direction of change of inputs and component amounts, the reported sensitivities of amounts, titrants and unknowns reproduce those of the optimizer and those of the properties are composed by the chain rule; the initial state is replaced only if it is empty.", "quantifier": "all dimensions, derivative matrices and directions", "why_tests_cant": "Block offsets depend on all dimensions at once.", "anchors": ["Reaktoro/Equilibrium/EquilibriumSolver.cpp: updateEquilibriumSensitivity, updateInitialState"]}
{"id": "C74", "title": "Amounts of explicit titrants are amounts of titrants", "statement": "The amounts of explicit titrants of an equilibrium state are, in order, the amounts of the explicit titrants of its specifications and nothing else.", "quantifier": "all specifications and states", "why_tests_cant": "Depends on which of temperature and pressure are unknown.", "anchors": ["Reaktoro/Core/ChemicalState.cpp: Equilibrium::explicitTitrantAmounts"]}
{"id": "C75", "title": "A predicted state reports the conditions it was predicted for", "statement": "After a successful prediction the state's recorded input values and component amounts are those given to the prediction.", "quantifier": "all references and conditions", "why_tests_cant": "Requires comparing every recorded field for all conditions.", "anchors": ["Reaktoro/Equilibrium/EquilibriumPredictor.cpp: predict"]}
{"id": "C76", "title": "Rejected solver options have no effect", "statement": "Solver options are accepted exactly when the minimum amount is positive and rejected options leave the solver as it was.", "quantifier": "all options", "why_tests_cant": "Concerns the state after an error.", "anchors": ["Reaktoro/Equilibrium/EquilibriumSetup.cpp: setOptions", "Reaktoro/Equilibrium/EquilibriumSolver.cpp: setOptions"]}
{"id": "C77", "title": "The objective gradient is the gradient of the objective", "statement": "The entries of the gradient handed to the optimizer are the slopes of the objective value in the amounts of species and of implicit titrants.", "quantifier": "all specifications, properties and amounts", "why_tests_cant": "A mismatch only slows or misleads the optimizer.", "anchors": ["Reaktoro/Equilibrium/EquilibriumSetup.cpp: evalObjectiveValue, evalObjectiveGradX"]}
{"id": "C78", "title": "Solving with LU factors solves every consistent system", "statement": "For every decomposition P A Q = L U of a matrix of any rank, solving returns a solution of A X = B whenever one exists, and solving with the transpose returns a solution of tr(A) X = B whenever one exists; the entries of columns not chosen as pivots are zero.", "quantifier": "all matrices over any field, all ranks, all right-hand sides", "why_tests_cant": "Rank-deficient and rectangular systems are unbounded in number.", "anchors": ["Reaktoro/Math/LU.cpp: solve, trsolve"]}
{"id": "C79", "title": "Finite differences are exact for the functions their order promises", "statement": "Forward and backward differences give the exact gradient and Jacobian of affine functions, and central differences give that of functions quadratic in each argument.", "quantifier": "all functions of the stated kinds, all points including zero coordinates", "why_tests_cant": "Points and functions are continuous.", "anchors": ["Reaktoro/Math/Derivatives.cpp"]}
{"id": "C80", "title": "An LU object holds the decomposition asked for last", "statement": "After any sequence of decompositions with or without weights, the object holds that of the last call, weighted factors decompose the unweighted matrix, and an object with nothing decomposed is empty.", "quantifier": "all sequences of calls, matrices and non-zero weights", "why_tests_cant": "Skipping a repeated decomposition depends on the whole history.", "anchors": ["Reaktoro/Math/LU.cpp: compute, empty"]}
{"id": "C81", "title": "Standard models return the configured formation properties at the reference conditions", "statement": "At 298.15 K and 1 bar the Maier-Kelley and Holland-Powell standard models return the formation Gibbs energy, formation enthalpy and reference volume they were given.", "quantifier": "all parameter values", "why_tests_cant": "Equality for all parameter values, including the compressible case the tests do not check against the inputs.", "anchors": ["Reaktoro/Models/StandardThermoModelMaierKelley.cpp", "Reaktoro/Models/StandardThermoModelHollandPowell.cpp"]}
{"id": "C82", "title": "The reported standard entropy is the temperature derivative of the standard Gibbs energy", "statement": "The standard entropies reported by ThermoProps and ChemicalProps equal minus the temperature derivative of the standard Gibbs energies they report.", "quantifier": "all species models, temperatures and pressures", "why_tests_cant": "A derivative identity over all temperatures and all table entries.", "anchors": ["Reaktoro/Core/ThermoProps.cpp: standardEntropies", "Reaktoro/Core/ChemicalProps.cpp: standardEntropies"]}
{"id": "C83", "title": "The heat capacity of a species defined by a formation reaction is the derivative of its enthalpy", "statement": "The standard heat capacity returned for a species defined by a formation reaction equals the temperature derivative of the standard enthalpy returned for it, whenever this holds for the reactants.", "quantifier": "all reactions, temperatures and pressures", "why_tests_cant": "A derivative identity over all reactions and temperatures.", "anchors": ["Reaktoro/Core/FormationReaction.cpp: createStandardThermoModel"]}
{"id": "C84", "title": "Properties of a species follow every parameter they depend on", "statement": "Whatever sequence of parameter changes and evaluations came before, the standard properties of a species are those of its models with the current parameter values, also when they depend on the parameters through reactants of its formation reaction.", "quantifier": "all dependency graphs, all sequences of evaluations and parameter changes", "why_tests_cant": "Depends on the history of calls.", "anchors": ["Reaktoro/Core/Species.cpp: withFormationReaction, props", "Reaktoro/Core/FormationReaction.cpp: createStandardThermoModel", "Reaktoro/Core/Model.hpp: withMemoization"]}
{"id": "C85", "title": "A species is constructed from attributes exactly when they are complete", "statement": "Species(attribs) succeeds exactly when name, formula, elements and aggregate state are given and exactly one of a standard model and a formation reaction, and the species then has these attributes.", "quantifier": "all attribute combinations", "why_tests_cant": "All combinations of missing and present attributes.", "anchors": ["Reaktoro/Core/Species.cpp: Species(Attribs)"]}
{"id": "C86", "title": "The Haar-Gallagher-Kell equation of water reports the derivatives of its Helmholtz function", "statement": "At every temperature and density where it is defined, each derivative field returned by waterHelmholtzStateHGK is the partial derivative of the field one order below, so that all fields are the derivatives up to third order of one Helmholtz function.", "quantifier": "all temperatures and densities in the domain of the formulas", "why_tests_cant": "Ten coefficients tables and hundreds of hand-derived terms; a wrong derivative shows only as a small inconsistency.", "anchors": ["Reaktoro/Thermodynamics/Water/WaterHelmholtzStateHGK.cpp: waterHelmholtzStateHGK"]}
{"id": "C87", "title": "The Wagner-Pruss equation of water reports the derivatives of its Helmholtz function", "statement": "At every positive temperature and density (except exactly the critical density) each derivative field returned by waterHelmholtzStateWagnerPruss is the partial derivative of the field one order below.", "quantifier": "all positive temperatures and densities other than the critical density", "why_tests_cant": "All points of a two-dimensional domain; derivatives are limits.", "anchors": ["Reaktoro/Thermodynamics/Water/WaterHelmholtzStateWagnerPruss.cpp: waterHelmholtzStateWagnerPruss"]}
{"id": "C88", "title": "Dielectric constant of water and Born functions are consistent", "statement": "The reported derivatives of the dielectric constant are its derivatives along the given water state, and the Born functions Z, Y, Q, N, U, X are -1/eps and its first and second derivatives in temperature and pressure.", "quantifier": "all temperatures, pressures and water states with consistent density derivatives", "why_tests_cant": "Derivatives are limits; chain rule through the density of any equation of state.", "anchors": ["Reaktoro/Thermodynamics/Water/WaterElectroStateJohnsonNorton.cpp: waterElectroStateJohnsonNorton"]}
{"id": "C89", "title": "HKF standard properties of solutes and of water satisfy the identities of thermodynamics", "statement": "For all parameters, temperatures and pressures away from the region borders of the g function: the standard volume is the pressure derivative of the standard Gibbs energy, the heat capacity is the temperature derivative of the enthalpy, and the entropy is minus the temperature derivative of the Gibbs energy; at the reference conditions the formation properties are returned.", "quantifier": "all species parameters, temperatures above 228 K, pressures", "why_tests_cant": "Derivatives are limits over all conditions and parameters.", "anchors": ["Reaktoro/Models/StandardThermoModelHKF.cpp", "Reaktoro/Models/StandardThermoModelWaterHKF.cpp", "Reaktoro/Models/Support/SpeciesElectroPropsHKF.cpp: gHKF, speciesElectroPropsHKF"]}
{"id": "C90", "title": "Fugacity coefficients are partial molar residual Gibbs energies", "statement": "For every fluid mixture, temperature and pressure at which a cubic equation of state has simple roots, the logarithm of the fugacity coefficient of a species equals the derivative of the total residual Gibbs energy divided by RT with respect to the amount of that species, the other amounts being fixed.", "quantifier": "all mixtures, conditions and species", "why_tests_cant": "The relation is between values at a continuum of compositions; tests compare single numbers.", "anchors": ["Reaktoro/Thermodynamics/Fluids/CubicEOS.cpp: compute"]}
{"id": "C91", "title": "Residual volume of a cubic equation of state", "statement": "The residual volume that a cubic equation of state reports is the pressure derivative of the residual Gibbs energy at fixed temperature and composition, and its reported derivatives are its temperature and pressure derivatives.", "quantifier": "all mixtures and conditions", "why_tests_cant": "Derivative identities over a continuum.", "anchors": ["Reaktoro/Thermodynamics/Fluids/CubicEOS.cpp: compute"]}
{"id": "C92", "title": "The molar volume selected by a cubic equation of state exceeds the co-volume", "statement": "Whenever an evaluation of a cubic equation of state completes, the molar volume that it selects exceeds the co-volume of the mixture, so that the logarithm in the Gibbs energy is that of a positive number.", "quantifier": "all mixtures, models, fluid types and conditions", "why_tests_cant": "Tests evaluate physical cases only; the statement is about every state.", "anchors": ["Reaktoro/Thermodynamics/Fluids/CubicEOS.cpp: compute"]}
{"id": "C93", "title": "An element added to the element registry is found afterwards", "statement": "After an element is appended to the process-wide element registry, looking up its symbol or its name returns that element; the built-in elements have distinct symbols and names and a positive molar mass.", "quantifier": "all registries and all appended elements", "why_tests_cant": "The registry is shared mutable state, and shadowing shows only for particular combinations.", "anchors": ["Reaktoro/Singletons/Elements.cpp: append, withSymbol, withName, withTag, withTags"]}
{"id": "C94", "title": "Redlich-Kister excess enthalpy follows from the excess Gibbs energy", "statement": "The excess enthalpy returned with the Redlich-Kister activity coefficients is the one the Gibbs-Helmholtz equation gives from the returned excess Gibbs energy.", "quantifier": "all parameters, temperatures and compositions", "why_tests_cant": "Derivative identity over all temperatures.", "anchors": ["Reaktoro/Thermodynamics/Solids/ActivityModelRedlichKister.cpp"]}
{"id": "C95", "title": "Ideal activity models satisfy Gibbs-Duhem", "statement": "Along every change of composition the activities of the ideal solution, ideal gas and ideal aqueous models satisfy the Gibbs-Duhem equation.", "quantifier": "all numbers of species and compositions", "why_tests_cant": "Continuum identity over all compositions.", "anchors": ["Reaktoro/Thermodynamics/Ideal/ActivityModelIdealSolution.cpp", "Reaktoro/Thermodynamics/Ideal/ActivityModelIdealGas.cpp", "Reaktoro/Thermodynamics/Ideal/ActivityModelIdealAqueous.cpp"]}
{"id": "C96", "title": "Debye-Hueckel activities of water and ions are consistent", "statement": "On dilution of a solution of ions the activities of water and ions returned by the Debye-Hueckel model satisfy the Gibbs-Duhem equation.", "quantifier": "all ion sets, parameters, molalities and dilutions", "why_tests_cant": "Continuum identity linking all species.", "anchors": ["Reaktoro/Thermodynamics/Aqueous/ActivityModelDebyeHuckel.cpp"]}
{"id": "C97", "title": "HKF activities of water and solutes are consistent", "statement": "On dilution of an electroneutral solution the activities of water and solutes returned by the HKF model satisfy the Gibbs-Duhem equation.", "quantifier": "all solutions, parameters, molalities and dilutions", "why_tests_cant": "Continuum identity linking all species.", "anchors": ["Reaktoro/Thermodynamics/Aqueous/ActivityModelHKF.cpp"]}
{"id": "C98", "title": "Activity properties do not depend on what was computed before", "statement": "The activity properties returned for a temperature, pressure and composition are the same whatever the properties object contained before the evaluation.", "quantifier": "all phases, conditions and previous contents", "why_tests_cant": "Depends on the history of the object.", "anchors": ["Reaktoro/Core/ActivityProps.hpp", "Reaktoro/Thermodynamics/Aqueous/ActivityModelDebyeHuckel.cpp", "Reaktoro/Thermodynamics/Aqueous/ActivityModelHKF.cpp", "Reaktoro/Thermodynamics/Solids/ActivityModelRedlichKister.cpp"]}
{"id": "C99", "title": "Debye-Hueckel parameters are found regardless of table order", "statement": "The size and slope parameters of a species are those of the table entry with the same elements and charge, or the default, whatever the order in which the table is traversed.", "quantifier": "all tables, species and traversal orders", "why_tests_cant": "Traversal order of a hash table is not specified.", "anchors": ["Reaktoro/Thermodynamics/Aqueous/ActivityModelDebyeHuckel.cpp"]}
{"id": "C100", "title": "Models for a dissolved species replace only that species", "statement": "Chaining a Drummond, Rumpf, Duan-Sun or Setschenow model after an aqueous activity model changes the activity and activity coefficient of the named dissolved species and leaves those of all other species unchanged.", "quantifier": "all phases, base models and conditions", "why_tests_cant": "All chains of models and phases.", "anchors": ["Reaktoro/Thermodynamics/Aqueous/ActivityModelDrummond.cpp", "Reaktoro/Thermodynamics/Aqueous/ActivityModelRumpf.cpp", "Reaktoro/Thermodynamics/Aqueous/ActivityModelDuanSun.cpp", "Reaktoro/Thermodynamics/Aqueous/ActivityModelSetschenow.cpp"]}
{"id": "C101", "title": "Aqueous molalities are amounts per kilogram of water", "statement": "After a successful update, the molality of a species times the mass of water is the amount of the species, the molality of an element times the mass of water is the amount of the element in the aqueous phase, and names that are not in the system are rejected.", "quantifier": "all systems with an aqueous phase, all states, all histories of updates", "why_tests_cant": "Systems, phases and states are unbounded.", "anchors": ["Reaktoro/Thermodynamics/Aqueous/AqueousProps.cpp: elementMolality, speciesMolality"]}
{"id": "C102", "title": "Aqueous properties do not depend on how they were updated", "statement": "Updating an AqueousProps object with a chemical state, or with the chemical properties computed from that state, leaves the same object, whatever either object held before.", "quantifier": "all systems, states, models and histories", "why_tests_cant": "All histories of updates.", "anchors": ["Reaktoro/Thermodynamics/Aqueous/AqueousProps.cpp: update", "Reaktoro/Core/ChemicalProps.cpp: update, phaseProps"]}
{"id": "C103", "title": "pE and Eh have their textbook meaning", "statement": "At chemical equilibrium, pE is minus the decimal logarithm of the activity of the electron in any half reaction among the aqueous species, and Eh is the matching potential.", "quantifier": "all systems, all states at equilibrium, all half reactions, all echelon forms", "why_tests_cant": "All systems and half reactions.", "anchors": ["Reaktoro/Thermodynamics/Aqueous/AqueousProps.cpp: pE, Eh"]}
{"id": "C104", "title": "Identification of fluid phases", "statement": "With phase identification by Gibbs energies, a cubic equation of state asked for one fluid phase gives that phase's properties when it is the stable one and otherwise gives every species a fugacity coefficient of exp(100); of the two phases exactly one is accepted at every temperature, pressure and composition, its volume exceeds the co-volume, and no error is raised. With one volume, it is a liquid if it lies below every spinodal volume and a vapour otherwise; with several, the phase with the smallest residual Gibbs energy is accepted. Activities are fugacities in bar.", "quantifier": "all models, mixtures, temperatures, pressures, compositions and requested phases", "why_tests_cant": "which branch is taken depends on roots of a quartic and a cubic at continuous conditions; tests sample a few points away from the spinodal", "anchors": ["Reaktoro/Thermodynamics/Fluids/PhaseIdentification.cpp", "Reaktoro/Thermodynamics/Fluids/CubicEOS.cpp", "Reaktoro/Thermodynamics/Fluids/ActivityModelCubicEOS.cpp"]}
{"id": "C105", "title": "Each dissolved species gets its own Debye-Hueckel parameters", "statement": "The activity coefficient of an ion under the Debye-Hueckel model is that of its own size and slope parameters, those of the table entry with its formula or the default, and that of a neutral species is that of its own slope, wherever the species stands in the phase; under the limiting law the parameters of ions are zero.", "quantifier": "all phases, parameter tables, conditions, compositions and orders of species", "why_tests_cant": "The parameters are gathered into arrays by position among charged and neutral species; tests use a few fixed orders.", "anchors": ["Reaktoro/Thermodynamics/Aqueous/ActivityModelDebyeHuckel.cpp: ActivityModelDebyeHuckelParams, activityPropsFnDebyeHuckel, setLimitingLaw"]}
{"id": "C106", "title": "Chained activity models are evaluated in order", "statement": "A chain of activity models evaluates each model on the results of the models before it; a model for a solute needs a model before it that has evaluated the solution, gives the solute its value and leaves all else as it was; of two models for a solute the last decides.", "quantifier": "all chains, phases, conditions and previous properties", "why_tests_cant": "Chains are unbounded and the models communicate through shared arguments.", "anchors": ["Reaktoro/Core/ActivityModel.cpp: chain", "Reaktoro/Thermodynamics/Aqueous/ActivityModelSetschenow.cpp"]}
{"id": "C107", "title": "Spycher-Reed gas properties are thermodynamically consistent", "statement": "For every phase of water vapour, carbon dioxide and methane that the Spycher-Reed model accepts, the excess volume, enthalpy and heat capacities are the derivatives of the returned excess Gibbs energy, which vanishes with the pressure; the logarithm of the fugacity coefficient of a gas is the derivative of the total excess Gibbs energy divided by RT with respect to its amount; the activities satisfy the Gibbs-Duhem equation; and exactly the phases of these three gases are accepted.", "quantifier": "all subsets and orders of the gases, temperatures, pressures, compositions and paths of compositions", "why_tests_cant": "Identities between derivatives over continuous conditions, for tables with symmetric entries written out by hand.", "anchors": ["Reaktoro/Thermodynamics/Fluids/ActivityModelSpycherReed.cpp: activityPropsFnSpycherReed"]}
{"id": "C108", "title": "Fugacity coefficients and volume of the Spycher-Pruess-Ennis model", "statement": "Within the stated range of the model (12 to 100 degrees Celsius, up to 600 bar) the phase has the volume of least Gibbs energy at the given pressure, the excess volume is that volume minus the volume of the ideal gas, and the fugacity coefficients of carbon dioxide and of traces of water are derivatives of the energy of the Redlich-Kwong mixture.", "quantifier": "all temperatures and pressures in the range, phases, compositions and previous properties", "why_tests_cant": "The selected root of a cubic and derivatives over continuous conditions.", "anchors": ["Reaktoro/Thermodynamics/Fluids/ActivityModelSpycherPruessEnnis.cpp: volumeCO2, activityPropsFnSpycherPruessEnnis"]}
{"id": "C109", "title": "The Pitzer model satisfies the Gibbs-Duhem equation", "statement": "For every list of aqueous species with water, a cation and an anion, every temperature and pressure, and every differentiable path of positive mole fractions along which the activities computed by ActivityModelPitzerHMW are differentiable, the sum over species of mole fraction times change of ln activity is zero: water activity (osmotic coefficient) and the activity coefficients of ions and neutral species derive from one Gibbs energy.", "quantifier": "for all species lists, all charges and interaction parameters in the built-in tables, all compositions and directions of change", "why_tests_cant": "A unit test compares a few coefficients with published values; consistency between the coefficients is an identity over all compositions and directions, between sums over pairs and triplets of species, which no finite set of values shows.", "anchors": ["Reaktoro/Thermodynamics/Aqueous/ActivityModelPitzerHMW.cpp:974-1373", "Reaktoro/Thermodynamics/Aqueous/ActivityModelPitzerHMW.cpp:1375-1450"]}
{"id": "C110", "title": "The Pitzer model can be evaluated in every solution of its species", "statement": "Once ActivityModelPitzerHMW has accepted a list of aqueous species, the activity model it returns gives activities for every temperature and pressure at which the Debye-Hueckel parameter is known and every composition of positive mole fractions.", "quantifier": "for all accepted species lists, temperatures, pressures and positive compositions", "why_tests_cant": "A unit test evaluates brines with both cations and anions at moderate strengths; the lists without one of the signs and the strengths beyond the internal tables are not among them.", "anchors": ["Reaktoro/Thermodynamics/Aqueous/ActivityModelPitzerHMW.cpp:974-1373", "Reaktoro/Thermodynamics/Aqueous/ActivityModelPitzerHMW.cpp:666-710", "Reaktoro/Thermodynamics/Aqueous/ActivityModelPitzerHMW.cpp:799-835"]}
{"id": "C111", "title": "Pitzer activities do not jump", "statement": "Along every differentiable path of positive compositions on which the Pitzer model can be evaluated, the logarithms of the activities are continuous: a solver that follows the path never meets a jump.", "quantifier": "for all species lists with cations and anions, compositions and paths", "why_tests_cant": "Continuity is a statement about every point of a continuum; jumps at the points of an internal table are invisible in any sample of values.", "anchors": ["Reaktoro/Thermodynamics/Aqueous/ActivityModelPitzerHMW.cpp:666-710", "Reaktoro/Thermodynamics/Aqueous/ActivityModelPitzerHMW.cpp:799-835", "Reaktoro/Thermodynamics/Aqueous/ActivityModelPitzerHMW.cpp:974-1373"]}
{"id": "C112", "title": "The Pitzer model has the right limit at infinite dilution", "statement": "On dilution of any solution with a cation and an anion, the activity model of ActivityModelPitzerHMW can be evaluated at all sufficiently small concentrations, the logarithm of the activity coefficient of a species of charge z divided by the square root of the ionic strength tends to -3 A z^2 with A the Debye-Hueckel parameter of the osmotic coefficient, and the osmotic coefficient tends to one.", "quantifier": "for all species lists with water, a cation and an anion, all proportions of the solutes, temperatures, pressures and nonnegative Debye-Hueckel parameters", "why_tests_cant": "A limit of a sum over pairs and triplets with a table-driven part; values at a few small concentrations do not show it.", "anchors": ["Reaktoro/Thermodynamics/Aqueous/ActivityModelPitzerHMW.cpp:974-1373", "Reaktoro/Thermodynamics/Aqueous/ActivityModelPitzerHMW.cpp:1375-1450"]}
{"id": "C113", "title": "The Pitzer model does not depend on how formulas are written", "statement": "Two lists of aqueous species that agree in elements and charges, and differ only in how the formulas are written (SO4-- or SO4-2, both accepted), give the same activities in the Pitzer model for every temperature, pressure and composition.", "quantifier": "for all pairs of species lists that agree up to the notation of the formulas, all conditions and compositions", "why_tests_cant": "A unit test uses one notation; the parameters that are silently dropped for the other one leave plausible numbers.", "anchors": ["Reaktoro/Thermodynamics/Aqueous/ActivityModelPitzerHMW.cpp:487-660", "Reaktoro/Core/ChemicalFormula.cpp:147-150"]}
{"id": "C114", "title": "Every second virial parameter of the Pitzer tables is used", "statement": "For every line of the built-in table of the parameters beta2 there is a solution in which the line matters: with the line removed some activity changes.", "quantifier": "for all lines of the table; for the refutation all species lists, conditions and compositions", "why_tests_cant": "That a parameter has no effect is a statement about all solutions.", "anchors": ["Reaktoro/Thermodynamics/Aqueous/ActivityModelPitzerHMW.cpp:177-185", "Reaktoro/Thermodynamics/Aqueous/ActivityModelPitzerHMW.cpp:915-963"]}
{"id": "C115", "title": "A database written as a document and loaded again is the same", "statement": "A Database loaded from a YAML document, written to a YAML document and loaded again has the same elements and the same species in the same order, with the same names, formulas, substances, elemental compositions, charges, states, tags, formation reactions and models.", "quantifier": "for all documents that can be loaded and all readers and printers of numbers that are inverse to each other", "why_tests_cant": "A unit test writes and reads a few small databases; which numbers, formulas and parameters are changed depends on the document.", "anchors": ["Reaktoro/Serialization/Core.YAML.cpp:79-101", "Reaktoro/Serialization/Core.YAML.cpp:148-256", "Reaktoro/Core/ElementalComposition.cpp:87-94", "Reaktoro/Core/Support/DatabaseParserYAML.cpp:48-223"]}
{"id": "C116", "title": "Databases of PHREEQC are loaded with the species and reactions they define", "statement": "A database made from a loaded PHREEQC instance has exactly one species per species and phase of the instance, with its name, formula, charge, aggregate state and elements with molar masses, and formed from the species, with the coefficients, that PHREEQC gives as its reaction.", "quantifier": "for all instances in which names are unique, reactions are between known species and no species is formed from itself, in every order of the species and every order in which elements are traversed", "why_tests_cant": "A unit test looks at a few species of one database; which reactants are replaced depends on the order of all species.", "anchors": ["Reaktoro/Extensions/Phreeqc/PhreeqcDatabase.cpp:58-215", "Reaktoro/Extensions/Phreeqc/PhreeqcUtils.cpp:112-323"]}
{"id": "C117", "title": "Species of PHREEQC databases have the equilibrium constants of PHREEQC", "statement": "The standard Gibbs energies of the species made from a PHREEQC instance give, at one atmosphere, the equilibrium constant of PHREEQC for every reaction of the instance at every positive temperature (the analytical expression if there is one, else the van 't Hoff equation), and at other pressures the change that the volumes of the species demand.", "quantifier": "for all such instances, all items, temperatures and pressures, and all models of the properties of water", "why_tests_cant": "A unit test compares a few constants at 25 degC; a wrong reactant or direction gives a plausible number.", "anchors": ["Reaktoro/Extensions/Phreeqc/PhreeqcThermo.cpp:32-177", "Reaktoro/Extensions/Phreeqc/PhreeqcDatabase.cpp:125-215"]}
{"id": "C118", "title": "Properties of water of PHREEQC are derivatives of each other", "statement": "For every temperature from 0 degC and every pressure the properties of water used with PHREEQC databases are numbers; the compressibility is the derivative of the logarithm of the density returned with respect to pressure, the limiting slope for volumes that of the Debye-Hueckel coefficient A returned, and the second Born function that of the first.", "quantifier": "for all temperatures and pressures", "why_tests_cant": "That a function is the derivative of another is a statement about all points.", "anchors": ["Reaktoro/Extensions/Phreeqc/PhreeqcWater.cpp:27-178", "Reaktoro/Extensions/Phreeqc/PhreeqcWater.hpp:25-70"]}
{"id": "C119", "title": "Standard thermodynamic properties of a system are those of its models after every update", "statement": "After ThermoProps::update(T, P) returns, the stored temperature and pressure and the standard properties (G0, H0, V0, Cp0, Cv0) of every species of every phase are those that the standard models of the species give at that temperature and pressure, with derivatives, no matter which updates happened before, which of them failed, and which parameters of the models were changed in between; the derived properties (S0, U0, A0) follow from these.", "quantifier": "all systems, all models of species (including models that throw), all histories of updates, all T and P with derivatives, all changes of parameters", "why_tests_cant": "Tests update once or twice with models that do not fail and parameters that stay constant; a stale result after a failure or a change is not visible in them.", "anchors": ["Reaktoro/Core/ThermoProps.cpp:26-186", "Reaktoro/Core/ThermoPropsPhase.hpp:141-180"]}
{"id": "C120", "title": "Names of charged species are understood in all documented notations", "statement": "A name of a charged species in one of the documented notations (Ca++, Ca+2, Ca[2+], Ca[+2]; H+, H[+]) is split into its base and its charge; its conventional name repeats the sign; its alternatives are exactly the notations of this base and charge, so that two names are alternatives of each other exactly if base and charge agree, whatever names were asked before. Names in no such notation are rejected, and no name is read out of range.", "quantifier": "all base names without - + [, all charges of an int, all notations, all names given before, all other strings", "why_tests_cant": "Tests try a handful of names; the charges have any number of digits, and the answers come from a map that is filled by earlier calls.", "anchors": ["Reaktoro/Common/NamingUtils.cpp:48-161", "Reaktoro/Common/NamingUtils.hpp:25-60"]}
{"id": "C121", "title": "Names of neutral aqueous species are understood in all documented notations", "statement": "The names CO2(aq), CO2, CO2@ and CO2,aq of a neutral species have the same base name; the conventional name is CO2(aq); the alternatives of each are exactly these four, and two names are alternatives of each other exactly if their base names agree, whatever names were asked before.", "quantifier": "all base names without such a suffix inside, all four notations, all names given before", "why_tests_cant": "Tests try a few names; the suffix is searched anywhere in the name, so that the claim is about all strings.", "anchors": ["Reaktoro/Common/NamingUtils.cpp:75-124", "Reaktoro/Common/NamingUtils.cpp:168-184"]}
{"id": "C122", "title": "The HKF model uses the radius of an ion whatever the notation of its name", "statement": "The effective radius the HKF activity model takes for a species is that of its table for every notation of the name of an ion of the table (Mg++, Mg+2, Mg[2+], Mg[+2]); for other species it is a function of the charge only; it is positive for every charged species.", "quantifier": "all ions of the table, all documented notations of their names, all other names, all charges, all names given before", "why_tests_cant": "The table has 41 ions with four notations each and the search depends on a map filled by earlier calls; a wrong radius silently changes activity coefficients.", "anchors": ["Reaktoro/Thermodynamics/Aqueous/ActivityModelHKF.cpp:203-291", "Reaktoro/Common/NamingUtils.cpp:116-119"]}
{"id": "C123", "title": "A species read from a SUPCRT database has the elements, charge and parameters its document states", "statement": "Reading a SUPCRT document either yields, for each Species node of a type that is read, one species whose name, formula, elements, charge, aggregate state and thermodynamic parameters are those the node states (in the units stated for the class of parameters), with distinct names, or fails with an error: no parameter that the document does not state is made up, and no document is read out of range.", "quantifier": "all documents, including nodes without some children, any number of species, any elements, any number of phase transitions of a mineral", "why_tests_cant": "Tests read a few species of the shipped databases; what happens to a node that lacks a child is a statement about all documents, and 40 minerals of each shipped database lack two.", "anchors": ["Reaktoro/Extensions/Supcrt/SupcrtDatabase.cpp:71-270", "Reaktoro/Extensions/Supcrt/SupcrtParams.hpp:25-180"]}
{"id": "C124", "title": "Standard properties of species of SUPCRT databases are those of the equations of state, in SI units", "statement": "For the solvent water, aqueous solutes, gases and minerals of a SUPCRT database the standard properties are those of the same equations of state used with the YAML databases, with parameters converted to SI units; in particular the standard volume of solutes and minerals is the derivative of the standard Gibbs energy with respect to pressure. Temperatures outside the range of the model are refused.", "quantifier": "all parameters, all temperatures and pressures of the models, all thermodynamic states of water that are differentiable, any number of transitions of a mineral", "why_tests_cant": "Tests compare with the values this program printed once; a conversion factor applied to some terms only is enshrined by them, and equality of two programs over all temperatures and parameters is no finite check.", "anchors": ["Reaktoro/Extensions/Supcrt/SupcrtModels.cpp:98-386", "Reaktoro/Extensions/Supcrt/SpeciesElectroStateHKF.cpp:37-168", "Reaktoro/Extensions/Supcrt/SupcrtEngine.cpp:44-118"]}
{"id": "C125", "title": "The volume of a gas phase is the derivative of its Gibbs energy with respect to pressure", "statement": "For a phase of gases taken from the databases that come with the library, with the ideal gas model or one of the models of real gases, the molar volume that ChemicalProps reports is the derivative, at constant temperature and composition, of the mean of the chemical potentials it reports with respect to pressure; for ideal gases it is RT/P. It is positive and does not depend on how often the phase was evaluated.", "quantifier": "all gases of the shipped databases, all amounts of any number of species, all temperatures and pressures, both kinds of databases", "why_tests_cant": "The standard volumes come from the database and the excess volumes from the activity model; that both use the same reference is a statement about their combination at all conditions. The tests check the parts.", "anchors": ["Reaktoro/Core/ChemicalPropsPhase.hpp:345-349", "Reaktoro/Core/ChemicalPropsPhase.hpp:477-551", "Reaktoro/Models/StandardThermoModelMaierKelley.cpp:48-71", "Reaktoro/Extensions/Supcrt/SupcrtModels.cpp:226-276", "Reaktoro/Thermodynamics/Ideal/ActivityModelIdealGas.cpp:24-39"]}
{"id": "C126", "title": "The Gibbs energy of a phase is the sum of the chemical potentials of its species times their amounts", "statement": "The molar Gibbs energy that ChemicalProps reports for a phase is the mean of the chemical potentials of its species weighted with their mole fractions, and the entropy that follows from it contains the entropy of mixing and, for gases, the dependence on pressure.", "quantifier": "all phases with ideal or real gas models or ideal solution models, all amounts of any number of species, all temperatures and pressures, all standard models", "why_tests_cant": "Euler's relation is an identity for all compositions; the tests compute the expected Gibbs energy with the formula of the code.", "anchors": ["Reaktoro/Core/ChemicalPropsPhase.hpp:333-361", "Reaktoro/Core/ChemicalPropsPhase.hpp:477-551", "Reaktoro/Thermodynamics/Ideal/ActivityModelIdealSolution.cpp:22-36"]}
{"id": "C127", "title": "A mechanism of a mineral reaction written as a text has the values in the text", "statement": "MineralMechanism(text), with a text as in its documentation or with semicolons between the entries, has the rate constant 10^logk in mol/(m2*s), the activation energy in kJ/mol, the powers p and q and the catalysts that are written in the text, converted from the units in the text, and the default values for what the text does not mention; the value given last counts. MineralCatalyst(text) and MineralCatalyst(species, quantity, power) agree. Every other text is refused, no text makes the program read outside its data, and mechanisms (catalysts) that compare equal are the same.", "quantifier": "all texts: any number of entries in any order, any blanks, any decimal numbers, any convertible units, any names of species", "why_tests_cant": "The texts are unbounded and the parser splits them at several characters; there are no tests of these classes.", "anchors": ["Reaktoro/Reactions/Mineral/MineralMechanism.cpp:68-100", "Reaktoro/Reactions/Mineral/MineralMechanism.hpp:32-45", "Reaktoro/Reactions/Mineral/MineralCatalyst.cpp:51-87"]}
{"id": "C128", "title": "Standard properties computed with the parameters of SUPCRTBL obey the laws of thermodynamics in SI units", "statement": "For fluids, minerals and solutes with the parameters of SUPCRTBL in the documented units, the SpeciesThermoState returned at any temperature and pressure has -S as the derivative of G with respect to temperature, Cp as that of H, V as the derivative of G with respect to pressure, H = U + PV and A = U - TS; for gases Cp - Cv = R; at the reference conditions G, H and S are the parameters; the bulk modulus is the parameter kappa; the parameters of water determine the properties of water.", "quantifier": "all parameters, all temperatures above zero, all pressures where the equation of state of minerals is defined", "why_tests_cant": "Derivative identities in T and P for all parameters, and factors of conversion of units; there are no tests of these functions.", "anchors": ["Reaktoro/Extensions/Supcrtbl/SupcrtblModels.cpp:62-192", "Reaktoro/Extensions/Supcrtbl/SupcrtblParams.hpp:25-163", "Reaktoro/Extensions/Supcrt/SpeciesThermoState.hpp:25-50"]}
{"id": "C129", "title": "States are values: a copy has what the original has and does not share it", "statement": "A copy of a ChemicalState or of a PorousRockState, and a state to which another one is assigned, have the temperature, the pressure and the amounts of the original, and later changes of one of them do not change the other.", "quantifier": "all programs that declare, copy, assign and set states, in any order, with setters that succeed or throw, for any chemical system", "why_tests_cant": "Sharing between objects shows only in certain orders of copies and changes; the programs are unbounded.", "anchors": ["Reaktoro/Core/ChemicalState.cpp:203-219", "Reaktoro/Extensions/PorousMedia/PorousRockState.cpp:34-50"]}
{"id": "C130", "title": "A Phreeqc object has the species, elements and reactions of PHREEQC, and its reactions conserve the elements", "statement": "After a script is executed, the formula matrix of a Phreeqc object has the elements and the charges of PHREEQC's formulas of the species, its phases partition the species, its stoichiometric matrix has the coefficients of PHREEQC's reactions, and every reaction that is balanced in PHREEQC conserves every element of the formula matrix.", "quantifier": "all contents of PHREEQC after a script: all lists of species, gases, minerals, unknowns and reactions", "why_tests_cant": "Depends on which elements have several valences and on which species and phases a script brings in; the tests of this class need PHREEQC databases and a few scripts.", "anchors": ["Reaktoro/Extensions/Phreeqc/Phreeqc.cpp:375-637", "Reaktoro/Extensions/Phreeqc/Phreeqc.cpp:1155-1198", "Reaktoro/Extensions/Phreeqc/PhreeqcUtils.cpp:241-286", "Reaktoro/Extensions/Phreeqc/PhreeqcUtils.cpp:347-411"]}
{"id": "C131", "title": "The properties of a Phreeqc object are those of the conditions set, and are consistent with the reactions of PHREEQC", "statement": "After set(T, P, n) the results of a Phreeqc object depend on T, P and n only, whatever scripts and conditions came before; its standard Gibbs energies and activities satisfy the mass action equations with PHREEQC's activities and equilibrium constants; equilibrium constants depend on T and P only; a solute that is absent does not have activity one; and set(T, P) either leaves the activities or gives those at the new conditions.", "quantifier": "all sequences of scripts and of conditions, all temperatures, pressures and amounts, all functions for what PHREEQC computes", "why_tests_cant": "Depends on the history of the object and on arbitrary amounts; tests call the setters a few times and compare with stored numbers.", "anchors": ["Reaktoro/Extensions/Phreeqc/Phreeqc.cpp:660-881", "Reaktoro/Extensions/Phreeqc/Phreeqc.cpp:903-1112", "Reaktoro/Extensions/Phreeqc/Phreeqc.cpp:1200-1289"]}
{"id": "C132", "title": "An equilibrium calculation returns the state that the optimizer found at the given conditions, and nothing else of the calculation remains in it", "statement": "After EquilibriumSolver::solve with conditions (or with the state alone, whose temperature, pressure and amounts are then the conditions) the state has the amounts of species found, the temperature and pressure that were given or found, and remembers the conditions, the component amounts and the optimizer's state; elements and charge are conserved when the optimizer satisfies its equations. Temperature and pressure that were given without derivatives come back without derivatives, so that a further calculation from the state uses the right derivatives; the start of the optimizer fits the problem; an error leaves the state as it was.", "quantifier": "every system, specification, conditions, restrictions, initial state, objective and constraint functions with derivatives, and every optimizer (any sequence of evaluations and any result)", "why_tests_cant": "Tests look at amounts after one calculation; that the pressure left in the state carries a derivative of one, and spoils the second derivatives of the next calculation, shows only as slow or failed convergence there.", "anchors": ["Reaktoro/Equilibrium/EquilibriumSolver.cpp:120-360", "Reaktoro/Equilibrium/EquilibriumSetup.cpp:205-346", "Reaktoro/Equilibrium/EquilibriumProps.cpp:35-148", "Reaktoro/Core/ChemicalState.cpp:387-475"]}
{"id": "C133", "title": "The HKF activity model finds its parameters exactly at the conditions of its tables, and they vary there as those of water do", "statement": "The HKF activity model for aqueous solutions takes two Debye-H\u00fcckel parameters and two interaction parameters of NaCl from tables over temperature and pressure. Each is found for every temperature from 0 to 500 \u00b0C and every pressure from 1 to 5000 bar, and at any other condition the evaluation throws an error. At the tabulated conditions the tabulated value is found, in the units of the model; elsewhere the value lies within the extreme values of the table, so that the Debye-H\u00fcckel parameters are always positive. At a given temperature the parameter A never rises with pressure. At a given pressure the parameters A and B never fall when the temperature rises.", "quantifier": "Every temperature and pressure.", "why_tests_cant": "Tests evaluate the model at one or two conditions; coverage of the whole region, its exact limits and monotonicity concern all temperatures and pressures, also across the cells of the table.", "anchors": ["Reaktoro/Thermodynamics/Aqueous/ActivityModelHKF.cpp:75-199", "Reaktoro/Thermodynamics/Aqueous/ActivityModelHKF.cpp:228-266", "Reaktoro/Math/BilinearInterpolator.cpp:115-156", "Reaktoro/Common/ConvertUtils.hpp:26-35"]}
{"id": "C134", "title": "The saturation curve of water follows its equations up to the critical point", "statement": "The three functions for water at saturation compute the equations of Wagner and Pruss for the pressure, the density of the liquid and the density of the vapour, at every positive temperature up to the critical one; above it the result is not a number. The pressure is positive and rises strictly with the temperature to the critical pressure. The density of the liquid exceeds the critical density from 200 K on, falls strictly with the temperature from 280 K on and ends at the critical density; that of the vapour is positive, rises strictly with the temperature and ends at the critical density from below.", "quantifier": "Every positive temperature; every pair of temperatures for the claims of order.", "why_tests_cant": "There are no tests of these functions in the repository, and tests at some temperatures cannot show that the curves are monotone or meet at the critical point.", "anchors": ["Reaktoro/Thermodynamics/Water/WaterUtils.cpp:136-203", "Reaktoro/Thermodynamics/Water/WaterConstants.hpp:26-32"]}
{"id": "C135", "title": "Tables of progress have their values below their names", "statement": "In the tables printed by an Outputter every row is divided like the header: values that fit stand below their names and separators below separators. A row has the values added since the last one, whether that was printed or the output was off then; a row with a wrong number of values is refused and nothing outside the table is read.", "quantifier": "all options, entries, values and sequences of calls", "why_tests_cant": "Alignment over all names, widths and separators and all orders of calls; tests only look at single outputs.", "anchors": ["Reaktoro/Common/Outputter.cpp:27-132", "Reaktoro/Common/Outputter.hpp:31-126"]}
{"id": "C136", "title": "The species of a ThermoFun database are the substances of the file", "statement": "ThermoFunDatabase::fromFile turns every substance of a ThermoFun file into one species, in the order of the file's map: its name is the substance's symbol, its formula, substance name and charge are those of the file, its elements are those of the formula without the charge element Zz and with molar masses in kg/mol, its molar mass accounts for the electrons of its charge, and its aggregate state is that of the substance. Its standard properties at any temperature and pressure are those of the ThermoFun engine in SI units, with their derivatives in temperature and pressure; a species not in the file is refused.", "quantifier": "for every file with distinct non-empty symbols, every formula parser and property engine, every content of uninitialised memory, all temperatures and pressures with any seeded direction of derivatives", "why_tests_cant": "The repository has no test of this extension; the aggregate state is read from memory that was never written, so a test sees whatever the allocator left there, and values of properties at fixed conditions do not show that the derivatives are lost.", "anchors": ["Reaktoro/Extensions/ThermoFun/ThermoFunDatabase.cpp:41-97", "Reaktoro/Extensions/ThermoFun/ThermoFunEngine.cpp:29-73", "Reaktoro/Core/Species.cpp:55-99", "Reaktoro/Core/Species.cpp:153-200", "Reaktoro/Core/Species.cpp:265-270"]}
{"id": "C137", "title": "A Phreeqc object has the state that PHREEQC computed for the script", "statement": "After Phreeqc::execute, temperature and pressure are those of PHREEQC in K and Pa, and the amounts of species are those PHREEQC computed for this script, in the order of the species' names: moles of the aqueous species, moles of the gases in the gas phase, moles of the minerals in the assemblage, each counted once. This does not depend on scripts executed before. Gases without critical properties in the script get those of the built-in table, in the units of PHREEQC; given ones are kept.", "quantifier": "for every PHREEQC memory, every script (any change of that memory), any number of species, gases, minerals and unknowns, any earlier script on the same object", "why_tests_cant": "Tests execute one script with disjoint gases and minerals on a fresh object; the amounts depend on what an earlier call wrote into PHREEQC's own structures and on phases present in two roles.", "anchors": ["Reaktoro/Extensions/Phreeqc/Phreeqc.cpp:39-65", "Reaktoro/Extensions/Phreeqc/Phreeqc.cpp:327-334", "Reaktoro/Extensions/Phreeqc/Phreeqc.cpp:639-719", "Reaktoro/Extensions/Phreeqc/Phreeqc.cpp:903-937", "Reaktoro/Extensions/Phreeqc/PhreeqcUtils.cpp:422-456"]}
{"id": "C138", "title": "Phases with a cubic equation of state use the critical properties of their own species", "statement": "An activity model with a cubic equation of state (van der Waals, Redlich-Kwong, Soave-Redlich-Kwong, Peng-Robinson) built for a list of species either is refused or gives the equation, species by species and in their order, the critical temperature, critical pressure and acentric factor of the substance that the species consists of; the values come from the first known one of the substance name, the formula and the name of the species; it is refused when a species has none of them in the registry or when the species are neither gases nor liquids; the equation is that of a vapour for gases and of a liquid for liquids; gases of elements listed in the built-in table are found by their formulas.", "quantifier": "for all lists of species and all registries of critical properties; for the built-in table, all species", "why_tests_cant": "A wrong or missing alias in a table, or a lookup that ignores letter case, affects only the species that nobody tested; the error then sits silently in fugacities.", "anchors": ["Reaktoro/Thermodynamics/Fluids/ActivityModelCubicEOS.cpp:31-71", "Reaktoro/Singletons/CriticalProps.cpp:27-147", "Reaktoro/Singletons/CriticalProps.cpp:274-288", "Reaktoro/Thermodynamics/Fluids/CubicEOS.cpp:211-235"]}
{"id": "C139", "title": "Debye-H\u00fcckel slope of the Pitzer model over temperature and pressure", "statement": "Creating the Pitzer activity model gives a Debye-H\u00fcckel slope A\u03c6 for every temperature from 0 to 350 \u00b0C and every pressure from 1 to 5000 bar, and an error outside. The slope is positive, equals the tabulated value at the tabulated conditions, never falls with temperature and never rises with pressure, and agrees (as 3 A\u03c6 / ln 10, within 5 percent) with the slope A that the HKF activity model uses at the same conditions.", "quantifier": "all temperatures and pressures (rationals), inside and outside of the table", "why_tests_cant": "The tables have 180 and 210 entries and conditions form a continuum: monotonicity and agreement between two models whose grids differ need an argument over every cell.", "anchors": ["Reaktoro/Thermodynamics/Aqueous/ActivityModelPitzerHMW.cpp:448-480", "Reaktoro/Thermodynamics/Aqueous/ActivityModelPitzerHMW.cpp:790-796", "Reaktoro/Math/BilinearInterpolator.cpp:115-156", "Reaktoro/Thermodynamics/Aqueous/ActivityModelHKF.cpp:228-266"]}
{"id": "C140", "title": "Copies of the state of a porous rock", "statement": "A copy of a PorousRockState has the system, temperature, pressure and amounts of the original, and so has a PorousRockState to which another, or itself, is assigned; a new one is at 25 \u00b0C and 1 bar without amounts. Setting porosities and volume fractions takes effect.", "quantifier": "every porous rock state over every chemical system", "why_tests_cant": "The test file of the class has no checks, and no number of sample states shows that every copy, however the state was set, agrees with its original.", "anchors": ["Reaktoro/Extensions/PorousMedia/PorousRockState.cpp:34-80", "Reaktoro/Extensions/PorousMedia/PorousRockState.hpp:38-68", "Reaktoro/Core/ChemicalState.cpp:204-219"]}
{"id": "C141", "title": "Interpolation of functions of temperature and pressure", "statement": "interpolate() with several functions gives, at every temperature and pressure within the given axes, the values that interpolate() gives for each function alone, whatever was evaluated before; at the points of the axes these are the values of the functions, and linear relations between the functions there hold between the values everywhere. Points out of range and data whose number does not fit the axes are refused with an error.", "quantifier": "all axes of two or more increasing points, all functions, all earlier evaluations, all temperatures and pressures", "why_tests_cant": "The evaluated function keeps an array from call to call; independence of it, exactness and linearity range over all functions, grids and histories of calls.", "anchors": ["Reaktoro/Common/InterpolationUtils.cpp:25-62", "Reaktoro/Math/BilinearInterpolator.cpp:57-78", "Reaktoro/Math/BilinearInterpolator.cpp:115-156"]}
{"id": "C142", "title": "SUPCRT databases, the numeric locale and the documented names", "statement": "SupcrtDatabase::withName and SupcrtDatabase::fromFile leave the numeric locale of the process as it was, whether they return or throw, and the database they give does not depend on it: numbers are read with a decimal point. SupcrtDatabase::withName and Database::withName accept exactly the names in their documentation, and refuse all others with an error.", "quantifier": "all locales of the process, all names and paths, all contents of files, all outcomes", "why_tests_cant": "Tests run in one locale, and with a handful of names; restoration on every exit, independence of the locale and refusal of every other name range over all of them.", "anchors": ["Reaktoro/Extensions/Supcrt/SupcrtDatabase.cpp:273-358", "Reaktoro/Extensions/Supcrt/SupcrtDatabase.hpp:33-57", "Reaktoro/Core/Database.cpp:195-215", "Reaktoro/Core/Database.hpp:33-41"]}
{"id": "C143", "title": "Reactions and phases are values", "statement": "Reaction and Phase objects share their data when copied, yet a program cannot tell: whatever sequence of constructions, copies, assignments and with-methods it performs, catching exceptions on the way, each variable reads as if it had its own data. Each with-method gives a new object that differs from the original in that attribute only, and no other variable changes. Phase::withSpecies takes a list of species exactly if it can tell that all have one aggregate state; all species of a phase have the aggregate state of the phase. Reactions and phases compare by their names.", "quantifier": "all programs over any number of variables, all attributes", "why_tests_cant": "Aliasing bugs depend on the history of copies and assignments; no set of sample programs covers all histories.", "anchors": ["Reaktoro/Core/Reaction.cpp:24-108", "Reaktoro/Core/Phase.cpp:28-160"]}
{"id": "C144", "title": "Messages of errors name the error, its reason and the place", "statement": "The message of an error raised with Assert, RuntimeError or RaiseError has the text of the error, the text of the reason and the place, each on its own line. The place is the path of the source file from its last directory Reaktoro on, then a colon and the decimal line number; it includes the name of the file for every path.", "quantifier": "all texts, all paths, all lines", "why_tests_cant": "Tests check that an error is raised, not where its message points; paths differ between builds, compilers and programs that use the macros.", "anchors": ["Reaktoro/Common/Exception.cpp:28-57", "Reaktoro/Common/Exception.hpp:64-94"]}
{"id": "C145", "title": "Elements are values with comparisons that agree", "statement": "Element objects share their data when copied, yet whatever sequence of constructions, copies, assignments and with-methods a program performs, each variable reads as if it had its own data: each with-method gives a new object that differs in that attribute only. Negative molar masses are refused, so that no element ever has one. Of any two elements exactly one is before, equal to or after the other.", "quantifier": "all programs over any number of variables, all attributes, all pairs of elements", "why_tests_cant": "Aliasing bugs depend on the history of copies and assignments; agreement of the comparisons ranges over all pairs of elements.", "anchors": ["Reaktoro/Core/Element.cpp:43-58", "Reaktoro/Core/Element.cpp:74-154"]}
