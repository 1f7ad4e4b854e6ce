{"id": "C01", "title": "Closed-form interval sums are the sums they stand for", "statement": "For every pair of integer bounds and every mean value, the closed forms used for the zeroth/first/second order sums over a cluster interval return exactly the sum of (n-mean), (n-mean)^2, (n-mean1)(n+offset-mean2) over all integers n between the bounds, and return 0 for an empty interval.", "quantifier": "all integers alpha, beta (including empty and negative intervals), all real means, all integer offsets", "why_tests_cant": "Unit tests sample a handful of intervals; the formulas are used with every group width and every offset that a network can produce, so only an induction over the interval length settles them.", "anchors": ["xolotl/util/include/xolotl/util/MathUtils.h: firstOrderSum, secondOrderSum, secondOrderOffsetSum"]}
{"id": "C02", "title": "Overlap of a grouped reaction counts exactly the possible microscopic reactions", "statement": "The overlap number computed for a reaction between grouped clusters equals, per species axis, the number of ways to pick one size from each participating interval such that the amounts balance; in particular it is positive exactly when at least one balanced microscopic reaction exists.", "quantifier": "all integer intervals for the two reactants and the (zero, one or two) products, all species axes", "why_tests_cant": "The number of interval configurations (relative positions, widths, one/two products) is unbounded; a miscount only shows up as a slightly wrong rate for particular groupings.", "anchors": ["xolotl/core/include/xolotl/core/network/impl/Reaction.tpp: Reaction::computeOverlap", "xolotl/core/include/xolotl/core/network/detail/ReactionUtility.h"]}
{"id": "C03", "title": "Reflected interval of interstitial/vacancy annihilation", "statement": "Projecting a cluster's interstitial and vacancy ranges onto a single signed axis gives exactly the set of differences between an amount of one and an amount of the other, and the size of a reflected cluster is the number of distinct net amounts.", "quantifier": "all pairs of non-empty integer ranges", "why_tests_cant": "Off-by-one errors at the range ends depend on which range is wider and on sign; tests fix a few cluster shapes.", "anchors": ["xolotl/core/include/xolotl/core/network/detail/ReactionUtility.h: updateReflectedRegionsForCoefs, getReflectedDispersionForCoefs"]}
{"id": "C04", "title": "Grouped-reaction sums are the microscopic sums", "statement": "The four double sums used to build reaction coefficients (first order, second order, second-order offset and third order) equal the explicit sums of the distance-to-mean weights over every balanced choice of one size per participating interval.", "quantifier": "all integer intervals for the four roles, all means", "why_tests_cant": "The code sums closed forms over clipped intervals; equality with the microscopic sum must hold for every relative position of four intervals.", "anchors": ["xolotl/core/include/xolotl/core/network/detail/ReactionUtility.h: computeFirstOrderSum, computeSecondOrderSum, computeSecondOrderOffsetSum, computeThirdOrderSum"]}
{"id": "C05", "title": "A production reaction conserves every species", "statement": "Evaluating the rate of change due to a production reaction A+B->products (grouped or not) changes the total number of atoms of each species carried by all clusters by zero whenever the composition of products balances the reactants: what is removed from the reactants is added to the products.", "quantifier": "all interval shapes of reactants and products, all concentrations and moments, all rates", "why_tests_cant": "Conservation is a statement about all concentration vectors and all groupings; a test can only show a residual is small for one state.", "anchors": ["xolotl/core/include/xolotl/core/network/impl/Reaction.tpp: ProductionReaction::computeCoefficients, ProductionReaction::computeFlux"]}
{"id": "C06", "title": "The production Jacobian is the exact derivative of the production flux", "statement": "Every entry a production reaction adds to the Jacobian equals the partial derivative of the flux it adds to the right-hand side, for zeroth and first moments of reactants and products, including A+A reactions.", "quantifier": "all concentrations, all coefficients, rates, volumes, all patterns of valid/invalid moment ids, A=B or A<>B", "why_tests_cant": "Finite-difference tests check isolated points with tolerance; a swapped moment index gives an error only when particular moments are non-zero.", "anchors": ["xolotl/core/include/xolotl/core/network/impl/Reaction.tpp: ProductionReaction::computeFlux, ProductionReaction::computePartialDerivatives"]}
{"id": "C07", "title": "A dissociation reaction conserves every species and its Jacobian is exact", "statement": "A dissociation removes from the parent exactly what it gives to the two products, and the Jacobian entries are the exact derivatives of the flux.", "quantifier": "all interval shapes, concentrations and moments, rates", "why_tests_cant": "Same as for production: universally quantified over states and groupings.", "anchors": ["xolotl/core/include/xolotl/core/network/impl/Reaction.tpp: DissociationReaction::computeFlux, computePartialDerivatives"]}
{"id": "C08", "title": "The reduced Jacobian is the same-cluster part of the full Jacobian", "statement": "With the reduced-Jacobian option, each reaction contributes exactly those full-Jacobian entries whose row and column belong to the same unknown, with the same values, and nothing else.", "quantifier": "all reactions, concentrations and moment-id patterns", "why_tests_cant": "The reduced branch duplicates the full branch by hand; a wrong guard only matters for clusters grouped in one product and not in the other.", "anchors": ["xolotl/core/include/xolotl/core/network/impl/Reaction.tpp: computeReducedPartialDerivatives (Production, Dissociation)", "xolotl/core/include/xolotl/core/network/impl/ReSolutionReaction.tpp: computeReducedPartialDerivatives"]}
{"id": "C09", "title": "Re-solution conserves and differentiates exactly", "statement": "A re-solution reaction removes from the bubble what it gives to the two products and its Jacobian is the derivative of its flux.", "quantifier": "all concentrations, moments, rates and coefficient tables", "why_tests_cant": "Universally quantified over states.", "anchors": ["xolotl/core/include/xolotl/core/network/impl/ReSolutionReaction.tpp"]}
{"id": "C10", "title": "Nucleation conserves xenon, never over-draws, and its Jacobian matches off the switch point", "statement": "In both regimes (source-limited or fission-limited) nucleation turns two single atoms into one pair: the loss of the reactant is twice the gain of the product; the switched rate is continuous at the switch and the loss never exceeds the reactant concentration; away from the switch the Jacobian entries are the derivative of the flux.", "quantifier": "all non-negative concentrations and fission rates", "why_tests_cant": "The regime switch is a measure-zero boundary tests rarely hit.", "anchors": ["xolotl/core/include/xolotl/core/network/impl/NucleationReaction.tpp"]}
{"id": "C11", "title": "Trap mutation conserves helium and vacancy-interstitial balance and its Jacobian is exact", "statement": "Trap mutation He_n -> He_nV_m + I_m removes one helium cluster for each bubble and each interstitial created, so helium and (V - I) are conserved; the Jacobian is the derivative of the flux; it is active exactly when enabled at this depth for this helium size and this vacancy number.", "quantifier": "all concentrations, rates, enable tables", "why_tests_cant": "Enable tables vary with depth and time; tests use one table.", "anchors": ["xolotl/core/include/xolotl/core/network/impl/TrapMutationReaction.tpp"]}
{"id": "C12", "title": "Every Jacobian entry a reaction writes was announced in the sparsity pattern", "statement": "The set of (row, column) pairs a reaction writes in the Jacobian is contained in the set it declares as its connectivity, in full and reduced mode, for every pattern of grouped/ungrouped participants.", "quantifier": "all reactions, all moment-id patterns", "why_tests_cant": "An unannounced entry corrupts some other matrix value silently; it appears only for specific grouping patterns.", "anchors": ["xolotl/core/include/xolotl/core/network/impl/Reaction.tpp: computeConnectivity, mapJacobianEntries, computePartialDerivatives", "xolotl/core/include/xolotl/core/network/ConstantReaction.h"]}
{"id": "C13", "title": "Concurrent construction of the sparsity pattern loses and invents nothing", "statement": "Whatever the interleaving of the parallel threads adding (row,column) pairs with compare-and-swap, the final compressed pattern of each row contains the diagonal and exactly the set of columns added for this row, without duplicates and without leftover empty slots.", "quantifier": "all multisets of additions, all schedules of any number of threads", "why_tests_cant": "Race outcomes depend on the schedule; tests observe one.", "anchors": ["xolotl/core/include/xolotl/core/network/detail/impl/ReactionGenerator.tpp: generateConnectivity", "xolotl/core/include/xolotl/core/network/detail/ClusterConnectivity.h"]}
{"id": "C14", "title": "Concurrent storing of generated reactions keeps each reaction exactly once", "statement": "In the two-phase (count, then store) parallel generation, whatever the interleaving, each generated reaction ends up in exactly one slot of the row reserved for its key cluster, no slot remains unused and no thread runs past the end of its row.", "quantifier": "all finite sets of reactions, all schedules of any number of threads", "why_tests_cant": "Schedule-dependent.", "anchors": ["xolotl/core/include/xolotl/core/network/detail/impl/ReactionGenerator.tpp: addProductionReaction, addDissociationReaction"]}
{"id": "C15", "title": "Chained reaction views form one flat index space", "statement": "After any sequence of re-sizings of the per-type reaction lists, the flat index space of the combined collection enumerates each element of each list exactly once, in list order, and applying a function to a flat index reaches that element.", "quantifier": "all numbers of element lists, all histories of view replacement, all indices", "why_tests_cant": "Histories of resizing are unbounded.", "anchors": ["xolotl/core/include/xolotl/core/network/detail/MultiElementCollection.h"]}
{"id": "C16", "title": "Moment unknowns get unique, dense ids after the cluster unknowns", "statement": "After moment ids are defined, every grouped axis of every cluster owns an unknown id in [numClusters, DOF), ids of different grouped axes are different, every id in this range is used, and axes of width one own none (or share the slot of the axis they are mapped to).", "quantifier": "all networks (any number of clusters, species and widths)", "why_tests_cant": "Depends on the whole cluster list.", "anchors": ["xolotl/core/include/xolotl/core/network/detail/impl/ClusterData.tpp: defineMomentIds"]}
{"id": "C17", "title": "Constant-rate decomposition reproduces the network flux restricted to a sub-network", "statement": "When a network is split into sub-networks, the contribution of a reaction to a sub-network, expressed with constant rates computed from the other sub-networks' concentrations, equals the flux the full network gives for the same concentrations.", "quantifier": "all membership patterns of reactants/products in the sub-network, all concentrations and moments", "why_tests_cant": "There are many membership patterns and moment combinations; a wrong index shows only in some.", "anchors": ["xolotl/core/include/xolotl/core/network/impl/Reaction.tpp: computeConstantRates", "xolotl/core/include/xolotl/core/network/impl/ReSolutionReaction.tpp", "xolotl/core/include/xolotl/core/network/impl/TrapMutationReaction.tpp", "xolotl/core/include/xolotl/core/network/ConstantReaction.h"]}
{"id": "C18", "title": "Annihilation products cover every reachable net amount exactly once", "statement": "For an interstitial cluster meeting a vacancy cluster, the generated set of reactions consists of each cluster whose size range contains a reachable net amount, each exactly once, plus the no-product reaction exactly when a zero net amount is reachable.", "quantifier": "all grouped interstitial and vacancy ranges, all tilings of the size axis into clusters", "why_tests_cant": "Depends on the relation between group boundaries and product range.", "anchors": ["xolotl/core/include/xolotl/core/network/impl/PSIReactionNetwork.tpp: PSIReactionGenerator::operator()", "xolotl/core/include/xolotl/core/network/impl/AlloyReactionNetwork.tpp", "xolotl/core/include/xolotl/core/network/impl/ZrReactionNetwork.tpp"]}
{"id": "C19", "title": "A product is generated exactly when a balanced microscopic reaction exists", "statement": "In the general (mixed cluster) case, a product cluster is accepted exactly when some choice of one composition in each reactant and one composition in the product balances on every species axis, the interstitials recombining with the vacancies.", "quantifier": "all reactant and product boxes, all numbers of species", "why_tests_cant": "The accept test is an interval test per axis with modular unsigned arithmetic; failures need specific ranges.", "anchors": ["xolotl/core/include/xolotl/core/network/impl/PSIReactionNetwork.tpp: PSIReactionGenerator::operator()", "xolotl/config.h.in: AmountType"]}
{"id": "C20", "title": "Bubble bursting moves helium out and keeps vacancies", "statement": "When a bubble bursts, all helium (and hydrogen isotopes) of the affected clusters leaves, is reported as lost once, and the vacancies remain in the material as pure vacancy clusters of the same size.", "quantifier": "all concentration vectors and all networks, grouped or not", "why_tests_cant": "Quantified over networks with arbitrary grouping.", "anchors": ["xolotl/core/include/xolotl/core/network/impl/PSIReactionNetwork.tpp: updateBurstingConcs"]}
{"id": "C21", "title": "Reported totals are sums over individual compositions", "statement": "The total concentration, total atom concentration, and total trapped/large-cluster quantities reported for a network equal the sum over every individual composition of (linearly reconstructed concentration) times (the advertised weight) restricted to the advertised sizes.", "quantifier": "all networks, groupings, concentrations, minimum sizes", "why_tests_cant": "Quantified over groupings and concentrations.", "anchors": ["xolotl/core/include/xolotl/core/network/impl/ReactionNetwork.tpp: getTotalConcentration, getTotalAtomConcentration, getTotalTrappedAtomConcentration, getTotalRadiusConcentration, getTotalVolumeRatio"]}
{"id": "C22", "title": "Time-step sequence: queried, accumulated and stepped values agree", "statement": "For the growing time-step sequence the value obtained by stepping n times, the value queried for step n, and the sum of steps queried up to step n are mutually consistent, non-decreasing and capped by the maximum step.", "quantifier": "all initial/maximum steps, growth factors, initial step numbers, number of steps", "why_tests_cant": "Unbounded number of steps and arbitrary starting step.", "anchors": ["xolotl/util/src/GrowthFactorStepSequence.cpp", "xolotl/util/src/TimeStepper.cpp"]}
{"id": "C23", "title": "Restarting a coupled run continues the same time grid", "statement": "A run stopped after any step and restarted from its stop data visits the same sequence of times with the same step sizes as an uninterrupted run, no matter how often it is stopped and restarted.", "quantifier": "all stop points, any number of restarts, all step-sequence parameters", "why_tests_cant": "Crash/restart histories are unbounded; a test covers one restart.", "anchors": ["xolotl/interface/src/MultiXolotl.cpp: makeTimeStepper, writeStopData, readStopData", "xolotl/util/src/GrowthFactorStepSequence.cpp"]}
{"id": "C24", "title": "Time profiles are interpolated linearly, continuously, within bounds", "statement": "For a table with increasing times, the temperature (and flux, and heat-flux) profile returns the tabulated value at each knot, the first/last value outside, stays between neighbouring values in between, and is monotone/continuous across knots.", "quantifier": "all tables with strictly increasing times, all query times", "why_tests_cant": "Quantified over tables and real times.", "anchors": ["xolotl/core/src/temperature/ProfileHandler.cpp: getTemperature", "xolotl/core/src/flux/FluxHandler.cpp: getProfileAmplitude", "xolotl/core/src/temperature/HeatEquationHandler.cpp: getHeatFlux"]}
{"id": "C25", "title": "The implanted flux integrates to the requested amplitude", "statement": "Summing the incident flux times the cell width over all grid cells gives the requested flux amplitude whenever the fit function is positive somewhere, also after the surface moved.", "quantifier": "all grids, fit functions, surface positions, amplitudes", "why_tests_cant": "Quantified over grids and surface histories.", "anchors": ["xolotl/core/src/flux/FluxHandler.cpp: initializeFluxHandler, recomputeFluxHandler"]}
{"id": "C26", "title": "Diffusion Jacobian is the derivative of the diffusion flux and the stencil is consistent", "statement": "The matrix entries for diffusion are the exact derivatives of the flux contributions in 1D, 2D and 3D; for a constant diffusion coefficient the stencil vanishes on linear profiles and returns 2aD for the profile a x^2.", "quantifier": "all concentrations, diffusion coefficients, non-uniform spacings, grid masks", "why_tests_cant": "Quantified over reals.", "anchors": ["xolotl/core/src/diffusion/Diffusion1DHandler.cpp", "xolotl/core/src/diffusion/Diffusion2DHandler.cpp", "xolotl/core/src/diffusion/Diffusion3DHandler.cpp"]}
{"id": "C27", "title": "Advection Jacobian is the derivative of the advection flux", "statement": "For surface and grain-boundary advection the matrix entries are the exact derivatives of the flux contribution in every position relative to the sink.", "quantifier": "all positions, spacings, concentrations, temperatures and sink strengths", "why_tests_cant": "Quantified over reals and relative positions.", "anchors": ["xolotl/core/src/advection/SurfaceAdvectionHandler.cpp", "xolotl/core/src/advection/XGBAdvectionHandler.cpp", "xolotl/core/src/advection/YGBAdvectionHandler.cpp", "xolotl/core/src/advection/ZGBAdvectionHandler.cpp"]}
{"id": "C28", "title": "Soret diffusion Jacobian is the derivative of the Soret flux", "statement": "The matrix entries for thermo-diffusion are the exact derivatives of the flux with respect to the three concentrations and the three temperatures.", "quantifier": "all concentrations, temperatures, spacings, coefficients", "why_tests_cant": "Quantified over reals.", "anchors": ["xolotl/core/src/modified/SoretDiffusionHandler.cpp"]}
{"id": "C29", "title": "Heat-equation Jacobian is the derivative of the heat-equation right-hand side", "statement": "At interior, surface and bulk points the entries contributed to the matrix for the temperature unknown are the exact derivatives of the temperature rate with respect to the neighbouring temperatures.", "quantifier": "all temperatures, spacings, heat fluxes, bulk boundary choices", "why_tests_cant": "Wrong terms are small near steady state; finite-difference tests at one temperature miss them.", "anchors": ["xolotl/core/src/temperature/HeatEquationHandler.cpp: computeTemperature, computePartialsForTemperature"]}
{"id": "C30", "title": "Surface motion only adds or removes material at the surface", "statement": "After any history of surface moves the grid stays strictly increasing, the total used length changes exactly by the distance moved, and points away from the moved boundary keep their spacing.", "quantifier": "all grids, all histories of outward/inward moves", "why_tests_cant": "Histories are unbounded.", "anchors": ["xolotl/solver/src/handler/SolverHandler.cpp: generateGrid"]}
{"id": "C31", "title": "Temperature rebuilt from the ranks is the global temperature", "statement": "However the grid is distributed over processes, the vector gathered from the per-process pieces is the global temperature including both boundary values, in order, each once.", "quantifier": "all partitions of the grid into contiguous non-empty pieces, any number of processes", "why_tests_cant": "Depends on the partition; tests run with a few process counts.", "anchors": ["xolotl/solver/src/handler/SolverHandler.cpp: interpolateTemperature"]}
{"id": "C32", "title": "Matrix value stream matches the announced coordinate stream", "statement": "The list of (row,column) coordinates announced once to the matrix and the list of values produced at each Jacobian evaluation have the same length and the k-th value belongs to the k-th coordinate, for every grid decomposition and every set of active handlers.", "quantifier": "all grids, decompositions, offsets, numbers of diffusing/advecting clusters, handlers", "why_tests_cant": "A misalignment corrupts the matrix silently and depends on boundary offsets and handler counts.", "anchors": ["xolotl/solver/src/handler/PetscSolver1DHandler.cpp: initializeSolverContext, computeJacobian"]}
{"id": "C33", "title": "Masked diffusion removes exactly the requested cluster on the requested grid point", "statement": "Where an advection handler declares a grid point to lie on its sink, diffusion of exactly the clusters handled by it is switched off at exactly this grid point and nowhere else.", "quantifier": "all sets of diffusing clusters, advecting clusters, sink locations", "why_tests_cant": "Wrong indexing coincides with the right one for particular cluster orderings used in tests.", "anchors": ["xolotl/core/src/diffusion/Diffusion1DHandler.cpp: initializeDiffusionGrid", "xolotl/core/src/diffusion/Diffusion2DHandler.cpp", "xolotl/core/src/diffusion/Diffusion3DHandler.cpp"]}
{"id": "C34", "title": "Performance statistics aggregate exactly the processes that own the object", "statement": "For every named timer/counter, the reported process count, minimum, maximum, average and standard deviation are those of the values on the processes which know the object, whichever processes these are.", "quantifier": "all numbers of processes, all name sets per process, all values", "why_tests_cant": "Quantified over distributions of names to processes.", "anchors": ["xolotl/perf/src/PerfHandler.cpp: collectAllObjectNames, aggregateStatistics", "xolotl/perf/include/xolotl/perf/ITimer.h"]}
{"id": "C35", "title": "A timer accumulates exactly its running intervals", "statement": "For every sequence of start, stop and reset requests, the value reported by a timer is the sum of the lengths of the completed start-stop intervals since the last reset and misuse is rejected without changing the state.", "quantifier": "all operation sequences, all clock readings", "why_tests_cant": "Operation histories are unbounded.", "anchors": ["xolotl/perf/src/os/OSTimer.cpp"]}
{"id": "C36", "title": "Checkpoint time-step groups: the last written group is the one read back", "statement": "After any history of adding time-step groups to a checkpoint file, the 'last' group is the one added last, and re-adding an existing group designates this very group.", "quantifier": "all histories of (control step, loop, time step) additions", "why_tests_cant": "Histories are unbounded; restart histories re-add groups.", "anchors": ["xolotl/io/src/XFile.cpp: ConcentrationGroup::addTimestepGroup, getLastTimestepGroup"]}
{"id": "C37", "title": "Ragged per-grid-point data round-trips through the file for any pair of decompositions", "statement": "Data written collectively by one set of processes and read back by another set of processes, with any contiguous decompositions, yields for each grid point exactly the list written for it.", "quantifier": "all data, all writer and reader decompositions with non-empty pieces", "why_tests_cant": "Tests write and read with the same small process count.", "anchors": ["xolotl/io/include/xolotl/io/HDF5FileDataSet.h: RaggedDataSet2D"]}
{"id": "C38", "title": "Concentration vector export/import round-trips", "statement": "Exporting the concentrations as a sparse vector and importing it back restores every concentration larger in magnitude than the cut-off and leaves no stale value behind.", "quantifier": "all concentration vectors, all prior contents of the receiving solver", "why_tests_cant": "Prior contents of the receiver are a history.", "anchors": ["xolotl/solver/src/handler/PetscSolver1DHandler.cpp: getConcVector, setConcVector"]}
{"id": "C39", "title": "Maximum helium-per-vacancy bound is monotone and consistent", "statement": "The maximal number of helium atoms allowed for a vacancy number is non-decreasing in the vacancy number and never below the requested ratio, over the table and the extrapolated range.", "quantifier": "all vacancy numbers, all ratios", "why_tests_cant": "Unbounded vacancy number.", "anchors": ["xolotl/core/include/xolotl/core/network/impl/PSIClusterGenerator.tpp: getMaxHePerV"]}
{"id": "C40", "title": "Sub-network maps send each unknown to the unknown of the same cluster", "statement": "The map from sub-network unknowns to full-network unknowns is defined for each sub-network unknown whose cluster exists in the full network, sends cluster unknowns to the cluster with the same bounds and moment unknowns to the corresponding moment of that cluster, and is injective.", "quantifier": "all full networks and sub-networks with distinct bounds", "why_tests_cant": "Depends on full cluster lists.", "anchors": ["xolotl/interface/src/XolotlInterface.cpp: initializeClusterMaps", "xolotl/core/include/xolotl/core/network/impl/ReactionNetwork.tpp: initializeClusterMap"]}
{"id": "C41", "title": "Constant connectivity exported in compressed rows is the connectivity", "statement": "The compressed-row description exported for a sub-network lists for each row exactly the flagged columns in increasing order, and the row offsets partition the entry list.", "quantifier": "all boolean connectivity matrices", "why_tests_cant": "Quantified over matrices.", "anchors": ["xolotl/interface/src/XolotlInterface.cpp: getConstantConnectivities", "xolotl/core/include/xolotl/core/network/impl/ReactionNetwork.tpp: initializeRateEntries"]}
{"id": "C42", "title": "Surface bookkeeping after an event conserves displaced atoms", "statement": "When the surface retreats, the count of displaced atoms after the event equals the count before plus density times the distance the surface moved, and is non-negative; when it advances by one point the count decreases by density times that cell width.", "quantifier": "all grids, counts, surface positions", "why_tests_cant": "Loop count depends on data.", "anchors": ["xolotl/solver/src/monitor/PetscMonitor1D.cpp: postEventFunction, eventFunction"]}
{"id": "C43", "title": "Input line tokenizer returns exactly the fields of the next non-comment line", "statement": "Reading tokens from an input stream skips comment lines, returns the separator-delimited fields of the next line in order, and signals end of input by leaving no tokens.", "quantifier": "all character streams", "why_tests_cant": "Quantified over inputs.", "anchors": ["xolotl/util/include/xolotl/util/StreamTokenizer.h", "xolotl/util/include/xolotl/util/Tokenizer.h"]}
{"id": "C44", "title": "Legendre polynomials by recurrence", "statement": "The degree-n Legendre polynomial evaluated by the code satisfies P0=1, P1=x, Bonnet's recurrence, value 1 at x=1, (-1)^n at x=-1 and parity P_n(-x)=(-1)^n P_n(x).", "quantifier": "all degrees, all x", "why_tests_cant": "Unbounded degree.", "anchors": ["xolotl/util/include/xolotl/util/MathUtils.h: legendrePolynomial, computeNthOrderLegendre"]}
{"id": "C45", "title": "Dissociation rate obeys detailed balance with the forward rate", "statement": "The dissociation rate constant is positive, proportional to the forward rate of the reverse reaction, decreasing in the binding energy, and at zero binding energy equals the forward rate divided by the atomic volume.", "quantifier": "all positive temperatures, atomic volumes, rates and binding energies", "why_tests_cant": "Quantified over reals.", "anchors": ["xolotl/core/include/xolotl/core/network/impl/Reaction.tpp: DissociationReaction::computeRate"]}
{"id": "C46", "title": "Left-side rate is the loss rate per concentration", "statement": "The left-side rate of a cluster, multiplied by its concentration, equals the total rate at which the reactions remove it (zeroth moment), including reactions of the cluster with itself.", "quantifier": "all reactions, concentrations", "why_tests_cant": "Tests compare a single number; the factor of two of a self-reaction is invisible unless such a reaction is the dominant loss.", "anchors": ["xolotl/core/include/xolotl/core/network/impl/Reaction.tpp: computeLeftSideRate", "xolotl/core/include/xolotl/core/network/impl/ReactionNetwork.tpp: getLeftSideRate"]}
{"id": "C47", "title": "Each modified-trap-mutation depth is active at exactly one grid point", "statement": "For any increasing grid, a non-zero mutation depth inside the grid enables its reactions at one grid point, and no depth inside the grid is missed.", "quantifier": "all increasing grids, all depths", "why_tests_cant": "Depends on how the depth falls between grid points; tests use one grid.", "anchors": ["xolotl/core/include/xolotl/core/network/impl/PSIReactionNetwork.tpp: selectTrapMutationReactions"]}
{"id": "C48", "title": "Transport moves material without creating or destroying it", "statement": "Summed over any range of grid points with the cell weights, the change of a cluster's amount due to diffusion, surface advection and grain-boundary advection equals the exchange through the two ends of the range; what a grain boundary attracts arrives on it.", "quantifier": "all strictly increasing grids, ranges, concentrations, coefficients", "why_tests_cant": "A telescoping identity over arbitrary grids; tests only compare single stencil values.", "anchors": ["xolotl/core/src/diffusion/Diffusion1DHandler.cpp: computeDiffusion", "xolotl/core/src/advection/SurfaceAdvectionHandler.cpp: computeAdvection", "xolotl/core/src/advection/YGBAdvectionHandler.cpp: computeAdvection", "xolotl/solver/src/handler/PetscSolver1DHandler.cpp: updateConcentration"]}
{"id": "C49", "title": "The temperature rate is contributed once per grid point", "statement": "In every evaluation of the right-hand side and of the Jacobian each grid point receives the temperature contribution at most once, and each point which is not in an empty region exactly once.", "quantifier": "all boundary options, grid sizes, grain-boundary lists", "why_tests_cant": "Depends on the combination of boundary options and handler kind.", "anchors": ["xolotl/solver/src/handler/PetscSolver1DHandler.cpp: updateConcentration, computeJacobian"]}
{"id": "C50", "title": "Transport never makes an absent cluster negative", "statement": "Where a cluster has zero concentration and its neighbours are non-negative, diffusion, Soret diffusion and advection contribute a non-negative rate.", "quantifier": "all grids, non-negative concentrations, positive coefficients", "why_tests_cant": "An inequality over all real data.", "anchors": ["xolotl/core/src/diffusion/Diffusion1DHandler.cpp: computeDiffusion", "xolotl/core/src/modified/SoretDiffusionHandler.cpp: computeDiffusion", "xolotl/core/src/advection/SurfaceAdvectionHandler.cpp: computeAdvection"]}
{"id": "C51", "title": "Heat conductivity and capacity are positive up to melting", "statement": "For every temperature between 0 K and the melting point of tungsten (3695 K) the conductivity and heat capacity used by the heat equation are positive, so that heat flows from hot to cold.", "quantifier": "all temperatures in the interval", "why_tests_cant": "A sign condition on a quartic fit over a continuum.", "anchors": ["xolotl/core/src/temperature/HeatEquationHandler.cpp: getLocalHeatBeta, getLocalHeatGamma"]}
{"id": "C52", "title": "Network temperature on the other grid is the linear interpolation between neighbours", "statement": "When the heat equation is solved on its own grid, the temperature used by the network at each grid point (boundary points included) is the linear interpolation between the two neighbouring points of the other grid, lies between the extreme temperatures, and equals the temperature itself when the two grids coincide.", "quantifier": "all increasing grids, all temperatures, all points", "why_tests_cant": "The grids and the temperatures are continuous; tests use one grid without the heat equation.", "anchors": ["xolotl/solver/src/handler/SolverHandler.cpp: interpolateTemperature, generateTemperatureGrid"]}
{"id": "C53", "title": "Moving the surface carries the concentration profile", "statement": "When the surface moves and the grid changes, the new concentration at each point which was material before is the linear interpolation of the former profile at the same distance from the bulk end; in particular it lies between the former neighbouring values and is not negative.", "quantifier": "all grids, all profiles, outward and inward moves", "why_tests_cant": "The interpolation depends on the whole of both grids; only short runs with one grid are tested.", "anchors": ["xolotl/solver/src/handler/PetscSolver1DHandler.cpp: initializeConcentration"]}
{"id": "C54", "title": "Binding energy tables are read only inside their bounds", "statement": "For every cluster the network generator creates (plasma-surface-interaction networks), computing a binding energy reads the tabulated formation energies only at indices inside the table.", "quantifier": "all generated clusters, all pairs of dissociation products", "why_tests_cant": "The clusters of the largest helium, hydrogen and vacancy numbers appear only in large networks; an access just past a table reads the neighbouring data without any visible failure.", "anchors": ["xolotl/core/include/xolotl/core/network/impl/PSIReaction.tpp: computeBindingEnergy", "xolotl/core/include/xolotl/core/network/impl/PSIClusterGenerator.tpp: select"]}
{"id": "C55", "title": "List options set every documented parameter or are rejected", "statement": "For every list of values given to an option that takes a list (network sizes, grouping, pulse, boundaries, temperature and grid parameters, coupling time steps, random seed, initial concentrations, grain boundaries, PETSc arguments), either the option is rejected with an error or each documented parameter receives the value at its position and the others keep their defaults; values are never dropped silently and never read past the end of the list. A list written as one string means the same as a JSON array.", "quantifier": "all value lists of any length", "why_tests_cant": "Tests give well-formed lists; short and long lists read past the end of a vector or lose values without any visible failure.", "anchors": ["xolotl/options/src/Options.cpp: setNetworkParameters, setGroupingParams, setPulseParams, setBoundaries, setTempParam, setGridParam, setCouplingTimeStepParams, processRNGParam", "xolotl/solver/src/handler/SolverHandler.cpp: initializeHandlers", "xolotl/core/src/material/MaterialHandler.cpp: initializeAdvectionHandlers"]}
{"id": "C56", "title": "Stripping comments from a JSON parameter file removes the comments only", "statement": "Reading a JSON parameter file removes exactly its comments (to the end of the line after # or //, and between /* and */) and the ends of line; strings keep every character.", "quantifier": "all parameter files", "why_tests_cant": "Quantified over all texts; file names with special characters are not in the test inputs.", "anchors": ["xolotl/options/src/JSONOptions.cpp: stripComments"]}
{"id": "C57", "title": "The processes switched on are exactly the ones listed", "statement": "After reading the process option every known process is on if and only if it is in the list, and a list with an unknown name is rejected, independently of what was set before.", "quantifier": "all process lists and previous settings", "why_tests_cant": "Quantified over lists and histories.", "anchors": ["xolotl/options/src/Options.cpp: setProcesses, addProcess"]}
{"id": "C58", "title": "The network consists of exactly the clusters within the configured limits", "statement": "A single composition becomes a cluster if and only if it respects the configured limits (largest pure sizes, helium and hydrogen per vacancy, one species at a time in Zr and Alloy networks); and grouping loses nothing: a composition within the limits always ends up in some cluster of the network, alone or in a group, and helium groups do not reach beyond the helium-per-vacancy bound.", "quantifier": "all limits, ratios, grouping parameters and compositions; every network type", "why_tests_cant": "The set of compositions is a five-dimensional lattice with limits and grouping parameters as free inputs; a test looks at one network.", "anchors": ["xolotl/core/include/xolotl/core/network/impl/PSIClusterGenerator.tpp: refine, select", "xolotl/core/include/xolotl/core/network/impl/NEClusterGenerator.tpp: refine, select", "xolotl/core/include/xolotl/core/network/impl/FeClusterGenerator.tpp: select", "xolotl/core/include/xolotl/core/network/impl/ZrClusterGenerator.tpp: select", "xolotl/core/include/xolotl/core/network/impl/AlloyClusterGenerator.tpp: refine, select"]}
{"id": "C59", "title": "The lattice of compositions covers what was asked for and can be subdivided", "statement": "For every setting of the network limits and of the grouping widths the network handler finishes, the lattice it builds contains every composition asked for, each adapted limit is the smallest admissible power of the width that is not below the requested one, and every axis can be subdivided down to single compositions.", "quantifier": "all limits and grouping parameters; every network type", "why_tests_cant": "Termination and coverage for all option values; a test only tries a few input files, and one that hangs is not written.", "anchors": ["xolotl/core/src/network/PSINetworkHandler.cpp: generatePSIReactionNetwork", "xolotl/core/src/network/NENetworkHandler.cpp", "xolotl/core/src/network/FeNetworkHandler.cpp", "xolotl/core/src/network/ZrNetworkHandler.cpp", "xolotl/core/src/network/AlloyNetworkHandler.cpp", "xolotl/options/src/Options.cpp: default grouping parameters"]}
{"id": "C60", "title": "Which clusters are mobile, and how fast", "statement": "A cluster has a finite migration energy exactly when its diffusion factor is not zero; every mobile cluster has a positive diffusion coefficient which grows with the temperature, every other one has the coefficient zero at every temperature; larger interstitial clusters are slower; a group moves like its members.", "quantifier": "all compositions, groups and temperatures; every network type", "why_tests_cant": "The energies and factors are set in separate functions with separate conditions on the composition, and the coefficient is a function of a real temperature; tests look at a few clusters at one temperature.", "anchors": ["xolotl/core/include/xolotl/core/network/impl/PSIClusterGenerator.tpp: getMigrationEnergy, getDiffusionFactor", "xolotl/core/include/xolotl/core/network/impl/FeClusterGenerator.tpp: getMigrationEnergy, getDiffusionFactor", "xolotl/core/include/xolotl/core/network/impl/ZrClusterGenerator.tpp", "xolotl/core/include/xolotl/core/network/impl/AlloyClusterGenerator.tpp", "xolotl/core/include/xolotl/core/network/impl/ZrReactionNetwork.tpp: updateDiffusionCoefficient", "xolotl/core/include/xolotl/core/network/impl/NEReactionNetwork.tpp: updateDiffusionCoefficient", "xolotl/core/include/xolotl/core/network/impl/ClusterData.tpp: updateDiffusionCoefficients"]}
{"id": "C61", "title": "Reaction radii follow the volume of the atoms", "statement": "The reaction radius of a single cluster is positive, grows with its size, and (as a sphere or a loop) encloses the atomic volume of its members; a group has the mean radius of its members.", "quantifier": "all sizes, all lattice parameters, all groups; every network type", "why_tests_cant": "A law in an unbounded integer size and a real lattice parameter, with separate formulas per species and per group; a test evaluates a few sizes.", "anchors": ["xolotl/core/include/xolotl/core/network/impl/PSIClusterGenerator.tpp: getReactionRadius", "xolotl/core/include/xolotl/core/network/impl/FeClusterGenerator.tpp: getReactionRadius", "xolotl/core/include/xolotl/core/network/impl/NEClusterGenerator.tpp: getReactionRadius", "xolotl/core/include/xolotl/core/network/impl/AlloyClusterGenerator.tpp: getReactionRadius", "xolotl/core/include/xolotl/core/network/impl/ZrClusterGenerator.tpp: getReactionRadius"]}
{"id": "C62", "title": "Clusters of tungsten are bound, and the binding energy is that of what is emitted", "statement": "Every cluster of the PSI network has a formation energy, and taking one helium atom, one vacancy or one interstitial out of a cluster within the helium-per-vacancy bound costs a positive energy, namely the difference of the formation energies of the products and of the cluster.", "quantifier": "all compositions within the helium-per-vacancy bound, any amount of hydrogen, any grouping size", "why_tests_cant": "The formation energies come from a two-variable Legendre fit with 48 coefficients and from tables; positivity over the whole composition plane cannot be enumerated by unit tests.", "anchors": ["xolotl/core/include/xolotl/core/network/impl/PSIClusterGenerator.tpp: getFormationEnergy, getHeVFormationEnergy", "xolotl/core/include/xolotl/core/network/impl/PSIReaction.tpp: computeBindingEnergy", "xolotl/util/include/xolotl/util/MathUtils.h: computeNthOrderLegendre"]}
{"id": "C63", "title": "Binding energies of the Alloy, Fe, Zr and NE networks follow their stated laws", "statement": "The energy used in the dissociation rate is, for Alloy and Zr, the formation energy of the unit that leaves minus the growth of the body's surface (or dislocation line) energy, cut below at 0.1 eV, with the mean size for groups; it never decreases with the size. For Fe a vacancy leaves a helium-vacancy cluster at 1.73 - 2.59 (v^(2/3) - (v-1)^(2/3)) + 2.5 ln(1 + he/v), growing with helium, an interstitial at 6.61 minus that, and helium clusters kick out interstitials along a strictly falling table. For NE each energy is the formation energy of the product minus the matching partial derivative of one bubble energy. Each stays within fixed bounds.", "quantifier": "all sizes, group bounds, product orders, helium contents, transition sizes and formation energies", "why_tests_cant": "The energies enter an exponential rate of every dissociation of every network; unit tests check a few rate values of small fixed networks, so neither monotonicity over all sizes, the crossings of fitted branches, nor the consistency of the NE derivatives with one free energy can be seen from them.", "anchors": ["xolotl/core/include/xolotl/core/network/impl/AlloyReaction.tpp:137-190", "xolotl/core/include/xolotl/core/network/impl/FeReaction.tpp:60-147", "xolotl/core/include/xolotl/core/network/impl/ZrReaction.tpp:193-290", "xolotl/core/include/xolotl/core/network/impl/NEReaction.tpp:680-759"]}
{"id": "C64", "title": "Grouping resolves what it must and never exceeds the requested widths", "statement": "When cluster compositions are grouped, every composition below the grouping minimum stays on its own; a cell of the composition lattice is left whole along an axis exactly when it starts away from zero, stays within the limits, and is at most the requested width or narrower than a fixed share of its size (1/100 for PSI interstitials and vacancies, half the square for helium and hydrogen, 1/10 NE, 1/50 Zr, 1/20 Alloy, a share of the third power of the distance for Fe); in PSI, helium and vacancies are resolved one by one along the edge of the largest helium content.", "quantifier": "all cells of the lattice, all limits, widths, grouping minima and helium ratios, the five networks", "why_tests_cant": "The number of cells is unbounded and the conditions overlap in order; tests build a handful of small networks and count the clusters, which says nothing about the widths of single groups or about other settings.", "anchors": ["xolotl/core/include/xolotl/core/network/impl/PSIClusterGenerator.tpp:47-302", "xolotl/core/include/xolotl/core/network/impl/NEClusterGenerator.tpp:14-79", "xolotl/core/include/xolotl/core/network/impl/FeClusterGenerator.tpp:12-102", "xolotl/core/include/xolotl/core/network/impl/ZrClusterGenerator.tpp:12-64", "xolotl/core/include/xolotl/core/network/impl/AlloyClusterGenerator.tpp:14-88"]}
{"id": "C65", "title": "Sinks absorb the mobile point defects, at a positive rate with the documented bias", "statement": "With sinks enabled, exactly the mobile, pure interstitial and vacancy clusters (in the Alloy also perfect loops) get one sink reaction each; the absorption rate is proportional to the diffusion coefficient and positive, larger for an interstitial than for a vacancy by the bias of the network (1.05 Fe, 1.1 NE and Zr, 1.2 Alloy, 1 PSI); in Fe the strength is 4 pi rho / ln (1 / (pi rho d^2)); in Zr the <a> dislocations absorb with the basal diffusivity and the <c> dislocations with the geometric mean; in NE the sink drives the concentration to its thermal equilibrium.", "quantifier": "all clusters and groups, temperatures, lattice parameters and diffusivities, the five networks", "why_tests_cant": "Rates are products of several tables and of real functions of temperature and radius; tests compare one number per network, and which clusters have no sink is never observed.", "anchors": ["xolotl/core/include/xolotl/core/network/impl/SinkReaction.tpp:14-26", "xolotl/core/include/xolotl/core/network/impl/PSIReactionNetwork.tpp:708-726", "xolotl/core/include/xolotl/core/network/impl/FeReaction.tpp:151-187", "xolotl/core/include/xolotl/core/network/impl/ZrReaction.tpp:291-327", "xolotl/core/include/xolotl/core/network/impl/AlloyReactionNetwork.tpp:650-672", "xolotl/core/include/xolotl/core/network/impl/NEReaction.tpp:1044-1127"]}
{"id": "C66", "title": "The reaction file of the fuel network means what its format says", "statement": "A well-formed reaction file (clusters with the states they are linked to, then sinks and reactions) is read without error: each cluster diffuses with the Boltzmann-weighted sum of the mobilities of its states, the formation energies are the least free energies, a reaction stated in either order gets the rate and energy of its pair (the last statement wins), production and dissociation are in detailed balance with the free energies, a sink drives its cluster to exp(-g/kT)/Omega; and a reaction that is switched off or not listed does not happen, the coefficient in the last column matters.", "quantifier": "all files, temperatures, networks, numbers of states and orders of statements", "why_tests_cant": "The file is user data: tests read one file with one temperature; which entry of the tables a statement reaches, repeated or missing lines and the balance of both rates are properties of all files.", "anchors": ["xolotl/core/include/xolotl/core/network/impl/NEReactionNetwork.tpp:16-328", "xolotl/core/include/xolotl/core/network/impl/NEReaction.tpp:46-87", "xolotl/core/include/xolotl/core/network/impl/NEReaction.tpp:778-825", "xolotl/core/include/xolotl/core/network/NETraits.h:142-150", "xolotl/core/include/xolotl/core/network/impl/ReactionNetwork.tpp:66-78"]}
{"id": "C67", "title": "A sub-network applies exactly the constant rates it was given", "statement": "When a network is run as one of several sub-networks, the other sub-networks act on it through a table of constant rates. Every entry of the table has its own place in the vector of rates; every entry is applied once, whether for a cluster or for a moment; the right-hand side of every unknown of the sub-network receives exactly the sum of the contributions of the reactions of the full network (constant ones and those proportional to a concentration), the Jacobian entries are its derivatives and lie in the declared connectivity, also with the reduced Jacobian.", "quantifier": "all networks, splittings, group layouts, concentrations and numberings of the sub-network", "why_tests_cant": "The rates pass through a connectivity matrix, a sparse format, a search, a second set of reactions and a renumbering; a test compares a few numbers for one splitting, while a lost or doubled entry depends on which clusters are groups and on the order in which they are numbered.", "anchors": ["xolotl/core/include/xolotl/core/network/ConstantReaction.h:84-398", "xolotl/core/include/xolotl/core/network/Reaction.h:238-252", "xolotl/interface/src/XolotlInterface.cpp:443-515", "xolotl/core/include/xolotl/core/network/impl/AlloyReactionNetwork.tpp:29-68", "xolotl/core/include/xolotl/core/network/impl/ZrReactionNetwork.tpp:29-68", "xolotl/core/include/xolotl/core/network/impl/Reaction.tpp:1597-1811", "xolotl/core/include/xolotl/core/network/impl/Reaction.tpp:2869-2981"]}
{"id": "C68", "title": "What the retention output reports as lost is what left through the surfaces", "statement": "In a one-dimensional run with free surfaces, the retention file gives for each species the content of the material and the amounts which went out through the left and the right side. On any number of processes the content is the sum over the active cells of concentration times width; the transport terms of the equations change this content by exactly the two outgoing fluxes on which the reported amounts are based; the reported amounts are the sum over the steps of flux times length of the step; hence content plus reported losses equals initial content plus what came in, up to the change of the outgoing flux during one step.", "quantifier": "all networks of clusters of one species, grids, concentrations, temperatures, partitions among processes, sequences of steps", "why_tests_cant": "The amounts are integrals over a run of a flux recomputed in the monitor with its own copy of the finite differences; a wrong index or spacing gives plausible numbers, and the balance holds only up to the time step, so that a test on a short run with a tolerance does not see it.", "anchors": ["xolotl/solver/src/monitor/PetscMonitor1D.cpp:815-1144", "xolotl/core/include/xolotl/core/network/impl/ReactionNetwork.tpp:1470-1546", "xolotl/solver/src/handler/PetscSolver1DHandler.cpp:853-1030"]}
{"id": "C69", "title": "Nothing passes a reflecting or periodic side", "statement": "In a one-dimensional run, a side which is not a free surface (reflecting, or both sides periodic) lets nothing through: diffusion with a reflecting or periodic side changes the content only by what leaves through a free surface.", "quantifier": "all concentrations, uniform grids, constant diffusion coefficients, combinations of sides", "why_tests_cant": "The loss at a side is a small flux over many steps and looks like the outflow at a surface; the output of a run with such a side reports no number which would have to be zero.", "anchors": ["xolotl/solver/src/handler/PetscSolver1DHandler.cpp:94-104", "xolotl/solver/src/handler/PetscSolver1DHandler.cpp:940-1030", "xolotl/core/src/diffusion/Diffusion1DHandler.cpp:82-128"]}
{"id": "C70", "title": "A moving surface in two and three dimensions keeps the books of each column", "statement": "In a two- or three-dimensional run with a moving surface, each column counts the tungsten atoms which arrive as interstitials minus the sputtered ones; an event moves the columns whose count is large enough. A column which moves keeps its number of tungsten atoms (those below its surface plus the counted ones), the material which was there before and is still there keeps its concentrations, new material has the initial concentrations, emptied cells have none; columns whose condition is not met stay; the run goes on with the concentrations the event left.", "quantifier": "all grids, counts, surface positions, numbers of columns, initial concentrations, sequences of events", "why_tests_cant": "Events depend on the accumulated counts of a long run and the interesting ones (rising to the top of the grid, all columns retreating, steps of several cells between columns) do not occur in short test runs; the outcome is a plausible profile whose lost content nobody knows.", "anchors": ["xolotl/solver/src/monitor/PetscMonitor2D.cpp:1347-1496", "xolotl/solver/src/monitor/PetscMonitor2D.cpp:1741-1884", "xolotl/solver/src/monitor/PetscMonitor3D.cpp:1453-1551", "xolotl/solver/src/monitor/PetscMonitor3D.cpp:1723-1880", "xolotl/solver/src/PetscSolver.cpp:339-411", "xolotl/solver/src/handler/PetscSolver2DHandler.cpp:281-370"]}
{"id": "C71", "title": "The reported losses survive every move of the grid", "statement": "When a moving surface makes the solver restart on a new grid, the amounts which have left so far (per species through the surface and the bottom, and by bursting) are handed over to the new monitors: after any number of restarts the reported amounts are those counted over the whole run.", "quantifier": "all numbers of restarts, all amounts counted between them, 1D, 2D and 3D", "why_tests_cant": "The hand-over works at the first restart; a test with one move of the surface passes, a run with two moves reports too little.", "anchors": ["xolotl/solver/include/xolotl/solver/monitor/PetscMonitor1D.h:22-56", "xolotl/solver/include/xolotl/solver/monitor/PetscMonitor2D.h:23-46", "xolotl/solver/include/xolotl/solver/monitor/PetscMonitor3D.h:22-44", "xolotl/solver/src/PetscSolver.cpp:239-277", "xolotl/solver/src/PetscSolver.cpp:339-411"]}
{"id": "C72", "title": "Checkpoints are written at every multiple of the stride and only there", "statement": "With a checkpoint stride s, every multiple of s has its checkpoint: the first step which reaches it (up to a tenth of the step's own length) is written, for any step sizes, also after a restart from a checkpoint; no other step is written, apart from the start.", "quantifier": "all strides, all sequences of step times, all starting counters, restarts, solver loops", "why_tests_cant": "The step sizes of an adaptive solver grow over many orders of magnitude; tests use few equal steps below the stride, where the counter of strides can never lag behind.", "anchors": ["xolotl/solver/src/monitor/PetscMonitor.cpp:222-241", "xolotl/solver/src/monitor/PetscMonitor.cpp:280-289", "xolotl/solver/src/monitor/PetscMonitor1D.cpp:646-692"]}
{"id": "C73", "title": "A run continued from a checkpoint reports what the uninterrupted run reports", "statement": "The fluence and the amounts which have left the material, as reported after a run was stopped at a checkpoint and continued from it, any number of times, are those of a run which was not stopped; so is the amount of xenon at the grain boundaries.", "quantifier": "all sequences of steps, amplitudes and outgoing fluxes, all positions and numbers of interruptions", "why_tests_cant": "A restart test compares concentrations after one restart; the counters differ only by the contribution of the step at which the file was written, or by what was counted before.", "anchors": ["xolotl/solver/src/monitor/PetscMonitor.cpp:222-318", "xolotl/solver/src/monitor/PetscMonitor1D.cpp:395-470", "xolotl/solver/src/monitor/PetscMonitor1D.cpp:904-969", "xolotl/solver/src/monitor/PetscMonitor1D.cpp:1146-1375", "xolotl/core/src/flux/FluxHandler.cpp:233-251"]}
{"id": "C74", "title": "A restart in two and three dimensions finds the saved state, on any number of processes", "statement": "Concentrations, temperatures, surface positions, amounts per column and the grid written by a run on any decomposition are what a restart on any other decomposition starts from, up to concentrations of at most 1e-16; a continued run goes on from its own state afterwards; a restart file without a checkpoint starts the run of the options.", "quantifier": "all decompositions of the grid, concentrations, temperatures, tables of positions and amounts, later solver loops", "why_tests_cant": "Tests restart on the decomposition which wrote the file, with one temperature everywhere and a surface which does not move.", "anchors": ["xolotl/solver/src/monitor/PetscMonitor2D.cpp:566-683", "xolotl/solver/src/monitor/PetscMonitor3D.cpp:616-743", "xolotl/io/src/XFile.cpp:613-687", "xolotl/io/src/XFile.cpp:855-893", "xolotl/io/src/XFile.cpp:985-1126", "xolotl/solver/src/handler/PetscSolver2DHandler.cpp:23-72", "xolotl/solver/src/handler/PetscSolver2DHandler.cpp:298-412", "xolotl/solver/src/handler/PetscSolver3DHandler.cpp:425-455"]}
{"id": "C75", "title": "Xenon which reaches a grain boundary is counted once and completely (one dimension)", "statement": "In a one-dimensional fuel run with free-surface grain boundaries, the xenon reported at the grain boundaries grows in every step by what diffusion takes to them from both sides, on any number of processes; with the content and what passes the sides it balances; the amounts kept at the single boundaries add up to it; taking a boundary out of the material moves its xenon to the boundary.", "quantifier": "all grids, concentrations, positions and numbers of boundaries, partitions, sequences of steps", "why_tests_cant": "The reported number is an accumulated flux which no test compares with the change of the content; the index shift between process-local arrays and the grid shows only in parallel and with several boundaries.", "anchors": ["xolotl/solver/src/monitor/PetscMonitor1D.cpp:1146-1375", "xolotl/solver/src/handler/SolverHandler.cpp:703-733", "xolotl/solver/src/handler/PetscSolver1DHandler.cpp:586-641", "xolotl/solver/src/handler/PetscSolver1DHandler.cpp:970-986"]}
{"id": "C76", "title": "The retention output of two- and three-dimensional runs is a balance", "statement": "With -helium_retention in two and three dimensions, the printed content is the mean over the columns of what is in the material below their surfaces, and the printed amounts lost through surface and bottom grow in every step by what diffusion and advection take out of the material there, per unit of area, on any decomposition of the grid in boxes.", "quantifier": "all grids, decompositions, surface positions, concentrations, sequences of steps", "why_tests_cant": "The printed numbers are accumulated fluxes divided by an area; tests have no reference for them, a wrong location or a missing side gives plausible numbers, and the exchange of the owner's count shows only in parallel.", "anchors": ["xolotl/solver/src/monitor/PetscMonitor2D.cpp:685-1036", "xolotl/solver/src/monitor/PetscMonitor3D.cpp:745-1108"]}
{"id": "C77", "title": "Trap mutation is attenuated by the helium of its own column", "statement": "With attenuation of the modified trap mutation, the rate at each point is multiplied by exp(-4 He), He being the helium trapped within 2 nm of the surface of the same column, on any number of processes; residual and Jacobian use the same rate, and the matrix contains its dependence on the concentrations.", "quantifier": "all grids, surface positions, concentrations, decompositions in boxes", "why_tests_cant": "In serial runs the sums are right; the residual runs over all columns on each process and the Jacobian over the own ones, so the collective sums of the latter mix columns or do not match, which shows as slow convergence or a hang.", "anchors": ["xolotl/solver/src/handler/PetscSolver2DHandler.cpp:960-1007", "xolotl/solver/src/handler/PetscSolver2DHandler.cpp:1283-1325", "xolotl/solver/src/handler/PetscSolver3DHandler.cpp:1065-1116", "xolotl/solver/src/handler/PetscSolver3DHandler.cpp:1425-1471", "xolotl/core/include/xolotl/core/network/impl/TrapMutationReaction.tpp:73-152"]}
{"id": "C78", "title": "The sources of defects in alloys, iron and zirconium conserve atoms", "statement": "At every place of the grid the cascade source gives each cluster the tabulated share of the displaced atoms, and as many vacancies as interstitials; the source is the same however often the handler is initialized, it stays within its vectors for any surface position, and it falls with the dose from 1 to the cascade efficiency.", "quantifier": "all networks (any sizes present or missing), grids, surface positions, amplitudes, doses, times, numbers of initializations", "why_tests_cant": "The tables have 90, 8 and 109 numbers; which of them are used depends on the sizes of the network, and a size without a cluster is skipped silently. The handlers are initialized once in the tests, once per column and step in two- and three-dimensional runs.", "anchors": ["xolotl/core/include/xolotl/core/flux/AlloyFitFluxHandler.h:43-361", "xolotl/core/include/xolotl/core/flux/AlloySRIMData.h:14-70", "xolotl/core/include/xolotl/core/flux/FeFitFluxHandler.h:46-170", "xolotl/core/include/xolotl/core/flux/AlphaZrFitFluxHandler.h:35-191"]}
{"id": "C79", "title": "Fission, pulses and time profiles give the source they describe", "statement": "In fuel each fission gives 10^4 vacancies and as many interstitials, reduced by the fraction of sites which vacancies and divacancies occupy (counted with all their states in the reaction file), and the xenon yield; a pulsed source is on during the given part of each cycle and adds up to the amplitude over the grid; with a time profile every source follows the profile.", "quantifier": "all reaction files, temperatures, concentrations, amplitudes, cycle lengths, proportions, times, grids, profiles", "why_tests_cant": "The effects depend on the time of evaluation, on the concentrations and on the file of the run; a source that is zero, negative, or missing from the Jacobian gives no error.", "anchors": ["xolotl/core/include/xolotl/core/flux/FuelFitFluxHandler.h:74-244", "xolotl/core/include/xolotl/core/flux/PulsedFitFluxHandler.h:35-141", "xolotl/core/src/flux/FluxHandler.cpp:16-39", "xolotl/core/src/flux/FluxHandler.cpp:203-230"]}
{"id": "C80", "title": "The rates are those of the temperature of their grid point", "statement": "At every evaluation of the right-hand side and of the Jacobian the network has, at every grid point, the temperature which the handler gives for this point and time (interpolated if the temperature has its own grid) up to the documented tolerance; right-hand side and Jacobian at the same solution have the same rates, a restarted run starts with the temperature of the file, and the trap-mutation table is the one of the temperature at the surface.", "quantifier": "all temperature handlers, histories of evaluations, decompositions, grids, temperature grids, numbers of columns, surface positions, temperatures", "why_tests_cant": "The stored temperature depends on all previous evaluations, on every process; tests evaluate a solver once at a constant temperature.", "anchors": ["xolotl/solver/src/handler/PetscSolver0DHandler.cpp:91-346", "xolotl/solver/src/handler/PetscSolver1DHandler.cpp:811-940", "xolotl/solver/src/handler/PetscSolver1DHandler.cpp:1066-1195", "xolotl/solver/src/handler/PetscSolver2DHandler.cpp:817-958", "xolotl/solver/src/handler/PetscSolver3DHandler.cpp:899-1062", "xolotl/core/include/xolotl/core/network/impl/PSIReactionNetwork.tpp:63-110", "xolotl/core/include/xolotl/core/network/detail/PSITrapMutation.h:15-137"]}
{"id": "C81", "title": "The values of the Jacobian reach the entries for which they are computed, in every dimension", "statement": "The coordinates of the matrix entries are announced once, the values are written at each evaluation into an array by position; every value computed for the derivative of a point and cluster with respect to a neighbouring point and cluster is added to exactly this entry of the matrix, no position is written twice, and exactly the points which the equations treat are given values.", "quantifier": "all decompositions, surface positions, grain boundaries, boundary options, networks, sets of diffusing and advecting clusters, in 0D, 2D and 3D", "why_tests_cant": "The link between the two loops is only a running index; a shift by one produces a Jacobian which is wrong but of the right size, and the solver may still converge, only slowly or for small steps. Tests have one process and no grain boundaries.", "anchors": ["xolotl/solver/src/handler/PetscSolver0DHandler.cpp:70-82", "xolotl/solver/src/handler/PetscSolver2DHandler.cpp:136-268", "xolotl/solver/src/handler/PetscSolver2DHandler.cpp:1127-1412", "xolotl/solver/src/handler/PetscSolver3DHandler.cpp:164-327", "xolotl/solver/src/handler/PetscSolver3DHandler.cpp:1248-1566", "xolotl/solver/src/handler/PetscSolverHandler.cpp:57-109", "xolotl/core/include/xolotl/core/network/detail/ClusterConnectivity.h:17-280"]}
{"id": "C82", "title": "The diagnostic files and plots describe the solution", "statement": "Each line of the data files of alloy and zirconium runs has, per species, the density, the number of atoms and the mean diameter over the treated depth, over all sizes and from the minimum size of the options on; the TRIDYN file has, for each grid point, its depth, the atoms of each species and its temperature; the temperature profile has the temperature of each point; the plots have each point once; removing small concentrations changes each by less than the threshold. None of this depends on the number of processes or on whether the run is coupled.", "quantifier": "all networks, concentrations, grids, surface positions, numbers of processes, minimum sizes, thresholds and sub-networks", "why_tests_cant": "Files and plots are written from several processes and are read by other codes or by eye; the system tests compare a few columns for one process, and nobody compares a column with the solution it was made from.", "anchors": ["xolotl/solver/src/monitor/PetscMonitor1D.cpp:1377-1498", "xolotl/solver/src/monitor/PetscMonitor1D.cpp:1500-1597", "xolotl/solver/src/monitor/PetscMonitor1D.cpp:1994-2422", "xolotl/solver/src/monitor/PetscMonitor0D.cpp:455-508", "xolotl/core/src/network/ZrReactionNetwork.cpp:242-312", "xolotl/core/src/network/AlloyReactionNetwork.cpp:139-206", "xolotl/interface/src/XolotlInterface.cpp:539-578", "xolotl/core/include/xolotl/core/network/impl/ReactionNetwork.tpp:1592-1601"]}
{"id": "C83", "title": "Xenon which reaches a grain boundary is counted once and completely (two and three dimensions)", "statement": "In a fuel run in two or three dimensions with free-surface grain boundaries, the xenon reported at the grain boundaries grows in every step by what diffusion takes to them from their four or six neighbours, over the number of columns, on any share of the box between processes; with the reported content and what passes the surfaces it balances; the amounts kept at the single boundaries add up to it; the printed mean radii lie between the smallest and the largest radius; taking a boundary out of the material moves its xenon to the boundary.", "quantifier": "all grids, concentrations, positions and numbers of boundaries, partitions, sequences of steps", "why_tests_cant": "The reported number is an accumulated flux which no test compares with the change of the content; whether a neighbour is found across the periodic side or a process boundary depends on where the boundary lies.", "anchors": ["xolotl/solver/src/monitor/PetscMonitor2D.cpp:1038-1288", "xolotl/solver/src/monitor/PetscMonitor3D.cpp:1114-1392", "xolotl/solver/src/handler/SolverHandler.cpp:725-733", "xolotl/solver/src/handler/PetscSolver2DHandler.cpp:618-672", "xolotl/solver/src/handler/PetscSolver3DHandler.cpp:688-743", "xolotl/solver/src/handler/PetscSolver2DHandler.cpp:1059-1068"]}
{"id": "C84", "title": "What transport acts in a run, and on which clusters", "statement": "The material, the processes, the dimension and the grain boundaries of the options decide what moves: with diffusion exactly the clusters with a diffusion factor and a migration energy up to the threshold; with drift, and at every grain boundary, helium 1 to 7 with the strengths of the surface (or of the boundary), each cluster with its own strength; with thermal diffusion helium 1 to 4, D, T, I and V with their factors; a chosen process acts or the run is refused.", "quantifier": "all materials, dimensions, choices of processes, grain boundaries, networks, and initialisations repeated", "why_tests_cant": "The tests initialise one handler with one network and count its clusters; whether the lists of clusters and strengths stay in phase when some sizes do not diffuse, and whether a chosen process is silently without effect, are questions about all choices.", "anchors": ["xolotl/core/src/material/MaterialHandler.cpp:19-150", "xolotl/core/src/advection/TungstenAdvectionHandler.cpp:18-76", "xolotl/core/src/advection/XGBAdvectionHandler.cpp:11-92", "xolotl/core/src/modified/SoretDiffusionHandler.cpp:47-133", "xolotl/core/src/diffusion/DiffusionHandler.cpp:31-58", "xolotl/solver/src/handler/PetscSolver1DHandler.cpp:111-153"]}
{"id": "C85", "title": "A coupled run has the sources and the state of the whole network", "statement": "A run with sub-networks is the run of the whole network: every limit of the options goes into exactly one sub-network, the sub-networks together have the defect sources of the whole network in the same clusters, and at every step each grid point of each sub-network is given the rates of its own temperature and of the concentrations of all the sub-networks at that point.", "quantifier": "all network parameters, networks and cluster maps, amplitudes, grids, states of the sub-networks", "why_tests_cant": "The tests run the coupled interface for a few steps with one small network; sources lost, doubled or exchanged between clusters and moments left out change the numbers without any error, and depend on the limits, the grouping and the dimension.", "anchors": ["xolotl/interface/src/MultiXolotl.cpp:141-376", "xolotl/interface/src/AlphaZrSubOptions.cpp:20-39", "xolotl/interface/src/AlloySubOptions.cpp:17-46", "xolotl/core/include/xolotl/core/flux/AlphaZrFitFluxHandler.h:104-228", "xolotl/core/include/xolotl/core/flux/AlloyFitFluxHandler.h:365-411", "xolotl/interface/src/XolotlInterface.cpp:395-473"]}
{"id": "C86", "title": "A parameter file sets the options which it names, and no others", "statement": "Reading a parameter file gives every option whose label is in the file the value written there and every other option its documented default, whether the file is in JSON or in the older format; what cannot be understood - an unknown label, a label given twice, a value of the wrong type - is an error and not passed over. A file which the older format accepts is accepted as JSON and gives the same options.", "quantifier": "all parameter files (sets of labels with texts or lists), all fifty options, both formats", "why_tests_cant": "The tests read a handful of files with well-formed values and look at some getters; an option which silently keeps its default, is dropped or read differently in the other format changes the physics of a run without any message.", "anchors": ["xolotl/options/src/JSONOptions.cpp:52-301", "xolotl/options/src/ConfOptions.cpp:69-341", "xolotl/options/src/Options.cpp:20-89"]}
{"id": "C87", "title": "The guard on the largest cluster watches the largest cluster and stops the run", "statement": "With the option which checks the network for being large enough, the run is ended as soon as the concentration of the largest cluster of the network exceeds the threshold (the value given, or 1e-12) at any point of the grid, and is not ended otherwise; the largest cluster is the one with the most atoms and defects, whatever the number of threads and processes.", "quantifier": "all networks of every material, all distributions of the clusters over threads and of the grid over processes, all concentrations and thresholds", "why_tests_cant": "The tests look at the largest cluster of one tungsten network on the threads at hand; they never run the monitor with a threshold, and no test can go through the ways in which threads share out the clusters.", "anchors": ["xolotl/core/include/xolotl/core/network/impl/PSIReactionNetwork.tpp:358-387", "xolotl/core/src/network/NEReactionNetwork.cpp:56-79", "xolotl/core/src/network/FeReactionNetwork.cpp:56-79", "xolotl/core/src/network/AlloyReactionNetwork.cpp:57-81", "xolotl/core/src/network/ZrReactionNetwork.cpp:57-83", "xolotl/solver/src/monitor/PetscMonitor0D.cpp:306-342", "xolotl/solver/src/monitor/PetscMonitor1D.cpp:697-736"]}
{"id": "C88", "title": "The tables of a run at one point hold what their headings say", "statement": "In a run without spatial dimension, the table of xenon has one column for each cluster named in the file of reactions which is in the network, in the order of the file and under its name, and in each row the time, the content of xenon, the concentrations of these clusters, and mean and variance of the xenon per vacancy over the bubbles; the table of bubbles in iron lists each cluster of helium and vacancies once, with its bounds and its concentration.", "quantifier": "all fuel and iron networks, all files of clusters, all concentrations", "why_tests_cant": "No test runs the monitors of zero dimension; a column shifted by one or a statistic of the wrong clusters looks plausible in any single table.", "anchors": ["xolotl/solver/src/monitor/PetscMonitor0D.cpp:173-228", "xolotl/solver/src/monitor/PetscMonitor0D.cpp:387-452", "xolotl/solver/src/monitor/PetscMonitor0D.cpp:590-655", "xolotl/core/include/xolotl/core/network/impl/ReactionNetwork.tpp:1336-1468", "xolotl/core/include/xolotl/core/network/ReactionNetwork.h:697-703"]}
{"id": "C89", "title": "A stopped and restarted run knows again what has left through its surfaces", "statement": "The amounts of each species which have left through the left and the right side (a number, one for each row, one for each row and plane, with the dimension), the last fluxes and the amounts released by bursting are written to each checkpoint; a run restarted from it with the same options starts with the same amounts, in every dimension and for every set of species.", "quantifier": "all sets of species names, all extents of the surface, all amounts, all combinations of the options for the sides, the moving surface, bursting and retention", "why_tests_cant": "The tests of the file write and read one-dimensional amounts of fixed species; no test restarts a run, and two names of a group which collide, or a row cut at the wrong place, depend on the species and the extents.", "anchors": ["xolotl/io/src/XFile.cpp:515-853", "xolotl/io/src/XFile.cpp:1026-1077", "xolotl/solver/src/monitor/PetscMonitor1D.cpp:404-462", "xolotl/solver/src/monitor/PetscMonitor2D.cpp:256-319", "xolotl/solver/src/monitor/PetscMonitor3D.cpp:272-334"]}
{"id": "C90", "title": "Bubbles burst where they reach the surface, and what leaves is booked", "statement": "With bursting of bubbles a grid point bursts in a step exactly if the bubble which its helium would form reaches the surface or if its chance, which grows with the helium and falls with the depth, is more than the random number drawn for it; without helium nothing bursts. At a burst all the gas of the point and of no other leaves, changed once by the process which owns the point, and what the content of the material loses is added once to the amounts released, in every dimension.", "quantifier": "all networks with mixed groups and no moments, all grids, surfaces, distributions over processes, concentrations, random numbers, in one, two and three dimensions", "why_tests_cant": "No test makes a bubble burst in a run; whether the books balance depends on the steps of the grid and the dimension, and who changes a point on the distribution over processes.", "anchors": ["xolotl/solver/src/monitor/PetscMonitor1D.cpp:1747-1822", "xolotl/solver/src/monitor/PetscMonitor1D.cpp:1874-1913", "xolotl/solver/src/monitor/PetscMonitor2D.cpp:1499-1581", "xolotl/solver/src/monitor/PetscMonitor2D.cpp:1626-1655", "xolotl/solver/src/monitor/PetscMonitor3D.cpp:1555-1646", "xolotl/solver/src/monitor/PetscMonitor3D.cpp:1697-1723"]}
{"id": "C91", "title": "Clusters in zirconium and alloys find each other at rates which are positive, the same from either side, and shared out completely", "statement": "In zirconium the radii within which a loop captures interstitials and vacancies follow their power laws of the size, grow with the size and pass into the constants of large loops without a jump; every two clusters of which one moves meet at a positive rate which does not depend on which of them is named first. In the alloys a meeting which may give two kinds of clusters (voids or faulted loops, Frank or perfect loops) is shared out between those which exist, and the parts add up to the whole rate.", "quantifier": "all sizes, groups, temperatures, transition sizes and limits of the network", "why_tests_cant": "Tests of the networks compare the rates of a few reactions with recorded numbers; sizes around the transition and limits which cut off one of two products are not among them.", "anchors": ["xolotl/core/src/network/ZrReactionNetwork.cpp:133-222", "xolotl/core/include/xolotl/core/network/impl/ZrReaction.tpp:115-190", "xolotl/core/include/xolotl/core/network/impl/AlloyReaction.tpp:63-135"]}
{"id": "C92", "title": "The surface plots show each point of the grid once, at its place, whatever the number and timing of the processes", "statement": "The two-dimensional plot of a concentration holds, when it is drawn, every point of the grid in order with its position and its concentration, for every share of the grid and every order in which the messages of the processes arrive; the gathering always ends. In three dimensions the plots over x and y, and over x and z, show for each position the concentration integrated along the remaining direction.", "quantifier": "all grids, shares, numbers of processes, interleavings, buffered and synchronous sends", "why_tests_cant": "Orders of messages and deadlocks cannot be reproduced in a unit test; no test runs the plots, which need a visualization library.", "anchors": ["xolotl/solver/src/monitor/PetscMonitor2D.cpp:1953-2012", "xolotl/solver/src/monitor/PetscMonitor3D.cpp:1948-1993", "xolotl/solver/src/monitor/PetscMonitor3D.cpp:2073-2118"]}
{"id": "C93", "title": "Fission returns gas from every bubble to the lattice, at a rate which depends on stopping, radius and fission in the physical direction", "statement": "With the process resolution each bubble in the fuel gives back one xenon atom with one vacancy by one reaction, groups by one for each pair of clusters which hold such a sum; without the process none does. The rate follows the published fit: it is positive, proportional to the fission rate, falls with the radius of the bubble and grows with the share of the electronic stopping power, for every radius.", "quantifier": "all networks of fuel, groupings, stopping powers, fission rates, radii", "why_tests_cant": "The test of the reaction uses one stopping power and compares numbers; the order of the nine fits for every radius and the bubbles without reaction are beyond examples.", "anchors": ["xolotl/core/include/xolotl/core/network/impl/ReSolutionReaction.tpp:148-196", "xolotl/core/include/xolotl/core/network/impl/NEReactionNetwork.tpp:346-399", "xolotl/core/include/xolotl/core/network/detail/impl/ReSolutionReactionGenerator.tpp:44-70"]}
{"id": "C94", "title": "A file of implantation profiles is read completely and every profile reaches its cluster", "statement": "With a flux depth profile file (fluxDepthProfileFilePath) every profile of the file - two lines: cluster, size and reduction factor; sixteen polynomial coefficients and a depth - is read, in order, whatever follows the last one. In the simulation the unknown of each cluster receives, summed over the depth, the flux amplitude times the reduction factors of its profiles, distributed as the polynomials of the file cut at zero and at their depth. This holds in every dimension; without a file the flux is zero, as announced.", "quantifier": "All files (sequences of characters), all numbers of profiles, networks, grids, surface positions and amplitudes.", "why_tests_cant": "The unit test reads one file of two profiles, written with a final end of line, on one grid. Reading ends, or is refused, by how the file ends and by blank lines; the totals concern every polynomial and grid.", "anchors": ["xolotl/core/include/xolotl/core/flux/CustomFitFluxHandler.h:50-71", "xolotl/core/include/xolotl/core/flux/CustomFitFluxHandler.h:94-327", "xolotl/core/src/flux/FluxHandler.cpp:134-146", "xolotl/util/include/xolotl/util/Tokenizer.h:38-68"]}
{"id": "C95", "title": "A run which begins loses nothing saved and leaves a checkpoint which describes it", "statement": "When a run with a checkpoint begins (-start_stop), no file but the checkpoint changes and the file it restarts from keeps all its time steps, whatever names are given to both. A fresh run begins with a checkpoint of its own network and no steps; a restart into another file begins with a checkpoint which describes the network; continuing in the same file, and later loops of the same run, keep what is there. A name for which no file exists starts afresh.", "quantifier": "All contents of the disk, all names of the two files (equal, different, or different names of one file), all networks and loop numbers.", "why_tests_cant": "The system tests begin in clean directories with one pair of names. What is lost depends on which files exist, on whether two names stand for one file and on the networks of both runs.", "anchors": ["xolotl/solver/src/monitor/PetscMonitor.cpp:157-220", "xolotl/solver/src/monitor/PetscMonitor1D.cpp:155-168", "xolotl/solver/src/monitor/PetscMonitor1D.cpp:664-686", "xolotl/solver/src/handler/SolverHandler.cpp:718-722", "xolotl/io/src/XFile.cpp:48-59", "xolotl/io/src/HDF5File.cpp:80-113"]}
{"id": "C96", "title": "The volume fraction of bubbles is the volume of their spheres", "statement": "The volume fraction of a species (getTotalVolumeFraction) and the volume fraction which a run for nuclear fuel hands to a coupled code at every grid point (getLocalNE) are the sum over all bubbles with at least the minimum size of their concentration times the volume of the sphere with their radius, in every dimension and for every grouping of the network. Without negative concentrations it is not negative and does not grow with the minimum size.", "quantifier": "All networks (regions, groups, radii), concentrations, species, minimum sizes and dimensions.", "why_tests_cant": "The unit tests compare the functions with numbers the code has produced, and no test looks at the fraction handed to the coupled code. The claim relates two routines for all networks; with groups it is an inequality between means.", "anchors": ["xolotl/core/include/xolotl/core/network/impl/ReactionNetwork.tpp:1548-1576", "xolotl/core/include/xolotl/core/network/impl/ReactionNetwork.tpp:761-784", "xolotl/solver/src/monitor/PetscMonitor1D.cpp:1215-1234", "xolotl/solver/src/monitor/PetscMonitor2D.cpp:1107-1124", "xolotl/solver/src/monitor/PetscMonitor3D.cpp:1180-1201", "xolotl/solver/include/xolotl/solver/handler/SolverHandler.h:378-383"]}
{"id": "C97", "title": "The messages asked for appear, and no others", "statement": "With the option logLevel (debug, extra, info, warning, error, in any case of letters; other names are refused) exactly the messages of at least this level appear: information and warnings on the standard output, errors on the error stream, all of them in the log file, in the order of the run. If more than information is asked for every process writes a log file, otherwise the first one. Errors appear on every process whatever is asked for. The build and the format of the parameter file do not matter.", "quantifier": "All names of levels, all sequences of messages, all processes, both builds and both formats of the parameters.", "why_tests_cant": "Which messages appear depends on the order of the setting of the level and of the first message, which sets up the log lazily, and on the build; tests run one program in one build and do not look at the streams.", "anchors": ["xolotl/util/src/Log.cpp:23-30", "xolotl/util/src/Log.cpp:49-76", "xolotl/util/src/Log.cpp:91-181", "xolotl/util/include/xolotl/util/Log.h:25-32", "xolotl/options/src/JSONOptions.cpp:93-113", "xolotl/options/src/ConfOptions.cpp:35-45", "xolotl/options/src/ConfOptions.cpp:256-256"]}
{"id": "C98", "title": "The output file describes every cluster of the network", "statement": "The network group of the file of a run gives the number of clusters and the names of the species in the order of the bounds, all different. There is exactly one group per cluster, named by the decimal number of the cluster and nothing else. It gives the formation energy, the migration energy and the diffusion factor of this cluster, and for each species the first and the last amount: a composition belongs to the cluster exactly if each amount lies between the two, both included. So if the clusters do not overlap exactly one group of the file contains a given composition of the network, and reading the groups by number gives the network back and fails beyond the last cluster.", "quantifier": "All networks (any number of clusters, any regions with amounts up to 2^31, all eight kinds of networks), all compositions.", "why_tests_cant": "The limits of the regions are exclusive in the network and inclusive in the file, the numbers are stored with another type, and the names are built from the numbers; tests write and read one small network and compare a few clusters.", "anchors": ["xolotl/io/src/XFile.cpp:74-119", "xolotl/io/src/XFile.cpp:121-127", "xolotl/io/src/XFile.cpp:162-227", "xolotl/core/include/xolotl/core/network/impl/ReactionNetwork.tpp:334-356", "xolotl/core/include/xolotl/core/network/impl/ReactionNetwork.tpp:512-525", "xolotl/core/include/xolotl/core/network/PSITraits.h:81-86", "xolotl/core/include/xolotl/core/network/AlloyTraits.h:31-37", "xolotl/core/include/xolotl/core/network/ZrTraits.h:32-37"]}
{"id": "C99", "title": "The file says on which grid a time step was computed", "statement": "Each time step in the output file of a run in one, two or three dimensions says how many points there are in each direction, where they lie in depth and how far apart they are in the other directions; a restart has the same grid. Runs on different grids leave different descriptions, and a restart which asks for another width is noticed. If the grid in depth is uniform the step given is its step.", "quantifier": "All grids in depth, all numbers and distances of points in the other directions, all three dimensions.", "why_tests_cant": "The monitors hand over only a part of the grid and defaults stand for the rest; tests write and read one group directly with all arguments given.", "anchors": ["xolotl/io/src/XFile.cpp:445-494", "xolotl/io/include/xolotl/io/XFile.h:154-156", "xolotl/io/src/XFile.cpp:940-975", "xolotl/solver/src/monitor/PetscMonitor1D.cpp:766-768", "xolotl/solver/src/monitor/PetscMonitor2D.cpp:604-607", "xolotl/solver/src/monitor/PetscMonitor3D.cpp:660-663", "xolotl/solver/src/handler/PetscSolver2DHandler.cpp:30-50"]}
