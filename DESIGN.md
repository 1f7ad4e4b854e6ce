# Design of the formal model of Xolotl

This file was written before the proofs and is kept current.  Section 1 fixes
the modelling conventions, section 2 says for each property what is modelled
and how it is proved, section 3 lists the findings (properties the code
violates), section 4 states the trusted base.

## 1. Conventions

* Tool: Rocq/Coq 8.16.1, standard library only (`Reals`, `ZArith`, `List`,
  `Lia`, `Lra`, `Permutation`).  No other library's axioms.
* `double` is idealised as a mathematical real (`R`).  Rounding, overflow and
  NaN are *not* modelled.  Every theorem about rates, fluxes or grids is about
  exact arithmetic.
* Cluster amounts (`AmountType`, `std::uint32_t`, `config.h.in:18-25`) are
  modelled as `Z`; where the property is about wrap-around, subtraction is
  written with an explicit `mod 2^32`.
* Intervals `[begin,end)` are pairs of `Z` with `begin < end`.
* Indices are `nat`.  `invalidIndex()` is `None` of an `option nat`, so an access
  through an invalid index is a distinct outcome.  Out-of-bounds access of a
  vector is modelled by `nth_error` returning `None`, a distinct outcome too.
* Kokkos parallel loops over atomics / compare-and-swap are modelled as an
  interleaving transition system: a schedule is an arbitrary list of thread ids,
  each thread is a small program counter machine whose steps are the single
  atomic actions.  Weak-memory effects beyond atomics are not modelled.
* MPI collectives are modelled by their functional specification (Allreduce,
  Allgatherv, Exscan as functions on the list of per-rank values).
* HDF5 hyperslab writes and reads are modelled as writes/reads of a slice of a
  flat array.
* Each definition carries a comment with the file and lines of /repo it models.
* Files: `Model*.v`-style definitions and proofs live in topic files; the
  property theorems are in `Properties*.v`, each closed by `exact`, with
  `Print Assumptions` below and an `Example` showing a concrete case.
* A property which is false of the faithful model gets a theorem
  `..._refuted` with a concrete witness, recorded in section 3.  Where the
  property holds under an additional condition, the conditional theorem is
  proved too and the condition is named in MANIFEST.json.

## 2. Properties

Each entry: what is modelled, the separate specification, how it is proved; the theorems (file in
brackets); what is missing where the status is partial.

### C01 Closed-form interval sums are the sums they stand for (proved)

Models the three closed forms of MathUtils over R with integer bounds (empty and reversed ranges
included). Spec: a fold over the integers of the interval (`Sums.v`). Proof: induction on the
length.
Theorems [Properties_Sums.v]: `c01_first_order_sum`, `c01_second_order_sum`,
`c01_second_order_offset_sum`, `c01_range`.
Scope: All integer bounds (empty ranges included) and all real means; doubles idealised as reals.

### C02 Overlap of a grouped reaction counts exactly the possible microscopic reactions (proved)

Models overlapWidth's double loop over one axis. Spec: the number of elements of the filtered
product of the two intervals. Proof: counting lemma on intersections of integer intervals.
Theorems [Properties_Sums.v]: `c02_overlap_counts`, `c02_overlap_positive`,
`c02_no_product_overlap_refuted`.
Theorems [Properties_Laws.v]: `c02_overlap_of_reaction`.
Scope: Holds for every reaction with at least one product. Refuted when there is no product: the
code then uses overlap 1 although several balanced pairs can exist.

### C03 Reflected interval of interstitial/vacancy annihilation (proved)

Models updateReflectedRegion for one, two and three vacancy-type species and the dispersions
computed from it. Spec: the set of differences of two intervals, and its size. Proof: `lia`.
Theorems [Properties_Sums.v]: `c03_reflected_interval`, `c03_reflected_size`, `c03_reflected_two`,
`c03_reflected_six`.
Theorems [Properties_Laws.v]: `c03_projection`, `c03_dispersion`, `c03_dispersion_many`.
Scope: One, two and three vacancy-type species.

### C04 Grouped-reaction sums are the microscopic sums (proved)

Models the six double sums of Reaction.tpp. Spec: `msum`, a sum over the balanced pairs
(`RegionSpec.v`). Proof: clipping of the inner interval, then C01.
Theorems [Properties_Sums.v]: `c04_first_order`, `c04_second_order`, `c04_second_order_offset`,
`c04_third_order`, `c04_mixed_second_order`, `c04_mixed_third_order`.
Scope: All four helper sums and the two sums written inline in computeCoefficients.

### C05 A production reaction conserves every species (partial)

Models ProductionReaction::computeCoefficients as the sequence of assignments of the code
(`Assign.v` interprets it, later ones overwrite earlier ones and unwritten entries keep the initial
0) and computeFlux as a list of contributions. Spec: `specCoef`, sums over the microscopic
reactions, and the content of a cluster rebuilt from its moments. Proof: one lemma per loop of the
assignment program, then exchange of finite sums.
Theorems [Properties_Reactions.v]: `c05_coefficients`, `c05_flux_is_microscopic`,
`c05_microscopic_reactions`, `c05_first_moment_flux_is_microscopic_partial`,
`c05_conserved_partial`, `c05_conserved_first_axis`, `c05_conserved_ungrouped`,
`c05_coefficients_refuted`, `c05_conserved_refuted`.
Scope: Proved: the zeroth-moment flux is the microscopic sum for any number of axes; conservation on
the first axis, on every axis of ungrouped networks, and on axis k when no earlier axis carries a
first moment. The unrestricted statement is refuted: computeCoefficients reads coefficients before
writing them when two axes are grouped.

### C06 The production Jacobian is the exact derivative of the production flux (proved)

Models computePartialDerivatives as a list of (row, column, value) contributions; spec:
`is_partial`, the limit definition of the partial derivative of the accumulated flux. Proof: the
flux is multilinear; derivative rules of `Partial.v`.
Theorems [Properties_Reactions.v]: `c06_jacobian`.
Scope: Every row and column. Assumes a missing first product implies a missing second one (the code
packs products from the front).

### C07 A dissociation reaction conserves every species and its Jacobian is exact (proved)

As C05 and C06 for the dissociation (any number of grouped axes: the code's program writes every
coefficient it reads).
Theorems [Properties_Reactions.v]: `c07_coefficients`, `c07_flux_is_microscopic`, `c07_conserved`,
`c07_jacobian`.
Scope: Any number of grouped axes.

### C08 The reduced Jacobian is the same-cluster part of the full Jacobian (partial)

Models computeReducedPartialDerivatives. Spec: the contributions of the full Jacobian with row and
column in the same cluster. Proof: comparison of the two lists by cases on the moment ids;
refutation by a concrete reaction.
Theorems [Properties_Reactions.v]: `c08_production`, `c08_dissociation_partial`,
`c08_dissociation_refuted`.
Scope: Production: equality with the diagonal, in full. Dissociation: only when both products are
grouped on the same axes; otherwise refuted (guard tests the first product's moment id).

### C09 Re-solution conserves and differentiates exactly (proved)

The re-solution routines have the same text as those of the dissociation (checked line by line); the
theorems are instances with their own conservation statement.
Theorems [Properties_Reactions.v]: `c09_conserved`, `c09_jacobian`, `c09_contained`,
`c09_reduced_refuted`.
Scope: The routines of the re-solution have the text of those of the dissociation. The reduced
Jacobian part is refuted.

### C10 Nucleation conserves xenon, never over-draws, and its Jacobian matches off the switch point (proved)

Models HeterogeneousNucleation's computeRate/computeFlux/Partials. Spec: conservation, a bound of
the rate by what is present, `is_partial`. Proof: case analysis on the switch, continuity by limits
from both sides.
Theorems [Properties_Small.v]: `c10_conserved`, `c10_rate`, `c10_continuous`, `c10_jacobian`,
`c10_reduced`.
Theorems [Properties_Laws.v]: `c10_law`.
Scope: All concentrations and rates; Jacobian off the switch point.

### C11 Trap mutation conserves helium and vacancy-interstitial balance and its Jacobian is exact (partial)

Models TrapMutation (flux, partials, the desorption share, enabling). Spec: weights with
w(HeV)+w(I)=w(He); `is_partial`. Proof: algebra; the refutation uses a left-side rate depending on
the concentration.
Theorems [Properties_Small.v]: `c11_conserved`, `c11_active_iff`, `c11_jacobian_partial`,
`c11_reduced`, `c11_share`, `c11_jacobian_refuted`.
Theorems [Properties_Laws.v]: `c11_fast`.
Scope: Conservation (for any weight with w(HeV)+w(I)=w(He)), activation, share of the desorbing
cluster and reduced Jacobian hold. The Jacobian is exact for a fixed left-side rate; the code's
left-side rate depends on the concentrations, so the full statement is refuted for the desorbing
cluster.

### C12 Every Jacobian entry a reaction writes was announced in the sparsity pattern (partial)

Models computeConnectivity/ReducedConnectivity of each reaction type as lists of pairs. Spec:
inclusion of the written pairs. Proof: membership by cases; refutation for the reduced dissociation.
Theorems [Properties_Small.v]: `c12_trap_mutation`, `c12_trap_mutation_reduced`, `c12_nucleation`,
`c12_nucleation_reduced`, `c12_sink`.
Theorems [Properties_Reactions.v]: `c12_production`, `c12_production_reduced`, `c12_dissociation`,
`c12_dissociation_reduced_partial`, `c12_dissociation_reduced_refuted`.
Theorems [Properties_Laws.v]: `c12_reduced_is_diagonal`, `c12_dissociation_reduced_is_diagonal`.
Scope: Holds for production (full and reduced), dissociation (full), trap mutation, nucleation and
sinks; for the reduced dissociation only when both products are grouped on the same axes, refuted
otherwise.

### C13 Concurrent construction of the sparsity pattern loses and invents nothing (proved)

Interleaving transition system of the two construction passes (count, exclusive scan,
compare-and-swap insertion): a schedule is any list of thread numbers. Proof: invariant by induction
on the schedule; finishing bound.
Theorems [Properties_Network.v]: `c13_connectivity`, `c13_terminates`.
Scope: Any number of threads, any interleaving of the atomic steps, any order of the counting
increments. Sequentially consistent atomics.

### C14 Concurrent storing of generated reactions keeps each reaction exactly once (proved)

The same for the atomic counter with which reactions are stored. Proof: invariant by induction on
the schedule.
Theorems [Properties_Network.v]: `c14_reaction_storage`, `c14_terminates`.
Scope: Any number of threads and interleaving; both the production and the dissociation arrays are
instances.

### C15 Chained reaction views form one flat index space (partial)

Models MultiElementCollection/ReactionCollection: stored begin indices and views, a history of
setView/updateIndices/forEach. Spec: the concatenation of the views. Proof: induction on the
history; refutation by growth.
Theorems [Properties_Ids.v]: `c15_constructed`, `c15_history`, `c15_history_partial`,
`c15_history_refuted`.
Scope: Exact description of what is visited after any history. The full property holds after
construction and for histories which do not end with more elements; refuted for growth and for
default construction.

### C16 Moment unknowns get unique, dense ids after the cluster unknowns (proved)

Models the three passes (count, scan, assign) of generateMomentIds, parametrised by the slot map of
the network. Spec: the enumeration of (cluster, grouped axis). Proof: induction over the clusters.
Theorems [Properties_Ids.v]: `c16_moment_ids`, `c16_slot_maps`, `c16_shared_slot_refuted`,
`c16_slots_inside`.
Scope: Any non-decreasing slot map (all networks) and clusters whose grouped axes use different
slots; without the latter an unknown is lost (refuted).

### C17 Constant-rate decomposition reproduces the network flux restricted to a sub-network (partial)

Models computeConstantRates of production, dissociation and trap mutation for each membership
pattern. Spec: the flux of the full network restricted to the unknowns of the sub-network. Proof:
comparison of contribution lists; refutations by witnesses.
Theorems [Properties_Small.v]: `c17_first_reactant_inside`, `c17_no_reactant_inside`,
`c17_second_reactant_inside_partial`, `c17_dissociation_outside`, `c17_dissociation_inside_partial`,
`c17_trap_mutation_partial`, `c17_second_reactant_inside_refuted`,
`c17_both_reactants_inside_refuted`, `c17_dissociation_inside_refuted`, `c17_trap_mutation_refuted`.
Scope: Every membership pattern is either proved for all moments or refuted with a witness (second
reactant inside with several axes, both reactants inside, dissociation with grouped first product,
trap-mutation bubble).

### C18 Annihilation products cover every reachable net amount exactly once (partial)

Models the annihilation loops of the PSI, Zr and Alloy generators (signed sizes, previousIndex
de-duplication). Spec: for every reachable net amount exactly one listed product contains it. Proof:
the look-up over any tiling is monotone, induction over the loop.
Theorems [Properties_Generator.v]: `c18_psi`, `c18_zr`, `c18_zr_basal`, `c18_psi_clustering`,
`c18_alloy_vacancy_loop`, `c18_alloy_perfect_faulted_refuted`,
`c18_alloy_perfect_faulted_wrap_refuted`, `c18_alloy_interstitial_faulted_refuted`.
Theorems [Properties_Alloy.v]: `c18_alloy_interstitial_faulted_partial`,
`c18_alloy_perfect_faulted_partial`.
Scope: Holds for PSI and Zr (grouped or not) and for the Alloy vacancy + loop branches, for every
tiling of the size axes; refuted for the Alloy branches perfect + faulted/void and interstitial +
faulted/void.

### C19 A product is generated exactly when a balanced microscopic reaction exists (partial)

Models the product test of the generators with 32-bit wrap-around (`u32`) and the trap-mutation
search. Spec: existence of a balanced microscopic reaction. Proof: interval arithmetic per axis;
refutation in the wrapping case.
Theorems [Properties_Generator.v]: `c19_accept_partial`, `c19_accept_no_interstitial`,
`c19_products`, `c19_trap_mutation`, `c19_accept_refuted`,
`c19_accept_interstitial_product_refuted`, `c19_trap_mutation_gap_refuted`.
Scope: Full equivalence when both reactants are free of interstitials (any number of species),
including the trap-mutation search; with an interstitial reactant only when the vacancy bounds do
not wrap and the product has no interstitial, refuted otherwise.

### C20 Bubble bursting moves helium out and keeps vacancies (partial)

Models updateBurstingConcs of the PSI network (both branches, all neighbouring clusters). Spec:
amounts of helium, vacancies before and after. Proof: induction over the clusters with a frame
condition.
Theorems [Properties_Burst.v]: `c20_burst_partial`, `c20_vacancies_partial`, `c20_burst_ungrouped`,
`c20_moment_refuted`, `c20_vacancy_group_refuted`, `c20_interstitial_group_refuted`.
Scope: Holds for every ungrouped network, and for networks whose groups are mixed clusters with zero
moments. Refuted for non-zero moments, for groups of pure vacancies (lost) and for groups of pure
interstitials (invalid cluster used).

### C21 Reported totals are sums over individual compositions (partial)

Models getTotal* and the totals query chain. Spec: sums over the individual compositions with the
concentration rebuilt from the moments. Proof: sums of centred intervals vanish (C01).
Theorems [Properties_Totals.v]: `c21_concentration`, `c21_radius`, `c21_atoms_partial`,
`c21_atoms_defect`, `c21_trapped_partial`, `c21_getTotals`, `c21_trapped_agree_partial`,
`c21_atoms_refuted`, `c21_cut_refuted`, `c21_trapped_refuted`, `c21_trapped_agree_refuted`,
`c21_ratio_refuted`, `c21_variance_refuted`.
Theorems [Properties_Ratio.v]: `c21_ratio_partial`, `c21_variance_partial`, `c21_no_vacancies`.
Scope: Concentration and radius totals are exact for all moments unless the minimum size cuts a
group; atom totals only when the moments of the counted axis vanish (the missing term is given
exactly). Refuted: atoms with moments, cut groups, several vacancy species, ratio with a third
grouped axis.

### C22 Time-step sequence: queried, accumulated and stepped values agree (partial)

Models the growing step sequence and TimeStepper. Spec: recursion stated separately. Proof:
induction on the step number.
Theorems [Properties_Time.v]: `c22_query_partial`, `c22_sum`, `c22_monotone`, `c22_capped`,
`c22_saturated`, `c22_stepper`, `c22_terminates`, `c22_query_refuted`, `c22_cap_refuted`,
`c22_unlimited_refuted`.
Scope: Accumulated sums always agree with stepping; the queried value agrees when the initial step
number is 0 and the initial step does not exceed the maximum; both exclusions are refuted. Exact
real arithmetic.

### C23 Restarting a coupled run continues the same time grid (partial)

Models the written and re-read stop data and the stepper built from it. Spec: the visited times are
those of the uninterrupted run. Proof: induction on the history of restarts; refutation for two
restarts with growth.
Theorems [Properties_Time.v]: `c23_once_partial`, `c23_constant_step`, `c23_time_written`,
`c23_twice_refuted`, `c23_unlimited_refuted`.
Scope: One restart from any point, any growth; any number of restarts with growth factor 1; refuted
for two restarts with growth. Rounding of the written values is not modelled.

### C24 Time profiles are interpolated linearly, continuously, within bounds (partial)

Models the profile look-up loop shared by the handlers. Spec: the chord between neighbouring knots.
Proof: induction over the table, limits at the knots.
Theorems [Properties_Profile.v]: `c24_interpolates`, `c24_knot`, `c24_outside`, `c24_continuous`,
`c24_monotone`, `c24_bounded`, `c24_custom_refuted`.
Scope: Full for the lookup function shared by the three handlers (the bounds even for unsorted
tables); refuted for the custom flux handler, which clears its amplitudes.

### C25 The implanted flux integrates to the requested amplitude (partial)

Models FluxHandler's normalisation, initializeFluxHandler, recomputeFluxHandler, fluence. Spec: the
sum of flux times cell width. Proof: induction over the grid.
Theorems [Properties_Profile.v]: `c25_total_partial`, `c25_total_norm`, `c25_recompute`,
`c25_shape`, `c25_ends`, `c25_fluence`, `c25_missed_refuted`, `c25_negative_refuted`.
Scope: Holds whenever the discrete integral of the fit is positive, in particular for fits
non-negative at the cell centres and positive at one; refuted for fits positive only between
centres.

### C26 Diffusion Jacobian is the derivative of the diffusion flux and the stencil is consistent (proved)

Models computeDiffusion/computePartials of the 1D/2D/3D handlers. Spec: `is_partial`, and exactness
on polynomials. Proof: `field`, `is_partial` rules.
Theorems [Properties_Stencil.v]: `c26_jacobian_1d`, `c26_jacobian_2d`, `c26_jacobian_3d`,
`c26_consistent_1d`, `c26_linear_constant`, `c26_square_constant`, `c26_consistent_2d`,
`c26_consistent_3d`.
Scope: All spacings, masks, coefficients and concentrations; consistency on all quadratic profiles
(1D also with a linearly varying coefficient).

### C27 Advection Jacobian is the derivative of the advection flux (partial)

Models the surface and grain-boundary advection handlers, including the points their stencil
announces. Spec: `is_partial`. Proof: case analysis on the side of the boundary.
Theorems [Properties_Stencil.v]: `c27_surface`, `c27_grain_boundary_partial`,
`c27_origin_side_partial`, `c27_far_side_refuted`, `c27_x_sink_refuted`,
`c27_x_one_dimension_refuted`.
Theorems [Properties_Row.v]: `c27_surface_flux`, `c27_sink_flux`.
Scope: Exact for the surface, and for grain boundaries where the value is written and the stencil
announced for the point itself. Refuted: grain boundaries across y, z beyond the boundary (stencil
announced for y=z=0), across x on the sink (nothing written in 2D/3D, exception in 1D).

### C28 Soret diffusion Jacobian is the derivative of the Soret flux (partial)

Models SoretDiffusionHandler. Spec: `is_partial` in concentrations and temperatures. Proof:
derivative rules; refutation for the missing column.
Theorems [Properties_Stencil.v]: `c28_concentrations_partial`, `c28_temperatures`,
`c28_vanishing_refuted`, `c28_temperatures_refuted`.
Scope: Exact in the concentrations unless all three are near zero; the temperature derivatives are
given but never entered in the matrix (refuted).

### C29 Heat-equation Jacobian is the derivative of the heat-equation right-hand side (partial)

Models the heat-equation handler. Spec: `is_partial`. Proof: derivative of the product of
conductivity and stencil, with the exact defect of the diagonal.
Theorems [Properties_Heat.v]: `c29_interior_partial`, `c29_neighbours_partial`, `c29_diagonal`,
`c29_diagonal_iff`, `c29_dimensions_refuted`, `c29_surface_refuted`, `c29_portion_refuted`,
`c29_bulk_flux_refuted`, `c29_interface_refuted`.
Scope: Exact for 1-D interior points and for all neighbour entries; the defect of the diagonal is
given exactly and is non-zero at the surface, at the bulk end, at the interface and in 2-D/3-D
(refuted).

### C30 Surface motion only adds or removes material at the surface (partial)

Models generateGrid (all types) and the grid updates by surface moves as list operations. Spec:
strictly increasing, positions kept. Proof: induction on the history.
Theorems [Properties_Grid.v]: `c30_grow`, `c30_shrink`, `c30_history`, `c30_first_uniform`,
`c30_first_nonuniform`, `c30_first_geometric`, `c30_first_read`, `c30_first_cheby_refuted`.
Theorems [Properties_Points.v]: `c30_nonuniform_spacing`, `c30_geometric_spacing`,
`c30_cheby_partial`.
Scope: Grid moves: single moves and all histories; initial grids of all types, refuted for the
Chebyshev type.

### C31 Temperature rebuilt from the ranks is the global temperature (partial)

Models the gathering of the temperatures from the processes. Spec: the concatenation of the pieces.
Proof: induction on the list of pieces.
Theorems [Properties_TempGrid.v]: `c31_gathered`, `c31_after_growth_refuted`.
Scope: Holds for interpolateTemperature, any partition into non-empty pieces; refuted for
generateTemperatureGrid, which is called with the new number of points after the grid has grown.

### C32 Matrix value stream matches the announced coordinate stream (partial)

Models both producers (initializeSparse/coordinate stream and computeJacobian's value stream) as
lists of labels. Spec: pointwise equal labels. Proof: induction over the grid points.
Theorems [Properties_Solver1D.v]: `c32_assembled_partial`, `c32_inside_partial`,
`c32_unequal_handlers_refuted`, `c32_first_point_refuted`.
Theorems [Properties_Row.v]: `c32_diffusion_row`, `c32_diffusion_excluded`, `c32_surface_row`,
`c32_sink_row_partial`, `c32_announced`, `c32_room`.
Scope: 1-D solver. Holds for handlers with equal numbers of clusters and an empty region on the left
(or a process without point 0); both exclusions are refuted.

### C33 Masked diffusion removes exactly the requested cluster on the requested grid point (partial)

Models the three initializeDiffusionGrid versions and their readers. Spec: the set of (point,
cluster) with a sink. Proof: exact characterisation by induction over the writes.
Theorems [Properties_Mask.v]: `c33_no_sink`, `c33_shifted_1d`, `c33_shifted_2d`, `c33_shifted_3d`,
`c33_intended_partial`, `c33_not_diffusing`, `c33_point_refuted`, `c33_last_column_refuted`,
`c33_id_refuted`, `c33_wrong_cluster_refuted`, `c33_advection_grid_refuted`.
Scope: Exact description of the mask in 1D, 2D and 3D; it is the intended one without sinks, and for
y/z grain boundaries away from the last local column when diffusing clusters are numbered 0..k-1.
Otherwise refuted: shifted by one point in x, indexed by the cluster id.

### C34 Performance statistics aggregate exactly the processes that own the object (partial)

Models the name exchange (marshal, Gatherv, unmarshal) and the reductions. Spec: statistics over the
owners' values. Proof: induction over the list of processes.
Theorems [Properties_Perf.v]: `c34_names`, `c34_statistics`, `c34_negative_refuted`,
`c34_hardware_partial`, `c34_hardware_refuted`.
Scope: Names, and statistics of timers and counters: proved for non-negative values (the maximum of
negative values is refuted). Hardware counters: proved when all processes knowing an object have the
same counters in it, refuted otherwise.

### C35 A timer accumulates exactly its running intervals (partial)

Models a timer as a state machine with clock readings. Spec: sum of the running intervals. Proof:
induction on the history.
Theorems [Properties_Perf.v]: `c35_value`, `c35_misuse`, `c35_since_reset`, `c35_os`, `c35_papi`,
`c35_epoch_refuted`, `c35_backwards_refuted`.
Scope: All histories whose clock readings never equal the time stamp meaning 'not running'; refuted
for that reading (the epoch for OSTimer) and, as an elapsed time, for a clock set backwards.

### C36 Checkpoint time-step groups: the last written group is the one read back (partial)

Models the concentration group of the checkpoint file as a finite map with attributes. Spec: the
last addition. Proof: induction on the history.
Theorems [Properties_File.v]: `c36_last`, `c36_none`, `c36_contents_partial`,
`c36_designates_partial`, `c36_crash_refuted`, `c36_wrong_group_refuted`.
Scope: The last group: proved for all histories. Contents: proved when only groups of control step 0
are added again; refuted otherwise.

### C37 Ragged per-grid-point data round-trips through the file for any pair of decompositions (proved)

Models the ragged write (starting indices, Exscan) and read through hyperslabs of a flat array.
Spec: identity on the list of points. Proof: induction on the decomposition.
Theorems [Properties_File.v]: `c37_roundtrip`, `c37_any_readers`, `c37_empty_refuted`.
Scope: All decompositions into non-empty pieces; a process without points is refuted (back() of an
empty vector). 32-bit wrap of the item offsets is not modelled.

### C38 Concentration vector export/import round-trips (partial)

Models getConcVector/setConcVector with the cut-off. Spec: identity on what was exported. Proof:
pointwise; refutations with stale values.
Theorems [Properties_File.v]: `c38_entry`, `c38_restored`, `c38_close_partial`, `c38_stale_refuted`,
`c38_temperature_refuted`.
Scope: 1-D solver. Values above the cut-off are restored; stale values remain where the exported
value is below it (refuted), and the network keeps its old temperatures (refuted).

### C39 Maximum helium-per-vacancy bound is monotone and consistent (partial)

Models getMaxHePerV with the table and the 32-bit conversion. Spec: monotone, lower bound by the
requested ratio. Proof: table check plus inequality.
Theorems [Properties_Energy.v]: `c39_monotone`, `c39_table`, `c39_above`, `c39_defined`,
`c39_ratio_above`, `c39_ratio_partial`, `c39_ratio_refuted`, `c39_wrap_refuted`.
Scope: Monotone for all ratios while the sum fits 32 bits; the requested ratio is honoured above the
table, and within it up to 4; refuted for larger ratios and when the amount wraps.

### C40 Sub-network maps send each unknown to the unknown of the same cluster (partial)

Models fromSubNetwork's search and the moment maps. Spec: equal bounds and equal axis. Proof:
induction over the clusters.
Theorems [Properties_Sub.v]: `c40_moment_order`, `c40_map`, `c40_injective`, `c40_partition`,
`c40_back`, `c40_missing_refuted`.
Scope: All networks with distinct bounds whose sub-network clusters occur in the full network, any
moment layout; a missing cluster shifts the map (refuted).

### C41 Constant connectivity exported in compressed rows is the connectivity (proved)

Models the export of the constant connectivity (rows, entries). Spec: the positions of the true
flags. Proof: induction over rows.
Theorems [Properties_Sub.v]: `c41_rows`.
Scope: All matrices of flags.

### C42 Surface bookkeeping after an event conserves displaced atoms (partial)

Models the surface event of Monitor1D (advance and retreat loops). Spec: the balance of displaced
atoms. Proof: telescoping sums.
Theorems [Properties_Grid.v]: `c42_up`, `c42_retreat`, `c42_retreat_ends`, `c42_back_iff`,
`c42_back_one_partial`, `c42_back_two_refuted`.
Theorems [Properties_Points.v]: `c42_trigger`, `c42_event_moves`.
Scope: 1-D monitor with left offset 1. Advance: proved. Retreat: holds exactly when the removed
points are spaced like those before them; refuted for a retreat of two points.

### C43 Input line tokenizer returns exactly the fields of the next non-comment line (partial)

Models TokenizedLineReader/Tokenizer on lists of characters, boost::tokenizer with one delimiter set
and integer extraction. Spec: fields between delimiters of the first line kept. Proof: induction
over the stream.
Theorems [Properties_Token.v]: `c43_fields`, `c43_next`, `c43_end`, `c43_defined`, `c43_number`,
`c43_plus`, `c43_blank_refuted`, `c43_indented_refuted`, `c43_number_refuted`.
Scope: All streams, delimiters and comment marks; refuted: no tokens also for a blank line, comments
behind white space, and numbers which are not read completely.

### C44 Legendre polynomials by recurrence (proved)

Models both Legendre routines. Spec: Bonnet's recurrence. Proof: induction on the degree.
Theorems [Properties_Sums.v]: `c44_base`, `c44_recurrence`, `c44_at_one`, `c44_parity`,
`c44_at_minus_one`, `c44_expansion`.
Scope: Non-negative degrees.

### C45 Dissociation rate obeys detailed balance with the forward rate (partial)

Models the binding energies and dissociation rates of PSI, Alloy, Zr and NE. Spec: the
detailed-balance expression. Proof: exponential lemmas and table look-ups; refutations by witnesses.
Theorems [Properties_Energy.v]: `c45_law`, `c45_alloy_law`, `c45_alloy_spheres`, `c45_zr_spheres`,
`c45_zr_law`, `c45_ne_law`, `c45_window`, `c45_window_energy`, `c45_positive`, `c45_proportional`,
`c45_decreasing`, `c45_hotter`, `c45_zero`, `c45_balance_iff`, `c45_forward_psi`,
`c45_forward_alloy`, `c45_forward_zr_partial`, `c45_forward_zr_refuted`, `c45_binding_symmetric`,
`c45_psi_balance_partial`, `c45_cutoff_refuted`, `c45_hydrogen_refuted`, `c45_ne_balance`,
`c45_ne_order_refuted`, `c45_ne_creation_refuted`.
Scope: The rate law of the statement is proved for all real arguments; detailed balance with the
forward reaction is proved for PSI clusters with tabulated energies above the cut-off, for Alloy and
for NE, and refuted for the cut-off, for hydrogen in larger clusters, for two loops in Zr, and for
the NE creation reaction.

### C46 Left-side rate is the loss rate per concentration (partial)

Models computeLeftSideRate. Spec: the loss terms of the flux model. Proof: algebra; refutation for
self-reactions.
Theorems [Properties_Small.v]: `c46_left_side_partial`, `c46_self_reaction_refuted`.
Theorems [Properties_Laws.v]: `c46_sink`, `c46_dissociation_partial`, `c46_dissociation_flux`.
Scope: Holds for ungrouped clusters with distinct reactants; refuted for self-reactions (counted
once, the loss is twice).

### C47 Each modified-trap-mutation depth is active at exactly one grid point (partial)

Models selectTrapMutationReactions' window test. Spec: one enabled point per depth. Proof: induction
over the increasing grid.
Theorems [Properties_Small.v]: `c47_selected_iff`, `c47_every_depth_selected`,
`c47_only_one_refuted`.
Scope: Every depth is enabled at some grid point; a depth on a grid point is enabled at two (the
0.01 tolerance overlaps).

### C48 Transport moves material without creating or destroying it (partial)

Models the 1D solver's transport loop with the boundary rules. Spec: weighted sums over the grid.
Proof: telescoping sums; refutations by witnesses.
Theorems [Properties_Solver1D.v]: `c48_diffusion`, `c48_diffusion_cells_partial`,
`c48_surface_advection`, `c48_grain_boundary`, `c48_cells_refuted`,
`c48_varying_coefficient_refuted`, `c48_grain_boundary_between_refuted`.
Theorems [Properties_Row.v]: `c48_position`.
Scope: 1D diffusion with constant coefficient, surface advection with constant temperature,
grain-boundary columns on a uniform spacing. Refuted: cell widths with jumps, varying coefficients,
grain boundaries between grid lines.

### C49 The temperature rate is contributed once per grid point (partial)

Models the solver's calls of the temperature handler, including empty regions. Spec: one call per
point. Proof: counting.
Theorems [Properties_Solver1D.v]: `c49_once_partial`, `c49_exactly_once`, `c49_twice_refuted`,
`c49_robin_twice_refuted`.
Scope: 1-D solver. Holds with an empty region on the left (and on the right for Robin conditions);
twice otherwise.

### C50 Transport never makes an absent cluster negative (partial)

Uses the models of C26-C28. Spec: sign of the rate where the concentration is zero. Proof: `nra`;
refutations.
Theorems [Properties_Solver1D.v]: `c50_diffusion_partial`, `c50_constant`, `c50_surface_advection`,
`c50_steep_refuted`, `c50_soret_refuted`.
Scope: Holds for diffusion with bounded coefficient steps and surface advection; refuted for steep
coefficients and for Soret diffusion.

### C51 Heat conductivity and capacity are positive up to melting (partial)

Models the heat coefficient functions. Spec: positivity. Proof: polynomial bounds on sub-intervals.
Theorems [Properties_Heat.v]: `c51_positive_partial`, `c51_hot_refuted`.
Theorems [Properties_Points.v]: `c51_room`.
Scope: Proved on [0 K, 3000 K]; refuted between 3250 K and the melting point 3695 K.

### C52 Network temperature on the other grid is the linear interpolation between neighbours (partial)

Models interpolateTemperature's search. Spec: the chord between the neighbours. Proof: induction
over the grid.
Theorems [Properties_TempGrid.v]: `c52_linear_partial`, `c52_behind`, `c52_bounds`, `c52_same_grid`,
`c52_left_ghost_refuted`.
Scope: Linear interpolation for every point covered by the other grid, last temperature behind it,
no new extremes; refuted for the point left of the surface, which receives the temperature behind
the bulk end. That the temperature grid covers the network grid is not proved.

### C53 Moving the surface carries the concentration profile (partial)

Models the profile transfer after a surface move. Spec: values of the old profile at the new points.
Proof: induction over the points.
Theorems [Properties_Grid.v]: `c53_affine`, `c53_interpolates_partial`, `c53_nonnegative_partial`,
`c53_same_place`, `c53_uniform_up`, `c53_uniform_back`, `c53_extrapolation_refuted`,
`c53_near_refuted`, `c53_retreat_refuted`.
Theorems [Properties_Points.v]: `c53_elsewhere`, `c53_new_surface`.
Scope: 1-D solver, one component; the messages between processes are not modelled. Exact for affine
profiles and uniform grids; refuted above the old surface, within 1e-4 nm below an old point, and at
the first point after a retreat.

### C54 Binding energy tables are read only inside their bounds (partial)

Models the generator's selection of PSI clusters and the two binding-energy tables. Spec: the index
is inside the table. Proof: finite case analysis lifted by `lia`; refutation by the one cluster
outside.
Theorems [Properties_Energy.v]: `c54_in_table_partial`, `c54_twelve_refuted`.
Scope: Clusters of a single composition: holds for every one the generator selects except twelve
hydrogen atoms in two vacancies without helium, which is refuted.

### C55 List options set every documented parameter or are rejected (partial)

Models the list-option setters as functions returning an outcome (set, exception, out of bounds).
Spec: each documented parameter has the value given. Proof: computation on lists of symbolic values;
refutation by length.
Theorems [Properties_Token.v]: `c55_array`, `c55_temp_grid`, `c55_net_partial`, `c55_net_refuted`,
`c55_grouping_partial`, `c55_grouping_refuted`, `c55_pulse_partial`, `c55_pulse_refuted`,
`c55_boundaries_partial`, `c55_dropped_refuted`, `c55_coupling`, `c55_rng_partial`,
`c55_rng_refuted`, `c55_initial_partial`, `c55_initial_refuted`, `c55_grain_partial`,
`c55_grain_refuted`, `c55_same_as_array`, `c55_petsc_partial`, `c55_petsc_refuted`.
Scope: Full for temperature, grid and coupling parameters; for the others lists of the documented
lengths; refuted for all other lengths.

### C56 Stripping comments from a JSON parameter file removes the comments only (partial)

Models the comment stripping of JSONOptions as a character automaton. Spec: comments removed and the
rest unchanged, for a grammar of files stated separately. Proof: induction over the pieces.
Theorems [Properties_Token.v]: `c56_partial`, `c56_string_refuted`.
Scope: All files whose strings contain no #, // or /*; refuted for the others.

### C57 The processes switched on are exactly the ones listed (partial)

Models setProcesses in the string and the array form. Spec: flags equal membership. Proof: induction
over the names.
Theorems [Properties_Token.v]: `c57_string`, `c57_list_partial`, `c57_list_refuted`.
Scope: Full when the option is a string; for a JSON array with fresh options; refuted for a second
or an empty array.

### C58 The network consists of exactly the clusters within the configured limits (partial)

Models select of the five cluster generators and refine of PSI, NE and Alloy, over regions given by
their bounds; plsm enters only as 'a leaf is not longer than one along any axis flagged by refine'.
Spec: inductive predicates listing the compositions asked for. Proof: case analysis on the
comparisons and linear arithmetic, with the monotonicity of the helium bound (C39).
Theorems [Properties_Select.v]: `c58_psi`, `c58_psi_zero_axes`, `c58_psi_no_loss`, `c58_psi_groups`.
Theorems [Properties_Clusters.v]: `c58_ne`, `c58_ne_no_loss_partial`, `c58_ne_no_loss_refuted`,
`c58_fe`, `c58_fe_no_loss`, `c58_zr`, `c58_zr_no_loss`, `c58_alloy`, `c58_alloy_no_loss`.
Scope: Single compositions: full equivalence in the five networks. No loss in groups: PSI, Fe, Zr,
Alloy; NE only when grouping starts at nine or later, refuted below. plsm is not modelled: a leaf is
any region not cut further by the flags of refine.

### C59 The lattice of compositions covers what was asked for and can be subdivided (partial)

Models the while loop that adapts a limit to a power of the width, with a number of rounds as fuel,
and the five handlers up to the call of the network constructor (for PSI without the list of
subdivision ratios, only its length). Spec: least power, coverage of the compositions of C58, length
a power of the ratio. Proof: induction over the rounds; endlessness for every number of rounds.
Theorems [Properties_Lattice.v]: `c59_adapt`, `c59_endless_refuted`, `c59_alloy_default_refuted`,
`c59_psi_covers_partial`, `c59_psi_covers_refuted`, `c59_psi_hydrogen_refuted`, `c59_psi_levels`,
`c59_psi_levels_refuted`, `c59_gas`, `c59_zr`, `c59_alloy_partial`, `c59_alloy_no_interstitials`,
`c59_alloy_void_refuted`.
Scope: Holds for widths of at least two, for NE, Fe, Zr, and Alloy with vacancies and interstitials;
for PSI when the pure sizes fit under the helium bound of the largest bubble. Refuted: widths 0 and
1 (the defaults, endless loop), pure helium without bubbles, hydrogen without helium in a fully
grouped network, fewer pure vacancies than bubbles, Alloy voids without vacancies.

### C60 Which clusters are mobile, and how fast (partial)

Models getMigrationEnergy and getDiffusionFactor of the five generators and the three coefficient
updaters over region bounds. Spec: mobile = finite energy = non-zero factor; the list of mobile
clusters is written out. Proof: case analysis on the composition, real analysis of exp and of powers
for the monotonicity.
Theorems [Properties_Mobility.v]: `c60_psi`, `c60_psi_who`, `c60_psi_parameters`,
`c60_psi_group_parameters`, `c60_psi_coefficient`, `c60_interstitials_slow`, `c60_group_partial`,
`c60_group_refuted`, `c60_fe`, `c60_fe_coefficient`, `c60_zr_parameters`, `c60_fe_parameters`,
`c60_alloy_parameters`, `c60_zr_who`, `c60_zr_mixed`, `c60_zr_partial`, `c60_zr_refuted`,
`c60_zr_coefficient`, `c60_alloy_who`, `c60_alloy_mixed`, `c60_alloy_partial`, `c60_alloy_refuted`,
`c60_ne`, `c60_ne_immobile`, `c60_ne_small_refuted`.
Scope: Full for PSI singles, Fe, and NE above 2^-52; refuted for Zr I9 and Alloy perfect loops of 70
or more (a migration energy, but no diffusion), for PSI groups of interstitials starting below 6,
and for tiny NE diffusivities. Slower interstitials: up to 10000 K.

### C61 Reaction radii follow the volume of the atoms (partial)

Models getReactionRadius of the five generators. Spec: `sphereLaw` (difference of the volumes of the
shifted spheres is the atomic volume) stated separately; groups: the mean. Proof: the cube root is
characterised by its cube; monotonicity from that.
Theorems [Properties_Radius.v]: `c61_psi_law`, `c61_psi_grows`, `c61_psi_mixed`, `c61_psi_group`,
`c61_fe_vacancies`, `c61_fe_helium`, `c61_fe_interstitial`, `c61_fe_group`, `c61_ne_law`,
`c61_ne_point`, `c61_ne_vacancies_refuted`, `c61_ne_group`, `c61_alloy_volume`, `c61_alloy_group`,
`c61_zr_grows`, `c61_zr_group_partial`, `c61_zr_group_refuted`.
Scope: All sizes and lattice parameters for PSI, Fe, Alloy; NE with gas; refuted for NE V1 and V2
(same radius) and for Zr groups over size 10. In Zr the radii are fitted (no volume law), growth is
proved.

### C62 Clusters of tungsten are bound, and the binding energy is that of what is emitted (partial)

Models the Legendre recursion, the fit with its 48 coefficients, the tables and getFormationEnergy;
the binding energy is that of C45. Spec: positivity and the difference of formation energies. Proof:
the fit is shown equal to an integer polynomial in the helium number over a positive denominator for
each vacancy number (proved for all sizes); positivity on [0, 4 v] by a Bernstein-type criterion,
proved sound, then evaluated by `vm_compute` for each of the 810 vacancy numbers; the special window
of C45 by interpolation.
Theorems [Properties_Formation.v]: `c62_formed`, `c62_helium_partial`, `c62_last_helium_refuted`,
`c62_last_hydrogen_refuted`, `c62_vacancy_partial`, `c62_divacancy_refuted`, `c62_trap`,
`c62_interstitials`, `c62_heliums`, `c62_helium_nine_refuted`, `c62_extrapolated_refuted`,
`c62_boundary_refuted`.
Scope: Up to 812 vacancies below the grouping size, helium-per-vacancy ratio at most 4. Refuted: the
last helium (or hydrogen) atom of 16 to 31 vacancies gets the energy of a vacancy; the empty pair is
not bound; at 813 vacancies the fit fails; the last size before grouping has formation energy zero;
nine helium atoms.

### C63 Binding energies of the Alloy, Fe, Zr and NE networks follow their stated laws (partial)

Models computeBindingEnergy of the Alloy, Fe, Zr and NE dissociation reactions over region bounds; a
negative base under pow and a table read outside give `None`. Spec: `unit_cost`, line energies,
`fe_vacancy`, the table and the bubble energy written out separately; for NE the claim is about
`derivable_pt_lim` of that energy. Proof: monotone increments of concave powers by the mean value
theorem, bounds on logarithms and powers by rational comparison, uniqueness of derivatives.
Theorems [Properties_Binding.v]: `c63_alloy`, `c63_alloy_grows`, `c63_alloy_pair_refuted`,
`c63_alloy_formation_refuted`, `c63_zr_vacancy`, `c63_zr_vacancy_grows`,
`c63_zr_vacancy_925_refuted`, `c63_zr_interstitial`, `c63_zr_interstitial_grows`, `c63_zr_basal`,
`c63_zr_basal_grows`, `c63_zr_basal_nine_refuted`, `c63_fe_mixed`, `c63_fe_groups`, `c63_fe_trap`,
`c63_fe_vacancy`, `c63_fe_helium_refuted`, `c63_fe_emits`, `c63_fe_pair_refuted`, `c63_ne`,
`c63_ne_small_refuted`, `c63_range`, `c63_other`.
Scope: Laws for all sizes and groups. Monotone: Alloy, Zr interstitials, Zr vacancies on either side
of 925, Zr basal loops with transition size at least 200. Refuted: pairs in Alloy are at the floor,
Alloy energies are not differences of the network's formation energies, the drop at 925 vacancies in
Zr, the Zr loop of nine, helium leaving Fe clusters (always 5 eV, or the law of a vacancy for the
last one), the helium pair in Fe, the vacancy pair and the smallest bubble in NE.

### C64 Grouping resolves what it must and never exceeds the requested widths (partial)

Adds refine of the Fe and Zr generators to those of C58. Spec: `narrow` and `slim` (width or share),
the fine zones as propositions; each flag is characterised by an equivalence. Proof: the setters are
commuted with the projections, so that each flag is a short boolean; then linear arithmetic.
Theorems [Properties_Grouping.v]: `c64_psi_ungrouped`, `c64_psi_interstitials`,
`c64_psi_mixed_interstitials`, `c64_psi_vacancies`, `c64_psi_width`, `c64_psi_edge`,
`c64_psi_bubble`, `c64_psi_minimum_refuted`, `c64_psi_top_refuted`, `c64_ne`, `c64_fe`, `c64_zr`,
`c64_alloy`, `c64_one_species`.
Scope: Exact conditions for NE, Fe (mean vacancy number above one), Zr and Alloy on an axis, and PSI
interstitials, pure vacancies and bubbles below the edge; an upper bound for every PSI cell. Refuted
for PSI: pure vacancies beyond the mixed ones are grouped below the minimum; a group that would end
with the largest size is cut. plsm is not modelled.

### C65 Sinks absorb the mobile point defects, at a positive rate with the documented bias (partial)

Models addSinks of the five networks with the mobility test before it, the biases, strengths and
rates, and the NE sink flux and derivative; diffusion factors and coefficients are those of C60,
radii those of C61. Spec: the lists of absorbing clusters as propositions, the dislocation formula,
sqrt (Da Dc) and Da for Zr, the equilibrium concentration. Proof: case analysis; exp and ln algebra.
Theorems [Properties_Sink.v]: `c65_psi_who`, `c65_psi_rate`, `c65_fe_who`, `c65_fe_strength`,
`c65_fe_grows`, `c65_fe_rate`, `c65_fe_bias`, `c65_alloy_who`, `c65_alloy_rate`,
`c65_alloy_group_refuted`, `c65_zr_who`, `c65_zr_rate`, `c65_zr_nine_refuted`, `c65_ne_who`,
`c65_ne_equilibrium`, `c65_ne_bias`.
Scope: Full for PSI, Fe (lattice parameter up to 10 nm), Zr, NE and single Alloy clusters; refuted
for groups of perfect loops in the Alloy, which move but have no sink, and for Zr I9, whose sink law
is never used.

### C66 The reaction file of the fuel network means what its format says (partial)

Models readClusters, readReactions and the set-up of the tables line by line, on tokenised lines;
undefined behaviour is None. Spec: records for states, cluster descriptions and statements with
their encoding as lines; free energy, mobility, ground state, partition sum. Proof: invariants over
the lines read so far (represents, step), frame lemma for statements about other pairs, sums
exchanged; balance from C45, sink level from C65.
Theorems [Properties_Rates.v]: `c66_count`, `c66_clusters`, `c66_pair`, `c66_absent`, `c66_sink`,
`c66_balance`, `c66_sink_level`, `c66_off_refuted`, `c66_coefficient_refuted`,
`c66_required_refuted`, `c66_line_refuted`, `c66_twice_refuted`, `c66_mean_refuted`.
Scope: Full for well-formed files. Refuted: a reaction switched off or not listed uses the default
rate instead; the coefficient of a reaction is ignored; a file or network without one of the four
point defects, with an unknown cluster or a wrong number of columns is undefined behaviour; two
lines for one cluster are mixed; the diffusivity is not a mean over the states.

### C67 A sub-network applies exactly the constant rates it was given (partial)

Models the sparse table, getPosition as the linear scan, the generator of constant reactions,
mapRateEntries/setRate, flux, partials, both connectivities, getConstantConnectivities of production
and dissociation, and the renumbering; a rate read at a missing entry is `None`. Spec: `owns`,
`layout`, `whole`, `blocks` (unknowns by owner). Proof: positions are injective by disjoint row
ranges; the slots of all reactions form a list without repetition with exactly the listed pairs,
hence sums over reactions are sums over a matrix; the table is a union of blocks, hence closed under
owners; c67_sub composes this with the contributions of C17.
Theorems [Properties_Apply.v]: `c67_position`, `c67_reactions`, `c67_defined`, `c67_flux`,
`c67_jacobian`, `c67_connectivity`, `c67_mapped`, `c67_mapped_dissociation`, `c67_table`,
`c67_table_dissociation`, `c67_sub`, `c67_reduced_plain`, `c67_reduced_refuted`.
Scope: Full for the right-hand side, the Jacobian and the connectivity, for any layout of groups;
dissociations whose first product has a moment on an axis where the reactant has none are excluded
(the row of C17's finding). Reduced Jacobian: full without groups, refuted with a group.

### C68 What the retention output reports as lost is what left through the surfaces (partial)

Models computeHeliumRetention in one dimension: content per process and reduction, the counters, the
fluxes from updateOutgoingDiffFluxes/AdvecFluxes with the index xi - xs into arrays that start one
point to the left, the choice of the owner by a sum of ranks and the broadcast, called once per
step. Spec: `amount`, `pure`, `cover`, `leftFlux`, `rightFlux` (sums over the clusters), the stencil
sums of C48. Proof: exactly one owner in a partition, induction over the outputs, telescoping of the
stencils, summation by parts over the steps.
Theorems [Properties_Retention.v]: `c68_content`, `c68_surface`, `c68_bulk`, `c68_rate`,
`c68_accumulated`, `c68_bulk_accumulated`, `c68_balance`, `c68_balance_constant`,
`c68_gradient_refuted`, `c68_growing_cells_refuted`.
Scope: Full for uniform grid and temperature, any partition and sequence of steps; content and
accumulation for any grid. Refuted: with a temperature gradient (coefficients of the neighbouring
point) and with growing cells. The step of the time integrator is taken as implicit Euler. Two and
three dimensions, bursting and the restart of the counters not modelled.

### C69 Nothing passes a reflecting or periodic side (partial)

Uses the grid loop and the stencil of C32/C48 with the ghost values of the distributed array
(`mirrored`, `periodic`). Proof: telescoping of the stencil; the witnesses are concentrations on one
or a few points.
Theorems [Properties_Boundary.v]: `c69_closed`, `c69_reflecting_right`,
`c69_reflecting_right_content`, `c69_first_point`, `c69_periodic`, `c69_reflecting_right_refuted`,
`c69_reflecting_left_refuted`, `c69_periodic_refuted`.
Scope: Holds for a reflecting right side if the end point counts as half a cell. Refuted for the
content as it is reported, for a reflecting left side and for periodic sides, where the first point
is never updated.

### C70 A moving surface in two and three dimensions keeps the books of each column (partial)

Models the counts, the condition of the event and the moves of the columns line by line, the minimum
over the columns and the restart; out-of-range reads are `None`. Spec: `atoms` (length of the column
and its count), `coarsening`, `lookup`, `gained`, `lateral`. Proof: induction over the loops that
raise and lower a surface, then over the columns; the restart by an invariant over the sequence of
events.
Theorems [Properties_Event.v]: `c70_column`, `c70_concentrations`, `c70_event`, `c70_charge`,
`c70_side`, `c70_first_rise_refuted`, `c70_rise_to_top_refuted`, `c70_early_refuted`,
`c70_nothing_moves_refuted`, `c70_reset_refuted`, `c70_forever_refuted`, `c70_lost_refuted`,
`c70_3d_refuted`, `c70_3d_only`, `c70_charge_3d_refuted`, `c70_side_refuted`.
Scope: Full for a column which moves inside the grid, for events after which the run goes on, and
for the counts in 2D with steps of at most one cell. Refuted: rising at the first point (undefined
behaviour), rising to it (the cell is paid and not added), retreat below the threshold because of
another column, events which move nothing, every restart puts all concentrations back to those of
the start, 3D reads outside of the positions at each event and forgets the area in the sputtering,
steps of several cells count one.

### C71 The reported losses survive every move of the grid (partial)

Models keepFlux and setFlux of the three monitors and the sequence of monitors in
PetscSolver::solve. Spec: composition of what the parts of the run count. Proof: induction over the
parts.
Theorems [Properties_Event.v]: `c71_first`, `c71_three`, `c71_later_refuted`, `c71_burst_refuted`.
Scope: Full in 3D, and up to the first restart in 1D and 2D. Refuted: in 1D and 2D every later
restart puts the counts back to those of the first; the burst counts start at zero at each restart.

### C72 Checkpoints are written at every multiple of the stride and only there (partial)

Models startStop with its counter, the cast, monitorTime and the initial counters. Spec: `ahead`,
the time of a step anticipated by a tenth of its length, and multiples of the stride. Proof: the
counter stays below the next multiple until it is reached (induction over the steps); for steps
within a stride the counter is the integer part.
Theorems [Properties_Restart.v]: `c72_every_boundary`, `c72_restart`, `c72_schedule`,
`c72_extra_refuted`, `c72_loop_refuted`.
Scope: Every multiple of the stride has its checkpoint, for any steps, and nothing else is written
when no step is longer than a stride. Refuted otherwise: after a step over n strides the next n-1
steps are written; after a move of the surface the counter starts from 0 and as many steps are
written as strides have passed. Casts out of the range of PetscInt are not modelled.

### C73 A run continued from a checkpoint reports what the uninterrupted run reports (partial)

Models the monitors of one step in their order and what is saved and read back. Spec: `total`, sums
over the steps. Proof: the state after the first step of a continued run is that of the original
after the same step.
Theorems [Properties_Restart.v]: `c73_totals`, `c73_continue`, `c73_any_number`, `c73_xenon_amount`,
`c73_xenon_refuted`.
Scope: Full for the fluence (first entry) and the amounts through surface and bottom. Refuted for
the xenon at the grain boundaries, which is not saved.

### C74 A restart in two and three dimensions finds the saved state, on any number of processes (partial)

Models the writer (size, sum of ranks, broadcast, data set per point) and the reader of 2D and 3D
concentrations, the row-major tables, the start of a solver loop and the grid of the first loop; a
missing owner or data set is `None`. Spec: `oneOwner`, the concentrations themselves. Proof: the sum
of ranks is the owner's rank; the rows determine the concentrations.
Theorems [Properties_Restart.v]: `c74_round_trip`, `c74_last_column`, `c74_temperature_refuted`,
`c74_matrix`, `c74_positions`, `c74_first`, `c74_moved_refuted`, `c74_grid`, `c74_no_step_refuted`.
Scope: Full for the concentrations and temperatures of the points, the positions, the amounts and
the grid. Refuted: the temperatures by depth given to the network are those of the last owned
column; after a move of the surface a continued run goes back to the file; a file without a
checkpoint leaves no grid. HDF5 is taken at its documented meaning.

### C75 Xenon which reaches a grain boundary is counted once and completely (one dimension) (partial)

Models the vector of boundaries per process, the monitor (sum of the previous fluxes, local amounts,
new fluxes with the index into the arrays of the network) and initGBLocation; the stencil and its
skipped points are those of C32/C48. Spec: `xeRate` from the neighbours' concentrations and the
grid, `width`. Proof: exactly one owner per boundary turns the folds over processes into sums over
the boundaries; c75_balance from c68_rate by removing the skipped points.
Theorems [Properties_Xenon.v]: `c75_flux`, `c75_stencil`, `c75_balance`, `c75_accumulated`,
`c75_local`, `c75_init`, `c75_twice_refuted`, `c75_init_refuted`.
Scope: Full for the rate and the accumulation on any grid and partition; the balance for uniform
grid and temperature and free-surface sides. Refuted: a location given twice counts twice; the xenon
at a boundary when it is taken out leaves the reported content without entering the reported amount.
Two and three dimensions: C83.

### C76 The retention output of two- and three-dimensional runs is a balance (partial)

Models both monitors with one text: boxes of points per process, the content, the count of each
column with the exchange by sum of ranks, the factors, the location of the advection handler, the
printed sums over the area; the stencils of the solver with the periodic neighbours. Spec: `mean`
over the columns, `leftFlux`, `rightFlux`. Proof: exactly one owner per point (`cover`); the balance
by telescoping in x, and the sums over a period in y and z vanish.
Theorems [Properties_Retention3.v]: `c76_content`, `c76_accumulated`, `c76_bulk_accumulated`,
`c76_rate`, `c76_step_refuted`, `c76_sides_refuted`, `c76_location_refuted`.
Scope: Content and accumulated amounts full for any decomposition (with advection: for a flat
surface); the balance for uniform grid and temperature, a flat surface and no free sides in y and z.
Refuted: what leaves through the side of a step of the surface and through free sides in y and z
(the default) is in no count; the advective flux uses the location of another column.

### C77 Trap mutation is attenuated by the helium of its own column (partial)

Models the loops over columns of residual and Jacobian with the sequence of collective calls of each
process; calls which do not match are `None`. Spec: `nearHelium`, a sum over the points of a column.
Proof: exactly one owner per point turns the sum over processes into the sum over the column; for
two processes in y the calls are computed for any number of columns.
Theorems [Properties_Attenuation.v]: `c77_residual`, `c77_jacobian_partial`, `c77_sides`,
`c77_jacobian_refuted`, `c77_deadlock_refuted`, `c77_entry`, `c77_derivative_refuted`.
Scope: Full for the residual. The Jacobian when the grid is shared out along x only (one dimension
included). Refuted: with several processes in y or z the Jacobian adds up the helium of different
columns, with different numbers of columns per process the collective calls do not match; no matrix
entry for the dependence of the rate on the trapped helium.

### C78 The sources of defects in alloys, iron and zirconium conserve atoms (partial)

Models the four headers with their tables, the loop over the cascade sizes, the view and the output
file (`None`: outside), the indices found in the network, and initializeFluxHandler of zirconium as
a function which extends the state. Spec: the shares by size, `displaced`, weights proportional to
the atoms (`weighs`), exact sums of the tables. Proof: the table is a map over the sizes, hence sums
over the loop are sums over the sizes; tanh as 1-2/(exp(2x)+1).
Theorems [Properties_Source.v]: `c78_alloy`, `c78_alloy_balance`, `c78_alloy_lost_refuted`,
`c78_alloy_loops`, `c78_alloy_ends`, `c78_alloy_view`, `c78_alloy_source`, `c78_alloy_view_refuted`,
`c78_damage`, `c78_alloy_output`, `c78_alloy_output_0d`, `c78_alloy_output_refuted`,
`c78_attenuation`, `c78_no_attenuation`, `c78_fe`, `c78_fe_balance_refuted`,
`c78_fe_dimension_refuted`, `c78_zr`, `c78_zr_balance`, `c78_zr_lost_refuted`,
`c78_zr_repeat_refuted`.
Scope: Alloy and zirconium full for networks which have all the sizes of the tables. Refuted: sizes
missing on one side only; a surface below the third point and alloyFlux.dat go outside of the
vectors; iron gives 0.27 % more vacancies than interstitials, whatever the amplitude and the
dimension; basal clusters between 19 and 65 lose a part of the vacancies; each initialization adds
the zirconium source once more.

### C79 Fission, pulses and time profiles give the source they describe (partial)

Models initializeFluxHandler and computeIncidentFlux of both handlers, the conversion to int with
its range, and the constructor. Spec: file lines as records of states, `ground`, `sites` (partition
function relative to the ground state), cycle number and time within the cycle; `implanted` of C25.
Proof: induction over the lines; integer part of k + s/T.
Theorems [Properties_Pulse.v]: `c79_fuel`, `c79_fuel_sites`, `c79_fuel_range`, `c79_fuel_short`,
`c79_fuel_negative_refuted`, `c79_fuel_jacobian_refuted`, `c79_fuel_file_refuted`, `c79_pulse`,
`c79_pulse_amount`, `c79_pulse_shape`, `c79_pulse_none_refuted`, `c79_pulse_late_refuted`,
`c79_pulse_read_refuted`, `c79_profile`, `c79_options`, `c79_profile_refuted`.
Scope: Fuel full for files with one line for V and one for V2; pulses full for given cycle,
proportion, amplitude and grid. Refuted: the fuel source is negative when more sites are occupied
than there are, and has no Jacobian; a file with V3 writes outside of a vector; no pulse option, the
cycle 2^31, no grid or no amplitude are undefined behaviour; with a time profile the sources of
fuel, pulses and alloys are zero.

### C80 The rates are those of the temperature of their grid point (partial)

Models the stored temperatures of each process, the test with 0.1 K, the reduction over the
processes, interpolateTemperature (C31, C52) and setTemperatures as a state which each evaluation
changes; in two and three dimensions as a fold over the columns; the choice of the trap-mutation
temperature (`None`: index behind the end) and the four tables. Spec: pointwise distance to the seen
temperatures (`nearAll`), windows of one vector as the processes' parts. Proof: invariant over all
sequences of evaluations; interpolation is a convex combination with weights which do not depend on
the temperatures.
Theorems [Properties_RateTemp.v]: `c80_zero`, `c80_zero_constant`, `c80_zero_history_refuted`,
`c80_zero_restart`, `c80_zero_vector`, `c80_zero_start`, `c80_line`, `c80_line_repeat`,
`c80_gradient`, `c80_columns`, `c80_columns_still`, `c80_columns_refuted`,
`c80_columns_repeat_refuted`, `c80_depth_refuted`, `c80_depth_last`, `c80_surface_refuted`,
`c80_outside_refuted`, `c80_tables`.
Scope: Zero and one dimension full (tolerance 0.1 K, any decomposition, own temperature grid
included). Refuted: the rates are not a function of time and solution but of the evaluations before;
in two and three dimensions all columns of a process have the temperatures of its last column, and a
second evaluation can change them; the depths given with the temperatures are those of the next
point, so that the trap-mutation table is chosen with the temperature in front of the surface, or
outside of the vector on a process in front of it.

### C81 The values of the Jacobian reach the entries for which they are computed, in every dimension (partial)

Models both loops with their running index; a value is labelled with the entry for which it is
computed, so that a write is a position and a label, and the assembly adds the array over the
announced coordinates. Spec: `beside`, `beside3`, `emptyPlane`, `emptySpace`, `surfaceEntries`,
`stepTo` by coordinates. Proof: the coordinates of a point are the concatenation of its views, so
the position of a label is the running index (induction over points, columns with their two ghosts
filtered out); positions increase, hence no duplicates. In 0D the search in the compressed row finds
the announced pair.
Theorems [Properties_Stream.v]: `c81_plane`, `c81_space`, `c81_handlers_partial`, `c81_once`,
`c81_plane_values`, `c81_space_values`, `c81_pair`, `c81_network`, `c81_zero`, `c81_across_refuted`,
`c81_unequal_refuted`.
Scope: Full with the advection towards the surface (any surface, decomposition, boundary options,
excluded grain boundaries) and for the network in 0D; with grain boundaries across x which trap as
many clusters as the surface. Refuted: a grain boundary across y or z (coordinates announced for y =
z = 0), and handlers with different numbers of clusters. Positions written once only if the left
side is not reflecting or periodic (F38). The periodic translation of indices outside of the mesh is
PETSc's.

### C82 The diagnostic files and plots describe the solution (partial)

Models each monitor per process with its running sums, the reduction over the processes, the
division of the averages in the order of the code, the offsets of the parallel write, and the sizes
of the messages. Spec: `deep` (sum over the treated cells of width times density), sums over the
clusters of at least a size for networks without groups (with groups: C21), the temperature vector
with ghosts. Proof: every entry is a sum over the points of the process (no index is written twice),
the shares concatenate to the grid.
Theorems [Properties_Output.v]: `c82_zr`, `c82_alloy`, `c82_sizes`, `c82_single`, `c82_diameter`,
`c82_thin_refuted`, `c82_zero`, `c82_full`, `c82_coupled`, `c82_coupled_refuted`, `c82_tridyn`,
`c82_tridyn_temperature_refuted`, `c82_tridyn_processes_refuted`, `c82_tridyn_species_refuted`,
`c82_profile`, `c82_negative`, `c82_negative_refuted`, `c82_series`, `c82_series_refuted`,
`c82_scatter`, `c82_scatter_points`.
Scope: Data lines, depths and atoms of the TRIDYN file, temperature profile and thresholds full, for
every share of the points; series plot for one process. Refuted: below a density of 1e-16 the
diameter column has the undivided sum; coupled runs add points without their widths; the TRIDYN
temperature is that of the point before (on the first process two points before), so it depends on
the number of processes; with six species there is no TRIDYN file; the check for negative
concentrations leaves them; the series plot of several processes stops with an MPI error. The totals
themselves are C21.

### C83 Xenon which reaches a grain boundary is counted once and completely (two and three dimensions) (partial)

Models the monitors and handlers of both dimensions as one text with an optional third index; an
index 0 - 1 is outside the array (None), an index beyond the last row is the ghost point of the
periodic side. Spec: `xeRate` with neighbours modulo the number of rows, `inner`, `boxSum`;
processes, means and surface fluxes from C76. Proof: every point has one owner, so the folds over
processes become sums over the boundaries (also with boundaries in vectors of empty processes);
c83_balance from c76_rate by removing the skipped points.
Theorems [Properties_Xenon3.v]: `c83_flux`, `c83_stencil`, `c83_accumulated`, `c83_local`,
`c83_content`, `c83_radius`, `c83_balance`, `c83_init`, `c83_init_refuted`, `c83_twice_refuted`,
`c83_first_refuted`.
Scope: Full for the rate, the accumulation, the content and the radii on any grid and share of the
box; the balance for a uniform grid and temperature, surfaces at the first point and periodic sides.
Refuted: a boundary in the first row or plane is read outside the array (32-bit indices, the
default), a location given twice counts twice, the xenon at a boundary when it is taken out leaves
the reported content without entering the reported amount.

### C84 What transport acts in a run, and on which clusters (partial)

Models the constructor of the material, the loops which fill the lists (with the composition vector
kept from turn to turn) and what the solver of each dimension initialises; network lookups are
arbitrary functions. Spec: `alone` (amounts of a pure cluster), tables in eV nm^3 with decimals,
`moves`, `listed` (entries which move, in order, with their strengths and diagonal pairs). Proof:
induction over the loop; the composition after an assignment is that of the pure cluster; the fixed
sequence of the thermal diffusion is computed for the four species lists.
Theorems [Properties_Handlers.v]: `c84_drift`, `c84_thermal`, `c84_thermal_again`, `c84_run`,
`c84_still`, `c84_missing`, `c84_dimension`, `c84_soret_refuted`, `c84_grain_refuted`,
`c84_threshold_refuted`, `c84_factors_refuted`.
Scope: Lists, strengths and errors full for every network of tungsten, material, dimension, choice
of processes and grain boundaries. Refuted: soret with a material other than W100 or in two and
three dimensions is silently without effect; a grain boundary in a material which is not tungsten
follows a null pointer; the migration threshold does not stop drift and thermal diffusion; the
factors of the thermal diffusion are not cleared, so that a second initialisation with another
network gives clusters the factors of others. Not modelled: where the handlers act on the grid
(C26-C28, C33).

### C85 A coupled run has the sources and the state of the whole network (partial)

Models the sub-options, the transfer of the sources (zirconium with the vectors of the host and
their device copies apart), the assembly of the concentrations and the loop over the grid points;
solving and the rates are arbitrary functions. Spec: `zrSame`, `halves` (the sub-networks find the
clusters of the whole through the map; the map itself is C40), Permutation of the lists of sources,
`assembled` (values at the images of the clusters, zero elsewhere), `seen` (the cut-off of 1e-16 of
the solver). Proof: induction over the cascades; sources with distinct indices are found by the
first match; invariant of the fold which fills the vector.
Theorems [Properties_Couple.v]: `c85_limits`, `c85_zr_options`, `c85_zr_sixth_refuted`,
`c85_alloy_options`, `c85_none_refuted`, `c85_transfer`, `c85_zr`, `c85_zr_some`,
`c85_zr_basal_refuted`, `c85_alloy`, `c85_alloy_group_refuted`, `c85_alloy_line_refuted`,
`c85_line`, `c85_zero`, `c85_moments_refuted`.
Scope: Full: options; sources of zirconium without basal pyramids, of alloys in 0D without groups;
rates per grid point in 0D and 1D for networks without groups. Refuted: basal pyramids (vacancies
counted too often), alloys with groups (exception) or depth (sources exchanged between clusters),
moments of groups not handed over, parameters without sub-network.

### C86 A parameter file sets the options which it names, and no others (partial)

Models both readers as programs of few statements (checkSetParam, get with default, count and get,
setter of a list, check of a name) over a tree of labels, with the labels, members and order of the
code; the setters of lists are TokenModel's (C55). Spec: `documented` (label, member, type,
default), `documentedLists`, `documentedFlags` written from the documentation of the options;
`says`/`silent` (the first entry with the label, without case); `writesNumber` for whole numbers.
Proof: a member is written by exactly one statement of each program (computed), so that its value is
that of this statement (`run_one`); agreement by the two characterisations, acceptance by progress
through the JSON program.
Theorems [Properties_Options.v]: `c86_json`, `c86_json_lists`, `c86_json_flags`, `c86_conf`,
`c86_conf_lists`, `c86_conf_flags`, `c86_conf_accepts`, `c86_conf_throws`, `c86_agree`,
`c86_accepted`, `c86_checks`, `c86_int`, `c86_case`, `c86_bool`, `c86_items`, `c86_convert_refuted`,
`c86_list_refuted`, `c86_unknown_refuted`, `c86_twice_refuted`, `c86_pulse_refuted`,
`c86_bool_refuted`.
Scope: Full for the values and defaults of 38 single options, 10 lists and 3 flags in both formats,
for the errors of the older format and for the agreement of the formats (files whose two yes/no
texts are read alike, without petscArgs). Refuted for the errors of JSON: unknown labels, repeated
labels, values of the wrong type and lists for single values are passed over silently; a list for
pulse or rng is undefined; yes/no words differ between the formats. Abstract: the conversion to
double, files which open, strtoul.

### C87 The guard on the largest cluster watches the largest cluster and stops the run (partial)

Models the search as the reduction of the threads' results, with the sum of the upper limits minus
one as written per material, and the loops of the monitor of each dimension over the part of the
grid of a process. Spec: `size` (what is counted in each material), threads as any lists whose
concatenation is a permutation of the clusters, grids as any union of boxes. Proof: invariant of the
reduction (an index attains its value; the value bounds those seen).
Theorems [Properties_Largest.v]: `c87_largest`, `c87_fires`, `c87_loops`, `c87_threshold`,
`c87_interstitial_refuted`, `c87_perfect_refuted`, `c87_tie_refuted`.
Scope: Full: some cluster whose counted atoms are the most of all is found, for every way in which
threads share out the clusters; some process ends the run exactly if that cluster exceeds the
threshold at some point of the grid, in every dimension. Refuted: interstitials do not count in
tungsten, fuel and iron, nor perfect loops (nor single defects) in alloys; of equally large clusters
only one is watched. Not modelled: how the exception of one process ends the others.

### C88 The tables of a run at one point hold what their headings say (partial)

Models the reading of the lines, the search in the network, the row and the statistics as sums over
the clusters; lines are lists of tokens. Spec: `named` headings, filter of the file by the network,
content by C21's `compositionSum`, `mean` and `variance` of a list of weighted ratios written as
sums, compositions `holds` in a region. Proof: induction over the lines; the sums by induction over
the clusters with the test for bubbles; the table by the tests of each region.
Theorems [Properties_Point.v]: `c88_columns`, `c88_row`, `c88_width`, `c88_bubble`,
`c88_marker_refuted`, `c88_ratio_refuted`, `c88_interface_refuted`.
Scope: Full for the columns, the headings, the concentrations, the statistics of the bubbles and the
table of bubbles; the content of xenon is that of C21 (moments on the axis of xenon 0). Refuted: the
line Reactions in the first place is undefined; a network without bubbles (xenon alone) writes 0/0
twice in each row; the variance asked for through the interface ignores the mean. Abstract: the text
form of numbers.

### C89 A stopped and restarted run knows again what has left through its surfaces (partial)

Models the vectors of the monitors, the groups of the file (names with what is stored; creating a
name twice fails), the loops on the names and the options in the order of setup; one record of
encoding for each dimension, with the extents of the file. Spec: amounts of the right shape
(`sound`), equality of what is read with what was in the monitor. Proof: a general lemma for any
encoding which can be undone (names of one side and kind are injective, of different sides or kinds
apart), instantiated with numbers, rows and planes (concatenation and cutting).
Theorems [Properties_Loss.v]: `c89_restart1`, `c89_restart2`, `c89_restart3`, `c89_names`,
`c89_start`, `c89_moving_refuted`, `c89_off_refuted`, `c89_half_refuted`.
Scope: Full for runs with the option for retention and for the left side of runs with a moving
surface. Refuted: without the option for retention a restart forgets the amounts (and its
checkpoints hold zeros), with a moving surface those of the right side and of bursting; a moving
surface at a side which is not free is undefined. The next solver loop is C71, positions,
concentrations and fluence are C72-C74.

### C90 Bubbles burst where they reach the surface, and what leaves is booked (partial)

Models the radius (real cube root), the depth, the chance, the loops over the points of a process
with the numbers drawn so far, the reduction of the positions in two dimensions, the update of the
points (BurstModel's, C20) and the sums over the processes. Spec: `bursts` (more than the number
drawn, or larger than the depth), the k-th point of the process by `nth_error` of a filter, content
as C20's total, balance of content times width plus amounts released. Proof: monotony of the cube
root and of exp, rational bounds of PI and of the root of 3 for the sign of the offset; induction
over the points; induction over the positions with C20 at each.
Theorems [Properties_Release.v]: `c90_more`, `c90_monotone`, `c90_deeper`, `c90_none`, `c90_depth`,
`c90_chance`, `c90_scan`, `c90_scan3`, `c90_points`, `c90_flag`, `c90_owner`, `c90_post`,
`c90_balance`, `c90_sum`, `c90_surface_refuted`, `c90_width_refuted`, `c90_unbooked_refuted`.
Scope: Full for the points which burst, the draws, the owners and the removal of the gas; the books
balance in one dimension on grids of equal steps. Refuted: on other grids the width booked is that
of the neighbouring cells' mean; in two and three dimensions nothing is booked; where the left side
is not a free surface its first point bursts in every step without helium. Networks as in C20
(groups of mixed clusters, moments 0). Arbitrary: the random numbers.

### C91 Clusters in zirconium and alloys find each other at rates which are positive, the same from either side, and shared out completely (partial)

Models the capture radii as written, the data of a cluster as the rate function sees them, the
anisotropy from the diffusion constants of C60 and the rates of C45 (EnergyModel) with them; for the
alloys the generator's choice of products and the factor of each. Spec: `law` (a power law with
rational exponent as an equation between integer powers), `moves` (the sizes which diffuse), `whole`
(the rate of two spheres or of a sphere and a loop). Proof: powers of real numbers by Rpower;
numerical bounds at the transition by comparing integer powers; positivity and symmetry by cases on
kind and size.
Theorems [Properties_Capture.v]: `c91_capture`, `c91_capture_large`, `c91_grows`, `c91_continuous`,
`c91_positive`, `c91_symmetric`, `c91_loop`, `c91_compounds`, `c91_share`, `c91_spheres`,
`c91_rings`, `c91_grows_refuted`, `c91_share_refuted`.
Scope: Full for the laws, the growth below the transition, the positive and symmetric rates in
zirconium (every size, group and temperature) and the shares in the alloys when both kinds can hold
the size. Refuted: at the transition size the radius of a basal loop for interstitials falls from
1.1 to less than 0.79; when only one of two kinds exists, half of the rate is lost.

### C92 The surface plots show each point of the grid once, at its place, whatever the number and timing of the processes (partial)

Models the two-dimensional gathering as programs of sends, receives and barriers for each process
and a small-step relation with a pool of messages (any source, tags, non-overtaking; synchronous
sends as an option), the three-dimensional one as loops with a reduction of sums. Spec: `shown` (the
grid in order), `partition2`, `partition3` (every point owned once). Proof: an invariant of the
states reachable (before, during and after a point), progress from every such state, and the
decrease of the number of remaining actions.
Theorems [Properties_Gather.v]: `c92_surface`, `c92_ends`, `c92_xy`, `c92_xz`,
`c92_integral_refuted`.
Scope: Full in two dimensions, for all interleavings, with buffered and with synchronous sends; in
three dimensions every position with the sum of the concentrations along the remaining direction.
Refuted: this sum is not multiplied by the step, so it is neither an integral nor a concentration.
MPI is taken at its documented meaning (messages of one sender and tag in order); the drawing itself
is not modelled.

### C93 Fission returns gas from every bubble to the lattice, at a rate which depends on stopping, radius and fission in the physical direction (partial)

Models the test of the generator on the origins of the two clusters with the general products of C19
(GenModel), the loop over the pairs, the switch, and the nine fits with the formula of the rate.
Spec: `published` (the fits as a relation on intervals), `law`, `hasXeV` (compositions in a group),
`single` networks as lists of compositions. Proof: the products by c19_products; the order of the
fits by comparing the five numbers of every pair of intervals, then monotony of exp and of
quotients.
Theorems [Properties_Resolution.v]: `c93_law`, `c93_stopping`, `c93_radius`, `c93_fission`,
`c93_groups`, `c93_who`, `c93_once`, `c93_one`, `c93_kept_refuted`.
Scope: Full for the rate and for the list of the reactions (any grouping; in networks of single
sizes exactly one per bubble whose rest is a cluster). Refuted: bubbles with one vacancy, and those
of two xenon atoms with ten or more vacancies, never give gas back. The flux of a reaction is that
of C05; the order of the reactions of a cluster is not modelled.

### C94 A file of implantation profiles is read completely and every profile reaches its cluster (partial)

Models the loop of std::getline with the state of the stream, the tokens of each line, the lookup of
the cluster, the profile as Horner's scheme cut at zero, its normalisation and the writing into the
concentrations; undefined behaviour and exceptions are outcomes. Spec: `describes` and `written`
(the file as lines), `oneLine`, `horner`, `profile`, `inner`, `whole`. Proof: induction over the
list of profiles for the reading, with a bound on the fuel for termination; the totals by sums over
the inner points.
Theorems [Properties_Custom.v]: `c94_reads`, `c94_ends`, `c94_source`, `c94_total`,
`c94_last_line_refuted`, `c94_blank_refuted`, `c94_missing_refuted`, `c94_zero_dimension_refuted`,
`c94_blank_first_refuted`.
Scope: Full for files whose every line ends with an end of line and whose profiles have a positive
sum: any number of profiles, networks, grids and amplitudes. Refuted: a file without a final end of
line is refused with an exception; what follows a blank line is ignored in silence; without a file,
without a grid or with a blank first line the program reads an element of an empty vector, although
a zero flux is announced. The conversion of tokens to numbers is a parameter (C89).

### C95 A run which begins loses nothing saved and leaves a checkpoint which describes it (partial)

Models the disk as a function from files to contents and the two names with the file each stands
for; the constructor, the opening of the restart file, the creation and the copy of the network in
the order of the set-up. Statements are about the disk before and after only. Proof: by cases on the
names, with one lemma for the files which are not written.
Theorems [Properties_Begin.v]: `c95_fresh`, `c95_restart`, `c95_same`, `c95_later`, `c95_safe`,
`c95_network_refuted`, `c95_no_network_refuted`, `c95_missing_refuted`, `c95_same_missing_refuted`,
`c95_alias_refuted`.
Scope: Full for the safety of saved files and for fresh runs. Refuted: the network in the checkpoint
of a restart is that of the old file even if the run has another one, and none if the file has none;
a name without a file ends the run with an exception, or, if it is also that of the checkpoint,
gives a checkpoint without network; the same file under two names is refused. HDF5 is taken at its
documented meaning (an open file is not truncated).

### C96 The volume fraction of bubbles is the volume of their spheres (partial)

Models getTotalVolumeFraction and the two lists of quantities which the monitors ask for, with the
reductions of C21 (TotalsModel). Spec: `compositionSum` of `ball` (a sum over the single
compositions of a network), `meanRadius`. Proof: sums over the compositions of a region; the cube
lies above its tangent at the mean radius, strictly elsewhere.
Theorems [Properties_Fraction.v]: `c96_law`, `c96_smaller`, `c96_dimensions`, `c96_groups`,
`c96_handed_refuted`.
Scope: Full for getTotalVolumeFraction with the radii of the clusters, for all networks,
concentrations and minimum sizes which do not cut a group (or whose moments are zero); the fraction
is the same in all dimensions. Refuted: what the coupled code gets lacks 4/3 of Pi and is less than
a quarter of the fraction. For groups the sphere of the mean radius gives less than the volume of
the sizes; the difference is strict as soon as two radii differ.

### C97 The messages asked for appear, and no others (partial)

Models the filter of the core, the threshold, the lazy set-up and the three sinks as a state, and a
run as a list of events (a level set, a message). Spec: `reads` (strings equal up to case, letter by
letter), `those` (the texts of the messages which meet a condition). Proof: induction over the
messages behind the set-up; the names by equivalence of the transformed string with the relation.
Theorems [Properties_Log.v]: `c97_names`, `c97_json`, `c97_conf`, `c97_early`, `c97_errors`,
`c97_level_refuted`, `c97_file_refuted`.
Scope: Full for the names, for errors, for builds with assertions and for the old format's output.
Refuted: without assertions (release builds) the set-up of the log at the first message replaces the
filter, so that with JSON parameters logLevel has no effect on the output; in the old format only
the first process writes a file even when debug or extra is asked for. Boost.Log is taken at its
documented meaning; the case before MPI is ready is covered with assertions and JSON parameters
only.

### C98 The output file describes every cluster of the network (proved)

Models the writing of the network group as a fold which creates one named group per cluster, with
the bounds stored as signed 32-bit numbers, and the reading functions. Spec: `writes` (a string of
digits without leading zero stands for a number), `inside` (half-open region), `between` (inclusive
bounds in the file), `named` (names of species). Proof: the decimal names are characterised through
the library's conversion of numbers, hence injective; invariant of the fold; the bounds by induction
over the species.
Theorems [Properties_NetFile.v]: `c98_written`, `c98_read`, `c98_which`, `c98_labels`.
Scope: For any list of clusters with nonempty regions and amounts up to 2^31. HDF5 is taken at its
documented meaning (a group with a taken name cannot be created; signed and unsigned numbers of 32
bits share their bits). That the regions of a network do not overlap is a hypothesis here.

### C99 The file says on which grid a time step was computed (partial)

Models writeGrid with its defaults, the calls of the three monitors and the grid of a restart. Spec:
a run as its grid in depth and the numbers and steps of the other directions, `step_` (distance of
neighbours). Proof: by cases on the grid; the refutations hold for every run.
Theorems [Properties_GridFile.v]: `c99_depth`, `c99_uniform`, `c99_across_refuted`,
`c99_width_refuted`, `c99_step_refuted`.
Scope: Full for the depth: number, positions and restart, and the step of a uniform grid. Refuted:
in two and three dimensions the monitors leave numbers and steps of the other directions at their
defaults of zero, so that runs of different widths leave the same description and a restart with
another width is not noticed there; the step given is the first one even if the grid is not uniform.

## 3. Findings

Each is a theorem about the model of the code as written, with a concrete
witness.

* F1 `c02_no_product_overlap_refuted` (Reaction.tpp:49-126). With no product the
  overlap is set to 1 whatever the number of reacting pairs.
* F2 `c05_coefficients_refuted`, `c05_conserved_refuted` (Reaction.tpp:174-481).
  Some coefficients of the mixed kind (one axis for the reactant, a later axis
  for the evolved moment) are computed from other entries which the loop has
  not written yet, so they stay 0. With two grouped axes the reaction then
  creates or destroys atoms of the later species (witness: a rate of -1/4).
* F3 `c08_dissociation_refuted`, `c09_reduced_refuted`,
  `c12_dissociation_reduced_refuted` (Reaction.tpp:2685 and the copy at
  ReSolutionReaction.tpp:535). The reduced Jacobian guards the second product's
  first moment by the id of the *first* product. A diagonal entry is then
  missing when only the second product is grouped, and an entry that was never
  mapped is written when only the first is grouped.
* F4 `c17_second_reactant_inside_refuted` (Reaction.tpp:1503-1510). The constant
  rate for the moments of the second reactant uses
  `coefs(i+1,j+1,0,0)*cmR1[i]`; the derivative needs
  `coefs(j+1,i+1,0,0)*cmR1[j]`. Equal with one axis, wrong with two.
* F5 `c17_dissociation_inside_refuted` (Reaction.tpp:2792 and the copy in
  ReSolutionReaction.tpp). The rates of the first product's first moment are
  added to the row of the parent's moment.
* F6 `c17_both_reactants_inside_refuted` (Reaction.tpp:1298). Acknowledged in
  the code by a comment: nothing is written when both reactants are inside the
  sub-network and the product is not.
* F7 `c17_trap_mutation_refuted` (TrapMutationReaction.tpp:169-196). The test
  for the bubble uses the helium cluster's membership, so a sub-network which
  holds the bubble never receives it.
* F8 `c11_jacobian_refuted`. The trap-mutation rate of the desorbing cluster is
  proportional to its left-side rate, recomputed from the concentrations before
  each flux evaluation; the Jacobian treats it as a constant.
* F9 `c46_self_reaction_refuted` (Reaction.tpp:1815-1833). A self-reaction is
  counted once in the left-side rate although it removes two clusters.
* F10 `c47_only_one_refuted` (PSIReactionNetwork.tpp:112-135). A mutation depth
  which lies on a grid point is enabled at two neighbouring grid points.
* F11 `c15_history_refuted` (MultiElementCollection.h:177-180). The end of the
  chain ignores `updateIndices`, so its begin index keeps the total at
  construction. After `setView` makes the collection larger (or after default
  construction) the last elements are counted but never visited. No caller in
  the repository uses `setView` today.
* F12 `c16_shared_slot_refuted` (ClusterData.tpp:225-248). If two grouped axes
  of a cluster share a slot, one unknown has no owner. The networks avoid this
  by never grouping interstitials and vacancies together.
* F13 `c18_alloy_perfect_faulted_refuted`, `c18_alloy_perfect_faulted_wrap_refuted`
  (AlloyReactionNetwork.tpp:472-535, 561-623). The sizes are unsigned and the
  loop stops before the maximum, so ungrouped perfect + faulted (or void) pairs
  never get a reaction, nor do groups whose smallest net size is negative.
* F14 `c18_alloy_interstitial_faulted_refuted` (AlloyReactionNetwork.tpp:396-471).
  An interstitial cluster at least as large as the faulted loop (or void) has no
  reaction with it.
* F15 `c19_accept_refuted` (PSI 552-587, Fe 109-143, NE 356-393). When the lower
  bound of the vacancy axis is negative it wraps to about 2^32 and every product
  is rejected, although a balanced reaction may exist.
* F16 `c19_accept_interstitial_product_refuted` (Fe 127-143, NE). The
  interstitial axis of the product is not tested; a grouped V cluster meeting an
  I cluster can accept every pure I cluster.
* F17 `c19_trap_mutation_gap_refuted` (PSIReactionNetwork.tpp:656-668). When
  I_n does not exist the `continue` skips the shift of the bounds, so a larger
  released interstitial is paired with the wrong bubble.
* F18 `c20_moment_refuted` (PSIReactionNetwork.tpp:234-269, a TODO in the code).
  Bursting counts the released gas of a group without its moments.
* F19 `c20_vacancy_group_refuted`. A group of pure vacancy clusters transfers
  its concentration to itself and is then reset: its vacancies disappear.
* F20 `c20_interstitial_group_refuted`. A group of pure interstitial clusters
  looks up the empty composition; the invalid cluster is read and written.
* F21 `c21_atoms_refuted`, `c21_cut_refuted` (impl/ReactionNetwork.tpp:1218-1293).
  Atom totals ignore the moment of the counted axis, so they differ from what the
  fluxes conserve (C05, C07); `c21_atoms_defect` gives the missing term.
* F22 `c21_trapped_refuted`, `c21_trapped_agree_refuted`. With several vacancy
  species (Alloy, Zr) `getTotalTrappedAtomConcentration` uses the last,
  `TQMethodTrapped` the first; both ignore the others.
* F23 `c21_ratio_refuted`, `c21_variance_refuted` (1336-1468). The numerators miss
  the widths of the other grouped axes which the denominator contains.
* F24 `c22_query_refuted`, `c23_twice_refuted` (GrowthFactorStepSequence.cpp:41-45,
  MultiXolotl.cpp:108-112). `at(step)` ignores the initial step number, so the step
  size written when a restarted run is stopped again is too large (growth factor
  raised to the absolute step number, capped by the maximum).
* F25 `c22_cap_refuted`. The first step is not capped while the queried one is.
* F26 `c22_unlimited_refuted`, `c23_unlimited_refuted` (TimeStepper.cpp:55-74). A
  step limit of 0 means "no limit" for `valid()` but the queries assert
  `step <= maxSteps`.
* F27 `c24_custom_refuted` (CustomFitFluxHandler.h:101). Initialisation clears the
  amplitudes of the time profile but not the times: every later profile query reads
  past the end of the vector.
* F28 `c25_missed_refuted`, `c25_negative_refuted`. A fit that is positive only
  between the cell centres silently implants nothing; the fits for W110 and W111 are
  negative at their cut-off depth.
* F29 `c27_far_side_refuted` (PetscSolver2DHandler.cpp:232-236, PetscSolver3DHandler.cpp:285-289).
  The preallocation asks the grain-boundary handlers for their stencil at y = z = 0; for
  points beyond the boundary the derivative is added to the neighbour on the wrong side.
* F30 `c27_x_sink_refuted`, `c27_x_one_dimension_refuted` (XGBAdvectionHandler.cpp:109-113, 200).
  The x handler throws in one dimension and, on the sink, writes its derivatives only in
  one dimension.
* F31 `c28_vanishing_refuted`, `c28_temperatures_refuted`. The Soret derivatives are left at
  zero when the three concentrations vanish, and no temperature derivative is entered.
* F32 `c32_unequal_handlers_refuted` (PetscSolver1DHandler.cpp:235-239). One coordinate per
  missing advecting cluster is announced, two values are skipped: with a dummy surface
  handler beside grain boundaries all later values are misplaced.
* F33 `c32_first_point_refuted` (PetscSolver1DHandler.cpp:1260-1261). Point 0 is left by
  `continue` without advancing the value index when the left boundary option is 0.
* F34 `c33_point_refuted`, `c33_last_column_refuted`, `c33_id_refuted`,
  `c33_wrong_cluster_refuted` (Diffusion1DHandler.cpp:65, Diffusion2DHandler.cpp:73,
  Diffusion3DHandler.cpp:83). The diffusion mask is written at row i but read at row
  i + 1, and indexed by the cluster id instead of its position.
* F35 `c33_advection_grid_refuted` (SurfaceAdvectionHandler.cpp:70-90). The same for the
  advection mask: positions not measured from the surface, row up to nx + 2 of nx + 2 rows.
* F36 `c48_cells_refuted`, `c48_varying_coefficient_refuted`. Diffusion does not conserve the
  amount which the monitors report on grids with jumps of the cell width, nor with a
  coefficient varying in space (the term in D' is not in divergence form).
* F37 `c48_grain_boundary_between_refuted`. If no grid line lies within 0.001 nm of a grain
  boundary, the attracted material disappears.
* F38 `c49_twice_refuted`, `c49_robin_twice_refuted` (PetscSolver1DHandler.cpp:817-851, 915-918). With
  the left boundary option 0 the surface heat contribution is added twice (in the rate and
  in the Jacobian).
* F39 `c50_steep_refuted`, `c50_soret_refuted`. Transport drives absent clusters negative for
  steep coefficients and for Soret diffusion.
* F40 `c29_surface_refuted`, `c29_bulk_flux_refuted` (HeatEquationHandler.cpp:433-434, 470-471). The last
  term of the diagonal is multiplied by alpha beta^3 instead of divided by it (a factor of
  about 1e-42 at 1000 K).
* F41 `c29_dimensions_refuted`, `c29_portion_refuted`, `c29_interface_refuted`. The temperature
  dependence of conductivity and capacity is missing from the diagonal in 2D/3D and at the
  bulk end; at the interface point the Jacobian is that of a surface point although the
  rate is that of an interior point.
* F42 `c51_hot_refuted` (HeatEquationHandler.cpp:175-184). The fitted conductivity of tungsten is
  negative from 3250 K to the melting point, where the heat equation is ill-posed.
* F43 `c30_first_cheby_refuted` (SolverHandler.cpp:146-147). The Chebyshev grid starts with two
  equal points; the surface cell then has width zero and the threshold for moving the
  surface is zero.
* F44 `c42_back_two_refuted` (PetscMonitor1D.cpp:1960-1985, SolverHandler.cpp:381). A retreat by k points
  credits the atoms between points 1 and k+1 but removes the length between points 0 and
  k: the two differ on grids which widen.
* F45 `c53_extrapolation_refuted`, `c53_near_refuted` (PetscSolver1DHandler.cpp:411-498). After a
  surface move new concentrations are extrapolated, to negative values, above the old
  surface and up to 1e-4 nm below each old point.
* F46 `c53_retreat_refuted` (PetscSolver1DHandler.cpp:514, PetscSolverHandler.h:34). The offset is
  unsigned: `surfaceOffset > 0` also holds after a retreat, and the first point of the
  remaining material is reset to the initial concentrations.
* F47 `c31_after_growth_refuted` (SolverHandler.cpp:623-658). generateTemperatureGrid gathers the
  old pieces with the new number of points: after growth the last value is missing, and the
  end of the broadcast vector is never written.
* F48 `c52_left_ghost_refuted` (SolverHandler.cpp:804-826). On every uniform grid the point left of
  the surface is not covered by the other grid and gets the temperature behind the bulk end.
* F49 `c34_hardware_refuted` (PerfHandler.cpp:222-259). A process which knows a hardware counter
  object but not the requested counter in it is counted, with the value 0.
* F50 `c34_negative_refuted` (ITimer.h:34). The maximum starts from 0: negative timer values are
  reported with maximum 0.
* F51 `c35_epoch_refuted` (OSTimer.cpp:11-12). numeric_limits is not specialised for time points:
  the "not running" time stamp is the epoch, a valid clock reading.
* F52 `c35_backwards_refuted` (OSTimer.h:23). The clock is the system clock: when it is set back
  during an interval the timer value decreases.
* F53 `c36_crash_refuted`, `c36_wrong_group_refuted` (XFile.cpp:275-279, 320-328). When a group with
  a control step other than 0 is added again, the group of control step 0 is opened instead:
  a null pointer is used, or the wrong group is overwritten.
* F54 `c37_empty_refuted` (HDF5FileDataSet.h:308). A process without grid points takes the last
  element of an empty vector.
* F55 `c38_stale_refuted` (PetscSolver1DHandler.cpp:669-673, 703-706). Imported vectors list only
  values above 1e-16; other entries of the receiver keep what they had.
* F56 `c38_temperature_refuted` (PetscSolver1DHandler.cpp:727, likewise 2D:764 and 3D:842;
  SolverHandler.h:88). The loop from -1 to an unsigned bound is never entered: after
  setConcVector the network keeps its old temperatures and rates.
* F57 `c39_ratio_refuted` (PSIClusterGenerator.h:25-31). Within the table of maximal helium numbers
  a requested ratio above 4 is ignored: fewer helium atoms are allowed than asked for.
* F58 `c39_wrap_refuted` (PSIClusterGenerator.h:25-35). Near the largest 32-bit amounts the bound
  wraps and a larger vacancy cluster holds less helium.
* F59 `c45_cutoff_refuted` (PSIReaction.tpp:218). Binding energies below -5 eV are replaced by
  -5 eV, so the dissociation does not balance the forward reaction.
* F60 `c45_hydrogen_refuted` (PSIClusterGenerator.tpp:531-540). The formation energies of pure
  deuterium and tritium are infinite: the release of hydrogen from a cluster with three or more
  vacancies has rate zero although its capture does not.
* F61 `c45_forward_zr_refuted` (ZrReaction.tpp:61-84). The forward rate of two loops depends on
  which of them is the first reactant.
* F62 `c45_ne_order_refuted` (NEReaction.tpp:81, 815). The production and dissociation rates use
  only the radius of the first cluster; stored in the other order the reaction has another rate.
* F63 `c45_ne_creation_refuted` (NEReaction.tpp:116-117). The exponent is written dG0 / kB * T: the
  energy is multiplied by the temperature instead of being divided by it.
* F64 `c54_twelve_refuted` (PSIReaction.tpp:89, 165). D + T = 12 with two vacancies and no helium
  reads column 12 of a table of 12 columns.
* F65 `c40_missing_refuted` (XolotlInterface.cpp:357-367). A cluster of a sub-network which the full
  network does not have is passed over, so that all later unknowns of that sub-network are
  taken to the wrong cluster (the assert on the total is off in release builds).
* F66 `c43_blank_refuted` (StreamTokenizer.h:46-48). An empty line gives no tokens, like the end of
  the input.
* F67 `c43_indented_refuted` (StreamTokenizer.h:50-56). A comment behind white space is read as data.
* F68 `c43_number_refuted` (Tokenizer.h:15-25). The state of the stream is not looked at: letters are
  read as 0, 1e3 as 1 for integers, values behind a tab are lost, and a token of white space
  only gives an uninitialised value.
* F69 `c55_net_refuted` (Options.cpp:212-224). netParam with two to four values (or none) reads past
  the end of the list.
* F70 `c55_grouping_refuted`, `c55_pulse_refuted`, `c55_rng_refuted` (Options.cpp:503-514, 493-501,
  414). The lists are read without looking at their length.
* F71 `c55_dropped_refuted` (Options.cpp:371-395 and the other setters). A single boundary value and
  all values behind the expected ones are dropped without a message.
* F72 `c55_initial_refuted` (SolverHandler.cpp:455-478). An incomplete triple reads past the tokens.
* F73 `c55_grain_refuted` (MaterialHandler.cpp:109-139). A direction without a place reads past the
  tokens; a Z grain boundary is accepted in two dimensions (the check compares with 2, not 3).
* F74 `c55_petsc_refuted` (JSONOptions.cpp:294-298). petscArgs given as one string is dropped.
* F75 `c56_string_refuted` (JSONOptions.cpp:25-47). Comment marks inside strings are not recognised as
  text: a file name with # or // loses its end and the rest of its line.
* F76 `c57_list_refuted` (Options.cpp:433-439). With a list the flags are not reset; an empty list
  leaves the map without keys, and the look-up of a process throws.
* F77 `c58_ne_no_loss_refuted` (NEClusterGenerator.tpp:116-120). A group with one xenon and vacancies
  that reach beyond eight is rejected as a whole: with a grouping minimum of eight or less, clusters such as
  Xe1V8, which exist in the ungrouped network, are missing.
* F78 `c59_endless_refuted`, `c59_alloy_default_refuted` (AlloyNetworkHandler.cpp:27-36, and the
  analogous loops of the other handlers). With a grouping width of 0 or 1 the loop that looks for the power of the
  width never ends. The widths default to 1 and 0 (Options.cpp:49-51); the Alloy handler runs the loop
  even when no grouping is requested, and a grouping option with two values leaves the second width at 0.
* F79 `c59_psi_covers_refuted` (PSINetworkHandler.cpp:34-61). The helium axis is sized by the helium
  bound of the largest mixed cluster; with pure vacancies but no mixed clusters it has length one and the
  requested pure helium clusters are dropped silently.
* F80 `c59_psi_hydrogen_refuted` (PSINetworkHandler.cpp:116-121). Without helium and with vacancies and
  interstitials grouped, the network is built without deuterium and tritium even when they are requested.
* F81 `c59_psi_levels_refuted` (PSINetworkHandler.cpp:95-101). The number of levels for pure vacancies is an
  unsigned difference: with maxPureV below maxV it wraps and four billion levels are inserted.
* F82 `c59_alloy_void_refuted` (AlloyNetworkHandler.cpp:38-46). Without vacancies the void axis keeps its
  length but gets the subdivision ratio one.
* F83 `c60_zr_refuted`, `c60_alloy_refuted` (ZrClusterGenerator.tpp:119-163, AlloyClusterGenerator.tpp:222-276). The conditions for
  the migration energy and for the diffusion factor differ: I9 in zirconium and perfect loops of 70 or more have a
  migration energy but never move.
* F84 `c60_group_refuted` (PSIClusterGenerator.tpp:607-617). A group of interstitial clusters which starts below size 6 gets
  the law of the large ones: its migration energy differs from that of its members.
* F85 `c60_ne_small_refuted` (ClusterData.tpp:172-189). A diffusivity from the file below 2^-52 counts as zero.
* F86 `c61_ne_vacancies_refuted` (NEClusterGenerator.tpp:160-194). V1 and V2 have the same radius.
* F87 `c61_zr_group_refuted` (ZrClusterGenerator.tpp:172-217). A group over size 10 follows the law of its smallest member, so
  its radius is below that of every member but the first.
* F88 `c62_last_helium_refuted`, `c62_last_hydrogen_refuted` (PSIReaction.tpp:170-211). The special energy for the emission of a
  vacancy is used whenever one product is on the vacancy axis. That is also the case when the only helium atom
  leaves 16 to 31 vacancies: the rate is computed with about 2.3 to 2.6 eV instead of 5 to 7 eV, at 1000 K a
  factor of 10^14 or more. The same holds for the only deuterium or tritium atom, which is otherwise never emitted.
* F89 `c62_divacancy_refuted` (PSIClusterGenerator.tpp:804). The formation energies of one and two vacancies give -0.05 eV.
* F90 `c62_extrapolated_refuted` (PSIClusterGenerator.tpp:868-898). The fit is used for any number of vacancies; from 813 on the
  fullest cluster emits helium with a negative energy.
* F91 `c62_boundary_refuted` (PSIClusterGenerator.tpp:506-508). The upper bound of the region, one past its last size, is compared
  with the grouping size: the largest ungrouped size has formation energy zero as the groups do, so that its
  binding energy is about 65 eV at 40 vacancies.
* F92 `c62_helium_nine_refuted` (PSIClusterGenerator.tpp:522-530). Helium clusters above eight atoms, which the options allow,
  have an infinite formation energy and fall apart with -5 eV.
* F93 `c63_zr_basal_nine_refuted` (ZrReaction.tpp:240-269). The energy of a basal loop follows its law only when a product is a
  basal loop. The smallest loop, of nine, falls into V_8 and V_1: it is held with 5 eV, the loop of ten with less than 0.65.
* F94 `c63_zr_vacancy_925_refuted` (ZrReaction.tpp:219-237). The binding of a vacancy drops where the two fits meet.
* F95 `c63_alloy_pair_refuted`, `c63_alloy_formation_refuted` (AlloyReaction.tpp:137-190, AlloyClusterGenerator.tpp:172-190). The law gives
  less than the floor for every pair; and the binding energies use other surface energies (3.1, 3.2) than the formation
  energies of the same clusters (3.4 for V), so they always exceed the difference of the latter.
* F96 `c63_fe_helium_refuted` (FeReaction.tpp:102-143). Helium never has its own law in helium-vacancy clusters: it leaves with 5 eV
  whatever the pressure, and the last one leaves with the energy of a vacancy because the other product is on the V axis.
* F97 `c63_fe_pair_refuted` (FeReaction.tpp:84-91, FeReactionNetwork.tpp:148-163). The energy 0.5 eV of the helium pair is never used: the
  generator excludes just this dissociation.
* F98 `c63_ne_small_refuted` (NEReaction.tpp:680-759). The divacancy is treated as an empty bubble: its dissociation costs the
  formation energy of one vacancy and does not depend on its own; the smallest bubble falls apart without paying for the
  vacancy. Emission of a Xe-V pair has no law (5 eV, `c63_ne`). The four formation energies are read from the
  reaction file only (NEReactionNetwork.tpp:276-304).
* F99 `c64_psi_minimum_refuted` (PSIClusterGenerator.tpp:107-120). With maxPureV above maxV, pure vacancy clusters beyond maxV are
  grouped without regard to the grouping minimum.
* F100 `c64_psi_top_refuted` (PSIClusterGenerator.tpp:79-81, also ZrClusterGenerator.tpp:39-48, AlloyClusterGenerator.tpp:57-65). The end of a
  region, one past its last size, is compared with the limit by `>`: the group ending with the largest size is always cut
  down to single sizes, unlike in NE and Fe which compare with limit + 1.
* F101 `c65_alloy_group_refuted` (AlloyReactionNetwork.tpp:669, AlloyClusterGenerator.tpp:248-254). A group of perfect loops diffuses (its first size
  is below 70), but sinks are only added for single sizes: grouping the loops switches their absorption off.
* F102 `c65_zr_nine_refuted` (ZrReaction.tpp:318-323, ZrClusterGenerator.tpp:156-160). The sink law of the one-dimensional diffuser I9 is
  written, but I9 has diffusion factor 0, so that it never gets a sink (the final `return 1.0` is unreachable for the same reason).
* F103 `c66_off_refuted` (NEReactionNetwork.tpp:202-214, NEReaction.tpp:62-86). A reaction whose last column is 0, or which the file does not
  list, is meant not to happen; its stored rate 0 is not positive, so that the default diffusion-limited rate is used, times 100.
* F104 `c66_coefficient_refuted` (NEReactionNetwork.tpp:216-218). The coefficient of a reaction (2100 or 2970 in
  benchmarks/tutorial/reactionRates.txt) is not used: any two of absolute value at least 1 give the same network; one below 1 counts as 0.
* F105 `c66_required_refuted` (NEReactionNetwork.tpp:277-304). Without I1, V1, V2 and Xe1 both in the network and in the file, the map is read at
  an invalid index. Likewise `c66_line_refuted` (lines 93-120) for a cluster outside the network (a smaller network with the same file) or a
  line with a column too many. The file number is uninitialised if the path cannot be opened (NETraits.h:142-150), and the
  temperature of the file is tempParam, which the profile handler does not need (0: division by zero) and which is the heat flux for
  the heat handler (ReactionNetwork.tpp:78).
* F106 `c66_twice_refuted` (NEReactionNetwork.tpp:100, 139). A cluster described twice diffuses as the last line says and reacts as the first.
* F107 `c66_mean_refuted` (NEReactionNetwork.tpp:133-139). The weights are not divided by their sum: a cluster with k + 1 equal states diffuses
  k + 1 times as fast as each of them.
* F108 `c67_reduced_refuted` (ConstantReaction.h:275-299). With the reduced Jacobian and sub-networks, a group that appears in its own constant
  reaction writes the pairs of its moments for every first axis, valid or not: for an axis without moment the position was never assigned, for
  two different moments the pair is not in the reduced connectivity (invalid index). Either is a write outside the values.
* F109 `c68_gradient_refuted` (PetscMonitor1D.cpp:944, 963, 1043; the same in 2D and 3D). The monitor asks the network for diffusion coefficient and
  temperature at grid index xi - xs, the solver at xi + 1 - xs: the outgoing fluxes are computed with the values of the point to the left. With a
  temperature gradient the reported losses differ from what leaves (at the surface by D(T_0)/D(T_1)).
* F110 `c68_growing_cells_refuted` (PetscMonitor1D.cpp:921-937, 1020-1036). The reported diffusive flux divides by the mean of the spacings on both sides
  of the point next to the surface, the equations by the spacing on the side of the surface: on a grid whose cells grow the report is too small at the surface.
* F111 `c69_reflecting_left_refuted`, `c69_periodic_refuted` (PetscSolver1DHandler.cpp:985-986). The first point is passed over also when the left side is
  reflecting or periodic: its concentration never changes and it takes up, unreported, what reaches it (c32_first_point_refuted is the same line in the Jacobian).
* F112 `c69_reflecting_right_refuted` (PetscSolver1DHandler.cpp:97-104, PetscMonitor1D.cpp:861-894). DM_BOUNDARY_MIRROR makes the last point the mirror, so that its
  equation is that of half a cell; the content counts it as a whole cell. Material at a reflecting side appears and disappears in the reported content.
* F113 `c70_first_rise_refuted` (PetscMonitor2D.cpp:1770-1781, PetscMonitor3D.cpp:1756-1766). The guard `surfacePos + leftOffset - 2 >= 0` is on unsigned numbers, always
  true: a surface at position 0, where all start, with enough interstitials to rise reads grid[4294967295].
* F114 `c70_rise_to_top_refuted` (PetscMonitor2D.cpp:1783-1788). A surface which rises from position 1 to 0 pays for the cell, then the function returns
  before the position is set; the other columns are not treated.
* F115 `c70_early_refuted`, `c70_nothing_moves_refuted` (PetscMonitor2D.cpp:1485-1494 against 1835). The event asks for 0.9 of the cell below, the move for 0.1 of the
  cell above: a column that misses a tenth of a cell gives up a whole one when another column moves; on a refining grid an event can move nothing.
* F116 `c70_reset_refuted`, `c70_forever_refuted`, `c70_lost_refuted` (PetscMonitor2D.cpp:1880-1884, PetscSolver2DHandler.h:138, PetscSolver2DHandler.cpp:344-360; the same in 3D).
  setSurfaceOffset does nothing in 2D and 3D: when every column has retreated, this and every later surface event restarts the solver with the concentrations of time 0
  (and the retreated positions): everything implanted so far is lost.
* F117 `c70_3d_refuted` (PetscMonitor3D.cpp:1865). getSurfacePosition(0) without the second index uses its default, badId: each surface event reads outside of the vector.
* F118 `c70_charge_3d_refuted` (PetscMonitor3D.cpp:1484-1485). The sputtered amount is not multiplied by the area hy * hz of the column, as it is in 2D by hy.
* F119 `c70_side_refuted` (PetscMonitor2D.cpp:1422, 1447). `for (currentX = xi; currentX >= xi; --currentX)` visits one point only: at a step of several cells between two columns
  the interstitials leaving through the upper part of the side are not counted (3D has no side flux at all).
* F120 `c71_later_refuted` (PetscMonitor1D.h:22-56, PetscMonitor2D.h:23-46). keepFlux appends, setFlux takes element 0: from the second move of the surface on, the counts of
  what has left go back to those of the first move. In 3D they are assigned.
* F121 `c71_burst_refuted` (PetscMonitor.h:103-105, PetscSolver.cpp:239-277). The burst counts are not handed over and start at zero after each move of the surface.
* F122 `c72_extra_refuted` (PetscMonitor.cpp:238-241). A written step moves the counter of strides by one only: after a step over n strides the next n-1 steps are written too, whatever their size
  (steps at 3, 3.1, 3.2 with stride 1 are all written).
* F123 `c72_loop_refuted` (PetscMonitor1D.cpp:656-666 and alike). The monitors made after a move of the surface start with counter 0: every step is written until as many have been written as strides
  have passed since time 0.
* F124 `c73_xenon_refuted` (SolverHandler.cpp:57, PetscMonitor1D.cpp:1146-1375). The amount of xenon at the grain boundaries is neither saved nor read: a continued run reports only what arrived since.
* F125 `c74_temperature_refuted` (PetscSolver2DHandler.cpp:369-392, 3D 431-453). On a restart the temperatures by depth with which the network is set up are those of the last owned column.
* F126 `c74_moved_refuted` (PetscSolver2DHandler.cpp:30-72, 304-395). surfaceOffset stays 0 in 2D and 3D: in a continued run every move of the surface re-reads grid, positions and concentrations from
  the restart file while the time goes on.
* F127 `c74_no_step_refuted` (PetscSolver1DHandler.cpp:29-48 and alike). With a restart file without time steps (a run stopped before its first checkpoint) the grid is neither read nor generated;
  grid.size() - 2 wraps around.
* F128 `c75_twice_refuted` (SolverHandler.cpp:725-733). setGBLocation does not look for the location in the vector: a boundary set twice counts its xenon twice.
* F129 `c75_init_refuted` (PetscSolver1DHandler.cpp:608-634). The xenon found at a grain boundary when it is taken out is moved to the local amount only: the reported content falls, the reported
  amount at the grain boundaries does not rise. Without -xenon_retention localNE is empty and setLocalXeRate writes outside of it.
* F130 `c76_step_refuted` (PetscMonitor2D.cpp:784-873, PetscMonitor3D.cpp:847-937). Where neighbouring columns have different surface positions, what diffuses through the side of the step leaves the
  material (the points above the surface are kept at zero) and is in none of the printed amounts: real loss 3/2, printed 1/2 in the witness.
* F131 `c76_sides_refuted` (PetscMonitor2D.cpp:784-952). The sides in y (and z) are free surfaces by default; the amounts count only surface and bottom.
* F132 `c76_location_refuted` (PetscMonitor2D.cpp:832-840, PetscSolver2DHandler.cpp:1014-1015). The advection handler keeps the location of the last column of the process; the flux printed for a column
  whose surface is d cells deeper is divided by (1+2d)^4.
* F133 `c77_jacobian_refuted` (PetscSolver2DHandler.cpp:1284-1325, PetscSolver3DHandler.cpp:1426-1471). The Jacobian loops over the own columns of each process and reduces inside of this loop: the j-th
  columns of all processes are added up, and each process uses the sum. The residual does not.
* F134 `c77_deadlock_refuted` (same lines). When the processes have different numbers of columns, they call MPI_Allreduce different numbers of times: the run hangs or mixes unrelated collective calls.
* F135 `c77_derivative_refuted` (TrapMutationReaction.tpp:73-83, 136-152). The flux of trap mutation depends through the attenuation on the trapped helium of all points near the surface; the
  matrix has the column of the helium cluster only.
* F136 `c78_alloy_lost_refuted` (AlloyFitFluxHandler.h:209-291). A cascade size for which the network has no cluster is skipped, on its own side only: with interstitials up to 20 and vacancy types
  up to 45, 12.4 % of the displaced atoms appear as vacancies without interstitials.
* F137 `c78_alloy_output_refuted` (AlloyFitFluxHandler.h:299-311). alloyFlux.dat is written with one value per grid point, from vectors with two values less: with the surface at one of the first two
  points the last ones are read behind the end.
* F138 `c78_alloy_view_refuted` (AlloyFitFluxHandler.h:317-329). The rows of the view are shortened by the surface position, the vectors are not: with a surface position above 3 values are written outside.
* F139 `c78_fe_balance_refuted` (FeFitFluxHandler.h:158-168). The rates add up to 1.49409e-5 vacancies and 1.49e-5 interstitials: vacancies accumulate without partner.
* F140 `c78_fe_dimension_refuted` (FeFitFluxHandler.h:50-57, 144-169). The check "not defined for more than 0D" looks at xGrid, which this handler never sets; the flux amplitude given by the user is not used.
* F141 `c78_zr_lost_refuted` (AlphaZrFitFluxHandler.h:86-91, 131-159). The share of the vacancy clusters above 18 which belongs to the basal type is taken off for all sizes up to 66 but given to basal
  clusters only up to their largest size.
* F142 `c78_zr_repeat_refuted` (AlphaZrFitFluxHandler.h:104-164; PetscSolver2DHandler.cpp:278, 1013, PetscSolver3DHandler.cpp:336, 1124). initializeFluxHandler extends the vectors and never clears
  them; in two and three dimensions it is called for each column of each residual, so the source grows with every evaluation; in 1D with every restart of the loop.
* F143 `c79_fuel_negative_refuted` (FuelFitFluxHandler.h:225-240). The fraction of free sites is not kept above zero: at large vacancy concentrations defects are removed, also interstitials which are not there.
* F144 `c79_fuel_jacobian_refuted` (FuelFitFluxHandler.h:225-240). The source depends on the concentrations of V and V2; the matrix has no entry for it, the handlers have no function for one.
* F145 `c79_fuel_file_refuted` (FuelFitFluxHandler.h:133, 167-174). pureDefectFactors has two entries and is written at V-1 for every line without Xe and I: a file with a V3 cluster writes behind it.
* F146 `c79_pulse_none_refuted`, `c79_pulse_late_refuted` (PulsedFitFluxHandler.h:126-131). The number of the cycle is computed as an int before the length is compared with zero; the default length is 0, and
  from the cycle 2^31 on the conversion is undefined.
* F147 `c79_pulse_read_refuted` (PulsedFitFluxHandler.h:71-82, 133-135). Without a grid the first value of an empty vector is read; with amplitude zero the indices are not set but read.
* F148 `c79_profile_refuted` (FuelFitFluxHandler.h:207-244, PulsedFitFluxHandler.h:121-141, AlloyFitFluxHandler.h:207, 341-361). Only the handlers which use FluxHandler::computeIncidentFlux look up the time
  profile. With fluxFile the amplitude of the others stays 0: no defects at all in fuel, pulsed and alloy runs, without a message; in zirconium the attenuation never changes.
* F149 `c80_zero_history_refuted` (PetscSolver0DHandler.cpp:277-282, 322-327, the same test in the other dimensions). The rates are updated only when the temperature moved by more than 0.1 K since the
  last update, at whatever trial time or solution that was: the right-hand side is not a function of time and solution, rejected steps change later results.
* F150 `c80_columns_refuted` (PetscSolver2DHandler.cpp:817-958, PetscSolver3DHandler.cpp:899-1062). There is one temperature per depth and process. The loop over the columns ends before the rates are used, so
  all columns react and diffuse at the temperature of the last one, although the heat equation is solved (and the gradient evaluated) per column.
* F151 `c80_columns_repeat_refuted` (same lines; 2D 1152-1277, 3D 1276-1418). With 1000, 1000.12 and 1000.16 K the first evaluation leaves 1000.16 K and the second 1000.12 K: the Jacobian has other rates than the
  right-hand side of the same solution.
* F152 `c80_depth_refuted`, `c80_surface_refuted` (PetscSolver1DHandler.cpp:928-939; PSIReactionNetwork.tpp:72-79). Entry i of the temperatures belongs to grid point localXS+i-1, entry i of the depths to
  the next one. The first depth above 0.01 therefore selects the temperature of grid point 0, in front of the surface.
* F153 `c80_outside_refuted` (PetscSolver2DHandler.cpp:944-957, PetscSolver3DHandler.cpp:1049-1062; PSIReactionNetwork.tpp:72-79). When all points of a process are in front of the surface no depth is above 0.01 and
  gridTemps is read behind its end.
* F154 `c81_across_refuted` (PetscSolver2DHandler.cpp:232-252, 1376-1395; PetscSolver3DHandler.cpp:285-308, 1526-1547). The coordinates of advection entries are announced with the position (x, 0, 0), the
  derivatives are computed at (x, y, z): at all points beyond a grain boundary across y or z the derivative with respect to the neighbour on one side is added to the entry of the neighbour on the other.
* F155 `c81_unequal_refuted` (PetscSolver2DHandler.cpp:253-257, PetscSolver3DHandler.cpp:309-313). As F32 in two and three dimensions: one coordinate is announced for each missing cluster of a handler, two values are
  left out; the later values reach wrong entries, the last ones positions behind the announced ones (and, beyond one missing cluster and point, behind the array).
* F156 `c82_tridyn_temperature_refuted`, `c82_tridyn_processes_refuted` (PetscMonitor1D.cpp:2112-2120, 2149). The temperatures are collected with the ghost point before the first one, but indexed without
  it: each row of the TRIDYN file has the temperature of the point before, on the first process (whose first point is left out) of the second point before. A different number of processes gives a different file.
* F157 `c82_tridyn_species_refuted` (PetscMonitor1D.cpp:2138-2149). Six atom totals are not a known list of quantities: with the six species of the Alloy network -tridyn throws. (If they were, the temperature
  would be stored behind the seven numbers of the row.)
* F158 `c82_thin_refuted` (ZrReactionNetwork.cpp:282-288, AlloyReactionNetwork.cpp:177-183). When the density of a species is at most 1e-16 the column of the mean diameter has twice the sum of the radii.
* F159 `c82_coupled_refuted` (XolotlInterface.cpp:573). The coupled run adds the values of the points with the factor 1, the run of a single network with the width of the cell: the reported densities of a slab differ by the
  width, and grow with the number of points.
* F160 `c82_series_refuted` (PetscMonitor1D.cpp:2334-2336, 2396). The size of the local grid is sent as one MPI_DOUBLE (from a variable of four bytes if the index type is 32 bits wide) and received as one MPI_INT: with more than one
  process the series plot ends with a truncation error.
* F161 `c82_negative_refuted` (PetscMonitor1D.cpp:2026-2033). -check_negative only moves values away from zero: negative concentrations stay, and those between minus the threshold and zero are made more negative.
* F162 `c83_first_refuted` (PetscMonitor2D.cpp:1231-1232, PetscMonitor3D.cpp:1317-1318, 1333-1334). A free-surface grain boundary in the first row (plane) of the box, where the grid is periodic, makes the monitor read at index 0 - 1,
  which for unsigned 32-bit indices (the default) is 4294967295 and not the ghost row -1; a boundary in the last row is served. The solver casts the index to PetscInt before it subtracts (PetscSolver2DHandler.cpp:1031).
* F163 `c83_twice_refuted`, `c83_init_refuted` (SolverHandler.cpp:725-733, PetscSolver2DHandler.cpp:654-662, PetscSolver3DHandler.cpp:725-733). As in one dimension: locations given twice count twice, and initial xenon at a boundary
  is in no reported number.
* F164 `c84_soret_refuted` (MaterialHandler.h:80-98, W110MaterialHandler.h:17-21, PetscSolver2DHandler.cpp, PetscSolver3DHandler.cpp). The process "soret" is accepted for every material and dimension but acts only for W100 in one dimension:
  W110, W111 and W211 have no handler for it, and the solvers of two and three dimensions never use it. Nothing is reported.
* F165 `c84_grain_refuted` (XGBAdvectionHandler.cpp:22-24, MaterialHandler.cpp:107-147). A grain boundary in the options of a run with iron, fuel, 800H or zirconium: the cast of the network to one of tungsten gives a null pointer, which is
  followed (the handler of the thermal diffusion tests it).
* F166 `c84_threshold_refuted` (DiffusionHandler.cpp:47, TungstenAdvectionHandler.cpp:51-53). The migration threshold keeps clusters from diffusing, but the same clusters still drift (and have thermal diffusion); with one of them at a grain boundary
  the initialisation of the mask throws (C33).
* F167 `c84_factors_refuted` (SoretDiffusionHandler.cpp:51-52, 89). The list of the clusters is cleared at the initialisation, that of the factors is not: initialised again with a network where other clusters diffuse, the clusters have
  the factors of others (with the same network the result is the same, c84_thermal_again).
* F168 `c85_zr_basal_refuted` (AlphaZrFitFluxHandler.h:86-91, 213-228). A coupled run of zirconium with basal pyramids: the sub-network of the vacancies has no basal limit, so it keeps the whole source of the clusters from 19 on, and the
  sub-network of the pyramids has its portion in addition. The transfer of the sources of the primary instance, which would correct this, replaces the vectors on the host but not the copies from which the source is computed.
* F169 `c85_alloy_group_refuted` (AlloyFitFluxHandler.h:373-384, 393-399). A coupled run of an alloy in which two sizes of the cascades are in one group of clusters ends with an exception: the transfer finds the group once, the sub-network has it twice.
* F170 `c85_alloy_line_refuted` (AlloyFitFluxHandler.h:401-410). A coupled run of an alloy in one dimension: the indices are put in the order of the network, the rates of all points but the first stay in the order of the cascades, so that
  clusters get the sources of others (a network of single sizes: the single interstitials, the largest source, get none).
* F171 `c85_moments_refuted` (MultiXolotl.cpp:203-205, 252-257, 270-276). The number of clusters is taken for the number of unknowns: the moments of the groups of the sub-networks are left out, and the rates (and data) of the whole network are
  computed as if every group were flat. In two and three dimensions only the first row of the box is looked at.
* F172 `c85_zr_sixth_refuted`, `c85_none_refuted` (AlphaZrSubOptions.cpp:26-37, FluxHandler.cpp:137-138, MultiXolotl.cpp:244). A network parameter of zirconium which is none of the three limits makes a sub-network without clusters, whose
  initialisation reads the first of no entries; an alloy without single vacancies and interstitials has no sub-network, and the first one is used.
* F173 `c86_unknown_refuted`, `c86_twice_refuted` (JSONOptions.cpp:113-299). A label which no statement asks for (`"dimension": 3` for `dimensions`) is ignored in a JSON file, and of a label given twice the first value counts; the older
  format throws in both cases.
* F174 `c86_convert_refuted`, `c86_list_refuted` (JSONOptions.cpp:52-63). A JSON value which cannot be converted is passed over and the default stays: `"dimensions": 2.0` runs in one dimension, `"useSubnetworks": "yes"` without sub-networks, a
  path with a blank is not used. A list for `grain`, `initialConc`, … gives an empty text.
* F175 `c86_pulse_refuted` (JSONOptions.cpp:256-264). `pulse` or `rng` as a list (as all other multiple values may be given) reads the first of no words.
* F176 `c86_bool_refuted` (ConfOptions.cpp:144-146, JSONOptions.cpp:192). `yes`, `on`, `no`, `off` and the empty text are values of the two yes/no options in the older format; in JSON they are passed over (`yes` means no).
* F177 `c87_interstitial_refuted`, `c87_perfect_refuted` (PSIReactionNetwork.tpp:358-387, NEReactionNetwork.cpp:56-79, FeReactionNetwork.cpp:56-79, AlloyReactionNetwork.cpp:57-81). The guard on the largest cluster does not count interstitials in
  tungsten, fuel and iron, nor perfect loops in alloys: they may reach the end of the network without the run being stopped.
* F178 `c87_tie_refuted` (the same lines). Of several clusters of the largest size (Frank and faulted loops of the same maximum) one is watched, the others are not.
* F179 `c88_ratio_refuted` (ReactionNetwork.tpp:1336-1468, PetscMonitor0D.cpp:590-655). In a fuel network of xenon alone (no vacancies) mean and variance of the ratio are 0/0 in each row.
* F180 `c88_marker_refuted`, `c88_interface_refuted` (PetscMonitor0D.cpp:173-228, ReactionNetwork.h:697-703). The line Reactions as first line uses a token which does not exist; the variance through the interface passes the minimum size for
  the mean and drops the mean (not called in the code).
* F181 `c89_off_refuted`, `c89_half_refuted` (PetscMonitor1D.cpp:404-462, 762-777, 2D and 3D alike). A restart without the option for retention forgets what has left through a free surface although it is in the file, and writes zeros to its own
  checkpoints; with a moving surface it forgets the right side and bursting.
* F182 `c89_moving_refuted` (PetscMonitor1D.cpp:227-260, 762-777, 2D and 3D alike). A moving surface at a left side which is not a free surface: the vectors of the surface have no entries and are read and written nevertheless.
* F183 `c90_width_refuted` (PetscMonitor1D.cpp:1888-1904 against 875). On a grid of unequal steps the gas released by a burst is booked with the mean of two cells, the content of the tables has the cell on the left of the point: amounts released and
  content do not add up.
* F184 `c90_unbooked_refuted` (PetscMonitor2D.cpp:1651-1654, PetscMonitor3D.cpp:1720-1723). In two and three dimensions a burst removes the gas and books nothing (the width is 0); the columns of the released amounts stay 0.
* F185 `c90_surface_refuted` (PetscMonitor1D.cpp:1766-1806, 2D and 3D alike). With a left side which is periodic or mirrored the first point has a negative depth, so that it bursts in every step.
* F186 `c91_grows_refuted` (ZrReactionNetwork.cpp:172-196). The capture radius of a basal loop for interstitials is 1.1 below the transition size and follows a law which gives less than 0.79 from this size on: the rate drops when a loop
  grows over the transition.
* F187 `c91_share_refuted` (AlloyReaction.tpp:78-95, AlloyReactionNetwork.tpp:86-119, 316-345). Meetings with two possible kinds of product have half of the rate each; when the network can hold only one of the kinds at this size, the other half
  is lost and the clusters meet at half of the rate.
* F188 `c92_integral_refuted` (PetscMonitor3D.cpp:1962-1985, 2087-2110). The plots over two of three directions show the sum of the concentrations along the third, without the step: with the same concentration everywhere, the value is the number of
  layers times it, and it changes with the resolution of the grid.
* F189 `c93_kept_refuted` (NEReactionNetwork.tpp:374-399, NEClusterGenerator.tpp:116-120). Xenon leaves a bubble only together with a vacancy and only if the rest has both: bubbles of any number of xenon atoms and one vacancy keep their gas under
  fission, and so do those of two xenon atoms with ten or more vacancies, whose rest is not in the network.
* F190 `c94_last_line_refuted` (CustomFitFluxHandler.h:246-250, 126-150). If the last line of the file of profiles has no end of line, the stream is not good after it, the loop's next std::getline leaves the line of sixteen coefficients in place, and the
  program takes it for a header and throws, although the file is complete.
* F191 `c94_blank_refuted` (CustomFitFluxHandler.h:126-150, 246-250). A blank line between two profiles ends the reading: the profiles behind it are ignored without a message.
* F192 `c94_missing_refuted`, `c94_zero_dimension_refuted`, `c94_blank_first_refuted` (CustomFitFluxHandler.h:107-118, 203-246, 288-290, FluxHandler.cpp:134-146). When the file cannot be opened the program says that the flux will be zero, then copies the first element of
  an empty vector to the device: undefined behaviour. The same happens on the empty grid of a run in no dimension and when the first line is blank.
* F193 `c95_network_refuted`, `c95_no_network_refuted`, `c95_same_missing_refuted` (PetscMonitor.cpp:180-220, PetscMonitor1D.cpp:675-686). The checkpoint of a restart gets the network of the file it started from, not that of the run: if the parameters of the network were changed
  the file describes other clusters than its concentrations. It gets none if that file has none, nor if the file named for both does not exist.
* F194 `c95_missing_refuted` (SolverHandler.cpp:718-722, PetscMonitor.cpp:192-199). A restart file which does not exist is no restart for the solver, which generates the grid and goes on; the monitor then opens it on the first process, which throws alone.
* F195 `c95_alias_refuted` (PetscMonitor1D.cpp:155-168, 671-684). The names of the two files are compared as strings: "./xolotlStop.h5" and "xolotlStop.h5" count as two files and the creation of the checkpoint fails because the file is open.
* F196 `c96_handed_refuted` (PetscMonitor1D.cpp:1215-1234, PetscMonitor2D.cpp:1107-1124, PetscMonitor3D.cpp:1180-1201, ReactionNetwork.tpp:761-784). The volume fraction of bubbles given to a coupled code (getLocalNE) is the sum of concentration times radius cubed: the factor
  4/3 of Pi, which getTotalVolumeFraction has, is missing, so that the fraction is 4.19 times too small.
* F197 `c96_groups` (ReactionNetwork.tpp:1548-1576). In grouped networks the volume is that of the mean radius, which is less than the mean volume: the fraction is too small as soon as a group with a positive concentration holds two radii.
* F198 `c97_level_refuted` (Log.cpp:98-101, 160-165, JSONOptions.cpp:113). The log is set up at the first message and, in builds with NDEBUG, then replaces the filter which logLevel has set before: information is printed even if only warnings or errors are asked for, and
  debugging messages never reach the log file.
* F199 `c97_file_refuted` (ConfOptions.cpp:42-45, 256, Log.cpp:124-127). With the old format the warning that it is deprecated sets up the log before logLevel is read: the other processes never write their log files, also when debug or extra is asked for; with JSON parameters they do.
* F200 `c99_across_refuted` (PetscMonitor2D.cpp:604-607, PetscMonitor3D.cpp:660-663, XFile.h:154-156). The monitors call writeGrid with the grid in depth only: in every file of a run in two or three dimensions ny, hy, nz and hz are 0, so that the places of the values cannot be read from it.
* F201 `c99_width_refuted` (PetscSolver2DHandler.cpp:30-50, PetscSolver3DHandler.cpp:30-50). As the file does not describe the width, a restart which asks for other steps in y or z takes the concentrations over as if they belonged to its own grid.
* F202 `c99_step_refuted` (XFile.cpp:456-460). The attribute hx is the first step of the grid, also when the steps differ. The data set grid has all positions.

## 4. Trusted base

* Coq 8.16.1's kernel (all files are compiled without switching off any check) and the reading of
  /repo by which the model was written; the code was never built or run.
* No axiom is declared in the development.  `Print Assumptions` stands under every theorem; what it
  lists is exactly the following (standard library only).
  * Closed under the global context (192 theorems): c01_range, c03_reflected_interval,
    c03_reflected_size, c03_reflected_two, c03_reflected_six, c03_projection,
    c05_microscopic_reactions, c12_reduced_is_diagonal, c12_dissociation_reduced_is_diagonal,
    c15_constructed, c15_history, c15_history_partial, c15_history_refuted, c16_moment_ids,
    c16_slot_maps, c16_shared_slot_refuted, c16_slots_inside, c18_psi, c18_zr, c18_zr_basal,
    c18_psi_clustering, c18_alloy_vacancy_loop, c18_alloy_perfect_faulted_refuted,
    c18_alloy_perfect_faulted_wrap_refuted, c18_alloy_interstitial_faulted_refuted,
    c18_alloy_interstitial_faulted_partial, c18_alloy_perfect_faulted_partial, c19_accept_partial,
    c19_accept_no_interstitial, c19_products, c19_trap_mutation, c19_accept_refuted,
    c19_accept_interstitial_product_refuted, c19_trap_mutation_gap_refuted,
    c27_x_one_dimension_refuted, c32_inside_partial, c32_unequal_handlers_refuted,
    c32_first_point_refuted, c32_announced, c32_room, c33_not_diffusing, c34_names, c36_last,
    c36_none, c36_contents_partial, c36_designates_partial, c36_crash_refuted,
    c36_wrong_group_refuted, c37_roundtrip, c37_any_readers, c37_empty_refuted, c39_table,
    c40_moment_order, c40_map, c40_injective, c40_partition, c40_back, c40_missing_refuted,
    c41_rows, c43_fields, c43_next, c43_end, c43_defined, c43_number, c43_plus, c43_blank_refuted,
    c43_indented_refuted, c43_number_refuted, c49_once_partial, c49_exactly_once,
    c49_robin_twice_refuted, c55_array, c55_temp_grid, c55_net_partial, c55_net_refuted,
    c55_grouping_partial, c55_grouping_refuted, c55_pulse_partial, c55_pulse_refuted,
    c55_boundaries_partial, c55_dropped_refuted, c55_coupling, c55_rng_partial, c55_rng_refuted,
    c55_initial_partial, c55_initial_refuted, c55_grain_partial, c55_grain_refuted,
    c55_same_as_array, c55_petsc_partial, c55_petsc_refuted, c56_partial, c56_string_refuted,
    c57_string, c57_list_partial, c57_list_refuted, c58_ne, c58_ne_no_loss_partial,
    c58_ne_no_loss_refuted, c58_fe, c58_fe_no_loss, c58_zr, c58_zr_no_loss, c58_alloy,
    c58_alloy_no_loss, c59_adapt, c59_endless_refuted, c59_alloy_default_refuted,
    c59_psi_covers_partial, c59_psi_covers_refuted, c59_psi_hydrogen_refuted, c59_psi_levels,
    c59_psi_levels_refuted, c59_gas, c59_zr, c59_alloy_partial, c59_alloy_no_interstitials,
    c59_alloy_void_refuted, c63_fe_emits, c64_ne, c64_zr, c64_alloy, c64_one_species, c67_position,
    c67_reactions, c67_connectivity, c67_table, c67_table_dissociation, c67_reduced_plain,
    c67_reduced_refuted, c71_first, c71_three, c71_later_refuted, c71_burst_refuted,
    c74_last_column, c74_matrix, c74_positions, c74_first, c74_moved_refuted, c74_grid,
    c74_no_step_refuted, c78_alloy_output_0d, c80_zero_vector, c81_network, c81_zero, c82_sizes,
    c82_scatter, c85_limits, c85_zr_options, c85_alloy_options, c85_transfer, c86_int, c86_case,
    c86_bool, c86_items, c87_largest, c87_interstitial_refuted, c87_perfect_refuted, c88_bubble,
    c89_names, c90_points, c90_flag, c90_owner, c91_compounds, c92_ends, c93_groups, c93_who,
    c93_once, c93_one, c93_kept_refuted, c94_missing_refuted, c95_fresh, c95_restart, c95_same,
    c95_later, c95_safe, c95_network_refuted, c95_no_network_refuted, c95_missing_refuted,
    c95_same_missing_refuted, c95_alias_refuted, c97_names, c97_json, c97_conf, c97_early,
    c97_errors, c97_level_refuted, c97_file_refuted, c98_written, c98_read, c98_which, c98_labels.
  * Assumes `sig_forall_dec` (29 theorems): c12_trap_mutation, c12_trap_mutation_reduced,
    c31_gathered, c31_after_growth_refuted, c35_epoch_refuted, c38_temperature_refuted, c67_defined,
    c73_continue, c73_any_number, c78_alloy_view, c80_zero_start, c82_full, c82_scatter_points,
    c85_none_refuted, c85_alloy_group_refuted, c85_zero, c85_moments_refuted, c89_restart1,
    c89_restart2, c89_restart3, c89_start, c89_moving_refuted, c89_off_refuted, c89_half_refuted,
    c90_sum, c99_depth, c99_uniform, c99_across_refuted, c99_width_refuted.
  * Assumes `functional_extensionality_dep` (4 theorems): c13_connectivity, c13_terminates,
    c14_reaction_storage, c14_terminates.
  * Assumes `functional_extensionality_dep`, `sig_forall_dec` (493 theorems): c01_first_order_sum,
    c01_second_order_sum, c01_second_order_offset_sum, c02_overlap_counts, c02_overlap_positive,
    c02_no_product_overlap_refuted, c02_overlap_of_reaction, c03_dispersion, c03_dispersion_many,
    c04_first_order, c04_second_order, c04_second_order_offset, c04_third_order,
    c04_mixed_second_order, c04_mixed_third_order, c05_coefficients, c05_flux_is_microscopic,
    c05_first_moment_flux_is_microscopic_partial, c05_conserved_partial, c05_conserved_first_axis,
    c05_conserved_ungrouped, c05_coefficients_refuted, c05_conserved_refuted, c06_jacobian,
    c07_coefficients, c07_flux_is_microscopic, c07_conserved, c07_jacobian, c08_production,
    c08_dissociation_partial, c08_dissociation_refuted, c09_conserved, c09_jacobian, c09_contained,
    c09_reduced_refuted, c10_conserved, c10_rate, c10_continuous, c10_jacobian, c10_reduced,
    c10_law, c11_conserved, c11_active_iff, c11_jacobian_partial, c11_reduced, c11_share,
    c11_jacobian_refuted, c11_fast, c12_nucleation, c12_nucleation_reduced, c12_sink,
    c12_production, c12_dissociation, c12_dissociation_reduced_refuted, c17_first_reactant_inside,
    c17_no_reactant_inside, c17_second_reactant_inside_partial, c17_dissociation_outside,
    c17_dissociation_inside_partial, c17_trap_mutation_partial, c17_second_reactant_inside_refuted,
    c17_both_reactants_inside_refuted, c17_dissociation_inside_refuted, c17_trap_mutation_refuted,
    c20_burst_partial, c20_vacancies_partial, c20_burst_ungrouped, c20_moment_refuted,
    c20_vacancy_group_refuted, c20_interstitial_group_refuted, c21_concentration, c21_radius,
    c21_atoms_partial, c21_atoms_defect, c21_trapped_partial, c21_getTotals,
    c21_trapped_agree_partial, c21_atoms_refuted, c21_cut_refuted, c21_trapped_refuted,
    c21_trapped_agree_refuted, c21_ratio_refuted, c21_variance_refuted, c21_ratio_partial,
    c21_variance_partial, c21_no_vacancies, c22_query_partial, c22_sum, c22_monotone, c22_capped,
    c22_saturated, c22_stepper, c22_terminates, c22_query_refuted, c22_cap_refuted,
    c22_unlimited_refuted, c23_once_partial, c23_constant_step, c23_time_written, c23_twice_refuted,
    c23_unlimited_refuted, c24_interpolates, c24_knot, c24_outside, c24_continuous, c24_monotone,
    c24_bounded, c24_custom_refuted, c25_total_partial, c25_total_norm, c25_recompute, c25_shape,
    c25_ends, c25_fluence, c25_missed_refuted, c25_negative_refuted, c26_jacobian_1d,
    c26_jacobian_2d, c26_jacobian_3d, c26_consistent_1d, c26_linear_constant, c26_square_constant,
    c26_consistent_2d, c26_consistent_3d, c27_surface, c27_grain_boundary_partial,
    c27_origin_side_partial, c27_far_side_refuted, c27_x_sink_refuted, c27_surface_flux,
    c27_sink_flux, c28_concentrations_partial, c28_temperatures, c28_vanishing_refuted,
    c28_temperatures_refuted, c29_interior_partial, c29_neighbours_partial, c29_diagonal,
    c29_diagonal_iff, c29_dimensions_refuted, c29_surface_refuted, c29_portion_refuted,
    c29_bulk_flux_refuted, c29_interface_refuted, c30_grow, c30_shrink, c30_history,
    c30_first_uniform, c30_first_nonuniform, c30_first_geometric, c30_first_read,
    c30_nonuniform_spacing, c30_geometric_spacing, c32_assembled_partial, c32_diffusion_row,
    c32_diffusion_excluded, c32_surface_row, c32_sink_row_partial, c33_no_sink, c33_shifted_1d,
    c33_shifted_2d, c33_shifted_3d, c33_intended_partial, c33_point_refuted,
    c33_last_column_refuted, c33_id_refuted, c33_wrong_cluster_refuted, c33_advection_grid_refuted,
    c35_value, c35_misuse, c35_since_reset, c35_os, c35_papi, c35_backwards_refuted, c38_entry,
    c38_restored, c38_close_partial, c38_stale_refuted, c39_monotone, c39_above, c39_defined,
    c39_ratio_above, c39_ratio_partial, c39_ratio_refuted, c39_wrap_refuted, c42_up, c42_retreat,
    c42_retreat_ends, c42_back_iff, c42_back_one_partial, c42_back_two_refuted, c42_trigger,
    c42_event_moves, c44_base, c44_recurrence, c44_at_one, c44_parity, c44_at_minus_one,
    c44_expansion, c45_window, c45_window_energy, c45_binding_symmetric, c46_left_side_partial,
    c46_self_reaction_refuted, c46_sink, c46_dissociation_partial, c46_dissociation_flux,
    c47_selected_iff, c47_every_depth_selected, c47_only_one_refuted, c48_diffusion,
    c48_diffusion_cells_partial, c48_surface_advection, c48_grain_boundary, c48_cells_refuted,
    c48_varying_coefficient_refuted, c48_grain_boundary_between_refuted, c48_position,
    c49_twice_refuted, c50_diffusion_partial, c50_constant, c50_surface_advection,
    c50_steep_refuted, c50_soret_refuted, c51_positive_partial, c51_hot_refuted, c51_room,
    c52_linear_partial, c52_behind, c52_bounds, c52_same_grid, c53_affine, c53_interpolates_partial,
    c53_nonnegative_partial, c53_same_place, c53_uniform_up, c53_uniform_back,
    c53_extrapolation_refuted, c53_near_refuted, c53_retreat_refuted, c53_elsewhere,
    c53_new_surface, c54_in_table_partial, c54_twelve_refuted, c58_psi, c58_psi_zero_axes,
    c58_psi_no_loss, c58_psi_groups, c60_psi, c60_psi_who, c60_psi_parameters,
    c60_psi_group_parameters, c60_group_partial, c60_group_refuted, c60_fe, c60_fe_parameters,
    c60_zr_who, c60_zr_partial, c62_formed, c62_helium_partial, c62_last_helium_refuted,
    c62_last_hydrogen_refuted, c62_vacancy_partial, c62_divacancy_refuted, c62_trap,
    c62_interstitials, c62_heliums, c62_helium_nine_refuted, c62_extrapolated_refuted,
    c62_boundary_refuted, c63_ne, c63_ne_small_refuted, c64_psi_ungrouped, c64_psi_interstitials,
    c64_psi_mixed_interstitials, c64_psi_vacancies, c64_psi_width, c64_psi_edge, c64_psi_bubble,
    c64_psi_minimum_refuted, c64_psi_top_refuted, c65_psi_who, c65_fe_who, c65_alloy_rate,
    c65_zr_who, c65_zr_nine_refuted, c65_ne_who, c67_flux, c67_jacobian, c67_mapped,
    c67_mapped_dissociation, c67_sub, c68_content, c68_surface, c68_bulk, c68_rate, c68_accumulated,
    c68_bulk_accumulated, c68_balance, c68_balance_constant, c68_gradient_refuted,
    c68_growing_cells_refuted, c69_closed, c69_reflecting_right, c69_reflecting_right_content,
    c69_first_point, c69_periodic, c69_reflecting_right_refuted, c69_reflecting_left_refuted,
    c69_periodic_refuted, c70_column, c70_concentrations, c70_event, c70_charge, c70_side,
    c70_first_rise_refuted, c70_rise_to_top_refuted, c70_early_refuted, c70_nothing_moves_refuted,
    c70_reset_refuted, c70_forever_refuted, c70_lost_refuted, c70_3d_refuted, c70_3d_only,
    c70_charge_3d_refuted, c70_side_refuted, c72_every_boundary, c72_restart, c72_schedule,
    c72_extra_refuted, c72_loop_refuted, c73_totals, c73_xenon_amount, c73_xenon_refuted,
    c74_round_trip, c74_temperature_refuted, c75_flux, c75_stencil, c75_balance, c75_accumulated,
    c75_local, c75_init, c75_twice_refuted, c75_init_refuted, c76_content, c76_accumulated,
    c76_bulk_accumulated, c76_rate, c76_step_refuted, c76_sides_refuted, c76_location_refuted,
    c77_entry, c78_alloy, c78_alloy_balance, c78_alloy_lost_refuted, c78_alloy_loops,
    c78_alloy_ends, c78_alloy_source, c78_alloy_view_refuted, c78_damage, c78_alloy_output,
    c78_alloy_output_refuted, c78_fe, c78_fe_balance_refuted, c78_fe_dimension_refuted, c78_zr,
    c78_zr_balance, c78_zr_lost_refuted, c78_zr_repeat_refuted, c79_fuel_range, c79_pulse,
    c79_pulse_none_refuted, c79_pulse_late_refuted, c79_profile, c80_zero, c80_zero_constant,
    c80_zero_history_refuted, c80_zero_restart, c80_line, c80_line_repeat, c80_gradient,
    c80_columns, c80_columns_still, c80_columns_refuted, c80_columns_repeat_refuted,
    c80_depth_refuted, c80_depth_last, c80_surface_refuted, c80_outside_refuted, c80_tables,
    c81_plane, c81_space, c81_handlers_partial, c81_once, c81_plane_values, c81_space_values,
    c81_pair, c81_across_refuted, c81_unequal_refuted, c82_zr, c82_alloy, c82_single, c82_diameter,
    c82_thin_refuted, c82_zero, c82_coupled, c82_coupled_refuted, c82_tridyn,
    c82_tridyn_temperature_refuted, c82_tridyn_processes_refuted, c82_tridyn_species_refuted,
    c82_profile, c82_negative, c82_negative_refuted, c82_series, c82_series_refuted, c83_flux,
    c83_stencil, c83_accumulated, c83_local, c83_content, c83_radius, c83_balance, c83_init,
    c83_init_refuted, c83_twice_refuted, c83_first_refuted, c84_drift, c84_thermal,
    c84_thermal_again, c84_run, c84_still, c84_missing, c84_dimension, c84_soret_refuted,
    c84_grain_refuted, c84_threshold_refuted, c84_factors_refuted, c85_zr_sixth_refuted, c85_zr,
    c85_zr_some, c85_zr_basal_refuted, c85_alloy, c85_alloy_line_refuted, c85_line, c86_json,
    c86_json_lists, c86_json_flags, c86_conf, c86_conf_lists, c86_conf_flags, c86_conf_accepts,
    c86_conf_throws, c86_agree, c86_accepted, c86_checks, c86_convert_refuted, c86_list_refuted,
    c86_unknown_refuted, c86_twice_refuted, c86_pulse_refuted, c86_bool_refuted, c87_fires,
    c87_loops, c87_threshold, c87_tie_refuted, c88_columns, c88_row, c88_width, c88_marker_refuted,
    c88_ratio_refuted, c88_interface_refuted, c90_depth, c90_scan, c90_scan3, c90_post, c90_balance,
    c90_width_refuted, c90_unbooked_refuted, c91_continuous, c92_surface, c92_xy, c92_xz,
    c92_integral_refuted, c94_reads, c94_ends, c94_source, c94_total, c94_last_line_refuted,
    c94_blank_refuted, c94_zero_dimension_refuted, c94_blank_first_refuted, c99_step_refuted.
  * Assumes `classic`, `functional_extensionality_dep`, `sig_forall_dec` (2 theorems):
    c12_production_reduced, c12_dissociation_reduced_partial.
  * Assumes `functional_extensionality_dep`, `sig_forall_dec`, `sig_not_dec` (61 theorems):
    c30_first_cheby_refuted, c30_cheby_partial, c34_statistics, c34_negative_refuted,
    c34_hardware_partial, c34_hardware_refuted, c45_law, c45_alloy_spheres, c45_ne_law,
    c45_positive, c45_proportional, c45_zero, c45_forward_psi, c45_hydrogen_refuted, c45_ne_balance,
    c45_ne_order_refuted, c60_alloy_parameters, c60_alloy_who, c60_alloy_partial, c60_alloy_refuted,
    c60_ne, c60_ne_immobile, c60_ne_small_refuted, c65_psi_rate, c65_alloy_who,
    c65_alloy_group_refuted, c65_ne_equilibrium, c65_ne_bias, c66_count, c66_clusters, c66_pair,
    c66_absent, c66_sink, c66_balance, c66_sink_level, c66_off_refuted, c66_coefficient_refuted,
    c66_required_refuted, c66_line_refuted, c66_twice_refuted, c66_mean_refuted, c77_residual,
    c77_jacobian_partial, c77_sides, c77_deadlock_refuted, c77_derivative_refuted,
    c78_no_attenuation, c79_fuel, c79_fuel_short, c79_fuel_file_refuted, c79_pulse_amount,
    c79_pulse_shape, c79_pulse_read_refuted, c79_options, c79_profile_refuted, c90_monotone,
    c93_law, c96_law, c96_smaller, c96_dimensions, c96_groups.
  * Assumes `classic`, `functional_extensionality_dep`, `sig_forall_dec`, `sig_not_dec` (89
    theorems): c45_alloy_law, c45_zr_spheres, c45_zr_law, c45_decreasing, c45_hotter,
    c45_balance_iff, c45_forward_alloy, c45_forward_zr_partial, c45_forward_zr_refuted,
    c45_psi_balance_partial, c45_cutoff_refuted, c45_ne_creation_refuted, c52_left_ghost_refuted,
    c60_psi_coefficient, c60_interstitials_slow, c60_fe_coefficient, c60_zr_parameters,
    c60_zr_mixed, c60_zr_refuted, c60_zr_coefficient, c60_alloy_mixed, c61_psi_law, c61_psi_grows,
    c61_psi_mixed, c61_psi_group, c61_fe_vacancies, c61_fe_helium, c61_fe_interstitial,
    c61_fe_group, c61_ne_law, c61_ne_point, c61_ne_vacancies_refuted, c61_ne_group,
    c61_alloy_volume, c61_alloy_group, c61_zr_grows, c61_zr_group_partial, c61_zr_group_refuted,
    c63_alloy, c63_alloy_grows, c63_alloy_pair_refuted, c63_alloy_formation_refuted, c63_zr_vacancy,
    c63_zr_vacancy_grows, c63_zr_vacancy_925_refuted, c63_zr_interstitial,
    c63_zr_interstitial_grows, c63_zr_basal, c63_zr_basal_grows, c63_zr_basal_nine_refuted,
    c63_fe_mixed, c63_fe_groups, c63_fe_trap, c63_fe_vacancy, c63_fe_helium_refuted,
    c63_fe_pair_refuted, c63_range, c63_other, c64_fe, c65_fe_strength, c65_fe_grows, c65_fe_rate,
    c65_fe_bias, c65_zr_rate, c77_jacobian_refuted, c78_attenuation, c79_fuel_sites,
    c79_fuel_negative_refuted, c79_fuel_jacobian_refuted, c90_more, c90_deeper, c90_none,
    c90_chance, c90_surface_refuted, c91_capture, c91_capture_large, c91_grows, c91_positive,
    c91_symmetric, c91_loop, c91_share, c91_spheres, c91_rings, c91_grows_refuted,
    c91_share_refuted, c93_stopping, c93_radius, c93_fission, c96_handed_refuted.
  (`sig_forall_dec` and `sig_not_dec` are ClassicalDedekindReals', the construction of the real
  numbers; `classic` is Classical_Prop's; `functional_extensionality_dep` FunctionalExtensionality's.)

* Modelled parts of the code (file: lines, as cited at the definitions):
  * `AlloyClusterGenerator.tpp`: 14-88, 92-163, 172-215, 222-234, 243-276, 286-331.
  * `AlloyFitFluxHandler.h`: 43-55, 83-123, 209-291, 341-350, 365-388, 390-411.
  * `AlloyNetworkHandler.cpp`: 20-46.
  * `AlloyReaction.tpp`: 14-60, 63-135, 137-190, 192-219.
  * `AlloyReactionNetwork.cpp`: 71-72, 121-206.
  * `AlloyReactionNetwork.tpp`: 17-645, 650-672.
  * `AlloySRIMData.h`: 22-28, 35-51, 54-70, 194, 234.
  * `AlloySubOptions.cpp`: 17-46.
  * `AlloyTraits.h`: 21-37, 68.
  * `AlphaZrFitFluxHandler.h`: 35-48, 50-69, 119-127, 131-143, 147-159, 174-181, 195-211.
  * `AlphaZrSubOptions.cpp`: 20-39.
  * `ClusterConnectivity.h`: 42-94.
  * `ClusterData.tpp`: 172-252.
  * `ConfOptions.cpp`: 35-45, 71-234, 253-254, 256, 258-341.
  * `ConstantHandler.h`: 49-53.
  * `ConstantReaction.h`: 133-177, 199-242, 355-393.
  * `ConstantReactionGenerator.tpp`: 45-69.
  * `Constants.h`: 19, 87-89, 92, 95-96, 106.
  * `CustomFitFluxHandler.h`: 50-71, 94-291, 296-381.
  * `Diffusion1DHandler.cpp`: 27-80, 104-125, 142-161.
  * `Diffusion2DHandler.cpp`: 26-86, 120-145, 160-182.
  * `Diffusion3DHandler.cpp`: 30-96, 132-162, 178-207.
  * `DiffusionHandler.cpp`: 31-58.
  * `DummyAdvectionHandler.h`: 37-48.
  * `FeClusterGenerator.tpp`: 12-102, 106-139, 148-176, 187-218, 227-266.
  * `FeFitFluxHandler.h`: 158-168.
  * `FeNetworkHandler.cpp`: 20-47.
  * `FeReaction.tpp`: 14-25, 60-147, 151-171, 173-187.
  * `FeReactionNetwork.cpp`: 70.
  * `FeReactionNetwork.tpp`: 17-167, 169-190.
  * `FeTraits.h`: 17-29, 60-66.
  * `FluxHandler.cpp`: 16-119, 121-146, 168-201, 203-270.
  * `FuelFitFluxHandler.h`: 160-175.
  * `GradientHandler.cpp`: 44-50.
  * `HDF5File.cpp`: 80-113.
  * `HDF5FileDataSet.h`: 154-172, 183-192, 288-292, 308, 317-322, 356-399, 449-600, 603-672.
  * `HDF5FileGroup.cpp`: 10-30.
  * `HeatEquationHandler.cpp`: 135-154, 500-525.
  * `IEventCounter.h`: 32.
  * `IHardwareCounter.h`: 51.
  * `ITimer.h`: 34.
  * `JSONOptions.cpp`: 18-50, 94-299.
  * `Log.cpp`: 23-30, 49-76, 91-151, 153, 160-165, 173-178.
  * `Log.h`: 25-32, 94-103.
  * `MaterialHandler.cpp`: 19-27, 50-150.
  * `MaterialHandler.h`: 80-98.
  * `MathUtils.h`: 24, 78-83, 98-122, 149-161, 169-179, 186-202, 209-226.
  * `MultiXolotl.cpp`: 73-139, 203-205, 218-236, 239-283, 285-389.
  * `NEClusterGenerator.tpp`: 14-79, 81-124, 160-194.
  * `NENetworkHandler.cpp`: 20-47.
  * `NEReaction.tpp`: 46-87, 101-229, 231-504, 506-678, 680-759, 778-825, 827-890, 892-979,
    981-1042, 1044-1064, 1075-1096, 1098-1127.
  * `NEReactionNetwork.cpp`: 70.
  * `NEReactionNetwork.tpp`: 16-328, 332-480, 485-502, 527-572.
  * `NETraits.h`: 28-40.
  * `NucleationReaction.tpp`: 31-42, 44-67, 69-87, 89-107, 109-128, 130-138.
  * `OSTimer.cpp`: 11-53.
  * `OSTimer.h`: 42, 74-77.
  * `Options.cpp`: 20-89, 201-232, 240-257, 259-269, 278-317, 324-334, 345-354, 371-395, 405-431,
    433-462, 464-483, 493-501, 503-514, 524-531.
  * `PAPITimer.cpp`: 20-54.
  * `PAPITimer.h`: 22.
  * `PSIClusterGenerator.h`: 13-35.
  * `PSIClusterGenerator.tpp`: 47-302, 304-484, 556-561, 706-718, 761-772, 798, 804, 809-834.
  * `PSINetworkHandler.cpp`: 26-121.
  * `PSIReaction.tpp`: 17-28, 75-122, 128-219, 224-238.
  * `PSIReactionNetwork.tpp`: 63-110, 112-135, 161-281, 301-318, 372-378, 417-702, 708-726.
  * `PSITraits.h`: 56-63, 81-86, 131-137, 150-155, 200-206, 219-224, 269-281.
  * `PSITrapMutation.h`: 15-137.
  * `PerfHandler.cpp`: 91-168, 170-200, 202-259, 261-354.
  * `PetscMonitor.cpp`: 158-178, 180-220, 222-318.
  * `PetscMonitor.h`: 96.
  * `PetscMonitor0D.cpp`: 73-87, 173-228, 238-240, 267-296, 314-332, 366-372, 455-508, 545-557.
  * `PetscMonitor1D.cpp`: 2, 143-153, 155-168, 227-260, 395-470, 646-692, 718-731, 762-777,
    815-1144, 1146-1375, 1377-1498, 1747-1822, 2026-2033, 2043-2163.
  * `PetscMonitor1D.h`: 22-56.
  * `PetscMonitor2D.cpp`: 3, 89-102, 164-196, 256-319, 491-513, 543-559, 566-683, 685-1036,
    1038-1288, 1365-1375, 1422, 1447, 1476-1494, 1499-1581, 1626-1655, 1733-1739, 1770-1782,
    1953-2012.
  * `PetscMonitor2D.h`: 23-46.
  * `PetscMonitor3D.cpp`: 119-132, 180-212, 272-334, 539-562, 592-610, 616-743, 745-1108, 1114-1392,
    1473-1486, 1555-1646, 1697-1723, 1865, 1948-1993, 2087-2089.
  * `PetscMonitor3D.h`: 22-44.
  * `PetscSolver.cpp`: 225-237, 239-272, 276-277, 339-411.
  * `PetscSolver.h`: 57-60.
  * `PetscSolver0DHandler.cpp`: 70-82, 91-169, 194-199, 264-282, 314-327, 331-337.
  * `PetscSolver1DHandler.cpp`: 29-48, 111-153, 218-236, 313-321, 368-383, 405-520, 586-641,
    664-675, 698-707, 727-743, 770-805, 811-940, 1005, 1066-1195, 1199-1234.
  * `PetscSolver2DHandler.cpp`: 3, 23-75, 138, 151-158, 179-182, 209-266, 281-412, 618-672, 817-958,
    960-1007, 1009, 1014-1015, 1031-1036, 1059-1068, 1074-1078, 1082, 1131-1135, 1152-1277,
    1283-1410, 1412.
  * `PetscSolver2DHandler.h`: 138.
  * `PetscSolver3DHandler.cpp`: 23-90, 166-167, 180-187, 209-212, 241-324, 425-455, 688-743,
    899-1062, 1065-1116, 1119-1120, 1126-1127, 1143-1152, 1178-1188, 1194-1208, 1252-1256,
    1276-1277, 1281-1401, 1405-1418, 1425-1565, 1567.
  * `PetscSolver3DHandler.h`: 138.
  * `PetscSolverHandler.cpp`: 57-109.
  * `PetscSolverHandler.h`: 34.
  * `ProfileHandler.cpp`: 62-94.
  * `PulsedFitFluxHandler.h`: 35-48.
  * `ReSolutionReaction.tpp`: 49-146, 148-196, 198-545, 547-718.
  * `ReSolutionReactionGenerator.tpp`: 44-70.
  * `Reaction.h`: 241-252.
  * `Reaction.tpp`: 68-76, 211-220, 222-480, 492-615, 617-681, 683-800, 802-1596, 1598-1811,
    1815-1833, 1835-1955, 1957-2204, 2276, 2280-2285, 2288-2303, 2311-2338, 2342-2358, 2360-2421,
    2423-2475, 2477-2868, 2985-2998, 3000-3043.
  * `ReactionGenerator.tpp`: 28-280.
  * `ReactionNetwork.h`: 259-265, 697-703.
  * `ReactionNetwork.tpp`: 66-78, 273-290, 334-356, 358-380, 413-439, 512-525, 645-1468, 1486-1490,
    1524-1528, 1548-1576, 1592-1601, 1648-1658, 1661-1672, 1676-1687.
  * `ReactionUtility.h`: 53-154, 165-225, 236-288, 316-332, 340-352, 375-392, 400-417, 425-445,
    453-475.
  * `SinkReaction.h`: 85-99, 101-126.
  * `SinkReaction.tpp`: 14-26.
  * `SolverHandler.cpp`: 57, 454-478, 703-733.
  * `SolverHandler.h`: 88, 331-363, 378-383.
  * `SoretDiffusionHandler.cpp`: 47-133, 158-180, 203-233.
  * `SpeciesEnumSequence.h`: 136-148.
  * `StreamTokenizer.h`: 36-59.
  * `SurfaceAdvectionHandler.cpp`: 30-108, 116-120, 136-158, 180-201.
  * `SurfaceAdvectionHandler.h`: 107-113, 120-125.
  * `Tokenizer.h`: 15-25, 44-54.
  * `TrapMutationClusterData.h`: 77-82.
  * `TrapMutationReaction.h`: 149-156, 158-179, 182-186.
  * `TrapMutationReaction.tpp`: 46-60, 73-91, 93-116, 118-134, 136-152, 154-167, 169-196.
  * `TungstenAdvectionHandler.cpp`: 18-74.
  * `W100AdvectionHandler.h`: 19-22.
  * `W100MaterialHandler.h`: 18-25.
  * `W110AdvectionHandler.h`: 19-22.
  * `W111AdvectionHandler.h`: 19-22.
  * `W211AdvectionHandler.h`: 19-22.
  * `XFile.cpp`: 48-59, 74-119, 121-127, 168-173, 194-200, 202-227, 239-264, 266-296, 319-336,
    338-360, 386-394, 428-443, 445-494, 515-853, 855-893, 940-968, 970-975, 992-1024.
  * `XFile.h`: 154-156.
  * `XGBAdvectionHandler.cpp`: 30-88, 109-113, 121-175, 190-231, 234-244.
  * `XGBAdvectionHandler.h`: 92-97.
  * `XolotlInterface.cpp`: 116-122, 200-203, 353-377, 442-473, 493-508, 539-578.
  * `YGBAdvectionHandler.cpp`: 109-113, 121-167, 180-214, 217-227.
  * `YGBAdvectionHandler.h`: 92-97.
  * `ZGBAdvectionHandler.cpp`: 10-92, 109-113, 122-169, 182-216, 219-229.
  * `ZGBAdvectionHandler.h`: 92-97.
  * `ZrClusterGenerator.tpp`: 12-101, 119-136, 145-163, 172-217.
  * `ZrNetworkHandler.cpp`: 20-67.
  * `ZrReaction.tpp`: 14-113, 115-190, 193-327.
  * `ZrReactionNetwork.cpp`: 73, 133-222, 224-312.
  * `ZrReactionNetwork.tpp`: 17-315, 320-337, 363-383.
  * `ZrTraits.h`: 25-37, 67, 154-161.
* Not modelled, hence trusted or out of scope: floating-point rounding, overflow and NaN; PETSc
  (DMDA layout, TS, matrix assembly beyond the list of inserted values), MPI and HDF5 internals
  (collectives and hyperslabs are taken at their documented meaning), Kokkos execution, views and
  weak memory beyond sequentially consistent atomics, memory management; boost::tokenizer,
  boost::property_tree/nlohmann JSON parsing, std streams (getline and integer extraction are modelled
  by their documented behaviour); boost::program_options; the plugin/factory layer; visualisation; the
  test drivers.  Messages between processes in the 1D profile transfer are not modelled.
